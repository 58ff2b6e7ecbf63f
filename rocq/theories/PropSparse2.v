(** C24-C26 for the sparse classes: bilinear forms, addToDiag, extraction; and
    where the sparse products of C22 fail. *)
From Verif Require Import Base Types Num Indexlist IndexlistProofs RSum Loops Utils PropUtils Matrices MatLib PropDense CsLib PropSparse.
Local Open Scope R_scope.

(** jd is the diagonal information of the compressed vectors: jd[j] is the
    position of the first entry of vector j with component at least j. *)
Definition diag_info (n : Z) (ptr idx jd : list Z) : Prop :=
  (n <= zlen jd)%Z /\ forall j, (0 <= j < n)%Z -> (zn 0 ptr j <= zn 0 jd j <= zn 0 ptr (j + 1))%Z /\
    (forall p, (zn 0 ptr j <= p < zn 0 jd j)%Z -> (zn 0 idx p < j)%Z) /\
    (forall p, (zn 0 jd j <= p < zn 0 ptr (j + 1))%Z -> (j <= zn 0 idx p)%Z).

Section Sparse2.
Variables eps zero infty : R.
Notation N := (RNumT eps zero infty).
Hypothesis zero_pos : 0 <= zero.

Lemma diagInfo_ok n m ptr idx (val : list R) jjd : wf_cs n m ptr idx val -> zlen jjd = n ->
  exists jd, diagInfo n ptr idx jjd = Ok jd /\ diag_info n ptr idx jd.
Proof.
  intros WF Hl. pose proof (cs_n _ _ _ _ _ WF) as Hn. unfold diagInfo.
  assert (W : wp (for_up 0 n (fun j jd => lo <- rd ptr j ;; hi <- rd ptr (j + 1) ;; i <- scan idx lo hi j ;; wr jd j i) jjd)
    (fun jd => zlen jd = n /\ forall j, (0 <= j < n)%Z -> (zn 0 ptr j <= zn 0 jd j <= zn 0 ptr (j + 1))%Z /\
    (forall p, (zn 0 ptr j <= p < zn 0 jd j)%Z -> (zn 0 idx p < j)%Z) /\
    (forall p, (zn 0 jd j <= p < zn 0 ptr (j + 1))%Z -> (j <= zn 0 idx p)%Z))).
  { apply wp_for_up with (I := fun k jd => zlen jd = n /\ forall j, (0 <= j < k)%Z -> (zn 0 ptr j <= zn 0 jd j <= zn 0 ptr (j + 1))%Z /\
    (forall p, (zn 0 ptr j <= p < zn 0 jd j)%Z -> (zn 0 idx p < j)%Z) /\
    (forall p, (zn 0 jd j <= p < zn 0 ptr (j + 1))%Z -> (j <= zn 0 idx p)%Z)); auto.
    - split; [assumption|]. intros; lia.
    - intros k jd Hk [L I]. rewrite !(rd_ptr _ _ _ _ _ WF) by lia. cbn [bind].
      destruct (scan_ok _ _ _ _ _ WF k k Hk) as (i & E & Hi & H1 & H2). rewrite E. cbn [bind]. rewrite wr_ok by lia. cbn [wp].
      split; [now rewrite zlen_zupd|]. intros j Hj. rewrite zn_zupd by lia. destruct (Z.eqb_spec j k) as [->|]; [auto|]. apply I. lia. }
  apply wp_inv in W as (jd & E & L & V). exists jd. split; [exact E|]. split; [lia|assumption].
Qed.

Theorem C25_sparse_createDiagInfo : forall A jjd, wf_sparse A -> s_jd A = None -> zlen jjd = s_nc A ->
  exists jd, s_createDiagInfo (N := N) A jjd = Ok (mkSparse (s_nr A) (s_nc A) (s_ir A) (s_jc A) (Some jd) (s_val A)) /\
    diag_info (s_nc A) (s_jc A) (s_ir A) jd.
Proof.
  intros A jjd WF J L. unfold s_createDiagInfo. rcar. rewrite J. destruct (diagInfo_ok _ _ _ _ _ jjd WF L) as (jd & E & D).
  exists jd. rewrite E. auto.
Qed.
Theorem C25_sprow_createDiagInfo : forall A jjd, wf_sprow A -> r_jd A = None -> zlen jjd = r_nr A ->
  exists jd, r_createDiagInfo (N := N) A jjd = Ok (mkSprow (r_nr A) (r_nc A) (r_jr A) (r_ic A) (Some jd) (r_val A)) /\
    diag_info (r_nr A) (r_jr A) (r_ic A) jd.
Proof.
  intros A jjd WF J L. unfold r_createDiagInfo. rcar. rewrite J. destruct (diagInfo_ok _ _ _ _ _ jjd WF L) as (jd & E & D).
  exists jd. rewrite E. auto.
Qed.

(** ** C25: addToDiag *)
Lemma ent_upd n m ptr idx (val : list R) j p a i r : wf_cs n m ptr idx val -> (0 <= j < n)%Z -> (zn 0 ptr j <= p < zn 0 ptr (j + 1))%Z ->
  (0 <= i < n)%Z ->
  ent ptr idx (zupd val p (zn 0 val p + a)) i r = ent ptr idx val i r + (if (i =? j)%Z && (r =? zn 0%Z idx p)%Z then a else 0).
Proof.
  intros WF Hj Hp Hi. destruct (pos_in _ _ _ _ _ WF j p Hj Hp) as (_ & _ & Hpv & _). unfold ent.
  destruct (Z.eqb_spec i j) as [->|Hne]; cbn [andb].
  - rewrite (Z.eqb_sym r). transitivity (rsum (zn 0%Z ptr j) (zn 0%Z ptr (j + 1)) (fun q => (if (zn 0%Z idx q =? r)%Z then zn 0 val q else 0) + (if (q =? p)%Z && (zn 0%Z idx p =? r)%Z then a else 0))).
    + apply rsum_ext. intros q Hq. destruct (pos_in _ _ _ _ _ WF j q Hj Hq) as (_ & _ & Hqv & _). rewrite zn_zupd by lia.
      destruct (Z.eqb_spec q p) as [->|]; cbn [andb]; [destruct (zn 0%Z idx p =? r)%Z; lra|]. lra.
    + unfold rsum at 1. rewrite lsum_plus. f_equal. fold (rsum (zn 0%Z ptr j) (zn 0%Z ptr (j + 1)) (fun q => if (q =? p)%Z && (zn 0%Z idx p =? r)%Z then a else 0)).
      rewrite (rsum_delta _ _ p); [now rewrite Z.eqb_refl|assumption|]. intros q Hq Hne. destruct (Z.eqb_spec q p); [contradiction|reflexivity].
  - rewrite Rplus_0_r. apply rsum_ext. intros q Hq. destruct (pos_in _ _ _ _ _ WF i q Hi Hq) as (_ & _ & Hqv & _).
    rewrite zn_zupd by lia. destruct (Z.eqb_spec q p) as [->|]; [|reflexivity]. exfalso.
    destruct (Z.lt_ge_cases i j) as [Lt|Ge].
    + pose proof (ptr_mono _ _ _ _ _ WF (i + 1) j ltac:(lia) ltac:(lia)). lia.
    + pose proof (ptr_mono _ _ _ _ _ WF (j + 1) i ltac:(lia) ltac:(lia)). lia.
Qed.

Lemma wf_upd n m ptr idx (val : list R) (val' : list R) : wf_cs n m ptr idx val -> zlen val' = zlen val -> wf_cs n m ptr idx val'.
Proof. intros [] L. split; auto. now rewrite L. Qed.

Lemma addDiag_ok n m nr nc ptr idx jd (val : list R) alpha : wf_cs n m ptr idx val -> diag_info n ptr idx jd ->
  (0 <= Z.min nr nc <= n)%Z -> (forall i, (0 <= i < Z.min nr nc)%Z -> stored ptr idx i i) -> (Rabs alpha <= zero -> alpha = 0) ->
  exists val', addDiag (N := N) nr nc idx (Some jd) val alpha = Ok (SUCCESSFUL_RETURN, val') /\ zlen val' = zlen val /\
    forall j r, (0 <= j < n)%Z -> ent ptr idx val' j r = ent ptr idx val j r + (if (j =? r)%Z && (j <? Z.min nr nc)%Z then alpha else 0).
Proof.
  intros WF [Lj D] Hmin St Ha. unfold addDiag. rnum. destruct (Rleb_spec (Rabs alpha) zero) as [L|L].
  { exists val. split; [reflexivity|]. split; [reflexivity|]. intros j r Hj. rewrite (Ha L). destruct (_ && _); lra. }
  match goal with |- context [bind ?mm _] => assert (W : wp mm (fun c => match c with
      | Next val' => zlen val' = zlen val /\ forall j r, (0 <= j < n)%Z -> ent ptr idx val' j r = ent ptr idx val j r + (if (j =? r)%Z && (j <? Z.min nr nc)%Z then alpha else 0)
      | Brk _ => False end)) end.
  { eapply wp_forb_up with (I := fun k val' => zlen val' = zlen val /\
       forall j r, (0 <= j < n)%Z -> ent ptr idx val' j r = ent ptr idx val j r + (if (j =? r)%Z && (j <? Z.min k (Z.min nr nc))%Z then alpha else 0)) (J := fun _ => False).
    - lia.
    - split; [reflexivity|]. intros j r Hj. destruct (Z.ltb_spec j (Z.min 0 (Z.min nr nc))); [lia|]. rewrite andb_false_r. lra.
    - intros k v Hk [Lv V]. destruct (D k ltac:(lia)) as (D1 & D2 & D3). destruct (St k Hk) as (p & Hp & Ep).
      assert (Epj : p = zn 0%Z jd k).
      { destruct (Z.lt_total p (zn 0%Z jd k)) as [Lt|[Lt|Lt]]; [|assumption|].
        - specialize (D2 p ltac:(lia)). lia.
        - specialize (D3 (zn 0%Z jd k) ltac:(lia)). pose proof (cs_srt _ _ _ _ _ WF k (zn 0%Z jd k) p ltac:(lia) ltac:(lia) ltac:(lia)). lia. }
      subst p. destruct (pos_in _ _ _ _ _ WF k (zn 0%Z jd k) ltac:(lia) Hp) as (_ & P1 & P2 & _).
      rewrite (rd_ok 0%Z) by lia. cbn [bind]. rewrite (rd_ok 0%Z) by lia. cbn [bind]. rewrite Ep, Z.eqb_refl. rcar.
      rewrite (rd_ok 0) by lia. cbn [bind]. rewrite wr_ok by lia. cbn [bind wp]. split; [now rewrite zlen_zupd|].
      intros j r Hj. rewrite (ent_upd n m ptr idx v k _ alpha j r) by (auto; try lia; now apply wf_upd with val). rewrite V by assumption. rewrite Ep.
      destruct (Z.eqb_spec j r) as [->|Hne], (Z.eqb_spec r k) as [->|Hne']; cbn [andb]; try rewrite Z.eqb_refl; cbn [andb].
      + destruct (Z.ltb_spec k (Z.min k (Z.min nr nc))); [lia|]. destruct (Z.ltb_spec k (Z.min (k + 1) (Z.min nr nc))); [lra|lia].
      + destruct (Z.ltb_spec r (Z.min k (Z.min nr nc))), (Z.ltb_spec r (Z.min (k + 1) (Z.min nr nc))); try lia; try lra.
      + destruct (Z.eqb_spec j k); [subst; contradiction|]. cbn. lra.
      + rewrite andb_false_r. lra.
    - intros v [Lv V]. split; [assumption|]. intros j r Hj. rewrite V by assumption. now rewrite Z.min_id.
    - intros b []. }
  apply wp_inv in W as (c & E & H). rcar. rewrite E. destruct c as [v|]; [|contradiction]. exists v. cbn [bind]. tauto.
Qed.

(** The diagonal is increased and nothing else, when every diagonal entry is stored. *)
Theorem C25_sparse : forall A jd alpha, wf_sparse A -> s_jd A = Some jd -> diag_info (s_nc A) (s_jc A) (s_ir A) jd ->
  (forall i, (0 <= i < s_nr A)%Z -> (0 <= i < s_nc A)%Z -> stored (s_jc A) (s_ir A) i i) -> (Rabs alpha <= zero -> alpha = 0) ->
  exists val, let A' := mkSparse (s_nr A) (s_nc A) (s_ir A) (s_jc A) (s_jd A) val in
    s_addToDiag (N := N) A alpha = Ok (SUCCESSFUL_RETURN, A') /\ wf_sparse A' /\
    forall i j, (0 <= i < s_nr A)%Z -> (0 <= j < s_nc A)%Z -> smat A' i j = smat A i j + (if (i =? j)%Z then alpha else 0).
Proof.
  intros A jd alpha WF J D St Ha.
  destruct (addDiag_ok _ _ (s_nr A) (s_nc A) _ _ jd _ alpha WF D) as (val & E & L & V); [destruct WF; lia|intros i Hi; apply St; lia|assumption|].
  exists val. cbv zeta. split; [unfold s_addToDiag; rcar; rewrite J; rewrite E; reflexivity|].
  split; [now apply wf_upd with (s_val A)|]. intros i j Hi Hj. unfold smat. cbn [s_jc s_ir s_val]. rewrite V by assumption. rewrite (Z.eqb_sym i).
  destruct (Z.eqb_spec j i) as [->|]; cbn [andb]; [|reflexivity]. destruct (Z.ltb_spec i (Z.min (s_nr A) (s_nc A))); [reflexivity|lia].
Qed.
Theorem C25_sprow : forall A jd alpha, wf_sprow A -> r_jd A = Some jd -> diag_info (r_nr A) (r_jr A) (r_ic A) jd ->
  (forall i, (0 <= i < r_nr A)%Z -> (0 <= i < r_nc A)%Z -> stored (r_jr A) (r_ic A) i i) -> (Rabs alpha <= zero -> alpha = 0) ->
  exists val, let A' := mkSprow (r_nr A) (r_nc A) (r_jr A) (r_ic A) (r_jd A) val in
    r_addToDiag (N := N) A alpha = Ok (SUCCESSFUL_RETURN, A') /\ wf_sprow A' /\
    forall i j, (0 <= i < r_nr A)%Z -> (0 <= j < r_nc A)%Z -> rmat A' i j = rmat A i j + (if (i =? j)%Z then alpha else 0).
Proof.
  intros A jd alpha WF J D St Ha.
  destruct (addDiag_ok _ _ (r_nr A) (r_nc A) _ _ jd _ alpha WF D) as (val & E & L & V); [destruct WF; lia|intros i Hi; apply St; lia|assumption|].
  exists val. cbv zeta. split; [unfold r_addToDiag; rcar; rewrite J; rewrite E; reflexivity|].
  split; [now apply wf_upd with (r_val A)|]. intros i j Hi Hj. unfold rmat. cbn [r_jr r_ic r_val]. rewrite V by assumption.
  destruct (Z.eqb_spec i j) as [->|]; cbn [andb]; [|reflexivity]. destruct (Z.ltb_spec j (Z.min (r_nr A) (r_nc A))); [reflexivity|lia].
Qed.

(** ** C26: extraction *)

(** writing f at the positions of an index list, in sorted order *)
Lemma filled_sorted s l (body : Z -> list R -> res (list R)) f (out : list R) : il_rep s l -> (zlen l <= zlen out)%Z ->
  (forall p o, (0 <= p < zlen l)%Z -> zlen o = zlen out -> body p o = Ok (zupd o p (f p))) ->
  forall k o, (0 <= k <= zlen l)%Z -> zlen o = zlen out ->
  (forall c, (0 <= c < k)%Z -> zn 0 o (zn 0%Z (il_iSort s) c) = f (zn 0%Z (il_iSort s) c)) -> (forall q, (zlen l <= q)%Z -> zn 0 o q = zn 0 out q) ->
  exists o', for_up k (zlen l) (fun k o => p <- rd (il_iSort s) k ;; body p o) o = Ok o' /\ filled (zlen l) out o' f.
Proof.
  intros Rp Hl Hb k o Hk Lo H1 H2.
  assert (W : wp (for_up k (zlen l) (fun k o => p <- rd (il_iSort s) k ;; body p o) o) (fun o' => zlen o' = zlen out /\
    (forall c, (0 <= c < zlen l)%Z -> zn 0 o' (zn 0%Z (il_iSort s) c) = f (zn 0%Z (il_iSort s) c)) /\ (forall q, (zlen l <= q)%Z -> zn 0 o' q = zn 0 out q))).
  { apply wp_for_up with (I := fun k o' => zlen o' = zlen out /\
    (forall c, (0 <= c < k)%Z -> zn 0 o' (zn 0%Z (il_iSort s) c) = f (zn 0%Z (il_iSort s) c)) /\ (forall q, (zlen l <= q)%Z -> zn 0 o' q = zn 0 out q)); auto; [lia|].
    intros i o1 Hi (I1 & I2 & I3). rewrite (rd_iSort s l) by (auto; lia). cbn [bind]. pose proof (rep_rng _ _ Rp i ltac:(lia)) as Hr.
    rewrite Hb by auto. cbn [wp]. split; [now rewrite zlen_zupd|]. split.
    - intros c Hc. pose proof (rep_rng _ _ Rp c ltac:(lia)). rewrite zn_zupd by lia. destruct (Z.eqb_spec (zn 0%Z (il_iSort s) c) (zn 0%Z (il_iSort s) i)) as [->|Hne]; [reflexivity|].
      apply I2. destruct (Z.eq_dec c i) as [->|]; [contradiction|lia].
    - intros q Hq. rewrite zn_zupd by lia. destruct (Z.eqb_spec q (zn 0%Z (il_iSort s) i)); [lia|auto]. }
  apply wp_inv in W as (o' & E & I1 & I2 & I3). exists o'. split; [exact E|]. split; [assumption|]. intros q Hq.
  destruct (Z.ltb_spec q (zlen l)) as [Lq|Lq]; [|auto]. destruct (rep_sur _ _ Rp q ltac:(lia)) as (c & Hc & <-). auto.
Qed.

(** entry by entry, by scanning every vector *)
Lemma scan_get n m ptr idx (val : list R) c s l alpha (out : list R) : wf_cs n m ptr idx val -> il_rep s l -> idx_in l n -> (zlen l <= zlen out)%Z -> regular zero alpha ->
  exists o', for_up 0 (il_length s) (fun k o => p <- rd (il_iSort s) k ;; j <- rd (il_number s) p ;;
      e <- entry_at (N := N) ptr idx val j c ;; wr o p (opt_scaled (N := N) alpha e)) out = Ok o' /\
    filled (zlen l) out o' (fun i => alpha * ent ptr idx val (zn 0%Z l i) c).
Proof.
  intros WF Rp Il Hl Ra. rewrite (rep_len _ _ Rp). pose proof (zlen_nonneg l).
  apply (filled_sorted s l (fun p o => j <- rd (il_number s) p ;; e <- entry_at (N := N) ptr idx val j c ;; wr o p (opt_scaled (N := N) alpha e))); auto; try lia.
  intros p o Hp Lo. rewrite (rd_number s l) by assumption. cbn [bind]. rcar.
  destruct (entry_at_ok _ _ _ _ _ WF (zn 0%Z l p) c (Il p Hp)) as [E|[E Z0]].
  - change (entry_at (N := N) ptr idx val (zn 0%Z l p) c = Ok (Some (ent ptr idx val (zn 0%Z l p) c))) in E. rewrite E. cbn [bind opt_scaled].
    rewrite wr_ok by lia. now rewrite scaled_snap, snapA_regular.
  - change (entry_at (N := N) ptr idx val (zn 0%Z l p) c = Ok None) in E. rewrite E. cbn [bind opt_scaled].
    rewrite wr_ok by lia. rnum. rewrite Z0. do 2 f_equal. lra.
Qed.

(** by merging a vector with the sorted list *)
Lemma merge_get_ok n m ptr idx (val : list R) c s l alpha (out : list R) : wf_cs n m ptr idx val -> il_rep s l -> (0 <= c < n)%Z -> (zlen l <= zlen out)%Z -> regular zero alpha ->
  exists o', merge_get (N := N) ptr idx val c s alpha out = Ok o' /\
    filled (zlen l) out o' (fun i => alpha * ent ptr idx val c (zn 0%Z l i)).
Proof.
  intros WF Rp Hc Hl Ra. unfold merge_get. rewrite !(rd_ptr _ _ _ _ _ WF) by lia. cbn [bind]. rcar.
  set (f i := alpha * ent ptr idx val c (zn 0%Z l i)).
  pose proof (cs_mono _ _ _ _ _ WF c Hc) as Hm.
  assert (STEP : forall k o v, (0 <= k < zlen l)%Z -> v = f (zn 0%Z (il_iSort s) k) -> 
     zlen o = zlen out /\ (forall j, (0 <= j < k)%Z -> zn 0 o (zn 0%Z (il_iSort s) j) = f (zn 0%Z (il_iSort s) j)) /\ (forall q, (zlen l <= q)%Z -> zn 0 o q = zn 0 out q) ->
     wp (wr o (zn 0%Z (il_iSort s) k) v) (fun o => zlen o = zlen out /\ (forall j, (0 <= j < k + 1)%Z -> zn 0 o (zn 0%Z (il_iSort s) j) = f (zn 0%Z (il_iSort s) j)) /\ (forall q, (zlen l <= q)%Z -> zn 0 o q = zn 0 out q))).
  { intros k o v Hk -> (I1 & I2 & I3). pose proof (rep_rng _ _ Rp k ltac:(lia)) as Hr. rewrite wr_ok by lia. cbn [wp]. split; [now rewrite zlen_zupd|]. split.
    - intros j Hj. pose proof (rep_rng _ _ Rp j ltac:(lia)). rewrite zn_zupd by lia. destruct (Z.eqb_spec (zn 0%Z (il_iSort s) j) (zn 0%Z (il_iSort s) k)) as [->|Hne]; [reflexivity|].
      apply I2. destruct (Z.eq_dec j k) as [->|]; [contradiction|lia].
    - intros q Hq. rewrite zn_zupd by lia. destruct (Z.eqb_spec q (zn 0%Z (il_iSort s) k)); [lia|auto]. }
  assert (ABS : forall i k, (zn 0 ptr c <= i <= zn 0 ptr (c + 1))%Z -> (0 <= k < zlen l)%Z ->
     (forall p, (zn 0 ptr c <= p < i)%Z -> (zn 0 idx p < zn 0 l (zn 0%Z (il_iSort s) k))%Z) ->
     (i = zn 0 ptr (c + 1) \/ (zn 0 l (zn 0%Z (il_iSort s) k) < zn 0 idx i)%Z)%Z -> f (zn 0%Z (il_iSort s) k) = 0).
  { intros i k Hi Hk B1 B2. unfold f. rewrite (ent_absent _ _ _ c); [lra|]. intros p Hp Ep. destruct (Z.lt_ge_cases p i) as [Lt|Ge]; [specialize (B1 p ltac:(lia)); lia|].
    destruct B2 as [B2|B2]; [lia|]. destruct (Z.eq_dec p i) as [->|]; [lia|]. pose proof (cs_srt _ _ _ _ _ WF c i p Hc ltac:(lia) ltac:(lia)). lia. }

  match goal with |- context [bind ?mm _] => assert (W' : wp mm (fun r => let '(i, k, o) := r in (fun i k o => (0 <= k <= zlen l)%Z /\ zlen o = zlen out /\
      (forall j, (0 <= j < k)%Z -> zn 0 o (zn 0%Z (il_iSort s) j) = f (zn 0%Z (il_iSort s) j)) /\ (forall q, (zlen l <= q)%Z -> zn 0 o q = zn 0 out q) /\
        forall j, (k <= j < zlen l)%Z -> f (zn 0%Z (il_iSort s) j) = 0) i k o)) end.
  { apply (merge_ok _ _ _ _ _ WF (fun _ k o => zlen o = zlen out /\ (forall j, (0 <= j < k)%Z -> zn 0 o (zn 0%Z (il_iSort s) j) = f (zn 0%Z (il_iSort s) j)) /\ (forall q, (zlen l <= q)%Z -> zn 0 o q = zn 0 out q)) c _ s l); auto; [lia|..].
    - split; [reflexivity|]. split; [intros; lia|auto].
    - intros i k o Hi Hk [B1 B2] I E. pose proof (rep_rng _ _ Rp k Hk). rewrite (rd_val _ _ _ _ _ WF c) by assumption. cbn [bind]. apply STEP; auto.
      rewrite scaled_snap, snapA_regular by assumption. unfold f. f_equal. rewrite <- E. symmetry. now apply (ent_stored _ _ _ _ _ WF).
    - intros i k o Hi Hk [B1 B2] I E. apply STEP; auto. rnum. symmetry. apply (ABS i k); auto; [lia|]. intros p Hp. apply (B1 p k); lia.
    - intros i k o Hi Hk [B1 B2] (I1 & I2 & I3) E. split; [assumption|]. split; [assumption|]. split; [assumption|]. split; [assumption|].
      intros j Hj. destruct E as [E|E]; [|lia]. apply (ABS i j); auto; try lia. }
  apply wp_inv in W' as ([[i k] o] & E & Hk & I1 & I2 & I3 & I4). rewrite E. cbn [bind]. rewrite (rep_len _ _ Rp). 
  assert (Q : exists o', for_up k (zlen l) (fun j o => p <- rd (il_iSort s) j ;; wr o p 0) o = Ok o' /\ filled (zlen l) out o' f); [|exact Q].
  assert (W : wp (for_up k (zlen l) (fun k o => p <- rd (il_iSort s) k ;; wr o p 0) o) (fun o' => zlen o' = zlen out /\
    (forall c, (0 <= c < zlen l)%Z -> zn 0 o' (zn 0%Z (il_iSort s) c) = f (zn 0%Z (il_iSort s) c)) /\ (forall q, (zlen l <= q)%Z -> zn 0 o' q = zn 0 out q))).
  { apply wp_for_up with (I := fun k o => zlen o = zlen out /\ (forall j, (0 <= j < k)%Z -> zn 0 o (zn 0%Z (il_iSort s) j) = f (zn 0%Z (il_iSort s) j)) /\ (forall q, (zlen l <= q)%Z -> zn 0 o q = zn 0 out q)); auto; [lia|].
    intros j o1 Hj II. rewrite (rd_iSort s l) by (auto; lia). cbn [bind]. apply STEP; auto; [lia|]. symmetry. apply I4. lia. }
  apply wp_inv in W as (o' & E' & J1 & J2 & J3). exists o'. split; [exact E'|]. split; [assumption|]. intros q Hq.
  destruct (Z.ltb_spec q (zlen l)) as [Lq|Lq]; [|auto]. destruct (rep_sur _ _ Rp q ltac:(lia)) as (j & Hj & <-). auto.
Qed.

Theorem C26_sparse_getRow : forall A r icols lc alpha (row : list R), wf_sparse A -> (0 <= r < s_nr A)%Z ->
  cols_rep icols (s_nc A) lc -> (icols = None -> alpha = 1) -> (zlen lc <= zlen row)%Z -> regular zero alpha ->
  exists row', s_getRow (N := N) A r icols alpha row = Ok row' /\ filled (zlen lc) row row' (fun i => alpha * smat A r (zn 0%Z lc i)).
Proof.
  intros A r icols lc alpha row WF Hr Rc Ha Hl Ra. destruct icols as [ic|]; cbn [cols_rep s_getRow] in *.
  - destruct Rc as [Rc Ic]. now apply (scan_get (s_nc A) (s_nr A)).
  - specialize (Ha eq_refl). subst alpha. rnum. replace (1 - 1) with 0 by lra. rewrite Rabs_R0. destruct (Rleb_spec 0 zero); [|lra].
    subst lc. rewrite zlen_zseq in *. pose proof (cs_n _ _ _ _ _ WF). rewrite Z.max_r, Z.sub_0_r in * by lia.
    apply filled_loop; [lia|]. intros j o Hj Lo. rcar. rewrite zn_zseq by lia. rewrite Z.add_0_l. unfold smat.
    destruct (entry_at_ok _ _ _ _ _ WF j r Hj) as [E|[E Z0]].
    + change (entry_at (N := N) (s_jc A) (s_ir A) (s_val A) j r = Ok (Some (ent (s_jc A) (s_ir A) (s_val A) j r))) in E. rewrite E. cbn [bind opt_scaled].
      rewrite wr_ok by lia. now rewrite scaled_snap, snapA_regular.
    + change (entry_at (N := N) (s_jc A) (s_ir A) (s_val A) j r = Ok None) in E. rewrite E. cbn [bind opt_scaled].
      rewrite wr_ok by lia. rnum. rewrite Z0. do 2 f_equal. lra.
Qed.
Theorem C26_sparse_getCol : forall A c irows lr alpha (col : list R), wf_sparse A -> (0 <= c < s_nc A)%Z ->
  il_rep irows lr -> (zlen lr <= zlen col)%Z -> regular zero alpha ->
  exists col', s_getCol (N := N) A c irows alpha col = Ok col' /\ filled (zlen lr) col col' (fun i => alpha * smat A (zn 0%Z lr i) c).
Proof. intros A c irows lr alpha col WF Hc Rr Hl Ra. now apply (merge_get_ok (s_nc A) (s_nr A)). Qed.

Theorem C26_sprow_getRow : forall A r icols lc alpha (row : list R), wf_sprow A -> (0 <= r < r_nr A)%Z ->
  cols_rep icols (r_nc A) lc -> (zlen lc <= zlen row)%Z -> regular zero alpha ->
  exists row', r_getRow (N := N) A r icols alpha row = Ok row' /\ filled (zlen lc) row row' (fun i => alpha * rmat A r (zn 0%Z lc i)).
Proof.
  intros A r icols lc alpha row WF Hr Rc Hl Ra. destruct icols as [ic|]; cbn [cols_rep r_getRow] in *.
  - destruct Rc as [Rc Ic]. now apply (merge_get_ok (r_nr A) (r_nc A)).
  - pose proof (cs_m _ _ _ _ _ WF) as Hm. subst lc. rewrite zlen_zseq in *. rewrite Z.max_r, Z.sub_0_r in * by lia.
    destruct (filled_loop (r_nc A) (fun i o => wr o i 0) (fun _ => 0) row) as (o1 & E1 & L1 & V1); [lia|intros; apply wr_ok; lia|]. rcar.
    match goal with |- context [bind ?mm _] => replace mm with (Ok o1) by (symmetry; exact E1) end. cbn [bind].
    rewrite (each_entry_eq _ _ _ _ _ WF) by assumption. pose proof (cs_mono _ _ _ _ _ WF r Hr) as Hmo.
    match goal with |- exists row', ?mm = _ /\ _ => assert (W : wp mm (fun o => zlen o = zlen row /\
      (forall q, (r_nc A <= q)%Z -> zn 0 o q = zn 0 row q) /\ forall q, (0 <= q < r_nc A)%Z -> zn 0 o q = alpha * rsum (zn 0%Z (r_jr A) r) (zn 0%Z (r_jr A) (r + 1)) (fun p => if (zn 0%Z (r_ic A) p =? q)%Z then zn 0 (r_val A) p else 0))) end.
    { apply wp_for_up with (I := fun k o => zlen o = zlen row /\
        (forall q, (r_nc A <= q)%Z -> zn 0 o q = zn 0 row q) /\ forall q, (0 <= q < r_nc A)%Z -> zn 0 o q = alpha * rsum (zn 0%Z (r_jr A) r) k (fun p => if (zn 0%Z (r_ic A) p =? q)%Z then zn 0 (r_val A) p else 0)); auto.
      - split; [lia|]. split; intros q Hq; rewrite V1 by lia; [destruct (Z.ltb_spec q (r_nc A)); [lia|reflexivity]|].
        destruct (Z.ltb_spec q (r_nc A)); [|lia]. rewrite rsum_empty by lia. lra.
      - intros k o Hk (I1 & I2 & I3). destruct (pos_in _ _ _ _ _ WF r k Hr Hk) as (_ & _ & _ & Hc).
        rewrite (rd_idx _ _ _ _ _ WF r) by assumption. cbn [bind]. rewrite (rd_val _ _ _ _ _ WF r) by assumption. cbn [bind]. rewrite wr_ok by lia. cbn [wp].
        split; [now rewrite zlen_zupd|]. split; intros q Hq; rewrite zn_zupd by lia.
        + destruct (Z.eqb_spec q (zn 0%Z (r_ic A) k)); [lia|auto].
        + rewrite rsum_last by lia. rewrite (Z.eqb_sym (zn 0%Z (r_ic A) k)). destruct (Z.eqb_spec q (zn 0%Z (r_ic A) k)) as [->|].
          * rewrite rsum_0. { rewrite scaled_snap, snapA_regular by assumption. lra. }
            intros p Hp. destruct (Z.eqb_spec (zn 0%Z (r_ic A) p) (zn 0%Z (r_ic A) k)) as [E|]; [|reflexivity].
            apply (idx_inj _ _ _ _ _ WF r) in E; auto; lia.
          * rewrite I3 by assumption. lra. }
    apply wp_inv in W as (o & E & I1 & I2 & I3). exists o. split; [exact E|]. split; [assumption|]. intros q Hq.
    destruct (Z.ltb_spec q (r_nc A)); [|apply I2; lia]. rewrite I3 by lia. rewrite zn_zseq by lia. reflexivity.
Qed.
Theorem C26_sprow_getCol : forall A c irows lr alpha (col : list R), wf_sprow A ->
  il_rep irows lr -> idx_in lr (r_nr A) -> (zlen lr <= zlen col)%Z -> regular zero alpha ->
  exists col', r_getCol (N := N) A c (Some irows) alpha col = Ok col' /\ filled (zlen lr) col col' (fun i => alpha * rmat A (zn 0%Z lr i) c).
Proof. intros A c irows lr alpha col WF Rr Ir Hl Ra. now apply (scan_get (r_nr A) (r_nc A)). Qed.

(** diagonal entries *)
Lemma diag_ok n m ptr idx (val : list R) jd i : wf_cs n m ptr idx val -> diag_info n ptr idx jd -> (0 <= i < n)%Z ->
  (entry <- rd jd i ;; hi <- rd ptr (i + 1) ;;
   if (entry <? hi)%Z then r <- rd idx entry ;; if (r =? i)%Z then rd val entry else Ok 0 else Ok 0) = Ok (ent ptr idx val i i).
Proof.
  intros WF [L D] Hi. destruct (D i Hi) as (D1 & D2 & D3). rewrite (rd_ok 0%Z) by lia. cbn [bind]. rewrite (rd_ptr _ _ _ _ _ WF) by lia. cbn [bind].
  assert (AB : (zn 0 jd i = zn 0 ptr (i + 1) \/ zn 0 idx (zn 0%Z jd i) <> i)%Z -> ent ptr idx val i i = 0).
  { intros C. apply ent_absent. intros p Hp Ep. destruct (Z.lt_ge_cases p (zn 0%Z jd i)) as [Lt|Ge]; [specialize (D2 p ltac:(lia)); lia|].
    destruct C as [C|C]; [lia|]. specialize (D3 (zn 0%Z jd i) ltac:(lia)). destruct (Z.eq_dec p (zn 0%Z jd i)) as [->|]; [contradiction|].
    pose proof (cs_srt _ _ _ _ _ WF i (zn 0%Z jd i) p Hi ltac:(lia) ltac:(lia)). lia. }
  destruct (Z.ltb_spec (zn 0%Z jd i) (zn 0%Z ptr (i + 1))) as [Lt|Ge]; [|rewrite AB by lia; reflexivity].
  rewrite (rd_idx _ _ _ _ _ WF i) by lia. cbn [bind]. destruct (Z.eqb_spec (zn 0%Z idx (zn 0%Z jd i)) i) as [E|NE]; [|rewrite AB by auto; reflexivity].
  rewrite (rd_val _ _ _ _ _ WF i) by lia. f_equal. rewrite <- (ent_stored _ _ _ _ _ WF i (zn 0%Z jd i)) by lia. now rewrite E.
Qed.
Theorem C26_sparse_diag : forall A jd i, wf_sparse A -> s_jd A = Some jd -> diag_info (s_nc A) (s_jc A) (s_ir A) jd -> (0 <= i < s_nc A)%Z ->
  s_diag (N := N) A i = Ok (smat A i i).
Proof. intros A jd i WF J D Hi. unfold s_diag. rcar. rewrite J. rnum. now apply (diag_ok (s_nc A) (s_nr A)). Qed.
Theorem C26_sprow_diag : forall A jd i, wf_sprow A -> r_jd A = Some jd -> diag_info (r_nr A) (r_jr A) (r_ic A) jd -> (0 <= i < r_nr A)%Z ->
  r_diag (N := N) A i = Ok (rmat A i i).
Proof. intros A jd i WF J D Hi. unfold r_diag. rcar. rewrite J. rnum. now apply (diag_ok (r_nr A) (r_nc A)). Qed.

(** isDiag: no off-diagonal entry is stored *)
Lemma isDiag_ok n m ptr idx (val : list R) : wf_cs n m ptr idx val ->
  exists b, (r <- forb_up 0 n (fun j _ => lo <- rd ptr j ;; hi <- rd ptr (j + 1) ;;
     if (lo + 1 <? hi)%Z then Ok (Brk tt) else
     if (hi =? lo + 1)%Z then r <- rd idx lo ;; if negb (r =? j)%Z then Ok (Brk tt) else Ok (Next tt) else Ok (Next tt)) tt ;;
     match r with Brk _ => Ok false | Next _ => Ok true end) = Ok b /\
   (b = true <-> forall j r, (0 <= j < n)%Z -> stored ptr idx j r -> r = j).
Proof.
  intros WF. pose proof (cs_n _ _ _ _ _ WF) as Hn.
  match goal with |- context [bind ?mm _] => assert (W : wp mm (fun c => match c with
     | Next _ => forall j r, (0 <= j < n)%Z -> stored ptr idx j r -> r = j
     | Brk _ => exists j r, (0 <= j < n)%Z /\ stored ptr idx j r /\ r <> j end)) end.
  { eapply wp_forb_up with (I := fun k _ => forall j r, (0 <= j < k)%Z -> stored ptr idx j r -> r = j) (J := fun _ => exists j r, (0 <= j < n)%Z /\ stored ptr idx j r /\ r <> j); auto.
    - intros; lia.
    - intros j [] Hj I. pose proof (cs_mono _ _ _ _ _ WF j Hj) as Hm. rewrite !(rd_ptr _ _ _ _ _ WF) by lia. cbn [bind].
      destruct (Z.ltb_spec (zn 0%Z ptr j + 1)%Z (zn 0%Z ptr (j + 1))) as [L|L]; [cbn [wp]|].
      + assert (S : (zn 0 idx (zn 0 ptr j) < zn 0 idx (zn 0 ptr j + 1))%Z) by (apply (cs_srt _ _ _ _ _ WF j); lia).
        destruct (Z.eq_dec (zn 0%Z idx (zn 0%Z ptr j)) j) as [E|E].
        * exists j, (zn 0%Z idx (zn 0%Z ptr j + 1)). split; [assumption|]. split; [|lia]. exists (zn 0%Z ptr j + 1)%Z. split; [lia|reflexivity].
        * exists j, (zn 0%Z idx (zn 0%Z ptr j)). split; [assumption|]. split; [|lia]. exists (zn 0%Z ptr j). split; [lia|reflexivity].
      + destruct (Z.eqb_spec (zn 0%Z ptr (j + 1)) (zn 0%Z ptr j + 1)) as [E|E].
        * rewrite (rd_idx _ _ _ _ _ WF j) by lia. cbn [bind]. destruct (Z.eqb_spec (zn 0%Z idx (zn 0%Z ptr j)) j) as [E2|E2]; cbn [negb wp].
          -- intros j' r Hj' (p & Hp & <-). destruct (Z.eq_dec j' j) as [->|]; [|apply I; [lia|exists p; auto]].
             now replace p with (zn 0%Z ptr j) by lia.
          -- exists j, (zn 0%Z idx (zn 0%Z ptr j)). split; [assumption|]. split; [|assumption]. exists (zn 0%Z ptr j). split; [lia|reflexivity].
        * cbn [wp]. intros j' r Hj' (p & Hp & <-). destruct (Z.eq_dec j' j) as [->|]; [lia|apply I; [lia|exists p; auto]]. }
  apply wp_inv in W as (c & E & H). rewrite E. cbn [bind]. destruct c as [u|u].
  - exists true. split; [reflexivity|]. tauto.
  - exists false. split; [reflexivity|]. split; [discriminate|]. intros G. destruct H as (j & r & Hj & S & NE). exfalso. apply NE, G; auto.
Qed.
Theorem C26_sparse_isDiag : forall A, wf_sparse A -> exists b, s_isDiag (N := N) A = Ok b /\
  (b = true <-> s_nr A = s_nc A /\ forall r j, (0 <= j < s_nc A)%Z -> stored (s_jc A) (s_ir A) j r -> r = j) /\
  (b = true -> forall i j, (0 <= i < s_nr A)%Z -> (0 <= j < s_nc A)%Z -> i <> j -> smat A i j = 0).
Proof.
  intros A WF. unfold s_isDiag. rcar. destruct (Z.eqb_spec (s_nc A) (s_nr A)) as [E|NE]; cbn [negb].
  - destruct (isDiag_ok _ _ _ _ _ WF) as (b & E1 & E2). exists b. split; [exact E1|]. split.
    + rewrite E2. split; [intros H; split; [auto|]; intros; now apply H|]. intros [_ H] j r Hj S. now apply H.
    + intros Hb i j Hi Hj Hij. rewrite E2 in Hb. apply ent_absent. intros p Hp Ep. apply Hij. apply (Hb j i Hj). exists p. auto.
  - exists false. split; [reflexivity|]. split; [|discriminate]. split; [discriminate|]. intros [H _]. congruence.
Qed.
Theorem C26_sprow_isDiag : forall A, wf_sprow A -> exists b, r_isDiag (N := N) A = Ok b /\
  (b = true <-> r_nr A = r_nc A /\ forall r j, (0 <= j < r_nr A)%Z -> stored (r_jr A) (r_ic A) j r -> r = j) /\
  (b = true -> forall i j, (0 <= i < r_nr A)%Z -> (0 <= j < r_nc A)%Z -> i <> j -> rmat A i j = 0).
Proof.
  intros A WF. unfold r_isDiag. rcar. destruct (Z.eqb_spec (r_nc A) (r_nr A)) as [E|NE]; cbn [negb].
  - destruct (isDiag_ok _ _ _ _ _ WF) as (b & E1 & E2). exists b. split; [exact E1|]. split.
    + rewrite E2. split; [intros H; split; [auto|]; intros; now apply H|]. intros [_ H] j r Hj S. now apply H.
    + intros Hb i j Hi Hj Hij. rewrite E2 in Hb. apply ent_absent. intros p Hp Ep. apply Hij. symmetry. apply (Hb i j Hi). exists p. auto.
  - exists false. split; [reflexivity|]. split; [|discriminate]. split; [discriminate|]. intros [H _]. congruence.
Qed.

(** norms of rows *)
Lemma ent_sq n m ptr idx (val : list R) j : wf_cs n m ptr idx val -> (0 <= j < n)%Z ->
  rsum (zn 0%Z ptr j) (zn 0%Z ptr (j + 1)) (fun p => zn 0 val p * zn 0 val p) = rsum 0 m (fun r => ent ptr idx val j r * ent ptr idx val j r).
Proof.
  intros WF Hj. rewrite <- (ent_sum _ _ _ _ _ WF j (fun r => ent ptr idx val j r) Hj). apply rsum_ext. intros p Hp.
  now rewrite (ent_stored _ _ _ _ _ WF) by assumption.
Qed.
Lemma ent_abs n m ptr idx (val : list R) j : wf_cs n m ptr idx val -> (0 <= j < n)%Z ->
  rsum (zn 0%Z ptr j) (zn 0%Z ptr (j + 1)) (fun p => Rabs (zn 0 val p)) = rsum 0 m (fun r => Rabs (ent ptr idx val j r)).
Proof.
  intros WF Hj. set (sg x := if Rleb 0 x then 1 else - (1)). assert (A : forall x, Rabs x = x * sg x).
  { intros x. unfold sg. destruct (Rleb_spec 0 x); [rewrite Rabs_right by lra; lra|rewrite Rabs_left by lra; lra]. }
  transitivity (rsum 0 m (fun r => ent ptr idx val j r * sg (ent ptr idx val j r))).
  - rewrite <- (ent_sum _ _ _ _ _ WF j (fun r => sg (ent ptr idx val j r)) Hj). apply rsum_ext. intros p Hp.
    now rewrite (ent_stored _ _ _ _ _ WF), A by assumption.
  - apply rsum_ext. intros r _. now rewrite A.
Qed.

Theorem C26_sprow_getRowNorm1 : forall A r t, wf_sprow A -> (0 <= r < r_nr A)%Z ->
  r_getRowNorm1 (N := N) A r t = Ok (if (t =? 2)%Z then norm2 (r_nc A) (rmat A r) else if (t =? 1)%Z then norm1 (r_nc A) (rmat A r) else - infty).
Proof.
  intros A r t WF Hr. unfold r_getRowNorm1. rewrite !(rd_ptr _ _ _ _ _ WF) by lia. cbn [bind]. rcar.
  pose proof (cs_mono _ _ _ _ _ WF r Hr). pose proof (ptr_mono _ _ _ _ _ WF 0 r ltac:(lia) ltac:(lia)). pose proof (cs_first _ _ _ _ _ WF).
  pose proof (ptr_mono _ _ _ _ _ WF (r + 1) (r_nr A) ltac:(lia) ltac:(lia)). pose proof (cs_val _ _ _ _ _ WF).
  rewrite C17_getNorm by lia. f_equal. unfold norm1, norm2.
  assert (SH : forall h : R -> R, rsum 0 (zn 0%Z (r_jr A) (r + 1) - zn 0%Z (r_jr A) r) (fun i => h (zn 0 (r_val A) (zn 0%Z (r_jr A) r + i))) =
     rsum (zn 0%Z (r_jr A) r) (zn 0%Z (r_jr A) (r + 1)) (fun p => h (zn 0 (r_val A) p))).
  { intros h. set (a := zn 0%Z (r_jr A) r) in *. set (b := zn 0%Z (r_jr A) (r + 1)) in *.
    pose proof (rsum_shift a 0 (b - a) (fun p => h (zn 0 (r_val A) p))) as SH. cbn beta in SH.
    rewrite Z.add_0_l in SH. replace (b - a + a)%Z with b in SH by lia. rewrite <- SH. apply rsum_ext. intros i Hi. do 2 f_equal. lia. }
  rewrite (SH (fun x => x * x)), (SH Rabs). rewrite (ent_sq _ _ _ _ _ r WF Hr), (ent_abs _ _ _ _ _ r WF Hr). reflexivity.
Qed.
Theorem C26_sprow_getRowNorm : forall A (norm : list R) t, wf_sprow A -> (r_nr A <= zlen norm)%Z ->
  exists norm', r_getRowNorm (N := N) A norm t = Ok norm' /\
    filled (r_nr A) norm norm' (fun r => if (t =? 2)%Z then norm2 (r_nc A) (rmat A r) else if (t =? 1)%Z then norm1 (r_nc A) (rmat A r) else - infty).
Proof.
  intros A norm t WF Hl. unfold r_getRowNorm. apply filled_loop; [destruct WF; lia|].
  intros r s Hr Hs. pose proof (C26_sprow_getRowNorm1 A r t WF Hr) as E. unfold r_getRowNorm1 in E. rcar.
  rewrite !(rd_ptr _ _ _ _ _ WF) in E |- * by lia. cbn [bind] in E |- *. rewrite E. cbn [bind]. apply wr_ok. lia.
Qed.

Lemma entry_fold n m ptr idx (val : list R) (h : R -> R) r : wf_cs n m ptr idx val -> h 0 = 0 ->
  for_up 0 n (fun j norm => e <- entry_at (N := N) ptr idx val j r ;; Ok (match e with Some v => norm + h v | None => norm end)) 0 =
  Ok (rsum 0 n (fun j => h (ent ptr idx val j r))).
Proof.
  intros WF H0. rewrite (sum_loop 0 n _ (fun j => h (ent ptr idx val j r))); [now rewrite Rplus_0_l|apply WF|].
  intros j s Hj. destruct (entry_at_ok _ _ _ _ _ WF j r Hj) as [E|[E Z0]].
  - change (entry_at (N := N) ptr idx val j r = Ok (Some (ent ptr idx val j r))) in E. rewrite E. reflexivity.
  - change (entry_at (N := N) ptr idx val j r = Ok None) in E. rewrite E. cbn [bind]. rewrite Z0, H0. f_equal. lra.
Qed.
Theorem C26_sparse_getRowNorm1 : forall A r t, wf_sparse A ->
  s_getRowNorm1 (N := N) A r t = Ok (if (t =? 2)%Z then norm2 (s_nc A) (smat A r) else if (t =? 1)%Z then norm1 (s_nc A) (smat A r) else - infty).
Proof.
  intros A r t WF. unfold s_getRowNorm1. rcar. destruct (t =? 2)%Z; [|destruct (t =? 1)%Z; [|reflexivity]].
  - pose proof (entry_fold _ _ _ _ _ (fun x => x * x) r WF ltac:(lra)) as E. rnum.
    match goal with |- bind ?mm _ = _ => replace mm with (Ok (rsum 0 (s_nc A) (fun j => smat A r j * smat A r j))) by (symmetry; exact E) end. reflexivity.
  - pose proof (entry_fold _ _ _ _ _ Rabs r WF Rabs_R0) as E. exact E.
Qed.
(** all row norms, Euclidean *)
Theorem C26_sparse_getRowNorm : forall A (norm : list R), wf_sparse A -> (s_nr A <= zlen norm)%Z ->
  exists norm', s_getRowNorm (N := N) A norm 2 = Ok (SUCCESSFUL_RETURN, norm') /\
    filled (s_nr A) norm norm' (fun r => norm2 (s_nc A) (smat A r)).
Proof.
  intros A norm WF Hl. pose proof (cs_m _ _ _ _ _ WF) as Hm. unfold s_getRowNorm. rcar.
  destruct (filled_loop (s_nr A) (fun i o => wr o i 0) (fun _ => 0) norm) as (o1 & E1 & L1 & V1); [lia|intros; apply wr_ok; lia|].
  match goal with |- context [bind ?mm _] => replace mm with (Ok o1) by (symmetry; exact E1) end. cbn [bind]. change (2 =? 2)%Z with true. cbv iota.
  assert (AD : adds (for_up 0 (s_nc A) (fun j o => each_entry (s_jc A) j (fun i o => r <- rd (s_ir A) i ;; v <- rd (s_val A) i ;; a <- rd o r ;; wr o r (a + v * v)) o)) (zlen norm)
    (fun q => rsum 0 (s_nc A) (fun j => rsum 0 (s_nr A) (fun r => if (q =? r)%Z then smat A r j * smat A r j else 0)))).
  { apply adds_for. intros j Hj. eapply adds_ext.
    - apply (adds_entry _ _ _ _ _ WF j _ _ (fun p q => if (q =? zn 0%Z (s_ir A) p)%Z then zn 0 (s_val A) p * zn 0 (s_val A) p else 0)); auto.
      intros p Hp. destruct (pos_in _ _ _ _ _ WF j p Hj Hp) as (_ & _ & _ & Hr). apply adds_at; [lia|]. intros s Hs.
      rewrite (rd_idx _ _ _ _ _ WF j) by assumption. cbn [bind]. rewrite (rd_val _ _ _ _ _ WF j) by assumption. cbn [bind].
      rewrite (rd_ok 0) by lia. cbn [bind]. now rewrite wr_ok by lia.
    - intros q _. cbn beta. transitivity (rsum 0 (s_nr A) (fun r => smat A r j * (if (q =? r)%Z then smat A r j else 0))).
      + unfold smat. rewrite <- (ent_sum _ _ _ _ _ WF j (fun r => if (q =? r)%Z then ent (s_jc A) (s_ir A) (s_val A) j r else 0) Hj). apply rsum_ext. intros p Hp.
        rewrite (ent_stored _ _ _ _ _ WF) by assumption. destruct (q =? zn 0%Z (s_ir A) p)%Z; ring.
      + apply rsum_ext. intros r Hr. destruct (q =? r)%Z; ring. }
  destruct (AD o1 L1) as (o2 & E2 & L2 & V2). unfold each_entry in E2. rnum.
  match goal with |- context [bind ?mm _] => replace mm with (Ok o2) by (symmetry; exact E2) end. cbn [bind].
  destruct (fill_loop 0 (fun j o => a <- rd o j ;; wr o j (sqrt a)) (fun _ a => sqrt a) 0 0 (s_nr A) o2) as (o3 & E3 & L3 & V3); [lia|lia| |].
  { intros j s Hj Hs. rewrite Z.add_0_l. rewrite (rd_ok 0) by lia. cbn [bind]. now rewrite wr_ok by lia. }
  match goal with |- context [bind ?mm _] => replace mm with (Ok o3) by (symmetry; exact E3) end. cbn [bind].
  exists o3. split; [reflexivity|]. split; [lia|]. intros q Hq. rewrite V3 by assumption. rewrite V2, V1 by lia. rewrite !Z.add_0_l.
  destruct (Z.leb_spec 0 q); [|lia]. cbn [andb].
  destruct (Z.ltb_spec q (s_nr A)) as [L|L].
  - unfold norm2. f_equal. rewrite Rplus_0_l. apply rsum_ext. intros j Hj. rewrite (rsum_delta 0 _ q); [now rewrite Z.eqb_refl|lia|].
    intros r Hr Hne. destruct (Z.eqb_spec q r); [congruence|reflexivity].
  - rewrite rsum_0; [lra|]. intros j Hj. apply rsum_0. intros r Hr. destruct (Z.eqb_spec q r); [lia|reflexivity].
Qed.

(** ** C24: SymSparseMat::bilinear *)

(** only the entries on or below the diagonal are visited *)
Lemma lower_sum n m ptr idx (val : list R) jd c r w : wf_cs n m ptr idx val -> diag_info n ptr idx jd -> (0 <= c < n)%Z ->
  rsum (zn 0%Z jd c) (zn 0%Z ptr (c + 1)) (fun p => if (zn 0%Z idx p =? r)%Z then zn 0 val p * w else 0) =
  if (c <=? r)%Z then ent ptr idx val c r * w else 0.
Proof.
  intros WF [_ D] Hc. destruct (D c Hc) as (D1 & D2 & D3). destruct (Z.leb_spec c r) as [L|L].
  - unfold ent. rewrite (rsum_split (zn 0%Z ptr c) (zn 0%Z jd c)) by lia. rewrite (rsum_0 (zn 0%Z ptr c)).
    + rewrite Rplus_0_l. unfold rsum. rewrite <- lsum_scal_r. apply lsum_ext. intros p _. destruct (zn 0%Z idx p =? r)%Z; lra.
    + intros p Hp. specialize (D2 p Hp). destruct (Z.eqb_spec (zn 0%Z idx p) r); [lia|reflexivity].
  - apply rsum_0. intros p Hp. specialize (D3 p Hp). destruct (Z.eqb_spec (zn 0%Z idx p) r); [lia|reflexivity].
Qed.

(** the lower triangle of a symmetric form counted twice is the whole form *)
Lemma lower_bil (H : Z -> Z -> R) l (u v : Z -> R) : (forall a b, (0 <= a < zlen l)%Z -> (0 <= b < zlen l)%Z -> H (zn 0%Z l a) (zn 0%Z l b) = H (zn 0%Z l b) (zn 0%Z l a)) ->
  rsum 0 (zlen l) (fun a => rsum 0 (zlen l) (fun c => if (zn 0 l a <=? zn 0 l c)%Z then
    H (zn 0%Z l c) (zn 0%Z l a) * (if (zn 0 l c =? zn 0 l a)%Z then u (zn 0%Z l a) * v (zn 0%Z l a) else u (zn 0%Z l a) * v (zn 0%Z l c) + u (zn 0%Z l c) * v (zn 0%Z l a)) else 0)) =
  bil H l u v.
Proof.
  intros Sy. unfold bil. set (n := zlen l) in *. set (L := zn 0%Z l) in *.
  set (F a c := u (L a) * (H (L a) (L c) * v (L c))).
  transitivity (rsum 0 n (fun a => rsum 0 n (fun c => (if (L a <=? L c)%Z then F a c else 0) + (if (L a <? L c)%Z then F c a else 0)))).
  - apply rsum_ext. intros a Ha. apply rsum_ext. intros c Hc. unfold F. rewrite (Sy a c Ha Hc).
    destruct (Z.leb_spec (L a) (L c)), (Z.ltb_spec (L a) (L c)), (Z.eqb_spec (L c) (L a)) as [E|E]; try lia; try rewrite E; ring.
  - transitivity (rsum 0 n (fun a => rsum 0 n (fun c => if (L a <=? L c)%Z then F a c else 0)) + rsum 0 n (fun a => rsum 0 n (fun c => if (L a <? L c)%Z then F c a else 0))).
    { unfold rsum. rewrite <- lsum_plus. apply lsum_ext. intros a _. now rewrite <- lsum_plus. }
    rewrite (rsum_swap 0 n 0 n (fun a c => if (L a <? L c)%Z then F c a else 0)).
    unfold rsum at 1 3. rewrite <- lsum_plus. apply lsum_ext. intros a _. unfold rsum. rewrite <- lsum_plus, <- lsum_scal. apply lsum_ext. intros c _.
    unfold F. destruct (Z.leb_spec (L a) (L c)), (Z.ltb_spec (L c) (L a)); try lia; lra.
Qed.

(** the clearing of the output is also harmless if the output is zero already *)
Lemma sparse_bilinear_gen : forall A jd icols l xN (x : list R) xLD (y : list R) yLD,
  wf_sparse A -> s_jd A = Some jd -> diag_info (s_nc A) (s_jc A) (s_ir A) jd ->
  (forall a b, In a l -> In b l -> smat A a b = smat A b a) ->
  il_rep icols l -> idx_in l (s_nc A) -> (0 <= xN)%Z ->
  fits xN (s_nc A) xLD (zlen x) -> fits xN xN yLD (zlen y) -> ((xN <= 1)%Z \/ yLD = xN \/ ((xN <= yLD)%Z /\ forall q, (0 <= q < zlen y)%Z -> zn 0 y q = 0)) ->
  exists y', s_bilinear (N := N) A icols xN x xLD y yLD = Ok (SUCCESSFUL_RETURN, y') /\
    updated xN xN (addr yLD) y y' 0 (fun a b => bil (smat A) l (vec x xLD a) (vec x xLD b)).
Proof.
  intros A jd icols l xN x xLD y yLD WF J D Sy Rp Ic HxN Fx Fy Hy. unfold s_bilinear. rcar. rewrite J. clear J. rnum.
  pose proof (zlen_nonneg l) as Hl.
  assert (INl : forall a, (0 <= a < zlen l)%Z -> In (zn 0%Z l a) l).
  { intros a Ha. unfold zn. apply nth_In. unfold zlen in Ha. lia. }
  assert (SYl : forall a b, (0 <= a < zlen l)%Z -> (0 <= b < zlen l)%Z -> smat A (zn 0%Z l a) (zn 0%Z l b) = smat A (zn 0%Z l b) (zn 0%Z l a)) by auto.
  assert (Sd : strided xN xN yLD) by (unfold strided; destruct Hy as [Hy|[Hy|[Hy _]]]; lia).
  assert (DI : distinct xN xN (addr yLD)) by now apply strided_distinct.
  assert (B : forall i j, (0 <= i < xN)%Z -> (0 <= j < xN)%Z -> (0 <= addr yLD i j < zlen y)%Z) by (intros i j Hi Hj; now apply fits_in with xN xN).
  assert (N2 : (0 <= xN * xN <= zlen y)%Z).
  { split; [apply Z.mul_nonneg_nonneg; lia|]. destruct (Z.eq_dec xN 0) as [->|]; [pose proof (zlen_nonneg y); lia|].
    pose proof (B (xN - 1)%Z (xN - 1)%Z ltac:(lia) ltac:(lia)) as B'. unfold addr in B'. destruct Hy as [Hy|[->|[Hy _]]]; [replace xN with 1%Z in * by lia; lia|replace (xN * xN)%Z with ((xN - 1) + (xN - 1) * xN + 1)%Z by ring; lia|].
    replace (xN * xN)%Z with ((xN - 1) + (xN - 1) * xN + 1)%Z by ring. nia. }
  destruct (filled_loop (xN * xN) (fun i o => wr o i 0) (fun _ => 0) y) as (y1 & E1 & L1 & V1); [lia|intros; apply wr_ok; lia|].
  match goal with |- context [bind ?mm _] => replace mm with (Ok y1) by (symmetry; exact E1) end. cbn [bind].
  assert (A2 : forall i j, (0 <= i < xN)%Z -> (0 <= j < xN)%Z -> zn 0 y1 (addr yLD i j) = 0).
  { intros i j Hi Hj. pose proof (B i j Hi Hj) as Bij. rewrite V1 by lia. destruct (Z.ltb_spec (addr yLD i j) (xN * xN)) as [|G]; [reflexivity|].
    destruct Hy as [Hy|[->|[_ Hy]]]; [| |now apply Hy].
    - exfalso. unfold addr in G. replace xN with 1%Z in * by lia. replace i with 0%Z in G by lia. lia.
    - exfalso. unfold addr in G. assert ((i + 1) * xN <= xN * xN)%Z by (apply Z.mul_le_mono_nonneg_r; lia). lia. }
  set (V i j := bil (smat A) l (vec x xLD i) (vec x xLD j)).
  set (U i j := fun q => if (q =? i * yLD + j)%Z then V i j else 0).
  (* accumulation over the columns *)
  match goal with |- context [bind (for_up 0 (il_length icols) ?bd y1) _] =>
    assert (AD : adds (for_up 0 (il_length icols) bd) (zlen y) (fun q => rsum 0 xN (fun i => rsum i xN (fun j => U i j q)))) end.
  { set (T a c i j := smat A (zn 0%Z l c) (zn 0%Z l a) * (if (zn 0 l c =? zn 0 l a)%Z then vec x xLD i (zn 0%Z l a) * vec x xLD j (zn 0%Z l a)
        else vec x xLD i (zn 0%Z l a) * vec x xLD j (zn 0%Z l c) + vec x xLD i (zn 0%Z l c) * vec x xLD j (zn 0%Z l a))).
    eapply adds_ext.
    - apply (adds_sel (zlen y) (fun a q => rsum 0 (zlen l) (fun c => rsum 0 xN (fun i => rsum i xN (fun j => if (q =? i * yLD + j)%Z then
         (if (zn 0 l a <=? zn 0 l c)%Z then T a c i j else 0) else 0))))
       (fun p col y => lo <- rd jd col ;; hi <- rd (s_jc A) (col + 1) ;;
        st <- merge (s_ir A) lo hi icols (fun idx p y =>
          row <- rd (il_number icols) p ;; v <- rd (s_val A) idx ;;
          for_up 0 xN (fun i y => for_up i xN (fun j y =>
            a <- rd y (i * yLD + j) ;; xic <- rd x (i * xLD + col) ;; xjc <- rd x (j * xLD + col) ;;
            if (row =? col)%Z then wr y (i * yLD + j) (a + v * xic * xjc)
            else xir <- rd x (i * xLD + row) ;; xjr <- rd x (j * xLD + row) ;;
                 wr y (i * yLD + j) (a + v * (xic * xjr + xir * xjc))) y) y) (fun _ y => Ok y) y ;;
        let '(_, _, y) := st in Ok y) icols l Rp).
      intros a Ha. pose proof (Ic a Ha) as Hc. pose proof D as [Ld D']. destruct (D' _ Hc) as (D1 & _ & _).
      set (w p c i j := zn 0 (s_val A) p * (if (zn 0 l c =? zn 0 l a)%Z then vec x xLD i (zn 0%Z l a) * vec x xLD j (zn 0%Z l a)
        else vec x xLD i (zn 0%Z l a) * vec x xLD j (zn 0%Z l c) + vec x xLD i (zn 0%Z l c) * vec x xLD j (zn 0%Z l a))).
      eapply adds_ext.
      + eapply adds_ext_m; [intros s Hs; rewrite (rd_ok 0%Z jd) by lia; cbn [bind]; rewrite (rd_ptr _ _ _ _ _ WF) by lia; cbn [bind]; reflexivity|].
        apply (adds_merge _ _ _ _ _ WF (zn 0%Z l a) (zn 0%Z jd (zn 0%Z l a)) icols l (zlen y) _ (fun p c q => rsum 0 xN (fun i => rsum i xN (fun j => if (q =? i * yLD + j)%Z then w p c i j else 0)))); auto.
        intros p c Hp Hcc Epc. eapply adds_ext_m.
        { intros s Hs. rewrite (rd_number icols l) by assumption. cbn [bind]. rewrite (rd_val _ _ _ _ _ WF (zn 0%Z l a)) by lia. cbn [bind]. reflexivity. }
        pose proof (Ic c Hcc) as Hr. apply adds_for. intros i Hi. apply adds_for. intros j Hj.
        pose proof (B i j Hi ltac:(lia)) as Bij. unfold addr in Bij. apply adds_at; [lia|]. intros s Hs.
        rewrite (rd_ok 0 s) by lia. cbn [bind]. rewrite (Z.add_comm (i * xLD)), (Z.add_comm (j * xLD)).
        rewrite !(rd_ok 0 x) by (apply fits_in with xN (s_nc A); auto; lia). cbn [bind]. unfold w.
        destruct (Z.eqb_spec (zn 0%Z l c) (zn 0%Z l a)) as [Eca|Nca].
        * rewrite wr_ok by lia. do 2 f_equal. unfold vec. ring.
        * rewrite (Z.add_comm (i * xLD)), (Z.add_comm (j * xLD)). rewrite !(rd_ok 0 x) by (apply fits_in with xN (s_nc A); auto; lia). cbn [bind].
          rewrite wr_ok by lia. do 2 f_equal.
      + intros q _. cbn beta. apply rsum_ext. intros c Hcc.
        transitivity (rsum (zn 0%Z jd (zn 0%Z l a)) (zn 0%Z (s_jc A) (zn 0%Z l a + 1)) (fun p => rsum 0 xN (fun i => rsum i xN (fun j =>
           if (zn 0%Z (s_ir A) p =? zn 0%Z l c)%Z then (if (q =? i * yLD + j)%Z then w p c i j else 0) else 0)))).
        { apply rsum_ext. intros p _. destruct (zn 0%Z (s_ir A) p =? zn 0%Z l c)%Z; [reflexivity|]. symmetry. apply rsum_0. intros i _. now apply rsum_0. }
        rewrite rsum_swap. apply rsum_ext. intros i Hi. rewrite rsum_swap. apply rsum_ext. intros j Hj.
        destruct (q =? i * yLD + j)%Z; [|apply rsum_0; intros p _; destruct (zn 0%Z (s_ir A) p =? zn 0%Z l c)%Z; reflexivity].
        unfold w, T, smat. apply (lower_sum _ _ _ _ _ jd (zn 0%Z l a) (zn 0%Z l c) _ WF D Hc).
    - intros q _. cbn beta. 
      transitivity (rsum 0 (zlen l) (fun a => rsum 0 xN (fun i => rsum i xN (fun j => rsum 0 (zlen l) (fun c =>
          if (q =? i * yLD + j)%Z then if (zn 0 l a <=? zn 0 l c)%Z then T a c i j else 0 else 0))))).
      { apply rsum_ext. intros a _. rewrite rsum_swap. apply rsum_ext. intros i _. now rewrite rsum_swap. }
      rewrite rsum_swap. apply rsum_ext. intros i _. rewrite rsum_swap. apply rsum_ext. intros j _. unfold U.
      destruct (q =? i * yLD + j)%Z; [|apply rsum_0; intros a _; now apply rsum_0].
      unfold V, T. now apply lower_bil. }
  destruct (AD y1 L1) as (y2 & E2 & L2 & V2).
  match goal with |- context [bind ?mm _] => replace mm with (Ok y2) by (symmetry; exact E2) end. cbn [bind].
  assert (UP : forall i j, (0 <= i <= j)%Z -> (j < xN)%Z -> zn 0 y2 (addr yLD i j) = V i j).
  { intros i j Hi Hj. pose proof (B i j ltac:(lia) ltac:(lia)). rewrite V2, A2 by lia. rewrite Rplus_0_l.
    rewrite (rsum_delta 0 xN i); [|lia|].
    - rewrite (rsum_delta i xN j); [|lia|].
      + unfold U, addr. rewrite (Z.add_comm j), Z.eqb_refl. reflexivity.
      + intros j' Hj' Hne. unfold U. destruct (Z.eqb_spec (addr yLD i j) (i * yLD + j')) as [E|]; [|reflexivity]. exfalso. apply Hne.
        destruct (DI i j i j') as [_ E']; try lia. rewrite E. unfold addr. lia.
    - intros i' Hi' Hne. apply rsum_0. intros j' Hj'. unfold U. destruct (Z.eqb_spec (addr yLD i j) (i' * yLD + j')) as [E|]; [|reflexivity]. exfalso. apply Hne.
      destruct (DI i j i' j') as [E' _]; try lia. rewrite E. unfold addr. lia. }
  assert (UN : forall q, (0 <= q)%Z -> unaddressed xN xN (addr yLD) q -> zn 0 y2 q = zn 0 y q).
  { intros q Hq Hu. rewrite V2, V1 by lia. rewrite rsum_0.
    - destruct (Z.ltb_spec q (xN * xN)) as [L|L]; [|lra]. destruct Hy as [Hy|[->|[_ Hy]]]; [exfalso|exfalso|rewrite Hy by lia; lra].
      + destruct (Z.eq_dec xN 0) as [->|]; [lia|]. replace xN with 1%Z in * by lia. apply (Hu 0%Z 0%Z); unfold addr; lia.
      + apply (Hu (q / xN)%Z (q mod xN)%Z); [|apply Z.mod_pos_bound; nia|].
        * assert (0 < xN)%Z by nia. split; [apply Z.div_pos; lia|]. apply Z.div_lt_upper_bound; lia.
        * unfold addr. pose proof (Z.div_mod q xN ltac:(nia)). lia.
    - intros i Hi. apply rsum_0. intros j Hj. unfold U. destruct (Z.eqb_spec q (i * yLD + j)) as [E|]; [|reflexivity]. exfalso.
      apply (Hu i j); unfold addr; lia. }
  (* the upper triangle is copied to the lower one *)
  set (Inv ii jj o := zlen o = zlen y /\ (forall q, (0 <= q)%Z -> unaddressed xN xN (addr yLD) q -> zn 0 o q = zn 0 y q) /\
     (forall i j, (0 <= i <= j)%Z -> (j < xN)%Z -> zn 0 o (addr yLD i j) = V i j) /\
     (forall i j, (0 <= i <= j)%Z -> (j < xN)%Z -> (i < ii \/ i = ii /\ j < jj)%Z -> zn 0 o (addr yLD j i) = V i j)).
  match goal with |- context [bind ?mm _] => assert (W : wp mm (fun o => Inv xN 0%Z o)) end.
  { apply wp_for_up with (I := fun i o => Inv i 0%Z o); auto.
    - split; [lia|]. split; [assumption|]. split; [assumption|]. intros; lia.
    - intros i o Hi HI. apply wp_for_up with (I := fun j o => Inv i j o); [lia| | |].
      + destruct HI as (I1 & I2 & I3 & I4). split; [assumption|]. split; [assumption|]. split; [assumption|]. intros; apply I4; lia.
      + intros j o1 Hj (I1 & I2 & I3 & I4). pose proof (B i j Hi ltac:(lia)) as B1. pose proof (B j i ltac:(lia) Hi) as B2. unfold addr in B1, B2.
        rewrite (rd_ok 0) by lia. cbn [bind]. rewrite wr_ok by lia. cbn [wp].
        replace (i * yLD + j)%Z with (addr yLD i j) by (unfold addr; lia). rewrite I3 by lia.
        assert (NE : forall a b, (0 <= a < xN)%Z -> (0 <= b < xN)%Z -> (a, b) <> (j, i) -> zn 0 (zupd o1 (j * yLD + i) (V i j)) (addr yLD a b) = zn 0 o1 (addr yLD a b)).
        { intros a b Ha Hb Hn. pose proof (B a b Ha Hb). rewrite zn_zupd by lia. destruct (Z.eqb_spec (addr yLD a b) (j * yLD + i)) as [E|]; [|reflexivity]. exfalso. apply Hn.
          destruct (DI a b j i) as [-> ->]; auto; try lia. rewrite E. unfold addr. lia. }
        split; [now rewrite zlen_zupd|]. split; [|split].
        * intros q Hq Hu. rewrite zn_zupd by lia. destruct (Z.eqb_spec q (j * yLD + i)) as [E|]; [|auto]. exfalso. apply (Hu j i); unfold addr; lia.
        * intros a b Hab Hb. destruct (Z.eq_dec a j) as [->|]; [destruct (Z.eq_dec b i) as [->|]|].
          -- assert (j = i) by lia. subst j. unfold addr. rewrite zn_zupd by lia. rewrite (Z.add_comm i), Z.eqb_refl. reflexivity.
          -- rewrite NE by (try lia; congruence). apply I3; lia.
          -- rewrite NE by (try lia; congruence). apply I3; lia.
        * intros a b Hab Hb Hc. destruct (Z.eq_dec a i) as [->|]; [destruct (Z.eq_dec b j) as [->|]|].
          -- unfold addr. rewrite zn_zupd by lia. rewrite (Z.add_comm i), Z.eqb_refl. reflexivity.
          -- rewrite NE by (try lia; congruence). apply I4; lia.
          -- rewrite NE by (try lia; congruence). apply I4; lia.
      + intros o1 (I1 & I2 & I3 & I4). split; [assumption|]. split; [assumption|]. split; [assumption|]. intros; apply I4; lia. }
  apply wp_inv in W as (y3 & E3 & I1 & I2 & I3 & I4). rewrite E3. cbn [bind]. exists y3. split; [reflexivity|]. split; [assumption|]. split; [|assumption].
  intros a b Ha Hb. rewrite Rmult_0_l, Rplus_0_l. destruct (Z.le_gt_cases a b) as [Le|Gt]; [apply I3; lia|].
  rewrite I4 by lia. unfold V, bil. 
  transitivity (rsum 0 (zlen l) (fun i => rsum 0 (zlen l) (fun j => vec x xLD b (zn 0%Z l i) * (smat A (zn 0%Z l i) (zn 0%Z l j) * vec x xLD a (zn 0%Z l j))))).
  { apply rsum_ext. intros i _. unfold rsum. now rewrite <- lsum_scal. }
  rewrite rsum_swap. apply rsum_ext. intros j Hj. unfold rsum. rewrite <- lsum_scal. apply lsum_ext. intros i Hi. apply In_zseq in Hi. rewrite (SYl i j) by assumption. ring.
Qed.

Theorem C24_sparse_bilinear : forall A jd icols l xN (x : list R) xLD (y : list R) yLD,
  wf_sparse A -> s_jd A = Some jd -> diag_info (s_nc A) (s_jc A) (s_ir A) jd ->
  (forall a b, In a l -> In b l -> smat A a b = smat A b a) ->
  il_rep icols l -> idx_in l (s_nc A) -> (0 <= xN)%Z ->
  fits xN (s_nc A) xLD (zlen x) -> fits xN xN yLD (zlen y) -> ((xN <= 1)%Z \/ yLD = xN) ->
  exists y', s_bilinear (N := N) A icols xN x xLD y yLD = Ok (SUCCESSFUL_RETURN, y') /\
    updated xN xN (addr yLD) y y' 0 (fun a b => bil (smat A) l (vec x xLD a) (vec x xLD b)).
Proof. intros. eapply sparse_bilinear_gen; eauto. tauto. Qed.
End Sparse2.

(** ** Where the sparse classes fail *)

(** evaluation over the reals of small instances *)
Notation RX := (RNumT 0 0 1).

Lemma leb_t a b : a <= b -> Rleb a b = true. Proof. intros; destruct (Rleb_spec a b); [reflexivity|contradiction]. Qed.
Lemma leb_f a b : b < a -> Rleb a b = false. Proof. intros; destruct (Rleb_spec a b); [lra|reflexivity]. Qed.
Lemma ltb_t a b : a < b -> Rltb a b = true. Proof. intros; destruct (Rltb_spec a b); [reflexivity|contradiction]. Qed.
Lemma ltb_f a b : b <= a -> Rltb a b = false. Proof. intros; destruct (Rltb_spec a b); [lra|reflexivity]. Qed.
Ltac rside := unfold Rabs; repeat destruct Rcase_abs; lra.
Ltac reval H := repeat (lazy -[Rplus Rmult Rminus Ropp Rabs Rdiv Rinv sqrt Rleb Rltb Reqb IZR] in H;
  match type of H with
  | context [Rleb ?a ?b] => first [rewrite (leb_t a b) in H by rside | rewrite (leb_f a b) in H by rside]
  | context [Rltb ?a ?b] => first [rewrite (ltb_t a b) in H by rside | rewrite (ltb_f a b) in H by rside]
  end); lazy -[Rplus Rmult Rminus Ropp Rabs Rdiv Rinv sqrt Rleb Rltb Reqb IZR] in H.
(** well-formedness of concrete storage, by computation *)
Definition cs_check (n m : Z) (ptr idx : list Z) (lval : Z) : bool :=
  ((0 <=? n) && (0 <=? m) && (n <? zlen ptr) && (0 <=? zn 0 ptr 0) &&
   forallb (fun j => zn 0 ptr j <=? zn 0 ptr (j + 1)) (zseq 0 n) &&
   (zn 0 ptr n <=? zlen idx) && (zn 0 ptr n <=? lval) &&
   forallb (fun p => (0 <=? zn 0 idx p) && (zn 0 idx p <? m)) (zseq (zn 0 ptr 0) (zn 0 ptr n)) &&
   forallb (fun j => forallb (fun p => forallb (fun q => zn 0 idx p <? zn 0 idx q) (zseq (p + 1) (zn 0 ptr (j + 1)))) (zseq (zn 0 ptr j) (zn 0 ptr (j + 1)))) (zseq 0 n))%Z.
Lemma cs_check_ok n m ptr idx (val : list R) : cs_check n m ptr idx (zlen val) = true -> wf_cs n m ptr idx val.
Proof.
  unfold cs_check. rewrite !andb_true_iff, !forallb_forall. intros ((((((((H1 & H2) & H3) & H4) & H5) & H6) & H7) & H8) & H9).
  apply Z.leb_le in H1, H2, H4, H6, H7. apply Z.ltb_lt in H3. constructor; auto.
  - intros j Hj. apply Z.leb_le, H5, In_zseq. lia.
  - intros p Hp. specialize (H8 p ltac:(apply In_zseq; lia)). rewrite andb_true_iff, Z.leb_le, Z.ltb_lt in H8. lia.
  - intros j p q Hj Hp Hq. specialize (H9 j ltac:(apply In_zseq; lia)). rewrite forallb_forall in H9. specialize (H9 p ltac:(apply In_zseq; lia)).
    rewrite forallb_forall in H9. apply Z.ltb_lt, H9, In_zseq. lia.
Qed.

Definition dg_check (n : Z) (ptr idx jd : list Z) : bool :=
  ((n <=? zlen jd) && forallb (fun j => (zn 0 ptr j <=? zn 0 jd j) && (zn 0 jd j <=? zn 0 ptr (j + 1)) &&
     forallb (fun p => zn 0 idx p <? j) (zseq (zn 0 ptr j) (zn 0 jd j)) &&
     forallb (fun p => j <=? zn 0 idx p) (zseq (zn 0 jd j) (zn 0 ptr (j + 1)))) (zseq 0 n))%Z.
Lemma dg_check_ok n ptr idx jd : dg_check n ptr idx jd = true -> diag_info n ptr idx jd.
Proof.
  unfold dg_check. rewrite andb_true_iff, forallb_forall. intros [H1 H2]. split; [now apply Z.leb_le|]. intros j Hj.
  specialize (H2 j ltac:(apply In_zseq; lia)). rewrite !andb_true_iff, !forallb_forall, !Z.leb_le in H2. destruct H2 as [[H2 H3] H4].
  split; [assumption|]. split; intros p Hp; [apply Z.ltb_lt, H3|apply Z.leb_le, H4]; apply In_zseq; lia.
Qed.

Lemma idx1_in n : (2 <= n)%Z -> idx_in [1%Z] n.
Proof. intros Hn k Hk. change (zlen [1%Z]) with 1%Z in Hk. replace k with 0%Z by lia. change (zn 0%Z [1%Z] 0) with 1%Z. lia. Qed.

(** C22: SparseMatrix::times with an uncompressed result reads y[j] in place of
    y[irows->number[j]] when beta <> 0. *)
Theorem C22_sparse_uncompressed_refuted :
  ~ (forall (A : sparseM R) irows li icols lc (alpha : R) (x : list R) (beta : R) (y : list R),
       wf_sparse A -> il_rep irows li -> idx_in li (s_nr A) -> cols_rep icols (s_nc A) lc -> 
       (zlen lc <= zlen x)%Z -> (s_nr A <= zlen y)%Z ->
       exists y' : list R, s_times_idx (N := RX) A irows icols 1 alpha x (zlen lc) beta y (s_nr A) false = Ok y' /\
         forall j, (0 <= j < zlen li)%Z -> zn 0 y' (zn 0%Z li j) = beta * zn 0 y (zn 0%Z li j) +
           alpha * mv (zlen lc) (fun i => smat A (zn 0%Z li j) (zn 0%Z lc i)) (zn 0 x)).
Proof.
  intros H. set (A := @mkSparse R 2 1 [] [0%Z; 0%Z] None []).
  assert (WF : wf_sparse A) by now apply cs_check_ok.
  destruct (H A il1 [1%Z] None (zseq 0 1) 1 [0] 1 [5; 6] WF il1_rep (idx1_in 2 ltac:(lia)) eq_refl) as (y' & E & V); [vm_compute; discriminate|vm_compute; discriminate|].
  specialize (V 0%Z ltac:(unfold zlen; cbn; lia)). change (zn 0%Z [1%Z] 0) with 1%Z in V. reval E. injection E as <-.
  revert V. unfold mv. change (zlen (zseq 0 1)) with 1%Z. rewrite rsum01. change (zn 0%Z (zseq 0 1) 0) with 0%Z. unfold smat, ent. cbn [s_jc A]. change (zn 0%Z [0%Z; 0%Z] (0 + 1)) with 0%Z. 
  change (zn 0%Z [0%Z; 0%Z] 0) with 0%Z. rewrite rsum_empty by lia. znc. lra.
Qed.

(** C22: SparseMatrixRow::times with an uncompressed result and a column list
    writes to the position in the list in place of the row number. *)
Theorem C22_sprow_uncompressed_refuted :
  ~ (forall (A : sprowM R) irows li icols lc (alpha : R) (x : list R) (y : list R),
       wf_sprow A -> il_rep irows li -> idx_in li (r_nr A) -> cols_rep icols (r_nc A) lc -> 
       (zlen lc <= zlen x)%Z -> (r_nr A <= zlen y)%Z ->
       exists y' : list R, r_times_idx (N := RX) A irows icols 1 alpha x (zlen lc) 0 y (r_nr A) false = Ok y' /\
         forall j, (0 <= j < zlen li)%Z -> zn 0 y' (zn 0%Z li j) =
           alpha * mv (zlen lc) (fun i => rmat A (zn 0%Z li j) (zn 0%Z lc i)) (zn 0 x)).
Proof.
  intros H. set (A := @mkSprow R 2 2 [0%Z; 1%Z; 2%Z] [0%Z; 1%Z] None [2; 3]).
  assert (WF : wf_sprow A) by now apply cs_check_ok.
  assert (C : cols_rep (Some il1) 2 [1%Z]) by (split; [apply il1_rep|now apply idx1_in]).
  destruct (H A il1 [1%Z] (Some il1) [1%Z] 1 [1] [5; 6] WF il1_rep (idx1_in 2 ltac:(lia)) C) as (y' & E & V); [unfold zlen; cbn; lia|unfold zlen; cbn; lia|].
  specialize (V 0%Z ltac:(unfold zlen; cbn; lia)). change (zn 0%Z [1%Z] 0) with 1%Z in V. reval E. injection E as <-.
  revert V. unfold mv. change (zlen [1%Z]) with 1%Z. rewrite rsum01. change (zn 0%Z [1%Z] 0) with 1%Z. unfold rmat, ent. cbn [r_jr r_ic r_val A].
  change (zn 0%Z [0%Z; 1%Z; 2%Z] (1 + 1)) with 2%Z. change (zn 0%Z [0%Z; 1%Z; 2%Z] 1) with 1%Z. rewrite rsum_first, rsum_empty by lia. change (zn 0%Z [0%Z; 1%Z] 1 =? 1)%Z with true. cbv iota. znc. lra.
Qed.

(** C22: without a column list several right-hand sides use freed memory *)
Theorem C22_sparse_multi_refuted : exists (A : sparseM R) (x y : list R), wf_sparse A /\
  s_times_idx (N := RX) A il1 None 2 1 x (s_nc A) 0 y 1 true = UB.
Proof.
  exists (@mkSparse R 2 2 [0%Z; 1%Z] [0%Z; 1%Z; 2%Z] None [2; 3]), [1; 1; 1; 1], [0; 0]. split; [now apply cs_check_ok|].
  assert (E : forall r, s_times_idx (N := RX) (@mkSparse R 2 2 [0%Z; 1%Z] [0%Z; 1%Z; 2%Z] None [2; 3]) il1 None 2 1 [1; 1; 1; 1] 2 0 [0; 0] 1 true = r -> r = UB).
  { intros r E. reval E. now symmetry. }
  now apply E.
Qed.

(** C24: the output is cleared on its first xN*xN positions whatever yLD is. *)
Theorem C24_sparse_bilinear_refuted :
  ~ (forall (A : sparseM R) jd icols l (x y : list R) yLD,
       wf_sparse A -> s_jd A = Some jd -> diag_info (s_nc A) (s_jc A) (s_ir A) jd ->
       (forall a b, In a l -> In b l -> smat A a b = smat A b a) -> il_rep icols l -> idx_in l (s_nc A) -> (2 <= yLD)%Z ->
       fits 2 (s_nc A) (s_nc A) (zlen x) -> fits 2 2 yLD (zlen y) ->
       exists y' : list R, s_bilinear (N := RX) A icols 2 x (s_nc A) y yLD = Ok (SUCCESSFUL_RETURN, y') /\
         forall a b, (0 <= a < 2)%Z -> (0 <= b < 2)%Z -> zn 0 y' (addr yLD a b) = bil (smat A) l (vec x (s_nc A) a) (vec x (s_nc A) b)).
Proof.
  intros H. set (A := @mkSparse R 1 1 [0%Z] [0%Z; 1%Z] (Some [0%Z]) [0]).
  assert (WF : wf_sparse A) by now apply cs_check_ok.
  set (e := mkIL [] [] 0 0). assert (Re : il_rep e []) by (split; try reflexivity; cbn; try lia; unfold zlen; cbn; intros; lia).
  destruct (H A [0%Z] e [] [1; 1] [0; 0; 0; 0; 7] 3%Z WF eq_refl) as (y' & E & V); auto; try (unfold fits; unfold zlen; cbn; lia).
  - now apply dg_check_ok.
  - intros k Hk. unfold zlen in Hk. cbn in Hk. lia.
  - reval E. injection E as <-. specialize (V 1%Z 1%Z ltac:(lia) ltac:(lia)). revert V. unfold bil. rewrite rsum_empty by (unfold zlen; cbn; lia). unfold addr. change (1 + 1 * 3)%Z with 4%Z. znc. lra.
Qed.

(** C25: with a missing diagonal entry the diagonal is changed in part ... *)
Theorem C25_sparse_partial_refuted : exists (A A' : sparseM R) jd, wf_sparse A /\ s_jd A = Some jd /\ diag_info (s_nc A) (s_jc A) (s_ir A) jd /\
  s_addToDiag (N := RX) A 1 = Ok (RET_NO_DIAGONAL_AVAILABLE, A') /\ smat A' 0 0 <> smat A 0 0.
Proof.
  exists (@mkSparse R 3 3 [0%Z; 2%Z] [0%Z; 1%Z; 1%Z; 2%Z] (Some [0%Z; 1%Z; 1%Z]) [5; 5]).
  exists (@mkSparse R 3 3 [0%Z; 2%Z] [0%Z; 1%Z; 1%Z; 2%Z] (Some [0%Z; 1%Z; 1%Z]) [5 + 1; 5]), [0%Z; 1%Z; 1%Z].
  split; [now apply cs_check_ok|]. split; [reflexivity|]. split.
  - now apply dg_check_ok.
  - split.
    + assert (E : forall r, s_addToDiag (N := RX) (@mkSparse R 3 3 [0%Z; 2%Z] [0%Z; 1%Z; 1%Z; 2%Z] (Some [0%Z; 1%Z; 1%Z]) [5; 5]) 1 = r ->
        r = Ok (RET_NO_DIAGONAL_AVAILABLE, (@mkSparse R 3 3 [0%Z; 2%Z] [0%Z; 1%Z; 1%Z; 2%Z] (Some [0%Z; 1%Z; 1%Z]) [5 + 1; 5]))).
      { intros r E. reval E. now symmetry. }
      now apply E.
    + unfold smat, ent. cbn [s_jc s_ir s_val Z.add]. change (zn 0%Z [0%Z; 1%Z; 1%Z; 2%Z] 0) with 0%Z. change (zn 0%Z [0%Z; 1%Z; 1%Z; 2%Z] 1) with 1%Z.
      rewrite !rsum01. change (zn 0%Z [0%Z; 2%Z] 0 =? 0)%Z with true. cbv iota. znc. lra.
Qed.
(** ... or an off-diagonal entry is changed. *)
Theorem C25_sparse_offdiag_refuted : exists (A A' : sparseM R) jd, wf_sparse A /\ s_jd A = Some jd /\ diag_info (s_nc A) (s_jc A) (s_ir A) jd /\
  s_addToDiag (N := RX) A 1 = Ok (SUCCESSFUL_RETURN, A') /\ smat A' 0 1 <> smat A 0 1.
Proof.
  exists (@mkSparse R 1 2 [0%Z] [0%Z; 0%Z; 1%Z] (Some [0%Z; 1%Z]) [5]).
  exists (@mkSparse R 1 2 [0%Z] [0%Z; 0%Z; 1%Z] (Some [0%Z; 1%Z]) [5 + 1]), [0%Z; 1%Z].
  split; [now apply cs_check_ok|]. split; [reflexivity|]. split.
  - now apply dg_check_ok.
  - split.
    + assert (E : forall r, s_addToDiag (N := RX) (@mkSparse R 1 2 [0%Z] [0%Z; 0%Z; 1%Z] (Some [0%Z; 1%Z]) [5]) 1 = r ->
        r = Ok (SUCCESSFUL_RETURN, (@mkSparse R 1 2 [0%Z] [0%Z; 0%Z; 1%Z] (Some [0%Z; 1%Z]) [5 + 1]))).
      { intros r E. reval E. now symmetry. }
      now apply E.
    + unfold smat, ent. cbn [s_jc s_ir s_val Z.add Pos.add]. change (zn 0%Z [0%Z; 0%Z; 1%Z] 1) with 0%Z. change (zn 0%Z [0%Z; 0%Z; 1%Z] 2) with 1%Z.
      rewrite !rsum01. change (zn 0%Z [0%Z] 0 =? 0)%Z with true. cbv iota. znc. lra.
Qed.

(** C26: SparseMatrix::getRowNorm( norm,1 ) reads one position past the entries
    of every column. *)
Theorem C26_sparse_getRowNorm_refuted : exists (A : sparseM R) (norm : list R), wf_sparse A /\ (s_nr A <= zlen norm)%Z /\
  s_getRowNorm (N := RX) A norm 1 = UB.
Proof.
  exists (@mkSparse R 1 1 [0%Z] [0%Z; 1%Z] None [2]), [0]. split; [now apply cs_check_ok|]. split; [unfold zlen; cbn; lia|].
  assert (E : forall r, s_getRowNorm (N := RX) (@mkSparse R 1 1 [0%Z] [0%Z; 1%Z] None [2]) [0] 1 = r -> r = UB) by (intros r E; reval E; now symmetry).
  now apply E.
Qed.
(** C26: getRow (getCol of SparseMatrixRow) without an index list and alpha <> 1
    dereferences the null list; with alpha = 1 getCol runs over nCols rows. *)
Theorem C26_null_list_refuted : forall eps zero infty alpha (A : sparseM R) (B : sprowM R) i (out : list R), zero < Rabs (alpha - 1) ->
  s_getRow (N := RNumT eps zero infty) A i None alpha out = UB /\ r_getCol (N := RNumT eps zero infty) B i None alpha out = UB.
Proof. intros eps zero infty alpha A B i out H. unfold s_getRow, r_getCol. rnum. rewrite leb_f by assumption. auto. Qed.
Theorem C26_sprow_getCol_refuted : exists (B : sprowM R) (out : list R), wf_sprow B /\ zlen out = r_nr B /\ r_getCol (N := RX) B 0 None 1 out = UB.
Proof.
  exists (@mkSprow R 1 2 [0%Z; 1%Z] [0%Z] None [2]), [0]. split; [now apply cs_check_ok|]. split; [reflexivity|].
  assert (E : forall r, r_getCol (N := RX) (@mkSprow R 1 2 [0%Z; 1%Z] [0%Z] None [2]) 0 None 1 [0] = r -> r = UB) by (intros r E; reval E; now symmetry).
  now apply E.
Qed.

(** ** Examples: the hypotheses of C21-C26 can be met *)
Definition ex_S : sparseM R := mkSparse 2 2 [0%Z; 1%Z; 0%Z; 1%Z] [0%Z; 2%Z; 4%Z] (Some [0%Z; 3%Z]) [2; 1; 1; 3].
Definition ex_W : sprowM R := mkSprow 2 2 [0%Z; 2%Z; 4%Z] [0%Z; 1%Z; 0%Z; 1%Z] (Some [0%Z; 3%Z]) [2; 1; 1; 3].
Lemma ex_diag : diag_info 2 [0%Z; 2%Z; 4%Z] [0%Z; 1%Z; 0%Z; 1%Z] [0%Z; 3%Z].
Proof. now apply dg_check_ok. Qed.
Example C21_example : exists A full, s_new (N := RX) 2 2 2 [2; 0; 1; 3] [0%Z; 0%Z; 0%Z] [0%Z; 0%Z; 0%Z; 0%Z] [0; 0; 0; 0] = Ok A /\ wf_sparse A /\
  s_full (N := RX) A = Ok full /\ zlen full = 4%Z /\ zn 0 full 2 = 1.
Proof.
  destruct (C21_sparse 0 0 1 2 2 2 [2; 0; 1; 3] [0%Z; 0%Z; 0%Z] [0%Z; 0%Z; 0%Z; 0%Z] [0; 0; 0; 0]) as (A & full & E & _ & _ & WF & _ & _ & F & L & V); try (unfold zlen; cbn; lia); auto.
  exists A, full. repeat apply conj; auto. change 2%Z with (1 * 2 + 0)%Z at 1. rewrite V by lia. reflexivity.
Qed.
Example C22_example : wf_sparse ex_S /\ wf_sprow ex_W /\ s_jd ex_S = Some [0%Z; 3%Z] /\ diag_info (s_nc ex_S) (s_jc ex_S) (s_ir ex_S) [0%Z; 3%Z] /\
  diag_info (r_nr ex_W) (r_jr ex_W) (r_ic ex_W) [0%Z; 3%Z] /\
  (forall i, (0 <= i < s_nr ex_S)%Z -> (0 <= i < s_nc ex_S)%Z -> stored (s_jc ex_S) (s_ir ex_S) i i) /\
  il_rep il1 [1%Z] /\ idx_in [1%Z] (s_nr ex_S) /\ cols_rep (Some il1) (s_nc ex_S) [1%Z] /\ no_negligible 0 1 1 [2] 1 /\
  fits 1 1 1 (zlen [2]) /\ strided 1 1 1 /\ regular 0 2 /\ (forall a b, In a [1%Z] -> In b [1%Z] -> smat ex_S a b = smat ex_S b a).
Proof.
  repeat apply conj; try now apply cs_check_ok. all: try reflexivity; try apply ex_diag; try apply il1_rep; try (apply idx1_in; unfold zlen; cbn; lia); try (now apply regular_exact).
  - cbn. intros i Hi _. assert (i = 0 \/ i = 1)%Z as [-> | ->] by lia; [exists 0%Z|exists 3%Z]; (split; [|reflexivity]);
      (split; [apply Z.leb_le|apply Z.ltb_lt]; reflexivity).
  - intros k i Hk Hi. replace k with 0%Z by lia. replace i with 0%Z by lia. unfold vec. change (0 + 0 * 1)%Z with 0%Z. znc. rewrite Rabs_right; lra.
  - unfold fits. cbn. lia.
  - unfold strided. lia.
  - intros a b [<- | []] [<- | []]. reflexivity.
Qed.
