(** Proof tools for the matrix code over the reals: loops that add to an array,
    loops that transform distinct positions, sums over index lists. *)
From Verif Require Import Base Types Num Indexlist IndexlistProofs RSum Utils Matrices.
From Coq Require Import Permutation.
Local Open Scope R_scope.

(** evaluate [zn] on a literal list at a literal index *)
Ltac znc := repeat match goal with |- context [@zn ?A ?d ?l ?i] =>
  let n := eval compute in (Z.to_nat i) in let v := eval cbn [nth] in (@nth A n l d) in change (@zn A d l i) with v end.

(** ** Additive updates *)

(** [m] adds [g q] to position q of every array of length L. *)
Definition adds (m : list R -> res (list R)) (L : Z) (g : Z -> R) : Prop :=
  forall s, zlen s = L -> exists s', m s = Ok s' /\ zlen s' = L /\ forall q, (0 <= q)%Z -> zn 0 s' q = zn 0 s q + g q.

Lemma adds_ext m L g g' : adds m L g -> (forall q, (0 <= q)%Z -> g q = g' q) -> adds m L g'.
Proof.
  intros H E s Hs. destruct (H s Hs) as (s' & E1 & E2 & E3). exists s'. repeat split; auto.
  intros q Hq. rewrite <- E by assumption. auto.
Qed.

Lemma adds_id L : adds (fun s => Ok s) L (fun _ => 0).
Proof. intros s Hs. exists s. repeat split; auto. intros. lra. Qed.

Lemma adds_ext_m m m' L g : (forall s, zlen s = L -> m s = m' s) -> adds m' L g -> adds m L g.
Proof. intros E H s Hs. rewrite E by assumption. auto. Qed.

Lemma adds_bind m1 m2 L g1 g2 : adds m1 L g1 -> adds m2 L g2 -> adds (fun s => bind (m1 s) m2) L (fun q => g1 q + g2 q).
Proof.
  intros H1 H2 s Hs. destruct (H1 s Hs) as (s1 & E1 & L1 & V1). destruct (H2 s1 L1) as (s2 & E2 & L2 & V2).
  exists s2. rewrite E1. cbn [bind]. repeat split; auto. intros q Hq. rewrite V2, V1 by assumption. lra.
Qed.

Lemma adds_for lo hi body L g :
  (forall i, (lo <= i < hi)%Z -> adds (body i) L (g i)) ->
  adds (for_up lo hi body) L (fun q => rsum lo hi (fun i => g i q)).
Proof.
  intros H s Hs. destruct (Z.le_gt_cases lo hi) as [Hle|Hgt].
  - assert (W : wp (for_up lo hi body s) (fun s' => zlen s' = L /\ forall q, (0 <= q)%Z -> zn 0 s' q = zn 0 s q + rsum lo hi (fun i => g i q))).
    { apply wp_for_up with (I := fun k s' => zlen s' = L /\ forall q, (0 <= q)%Z -> zn 0 s' q = zn 0 s q + rsum lo k (fun i => g i q)); auto.
      - split; [assumption|]. intros q _. rewrite rsum_empty by lia. lra.
      - intros i s1 Hi [L1 V1]. destruct (H i Hi s1 L1) as (s2 & E2 & L2 & V2). rewrite E2. split; [assumption|].
        intros q Hq. rewrite rsum_last by lia. rewrite V2, V1 by assumption. lra. }
    apply wp_inv in W as (s' & E & L' & V). exists s'. auto.
  - exists s. unfold for_up. replace (Z.to_nat (hi - lo)) with 0%nat by lia. repeat split; auto.
    intros q _. rewrite rsum_empty by lia. lra.
Qed.

Lemma adds_rows xN n f L g :
  (forall k j, (0 <= k < xN)%Z -> (0 <= j < n)%Z -> adds (f k j) L (g k j)) ->
  adds (rows (N := RNum) xN n f) L (fun q => rsum 0 xN (fun k => rsum 0 n (fun j => g k j q))).
Proof. intros H. unfold rows. apply adds_for. intros k Hk. apply adds_for. intros j Hj. auto. Qed.

(** a sum of which only terms meeting a condition count *)
Lemma rsum_if lo hi (b : bool) f : rsum lo hi (fun i => if b then f i else 0) = if b then rsum lo hi f else 0.
Proof. destruct b; [reflexivity|]. apply rsum_0. auto. Qed.

(** one addressed position among xN*n distinct ones *)
Definition distinct (xN n : Z) (ad : Z -> Z -> Z) : Prop :=
  forall k j k' j', (0 <= k < xN)%Z -> (0 <= j < n)%Z -> (0 <= k' < xN)%Z -> (0 <= j' < n)%Z ->
    ad k j = ad k' j' -> k = k' /\ j = j'.
Definition unaddressed (xN n : Z) (ad : Z -> Z -> Z) (q : Z) : Prop :=
  forall k j, (0 <= k < xN)%Z -> (0 <= j < n)%Z -> q <> ad k j.

Lemma rows_hit xN n ad S k j : distinct xN n ad -> (0 <= k < xN)%Z -> (0 <= j < n)%Z ->
  rsum 0 xN (fun k' => rsum 0 n (fun j' => if (ad k j =? ad k' j')%Z then S k' j' else 0)) = S k j.
Proof.
  intros D Hk Hj. rewrite (rsum_delta 0 xN k); [|assumption|].
  - rewrite (rsum_delta 0 n j); [|assumption|].
    + now rewrite Z.eqb_refl.
    + intros j' Hj' Hne. destruct (Z.eqb_spec (ad k j) (ad k j')) as [E|]; [|reflexivity].
      apply D in E; auto. destruct E. congruence.
  - intros k' Hk' Hne. apply rsum_0. intros j' Hj'. destruct (Z.eqb_spec (ad k j) (ad k' j')) as [E|]; [|reflexivity].
    apply D in E; auto. destruct E. congruence.
Qed.

Lemma rows_miss xN n ad S q : unaddressed xN n ad q ->
  rsum 0 xN (fun k' => rsum 0 n (fun j' => if (q =? ad k' j')%Z then S k' j' else 0)) = 0.
Proof.
  intros U. apply rsum_0. intros k Hk. apply rsum_0. intros j Hj.
  destruct (Z.eqb_spec q (ad k j)) as [E|]; [|reflexivity]. now apply U in E.
Qed.

(** ** Updates of distinct positions *)

Lemma rows_map xN n ad (f : Z -> Z -> list R -> res (list R)) (h : Z -> Z -> R -> R) (y : list R) :
  (0 <= xN)%Z -> (0 <= n)%Z -> distinct xN n ad ->
  (forall k j, (0 <= k < xN)%Z -> (0 <= j < n)%Z -> (0 <= ad k j < zlen y)%Z) ->
  (forall k j s, (0 <= k < xN)%Z -> (0 <= j < n)%Z -> zlen s = zlen y -> f k j s = Ok (zupd s (ad k j) (h k j (zn 0 s (ad k j))))) ->
  exists y', rows (N := RNum) xN n f y = Ok y' /\ zlen y' = zlen y /\
    (forall k j, (0 <= k < xN)%Z -> (0 <= j < n)%Z -> zn 0 y' (ad k j) = h k j (zn 0 y (ad k j))) /\
    (forall q, (0 <= q)%Z -> unaddressed xN n ad q -> zn 0 y' q = zn 0 y q).
Proof.
  intros HxN Hn D B F.
  set (J := fun k0 j0 (y' : list R) => zlen y' = zlen y /\
    (forall k j, (0 <= k < xN)%Z -> (0 <= j < n)%Z -> zn 0 y' (ad k j) =
       if (k <? k0)%Z || (k =? k0)%Z && (j <? j0)%Z then h k j (zn 0 y (ad k j)) else zn 0 y (ad k j)) /\
    (forall q, (0 <= q)%Z -> unaddressed xN n ad q -> zn 0 y' q = zn 0 y q)).
  assert (W : wp (rows (N := RNum) xN n f y) (J xN 0%Z)).
  { unfold rows. apply wp_for_up with (I := fun k s => J k 0%Z s); [assumption| | |auto].
    - split; [reflexivity|]. split; [|auto]. intros k j Hk Hj.
      destruct (Z.ltb_spec k 0); [lia|]. destruct (Z.ltb_spec j 0); [lia|]. now rewrite andb_false_r.
    - intros k s Hk HJ. apply wp_for_up with (I := fun j s => J k j s); [assumption|assumption| |].
      + clear s HJ. intros j s Hj (L1 & V1 & U1). rewrite F by assumption. cbn [wp]. pose proof (B k j Hk Hj) as Hb.
        split; [now rewrite zlen_zupd|]. split.
        * intros k' j' Hk' Hj'. destruct (Z.eq_dec (ad k' j') (ad k j)) as [E|NE].
          -- apply D in E; auto. destruct E as [-> ->]. rewrite zn_zupd_eq by lia. rewrite V1 by assumption.
             rewrite Z.ltb_irrefl, Z.eqb_refl. cbn [orb andb]. rewrite Z.ltb_irrefl. destruct (Z.ltb_spec j (j + 1)); [reflexivity|lia].
          -- pose proof (B k' j' Hk' Hj'). rewrite zn_zupd_ne by lia. rewrite V1 by assumption.
             destruct (Z.ltb_spec k' k); [reflexivity|]. destruct (Z.eqb_spec k' k) as [->|]; [|reflexivity]. cbn [orb andb].
             destruct (Z.ltb_spec j' j), (Z.ltb_spec j' (j + 1)); auto; try lia. assert (j' = j) by lia. subst. congruence.
        * intros q Hq Hu. rewrite zn_zupd_ne; [auto|lia|lia|]. apply Hu; assumption.
      + intros s' (L1 & V1 & U1). split; [assumption|]. split; [|assumption]. intros k' j' Hk' Hj'. rewrite V1 by assumption.
        destruct (Z.ltb_spec k' k), (Z.ltb_spec k' (k + 1)), (Z.eqb_spec k' k), (Z.eqb_spec k' (k + 1)), (Z.ltb_spec j' n), (Z.ltb_spec j' 0);
          cbn [orb andb]; auto; lia. }
  apply wp_inv in W as (y' & E & L' & V & U). exists y'. split; [exact E|]. split; [assumption|]. split; [|assumption].
  intros k j Hk Hj. rewrite V by assumption. destruct (Z.ltb_spec k xN); [reflexivity|lia].
Qed.

(** ** Strided vectors *)

(** the columns of an n x xN array with leading dimension ld do not overlap *)
Definition strided (xN n ld : Z) : Prop := (xN <= 1)%Z \/ (n <= ld)%Z.

Lemma distinct_strided xN n ld (t : Z -> Z) m : strided xN m ld ->
  (forall j, (0 <= j < n)%Z -> (0 <= t j < m)%Z) ->
  (forall j j', (0 <= j < n)%Z -> (0 <= j' < n)%Z -> t j = t j' -> j = j') ->
  distinct xN n (fun k j => (t j + k * ld)%Z).
Proof.
  intros S R I k j k' j' Hk Hj Hk' Hj' E.
  assert (K : k = k').
  { destruct S as [S|S]; [lia|]. pose proof (R j Hj). pose proof (R j' Hj').
    destruct (Z.lt_total k k') as [L|[L|L]]; [|assumption|]; exfalso.
    - assert ((k + 1) * ld <= k' * ld)%Z by (apply Z.mul_le_mono_nonneg_r; lia). lia.
    - assert ((k' + 1) * ld <= k * ld)%Z by (apply Z.mul_le_mono_nonneg_r; lia). lia. }
  split; [assumption|]. subst k'. apply I; auto. lia.
Qed.

(** ** Index lists *)

Definition idx_in (l : list Z) (n : Z) : Prop := forall k, (0 <= k < zlen l)%Z -> (0 <= zn 0%Z l k < n)%Z.

Lemma iSort_perm s l : il_rep s l ->
  Permutation (map (fun i => zn 0%Z (il_iSort s) i) (zseq 0 (zlen l))) (zseq 0 (zlen l)).
Proof.
  intros Rp. apply NoDup_Permutation_bis.
  - apply NoDup_nth_error. intros i j Hi E. rewrite map_length in Hi.
    assert (Li : length (zseq 0 (zlen l)) = Z.to_nat (zlen l)).
    { pose proof (zlen_zseq 0 (zlen l)). unfold zlen in *. lia. }
    rewrite Li in Hi. rewrite !nth_error_map in E.
    assert (Ni : forall k, (k < Z.to_nat (zlen l))%nat -> nth_error (zseq 0 (zlen l)) k = Some (Z.of_nat k)).
    { intros k Hk. destruct (nth_error (zseq 0 (zlen l)) k) as [v|] eqn:Ev.
      - f_equal. pose proof (zn_zseq 0%Z 0 (zlen l) (Z.of_nat k) ltac:(lia)) as Z0. unfold zn in Z0. rewrite Nat2Z.id in Z0.
        apply nth_error_nth with (d := 0%Z) in Ev. lia.
      - apply nth_error_None in Ev. lia. }
    rewrite (Ni i Hi) in E. cbn [option_map] in E.
    destruct (nth_error (zseq 0 (zlen l)) j) as [v|] eqn:Ev; [|discriminate].
    assert (Hj : (j < Z.to_nat (zlen l))%nat) by (rewrite <- Li; apply nth_error_Some; congruence).
    rewrite (Ni j Hj) in Ev. injection Ev as <-. cbn [option_map] in E. injection E as E.
    destruct (Nat.lt_total i j) as [L|[L|L]]; [exfalso|assumption|exfalso].
    + pose proof (rep_srt _ _ Rp (Z.of_nat i) (Z.of_nat j)). rewrite E in H. lia.
    + pose proof (rep_srt _ _ Rp (Z.of_nat j) (Z.of_nat i)). rewrite E in H. lia.
  - rewrite map_length. lia.
  - intros v Hv. apply in_map_iff in Hv as (i & <- & Hi). apply In_zseq in Hi. apply In_zseq.
    apply (rep_rng _ _ Rp). assumption.
Qed.

Lemma lsum_map l h f : lsum (map h l) f = lsum l (fun i => f (h i)).
Proof. induction l as [|a l IH]; [reflexivity|]. cbn [map lsum]. now rewrite IH. Qed.

Lemma rsum_iSort s l f : il_rep s l -> rsum 0 (zlen l) (fun i => f (zn 0%Z (il_iSort s) i)) = rsum 0 (zlen l) f.
Proof. intros Rp. unfold rsum. rewrite <- lsum_map. apply lsum_perm, iSort_perm, Rp. Qed.

Lemma rd_iSort s l i : il_rep s l -> (0 <= i < zlen l)%Z -> rd (il_iSort s) i = Ok (zn 0%Z (il_iSort s) i).
Proof. intros Rp Hi. apply rd_ok. rewrite (rep_ls _ _ Rp). pose proof (rep_len _ _ Rp). pose proof (rep_phys _ _ Rp). lia. Qed.
Lemma rd_number s l i : il_rep s l -> (0 <= i < zlen l)%Z -> rd (il_number s) i = Ok (zn 0%Z l i).
Proof.
  intros Rp Hi. rewrite (rd_ok 0%Z).
  - now rewrite (rep_val _ _ Rp).
  - rewrite (rep_ln _ _ Rp). pose proof (rep_len _ _ Rp). pose proof (rep_phys _ _ Rp). lia.
Qed.

(** ** The scalar cases *)
Section Scalars.
Variables eps zero infty : R.
Notation N := (RNumT eps zero infty).

(** The value by which the code really multiplies: scalars within ZERO of 1,
    -1 (and 0 for beta) are treated as these. *)
Definition snapA (a : R) : R := if Rleb (Rabs (a - 1)) zero then 1 else if Rleb (Rabs (a - - (1))) zero then - (1) else a.
Definition snapB (b : R) : R :=
  if Rleb (Rabs b) zero then 0 else if Rleb (Rabs (b - - (1))) zero then - (1) else if Rleb (Rabs (b - 1)) zero then 1 else b.

(** a scalar that is 0, 1, -1 or not within ZERO of these *)
Definition regular (c : R) : Prop := forall d, d = 0 \/ d = 1 \/ d = - (1) -> Rabs (c - d) <= zero -> c = d.

Lemma snapA_regular c : 0 <= zero -> regular c -> snapA c = c.
Proof.
  intros H0 Hr. unfold snapA. destruct (Rleb_spec (Rabs (c - 1)) zero) as [L|L].
  - symmetry. apply Hr; auto.
  - destruct (Rleb_spec (Rabs (c - - (1))) zero) as [L'|L']; [|reflexivity]. symmetry. apply Hr; auto.
Qed.
Lemma snapB_regular c : 0 <= zero -> regular c -> snapB c = c.
Proof.
  intros H0 Hr. unfold snapB. destruct (Rleb_spec (Rabs c) zero) as [L|L].
  - symmetry. apply Hr; auto. now rewrite Rminus_0_r.
  - destruct (Rleb_spec (Rabs (c - - (1))) zero) as [L'|L']; [symmetry; apply Hr; auto|].
    destruct (Rleb_spec (Rabs (c - 1)) zero) as [L2|L2]; [symmetry; apply Hr; auto|reflexivity].
Qed.

Lemma regular_exact c : zero = 0 -> regular c.
Proof.
  intros -> d _ H. assert (c - d = 0); [|lra]. destruct (Req_dec (c - d) 0) as [E|E]; [assumption|].
  apply Rabs_pos_lt in E. lra.
Qed.
Lemma regular_01 : 0 <= zero < 1 -> regular 0 /\ regular 1 /\ regular (- (1)).
Proof.
  intros Hz. repeat split; intros d [-> | [-> | ->]]; unfold Rabs; destruct (Rcase_abs _); lra.
Qed.

Lemma acc_snap alpha a v x : acc (N := N) alpha a v x = a + snapA alpha * (v * x).
Proof.
  unfold acc, snapA. rnum. destruct (Rleb_spec (Rabs (alpha - 1)) zero); [ring|].
  destruct (Rleb_spec (Rabs (alpha - - (1))) zero); ring.
Qed.

Lemma scaled_snap alpha v : scaled (N := N) alpha v = snapA alpha * v.
Proof.
  unfold scaled, snapA. rnum. destruct (Rleb_spec (Rabs (alpha - 1)) zero); [lra|].
  destruct (Rleb_spec (Rabs (alpha - - (1))) zero); lra.
Qed.

Lemma adds_accum alpha L p v x : (0 <= p < L)%Z ->
  adds (fun y => accum (N := N) alpha y p v x) L (fun q => if (q =? p)%Z then snapA alpha * (v * x) else 0).
Proof.
  intros Hp s Hs. unfold accum. rcar. rewrite (rd_ok 0) by lia. cbn [bind]. rewrite wr_ok by lia.
  eexists. split; [reflexivity|]. split; [now rewrite zlen_zupd|]. intros q Hq. rewrite zn_zupd by lia.
  rewrite acc_snap. destruct (Z.eqb_spec q p) as [->|]; lra.
Qed.

Lemma beta_pass_spec xN n tgt src (t : Z -> Z) beta (y : list R) yLD :
  (0 <= xN)%Z -> (0 <= n)%Z ->
  (forall j, (0 <= j < n)%Z -> tgt j = Ok (t j)) -> (forall j, (0 <= j < n)%Z -> src j = Ok (t j)) \/ Rabs (beta - - (1)) > zero \/ Rabs beta <= zero ->
  distinct xN n (fun k j => (t j + k * yLD)%Z) ->
  (forall k j, (0 <= k < xN)%Z -> (0 <= j < n)%Z -> (0 <= t j + k * yLD < zlen y)%Z) ->
  exists y', beta_pass (N := N) xN n tgt src beta y yLD = Ok y' /\ zlen y' = zlen y /\
    (forall k j, (0 <= k < xN)%Z -> (0 <= j < n)%Z -> zn 0 y' (t j + k * yLD) = snapB beta * zn 0 y (t j + k * yLD)) /\
    (forall q, (0 <= q)%Z -> unaddressed xN n (fun k j => (t j + k * yLD)%Z) q -> zn 0 y' q = zn 0 y q).
Proof.
  intros HxN Hn Ht Hs D B. unfold beta_pass, snapB. rnum.
  destruct (Rleb_spec (Rabs beta) zero) as [Lz|Lz]; [|destruct (Rleb_spec (Rabs (beta - - (1))) zero) as [Lm|Lm]; [|destruct (Rleb_spec (Rabs (beta - 1)) zero) as [L1|L1]]].
  - destruct (rows_map xN n (fun k j => (t j + k * yLD)%Z) (fun k j y => t <- tgt j ;; wr y (t + k * yLD) 0) (fun _ _ _ => 0) y) as (y' & E & L & V & U); auto.
    { intros k j s Hk Hj Hl. rewrite Ht by assumption. cbn [bind]. apply wr_ok. rewrite Hl. auto. }
    exists y'. split; [exact E|]. split; [assumption|]. split; [|assumption]. intros. rewrite V by assumption. lra.
  - assert (Hs' : forall j, (0 <= j < n)%Z -> src j = Ok (t j)) by (destruct Hs as [Hs|[Hs|Hs]]; [assumption|lra|lra]).
    destruct (rows_map xN n (fun k j => (t j + k * yLD)%Z)
      (fun k j y => t <- tgt j ;; s <- src j ;; v <- rd y (s + k * yLD) ;; wr y (t + k * yLD) (- v)) (fun _ _ v => - v) y) as (y' & E & L & V & U); auto.
    { intros k j s Hk Hj Hl. rewrite Ht, Hs' by assumption. cbn [bind]. specialize (B k j Hk Hj).
      rewrite (rd_ok 0) by lia. cbn [bind]. apply wr_ok. lia. }
    exists y'. split; [exact E|]. split; [assumption|]. split; [|assumption]. intros. rewrite V by assumption. lra.
  - exists y. cbn [negb]. repeat split; auto. intros. lra.
  - cbn [negb]. destruct (rows_map xN n (fun k j => (t j + k * yLD)%Z)
      (fun k j y => t <- tgt j ;; v <- rd y (t + k * yLD) ;; wr y (t + k * yLD) (v * beta)) (fun _ _ v => v * beta) y) as (y' & E & L & V & U); auto.
    { intros k j s Hk Hj Hl. rewrite Ht by assumption. cbn [bind]. specialize (B k j Hk Hj).
      rewrite (rd_ok 0) by lia. cbn [bind]. apply wr_ok. lia. }
    exists y'. split; [exact E|]. split; [assumption|]. split; [|assumption]. intros. rewrite V by assumption. lra.
Qed.

(** ** Products *)

(** y' = b*y + S on the addressed positions, y elsewhere. *)
Definition updated (xN n : Z) (ad : Z -> Z -> Z) (y y' : list R) (b : R) (S : Z -> Z -> R) : Prop :=
  zlen y' = zlen y /\
  (forall k j, (0 <= k < xN)%Z -> (0 <= j < n)%Z -> zn 0 y' (ad k j) = b * zn 0 y (ad k j) + S k j) /\
  (forall q, (0 <= q)%Z -> unaddressed xN n ad q -> zn 0 y' q = zn 0 y q).

Lemma product xN n tgt src t beta (y : list R) yLD m g S :
  (0 <= xN)%Z -> (0 <= n)%Z ->
  (forall j, (0 <= j < n)%Z -> tgt j = Ok (t j)) -> (forall j, (0 <= j < n)%Z -> src j = Ok (t j)) \/ Rabs (beta - - (1)) > zero \/ Rabs beta <= zero ->
  distinct xN n (fun k j => (t j + k * yLD)%Z) ->
  (forall k j, (0 <= k < xN)%Z -> (0 <= j < n)%Z -> (0 <= t j + k * yLD < zlen y)%Z) ->
  adds m (zlen y) g ->
  (forall q, (0 <= q)%Z -> g q = rsum 0 xN (fun k => rsum 0 n (fun j => if (q =? t j + k * yLD)%Z then S k j else 0))) ->
  exists y', bind (beta_pass (N := N) xN n tgt src beta y yLD) m = Ok y' /\
    updated xN n (fun k j => (t j + k * yLD)%Z) y y' (snapB beta) S.
Proof.
  intros HxN Hn Ht Hs D B A G.
  destruct (beta_pass_spec xN n tgt src t beta y yLD HxN Hn Ht Hs D B) as (y1 & E1 & L1 & V1 & U1).
  destruct (A y1 L1) as (y2 & E2 & L2 & V2). exists y2. rcar. rewrite E1. cbn [bind]. split; [exact E2|]. split; [assumption|]. split.
  - intros k j Hk Hj. specialize (B k j Hk Hj). rewrite V2, V1, G by lia.
    rewrite (rows_hit xN n (fun k j => (t j + k * yLD)%Z)) by assumption. reflexivity.
  - intros q Hq Hu. rewrite V2, U1, G by assumption. rewrite rows_miss by assumption. lra.
Qed.
End Scalars.
