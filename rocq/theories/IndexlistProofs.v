(** Proofs about Indexlist: refinement to duplicate-free lists. *)
From Verif Require Import Base Types Indexlist.

(** ** Specification: what an index list should be *)

(** Position of [v] in a list, [-1] if absent. *)
Fixpoint spec_pos (l : list Z) (v : Z) : Z :=
  match l with
  | [] => -1
  | h :: t => if h =? v then 0 else let p := spec_pos t v in if p <? 0 then -1 else p + 1
  end.

Definition spec_add (l : list Z) (v : Z) : list Z := l ++ [v].
Fixpoint spec_remove (l : list Z) (v : Z) : list Z :=
  match l with
  | [] => []
  | h :: t => if h =? v then t else h :: spec_remove t v
  end.
Definition spec_swap (l : list Z) (a b : Z) : list Z :=
  map (fun x => if x =? a then b else if x =? b then a else x) l.

(** ** Representation relation *)

Notation zz := (zn 0).

Record il_rep (s : indexlist) (l : list Z) : Prop := {
  rep_len : il_length s = zlen l;
  rep_phys : il_length s <= il_phys s;
  rep_ln : zlen (il_number s) = il_phys s;
  rep_ls : zlen (il_iSort s) = il_phys s;
  rep_val : forall i, 0 <= i < zlen l -> zz (il_number s) i = zz l i;
  rep_rng : forall i, 0 <= i < zlen l -> 0 <= zz (il_iSort s) i < zlen l;
  rep_srt : forall i j, 0 <= i < j -> j < zlen l ->
      zz l (zz (il_iSort s) i) < zz l (zz (il_iSort s) j);
  rep_sur : forall k, 0 <= k < zlen l -> exists i, 0 <= i < zlen l /\ zz (il_iSort s) i = k
}.

Lemma rep_mono s l : il_rep s l -> forall i j, 0 <= i <= j -> j < zlen l ->
  zz l (zz (il_iSort s) i) <= zz l (zz (il_iSort s) j).
Proof.
  intros R i j Hi Hj. destruct (Z.eq_dec i j) as [->|]; [lia|].
  pose proof (rep_srt _ _ R i j). lia.
Qed.

(** *** list facts *)

Lemma spec_pos_range l v : -1 <= spec_pos l v < zlen l.
Proof.
  induction l as [|h t IH]; simpl; [unfold zlen; simpl; lia|].
  rewrite zlen_cons. destruct (h =? v); [pose proof (zlen_nonneg t); lia|].
  destruct (spec_pos t v <? 0) eqn:E; lia.
Qed.

Lemma spec_pos_nonneg_In l v : 0 <= spec_pos l v <-> In v l.
Proof.
  induction l as [|h t IH]; simpl; [lia|].
  destruct (Z.eqb_spec h v) as [->|Hne].
  - split; [auto|lia].
  - destruct (Z.ltb_spec (spec_pos t v) 0).
    + split; [lia|]. intros [?|HIn]; [congruence|]. apply IH in HIn. lia.
    + split; [|lia]. intros _. right. apply IH; lia.
Qed.

Lemma zz_cons_S h t i : 0 <= i -> zz (h :: t) (i + 1) = zz t i.
Proof. unfold zn; intros. replace (Z.to_nat (i + 1)) with (S (Z.to_nat i)) by lia. reflexivity. Qed.

Lemma zz_cons_pos h t i : 0 < i -> zz (h :: t) i = zz t (i - 1).
Proof. intros. replace i with (i - 1 + 1) at 1 by lia. rewrite zz_cons_S by lia. reflexivity. Qed.

Lemma zz_cons_0 h t : zz (h :: t) 0 = h.
Proof. reflexivity. Qed.

Lemma spec_pos_zz l v : 0 <= spec_pos l v -> zz l (spec_pos l v) = v.
Proof.
  induction l as [|h t IH]; simpl; [lia|].
  destruct (Z.eqb_spec h v) as [->|Hne]; [reflexivity|].
  destruct (Z.ltb_spec (spec_pos t v) 0); [lia|]. intros _.
  rewrite zz_cons_S by lia. apply IH; lia.
Qed.

Lemma NoDup_zz l i j : NoDup l -> 0 <= i < zlen l -> 0 <= j < zlen l -> zz l i = zz l j -> i = j.
Proof.
  unfold zn, zlen; intros ND Hi Hj E.
  assert (Z.to_nat i = Z.to_nat j) by (eapply (proj1 (NoDup_nth l 0) ND); lia). lia.
Qed.

Lemma spec_pos_unique l k : NoDup l -> 0 <= k < zlen l -> spec_pos l (zz l k) = k.
Proof.
  intros ND Hk.
  assert (H0 : 0 <= spec_pos l (zz l k)) by (apply spec_pos_nonneg_In, zn_In; lia).
  pose proof (spec_pos_range l (zz l k)).
  apply (NoDup_zz l); auto; try lia. apply spec_pos_zz; lia.
Qed.

Lemma rep_NoDup s l : il_rep s l -> NoDup l.
Proof.
  intros R. apply (NoDup_nth l 0). intros i j Hi Hj E.
  destruct (rep_sur _ _ R (Z.of_nat i)) as (a & Ha & Ea); [unfold zlen; lia|].
  destruct (rep_sur _ _ R (Z.of_nat j)) as (b & Hb & Eb); [unfold zlen; lia|].
  assert (Ez : zz l (Z.of_nat i) = zz l (Z.of_nat j)) by (unfold zn; rewrite !Nat2Z.id; exact E).
  destruct (Z.lt_trichotomy a b) as [Hlt|[->|Hlt]].
  - pose proof (rep_srt _ _ R a b ltac:(lia) ltac:(lia)) as H. rewrite Ea, Eb, Ez in H. lia.
  - rewrite Ea in Eb. lia.
  - pose proof (rep_srt _ _ R b a ltac:(lia) ltac:(lia)) as H. rewrite Ea, Eb, Ez in H. lia.
Qed.

(** ** The functions *)

Ltac reps R :=
  pose proof (rep_len _ _ R) as RL; pose proof (rep_phys _ _ R) as RP; pose proof (rep_ln _ _ R) as RN;
  pose proof (rep_ls _ _ R) as RS.

Lemma rd_sort s l i (Q : Z -> Prop) : il_rep s l -> 0 <= i < zlen l ->
  (0 <= zz (il_iSort s) i < zlen l -> Q (zz (il_iSort s) i)) -> wp (rd (il_iSort s) i) Q.
Proof. intros R Hi HQ. reps R. apply (wp_rd 0); [lia|]. apply HQ. now apply (rep_rng _ _ R). Qed.

Lemma rd_num s l k (Q : Z -> Prop) : il_rep s l -> 0 <= k < zlen l -> Q (zz l k) -> wp (rd (il_number s) k) Q.
Proof. intros R Hk HQ. reps R. apply (wp_rd 0); [lia|]. now rewrite (rep_val _ _ R). Qed.

(** Characterisation of the bisection. *)
Lemma findInsert_spec s l v : il_rep s l ->
  wp (il_findInsert s v) (fun j => -1 <= j < zlen l /\
    (forall i, 0 <= i <= j -> zz l (zz (il_iSort s) i) <= v) /\
    (forall i, j < i < zlen l -> v < zz l (zz (il_iSort s) i))).
Proof.
  intros R. reps R. unfold il_findInsert. pose proof (zlen_nonneg l) as Hn.
  destruct (Z.eqb_spec (il_length s) 0) as [E|E].
  { simpl. repeat split; try lia; intros; lia. }
  apply wp_bind. apply (rd_sort s l); [auto|lia|]; intros Hr0.
  apply wp_bind. apply (rd_num s l); [auto|lia|].
  destruct (Z.ltb_spec v (zz l (zz (il_iSort s) 0))).
  { simpl. repeat split; try lia. intros i Hi. pose proof (rep_mono s l R 0 i). lia. }
  apply wp_bind. apply (rd_sort s l); [auto|lia|]; intros Hrl.
  apply wp_bind. apply (rd_num s l); [auto|lia|].
  destruct (Z.leb_spec (zz l (zz (il_iSort s) (il_length s - 1))) v) as [Hle|Hgt].
  { simpl. repeat split; try lia. intros i Hi. pose proof (rep_mono s l R i (il_length s - 1)). lia. }
  apply wp_bind. unfold il_bisect.
  apply (wp_while (fun '(f, t) => 0 <= f < t /\ t < zlen l /\
            zz l (zz (il_iSort s) f) <= v < zz l (zz (il_iSort s) t))
         (fun '(f, t) => Z.to_nat (t - f))).
  - assert (0 <> il_length s - 1). { intros E0. rewrite <- E0 in Hgt. lia. }
    repeat split; try lia.
  - lia.
  - intros [f t] (Hft & Ht & Hv). simpl.
    destruct (Z.ltb_spec f (t - 1)).
    + rewrite Z.quot_div_nonneg by lia.
      assert (f < (f + t) / 2 < t) by (pose proof (Z.div_mod (f + t) 2); pose proof (Z.mod_pos_bound (f + t) 2); lia).
      apply wp_bind. apply (rd_sort s l); [auto|lia|]; intros Hrm.
      apply wp_bind. apply (rd_num s l); [auto|lia|].
      destruct (Z.leb_spec (zz l (zz (il_iSort s) ((f + t) / 2))) v); simpl; repeat split; lia.
    + assert (t = f + 1) by lia. subst t. simpl. repeat split; try lia.
      * intros i Hi. pose proof (rep_mono s l R i f). lia.
      * intros i Hi. pose proof (rep_mono s l R (f + 1) i). lia.
Qed.

(** Looking up a number at least as large as the smallest stored one is defined
    and correct. *)
Definition il_lookup_ok (l : list Z) (v : Z) : Prop := exists x, In x l /\ x <= v.

Lemma findInsert_found s l v : il_rep s l -> il_lookup_ok l v ->
  wp (il_findInsert s v) (fun j => 0 <= j < zlen l /\
    (forall i, 0 <= i <= j -> zz l (zz (il_iSort s) i) <= v) /\
    (forall i, j < i < zlen l -> v < zz l (zz (il_iSort s) i))).
Proof.
  intros R (x & HIn & Hx). eapply wp_mono; [apply (findInsert_spec s l v R)|].
  intros j (Hj & H1 & H2). simpl. repeat split; try lia; auto.
  destruct (Z.eq_dec j (-1)) as [->|]; [|lia].
  apply (In_zn 0) in HIn as (k & Hk & Ek).
  destruct (rep_sur _ _ R k Hk) as (i & Hi & Ei).
  specialize (H2 i ltac:(lia)). rewrite Ei, Ek in H2. lia.
Qed.

Lemma sort_hit s l v j : il_rep s l -> 0 <= j < zlen l ->
  (forall i, 0 <= i <= j -> zz l (zz (il_iSort s) i) <= v) ->
  (forall i, j < i < zlen l -> v < zz l (zz (il_iSort s) i)) ->
  (In v l <-> zz l (zz (il_iSort s) j) = v).
Proof.
  intros R Hj H1 H2. split.
  - intros HIn. apply (In_zn 0) in HIn as (k & Hk & Ek).
    destruct (rep_sur _ _ R k Hk) as (i & Hi & Ei). subst k.
    destruct (Z_le_gt_dec i j) as [Hle|Hgt].
    + pose proof (rep_mono s l R i j). specialize (H1 j ltac:(lia)). lia.
    + specialize (H2 i ltac:(lia)). lia.
  - intros <-. apply zn_In. now apply (rep_rng _ _ R).
Qed.

Lemma getIndex_spec s l v : il_rep s l -> il_lookup_ok l v ->
  il_getIndex s v = Ok (spec_pos l v).
Proof.
  intros R Hl.
  cut (wp (il_getIndex s v) (fun k => k = spec_pos l v)).
  { intros H. apply wp_inv in H as (a & -> & ->). reflexivity. }
  unfold il_getIndex. apply wp_bind. eapply wp_mono; [apply (findInsert_found s l v R Hl)|].
  intros j (Hj & H1 & H2). simpl.
  apply wp_bind. apply (rd_sort s l); [auto|lia|]; intros Hr.
  apply wp_bind. apply (rd_num s l); [auto|lia|].
  pose proof (sort_hit s l v j R Hj H1 H2) as Hhit.
  destruct (Z.eqb_spec (zz l (zz (il_iSort s) j)) v) as [E|E]; simpl.
  - rewrite <- E. symmetry. apply spec_pos_unique; [now apply (rep_NoDup s)|lia].
  - pose proof (spec_pos_range l v). destruct (Z_le_gt_dec 0 (spec_pos l v)); [|lia].
    exfalso. apply E, Hhit, spec_pos_nonneg_In. lia.
Qed.

(** Every query below the smallest stored number (or on an empty list) reads
    element [-1] of the sorting array. *)
Lemma getIndex_ub s l v : il_rep s l -> ~ il_lookup_ok l v -> il_getIndex s v = UB.
Proof.
  intros R Hl. pose proof (findInsert_spec s l v R) as Hf.
  apply wp_inv in Hf as (j & Ej & Hj & H1 & H2).
  unfold il_getIndex. rewrite Ej. simpl.
  assert (j = -1).
  { destruct (Z.eq_dec j (-1)); [auto|]. exfalso. apply Hl.
    exists (zz l (zz (il_iSort s) j)). split; [|apply H1; lia].
    apply zn_In. apply (rep_rng _ _ R). lia. }
  subst j. rewrite rd_ub by lia. reflexivity.
Qed.

Lemma removeNumber_ub s l v : il_rep s l -> ~ il_lookup_ok l v -> il_removeNumber s v = UB.
Proof.
  intros R Hl. pose proof (findInsert_spec s l v R) as Hf.
  apply wp_inv in Hf as (j & Ej & Hj & H1 & H2).
  unfold il_removeNumber. rewrite Ej. simpl.
  assert (j = -1).
  { destruct (Z.eq_dec j (-1)); [auto|]. exfalso. apply Hl.
    exists (zz l (zz (il_iSort s) j)). split; [|apply H1; lia].
    apply zn_In. apply (rep_rng _ _ R). lia. }
  subst j. rewrite rd_ub by lia. reflexivity.
Qed.

(** *** addNumber *)

Lemma addNumber_full s l v : il_rep s l -> zlen l = il_phys s ->
  il_addNumber s v = Ok (RET_INDEXLIST_EXCEEDS_MAX_LENGTH, s).
Proof.
  intros R H. reps R. unfold il_addNumber. destruct (Z.leb_spec (il_phys s) (il_length s)); [reflexivity|lia].
Qed.

Lemma rep_write_beyond s l v : il_rep s l -> zlen l < il_phys s ->
  il_rep (mkIL (zupd (il_number s) (il_length s) v) (il_iSort s) (il_length s) (il_phys s)) l.
Proof.
  intros R H. reps R. constructor; cbn [il_length il_phys il_number il_iSort]; auto.
  - now rewrite zlen_zupd.
  - intros i Hi. rewrite zn_zupd_ne by lia. now apply (rep_val _ _ R).
  - apply (rep_rng _ _ R).
  - apply (rep_srt _ _ R).
  - apply (rep_sur _ _ R).
Qed.

Lemma addNumber_spec s l v : il_rep s l -> zlen l < il_phys s -> ~ In v l ->
  wp (il_addNumber s v) (fun '(r, s') => r = SUCCESSFUL_RETURN /\ il_rep s' (spec_add l v) /\ il_phys s' = il_phys s).
Proof.
  intros R Hcap Hnew. pose proof (rep_write_beyond s l v R Hcap) as R1. reps R.
  set (s1 := mkIL (zupd (il_number s) (il_length s) v) (il_iSort s) (il_length s) (il_phys s)) in *.
  unfold il_addNumber. destruct (Z.leb_spec (il_phys s) (il_length s)); [lia|].
  apply wp_bind. apply wp_wr; [pose proof (zlen_nonneg l); lia|]. fold s1.
  apply wp_bind. eapply wp_mono; [apply (findInsert_spec s1 l v R1)|].
  intros j (Hj & H1 & H2). simpl.
  cbn [il_iSort s1] in H1, H2.
  apply wp_bind.
  apply (wp_for_dn (fun i a => zlen a = il_phys s /\
     (forall k, 0 <= k <= i -> zz a k = zz (il_iSort s) k) /\
     (forall k, i < k <= zlen l -> zz a k = zz (il_iSort s) (k - 1)))).
  - lia.
  - repeat split; auto. intros; lia.
  - intros i a Hi (Ha & Hlo & Hhi). apply wp_bind. apply (wp_rd 0); [lia|].
    apply wp_wr; [lia|]. repeat split.
    + now rewrite zlen_zupd.
    + intros k Hk. rewrite zn_zupd_ne by lia. apply Hlo; lia.
    + intros k Hk. rewrite zn_zupd by lia. destruct (Z.eqb_spec k i) as [->|].
      * apply Hlo; lia.
      * apply Hhi; lia.
  - intros a (Ha & Hlo & Hhi). apply wp_bind. apply wp_wr; [lia|]. simpl.
    split; [reflexivity|]. split; [|reflexivity].
    unfold spec_add.
    assert (Ll : zlen (l ++ [v]) = zlen l + 1) by (rewrite zlen_app; reflexivity).
    assert (V : forall k, 0 <= k < zlen l -> zz (l ++ [v]) k = zz l k) by (intros; apply zn_app1; lia).
    assert (Vl : zz (l ++ [v]) (zlen l) = v).
    { rewrite zn_app2 by lia. replace (zlen l - zlen l) with 0 by lia. reflexivity. }
    set (b := zupd a (j + 1) (il_length s)).
    assert (B : forall k, 0 <= k <= zlen l -> zz b k =
       if k <=? j then zz (il_iSort s) k else if k =? j + 1 then zlen l else zz (il_iSort s) (k - 1)).
    { intros k Hk. unfold b. rewrite zn_zupd by lia.
      destruct (Z.eqb_spec k (j + 1)) as [E|E]; destruct (Z.leb_spec k j);
        [lia|lia|apply Hlo; lia|apply Hhi; lia]. }
    constructor; cbn [il_length il_phys il_number il_iSort]; rewrite ?Ll.
    + lia.
    + lia.
    + now rewrite zlen_zupd.
    + unfold b. now rewrite zlen_zupd.
    + intros i Hi. rewrite zn_zupd by lia. destruct (Z.eqb_spec i (il_length s)) as [->|].
      * replace (il_length s) with (zlen l) by lia. now rewrite Vl.
      * rewrite V by lia. apply (rep_val _ _ R). lia.
    + intros i Hi. rewrite B by lia.
      destruct (Z.leb_spec i j); [pose proof (rep_rng _ _ R i); lia|].
      destruct (Z.eqb_spec i (j + 1)); [lia|]. pose proof (rep_rng _ _ R (i - 1)). lia.
    + intros p q Hp Hq. rewrite !B by lia.
      assert (Hlt : forall i, 0 <= i <= j -> zz l (zz (il_iSort s) i) < v).
      { intros i Hi. specialize (H1 i Hi). cbn in H1.
        assert (zz l (zz (il_iSort s) i) <> v); [|lia]. intros E. apply Hnew. rewrite <- E.
        apply zn_In, (rep_rng _ _ R). lia. }
      destruct (Z.leb_spec p j), (Z.leb_spec q j); try lia.
      * pose proof (rep_rng _ _ R p). pose proof (rep_rng _ _ R q). rewrite !V by lia. apply (rep_srt _ _ R); lia.
      * pose proof (rep_rng _ _ R p). rewrite (V (zz (il_iSort s) p)) by lia.
        destruct (Z.eqb_spec q (j + 1)).
        -- rewrite Vl. apply Hlt; lia.
        -- pose proof (rep_rng _ _ R (q - 1)). rewrite V by lia. apply (rep_srt _ _ R); lia.
      * destruct (Z.eqb_spec p (j + 1)), (Z.eqb_spec q (j + 1)); try lia.
        -- pose proof (rep_rng _ _ R (q - 1)). rewrite Vl, V by lia. apply H2; lia.
        -- pose proof (rep_rng _ _ R (p - 1)). pose proof (rep_rng _ _ R (q - 1)). rewrite !V by lia. apply (rep_srt _ _ R); lia.
    + intros k Hk. destruct (Z.eq_dec k (zlen l)) as [->|].
      * exists (j + 1). split; [lia|]. rewrite B by lia.
        destruct (Z.leb_spec (j + 1) j); [lia|]. now rewrite Z.eqb_refl.
      * destruct (rep_sur _ _ R k ltac:(lia)) as (i & Hi & Ei).
        destruct (Z_le_gt_dec i j).
        -- exists i. split; [lia|]. rewrite B by lia. destruct (Z.leb_spec i j); [auto|lia].
        -- exists (i + 1). split; [lia|]. rewrite B by lia.
           destruct (Z.leb_spec (i + 1) j); [lia|]. destruct (Z.eqb_spec (i + 1) (j + 1)); [lia|].
           now replace (i + 1 - 1) with i by lia.
Qed.

(** *** removeNumber *)

Lemma spec_remove_notin l v : ~ In v l -> spec_remove l v = l.
Proof.
  induction l as [|h t IH]; simpl; [auto|]. intros H.
  destruct (Z.eqb_spec h v); [exfalso; auto|]. rewrite IH; auto.
Qed.

Lemma spec_remove_len l v : In v l -> zlen (spec_remove l v) = zlen l - 1.
Proof.
  induction l as [|h t IH]; simpl; [tauto|]. intros H.
  destruct (Z.eqb_spec h v); rewrite !zlen_cons; [lia|].
  rewrite IH by (destruct H; congruence). lia.
Qed.

Lemma spec_remove_zz l v k : 0 <= k -> In v l ->
  zz (spec_remove l v) k = if k <? spec_pos l v then zz l k else zz l (k + 1).
Proof.
  revert k. induction l as [|h t IH]; simpl; [tauto|]. intros k Hk HIn.
  destruct (Z.eqb_spec h v) as [->|Hne].
  - destruct (Z.ltb_spec k 0); [lia|]. now rewrite zz_cons_S.
  - assert (Ht : In v t) by (destruct HIn; congruence).
    pose proof (proj2 (spec_pos_nonneg_In t v) Ht).
    destruct (Z.ltb_spec (spec_pos t v) 0); [lia|].
    destruct (Z.eq_dec k 0) as [->|].
    + destruct (Z.ltb_spec 0 (spec_pos t v + 1)); [reflexivity|lia].
    + rewrite zz_cons_pos by lia. rewrite IH by (auto; lia).
      rewrite (zz_cons_pos h t k), (zz_cons_pos h t (k + 1)) by lia.
      replace (k + 1 - 1) with (k - 1 + 1) by lia.
      destruct (Z.ltb_spec (k - 1) (spec_pos t v)), (Z.ltb_spec k (spec_pos t v + 1)); auto; lia.
Qed.

Lemma removeNumber_absent s l v : il_rep s l -> il_lookup_ok l v -> ~ In v l ->
  il_removeNumber s v = Ok (SUCCESSFUL_RETURN, s).
Proof.
  intros R Hl Hno.
  cut (wp (il_removeNumber s v) (fun k => k = (SUCCESSFUL_RETURN, s))).
  { intros H. apply wp_inv in H as (a & -> & ->). reflexivity. }
  unfold il_removeNumber. apply wp_bind. eapply wp_mono; [apply (findInsert_found s l v R Hl)|].
  intros j (Hj & H1 & H2). simpl.
  apply wp_bind. apply (rd_sort s l); [auto|lia|]; intros Hr.
  apply wp_bind. apply (rd_num s l); [auto|lia|].
  pose proof (sort_hit s l v j R Hj H1 H2) as Hhit.
  destruct (Z.eqb_spec (zz l (zz (il_iSort s) j)) v) as [E|E]; simpl; [|reflexivity].
  exfalso. apply Hno, Hhit, E.
Qed.

Lemma removeNumber_spec s l v : il_rep s l -> In v l ->
  wp (il_removeNumber s v) (fun '(r, s') =>
     r = SUCCESSFUL_RETURN /\ il_rep s' (spec_remove l v) /\ il_phys s' = il_phys s).
Proof.
  intros R HIn. reps R. assert (Hl : il_lookup_ok l v) by (exists v; split; [auto|lia]).
  unfold il_removeNumber. apply wp_bind. eapply wp_mono; [apply (findInsert_found s l v R Hl)|].
  intros j (Hj & H1 & H2). simpl.
  apply wp_bind. apply (rd_sort s l); [auto|lia|]; intros Hr.
  set (p := zz (il_iSort s) j) in *.
  apply wp_bind. apply (rd_num s l); [auto|lia|].
  pose proof (proj1 (sort_hit s l v j R Hj H1 H2) HIn) as Hv. fold p in Hv.
  rewrite Hv, Z.eqb_refl. simpl.
  pose proof (rep_NoDup s l R) as ND.
  assert (Hp : spec_pos l v = p) by (rewrite <- Hv; now apply spec_pos_unique).
  assert (Inj : forall a b, 0 <= a < zlen l -> 0 <= b < zlen l ->
             zz (il_iSort s) a = zz (il_iSort s) b -> a = b).
  { intros a b Ha Hb E. destruct (Z.lt_trichotomy a b) as [Hlt|[->|Hlt]]; auto.
    - pose proof (rep_srt _ _ R a b ltac:(lia) ltac:(lia)). rewrite E in *. lia.
    - pose proof (rep_srt _ _ R b a ltac:(lia) ltac:(lia)). rewrite E in *. lia. }
  apply wp_bind.
  apply (wp_for_up (fun i a => zlen a = il_phys s /\
     (forall k, 0 <= k < i -> zz a k = let x := zz (il_iSort s) k in if p <? x then x - 1 else x) /\
     (forall k, i <= k < zlen l -> zz a k = zz (il_iSort s) k))).
  { lia. }
  { repeat split; auto; intros; lia. }
  { intros i a Hi (Ha & Hlo & Hhi). apply wp_bind. apply (wp_rd 0); [lia|].
    rewrite Hhi by lia.
    destruct (Z.ltb_spec p (zz (il_iSort s) i)).
    - apply wp_wr; [lia|]. repeat split.
      + now rewrite zlen_zupd.
      + intros k Hk. rewrite zn_zupd by lia. destruct (Z.eqb_spec k i) as [->|]; cbv zeta.
        * destruct (Z.ltb_spec p (zz (il_iSort s) i)); lia.
        * apply Hlo; lia.
      + intros k Hk. rewrite zn_zupd_ne by lia. apply Hhi; lia.
    - simpl. repeat split; auto.
      + intros k Hk. destruct (Z.eq_dec k i) as [->|]; cbv zeta.
        * rewrite Hhi by lia. destruct (Z.ltb_spec p (zz (il_iSort s) i)); lia.
        * apply Hlo; lia.
      + intros k Hk. apply Hhi; lia. }
  intros a1 (Ha1 & Hs1 & _). replace (il_length s) with (zlen l) in * by lia. cbv zeta in Hs1.
  apply wp_bind.
  apply (wp_for_up (fun i a => zlen a = il_phys s /\
     (forall k, 0 <= k < j -> zz a k = zz a1 k) /\
     (forall k, j <= k < i - 1 -> zz a k = zz a1 (k + 1)) /\
     (forall k, i - 1 <= k < zlen l -> zz a k = zz a1 k))).
  { lia. }
  { repeat split; auto; intros; lia. }
  { intros i a Hi (Ha & HA & HB & HC). apply wp_bind. apply (wp_rd 0); [lia|].
    apply wp_wr; [lia|]. repeat split.
    - now rewrite zlen_zupd.
    - intros k Hk. rewrite zn_zupd_ne by lia. apply HA; lia.
    - intros k Hk. rewrite zn_zupd by lia. destruct (Z.eqb_spec k (i - 1)) as [->|].
      + replace (i - 1 + 1) with i by lia. apply HC; lia.
      + apply HB; lia.
    - intros k Hk. rewrite zn_zupd_ne by lia. apply HC; lia. }
  intros a2 (Ha2 & HA & HB & _).
  apply wp_bind.
  apply (wp_for_up (fun i a => zlen a = il_phys s /\
     (forall k, 0 <= k < p -> zz a k = zz l k) /\
     (forall k, p <= k < i -> zz a k = zz l (k + 1)) /\
     (forall k, i <= k < zlen l -> zz a k = zz l k))).
  { lia. }
  { repeat split; auto; intros; try lia; apply (rep_val _ _ R); lia. }
  { intros i a Hi (Ha & HA' & HB' & HC'). apply wp_bind. apply (wp_rd 0); [lia|].
    apply wp_wr; [lia|]. repeat split.
    - now rewrite zlen_zupd.
    - intros k Hk. rewrite zn_zupd_ne by lia. apply HA'; lia.
    - intros k Hk. rewrite zn_zupd by lia. destruct (Z.eqb_spec k i) as [->|].
      + apply HC'; lia.
      + apply HB'; lia.
    - intros k Hk. rewrite zn_zupd_ne by lia. apply HC'; lia. }
  intros a3 (Ha3 & HA' & HB' & _).
  apply wp_bind. apply wp_wr; [lia|]. simpl. split; [reflexivity|]. split; [|reflexivity].
  pose proof (spec_remove_len l v HIn) as Ll.
  assert (V : forall k, 0 <= k -> zz (spec_remove l v) k = if k <? p then zz l k else zz l (k + 1)).
  { intros k Hk. rewrite (spec_remove_zz l v k Hk HIn), Hp. reflexivity. }
  (* entries of the new sorting array *)
  assert (B : forall k, 0 <= k < zlen l - 1 ->
     exists i, i = (if k <? j then k else k + 1) /\ 0 <= i < zlen l /\ i <> j /\
       zz a2 k = (if p <? zz (il_iSort s) i then zz (il_iSort s) i - 1 else zz (il_iSort s) i) /\
       zz (il_iSort s) i <> p).
  { intros k Hk. exists (if k <? j then k else k + 1). split; [reflexivity|].
    destruct (Z.ltb_spec k j).
    - split; [lia|]. split; [lia|]. split.
      + rewrite HA, Hs1 by lia. reflexivity.
      + intros E. assert (k = j) by (apply Inj; lia). lia.
    - split; [lia|]. split; [lia|]. split.
      + rewrite HB by lia. rewrite Hs1 by lia. reflexivity.
      + intros E. assert (k + 1 = j) by (apply Inj; lia). lia. }
  assert (VB : forall q, 0 <= q < zlen l -> q <> p ->
      zz (spec_remove l v) (if p <? q then q - 1 else q) = zz l q).
  { intros q Hq Hne. destruct (Z.ltb_spec p q).
    - rewrite V by lia. destruct (Z.ltb_spec (q - 1) p); [lia|]. f_equal. lia.
    - rewrite V by lia. destruct (Z.ltb_spec q p); [reflexivity|lia]. }
  constructor; cbn [il_length il_phys il_number il_iSort]; rewrite ?Ll.
  - lia.
  - lia.
  - now rewrite zlen_zupd.
  - assumption.
  - intros i Hi. rewrite zn_zupd_ne by lia. rewrite V by lia.
    destruct (Z.ltb_spec i p); [apply HA'|apply HB']; lia.
  - intros k Hk. destruct (B k Hk) as (i & _ & Hi & _ & -> & Hne).
    pose proof (rep_rng _ _ R i Hi). destruct (Z.ltb_spec p (zz (il_iSort s) i)); lia.
  - intros k1 k2 Hk1 Hk2.
    assert (Hk1' : 0 <= k1 < zlen l - 1) by lia. assert (Hk2' : 0 <= k2 < zlen l - 1) by lia.
    destruct (B k1 Hk1') as (i1 & E1 & Hi1 & Hj1 & -> & Hne1).
    destruct (B k2 Hk2') as (i2 & E2 & Hi2 & Hj2 & -> & Hne2).
    pose proof (rep_rng _ _ R i1 Hi1). pose proof (rep_rng _ _ R i2 Hi2).
    rewrite !VB by auto.
    apply (rep_srt _ _ R); [|exact (proj2 Hi2)].
    clear - E1 E2 Hk1 Hk2 Hj1 Hj2 Hi1 Hi2.
    destruct (Z.ltb_spec k1 j), (Z.ltb_spec k2 j); lia.
  - intros k Hk.
    set (q := if k <? p then k else k + 1).
    assert (Hq : 0 <= q < zlen l /\ q <> p) by (unfold q; destruct (Z.ltb_spec k p); lia).
    destruct (rep_sur _ _ R q (proj1 Hq)) as (i & Hi & Ei).
    assert (Hij : i <> j) by (intros ->; fold p in Ei; lia).
    exists (if i <? j then i else i - 1).
    assert (Hr' : 0 <= (if i <? j then i else i - 1) < zlen l - 1) by (destruct (Z.ltb_spec i j); lia).
    split; [exact Hr'|].
    destruct (B _ Hr') as (i' & Ei' & _ & _ & -> & _).
    assert (Hii : i' = i). { rewrite Ei'. destruct (Z.ltb_spec i j).
      - destruct (Z.ltb_spec i j); lia.
      - destruct (Z.ltb_spec (i - 1) j); lia. }
    subst i'. rewrite Hii, Ei. unfold q. destruct (Z.ltb_spec k p).
    + destruct (Z.ltb_spec p k); lia.
    + destruct (Z.ltb_spec p (k + 1)); lia.
Qed.

(** *** swapNumbers *)

Lemma spec_swap_zz l a b k : 0 <= k < zlen l ->
  zz (spec_swap l a b) k = (let x := zz l k in if x =? a then b else if x =? b then a else x).
Proof. intros. unfold spec_swap. now rewrite (zn_map _ 0) by assumption. Qed.

Lemma swapNumbers_spec s l a b : il_rep s l -> In a l -> In b l ->
  wp (il_swapNumbers s a b) (fun '(r, s') =>
     r = SUCCESSFUL_RETURN /\ il_rep s' (spec_swap l a b) /\ il_phys s' = il_phys s).
Proof.
  intros R Ia Ib. reps R.
  assert (La : il_lookup_ok l a) by (exists a; split; [auto|lia]).
  assert (Lb : il_lookup_ok l b) by (exists b; split; [auto|lia]).
  unfold il_swapNumbers.
  apply wp_bind. eapply wp_mono; [apply (findInsert_found s l a R La)|]. intros i1 (Hi1 & A1 & A2). simpl.
  apply wp_bind. eapply wp_mono; [apply (findInsert_found s l b R Lb)|]. intros i2 (Hi2 & B1 & B2). simpl.
  apply wp_bind. apply (rd_sort s l); [auto|lia|]; intros Hr1.
  apply wp_bind. apply (rd_num s l); [auto|lia|].
  pose proof (proj1 (sort_hit s l a i1 R Hi1 A1 A2) Ia) as Ea. rewrite Ea, Z.eqb_refl. simpl.
  apply wp_bind. apply (rd_sort s l); [auto|lia|]; intros Hr2.
  apply wp_bind. apply (rd_num s l); [auto|lia|].
  pose proof (proj1 (sort_hit s l b i2 R Hi2 B1 B2) Ib) as Eb. rewrite Eb, Z.eqb_refl. simpl.
  set (p1 := zz (il_iSort s) i1) in *. set (p2 := zz (il_iSort s) i2) in *.
  apply wp_bind. apply wp_wr; [lia|]. apply wp_bind. apply wp_wr; [rewrite zlen_zupd; lia|].
  apply wp_bind. apply wp_wr; [lia|]. apply wp_bind. apply wp_wr; [rewrite zlen_zupd; lia|].
  simpl. split; [reflexivity|]. split; [|reflexivity].
  pose proof (rep_NoDup s l R) as ND.
  assert (Inj : forall u w, 0 <= u < zlen l -> 0 <= w < zlen l ->
             zz (il_iSort s) u = zz (il_iSort s) w -> u = w).
  { intros u w Hu Hw E. destruct (Z.lt_trichotomy u w) as [Hlt|[->|Hlt]]; auto.
    - pose proof (rep_srt _ _ R u w ltac:(lia) ltac:(lia)). rewrite E in *. lia.
    - pose proof (rep_srt _ _ R w u ltac:(lia) ltac:(lia)). rewrite E in *. lia. }
  assert (Ll : zlen (spec_swap l a b) = zlen l) by apply zlen_map.
  assert (IJ : i1 = i2 <-> p1 = p2) by (split; [unfold p1, p2; congruence|intros; apply Inj; auto]).
  assert (Pa : forall k, 0 <= k < zlen l -> (zz l k = a <-> k = p1)).
  { intros k Hk. split; [|now intros ->]. intros E. apply (NoDup_zz l); auto; congruence. }
  assert (Pb : forall k, 0 <= k < zlen l -> (zz l k = b <-> k = p2)).
  { intros k Hk. split; [|now intros ->]. intros E. apply (NoDup_zz l); auto; congruence. }
  set (iS := zupd (zupd (il_iSort s) i1 p2) i2 p1).
  assert (S : forall k, 0 <= k < zlen l ->
     zz iS k = if k =? i2 then p1 else if k =? i1 then p2 else zz (il_iSort s) k).
  { intros k Hk. unfold iS. rewrite zn_zupd by (rewrite ?zlen_zupd; lia).
    destruct (Z.eqb_spec k i2); [reflexivity|]. rewrite zn_zupd by lia. reflexivity. }
  assert (SV : forall k, 0 <= k < zlen l ->
     0 <= zz iS k < zlen l /\ zz (spec_swap l a b) (zz iS k) = zz l (zz (il_iSort s) k)).
  { intros k Hk. rewrite S by lia. destruct (Z.eqb_spec k i2) as [->|N2].
    - split; [lia|]. rewrite spec_swap_zz by lia. cbv zeta. rewrite Ea, Z.eqb_refl. fold p2. congruence.
    - destruct (Z.eqb_spec k i1) as [->|N1].
      + split; [lia|]. rewrite spec_swap_zz by lia. cbv zeta. rewrite Eb, Z.eqb_refl. fold p1.
        destruct (Z.eqb_spec b a); congruence.
      + pose proof (rep_rng _ _ R k Hk). split; [lia|]. rewrite spec_swap_zz by lia. cbv zeta.
        destruct (Z.eqb_spec (zz l (zz (il_iSort s) k)) a) as [E|].
        { apply Pa in E; [|lia]. apply Inj in E; [lia|lia|lia]. }
        destruct (Z.eqb_spec (zz l (zz (il_iSort s) k)) b) as [E|].
        { apply Pb in E; [|lia]. apply Inj in E; [lia|lia|lia]. }
        reflexivity. }
  constructor; cbn [il_length il_phys il_number il_iSort]; rewrite ?Ll; try lia.
  - now rewrite !zlen_zupd.
  - unfold iS. now rewrite !zlen_zupd.
  - intros k Hk. rewrite spec_swap_zz by lia. cbv zeta.
    rewrite zn_zupd by (rewrite ?zlen_zupd; lia). rewrite zn_zupd by lia.
    destruct (Z.eqb_spec k p2) as [->|N2].
    + rewrite Eb. destruct (Z.eqb_spec b a); [auto|]. now rewrite Z.eqb_refl.
    + destruct (Z.eqb_spec k p1) as [->|N1].
      * now rewrite Ea, Z.eqb_refl.
      * rewrite (rep_val _ _ R) by lia.
        destruct (Z.eqb_spec (zz l k) a) as [E|]; [apply Pa in E; lia|].
        destruct (Z.eqb_spec (zz l k) b) as [E|]; [apply Pb in E; lia|]. reflexivity.
  - intros k Hk. now apply SV.
  - intros u w Hu Hw. destruct (SV u ltac:(lia)) as [_ ->]. destruct (SV w ltac:(lia)) as [_ ->].
    apply (rep_srt _ _ R); lia.
  - intros k Hk. destruct (Z.eq_dec k p1) as [->|N1].
    { exists i2. split; [lia|]. rewrite S by lia. now rewrite Z.eqb_refl. }
    destruct (Z.eq_dec k p2) as [->|N2].
    { exists i1. split; [lia|]. rewrite S by lia.
      destruct (Z.eqb_spec i1 i2) as [E|]; [apply IJ in E; lia|]. now rewrite Z.eqb_refl. }
    destruct (rep_sur _ _ R k Hk) as (i & Hi & Ei). exists i. split; [lia|]. rewrite S by lia.
    destruct (Z.eqb_spec i i2) as [->|]; [fold p2 in Ei; lia|].
    destruct (Z.eqb_spec i i1) as [->|]; [fold p1 in Ei; lia|]. exact Ei.
Qed.

(** Swapping with an absent (but looked-up safely) number is refused. *)
Lemma swapNumbers_absent s l a b : il_rep s l -> il_lookup_ok l a -> il_lookup_ok l b ->
  ~ (In a l /\ In b l) -> il_swapNumbers s a b = Ok (RET_INDEXLIST_CORRUPTED, s).
Proof.
  intros R La Lb Hno.
  cut (wp (il_swapNumbers s a b) (fun k => k = (RET_INDEXLIST_CORRUPTED, s))).
  { intros H. apply wp_inv in H as (x & -> & ->). reflexivity. }
  unfold il_swapNumbers.
  apply wp_bind. eapply wp_mono; [apply (findInsert_found s l a R La)|]. intros i1 (Hi1 & A1 & A2). simpl.
  apply wp_bind. eapply wp_mono; [apply (findInsert_found s l b R Lb)|]. intros i2 (Hi2 & B1 & B2). simpl.
  apply wp_bind. apply (rd_sort s l); [auto|lia|]; intros Hr1.
  apply wp_bind. apply (rd_num s l); [auto|lia|].
  pose proof (sort_hit s l a i1 R Hi1 A1 A2) as Ea.
  destruct (Z.eqb_spec (zz l (zz (il_iSort s) i1)) a) as [E|E]; simpl; [|reflexivity].
  apply wp_bind. apply (rd_sort s l); [auto|lia|]; intros Hr2.
  apply wp_bind. apply (rd_num s l); [auto|lia|].
  pose proof (sort_hit s l b i2 R Hi2 B1 B2) as Eb.
  destruct (Z.eqb_spec (zz l (zz (il_iSort s) i2)) b) as [E'|E']; simpl; [|reflexivity].
  exfalso. apply Hno. tauto.
Qed.

(** *** Other queries *)

Lemma getNumber_spec s l k : il_rep s l -> 0 <= k < zlen l -> il_getNumber s k = Ok (zz l k).
Proof.
  intros R Hk. reps R. unfold il_getNumber.
  destruct (Z.ltb_spec k 0); [lia|]. destruct (Z.ltb_spec (il_length s) k); [lia|]. simpl.
  rewrite (rd_ok 0) by lia. now rewrite (rep_val _ _ R).
Qed.

Lemma getNumber_refused s l k : il_rep s l -> k < 0 \/ zlen l < k ->
  il_getNumber s k = Ok (- rv_code RET_INDEXLIST_OUTOFBOUNDS).
Proof.
  intros R Hk. reps R. unfold il_getNumber.
  destruct (Z.ltb_spec k 0); simpl; [reflexivity|]. destruct (Z.ltb_spec (il_length s) k); [reflexivity|lia].
Qed.

Lemma getLastNumber_spec s l x : il_rep s (l ++ [x]) -> il_getLastNumber s = Ok x.
Proof.
  intros R. reps R. unfold il_getLastNumber. rewrite zlen_app in *. change (zlen [x]) with 1 in *.
  pose proof (zlen_nonneg l). rewrite (rd_ok 0) by lia.
  rewrite (rep_val _ _ R) by (rewrite zlen_app; change (zlen [x]) with 1; lia).
  rewrite zn_app2 by lia. replace (il_length s - 1 - zlen l) with 0 by lia. reflexivity.
Qed.

Lemma rep_init n jn js : 0 <= n -> zlen jn = n -> zlen js = n ->
  il_rep (snd (il_init n jn js)) [] /\ fst (il_init n jn js) = SUCCESSFUL_RETURN.
Proof.
  intros Hn H1 H2. unfold il_init. destruct (Z.ltb_spec n 0); [lia|]. simpl. split; [|reflexivity].
  constructor; simpl; auto; unfold zlen; simpl; intros; lia.
Qed.

Lemma rep_new n : 0 <= n -> il_rep (il_new n) [].
Proof.
  intros Hn. constructor; simpl; rewrite ?zlen_repeat; auto; try lia; unfold zlen; simpl; intros; lia.
Qed.

(** *** Copies *)

Lemma copy_spec s jn js : zlen (il_number s) = il_phys s -> zlen (il_iSort s) = il_phys s ->
  0 <= il_phys s -> zlen jn = il_phys s -> zlen js = il_phys s ->
  il_copy s jn js = Ok s.
Proof.
  intros Ln Ls Hp Lj Lk. unfold il_copy.
  destruct (Z.eqb_spec (zlen (il_number s)) 0) as [E|E].
  - assert (il_number s = []) as En by (destruct (il_number s); [auto|rewrite zlen_cons in E; pose proof (zlen_nonneg l); lia]).
    assert (il_iSort s = []) as Es by (destruct (il_iSort s) as [|z l]; [auto|rewrite zlen_cons in *; pose proof (zlen_nonneg l); lia]).
    destruct s; simpl in *; subst; reflexivity.
  - assert (L : forall (src dst : list Z), zlen src = il_phys s -> zlen dst = il_phys s ->
       for_up 0 (il_phys s) (fun i a => v <- rd src i ;; wr a i v) dst = Ok src).
    { intros src dst H1 H2.
      cut (wp (for_up 0 (il_phys s) (fun i a => v <- rd src i ;; wr a i v) dst) (fun a => a = src)).
      { intros H. apply wp_inv in H as (x & -> & ->). reflexivity. }
      apply (wp_for_up (fun i a => zlen a = il_phys s /\ forall k, 0 <= k < i -> zz a k = zz src k)); auto.
      - split; [auto|intros; lia].
      - intros i a Hi (Ha & HI). apply wp_bind. apply (wp_rd 0); [lia|]. apply wp_wr; [lia|].
        split; [now rewrite zlen_zupd|]. intros k Hk. rewrite zn_zupd by lia.
        destruct (Z.eqb_spec k i) as [->|]; [reflexivity|apply HI; lia].
      - intros a (Ha & HI). apply (list_ext_zn 0); [lia|]. intros i Hi. apply HI; lia. }
    rewrite (L (il_number s) jn) by auto. simpl. rewrite (L (il_iSort s) js) by auto. simpl.
    now destruct s.
Qed.
