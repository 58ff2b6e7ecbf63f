(** Proofs about SubjectTo / Bounds / Constraints. *)
From Verif Require Import Base Types Indexlist IndexlistProofs SubjectTo.
From Coq Require Import FinFun.

Definition sNIL := ST_UNDEFINED.
Notation zs := (zn ST_UNDEFINED).
Notation zt := (zn ST_UNKNOWN).

(** Contents of an index list as seen through getNumberArray/getLength. *)
Definition il_numbers (s : indexlist) : list Z := firstn (Z.to_nat (il_length s)) (il_number s).

Lemma rep_numbers s l : il_rep s l -> il_numbers s = l.
Proof.
  intros R. reps R. unfold il_numbers. pose proof (zlen_nonneg l).
  assert (L : zlen (firstn (Z.to_nat (il_length s)) (il_number s)) = zlen l).
  { unfold zlen in *. rewrite firstn_length. lia. }
  apply (list_ext_zn 0); [exact L|]. intros i Hi. rewrite L in Hi.
  rewrite <- (rep_val _ _ R) by lia. unfold zn.
  rewrite <- (firstn_skipn (Z.to_nat (il_length s)) (il_number s)) at 2.
  rewrite app_nth1; [reflexivity|]. unfold zlen in *. rewrite firstn_length. lia.
Qed.

(** ** Pigeonhole *)

Definition zrange (n : Z) : list Z := map Z.of_nat (seq 0 (Z.to_nat n)).

Lemma zrange_In n i : In i (zrange n) <-> 0 <= i < n.
Proof.
  unfold zrange. rewrite in_map_iff. split.
  - intros (k & <- & Hk). apply in_seq in Hk. lia.
  - intros H. exists (Z.to_nat i). split; [lia|]. apply in_seq. lia.
Qed.

Lemma zrange_len n : 0 <= n -> zlen (zrange n) = n.
Proof. intros. unfold zrange, zlen. rewrite map_length, seq_length. lia. Qed.

Lemma zrange_NoDup n : NoDup (zrange n).
Proof. unfold zrange. apply FinFun.Injective_map_NoDup; [intros a b; lia|apply seq_NoDup]. Qed.

Lemma NoDup_len_le n l : 0 <= n -> NoDup l -> (forall i, In i l -> 0 <= i < n) -> zlen l <= n.
Proof.
  intros Hn ND H. rewrite <- (zrange_len n Hn). unfold zlen.
  apply inj_le. apply NoDup_incl_length; auto. intros x Hx. apply zrange_In. auto.
Qed.

Lemma NoDup_len_lt n l v : 0 <= v < n -> NoDup l -> (forall i, In i l -> 0 <= i < n) -> ~ In v l -> zlen l < n.
Proof.
  intros Hv ND H Hno.
  assert (zlen (v :: l) <= n).
  { apply NoDup_len_le; [lia|now constructor|]. intros i [<-|Hi]; [lia|auto]. }
  rewrite zlen_cons in *. lia.
Qed.

(** ** Well-formed working sets *)

Definition is_active (s : SubjectToStatus) : bool := match s with ST_LOWER | ST_UPPER => true | _ => false end.

Record st_wf (s : subjectTo) (l0 l1 : list Z) : Prop := {
  wf_n : 0 <= st_n s;
  wf_type : zlen (st_type s) = st_n s;
  wf_stat : zlen (st_status s) = st_n s;
  wf_ina : il_rep (st_ina s) l0;
  wf_act : il_rep (st_act s) l1;
  wf_pina : il_phys (st_ina s) = st_n s;
  wf_pact : il_phys (st_act s) = st_n s;
  wf_in0 : forall i, In i l0 <-> (0 <= i < st_n s /\ zs (st_status s) i = ST_INACTIVE);
  wf_in1 : forall i, In i l1 <-> (0 <= i < st_n s /\ is_active (zs (st_status s) i) = true)
}.

Lemma wf_new n : 0 <= n -> st_wf (st_new n) [] [].
Proof.
  intros Hn. unfold st_new, st_init. destruct (Z.ltb_spec n 0); [lia|]. simpl.
  constructor; cbn [st_n st_type st_status st_ina st_act]; auto.
  - rewrite zlen_repeat. lia.
  - rewrite zlen_repeat. lia.
  - now apply rep_new.
  - now apply rep_new.
  - intros i. simpl. split; [tauto|]. intros (Hi & E). rewrite zn_repeat in E by lia. discriminate.
  - intros i. simpl. split; [tauto|]. intros (Hi & E). rewrite zn_repeat in E by lia. discriminate.
Qed.

Lemma inrange_true s i : st_inrange s i = true <-> 0 <= i < st_n s.
Proof. unfold st_inrange. rewrite andb_true_iff, Z.leb_le, Z.ltb_lt. tauto. Qed.

Lemma inrange_false s i : ~ (0 <= i < st_n s) -> st_inrange s i = false.
Proof. intros H. destruct (st_inrange s i) eqn:E; [|reflexivity]. now apply inrange_true in E. Qed.

Lemma getStatus_ok s l0 l1 i : st_wf s l0 l1 -> 0 <= i < st_n s -> st_getStatus s i = Ok (zs (st_status s) i).
Proof.
  intros W Hi. unfold st_getStatus. fold (st_inrange s i). rewrite (proj2 (inrange_true s i) Hi).
  apply rd_ok. rewrite (wf_stat _ _ _ W). exact Hi.
Qed.

Lemma getType_ok s l0 l1 i : st_wf s l0 l1 -> 0 <= i < st_n s -> st_getType s i = Ok (zt (st_type s) i).
Proof.
  intros W Hi. unfold st_getType. fold (st_inrange s i). rewrite (proj2 (inrange_true s i) Hi).
  apply rd_ok. rewrite (wf_type _ _ _ W). exact Hi.
Qed.

Lemma setType_ok s l0 l1 i v : st_wf s l0 l1 -> 0 <= i < st_n s ->
  exists s', st_setType s i v = Ok (SUCCESSFUL_RETURN, s') /\ st_wf s' l0 l1 /\
    s' = st_set_type s (zupd (st_type s) i v).
Proof.
  intros W Hi. unfold st_setType. fold (st_inrange s i). rewrite (proj2 (inrange_true s i) Hi).
  rewrite wr_ok by (rewrite (wf_type _ _ _ W); exact Hi). simpl. eexists; split; [reflexivity|].
  split; [|reflexivity]. destruct W. constructor; cbn; auto. now rewrite zlen_zupd.
Qed.

Lemma wf_disjoint s l0 l1 i : st_wf s l0 l1 -> In i l0 -> In i l1 -> False.
Proof.
  intros W H0 H1. apply (wf_in0 _ _ _ W) in H0. apply (wf_in1 _ _ _ W) in H1.
  destruct H0 as [_ H0], H1 as [_ H1]. rewrite H0 in H1. discriminate.
Qed.

Lemma wf_range0 s l0 l1 i : st_wf s l0 l1 -> In i l0 -> 0 <= i < st_n s.
Proof. intros W H. now apply (wf_in0 _ _ _ W) in H. Qed.
Lemma wf_range1 s l0 l1 i : st_wf s l0 l1 -> In i l1 -> 0 <= i < st_n s.
Proof. intros W H. now apply (wf_in1 _ _ _ W) in H. Qed.

Lemma spec_remove_In l v x : NoDup l -> (In x (spec_remove l v) <-> In x l /\ x <> v).
Proof.
  induction l as [|h t IH]; intros ND; simpl; [tauto|]. inversion ND; subst.
  destruct (Z.eqb_spec h v) as [->|Hne].
  - split; [intros Hx; split; [auto|intros ->; auto]|]. intros [[->|Hx] Hn]; [congruence|auto].
  - simpl. rewrite IH by auto. split; [|tauto]. intros [<-|[Hx Hn]]; auto.
Qed.

Lemma spec_swap_In l a b x : In a l -> In b l -> (In x (spec_swap l a b) <-> In x l).
Proof.
  intros Ia Ib. unfold spec_swap. rewrite in_map_iff. split.
  - intros (y & <- & Hy). destruct (Z.eqb_spec y a), (Z.eqb_spec y b); auto.
  - intros Hx. exists (if x =? a then b else if x =? b then a else x). split.
    + destruct (Z.eqb_spec x a) as [->|].
      * destruct (Z.eqb_spec b a) as [->|]; [reflexivity|]. now rewrite Z.eqb_refl.
      * destruct (Z.eqb_spec x b) as [->|]; [now rewrite Z.eqb_refl|].
        destruct (Z.eqb_spec x a); [congruence|]. destruct (Z.eqb_spec x b); congruence.
    + destruct (x =? a); [auto|]. destruct (x =? b); auto.
Qed.

(** addIndex on an index of undefined status. *)
Lemma wp_res {A} (m : res A) (Q : A -> Prop) : wp m Q -> exists a, m = Ok a /\ Q a.
Proof. apply wp_inv. Qed.

Lemma addIndex_ok s l0 l1 w i v : st_wf s l0 l1 -> 0 <= i < st_n s ->
  zs (st_status s) i <> ST_INACTIVE -> is_active (zs (st_status s) i) = false ->
  zs (st_status s) i <> v ->
  (match w with LIna => v = ST_INACTIVE | LAct => is_active v = true end) ->
  exists s', st_addIndex s w i v = Ok (SUCCESSFUL_RETURN, s') /\
    st_wf s' (match w with LIna => l0 ++ [i] | LAct => l0 end) (match w with LIna => l1 | LAct => l1 ++ [i] end) /\
    st_n s' = st_n s /\ st_type s' = st_type s /\ st_status s' = zupd (st_status s) i v /\
    st_noLower s' = st_noLower s /\ st_noUpper s' = st_noUpper s.
Proof.
  intros W Hi N0 N1 Nv Hv.
  assert (I0 : ~ In i l0) by (intros H; apply (wf_in0 _ _ _ W) in H; tauto).
  assert (I1 : ~ In i l1) by (intros H; apply (wf_in1 _ _ _ W) in H; destruct H; congruence).
  unfold st_addIndex. destruct (Z.eqb_spec (st_n s) 0); [lia|].
  rewrite (rd_ok ST_UNDEFINED) by (rewrite (wf_stat _ _ _ W); lia). simpl.
  destruct (sts_eq_dec (zs (st_status s) i) v) as [E|_]; [congruence|].
  rewrite wr_ok by (rewrite (wf_stat _ _ _ W); lia). simpl.
  assert (ST : forall k, 0 <= k < st_n s -> zs (zupd (st_status s) i v) k = if k =? i then v else zs (st_status s) k).
  { intros k Hk. apply zn_zupd; [rewrite (wf_stat _ _ _ W)|]; lia. }
  destruct w; simpl.
  - subst v.
    assert (C : zlen l0 < il_phys (st_ina s)).
    { rewrite (wf_pina _ _ _ W). apply (NoDup_len_lt _ _ i); auto.
      - apply (rep_NoDup (st_ina s)), (wf_ina _ _ _ W).
      - intros k Hk. now apply (wf_range0 s l0 l1). }
    destruct (wp_res _ _ (addNumber_spec (st_ina s) l0 i (wf_ina _ _ _ W) C I0)) as ([r l'] & E & -> & R' & P').
    rewrite E. simpl. eexists; split; [reflexivity|]. split; [|cbn; auto].
    destruct W. constructor; cbn; auto; try congruence.
    + now rewrite zlen_zupd.
    + intros k. rewrite in_app_iff, wf_in2. simpl. split.
      * intros [[Hk E0]|[<-|[]]]; [|split; [auto|rewrite ST by auto; now rewrite Z.eqb_refl]].
        split; [auto|]. rewrite ST by auto. destruct (Z.eqb_spec k i); auto.
      * intros [Hk E0]. rewrite ST in E0 by auto. destruct (Z.eqb_spec k i); auto.
    + intros k. rewrite wf_in3. split; intros [Hk E0]; (split; [auto|]).
      * rewrite ST by auto. destruct (Z.eqb_spec k i) as [->|]; auto. congruence.
      * rewrite ST in E0 by auto. destruct (Z.eqb_spec k i); [discriminate|auto].
  - assert (C : zlen l1 < il_phys (st_act s)).
    { rewrite (wf_pact _ _ _ W). apply (NoDup_len_lt _ _ i); auto.
      - apply (rep_NoDup (st_act s)), (wf_act _ _ _ W).
      - intros k Hk. now apply (wf_range1 s l0 l1). }
    destruct (wp_res _ _ (addNumber_spec (st_act s) l1 i (wf_act _ _ _ W) C I1)) as ([r l'] & E & -> & R' & P').
    rewrite E. simpl. eexists; split; [reflexivity|]. split; [|cbn; auto].
    destruct W. constructor; cbn; auto; try congruence.
    + now rewrite zlen_zupd.
    + intros k. rewrite wf_in2. split; intros [Hk E0]; (split; [auto|]).
      * rewrite ST by auto. destruct (Z.eqb_spec k i) as [->|]; auto. congruence.
      * rewrite ST in E0 by auto. destruct (Z.eqb_spec k i); [subst v; discriminate|auto].
    + intros k. rewrite in_app_iff, wf_in3. simpl. split.
      * intros [[Hk E0]|[<-|[]]]; [|split; [auto|rewrite ST by auto; now rewrite Z.eqb_refl]].
        split; [auto|]. rewrite ST by auto. destruct (Z.eqb_spec k i); auto.
      * intros [Hk E0]. rewrite ST in E0 by auto. destruct (Z.eqb_spec k i); auto.
Qed.

Lemma removeIndex_ok s l0 l1 w i : st_wf s l0 l1 ->
  In i (match w with LIna => l0 | LAct => l1 end) ->
  exists s', st_removeIndex s w i = Ok (SUCCESSFUL_RETURN, s') /\
    st_wf s' (match w with LIna => spec_remove l0 i | LAct => l0 end)
             (match w with LIna => l1 | LAct => spec_remove l1 i end) /\
    st_n s' = st_n s /\ st_type s' = st_type s /\ st_status s' = zupd (st_status s) i ST_UNDEFINED /\
    st_noLower s' = st_noLower s /\ st_noUpper s' = st_noUpper s.
Proof.
  intros W HI.
  assert (Hi : 0 <= i < st_n s) by (destruct w; [eapply wf_range0|eapply wf_range1]; eauto).
  unfold st_removeIndex. destruct (Z.eqb_spec (st_n s) 0); [lia|].
  rewrite wr_ok by (rewrite (wf_stat _ _ _ W); lia). simpl.
  assert (ST : forall k, 0 <= k < st_n s -> zs (zupd (st_status s) i ST_UNDEFINED) k = if k =? i then ST_UNDEFINED else zs (st_status s) k).
  { intros k Hk. apply zn_zupd; [rewrite (wf_stat _ _ _ W)|]; lia. }
  destruct w; simpl.
  - pose proof (rep_NoDup _ _ (wf_ina _ _ _ W)) as ND.
    destruct (wp_res _ _ (removeNumber_spec (st_ina s) l0 i (wf_ina _ _ _ W) HI)) as ([r l'] & E & -> & R' & P').
    rewrite E. simpl. eexists; split; [reflexivity|]. split; [|cbn; auto].
    assert (I1 : ~ In i l1) by (intros H; eapply wf_disjoint; eauto).
    destruct W. constructor; cbn; auto; try congruence.
    + now rewrite zlen_zupd.
    + intros k. rewrite spec_remove_In, wf_in2 by auto. split.
      * intros [[Hk E0] Hne]. split; [auto|]. rewrite ST by auto. destruct (Z.eqb_spec k i); congruence.
      * intros [Hk E0]. rewrite ST in E0 by auto. destruct (Z.eqb_spec k i); [discriminate|auto].
    + intros k. rewrite wf_in3. split; intros [Hk E0]; (split; [auto|]).
      * rewrite ST by auto. destruct (Z.eqb_spec k i) as [->|]; auto. exfalso. apply I1, wf_in3. auto.
      * rewrite ST in E0 by auto. destruct (Z.eqb_spec k i); [discriminate|auto].
  - pose proof (rep_NoDup _ _ (wf_act _ _ _ W)) as ND.
    destruct (wp_res _ _ (removeNumber_spec (st_act s) l1 i (wf_act _ _ _ W) HI)) as ([r l'] & E & -> & R' & P').
    rewrite E. simpl. eexists; split; [reflexivity|]. split; [|cbn; auto].
    assert (I0 : ~ In i l0) by (intros H; eapply wf_disjoint; eauto).
    destruct W. constructor; cbn; auto; try congruence.
    + now rewrite zlen_zupd.
    + intros k. rewrite wf_in2. split; intros [Hk E0]; (split; [auto|]).
      * rewrite ST by auto. destruct (Z.eqb_spec k i) as [->|]; auto. exfalso. apply I0, wf_in2. auto.
      * rewrite ST in E0 by auto. destruct (Z.eqb_spec k i); [discriminate|auto].
    + intros k. rewrite spec_remove_In, wf_in3 by auto. split.
      * intros [[Hk E0] Hne]. split; [auto|]. rewrite ST by auto. destruct (Z.eqb_spec k i); congruence.
      * intros [Hk E0]. rewrite ST in E0 by auto. destruct (Z.eqb_spec k i); [discriminate|auto].
Qed.

(** ** The public operations *)

Definition same_meta (s s' : subjectTo) : Prop :=
  st_n s' = st_n s /\ st_type s' = st_type s /\ st_noLower s' = st_noLower s /\ st_noUpper s' = st_noUpper s.

Lemma same_meta_refl s : same_meta s s.
Proof. repeat split. Qed.

Lemma setup_ok k s l0 l1 i v : st_wf s l0 l1 -> 0 <= i < st_n s ->
  zs (st_status s) i <> ST_INACTIVE -> is_active (zs (st_status s) i) = false ->
  v = ST_INACTIVE \/ is_active v = true ->
  exists s', st_setup k s i v = Ok (SUCCESSFUL_RETURN, s') /\
    st_wf s' (if is_active v then l0 else l0 ++ [i]) (if is_active v then l1 ++ [i] else l1) /\
    same_meta s s' /\ st_status s' = zupd (st_status s) i v.
Proof.
  intros W Hi N0 N1 Hv. unfold st_setup. rewrite (proj2 (inrange_true s i) Hi). simpl.
  assert (Nv : zs (st_status s) i <> v). { intros E. rewrite E in *. destruct Hv; congruence. }
  destruct v; simpl in *; try (destruct Hv; discriminate).
  - destruct (addIndex_ok s l0 l1 LAct i ST_LOWER) as (s' & E & W' & F); auto.
    rewrite E. simpl. exists s'. unfold same_meta. intuition.
  - destruct (addIndex_ok s l0 l1 LIna i ST_INACTIVE) as (s' & E & W' & F); auto.
    rewrite E. simpl. exists s'. unfold same_meta. intuition.
  - destruct (addIndex_ok s l0 l1 LAct i ST_UPPER) as (s' & E & W' & F); auto.
    rewrite E. simpl. exists s'. unfold same_meta. intuition.
Qed.

(** Setting up an index that already has the requested status is refused. *)
Lemma setup_already k s l0 l1 i v : st_wf s l0 l1 -> 0 <= i < st_n s ->
  v = ST_INACTIVE \/ is_active v = true -> zs (st_status s) i = v ->
  st_setup k s i v = Ok (err_setup k, s).
Proof.
  intros W Hi Hv E. unfold st_setup. rewrite (proj2 (inrange_true s i) Hi). simpl.
  assert (A : forall w, st_addIndex s w i v = Ok (RET_INDEX_ALREADY_OF_DESIRED_STATUS, s)).
  { intros w. unfold st_addIndex. destruct (Z.eqb_spec (st_n s) 0); [lia|].
    rewrite (rd_ok ST_UNDEFINED) by (rewrite (wf_stat _ _ _ W); lia). simpl.
    destruct (sts_eq_dec _ _); [reflexivity|congruence]. }
  destruct v; simpl in *; try (destruct Hv; discriminate); rewrite A; reflexivity.
Qed.

Lemma deactivate_ok s l0 l1 i : st_wf s l0 l1 -> In i l1 ->
  exists s', st_deactivate s i = Ok (SUCCESSFUL_RETURN, s') /\
    st_wf s' (l0 ++ [i]) (spec_remove l1 i) /\
    same_meta s s' /\ st_status s' = zupd (st_status s) i ST_INACTIVE.
Proof.
  intros W HI. pose proof (wf_range1 _ _ _ _ W HI) as Hi.
  unfold st_deactivate. rewrite (proj2 (inrange_true s i) Hi). simpl.
  destruct (removeIndex_ok s l0 l1 LAct i W HI) as (s1 & E1 & W1 & n1 & t1 & u1 & a1 & b1).
  rewrite E1. simpl.
  assert (Z1 : zs (st_status s1) i = ST_UNDEFINED).
  { rewrite u1. apply zn_zupd_eq. rewrite (wf_stat _ _ _ W). lia. }
  destruct (addIndex_ok s1 l0 (spec_remove l1 i) LIna i ST_INACTIVE) as (s2 & E2 & W2 & n2 & t2 & u2 & a2 & b2);
    auto; rewrite ?Z1; try congruence; try reflexivity; try lia.
  rewrite E2. simpl. exists s2. split; [reflexivity|]. split; [exact W2|].
  split; [unfold same_meta; repeat split; congruence|]. rewrite u2, u1. apply zupd_zupd.
Qed.

Lemma activate_ok s l0 l1 i v : st_wf s l0 l1 -> In i l0 -> is_active v = true ->
  exists s', st_activate s i v = Ok (SUCCESSFUL_RETURN, s') /\
    st_wf s' (spec_remove l0 i) (l1 ++ [i]) /\
    same_meta s s' /\ st_status s' = zupd (st_status s) i v.
Proof.
  intros W HI Hv. pose proof (wf_range0 _ _ _ _ W HI) as Hi.
  unfold st_activate. rewrite (proj2 (inrange_true s i) Hi). simpl.
  destruct (removeIndex_ok s l0 l1 LIna i W HI) as (s1 & E1 & W1 & n1 & t1 & u1 & a1 & b1).
  rewrite E1. simpl.
  assert (Z1 : zs (st_status s1) i = ST_UNDEFINED).
  { rewrite u1. apply zn_zupd_eq. rewrite (wf_stat _ _ _ W). lia. }
  destruct (addIndex_ok s1 (spec_remove l0 i) l1 LAct i v) as (s2 & E2 & W2 & n2 & t2 & u2 & a2 & b2);
    auto; rewrite ?Z1; try congruence; try reflexivity; try lia.
  { intros <-. discriminate. }
  rewrite E2. simpl. exists s2. split; [reflexivity|]. split; [exact W2|].
  split; [unfold same_meta; repeat split; congruence|]. rewrite u2, u1. apply zupd_zupd.
Qed.

Definition flip (v : SubjectToStatus) := match v with ST_LOWER => ST_UPPER | ST_UPPER => ST_LOWER | x => x end.

Lemma flip_ok k s l0 l1 i : st_wf s l0 l1 -> In i l1 ->
  exists s', st_flipFixed k s i = Ok (SUCCESSFUL_RETURN, s') /\
    st_wf s' l0 l1 /\ same_meta s s' /\ st_status s' = zupd (st_status s) i (flip (zs (st_status s) i)) /\
    st_ina s' = st_ina s /\ st_act s' = st_act s.
Proof.
  intros W HI. pose proof (wf_range1 _ _ _ _ W HI) as Hi.
  pose proof (proj1 (wf_in1 _ _ _ W i) HI) as [_ HA].
  unfold st_flipFixed. rewrite (proj2 (inrange_true s i) Hi). simpl.
  rewrite (rd_ok ST_UNDEFINED) by (rewrite (wf_stat _ _ _ W); lia). simpl.
  assert (ST : forall u k, 0 <= k < st_n s -> zs (zupd (st_status s) i u) k = if k =? i then u else zs (st_status s) k).
  { intros u k' Hk. apply zn_zupd; [rewrite (wf_stat _ _ _ W)|]; lia. }
  assert (G : forall u, is_active u = true -> st_wf (st_set_status s (zupd (st_status s) i u)) l0 l1).
  { intros u Hu. destruct W. constructor; cbn; auto.
    - now rewrite zlen_zupd.
    - intros j. rewrite wf_in2. split; intros [Hj E]; (split; [auto|]).
      + rewrite ST by auto. destruct (Z.eqb_spec j i) as [->|]; [rewrite E in HA; discriminate|auto].
      + rewrite ST in E by auto. destruct (Z.eqb_spec j i) as [->|]; [subst u; discriminate|auto].
    - intros j. rewrite wf_in3. split; intros [Hj E]; (split; [auto|]).
      + rewrite ST by auto. destruct (Z.eqb_spec j i) as [->|]; auto.
      + destruct (Z.eqb_spec j i) as [->|]; auto. rewrite ST in E by auto.
        destruct (Z.eqb_spec j i); [congruence|auto]. }
  destruct (zs (st_status s) i) eqn:E; try discriminate; simpl;
    rewrite wr_ok by (rewrite (wf_stat _ _ _ W); lia); simpl;
    (eexists; split; [reflexivity|]; split; [now apply G|repeat split]).
Qed.

Lemma flip_refused k s l0 l1 i : st_wf s l0 l1 -> ~ In i l1 ->
  exists r, r <> SUCCESSFUL_RETURN /\ st_flipFixed k s i = Ok (r, s).
Proof.
  intros W HI. unfold st_flipFixed. destruct (st_inrange s i) eqn:R; simpl.
  - apply inrange_true in R. rewrite (rd_ok ST_UNDEFINED) by (rewrite (wf_stat _ _ _ W); lia). simpl.
    assert (N : is_active (zs (st_status s) i) = false).
    { destruct (is_active _) eqn:E; [|reflexivity]. exfalso. apply HI, (wf_in1 _ _ _ W). auto. }
    exists (err_flip k). destruct (zs (st_status s) i); try discriminate; (split; [destruct k; discriminate|reflexivity]).
  - exists RET_INDEX_OUT_OF_BOUNDS. split; [discriminate|reflexivity].
Qed.

Lemma swapFree_ok s l0 l1 a b : st_wf s l0 l1 -> In a l0 -> In b l0 ->
  exists s', st_swapFree s a b = Ok (SUCCESSFUL_RETURN, s') /\
    st_wf s' (spec_swap l0 a b) l1 /\ same_meta s s' /\ st_status s' = st_status s.
Proof.
  intros W Ia Ib. pose proof (wf_range0 _ _ _ _ W Ia) as Ha. pose proof (wf_range0 _ _ _ _ W Ib) as Hb.
  pose proof (proj1 (wf_in0 _ _ _ W a) Ia) as [_ Ea]. pose proof (proj1 (wf_in0 _ _ _ W b) Ib) as [_ Eb].
  unfold st_swapFree. rewrite (proj2 (inrange_true s a) Ha), (proj2 (inrange_true s b) Hb). simpl.
  unfold st_swapIndex. destruct (Z.eqb_spec (st_n s) 0); [lia|].
  rewrite !(rd_ok ST_UNDEFINED) by (rewrite (wf_stat _ _ _ W); lia). simpl. rewrite Ea, Eb. simpl.
  destruct (Z.eqb_spec a b) as [->|Hne].
  - exists s. split; [reflexivity|]. split; [|split; [apply same_meta_refl|reflexivity]].
    assert (E : spec_swap l0 b b = l0).
    { unfold spec_swap. rewrite <- (map_id l0) at 2. apply map_ext. intros x.
      destruct (Z.eqb_spec x b); auto. }
    now rewrite E.
  - destruct (wp_res _ _ (swapNumbers_spec (st_ina s) l0 a b (wf_ina _ _ _ W) Ia Ib)) as ([r l'] & E & -> & R' & P').
    simpl. rewrite E. simpl. eexists; split; [reflexivity|]. split; [|repeat split].
    destruct W. constructor; cbn; auto; try congruence.
    intros k. rewrite spec_swap_In by auto. auto.
Qed.

Lemma swapFree_refused s l0 l1 a b : st_wf s l0 l1 ->
  ~ (0 <= a < st_n s /\ 0 <= b < st_n s) \/ zs (st_status s) a <> zs (st_status s) b ->
  exists r, r <> SUCCESSFUL_RETURN /\ st_swapFree s a b = Ok (r, s).
Proof.
  intros W H. unfold st_swapFree.
  destruct (st_inrange s a) eqn:Ra; simpl; [|eexists; split; [|reflexivity]; discriminate].
  destruct (st_inrange s b) eqn:Rb; simpl; [|eexists; split; [|reflexivity]; discriminate].
  apply inrange_true in Ra, Rb. destruct H as [H|H]; [tauto|].
  unfold st_swapIndex. destruct (Z.eqb_spec (st_n s) 0); [lia|].
  rewrite !(rd_ok ST_UNDEFINED) by (rewrite (wf_stat _ _ _ W); lia). simpl.
  destruct (sts_eq_dec _ _); [congruence|]. exists RET_SWAPINDEX_FAILED. split; [discriminate|reflexivity].
Qed.

(** The two lists cover all set-up indices. *)
Lemma wf_counts s l0 l1 : st_wf s l0 l1 ->
  (forall i, 0 <= i < st_n s -> zs (st_status s) i = ST_INACTIVE \/ is_active (zs (st_status s) i) = true) ->
  zlen l0 + zlen l1 = st_n s.
Proof.
  intros W H.
  assert (ND : NoDup (l0 ++ l1)).
  { 
    assert (A : forall l m : list Z, NoDup l -> NoDup m -> (forall x, In x l -> In x m -> False) -> NoDup (l ++ m)).
    { induction l as [|h t IH]; intros m Hl Hm D; simpl; [auto|]. inversion Hl; subst. constructor.
      - rewrite in_app_iff. intros [?|Hx]; [auto|]. apply (D h); simpl; auto.
      - apply IH; auto. intros x Hx. apply D. simpl; auto. }
    apply A.
    - apply (rep_NoDup _ _ (wf_ina _ _ _ W)).
    - apply (rep_NoDup _ _ (wf_act _ _ _ W)).
    - intros x. eapply wf_disjoint; eauto. }
  rewrite <- zlen_app.
  apply Z.le_antisymm.
  - apply NoDup_len_le; [apply (wf_n _ _ _ W)|auto|]. intros i Hi. apply in_app_iff in Hi as [Hi|Hi].
    + eapply wf_range0; eauto.
    + eapply wf_range1; eauto.
  - rewrite <- (zrange_len (st_n s)) by apply (wf_n _ _ _ W). unfold zlen. apply inj_le.
    apply NoDup_incl_length; [apply zrange_NoDup|]. intros x Hx. apply zrange_In in Hx.
    apply in_app_iff. destruct (H x Hx); [left; apply (wf_in0 _ _ _ W)|right; apply (wf_in1 _ _ _ W)]; auto.
Qed.
