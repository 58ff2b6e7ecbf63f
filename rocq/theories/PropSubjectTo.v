(** Properties C03, C04, C05, C06 and C07 (working sets). *)
From Verif Require Import Base Types Indexlist IndexlistProofs SubjectTo SubjectToProofs SubjectToProofs2.

(** ** Specification *)

(** Calls of the public interface.  [WSwapFree] exists for Bounds only. *)
Inductive ws_op :=
| WSetup (i : Z) (v : SubjectToStatus)      (* setupBound / setupConstraint *)
| WDeactivate (i : Z)                       (* moveFixedToFree / moveActiveToInactive *)
| WActivate (i : Z) (v : SubjectToStatus)   (* moveFreeToFixed / moveInactiveToActive *)
| WFlip (i : Z)                             (* flipFixed *)
| WSwapFree (a b : Z).                      (* swapFree *)

Definition ws_do (k : stkind) (o : ws_op) (s : subjectTo) : res (returnValue * subjectTo) :=
  match o with
  | WSetup i v => st_setup k s i v
  | WDeactivate i => st_deactivate s i
  | WActivate i v => st_activate s i v
  | WFlip i => st_flipFixed k s i
  | WSwapFree a b => st_swapFree s a b
  end.

Fixpoint ws_run (k : stkind) (ops : list ws_op) (s : subjectTo) : res (list returnValue * subjectTo) :=
  match ops with
  | [] => Ok ([], s)
  | o :: ops => '(r, s1) <- ws_do k o s ;; '(rs, s2) <- ws_run k ops s1 ;; Ok (r :: rs, s2)
  end.

(** What the calls mean for a table of statuses: success flag and new table. *)
Definition inside (t : list SubjectToStatus) (i : Z) : bool := (0 <=? i) && (i <? zlen t).
Definition valid_status (v : SubjectToStatus) : bool :=
  match v with ST_INACTIVE | ST_LOWER | ST_UPPER => true | _ => false end.
Definition same_status (a b : SubjectToStatus) : bool := if sts_eq_dec a b then true else false.

Definition spec_ws (o : ws_op) (t : list SubjectToStatus) : bool * list SubjectToStatus :=
  match o with
  | WSetup i v => if inside t i && valid_status v && negb (same_status (zn ST_UNDEFINED t i) v)
                  then (true, zupd t i v) else (false, t)
  | WDeactivate i => if inside t i then (true, zupd t i ST_INACTIVE) else (false, t)
  | WActivate i v => if inside t i then (true, zupd t i v) else (false, t)
  | WFlip i => if inside t i then
        match zn ST_UNDEFINED t i with
        | ST_LOWER => (true, zupd t i ST_UPPER)
        | ST_UPPER => (true, zupd t i ST_LOWER)
        | _ => (false, t)
        end else (false, t)
  | WSwapFree a b => (inside t a && inside t b && same_status (zn ST_UNDEFINED t a) (zn ST_UNDEFINED t b), t)
  end.

(** The contract of the calls (C04 shows what happens outside it). *)
Definition adm_ws (o : ws_op) (t : list SubjectToStatus) : Prop :=
  match o with
  | WSetup i v => inside t i = true -> valid_status v = true ->
      zn ST_UNDEFINED t i = ST_UNDEFINED \/ zn ST_UNDEFINED t i = v
  | WDeactivate i => inside t i = true -> is_active (zn ST_UNDEFINED t i) = true
  | WActivate i v => inside t i = true -> zn ST_UNDEFINED t i = ST_INACTIVE /\ is_active v = true
  | WFlip i => True
  | WSwapFree a b => inside t a = true -> inside t b = true -> a <> b ->
      zn ST_UNDEFINED t a = zn ST_UNDEFINED t b -> zn ST_UNDEFINED t a = ST_INACTIVE
  end.

Fixpoint spec_ws_run (ops : list ws_op) (t : list SubjectToStatus) : list bool * list SubjectToStatus :=
  match ops with
  | [] => ([], t)
  | o :: ops => let '(b, t1) := spec_ws o t in let '(bs, t2) := spec_ws_run ops t1 in (b :: bs, t2)
  end.
Fixpoint adm_ws_run (ops : list ws_op) (t : list SubjectToStatus) : Prop :=
  match ops with
  | [] => True
  | o :: ops => adm_ws o t /\ adm_ws_run ops (snd (spec_ws o t))
  end.

(** The observable partition: numbers in the two index lists against statuses. *)
Record partition (s : subjectTo) (t : list SubjectToStatus) : Prop := {
  part_status : forall i, 0 <= i < zlen t -> st_getStatus s i = Ok (zn ST_UNDEFINED t i);
  part_ina_nodup : NoDup (il_numbers (st_ina s));
  part_act_nodup : NoDup (il_numbers (st_act s));
  part_ina : forall i, In i (il_numbers (st_ina s)) <-> 0 <= i < zlen t /\ zn ST_UNDEFINED t i = ST_INACTIVE;
  part_act : forall i, In i (il_numbers (st_act s)) <->
      0 <= i < zlen t /\ (zn ST_UNDEFINED t i = ST_LOWER \/ zn ST_UNDEFINED t i = ST_UPPER);
  part_nina : st_nIna s = zlen (il_numbers (st_ina s));
  part_nact : st_nAct s = zlen (il_numbers (st_act s));
  part_total : (forall i, 0 <= i < zlen t -> valid_status (zn ST_UNDEFINED t i) = true) ->
      st_nIna s + st_nAct s = zlen t
}.

Definition succeeded (r : returnValue) : bool := r =r? SUCCESSFUL_RETURN.

Lemma wf_partition s l0 l1 : st_wf s l0 l1 -> partition s (st_status s).
Proof.
  intros W. pose proof (wf_ina _ _ _ W) as R0. pose proof (wf_act _ _ _ W) as R1.
  pose proof (wf_stat _ _ _ W) as L.
  constructor; rewrite ?L, ?(rep_numbers _ _ R0), ?(rep_numbers _ _ R1).
  - intros i Hi. now apply (getStatus_ok s l0 l1).
  - now apply (rep_NoDup _ _ R0).
  - now apply (rep_NoDup _ _ R1).
  - apply (wf_in0 _ _ _ W).
  - intros i. rewrite (wf_in1 _ _ _ W i). destruct (zs (st_status s) i); simpl; intuition (try discriminate; auto).
  - unfold st_nIna. now reps R0.
  - unfold st_nAct. now reps R1.
  - intros V. unfold st_nIna, st_nAct. reps R0. clear RP RN RS. rewrite RL. clear RL. reps R1. rewrite RL.
    apply (wf_counts s); auto. intros i Hi. specialize (V i Hi). destruct (zs (st_status s) i); simpl in *; auto; discriminate.
Qed.

Lemma inside_range t i : inside t i = true <-> 0 <= i < zlen t.
Proof. unfold inside. rewrite andb_true_iff, Z.leb_le, Z.ltb_lt. tauto. Qed.

Lemma inside_inrange s l0 l1 i : st_wf s l0 l1 -> inside (st_status s) i = st_inrange s i.
Proof. intros W. unfold inside, st_inrange. now rewrite (wf_stat _ _ _ W). Qed.

Lemma same_status_eq a b : same_status a b = true <-> a = b.
Proof. unfold same_status. destruct (sts_eq_dec a b); split; auto; discriminate. Qed.

Lemma ws_do_spec k o s l0 l1 : st_wf s l0 l1 -> adm_ws o (st_status s) ->
  exists r s' m0 m1, ws_do k o s = Ok (r, s') /\ succeeded r = fst (spec_ws o (st_status s)) /\
    st_wf s' m0 m1 /\ st_status s' = snd (spec_ws o (st_status s)) /\ same_meta s s'.
Proof.
  intros W A. destruct o as [i v|i|i v|i|a b]; simpl in *.
  - rewrite (inside_inrange _ _ _ _ W) in *. unfold st_setup. destruct (st_inrange s i) eqn:R; simpl.
    2:{ exists RET_INDEX_OUT_OF_BOUNDS, s, l0, l1. auto using same_meta_refl. }
    pose proof (proj1 (inrange_true s i) R) as Hi. destruct (valid_status v) eqn:V.
    + assert (Hv : v = ST_INACTIVE \/ is_active v = true) by (destruct v; simpl in *; auto; discriminate).
      fold (st_setup k s i v). 
      assert (F : forall X, (match v with ST_INACTIVE => X LIna | ST_LOWER => X LAct | ST_UPPER => X LAct | _ => Ok (RET_INVALID_ARGUMENTS, s) end) = X (if is_active v then LAct else LIna)).
      { intros. destruct v; simpl in *; auto; discriminate. }
      destruct (same_status (zs (st_status s) i) v) eqn:E.
      * apply same_status_eq in E. pose proof (setup_already k s l0 l1 i v W Hi Hv E) as Q.
        unfold st_setup in Q. rewrite R in Q. simpl in Q. rewrite Q. exists (err_setup k), s, l0, l1.
        split; [reflexivity|]. split; [destruct k; reflexivity|]. auto using same_meta_refl.
      * destruct (A eq_refl eq_refl) as [U|U]; [|apply same_status_eq in U; congruence].
        destruct (setup_ok k s l0 l1 i v W Hi) as (s' & Q & W' & M & S); rewrite ?U; try discriminate; auto.
        unfold st_setup in Q. rewrite R in Q. simpl in Q. rewrite Q.
        eexists SUCCESSFUL_RETURN, s', _, _. split; [reflexivity|]. split; [reflexivity|]. split; [exact W'|]. auto.
    + exists RET_INVALID_ARGUMENTS, s, l0, l1. destruct v; simpl in *; try discriminate; auto 6 using same_meta_refl.
  - rewrite (inside_inrange _ _ _ _ W) in *. destruct (st_inrange s i) eqn:R.
    + pose proof (proj1 (inrange_true s i) R) as Hi.
      destruct (deactivate_ok s l0 l1 i W) as (s' & Q & W' & M & S); [apply (wf_in1 _ _ _ W); auto|].
      eexists SUCCESSFUL_RETURN, s', _, _. repeat (split; [eassumption || reflexivity|]). exact M.
    + exists RET_INDEX_OUT_OF_BOUNDS, s, l0, l1. unfold st_deactivate. rewrite R. simpl. auto 6 using same_meta_refl.
  - rewrite (inside_inrange _ _ _ _ W) in *. destruct (st_inrange s i) eqn:R.
    + pose proof (proj1 (inrange_true s i) R) as Hi. destruct (A eq_refl) as [A1 A2].
      destruct (activate_ok s l0 l1 i v W) as (s' & Q & W' & M & S); [apply (wf_in0 _ _ _ W); auto|auto|].
      eexists SUCCESSFUL_RETURN, s', _, _. repeat (split; [eassumption || reflexivity|]). exact M.
    + exists RET_INDEX_OUT_OF_BOUNDS, s, l0, l1. unfold st_activate. rewrite R. simpl. auto 6 using same_meta_refl.
  - rewrite (inside_inrange _ _ _ _ W) in *. destruct (st_inrange s i) eqn:R.
    + pose proof (proj1 (inrange_true s i) R) as Hi. destruct (is_active (zs (st_status s) i)) eqn:E.
      * destruct (flip_ok k s l0 l1 i W) as (s' & Q & W' & M & S & _); [apply (wf_in1 _ _ _ W); auto|].
        exists SUCCESSFUL_RETURN, s', l0, l1. split; [exact Q|]. rewrite S.
        destruct (zs (st_status s) i); simpl in *; try discriminate; auto.
      * destruct (flip_refused k s l0 l1 i W) as (r & N & Q).
        { intros H. apply (wf_in1 _ _ _ W) in H. destruct H; congruence. }
        exists r, s, l0, l1. split; [exact Q|].
        assert (F : succeeded r = false).
        { unfold succeeded. destruct (r =r? SUCCESSFUL_RETURN) eqn:Er; [|reflexivity]. now apply rv_eqb_eq in Er. }
        rewrite F. destruct (zs (st_status s) i); simpl in *; try discriminate; auto 6 using same_meta_refl.
    + exists RET_INDEX_OUT_OF_BOUNDS, s, l0, l1. unfold st_flipFixed. rewrite R. simpl. auto 6 using same_meta_refl.
  - rewrite !(inside_inrange _ _ _ _ W) in *.
    assert (C : forall r, r <> SUCCESSFUL_RETURN -> succeeded r = false).
    { intros r N. unfold succeeded. destruct (r =r? SUCCESSFUL_RETURN) eqn:Er; [|reflexivity]. now apply rv_eqb_eq in Er. }
    destruct (st_inrange s a) eqn:Ra, (st_inrange s b) eqn:Rb; simpl.
    + pose proof (proj1 (inrange_true s a) Ra) as Ha. pose proof (proj1 (inrange_true s b) Rb) as Hb.
      destruct (same_status (zs (st_status s) a) (zs (st_status s) b)) eqn:E.
      * apply same_status_eq in E. destruct (Z.eq_dec a b) as [->|Hne].
        -- exists SUCCESSFUL_RETURN, s, l0, l1. split; [|auto 6 using same_meta_refl].
           unfold st_swapFree, st_swapIndex. rewrite Rb. simpl. destruct (Z.eqb_spec (st_n s) 0); [lia|].
           rewrite !(rd_ok ST_UNDEFINED) by (rewrite (wf_stat _ _ _ W); lia). simpl.
           destruct (sts_eq_dec _ _); [|congruence]. now rewrite Z.eqb_refl.
        -- pose proof (A eq_refl eq_refl Hne E) as I.
           destruct (swapFree_ok s l0 l1 a b W) as (s' & Q & W' & M & S); try (apply (wf_in0 _ _ _ W); split; congruence).
           eexists SUCCESSFUL_RETURN, s', _, _. split; [exact Q|]. split; [reflexivity|]. split; [exact W'|]. auto.
      * destruct (swapFree_refused s l0 l1 a b W) as (r & N & Q).
        { right. intros F. apply same_status_eq in F. congruence. }
        exists r, s, l0, l1. split; [exact Q|]. rewrite C by auto. auto using same_meta_refl.
    + destruct (swapFree_refused s l0 l1 a b W) as (r & N & Q).
      { left. intros [_ F]. apply inrange_true in F. congruence. }
      exists r, s, l0, l1. split; [exact Q|]. rewrite C by auto. auto using same_meta_refl.
    + destruct (swapFree_refused s l0 l1 a b W) as (r & N & Q).
      { left. intros [F _]. apply inrange_true in F. congruence. }
      exists r, s, l0, l1. split; [exact Q|]. rewrite C by auto. auto using same_meta_refl.
    + destruct (swapFree_refused s l0 l1 a b W) as (r & N & Q).
      { left. intros [F _]. apply inrange_true in F. congruence. }
      exists r, s, l0, l1. split; [exact Q|]. rewrite C by auto. auto using same_meta_refl.
Qed.

Lemma ws_run_spec k ops s l0 l1 : st_wf s l0 l1 -> adm_ws_run ops (st_status s) ->
  exists rs s' m0 m1, ws_run k ops s = Ok (rs, s') /\ map succeeded rs = fst (spec_ws_run ops (st_status s)) /\
    st_wf s' m0 m1 /\ st_status s' = snd (spec_ws_run ops (st_status s)) /\ same_meta s s'.
Proof.
  revert s l0 l1. induction ops as [|o ops IH]; simpl; intros s l0 l1 W A.
  - exists [], s, l0, l1. auto using same_meta_refl.
  - destruct A as [A B]. destruct (ws_do_spec k o s l0 l1 W A) as (r & s1 & m0 & m1 & E & C & W1 & S1 & M1).
    destruct (spec_ws o (st_status s)) as [b t1]. simpl in *. subst t1.
    destruct (IH s1 m0 m1 W1 B) as (rs & s2 & k0 & k1 & E2 & C2 & W2 & S2 & M2).
    destruct (spec_ws_run ops (st_status s1)) as [bs t2]. simpl in *.
    exists (r :: rs), s2, k0, k1. rewrite E. cbn [bind]. rewrite E2. cbn. split; [reflexivity|].
    split; [congruence|]. split; [exact W2|]. split; [exact S2|].
    destruct M1 as (?&?&?&?), M2 as (?&?&?&?). repeat split; congruence.
Qed.

Definition fresh (n : Z) : list SubjectToStatus := repeat ST_UNDEFINED (Z.to_nat n).

Lemma new_status n : 0 <= n -> st_status (st_new n) = fresh n.
Proof. intros. unfold st_new, st_init. destruct (Z.ltb_spec n 0); [lia|reflexivity]. Qed.

(** ** C03, C05 *)

Theorem C03_bounds_partition : forall n ops, 0 <= n -> adm_ws_run ops (fresh n) ->
  exists rs s, ws_run KBounds ops (st_new n) = Ok (rs, s) /\
    map succeeded rs = fst (spec_ws_run ops (fresh n)) /\
    partition s (snd (spec_ws_run ops (fresh n))).
Proof.
  intros n ops Hn A. rewrite <- new_status in * by auto.
  destruct (ws_run_spec KBounds ops _ _ _ (wf_new n Hn) A) as (rs & s & m0 & m1 & E & C & W & S & _).
  exists rs, s. split; [exact E|]. split; [exact C|]. rewrite <- S. now apply (wf_partition s m0 m1).
Qed.

Theorem C05_constraints_partition : forall n ops, 0 <= n -> adm_ws_run ops (fresh n) ->
  exists rs s, ws_run KConstraints ops (st_new n) = Ok (rs, s) /\
    map succeeded rs = fst (spec_ws_run ops (fresh n)) /\
    partition s (snd (spec_ws_run ops (fresh n))).
Proof.
  intros n ops Hn A. rewrite <- new_status in * by auto.
  destruct (ws_run_spec KConstraints ops _ _ _ (wf_new n Hn) A) as (rs & s & m0 & m1 & E & C & W & S & _).
  exists rs, s. split; [exact E|]. split; [exact C|]. rewrite <- S. now apply (wf_partition s m0 m1).
Qed.

(** setupAllFree / setupAllLower / setupAllUpper from a fresh object put every
    index into the requested set, whatever the types are. *)
Theorem C03_setupAll : forall k n v ty, 0 <= n -> zlen ty = n -> valid_status v = true ->
  exists s, st_setupAll k (st_set_type (st_new n) ty) v = Ok (SUCCESSFUL_RETURN, s) /\
    partition s (repeat v (Z.to_nat n)).
Proof.
  intros k n v ty Hn Ht Hv.
  assert (W : st_wf (st_set_type (st_new n) ty) [] []).
  { pose proof (wf_new n Hn) as W. destruct W. constructor; cbn; auto.
    unfold st_new, st_init. destruct (Z.ltb_spec n 0); [lia|]. simpl. exact Ht. }
  assert (N : st_n (st_new n) = n) by (unfold st_new, st_init; destruct (Z.ltb_spec n 0); [lia|reflexivity]).
  destruct (setupAll_ok k v _ W) as (s & E & W' & M & S).
  { destruct v; simpl in *; auto; discriminate. }
  { cbn. rewrite N, new_status by auto. intros i Hi. apply zn_repeat. lia. }
  exists s. split; [exact E|].
  assert (ES : st_status s = repeat v (Z.to_nat n)).
  { destruct M as (Mn & _). cbn in Mn. apply (list_ext_zn ST_UNDEFINED).
    - rewrite (wf_stat _ _ _ W'), zlen_repeat. rewrite Mn, N. lia.
    - intros i Hi. rewrite (wf_stat _ _ _ W'), Mn, N in Hi. cbn in S. rewrite N in S.
      rewrite S by auto. symmetry. apply zn_repeat. lia. }
  rewrite <- ES. eapply wf_partition. exact W'.
Qed.

(** Called a second time it changes nothing and reports the failure. *)
Lemma setupPass_again k sel v s l0 l1 : st_wf s l0 l1 -> v = ST_INACTIVE \/ is_active v = true ->
  (forall i, 0 <= i < st_n s -> zs (st_status s) i = v) ->
  (st_setupPass k sel v s = Ok (Next s) /\ forall i, 0 <= i < st_n s -> sel (zt (st_type s) i) = false) \/
  st_setupPass k sel v s = Ok (Brk (err_setup k, s)).
Proof.
  intros W Hv Hu.
  assert (P : wp (st_setupPass k sel v s) (fun c => match c with
    | Next s' => s' = s /\ (forall i, 0 <= i < st_n s -> sel (zt (st_type s) i) = false)
    | Brk e => e = (err_setup k, s) end)).
  { unfold st_setupPass.
    apply wp_forb_up with (I := fun i s' => s' = s /\ forall j, 0 <= j < i -> sel (zt (st_type s) j) = false)
      (J := fun e => e = (err_setup k, s)); auto.
    - apply (wf_n _ _ _ W).
    - split; auto. intros; lia.
    - intros i s' Hi (-> & Q). rewrite (getType_ok _ _ _ _ W) by lia. cbn [bind].
      destruct (sel (zt (st_type s) i)) eqn:E.
      + rewrite (setup_already k s l0 l1 i v) by (auto; apply Hu; lia). cbn [bind].
        destruct k; reflexivity.
      + cbn [wp]. split; auto. intros j Hj. destruct (Z.eq_dec j i) as [->|]; auto. apply Q; lia. }
  apply wp_inv in P as ([s'|e] & E & P).
  - destruct P as (-> & P). left. auto.
  - subst. right. auto.
Qed.
Theorem C03_setupAll_again : forall k n v ty, 0 < n -> zlen ty = n -> valid_status v = true ->
  exists s, st_setupAll k (st_set_type (st_new n) ty) v = Ok (SUCCESSFUL_RETURN, s) /\
    st_setupAll k s v = Ok (err_setup k, s).
Proof.
  intros k n v ty Hn Ht Hv.
  assert (W : st_wf (st_set_type (st_new n) ty) [] []).
  { assert (Hn0 : 0 <= n) by lia. pose proof (wf_new n Hn0) as W. destruct W. constructor; cbn; auto.
    unfold st_new, st_init. destruct (Z.ltb_spec n 0); [lia|]. simpl. exact Ht. }
  assert (N : st_n (st_new n) = n) by (unfold st_new, st_init; destruct (Z.ltb_spec n 0); [lia|reflexivity]).
  destruct (setupAll_ok k v _ W) as (s & E & W' & M & S).
  { destruct v; simpl in *; auto; discriminate. }
  { cbn. rewrite N, new_status by lia. intros i Hi. apply zn_repeat. lia. }
  exists s. split; [exact E|]. destruct M as (Mn & Mt & _). cbn in Mn, Mt. cbn in S.
  assert (Hw' : v = ST_INACTIVE \/ is_active v = true) by (destruct v; simpl in *; auto; discriminate).
  assert (U : forall i, 0 <= i < st_n s -> zs (st_status s) i = v).
  { intros i Hi. apply S. lia. }
  unfold st_setupAll.
  destruct (setupPass_again k is_unbounded v s _ _ W' Hw' U) as [[-> H1]| ->]; [cbn [bind]|reflexivity].
  destruct (setupPass_again k is_bounded v s _ _ W' Hw' U) as [[-> H2]| ->]; [cbn [bind]|reflexivity].
  destruct (setupPass_again k is_equality v s _ _ W' Hw' U) as [[-> H3]| ->]; [cbn [bind]|reflexivity].
  destruct (setupPass_again k is_rest v s _ _ W' Hw' U) as [[-> H4]| ->]; [cbn [bind]|reflexivity].
  exfalso. assert (H0 : 0 <= 0 < st_n s) by lia.
  specialize (H1 0 H0). specialize (H2 0 H0). specialize (H3 0 H0). specialize (H4 0 H0).
  destruct (zt (st_type s) 0); vm_compute in H1, H2, H3, H4; discriminate.
Qed.

Example C03_case :
  let ops := [WSetup 0 ST_INACTIVE; WSetup 1 ST_LOWER; WSetup 2 ST_INACTIVE; WSetup 1 ST_LOWER; WSetup 9 ST_LOWER;
              WActivate 0 ST_UPPER; WFlip 1; WFlip 2; WDeactivate 0; WSwapFree 0 2; WSwapFree 1 2] in
  adm_ws_run ops (fresh 3) /\
  spec_ws_run ops (fresh 3) =
    ([true; true; true; false; false; true; true; false; true; true; false], [ST_INACTIVE; ST_UPPER; ST_INACTIVE]).
Proof.
  split; [|reflexivity]. repeat split; vm_compute; intros; try discriminate; auto.
Qed.

(** ** C04 *)

(** As stated the property fails: setting a free variable up a second time with
    a different status succeeds and leaves it in both sets; moveFreeToFixed with
    status ST_INACTIVE puts a variable with status "inactive" into the fixed set. *)
Theorem C04_misuse_rejected_refuted :
  (exists rs s, ws_run KBounds [WSetup 0 ST_INACTIVE; WSetup 0 ST_LOWER] (st_new 2) = Ok (rs, s) /\
     rs = [SUCCESSFUL_RETURN; SUCCESSFUL_RETURN] /\
     In 0 (il_numbers (st_ina s)) /\ In 0 (il_numbers (st_act s))) /\
  (exists rs s, ws_run KConstraints [WSetup 0 ST_INACTIVE; WSetup 0 ST_LOWER] (st_new 2) = Ok (rs, s) /\
     rs = [SUCCESSFUL_RETURN; SUCCESSFUL_RETURN] /\
     In 0 (il_numbers (st_ina s)) /\ In 0 (il_numbers (st_act s))) /\
  (exists rs s, ws_run KBounds [WSetup 0 ST_INACTIVE; WActivate 0 ST_INACTIVE] (st_new 2) = Ok (rs, s) /\
     rs = [SUCCESSFUL_RETURN; SUCCESSFUL_RETURN] /\
     st_getStatus s 0 = Ok ST_INACTIVE /\ In 0 (il_numbers (st_act s)) /\ ~ In 0 (il_numbers (st_ina s))).
Proof.
  split; [|split]; eexists; eexists; (split; [vm_compute; reflexivity|]);
    repeat split; vm_compute; auto.
Qed.

(** What does hold: the only misuse detected is repeating the same status or an
    index out of range; those calls change nothing. *)
Theorem C04_repeated_setup_rejected : forall k s l0 l1 i v, st_wf s l0 l1 ->
  (~ 0 <= i < st_n s \/ (valid_status v = true /\ st_getStatus s i = Ok v) \/ valid_status v = false) ->
  exists r, r <> SUCCESSFUL_RETURN /\ st_setup k s i v = Ok (r, s).
Proof.
  intros k s l0 l1 i v W H. destruct (st_inrange s i) eqn:R.
  - pose proof (proj1 (inrange_true s i) R) as Hi. destruct H as [H|[[V E]|V]]; [tauto| |].
    + exists (err_setup k). split; [destruct k; discriminate|].
      rewrite (getStatus_ok s l0 l1) in E by auto. injection E as E.
      apply (setup_already k s l0 l1); auto. destruct v; simpl in *; auto; discriminate.
    + exists RET_INVALID_ARGUMENTS. split; [discriminate|]. unfold st_setup. rewrite R. simpl.
      destruct v; simpl in *; try discriminate; reflexivity.
  - exists RET_INDEX_OUT_OF_BOUNDS. split; [discriminate|]. unfold st_setup. now rewrite R.
Qed.

(** ** C06 *)

(** Objects a caller can reach through the interface. *)
Definition ws_reachable (k : stkind) (n : Z) (s : subjectTo) (t : list SubjectToStatus) : Prop :=
  exists ops rs, 0 <= n /\ adm_ws_run ops (fresh n) /\ ws_run k ops (st_new n) = Ok (rs, s) /\
    t = snd (spec_ws_run ops (fresh n)).

Lemma ws_reachable_wf k n s t : ws_reachable k n s t -> exists l0 l1, st_wf s l0 l1 /\ st_status s = t /\ st_n s = n.
Proof.
  intros (ops & rs & Hn & A & E & ->). rewrite <- new_status in * by auto.
  destruct (ws_run_spec k ops _ _ _ (wf_new n Hn) A) as (rs' & s' & m0 & m1 & E' & C & W & S & M).
  rewrite E in E'. injection E' as -> ->. exists m0, m1. split; [exact W|]. split; [exact S|].
  destruct M as (M & _). rewrite M. unfold st_new, st_init. destruct (Z.ltb_spec n 0); [lia|reflexivity].
Qed.

(** A complete working set: every index has been set up. *)
Definition complete (t : list SubjectToStatus) : Prop :=
  forall i, 0 <= i < zlen t -> valid_status (zn ST_UNDEFINED t i) = true.

(** shift by [off]: index i takes over from i+off; the last block keeps its data. *)
Theorem C06_shift : forall k n s t off, ws_reachable k n s t -> complete t ->
  1 < n -> 0 < off -> off <= n / 2 -> n mod off = 0 ->
  exists s' t', st_shift s off = Ok (SUCCESSFUL_RETURN, s') /\ zlen t' = n /\
    (forall i, 0 <= i < n -> zn ST_UNDEFINED t' i = zn ST_UNDEFINED t (if i <? n - off then i + off else i)) /\
    (forall i, 0 <= i < n -> st_getType s' i = st_getType s (if i <? n - off then i + off else i)) /\
    partition s' t'.
Proof.
  intros k n s t off H C Hn H0 H1 H2. destruct (ws_reachable_wf _ _ _ _ H) as (l0 & l1 & W & S & N). subst t n.
  pose proof (wf_stat _ _ _ W) as L.
  destruct (shift_ok s l0 l1 off W) as (s' & E & n' & _ & _ & S' & T' & W'); auto.
  { intros i Hi. specialize (C i). rewrite L in C. specialize (C Hi).
    destruct (zs (st_status s) i); simpl in *; auto; discriminate. }
  exists s', (st_status s'). split; [exact E|]. rewrite (wf_stat _ _ _ W'). split; [exact n'|].
  split; [exact S'|]. split; [|eapply wf_partition; exact W'].
  intros i Hi. rewrite (getType_ok _ _ _ i W') by lia.
  rewrite (getType_ok _ _ _ _ W) by (destruct (Z.ltb_spec i (st_n s - off)); lia).
  f_equal. now apply T'.
Qed.

Theorem C06_rotate : forall k n s t off, ws_reachable k n s t -> complete t -> 1 < n -> 0 < off < n ->
  exists s' t', st_rotate s off = Ok (SUCCESSFUL_RETURN, s') /\ zlen t' = n /\
    (forall i, 0 <= i < n -> zn ST_UNDEFINED t' i = zn ST_UNDEFINED t ((i + off) mod n)) /\
    (forall i, 0 <= i < n -> st_getType s' i = st_getType s ((i + off) mod n)) /\
    partition s' t'.
Proof.
  intros k n s t off H C Hn H0. destruct (ws_reachable_wf _ _ _ _ H) as (l0 & l1 & W & S & N). subst t n.
  pose proof (wf_stat _ _ _ W) as L.
  destruct (rotate_ok s l0 l1 off W) as (s' & E & n' & _ & _ & S' & T' & W'); auto.
  { intros i Hi. specialize (C i). rewrite L in C. specialize (C Hi).
    destruct (zs (st_status s) i); simpl in *; auto; discriminate. }
  exists s', (st_status s'). split; [exact E|]. rewrite (wf_stat _ _ _ W'). split; [exact n'|].
  split; [exact S'|]. split; [|eapply wf_partition; exact W'].
  intros i Hi. rewrite (getType_ok _ _ _ i W') by lia.
  rewrite (getType_ok _ _ _ _ W) by (apply Z.mod_pos_bound; lia).
  f_equal. now apply T'.
Qed.

(** Offsets that are refused leave the object alone. *)
Theorem C06_bad_offset_unchanged : forall k n s t off, ws_reachable k n s t -> 1 < n ->
  (off < 0 \/ n / 2 < off \/ (off <> 0 /\ n mod off <> 0) ->
     exists r, r <> SUCCESSFUL_RETURN /\ st_shift s off = Ok (r, s)) /\
  (off < 0 \/ n < off -> exists r, r <> SUCCESSFUL_RETURN /\ st_rotate s off = Ok (r, s)).
Proof.
  intros k n s t off H Hn. destruct (ws_reachable_wf _ _ _ _ H) as (l0 & l1 & W & S & N). subst n.
  split.
  - intros B. unfold st_shift. rewrite Z.quot_div_nonneg by lia.
    assert (0 < st_n s / 2) by (apply Z.div_str_pos; lia).
    destruct (Z.eqb_spec off 0); [lia|]. destruct (Z.leb_spec (st_n s) 1); [lia|]. cbn [orb].
    destruct (Z.ltb_spec off 0); cbn [orb]; [eexists; split; [|reflexivity]; discriminate|].
    destruct (Z.ltb_spec (st_n s / 2) off); cbn [orb]; [eexists; split; [|reflexivity]; discriminate|].
    rewrite Z.rem_mod_nonneg by lia.
    destruct (Z.eqb_spec (st_n s mod off) 0); [lia|]. cbn. eexists; split; [|reflexivity]; discriminate.
  - intros B. unfold st_rotate. destruct (Z.eqb_spec off 0); [lia|]. destruct (Z.eqb_spec off (st_n s)); [lia|].
    destruct (Z.leb_spec (st_n s) 1); [lia|]. cbn [orb].
    destruct (Z.ltb_spec off 0); cbn [orb]; [eexists; split; [|reflexivity]; discriminate|].
    destruct (Z.ltb_spec (st_n s) off); cbn [orb]; [eexists; split; [|reflexivity]; discriminate|lia].
Qed.

(** Atomicity fails for working sets that are not complete: shift returns
    RET_SHIFTING_FAILED after overwriting type and status, while the index lists
    keep the old sets, so status and lists disagree.  Same for rotate. *)
Theorem C06_error_atomic_refuted :
  (exists s t s', ws_reachable KBounds 4 s t /\ st_shift s 1 = Ok (RET_SHIFTING_FAILED, s') /\
     st_getStatus s 0 = Ok ST_LOWER /\ st_getStatus s' 0 = Ok ST_INACTIVE /\
     In 0 (il_numbers (st_act s')) /\ ~ In 0 (il_numbers (st_ina s'))) /\
  (exists s t s', ws_reachable KBounds 4 s t /\ st_rotate s 1 = Ok (RET_ROTATING_FAILED, s') /\
     st_getStatus s 0 = Ok ST_LOWER /\ st_getStatus s' 0 = Ok ST_INACTIVE /\
     In 0 (il_numbers (st_act s')) /\ ~ In 0 (il_numbers (st_ina s'))).
Proof.
  assert (R : exists s t, ws_reachable KBounds 4 s t /\
     ws_run KBounds [WSetup 0 ST_LOWER; WSetup 1 ST_INACTIVE] (st_new 4) =
       Ok ([SUCCESSFUL_RETURN; SUCCESSFUL_RETURN], s)).
  { eexists; eexists. split; [|vm_compute; reflexivity].
    exists [WSetup 0 ST_LOWER; WSetup 1 ST_INACTIVE]. eexists. split; [lia|]. split; [|split; [vm_compute; reflexivity|reflexivity]].
    repeat split; vm_compute; auto. }
  destruct R as (s & t & R & E). vm_compute in E. injection E as <-.
  split; eexists; exists t; eexists; (split; [exact R|]); (split; [vm_compute; reflexivity|]);
    repeat split; vm_compute; auto; intros [F|[]]; discriminate.
Qed.

Example C06_case :
  let ops := [WSetup 0 ST_LOWER; WSetup 1 ST_INACTIVE; WSetup 2 ST_UPPER; WSetup 3 ST_INACTIVE] in
  adm_ws_run ops (fresh 4) /\ complete (snd (spec_ws_run ops (fresh 4))).
Proof.
  split.
  - repeat split; vm_compute; auto.
  - intros i Hi. simpl in *. assert (i = 0 \/ i = 1 \/ i = 2 \/ i = 3) by (unfold zlen in Hi; simpl in Hi; lia).
    destruct H as [->|[->|[->| ->]]]; reflexivity.
Qed.

(** ** C07, working sets *)
Theorem C07_working_set_copy : forall k n s t, ws_reachable k n s t ->
  exists s', st_copy s = Ok s' /\ partition s' t /\ forall k ops, ws_run k ops s' = ws_run k ops s.
Proof.
  intros k n s t H. destruct (ws_reachable_wf _ _ _ _ H) as (l0 & l1 & W & <- & N).
  exists s. split; [now apply (st_copy_ok s l0 l1)|]. split; [eapply wf_partition; exact W|reflexivity].
Qed.

Print Assumptions C03_bounds_partition.
Print Assumptions C03_setupAll.
Print Assumptions C05_constraints_partition.
Print Assumptions C04_misuse_rejected_refuted.
Print Assumptions C04_repeated_setup_rejected.
Print Assumptions C06_shift.
Print Assumptions C06_rotate.
Print Assumptions C06_bad_offset_unchanged.
Print Assumptions C06_error_atomic_refuted.
Print Assumptions C07_working_set_copy.
