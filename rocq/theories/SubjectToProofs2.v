(** setupAll, shift, rotate and copies. *)
From Verif Require Import Base Types Indexlist IndexlistProofs SubjectTo SubjectToProofs.

Definition status_or (c : bool) (a b : SubjectToStatus) := if c then a else b.

Lemma zrange_succ n : 0 <= n -> zrange (n + 1) = zrange n ++ [n].
Proof.
  intros Hn. unfold zrange. replace (Z.to_nat (n + 1)) with (Z.to_nat n + 1)%nat by lia.
  rewrite seq_app, map_app. simpl. do 2 f_equal. lia.
Qed.

Lemma filter_zrange_succ f n : 0 <= n ->
  filter f (zrange (n + 1)) = filter f (zrange n) ++ (if f n then [n] else []).
Proof. intros. rewrite zrange_succ, filter_app by auto. simpl. now destruct (f n). Qed.

(** *** One pass of setupAll *)

Definition selected (s : subjectTo) (sel : SubjectToType -> bool) : list Z :=
  filter (fun i => sel (zt (st_type s) i)) (zrange (st_n s)).

Lemma setupPass_ok k sel v s l0 l1 : st_wf s l0 l1 ->
  v = ST_INACTIVE \/ is_active v = true ->
  (forall i, 0 <= i < st_n s -> sel (zt (st_type s) i) = true -> zs (st_status s) i = ST_UNDEFINED) ->
  exists s', st_setupPass k sel v s = Ok (Next s') /\
    st_wf s' (if is_active v then l0 else l0 ++ selected s sel) (if is_active v then l1 ++ selected s sel else l1) /\
    same_meta s s' /\
    (forall i, 0 <= i < st_n s -> zs (st_status s') i = if sel (zt (st_type s) i) then v else zs (st_status s) i).
Proof.
  intros W Hv Hu.
  cut (wp (st_setupPass k sel v s) (fun c => exists s', c = Next s' /\
    st_wf s' (if is_active v then l0 else l0 ++ selected s sel) (if is_active v then l1 ++ selected s sel else l1) /\
    same_meta s s' /\
    (forall i, 0 <= i < st_n s -> zs (st_status s') i = if sel (zt (st_type s) i) then v else zs (st_status s) i))).
  { intros H. apply wp_inv in H as (c & E & s' & -> & R). exists s'. auto. }
  unfold st_setupPass.
  pose (fl := fun i => filter (fun j => sel (zt (st_type s) j)) (zrange i)).
  apply (wp_forb_up (fun i s' =>
     st_wf s' (if is_active v then l0 else l0 ++ fl i) (if is_active v then l1 ++ fl i else l1) /\
     same_meta s s' /\
     (forall j, 0 <= j < st_n s -> zs (st_status s') j =
        if (j <? i) && sel (zt (st_type s) j) then v else zs (st_status s) j)) (fun _ => False)).
  - apply (wf_n _ _ _ W).
  - split; [|split].
    + unfold fl. simpl. rewrite !app_nil_r. destruct (is_active v); exact W.
    + apply same_meta_refl.
    + intros j Hj. destruct (Z.ltb_spec j 0); [lia|]. reflexivity.
  - intros i s' Hi (W' & M & ST). destruct M as (Mn & Mt & Ma & Mb).
    rewrite (getType_ok s' _ _ i W') by lia. cbn [bind]. rewrite Mt.
    destruct (sel (zt (st_type s) i)) eqn:Es.
    + assert (U : zs (st_status s') i = ST_UNDEFINED).
      { rewrite ST by lia. rewrite Z.ltb_irrefl. simpl. now apply Hu. }
      destruct (setup_ok k s' _ _ i v W') as (s2 & E2 & W2 & (Nn & Nt & Na & Nb) & St2);
        try rewrite U; try congruence; try lia; auto.
      rewrite E2. cbn [bind]. cbn. split; [|split].
      * unfold fl. rewrite (filter_zrange_succ _ i) by lia. rewrite Es.
        destruct (is_active v); rewrite app_assoc; exact W2.
      * repeat split; congruence.
      * intros j Hj. rewrite St2. rewrite zn_zupd by (rewrite ?(wf_stat _ _ _ W'); lia).
        destruct (Z.eqb_spec j i) as [->|Hne].
        -- destruct (Z.ltb_spec i (i + 1)); [|lia]. now rewrite Es.
        -- rewrite ST by lia. destruct (Z.ltb_spec j i), (Z.ltb_spec j (i + 1)); try lia; reflexivity.
    + cbn. split; [|split].
      * unfold fl. rewrite (filter_zrange_succ _ i) by lia. rewrite Es, app_nil_r. exact W'.
      * repeat split; auto.
      * intros j Hj. rewrite ST by lia. destruct (Z.ltb_spec j i), (Z.ltb_spec j (i + 1)); try lia; try reflexivity.
        assert (j = i) by lia. subst j. now rewrite Es.
  - intros s' (W' & M & ST). exists s'. split; [reflexivity|]. split; [exact W'|]. split; [exact M|].
    intros i Hi. rewrite ST by lia. destruct (Z.ltb_spec i (st_n s)); [reflexivity|lia].
  - intros e [].
Qed.

Definition setup_order (s : subjectTo) : list Z :=
  ((selected s is_unbounded ++ selected s is_bounded) ++ selected s is_equality) ++ selected s is_rest.

Lemma selected_meta s s' sel : same_meta s s' -> selected s' sel = selected s sel.
Proof. intros (A & B & _). unfold selected. now rewrite A, B. Qed.

Lemma setupAll_ok k v s : st_wf s [] [] -> v = ST_INACTIVE \/ is_active v = true ->
  (forall i, 0 <= i < st_n s -> zs (st_status s) i = ST_UNDEFINED) ->
  exists s', st_setupAll k s v = Ok (SUCCESSFUL_RETURN, s') /\
    st_wf s' (if is_active v then [] else setup_order s) (if is_active v then setup_order s else []) /\
    same_meta s s' /\ (forall i, 0 <= i < st_n s -> zs (st_status s') i = v).
Proof.
  intros W Hv Hu. unfold st_setupAll.
  destruct (setupPass_ok k is_unbounded v s [] [] W Hv) as (s1 & E1 & W1 & M1 & S1); [auto|].
  rewrite E1. cbn [bind]. pose proof M1 as (n1 & t1 & a1 & b1).
  destruct (setupPass_ok k is_bounded v s1 _ _ W1 Hv) as (s2 & E2 & W2 & M2 & S2).
  { intros i Hi Hs. rewrite t1, n1 in *. rewrite S1, Hu by lia.
    destruct (zt (st_type s) i); vm_compute in Hs; vm_compute; congruence. }
  rewrite E2. cbn [bind]. pose proof M2 as (n2 & t2 & a2 & b2).
  destruct (setupPass_ok k is_equality v s2 _ _ W2 Hv) as (s3 & E3 & W3 & M3 & S3).
  { intros i Hi Hs. rewrite t2, t1, n2, n1 in *. rewrite S2 by lia. rewrite ?t1, S1, Hu by lia.
    destruct (zt (st_type s) i); vm_compute in Hs; vm_compute; congruence. }
  rewrite E3. cbn [bind]. pose proof M3 as (n3 & t3 & a3 & b3).
  destruct (setupPass_ok k is_rest v s3 _ _ W3 Hv) as (s4 & E4 & W4 & M4 & S4).
  { intros i Hi Hs. rewrite t3, t2, t1, n3, n2, n1 in *. rewrite S3 by lia. rewrite ?t2, ?t1, S2 by lia. rewrite ?t1, S1, Hu by lia.
    destruct (zt (st_type s) i); vm_compute in Hs; vm_compute; congruence. }
  rewrite E4. cbn [bind]. pose proof M4 as (n4 & t4 & a4 & b4).
  exists s4. split; [reflexivity|]. split; [|split].
  - assert (O : selected s1 is_bounded = selected s is_bounded /\ selected s2 is_equality = selected s is_equality
        /\ selected s3 is_rest = selected s is_rest).
    { repeat split; unfold selected; rewrite ?t3, ?t2, ?t1, ?n3, ?n2, ?n1; reflexivity. }
    destruct O as (O1 & O2 & O3). unfold setup_order. rewrite O1, O2, O3 in W4.
    destruct (is_active v); simpl in *; exact W4.
  - repeat split; congruence.
  - intros i Hi. rewrite S4, S3, S2, S1 by lia. rewrite t3, t2, t1.
    destruct (zt (st_type s) i); reflexivity.
Qed.

(** *** shift and rotate *)

Definition shiftable (s : subjectTo) : Prop :=
  forall i, 0 <= i < st_n s -> zs (st_status s) i = ST_INACTIVE \/ is_active (zs (st_status s) i) = true.

Definition with_status (s : subjectTo) (p : SubjectToStatus -> bool) : list Z :=
  filter (fun i => p (zs (st_status s) i)) (zrange (st_n s)).
Definition is_inactive (v : SubjectToStatus) : bool := match v with ST_INACTIVE => true | _ => false end.

(** Arrays of matching size are all that the rebuild needs. *)
Record st_arr (s : subjectTo) : Prop := {
  arr_n : 0 <= st_n s; arr_t : zlen (st_type s) = st_n s; arr_s : zlen (st_status s) = st_n s }.

Lemma wf_arr s l0 l1 : st_wf s l0 l1 -> st_arr s.
Proof. intros []. now constructor. Qed.

Lemma arr_getStatus s i : st_arr s -> 0 <= i < st_n s -> st_getStatus s i = Ok (zs (st_status s) i).
Proof.
  intros [] Hi. unfold st_getStatus. fold (st_inrange s i). rewrite (proj2 (inrange_true s i) Hi).
  apply rd_ok. lia.
Qed.
Lemma arr_getType s i : st_arr s -> 0 <= i < st_n s -> st_getType s i = Ok (zt (st_type s) i).
Proof.
  intros [] Hi. unfold st_getType. fold (st_inrange s i). rewrite (proj2 (inrange_true s i) Hi).
  apply rd_ok. lia.
Qed.
Lemma arr_setStatus s i v : st_arr s -> 0 <= i < st_n s ->
  st_setStatus s i v = Ok (SUCCESSFUL_RETURN, st_set_status s (zupd (st_status s) i v)).
Proof.
  intros [] Hi. unfold st_setStatus. fold (st_inrange s i). rewrite (proj2 (inrange_true s i) Hi).
  rewrite wr_ok by lia. reflexivity.
Qed.
Lemma arr_setType s i v : st_arr s -> 0 <= i < st_n s ->
  st_setType s i v = Ok (SUCCESSFUL_RETURN, st_set_type s (zupd (st_type s) i v)).
Proof.
  intros [] Hi. unfold st_setType. fold (st_inrange s i). rewrite (proj2 (inrange_true s i) Hi).
  rewrite wr_ok by lia. reflexivity.
Qed.
Lemma arr_set_status s l : st_arr s -> zlen l = st_n s -> st_arr (st_set_status s l).
Proof. intros [] H. constructor; cbn; auto. Qed.
Lemma arr_set_type s l : st_arr s -> zlen l = st_n s -> st_arr (st_set_type s l).
Proof. intros [] H. constructor; cbn; auto. Qed.

Lemma filter_range_NoDup f n : NoDup (filter f (zrange n)).
Proof. apply NoDup_filter, zrange_NoDup. Qed.

Lemma filter_range_lt f n i : In i (filter f (zrange n)) -> 0 <= i < n.
Proof. intros H. apply filter_In in H as [H _]. now apply zrange_In. Qed.

Lemma rebuild_ok err s : st_arr s -> shiftable s ->
  exists s', st_rebuild err s = Ok (SUCCESSFUL_RETURN, s') /\
    st_wf s' (with_status s is_inactive) (with_status s is_active) /\
    same_meta s s' /\ st_status s' = st_status s.
Proof.
  intros A SH.
  cut (wp (st_rebuild err s) (fun '(r, s') => r = SUCCESSFUL_RETURN /\
    st_wf s' (with_status s is_inactive) (with_status s is_active) /\
    same_meta s s' /\ st_status s' = st_status s)).
  { intros H. apply wp_inv in H as ([r s'] & E & -> & R). exists s'. auto. }
  unfold st_rebuild. apply wp_bind.
  pose (f0 := fun i => is_inactive (zs (st_status s) i)). pose (f1 := fun i => is_active (zs (st_status s) i)).
  apply (wp_forb_up (fun i '(fr, fx) =>
     il_rep fr (filter f0 (zrange i)) /\ il_rep fx (filter f1 (zrange i)) /\ il_phys fr = st_n s /\ il_phys fx = st_n s)
     (fun _ => False)).
  - apply (arr_n _ A).
  - split; [apply rep_new, (arr_n _ A)|]. split; [apply rep_new, (arr_n _ A)|]. split; reflexivity.
  - intros i [fr fx] Hi (R0 & R1 & P0 & P1). rewrite arr_getStatus by (auto; lia). cbn [bind].
    assert (C : forall f, zlen (filter f (zrange i)) < st_n s).
    { intros f. apply (NoDup_len_lt _ _ i); [lia|apply filter_range_NoDup| |].
      - intros j Hj. apply filter_range_lt in Hj. lia.
      - intros Hj. apply filter_range_lt in Hj. lia. }
    assert (N : forall f, ~ In i (filter f (zrange i))) by (intros f Hj; apply filter_range_lt in Hj; lia).
    destruct (SH i ltac:(lia)) as [E|E].
    + rewrite E. apply wp_bind. eapply wp_mono.
      * apply (addNumber_spec fr (filter f0 (zrange i)) i R0); [rewrite P0; apply C|apply N].
      * intros [r fr'] (-> & R' & P'). cbn. rewrite !(filter_zrange_succ _ i) by lia.
        unfold f0 at 2, f1 at 2. rewrite E. simpl. rewrite app_nil_r.
        split; [exact R'|]. split; [exact R1|]. split; congruence.
    + assert (E0 : f0 i = false) by (unfold f0; destruct (zs (st_status s) i); simpl in *; congruence).
      assert (G : wp ('(r, fx') <- il_addNumber fx i ;;
                      (if r =r? SUCCESSFUL_RETURN then Ok (Next (fr, fx')) else Ok (Brk err)))
                 (fun c => match c with
                  | Next (fr, fx) => il_rep fr (filter f0 (zrange (i + 1))) /\ il_rep fx (filter f1 (zrange (i + 1))) /\
                      il_phys fr = st_n s /\ il_phys fx = st_n s
                  | Brk _ => False end)).
      { apply wp_bind. eapply wp_mono.
        - apply (addNumber_spec fx (filter f1 (zrange i)) i R1); [rewrite P1; apply C|apply N].
        - intros [r fx'] (-> & R' & P'). cbn. rewrite !(filter_zrange_succ _ i) by lia.
          rewrite E0, app_nil_r. unfold f1 at 2. rewrite E.
          split; [exact R0|]. split; [exact R'|]. split; congruence. }
      destruct (zs (st_status s) i) eqn:Ez; simpl in E; try discriminate; exact G.
  - intros [fr fx] (R0 & R1 & P0 & P1). cbn. split; [reflexivity|]. split; [|repeat split].
    destruct A. constructor; cbn; auto.
    + intros i. unfold with_status. rewrite filter_In, zrange_In. unfold f0.
      destruct (zs (st_status s) i); simpl; split; intros [Ha Hb]; split; auto; discriminate.
    + intros i. unfold with_status. rewrite filter_In, zrange_In. tauto.
  - intros e [].
Qed.

Lemma shiftDown_ok s off : st_arr s -> 0 < off <= st_n s ->
  exists s', st_shiftDown s off = Ok s' /\ st_arr s' /\ st_n s' = st_n s /\
    (forall i, 0 <= i < st_n s -> zs (st_status s') i = zs (st_status s) (if i <? st_n s - off then i + off else i)) /\
    (forall i, 0 <= i < st_n s -> zt (st_type s') i = zt (st_type s) (if i <? st_n s - off then i + off else i)) /\
    st_ina s' = st_ina s /\ st_act s' = st_act s /\
    st_noLower s' = st_noLower s /\ st_noUpper s' = st_noUpper s.
Proof.
  intros A Ho.
  cut (wp (st_shiftDown s off) (fun s' => st_arr s' /\ st_n s' = st_n s /\
    (forall i, 0 <= i < st_n s -> zs (st_status s') i = zs (st_status s) (if i <? st_n s - off then i + off else i)) /\
    (forall i, 0 <= i < st_n s -> zt (st_type s') i = zt (st_type s) (if i <? st_n s - off then i + off else i)) /\
    st_ina s' = st_ina s /\ st_act s' = st_act s /\
    st_noLower s' = st_noLower s /\ st_noUpper s' = st_noUpper s)).
  { intros H. apply wp_inv in H as (s' & E & R). exists s'. tauto. }
  unfold st_shiftDown.
  apply (wp_for_up (fun k s' => st_arr s' /\ st_n s' = st_n s /\
    (forall i, 0 <= i < st_n s -> zs (st_status s') i = zs (st_status s) (if i <? k then i + off else i)) /\
    (forall i, 0 <= i < st_n s -> zt (st_type s') i = zt (st_type s) (if i <? k then i + off else i)) /\
    st_ina s' = st_ina s /\ st_act s' = st_act s /\
    st_noLower s' = st_noLower s /\ st_noUpper s' = st_noUpper s)).
  - lia.
  - split; [exact A|]. split; [reflexivity|]. split; [|split; [|auto]].
    + intros i Hi. destruct (Z.ltb_spec i 0); [lia|reflexivity].
    + intros i Hi. destruct (Z.ltb_spec i 0); [lia|reflexivity].
  - intros k s' Hk (A' & N & S & T & F). pose proof (arr_n _ A). 
    rewrite arr_getType by (auto; lia). cbn [bind]. rewrite arr_setType by (auto; lia). cbn [bind].
    set (s1 := st_set_type s' _).
    assert (A1 : st_arr s1) by (apply arr_set_type; [auto|rewrite zlen_zupd; apply (arr_t _ A')]).
    rewrite arr_getStatus by (auto; unfold s1; cbn; lia). cbn [bind].
    rewrite arr_setStatus by (auto; unfold s1; cbn; lia). cbn [bind]. unfold s1 at 1 2 3. cbn.
    split; [|split; [|split; [|split]]]; auto.
    + apply arr_set_status; [exact A1|]. unfold s1. cbn. rewrite zlen_zupd. apply (arr_s _ A').
    + intros i Hi. unfold s1. cbn. rewrite zn_zupd by (rewrite ?(arr_s _ A'); lia).
      destruct (Z.eqb_spec i k) as [->|Hne].
      * destruct (Z.ltb_spec k (k + 1)); [|lia]. rewrite S by lia.
        destruct (Z.ltb_spec (k + off) k); [lia|reflexivity].
      * rewrite S by lia. destruct (Z.ltb_spec i k), (Z.ltb_spec i (k + 1)); try lia; reflexivity.
    + intros i Hi. unfold s1. cbn. rewrite zn_zupd by (rewrite ?(arr_t _ A'); lia).
      destruct (Z.eqb_spec i k) as [->|Hne].
      * destruct (Z.ltb_spec k (k + 1)); [|lia]. rewrite T by lia.
        destruct (Z.ltb_spec (k + off) k); [lia|reflexivity].
      * rewrite T by lia. destruct (Z.ltb_spec i k), (Z.ltb_spec i (k + 1)); try lia; reflexivity.
  - intros s' H. exact H.
Qed.

(** Index whose data moves to [i]. *)
Definition shift_src (n off i : Z) : Z := if i <? n - off then i + off else i.
Definition rotate_src (n off i : Z) : Z := (i + off) mod n.

Lemma shift_src_range n off i : 0 < off -> 0 <= i < n -> 0 <= shift_src n off i < n.
Proof. intros. unfold shift_src. destruct (Z.ltb_spec i (n - off)); lia. Qed.

Lemma rotate_src_val n off i : 0 < off < n -> 0 <= i < n ->
  rotate_src n off i = if i <? n - off then i + off else i - n + off.
Proof.
  intros Ho Hi. unfold rotate_src. destruct (Z.ltb_spec i (n - off)).
  - apply Z.mod_small. lia.
  - symmetry. apply Z.mod_unique with (q := 1); lia.
Qed.

Lemma shift_ok s l0 l1 off : st_wf s l0 l1 -> shiftable s -> 1 < st_n s ->
  0 < off -> off <= st_n s / 2 -> st_n s mod off = 0 ->
  exists s', st_shift s off = Ok (SUCCESSFUL_RETURN, s') /\
    st_n s' = st_n s /\ st_noLower s' = st_noLower s /\ st_noUpper s' = st_noUpper s /\
    (forall i, 0 <= i < st_n s -> zs (st_status s') i = zs (st_status s) (shift_src (st_n s) off i)) /\
    (forall i, 0 <= i < st_n s -> zt (st_type s') i = zt (st_type s) (shift_src (st_n s) off i)) /\
    st_wf s' (with_status s' is_inactive) (with_status s' is_active).
Proof.
  intros W SH Hn H0 H1 H2. pose proof (wf_arr _ _ _ W) as A.
  assert (Hon : off < st_n s) by (pose proof (Z.div_lt (st_n s) 2); lia).
  unfold st_shift.
  destruct (Z.eqb_spec off 0); [lia|]. destruct (Z.leb_spec (st_n s) 1); [lia|]. cbn [orb].
  destruct (Z.ltb_spec off 0); [lia|]. rewrite Z.quot_div_nonneg by lia.
  destruct (Z.ltb_spec (st_n s / 2) off); [lia|]. cbn [orb].
  rewrite Z.rem_mod_nonneg by lia. rewrite H2. cbn [Z.eqb negb].
  destruct (shiftDown_ok s off A ltac:(lia)) as (s1 & E1 & A1 & N1 & S1 & T1 & I1 & J1 & K1 & L1).
  rewrite E1. cbn [bind].
  assert (SH1 : shiftable s1).
  { intros i Hi. rewrite N1 in Hi. rewrite S1 by lia. apply SH. destruct (Z.ltb_spec i (st_n s - off)); lia. }
  destruct (rebuild_ok RET_SHIFTING_FAILED s1 A1 SH1) as (s2 & E2 & W2 & (n2 & t2 & a2 & b2) & u2).
  rewrite E2. exists s2. split; [reflexivity|].
  split; [congruence|]. split; [congruence|]. split; [congruence|].
  split; [intros i Hi; rewrite u2; now apply S1|]. split; [intros i Hi; rewrite t2; now apply T1|].
  unfold with_status in *. rewrite u2, n2. exact W2.
Qed.

Lemma rotate_ok s l0 l1 off : st_wf s l0 l1 -> shiftable s -> 1 < st_n s -> 0 < off < st_n s ->
  exists s', st_rotate s off = Ok (SUCCESSFUL_RETURN, s') /\
    st_n s' = st_n s /\ st_noLower s' = st_noLower s /\ st_noUpper s' = st_noUpper s /\
    (forall i, 0 <= i < st_n s -> zs (st_status s') i = zs (st_status s) (rotate_src (st_n s) off i)) /\
    (forall i, 0 <= i < st_n s -> zt (st_type s') i = zt (st_type s) (rotate_src (st_n s) off i)) /\
    st_wf s' (with_status s' is_inactive) (with_status s' is_active).
Proof.
  intros W SH Hn Ho. pose proof (wf_arr _ _ _ W) as A.
  unfold st_rotate.
  destruct (Z.eqb_spec off 0); [lia|]. destruct (Z.eqb_spec off (st_n s)); [lia|].
  destruct (Z.leb_spec (st_n s) 1); [lia|]. cbn [orb].
  destruct (Z.ltb_spec off 0); [lia|]. destruct (Z.ltb_spec (st_n s) off); [lia|]. cbn [orb].
  match goal with |- context [bind (for_up 0 off ?b ?st0) _] =>
    assert (E0 : wp (for_up 0 off b st0) (fun '(ty, ss) => zlen ty = off /\ zlen ss = off /\
      (forall i, 0 <= i < off -> zt ty i = zt (st_type s) i) /\ (forall i, 0 <= i < off -> zs ss i = zs (st_status s) i))) end.
  { apply (wp_for_up (fun k '(ty, ss) => zlen ty = off /\ zlen ss = off /\
      (forall i, 0 <= i < k -> zt ty i = zt (st_type s) i) /\ (forall i, 0 <= i < k -> zs ss i = zs (st_status s) i))).
    - lia.
    - rewrite !zlen_repeat. repeat split; try lia; intros; lia.
    - intros k [ty ss] Hk (L1 & L2 & F1 & F2).
      rewrite arr_getType by (auto; lia). cbn [bind]. rewrite wr_ok by lia. cbn [bind].
      rewrite arr_getStatus by (auto; lia). cbn [bind]. rewrite wr_ok by lia. cbn.
      rewrite !zlen_zupd. repeat split; auto.
      + intros i Hi. rewrite zn_zupd by lia. destruct (Z.eqb_spec i k) as [->|]; [reflexivity|apply F1; lia].
      + intros i Hi. rewrite zn_zupd by lia. destruct (Z.eqb_spec i k) as [->|]; [reflexivity|apply F2; lia].
    - auto. }
  apply wp_inv in E0 as ([ty ss] & E0 & L1 & L2 & F1 & F2). rewrite E0. cbn [bind].
  destruct (shiftDown_ok s off A ltac:(lia)) as (s1 & E1 & A1 & N1 & S1 & T1 & I1 & J1 & K1 & M1).
  rewrite E1. cbn [bind].
  match goal with |- context [bind (for_up (st_n s - off) (st_n s) ?b s1) _] =>
    assert (E2 : wp (for_up (st_n s - off) (st_n s) b s1) (fun s' => st_arr s' /\ st_n s' = st_n s /\
      (forall i, 0 <= i < st_n s -> zs (st_status s') i = zs (st_status s) (rotate_src (st_n s) off i)) /\
      (forall i, 0 <= i < st_n s -> zt (st_type s') i = zt (st_type s) (rotate_src (st_n s) off i)) /\
      st_noLower s' = st_noLower s /\ st_noUpper s' = st_noUpper s)) end.
  { apply (wp_for_up (fun k s' => st_arr s' /\ st_n s' = st_n s /\
      (forall i, 0 <= i < k -> zs (st_status s') i = zs (st_status s) (rotate_src (st_n s) off i)) /\
      (forall i, 0 <= i < k -> zt (st_type s') i = zt (st_type s) (rotate_src (st_n s) off i)) /\
      st_noLower s' = st_noLower s /\ st_noUpper s' = st_noUpper s)).
    - lia.
    - split; [auto|]. split; [auto|]. split; [|split; [|auto]].
      + intros i Hi. rewrite S1 by lia. rewrite rotate_src_val by lia.
        destruct (Z.ltb_spec i (st_n s - off)); [reflexivity|lia].
      + intros i Hi. rewrite T1 by lia. rewrite rotate_src_val by lia.
        destruct (Z.ltb_spec i (st_n s - off)); [reflexivity|lia].
    - intros k s' Hk (A' & N & S & T & F).
      rewrite N. rewrite (rd_ok ST_UNKNOWN) by lia. cbn [bind]. rewrite arr_setType by (auto; lia). cbn [bind].
      set (s'' := st_set_type s' _).
      assert (A2 : st_arr s'') by (apply arr_set_type; [auto|rewrite zlen_zupd; apply (arr_t _ A')]).
      change (st_n s'') with (st_n s'). rewrite N.
      rewrite (rd_ok ST_UNDEFINED) by lia. cbn [bind]. rewrite arr_setStatus by (auto; unfold s''; cbn; lia).
      cbn [bind wp]. unfold s'' at 2 3. cbn.
      split; [|split; [|split; [|split]]]; auto.
      + apply arr_set_status; [exact A2|]. unfold s''. cbn. rewrite zlen_zupd. apply (arr_s _ A').
      + intros i Hi. unfold s''. cbn. rewrite zn_zupd by (rewrite ?(arr_s _ A'); lia).
        destruct (Z.eqb_spec i k) as [->|Hne]; [|apply S; lia].
        rewrite F2 by lia. rewrite rotate_src_val by lia. destruct (Z.ltb_spec k (st_n s - off)); [lia|reflexivity].
      + intros i Hi. unfold s''. cbn. rewrite zn_zupd by (rewrite ?(arr_t _ A'); lia).
        destruct (Z.eqb_spec i k) as [->|Hne]; [|apply T; lia].
        rewrite F1 by lia. rewrite rotate_src_val by lia. destruct (Z.ltb_spec k (st_n s - off)); [lia|reflexivity].
    - auto. }
  apply wp_inv in E2 as (s2 & E2 & A2 & N2 & S2 & T2 & K2 & M2). rewrite E2. cbn [bind].
  assert (SH2 : shiftable s2).
  { intros i Hi. rewrite N2 in Hi. rewrite S2 by lia. apply SH. unfold rotate_src. apply Z.mod_pos_bound. lia. }
  destruct (rebuild_ok RET_ROTATING_FAILED s2 A2 SH2) as (s3 & E3 & W3 & (n3 & t3 & a3 & b3) & u3).
  rewrite E3. exists s3. split; [reflexivity|].
  split; [congruence|]. split; [congruence|]. split; [congruence|].
  split; [intros i Hi; rewrite u3; now apply S2|]. split; [intros i Hi; rewrite t3; now apply T2|].
  unfold with_status in *. rewrite u3, n3. exact W3.
Qed.

(** *** copies *)

Lemma st_copy_ok s l0 l1 : st_wf s l0 l1 -> st_copy s = Ok s.
Proof.
  intros W. unfold st_copy. pose proof (wf_n _ _ _ W) as Hn. pose proof (wf_type _ _ _ W) as Ht. pose proof (wf_stat _ _ _ W) as Hs.
  assert (E : (if st_n s =? 0 then Ok ([], []) else
              for_up 0 (st_n s) (fun i '(t, v) =>
                     x <- rd (st_type s) i ;; t <- wr t i x ;;
                     y <- rd (st_status s) i ;; v <- wr v i y ;; Ok (t, v))
                   (repeat ST_UNKNOWN (Z.to_nat (st_n s)), repeat ST_UNDEFINED (Z.to_nat (st_n s))))
            = Ok (st_type s, st_status s)).
  { destruct (Z.eqb_spec (st_n s) 0) as [E0|E0].
    - assert (A : forall (X : Type) (l : list X), zlen l = 0 -> l = []).
      { intros X [|x l]; [auto|]. rewrite zlen_cons. pose proof (zlen_nonneg l). lia. }
      rewrite (A _ (st_type s)), (A _ (st_status s)) by lia. reflexivity.
    - match goal with |- ?m = _ => cut (wp m (fun '(t, v) => t = st_type s /\ v = st_status s)) end.
      { intros H. apply wp_inv in H as ([t v] & -> & -> & ->). reflexivity. }
      apply (wp_for_up (fun k '(t, v) => zlen t = st_n s /\ zlen v = st_n s /\
         (forall i, 0 <= i < k -> zt t i = zt (st_type s) i) /\ (forall i, 0 <= i < k -> zs v i = zs (st_status s) i))).
      + lia.
      + rewrite !zlen_repeat. repeat split; try lia; intros; lia.
      + intros k [t v] Hk (L1 & L2 & F1 & F2). rewrite (rd_ok ST_UNKNOWN) by lia. cbn [bind].
        rewrite wr_ok by lia. cbn [bind]. rewrite (rd_ok ST_UNDEFINED) by lia. cbn [bind].
        rewrite wr_ok by lia. cbn. rewrite !zlen_zupd. repeat split; auto.
        * intros i Hi. rewrite zn_zupd by lia. destruct (Z.eqb_spec i k) as [->|]; [reflexivity|apply F1; lia].
        * intros i Hi. rewrite zn_zupd by lia. destruct (Z.eqb_spec i k) as [->|]; [reflexivity|apply F2; lia].
      + intros [t v] (L1 & L2 & F1 & F2). split.
        * apply (list_ext_zn ST_UNKNOWN); [lia|]. intros; apply F1; lia.
        * apply (list_ext_zn ST_UNDEFINED); [lia|]. intros; apply F2; lia. }
  rewrite E. cbn [bind].
  pose proof (wf_ina _ _ _ W) as R0. pose proof (wf_act _ _ _ W) as R1.
  pose proof (wf_pina _ _ _ W). pose proof (wf_pact _ _ _ W).
  rewrite copy_spec; rewrite ?zlen_repeat; try lia; try apply R0. cbn [bind].
  rewrite copy_spec; rewrite ?zlen_repeat; try lia; try apply R1. cbn [bind].
  now destruct s.
Qed.
