(** The cheap independence tests, and resolving a dependence by exchange. *)
From Verif Require Import Base Types Num Options Indexlist IndexlistProofs Loops RSum LinSpec SafeLib SubjectTo SubjectToProofs SubjectToProofs2
  Flipper PropFlipper Matrices MatLib MatSafe CsLib PropDense PropSparse PropSparse2 LinAlg PropLinAlg QProblemB QPBSafe QPBSafe2 QPBX1 QPBX2 QPBX3 QPBX4 QProblem QProblem2
  QPX1 QPX2 QPX3 QPX4 QPX5 QPX6 QPX7 QPX8 QPX9 QPX10 QPX11 QPX12 QPX13 QPX14 QPX15.
Local Open Scope R_scope.

Section X16.
Variables eps zero infty : R.
Notation N := (RNumT eps zero infty).
Notation arr := (list R).
Hypothesis zero_0 : zero = 0.
Variable junk : Z -> arr.
Hypothesis J : junk_ok (N := N) junk.
Notation pwf := (pwf eps zero infty).
Notation pfl := (pfl eps zero infty).

Lemma rep_rd1 (b : subjectTo) l0 l1 : st_wf b l0 l1 -> forall k, (0 <= k < zlen l1)%Z -> rd (il_number (st_act b)) k = Ok (zn 0%Z l1 k).
Proof. intros W k Hk. apply rd_rep; [exact (wf_act _ _ _ W)|exact Hk]. Qed.

(** what a state with exact TQ factors is made of *)
Record pinv (n m : Z) (Am : Z -> Z -> R) (s : qp N) (l0 l1 k0 k1 : list Z) : Prop := {
  pi_w : pwf n m Am s l0 l1 k0 k1;
  pi_f : pfl n m s;
  pi_y : zlen (q_y (p_b s)) = (n + m)%Z;
  pi_A : exists M, p_A s = Some M /\ amat_full eps zero infty m n M Am;
  pi_tq : tqf n (p_sizeT s) l0 k1 Am (p_Q s) (p_T s)
}.

Lemma checkLI_C n m Am (s : qp N) l0 l1 k0 k1 number : pinv n m Am s l0 l1 k0 k1 -> o_enableFullLITests (p_opts s) = false -> (0 <= number < m)%Z ->
  let big p := o_epsLITests (p_opts s) * lsum l0 (fun u => Am number u * Am number u) < Rabs (comb l0 (Am number) (ce n (p_Q s)) p) in
  exists r, addConstraint_checkLI (N := N) junk number s = Ok (r, s) /\
    ((r = RET_LINEARLY_INDEPENDENT /\ exists p, (0 <= p < zlen l0 - zlen k1)%Z /\ big p) \/
     (r = RET_LINEARLY_DEPENDENT /\ forall p, (0 <= p < zlen l0 - zlen k1)%Z -> ~ big p)).
Proof.
  intros [W F Ly (M & EA & OA) TQ] NF Rn big. destruct W as [En Em Wb Wc LQ LR ES LT _].
  destruct (range_b _ _ _ Wb) as (Rg0 & Rg1). destruct (len_b _ _ _ Wb) as (Ln0 & _). change (st_n (p_bounds s)) with (pV s) in *. rewrite En in *.
  assert (EF : pFR s = zlen l0) by exact (rep_len _ _ (wf_ina _ _ _ Wb)). assert (EC : pAC s = zlen k1) by exact (rep_len _ _ (wf_act _ _ _ Wc)).
  destruct TQ as (LE & _). pose proof (zlen_nonneg k1) as Pk.
  unfold addConstraint_checkLI, p_theA. rewrite EA. cbn [bind]. rewrite NF. unfold pZ. rewrite EF, EC, En.
  assert (LJ : zlen (junk (zlen l0)) = zlen l0) by (apply J; lia).
  destruct (af_row _ _ _ _ _ _ _ OA number (n1 (N := N)) (p_free s) l0 (junk (zlen l0)) (wf_ina _ _ _ Wb) Rg0 Rn ltac:(lia) (or_introl eq_refl)) as (row & E1 & L1 & V1).
  rcar. rewrite E1. cbn [bind].
  set (h := fun i => Am number (zz l0 i)). assert (V : forall i, (0 <= i < zlen l0)%Z -> zn 0 row i = h i) by (intros i Hi; rewrite V1 by lia; unfold h; rnum; ring).
  rewrite (sum_loop 0 (zlen l0) _ (fun i => h i * h i) 0); [|lia|].
  2:{ intros i a Hi. rewrite (rd_ok 0) by lia. cbn [bind]. rewrite V by lia. reflexivity. }
  cbn [bind].
  assert (S2 : rsum 0 (zlen l0) (fun i => h i * h i) = lsum l0 (fun u => Am number u * Am number u)) by (unfold h; now rewrite (rsum_list l0 (fun u => Am number u * Am number u))).
  assert (SQ : forall p, rsum 0 (zlen l0) (fun i => h i * ce n (p_Q s) (zz l0 i) p) = comb l0 (Am number) (ce n (p_Q s)) p).
  { intros p. unfold comb, h. now rewrite (rsum_list l0 (fun u => Am number u * ce n (p_Q s) u p)). }
  match goal with |- context [bind ?m _] => destruct (wp_inv m (fun c => match c with Brk _ => exists p, (0 <= p < zlen l0 - zlen k1)%Z /\ big p | Next _ => forall p, (0 <= p < zlen l0 - zlen k1)%Z -> ~ big p end)) as (c & E & K) end.
  { apply wp_forb_up with (I := fun i _ => forall p, (0 <= p < i)%Z -> ~ big p) (J := fun _ => exists p, (0 <= p < zlen l0 - zlen k1)%Z /\ big p); auto; [lia|intros p Hp; lia|].
    intros j [] Hj IH. rewrite (sum_loop 0 (zlen l0) _ (fun i => h i * ce n (p_Q s) (zz l0 i) j) 0); [|lia|].
    2:{ intros i a Hi. assert (Hv : (0 <= zz l0 i < n)%Z) by (apply Rg0, zn_In; lia). unfold p_FR, p_free. rewrite (rep_rd _ _ _ Wb i Hi). cbn [bind]. rewrite (rd_ok 0) by lia. cbn [bind].
        rewrite (rd_ok 0) by nia. cbn [bind]. rewrite V by lia. reflexivity. }
    cbn [bind]. rewrite SQ, S2, !Rplus_0_l. rnum. destruct (Rltb_spec (o_epsLITests (p_opts s) * lsum l0 (fun u => Am number u * Am number u)) (Rabs (comb l0 (Am number) (ce n (p_Q s)) j))) as [B|B]; cbn [wp].
    - exists j. split; [lia|exact B].
    - intros p Hp. destruct (Z.eq_dec p j) as [->|]; [unfold big; exact B|apply IH; lia]. }
  rewrite E. cbn [bind]. destruct c; eexists; (split; [reflexivity|]); [right|left]; auto.
Qed.

Lemma checkLI_B n m Am (s : qp N) l0 l1 k0 k1 number : pinv n m Am s l0 l1 k0 k1 -> o_enableFullLITests (p_opts s) = false -> (0 <= number < n)%Z ->
  let big p := o_epsLITests (p_opts s) < Rabs (ce n (p_Q s) number p) in
  exists r, addBound_checkLI (N := N) junk number s = Ok (r, s) /\
    ((r = RET_LINEARLY_INDEPENDENT /\ exists p, (0 <= p < zlen l0 - zlen k1)%Z /\ big p) \/
     (r = RET_LINEARLY_DEPENDENT /\ forall p, (0 <= p < zlen l0 - zlen k1)%Z -> ~ big p)).
Proof.
  intros [W F Ly (M & EA & OA) TQ] NF Rn big. destruct W as [En Em Wb Wc LQ LR ES LT _].
  destruct (len_b _ _ _ Wb) as (Ln0 & _). change (st_n (p_bounds s)) with (pV s) in *. rewrite En in *.
  assert (EF : pFR s = zlen l0) by exact (rep_len _ _ (wf_ina _ _ _ Wb)). assert (EC : pAC s = zlen k1) by exact (rep_len _ _ (wf_act _ _ _ Wc)).
  destruct TQ as (LE & _). pose proof (zlen_nonneg k1) as Pk.
  unfold addBound_checkLI. rewrite NF. unfold pZ. rewrite EF, EC, En.
  match goal with |- context [bind ?m _] => destruct (wp_inv m (fun c => match c with Brk _ => exists p, (0 <= p < zlen l0 - zlen k1)%Z /\ big p | Next _ => forall p, (0 <= p < zlen l0 - zlen k1)%Z -> ~ big p end)) as (c & E & K) end.
  { apply wp_forb_up with (I := fun i _ => forall p, (0 <= p < i)%Z -> ~ big p) (J := fun _ => exists p, (0 <= p < zlen l0 - zlen k1)%Z /\ big p); auto; [lia|intros p Hp; lia|].
    intros j [] Hj IH. assert (Hjn : (0 <= number + n * j < n * n)%Z) by nia. rcar. rewrite (rd_ok 0) by lia. cbn [bind]. change (zn 0 (p_Q s) (number + n * j)) with (ce n (p_Q s) number j).
    rnum. destruct (Rltb_spec (o_epsLITests (p_opts s)) (Rabs (ce n (p_Q s) number j))) as [B|B]; cbn [wp].
    - exists j. split; [lia|exact B].
    - intros p Hp. destruct (Z.eq_dec p j) as [->|]; [unfold big; exact B|apply IH; lia]. }
  rewrite E. cbn [bind]. destruct c; eexists; (split; [reflexivity|]); [right|left]; auto.
Qed.

(** what a blocking index says about the denominators *)
Lemma ratio_ok (st : subjectTo) l0 l1 (num den : arr) epsNum epsDen t : st_wf st l0 l1 -> (zlen l1 <= zlen num)%Z -> (zlen l1 <= zlen den)%Z -> 0 < epsDen ->
  exists t' bc, performRatioTest (N := N) (zlen l1) (il_number (st_act st)) st num den epsNum epsDen t = Ok (t', bc) /\
    (bc = (-1)%Z \/ exists i, (0 <= i < zlen l1)%Z /\ bc = zz l1 i /\ zn 0 den i <> 0).
Proof.
  intros W Ln Ld ED. unfold performRatioTest. destruct (range_b _ _ _ W) as (_ & Rg).
  match goal with |- context [for_up ?lo ?hi ?b ?x] => destruct (wp_inv (for_up lo hi b x) (fun '(_, bc) => bc = (-1)%Z \/ exists i, (0 <= i < zlen l1)%Z /\ bc = zz l1 i /\ zn 0 den i <> 0)) as ([t' bc] & E & K) end.
  { apply wp_for_up with (I := fun _ '(_, bc) => bc = (-1)%Z \/ exists i, (0 <= i < zlen l1)%Z /\ bc = zz l1 i /\ zn 0 den i <> 0); auto; [apply zlen_nonneg|].
    intros i [t1 b1] Hi IH. rewrite (rep_rd1 _ _ _ W i Hi). cbn [bind]. assert (Hv : (0 <= zz l1 i < st_n st)%Z) by (apply Rg, zn_In; lia).
    change (zn 0%Z l1 i) with (zz l1 i). rewrite (getType_ok _ _ _ _ W Hv). cbn [bind]. destruct (is_stt _ _); [exact IH|]. rewrite (getStatus_ok _ _ _ _ W Hv). cbn [bind].
    destruct (zs (st_status st) (zz l1 i)); try exact IH; rewrite (rd_ok 0 num) by lia; cbn [bind]; rewrite (rd_ok 0 den) by lia; cbn [bind]; unfold isBlocking;
      match goal with |- wp (if ?c then _ else _) _ => destruct c eqn:C end; try exact IH; cbn [wp]; right; exists i; (split; [lia|]); (split; [reflexivity|]);
      apply andb_prop in C as [C _]; apply andb_prop in C as [C _]; revert C; rnum; destruct (Rleb_spec epsDen (zn 0 den i)); destruct (Rleb_spec epsDen (- zn 0 den i)); intros; try discriminate; lra. }
  exists t', bc. auto.
Qed.

(** ** What the operations leave alone *)
Definition scr_len (s : qp N) := (zlen (p_tempA s), zlen (p_tempB s), zlen (q_tmp (p_b s)), zlen (p_dxy s), zlen (p_dxz s), zlen (p_ZFR s), zlen (p_dyAC s)).
Definition pframe (s s' : qp N) : Prop :=
  p_A s' = p_A s /\ p_sizeT s' = p_sizeT s /\ p_opts s' = p_opts s /\ q_H (p_b s') = q_H (p_b s) /\ q_status (p_b s') = q_status (p_b s) /\ q_regVal (p_b s') = q_regVal (p_b s) /\ scr_len s' = scr_len s /\
  (q_htype (p_b s') = q_htype (p_b s) \/ plainH (p_b s) = true /\ q_htype (p_b s') = HST_SEMIDEF).
Lemma pframe_refl s : pframe s s.
Proof. unfold pframe. repeat (split; [reflexivity|]). now left. Qed.
Lemma pframe_plain s s' : pframe s s' -> plainH (p_b s') = plainH (p_b s).
Proof. intros (_ & _ & _ & _ & _ & _ & _ & [E|(P & E)]); [unfold plainH; now rewrite E|rewrite P; unfold plainH; now rewrite E]. Qed.
Lemma pframe_trans s1 s2 s3 : pframe s1 s2 -> pframe s2 s3 -> pframe s1 s3.
Proof.
  intros F G. pose proof (pframe_plain _ _ F) as P. destruct F as (A1 & A2 & A3 & A4 & A5 & A6 & A8' & A7). destruct G as (B1 & B2 & B3 & B4 & B5 & B6 & B8' & B7).
  unfold pframe. repeat (split; [congruence|]). destruct B7 as [B7|(B7 & B8)]; [|right; rewrite <- P; auto]. destruct A7 as [A7|(A7 & A8)]; [left; congruence|right; split; congruence].
Qed.
Lemma pframe_hdata n Hm s s' : pframe s s' -> hdata eps zero infty n s Hm -> hdata eps zero infty n s' Hm.
Proof.
  intros F (HE & SY & MB). pose proof (pframe_plain _ _ F) as P. destruct F as (A1 & A2 & A3 & A4 & A5 & A6 & _ & A7). split; [|split; [exact SY|]].
  - destruct A7 as [A7|(A7 & A8)].
    + unfold hess in *. rewrite A7. unfold usingReg in *. rewrite A6, A4. exact HE.
    + destruct (hess_plain eps zero infty n (p_b s) Hm HE A7) as (M & E & _ & MO). unfold hess. rewrite A8. exists M. split; [congruence|exact MO].
  - intros M PM EM. rewrite P in PM. rewrite A4 in EM. now apply MB.
Qed.
Lemma pframe_noUpdate s s' : pframe s s' -> p_noUpdate s' = p_noUpdate s.
Proof. intros (_ & _ & _ & _ & A5 & _). unfold p_noUpdate, noUpdate. now rewrite A5. Qed.

Definition Rvalid (n : Z) (s : qp N) (nz : Z) : Prop := plainH (p_b s) = true -> rreg n nz (q_R (p_b s)).
Definition Rexact (n : Z) (s : qp N) (nz : Z) (l : list Z) (Hm : Z -> Z -> R) : Prop := plainH (p_b s) = true -> rinv n nz l Hm (p_Q s) (q_R (p_b s)).
Lemma Rexact_valid n s nz l Hm : Rexact n s nz l Hm -> Rvalid n s nz.
Proof. intros E P. destruct (E P) as ((_ & D) & S). split; [exact D|exact S]. Qed.

Lemma hdata_upd n s Hm nz : hdata eps zero infty n s Hm -> Rvalid n s nz -> forall upd, upd && plainH (p_b s) = true -> symm_on n Hm /\ hmat eps zero infty n s Hm /\ rreg n nz (q_R (p_b s)).
Proof.
  intros (HE & SY & _) V upd P. apply andb_prop in P as [_ P]. split; [exact SY|]. split; [|now apply V].
  destruct (hess_plain eps zero infty n (p_b s) Hm HE P) as (M & E & _ & MO). exists M. auto.
Qed.

(** ** Additions *)
Lemma addC_step n m Am (s : qp N) l0 l1 k0 k1 number v upd : pinv n m Am s l0 l1 k0 k1 -> In number k0 -> is_active v = true ->
  (exists p, (0 <= p < zlen l0 - zlen k1)%Z /\ comb l0 (Am number) (ce n (p_Q s)) p <> 0) -> (upd = true -> Rvalid n s (zlen l0 - zlen k1)) ->
  exists s', addConstraint_update (N := N) junk number v upd s = Ok (SUCCESSFUL_RETURN, s') /\ pinv n m Am s' l0 l1 (spec_remove k0 number) (k1 ++ [number]) /\ pframe s s' /\
    (upd = true -> Rvalid n s' (zlen l0 - zlen k1 - 1)) /\
    (upd = true -> forall Hm, Rexact n s (zlen l0 - zlen k1) l0 Hm -> Rexact n s' (zlen l0 - zlen k1 - 1) l0 Hm).
Proof.
  intros I Hin Hv IND RV. pose proof I as [W F Ly FA TQ]. assert (ND : NoDup l0) by exact (rep_NoDup _ _ (wf_ina _ _ _ (pw_b _ _ _ _ _ _ _ _ _ _ _ W))).
  assert (EX : forall Hm, (upd && plainH (p_b s) = true -> rinv n (zlen l0 - zlen k1) l0 Hm (p_Q s) (q_R (p_b s))) -> _) by exact (fun Hm H => addConstraint_update_ok eps zero infty zero_0 junk J n m Am Hm s l0 l1 k0 k1 number v upd W Hin Hv TQ IND H).
  assert (X : exists Hm, upd && plainH (p_b s) = true -> rinv n (zlen l0 - zlen k1) l0 Hm (p_Q s) (q_R (p_b s))).
  { destruct (upd && plainH (p_b s)) eqn:U; [|exists (fun _ _ => 0); discriminate]. apply andb_prop in U as [U P].
    destruct (rreg_rinv n (p_sizeT s) l0 k1 Am (p_Q s) (p_T s) ND TQ (q_R (p_b s)) (RV U P)) as (Hm & K). exists Hm. auto. }
  destruct X as (Hm & X). destruct (wp_inv _ _ (EX Hm X)) as ([r s'] & E & -> & c & T & Q & Ra & ES & SM & ST & W' & TQ' & R0 & R1). exists s'.
  split; [exact E|]. assert (FR : pframe s s') by (rewrite ES; unfold pframe; cbn; repeat (split; [reflexivity|]); now left).
  split; [|split; [exact FR|]].
  - constructor; [exact W'| |rewrite ES; exact Ly|rewrite ES; exact FA|rewrite ES; exact TQ']. destruct F. rewrite ES. constructor; assumption.
  - assert (PH : plainH (p_b s') = plainH (p_b s)) by now apply pframe_plain. split.
    + intros -> P. rewrite PH in P. rewrite P in R1. rewrite ES. destruct (R1 eq_refl) as ((_ & D) & S). split; [exact D|exact S].
    + intros -> Hm2 RX P. rewrite PH in P. assert (X2 := EX Hm2 (fun H => RX P)). rewrite E in X2. destruct X2 as (_ & c2 & T2 & Q2 & Ra2 & ES2 & _ & _ & _ & _ & _ & R3).
      rewrite P in R3. rewrite ES2. exact (R3 eq_refl).
Qed.

Lemma addB_step n m Am (s : qp N) l0 l1 k0 k1 number v upd : pinv n m Am s l0 l1 k0 k1 -> In number l0 -> is_active v = true ->
  (exists p, (0 <= p < zlen l0 - zlen k1)%Z /\ ce n (p_Q s) number p <> 0) -> (upd = true -> Rvalid n s (zlen l0 - zlen k1)) ->
  exists s' lp, addBound_update (N := N) junk number v upd s = Ok (SUCCESSFUL_RETURN, s') /\ Permutation l0 (lp ++ [number]) /\ pinv n m Am s' lp (l1 ++ [number]) k0 k1 /\ pframe s s' /\
    (upd = true -> Rvalid n s' (zlen l0 - zlen k1 - 1)) /\
    (upd = true -> forall Hm, Rexact n s (zlen l0 - zlen k1) l0 Hm -> Rexact n s' (zlen l0 - zlen k1 - 1) lp Hm).
Proof.
  intros I Hin Hv IND RV. pose proof I as [W F Ly FA TQ]. assert (ND : NoDup l0) by exact (rep_NoDup _ _ (wf_ina _ _ _ (pw_b _ _ _ _ _ _ _ _ _ _ _ W))).
  assert (EX : forall Hm, (upd && plainH (p_b s) = true -> rinv n (zlen l0 - zlen k1) l0 Hm (p_Q s) (q_R (p_b s))) -> _) by exact (fun Hm H => addBound_update_ok eps zero infty zero_0 junk J n m Am Hm s l0 l1 k0 k1 number v upd W Hin Hv TQ IND H).
  assert (X : exists Hm, upd && plainH (p_b s) = true -> rinv n (zlen l0 - zlen k1) l0 Hm (p_Q s) (q_R (p_b s))).
  { destruct (upd && plainH (p_b s)) eqn:U; [|exists (fun _ _ => 0); discriminate]. apply andb_prop in U as [U P].
    destruct (rreg_rinv n (p_sizeT s) l0 k1 Am (p_Q s) (p_T s) ND TQ (q_R (p_b s)) (RV U P)) as (Hm & K). exists Hm. auto. }
  destruct X as (Hm & X). destruct (wp_inv _ _ (EX Hm X)) as ([r s'] & E & -> & lp & b & T & Q & Ra & ES & SM & ST & PM & W' & TQ' & R0 & R1). exists s', lp.
  split; [exact E|]. split; [exact PM|]. assert (FR : pframe s s') by (rewrite ES; unfold pframe; cbn; repeat (split; [reflexivity|]); now left).
  split; [|split; [exact FR|]].
  - constructor; [exact W'| |rewrite ES; exact Ly|rewrite ES; exact FA|rewrite ES; exact TQ']. destruct F. rewrite ES. constructor; assumption.
  - assert (PH : plainH (p_b s') = plainH (p_b s)) by now apply pframe_plain. split.
    + intros -> P. rewrite PH in P. rewrite P in R1. rewrite ES. destruct (R1 eq_refl) as ((_ & D) & S). split; [exact D|exact S].
    + intros -> Hm2 RX P. rewrite PH in P. assert (X2 := EX Hm2 (fun H => RX P)). rewrite E in X2. destruct X2 as (_ & lp2 & b2 & T2 & Q2 & Ra2 & ES2 & _ & _ & PM2 & W2 & _ & _ & R3).
      rewrite P in R3. specialize (R3 eq_refl). assert (EL : lp2 = lp).
      { assert (A1 := wf_ina _ _ _ (pw_b _ _ _ _ _ _ _ _ _ _ _ W')). assert (A2 := wf_ina _ _ _ (pw_b _ _ _ _ _ _ _ _ _ _ _ W2)).
        apply (list_ext_zn 0%Z); [rewrite <- (rep_len _ _ A1), <- (rep_len _ _ A2); reflexivity|]. intros i Hi.
        assert (L : zlen lp = zlen lp2) by (rewrite <- (rep_len _ _ A1), <- (rep_len _ _ A2); reflexivity).
        assert (B1 := rd_rep _ _ i A1 ltac:(lia)). assert (B2 := rd_rep _ _ i A2 ltac:(lia)). congruence. }
      rewrite EL in R3. rewrite ES2. exact R3.
Qed.

(** ** Removals without flipping *)
Definition grown (n nz : Z) (s s' : qp N) (l l' : list Z) (Hm : Z -> Z -> R) : Prop := plainH (p_b s) = true ->
  rreg n (nz + 1) (q_R (p_b s')) /\ (forall p q, (0 <= p < nz)%Z -> (0 <= q < nz)%Z -> ce n (q_R (p_b s')) p q = ce n (q_R (p_b s)) p q) /\
  (posdef n Hm -> rinv n nz l Hm (p_Q s) (q_R (p_b s)) -> rinv n (nz + 1) l' Hm (p_Q s') (q_R (p_b s'))).

Lemma curv_pos n l Hm (Q : arr) nz rho : posdef n Hm -> NoDup l -> (forall v, In v l -> (0 <= v < n)%Z) -> orth l (zlen l) (ce n Q) -> (0 <= nz)%Z -> (nz + 1 <= zlen l)%Z ->
  curvature nz (zhz l Hm (ce n Q)) rho -> 0 < rho.
Proof.
  intros PD ND RG O Nz Le ((x & X1 & <-) & _). apply (zhz_posdef n l Hm (ce n Q) (nz + 1) PD ND RG O Le). exists nz. split; [lia|]. rewrite X1. lra.
Qed.

Lemma remC_full n m Am Hm (s : qp N) l0 l1 k0 k1 c0 : pinv n m Am s l0 l1 k0 k1 -> hdata eps zero infty n s Hm -> 0 < eps -> p_noUpdate s = false -> In c0 k1 -> Rvalid n s (zlen l0 - zlen k1) ->
  exists s', removeConstraint0 (N := N) junk c0 true false s = Ok (SUCCESSFUL_RETURN, s') /\ pinv n m Am s' l0 l1 (k0 ++ [c0]) (spec_remove k1 c0) /\ pframe s s' /\ q_y (p_b s') = q_y (p_b s) /\
    (forall v q, In v l0 -> (0 <= q < zlen l0 - zlen k1)%Z -> ce n (p_Q s') v q = ce n (p_Q s) v q) /\ grown n (zlen l0 - zlen k1) s s' l0 l0 Hm /\ st_status (p_cons s') = zupd (st_status (p_cons s)) c0 ST_INACTIVE /\ p_bounds s' = p_bounds s.
Proof.
  intros I HD EP NU Hin RV. pose proof I as [W F Ly FA TQ]. pose proof (pw_b _ _ _ _ _ _ _ _ _ _ _ W) as Wb. pose proof (pw_c _ _ _ _ _ _ _ _ _ _ _ W) as Wc.
  assert (ND : NoDup l0) by exact (rep_NoDup _ _ (wf_ina _ _ _ Wb)). destruct (range_b _ _ _ Wb) as (Rg0 & _). pose proof (pw_n _ _ _ _ _ _ _ _ _ _ _ W) as En. unfold pV in En. rewrite En in Rg0.
  assert (X := removeConstraint_update_ok eps zero infty zero_0 junk J n m Am Hm s l0 l1 k0 k1 c0 true false W F Hin TQ (hdata_upd n s Hm _ HD RV true)).
  apply wp_inv in X as ([r s'] & E & T & Q & Ra & f & rho & TQ' & COL & CV & K). exists s'.
  assert (ER : removeConstraint0 (N := N) junk c0 true false s = Ok (r, s')).
  { unfold removeConstraint0, removeConstraint_check. rewrite NU. assert (P0 : (0 <= spec_pos k1 c0)%Z) by now apply spec_pos_nonneg_In.
    rewrite (getIndex_spec _ k1) by (solve [exact (wf_act _ _ _ Wc)|exists c0; split; [exact Hin|lia]]). cbn [bind].
    pose proof (wf_in1 _ _ _ Wc c0) as H1. apply H1 in Hin as (Hr & HA). rewrite (getStatus_ok _ _ _ _ Wc Hr). cbn [bind].
    assert (NI : is_sts (zs (st_status (p_cons s)) c0) ST_INACTIVE = false) by (destruct (zs (st_status (p_cons s)) c0); try reflexivity; discriminate HA). rewrite NI.
    pose proof (spec_pos_range k1 c0) as SR. assert (EC : pAC s = zlen k1) by exact (rep_len _ _ (wf_act _ _ _ Wc)). rewrite EC.
    destruct (Z.ltb_spec (spec_pos k1 c0) 0); [lia|]. destruct (Z.leb_spec (zlen k1) (spec_pos k1 c0)); [lia|]. exact E. }
  rewrite ER. rewrite andb_false_r in K. destruct K as [(c & -> & ES & SM & ST & W' & F' & R0 & R1 & _ & _ & R2 & R3)|[(_ & Bad & _)|(_ & _ & Bad & _)]]; [|discriminate Bad|discriminate Bad].
  assert (FR : pframe s s') by (rewrite ES; unfold pframe; cbn; repeat (split; [reflexivity|]); now left).
  split; [reflexivity|]. split; [|split; [exact FR|split; [rewrite ES; reflexivity|split; [|split; [|rewrite ES; split; [exact ST|reflexivity]]]]]].
  - constructor; [exact W'|exact F'|rewrite ES; exact Ly|rewrite ES; exact FA|rewrite ES; exact TQ'].
  - intros v q Hv Hq. rewrite ES. exact (COL v q Hv Hq).
  - intros P. cbn [andb] in *. rewrite P in *. assert (E2 : q_R (p_b s') = Ra) by (rewrite ES; reflexivity). assert (E3 : p_Q s' = Q) by (rewrite ES; reflexivity). rewrite E2, E3.
    split; [apply R2; auto; discriminate|]. split; [exact (R3 eq_refl)|]. intros PD (FC & _). apply R1; auto.
    pose proof (spec_remove_len k1 c0 Hin) as Ls. destruct TQ as (LE & _). destruct TQ' as (_ & OQ & _).
    assert (Pk : (0 < zlen k1)%Z) by (pose proof (spec_pos_range k1 c0); pose proof (proj2 (spec_pos_nonneg_In k1 c0) Hin); lia).
    apply (curv_pos n l0 Hm Q (zlen l0 - zlen k1) rho PD ND Rg0 OQ); [lia|lia|]. apply CV; auto.
Qed.
Lemma remC_step n m Am Hm (s : qp N) l0 l1 k0 k1 c0 : pinv n m Am s l0 l1 k0 k1 -> hdata eps zero infty n s Hm -> 0 < eps -> p_noUpdate s = false -> In c0 k1 -> Rvalid n s (zlen l0 - zlen k1) ->
  exists s', removeConstraint0 (N := N) junk c0 true false s = Ok (SUCCESSFUL_RETURN, s') /\ pinv n m Am s' l0 l1 (k0 ++ [c0]) (spec_remove k1 c0) /\ pframe s s' /\ q_y (p_b s') = q_y (p_b s) /\
    (forall v q, In v l0 -> (0 <= q < zlen l0 - zlen k1)%Z -> ce n (p_Q s') v q = ce n (p_Q s) v q) /\ grown n (zlen l0 - zlen k1) s s' l0 l0 Hm.
Proof.
  intros I HD EP NU Hin RV. destruct (remC_full n m Am Hm s l0 l1 k0 k1 c0 I HD EP NU Hin RV) as (s' & E & I' & F & Y & C & G & _). exists s'. auto 8.
Qed.

Lemma remB_full n m Am Hm (s : qp N) l0 l1 k0 k1 j : pinv n m Am s l0 l1 k0 k1 -> hdata eps zero infty n s Hm -> 0 < eps -> p_noUpdate s = false -> In j l1 -> Rvalid n s (zlen l0 - zlen k1) ->
  exists s', removeBound0 (N := N) junk j true false s = Ok (SUCCESSFUL_RETURN, s') /\ pinv n m Am s' (l0 ++ [j]) (spec_remove l1 j) k0 k1 /\ pframe s s' /\ q_y (p_b s') = q_y (p_b s) /\
    (forall q, (0 <= q < zlen l0 - zlen k1)%Z -> ce n (p_Q s') j q = 0 /\ forall v, In v l0 -> ce n (p_Q s') v q = ce n (p_Q s) v q) /\ grown n (zlen l0 - zlen k1) s s' l0 (l0 ++ [j]) Hm /\ st_status (p_bounds s') = zupd (st_status (p_bounds s)) j ST_INACTIVE /\ p_cons s' = p_cons s.
Proof.
  intros I HD EP NU Hin RV. pose proof I as [W F Ly FA TQ]. pose proof (pw_b _ _ _ _ _ _ _ _ _ _ _ W) as Wb. pose proof (pw_c _ _ _ _ _ _ _ _ _ _ _ W) as Wc.
  pose proof (pw_n _ _ _ _ _ _ _ _ _ _ _ W) as En. unfold pV in En.
  assert (X := removeBound_update_ok eps zero infty zero_0 junk J n m Am Hm s l0 l1 k0 k1 j true false W F Hin TQ (hdata_upd n s Hm _ HD RV true)).
  apply wp_inv in X as ([r s'] & E & T & Q & Ra & f & rho & TQ' & COL & CV & K). exists s'.
  assert (ER : removeBound0 (N := N) junk j true false s = Ok (r, s')).
  { unfold removeBound0, removeBound_check.
    pose proof (wf_in1 _ _ _ Wb j) as H1. apply H1 in Hin as (Hr & HA). rewrite (getStatus_ok _ _ _ _ Wb Hr). cbn [bind].
    assert (NI : is_sts (zs (st_status (p_bounds s)) j) ST_INACTIVE = false) by (destruct (zs (st_status (p_bounds s)) j); try reflexivity; discriminate HA). rewrite NI, NU. exact E. }
  rewrite ER. rewrite andb_false_r in K. destruct K as [(b & -> & ES & SM & ST & W' & F' & R0 & R1 & _ & _ & R2 & R3)|[(_ & Bad & _)|(_ & _ & Bad & _)]]; [|discriminate Bad|discriminate Bad].
  assert (FR : pframe s s') by (rewrite ES; unfold pframe; cbn; repeat (split; [reflexivity|]); now left).
  split; [reflexivity|]. split; [|split; [exact FR|split; [rewrite ES; reflexivity|split; [|split; [|rewrite ES; split; [exact ST|reflexivity]]]]]].
  - constructor; [exact W'|exact F'|rewrite ES; exact Ly|rewrite ES; exact FA|rewrite ES; exact TQ'].
  - intros q Hq. rewrite ES. exact (COL q Hq).
  - intros P. cbn [andb] in *. rewrite P in *. assert (E2 : q_R (p_b s') = Ra) by (rewrite ES; reflexivity). assert (E3 : p_Q s' = Q) by (rewrite ES; reflexivity). rewrite E2, E3.
    split; [apply R2; auto; discriminate|]. split; [exact (R3 eq_refl)|]. intros PD (FC & _). apply R1; auto.
    pose proof (pw_b _ _ _ _ _ _ _ _ _ _ _ W') as Wb'. pose proof (pw_n _ _ _ _ _ _ _ _ _ _ _ W') as En'. unfold pV in En'. destruct (range_b _ _ _ Wb') as (Rg0 & _). rewrite En' in Rg0.
    assert (ND : NoDup (l0 ++ [j])) by exact (rep_NoDup _ _ (wf_ina _ _ _ Wb')). destruct TQ as (LE & _). destruct TQ' as (_ & OQ & _). pose proof (zlen_nonneg k1).
    assert (EL : zlen (l0 ++ [j]) = (zlen l0 + 1)%Z) by (rewrite zlen_app; reflexivity).
    apply (curv_pos n (l0 ++ [j]) Hm Q (zlen l0 - zlen k1) rho PD ND Rg0 OQ); [lia|lia|]. apply CV; auto.
Qed.
Lemma remB_step n m Am Hm (s : qp N) l0 l1 k0 k1 j : pinv n m Am s l0 l1 k0 k1 -> hdata eps zero infty n s Hm -> 0 < eps -> p_noUpdate s = false -> In j l1 -> Rvalid n s (zlen l0 - zlen k1) ->
  exists s', removeBound0 (N := N) junk j true false s = Ok (SUCCESSFUL_RETURN, s') /\ pinv n m Am s' (l0 ++ [j]) (spec_remove l1 j) k0 k1 /\ pframe s s' /\ q_y (p_b s') = q_y (p_b s) /\
    (forall q, (0 <= q < zlen l0 - zlen k1)%Z -> ce n (p_Q s') j q = 0 /\ forall v, In v l0 -> ce n (p_Q s') v q = ce n (p_Q s) v q) /\ grown n (zlen l0 - zlen k1) s s' l0 (l0 ++ [j]) Hm.
Proof.
  intros I HD EP NU Hin RV. destruct (remB_full n m Am Hm s l0 l1 k0 k1 j I HD EP NU Hin RV) as (s' & E & I' & F & Y & C & G & _). exists s'. auto 8.
Qed.
End X16.
