(** Properties C10 and C11: Options. *)
From Coq Require Import Reals Lra.
From Verif Require Import Base Types Num Options.
Open Scope R_scope.

(** ** Specification: the documented ranges, over the real numbers *)

Section Spec.
Variables eps zero infty : R.
Notation N := (RNumT eps zero infty).

Record consistent (s : options N) : Prop := {
  c_drift : (0 <= o_enableDriftCorrection s)%Z;
  c_chol : (0 <= o_enableCholeskyRefactorisation s)%Z;
  c_term : 0 < o_terminationTolerance s;
  c_btol : 0 < o_boundTolerance s;
  c_brel : 0 < o_boundRelaxation s;
  c_pj : 0 < o_maxPrimalJump s;
  c_dj : 0 < o_maxDualJump s;
  c_ir : 0 <= o_initialRamping s;
  c_fr : 0 <= o_finalRamping s;
  c_far : o_boundRelaxation s < o_initialFarBounds s;
  c_grow : 11 / 10 <= o_growFarBounds s;
  c_flip : 0 < o_epsFlipping s;
  c_nreg : (0 <= o_numRegularisationSteps s)%Z;
  c_ereg : 0 < o_epsRegularisation s;
  c_nref : (0 <= o_numRefinementSteps s)%Z;
  c_eref : 0 < o_epsIterRef s;
  c_li : 0 <= o_epsLITests s;
  c_nzc : 0 <= o_epsNZCTests s
}.

(** Value kept unless it violates [P], in which case it becomes [d]. *)
Definition kept_or {A} (P : Prop) (old new d : A) : Prop := (P -> new = old) /\ (~ P -> new = d).

(** Complete description of the result. *)
Record adjusted (s s' : options N) : Prop := {
  a_drift : kept_or (0 <= o_enableDriftCorrection s)%Z (o_enableDriftCorrection s) (o_enableDriftCorrection s') 0%Z;
  a_chol : kept_or (0 <= o_enableCholeskyRefactorisation s)%Z (o_enableCholeskyRefactorisation s) (o_enableCholeskyRefactorisation s') 0%Z;
  a_term : kept_or (0 < o_terminationTolerance s) (o_terminationTolerance s) (o_terminationTolerance s') eps;
  a_btol : kept_or (0 < o_boundTolerance s) (o_boundTolerance s) (o_boundTolerance s') eps;
  a_brel : kept_or (0 < o_boundRelaxation s) (o_boundRelaxation s) (o_boundRelaxation s') eps;
  a_pj : kept_or (0 < o_maxPrimalJump s) (o_maxPrimalJump s) (o_maxPrimalJump s') eps;
  a_dj : kept_or (0 < o_maxDualJump s) (o_maxDualJump s) (o_maxDualJump s') eps;
  a_ir : kept_or (0 <= o_initialRamping s) (o_initialRamping s) (o_initialRamping s') 0;
  a_fr : kept_or (0 <= o_finalRamping s) (o_finalRamping s) (o_finalRamping s') 0;
  a_far : kept_or (o_boundRelaxation s' < o_initialFarBounds s) (o_initialFarBounds s) (o_initialFarBounds s') (o_boundRelaxation s' + eps);
  a_grow : kept_or (11 / 10 <= o_growFarBounds s) (o_growFarBounds s) (o_growFarBounds s') (11 / 10);
  a_flip : kept_or (0 < o_epsFlipping s) (o_epsFlipping s) (o_epsFlipping s') eps;
  a_nreg : kept_or (0 <= o_numRegularisationSteps s)%Z (o_numRegularisationSteps s) (o_numRegularisationSteps s') 0%Z;
  a_ereg : kept_or (0 < o_epsRegularisation s) (o_epsRegularisation s) (o_epsRegularisation s') eps;
  a_nref : kept_or (0 <= o_numRefinementSteps s)%Z (o_numRefinementSteps s) (o_numRefinementSteps s') 0%Z;
  a_eref : kept_or (0 < o_epsIterRef s) (o_epsIterRef s) (o_epsIterRef s') eps;
  a_li : kept_or (0 <= o_epsLITests s) (o_epsLITests s) (o_epsLITests s') eps;
  a_nzc : kept_or (0 <= o_epsNZCTests s) (o_epsNZCTests s) (o_epsNZCTests s') eps
}.

(** Members that ensureConsistency has no business with. *)
Definition others_kept {M : Num} (s s' : options M) : Prop :=
  o_printLevel s' = o_printLevel s /\ o_enableRamping s' = o_enableRamping s /\
  o_enableFarBounds s' = o_enableFarBounds s /\ o_enableFlippingBounds s' = o_enableFlippingBounds s /\
  o_enableRegularisation s' = o_enableRegularisation s /\ o_enableFullLITests s' = o_enableFullLITests s /\
  o_enableNZCTests s' = o_enableNZCTests s /\ o_enableEqualities s' = o_enableEqualities s /\
  o_epsNum s' = o_epsNum s /\ o_epsDen s' = o_epsDen s /\
  o_initialStatusBounds s' = o_initialStatusBounds s /\ o_rcondSMin s' = o_rcondSMin s /\
  o_enableInertiaCorrection s' = o_enableInertiaCorrection s /\
  o_enableDropInfeasibles s' = o_enableDropInfeasibles s /\ o_dropBoundPriority s' = o_dropBoundPriority s /\
  o_dropEqConPriority s' = o_dropEqConPriority s /\ o_dropIneqConPriority s' = o_dropIneqConPriority s.
End Spec.

(** ** Proofs *)

Lemma Rlit_11 : Rlit 11 (-1) = 11 / 10.
Proof. reflexivity. Qed.

Section AnyNum.
Context {M : Num}.
Implicit Types s : options M.

Lemma adj_skip {A} (p : options M -> A) bad fx st :
  (forall s, p (fx s) = p s) -> p (snd (adj bad fx st)) = p (snd st).
Proof. intros H. unfold adj. destruct (bad (snd st)); simpl; auto. Qed.
Lemma adj_hit {A} (p : options M -> A) bad fx st :
  p (snd (adj bad fx st)) = if bad (snd st) then p (fx (snd st)) else p (snd st).
Proof. unfold adj. now destruct (bad (snd st)). Qed.

Ltac skips p := repeat (rewrite (adj_skip p); [|reflexivity]).
Ltac fld p := unfold ensureConsistency_run; cbv zeta; skips p; rewrite (adj_hit p); cbn beta; skips p; cbn; reflexivity.
Ltac fld2 p := unfold ensureConsistency_run; cbv zeta; skips p; rewrite (adj_hit p); cbn beta; skips p;
  rewrite (adj_hit p); cbn beta; skips p; cbn; reflexivity.

Notation after s := (snd (ensureConsistency_run s)).

Lemma f_drift s : o_enableDriftCorrection (after s) = if (o_enableDriftCorrection s <? 0)%Z then 0%Z else o_enableDriftCorrection s.
Proof. fld (@o_enableDriftCorrection M). Qed.
Lemma f_chol s : o_enableCholeskyRefactorisation (after s) = if (o_enableCholeskyRefactorisation s <? 0)%Z then 0%Z else o_enableCholeskyRefactorisation s.
Proof. fld (@o_enableCholeskyRefactorisation M). Qed.
Lemma f_term s : o_terminationTolerance (after s) = if nleb (o_terminationTolerance s) n0 then nEPS else o_terminationTolerance s.
Proof. fld (@o_terminationTolerance M). Qed.
Lemma f_btol s : o_boundTolerance (after s) = if nleb (o_boundTolerance s) n0 then nEPS else o_boundTolerance s.
Proof. fld (@o_boundTolerance M). Qed.
Lemma f_brel s : o_boundRelaxation (after s) = if nleb (o_boundRelaxation s) n0 then nEPS else o_boundRelaxation s.
Proof. fld (@o_boundRelaxation M). Qed.
Lemma f_pj s : o_maxPrimalJump (after s) = if nleb (o_maxPrimalJump s) n0 then nEPS else o_maxPrimalJump s.
Proof. fld (@o_maxPrimalJump M). Qed.
Lemma f_dj s : o_maxDualJump (after s) = if nleb (o_maxDualJump s) n0 then nEPS else o_maxDualJump s.
Proof. fld (@o_maxDualJump M). Qed.
Lemma f_ir s : o_initialRamping (after s) = if nltb (o_initialRamping s) n0 then n0 else o_initialRamping s.
Proof. fld (@o_initialRamping M). Qed.
Lemma f_fr s : o_finalRamping (after s) = if nltb (o_finalRamping s) n0 then n0 else o_finalRamping s.
Proof. fld (@o_finalRamping M). Qed.
Lemma f_far s : o_initialFarBounds (after s) =
  if nleb (o_initialFarBounds s) (o_boundRelaxation (after s)) then nadd (o_boundRelaxation (after s)) nEPS else o_initialFarBounds s.
Proof.
  rewrite f_brel. unfold ensureConsistency_run; cbv zeta. skips (@o_initialFarBounds M).
  rewrite (adj_hit (@o_initialFarBounds M)). cbn beta. skips (@o_initialFarBounds M).
  skips (@o_boundRelaxation M). cbn [o_initialFarBounds set_o_initialFarBounds]. rewrite (adj_hit (@o_boundRelaxation M)).
  cbn beta. skips (@o_boundRelaxation M). reflexivity.
Qed.
Lemma f_grow s : o_growFarBounds (after s) = if nltb (o_growFarBounds s) (nlit 11 (-1)) then nlit 11 (-1) else o_growFarBounds s.
Proof. fld (@o_growFarBounds M). Qed.
Lemma f_flip s : o_epsFlipping (after s) = if nleb (o_epsFlipping s) n0 then nEPS else o_epsFlipping s.
Proof. fld (@o_epsFlipping M). Qed.
Lemma f_nreg s : o_numRegularisationSteps (after s) = if (o_numRegularisationSteps s <? 0)%Z then 0%Z else o_numRegularisationSteps s.
Proof. fld (@o_numRegularisationSteps M). Qed.
Lemma f_ereg s : o_epsRegularisation (after s) =
  let v := if nleb (o_epsRegularisation s) n0 then nEPS else o_epsRegularisation s in if nltb v n0 then nEPS else v.
Proof. fld2 (@o_epsRegularisation M). Qed.
Lemma f_nref s : o_numRefinementSteps (after s) = if (o_numRefinementSteps s <? 0)%Z then 0%Z else o_numRefinementSteps s.
Proof. fld (@o_numRefinementSteps M). Qed.
Lemma f_eref s : o_epsIterRef (after s) =
  let v := if nleb (o_epsIterRef s) n0 then nEPS else o_epsIterRef s in if nltb v n0 then nEPS else v.
Proof. fld2 (@o_epsIterRef M). Qed.
Lemma f_li s : o_epsLITests (after s) = if nltb (o_epsLITests s) n0 then nEPS else o_epsLITests s.
Proof. fld (@o_epsLITests M). Qed.
Lemma f_nzc s : o_epsNZCTests (after s) = if nltb (o_epsNZCTests s) n0 then nEPS else o_epsNZCTests s.
Proof. fld (@o_epsNZCTests M). Qed.

Ltac keep p := unfold ensureConsistency_run; cbv zeta; skips p; reflexivity.
Lemma f_others s : others_kept s (after s).
Proof.
  unfold others_kept. repeat split.
  - keep (@o_printLevel M). - keep (@o_enableRamping M). - keep (@o_enableFarBounds M).
  - keep (@o_enableFlippingBounds M). - keep (@o_enableRegularisation M). - keep (@o_enableFullLITests M).
  - keep (@o_enableNZCTests M). - keep (@o_enableEqualities M). - keep (@o_epsNum M). - keep (@o_epsDen M).
  - keep (@o_initialStatusBounds M). - keep (@o_rcondSMin M). - keep (@o_enableInertiaCorrection M).
  - keep (@o_enableDropInfeasibles M). - keep (@o_dropBoundPriority M). - keep (@o_dropEqConPriority M).
  - keep (@o_dropIneqConPriority M).
Qed.

(** The sequence of adjustments as a list. *)
Definition adjustments : list ((options M -> bool) * (options M -> options M)) :=
  [ ((fun s => (o_enableDriftCorrection s <? 0)%Z), (set_o_enableDriftCorrection 0)) ;
    ((fun s => (o_enableCholeskyRefactorisation s <? 0)%Z), (set_o_enableCholeskyRefactorisation 0)) ;
    ((fun s => o_terminationTolerance s <=' n0), (set_o_terminationTolerance nEPS)) ;
    ((fun s => o_epsIterRef s <=' n0), (set_o_epsIterRef nEPS)) ;
    ((fun s => o_epsRegularisation s <=' n0), (set_o_epsRegularisation nEPS)) ;
    ((fun s => o_boundTolerance s <=' n0), (set_o_boundTolerance nEPS)) ;
    ((fun s => o_boundRelaxation s <=' n0), (set_o_boundRelaxation nEPS)) ;
    ((fun s => o_maxPrimalJump s <=' n0), (set_o_maxPrimalJump nEPS)) ;
    ((fun s => o_maxDualJump s <=' n0), (set_o_maxDualJump nEPS)) ;
    ((fun s => o_initialRamping s <' n0), (set_o_initialRamping n0)) ;
    ((fun s => o_finalRamping s <' n0), (set_o_finalRamping n0)) ;
    ((fun s => o_initialFarBounds s <=' o_boundRelaxation s), (fun s => set_o_initialFarBounds (o_boundRelaxation s +' nEPS) s)) ;
    ((fun s => o_growFarBounds s <' nlit 11 (-1)), (set_o_growFarBounds (nlit 11 (-1)))) ;
    ((fun s => o_epsFlipping s <=' n0), (set_o_epsFlipping nEPS)) ;
    ((fun s => (o_numRegularisationSteps s <? 0)%Z), (set_o_numRegularisationSteps 0)) ;
    ((fun s => o_epsRegularisation s <' n0), (set_o_epsRegularisation nEPS)) ;
    ((fun s => (o_numRefinementSteps s <? 0)%Z), (set_o_numRefinementSteps 0)) ;
    ((fun s => o_epsIterRef s <' n0), (set_o_epsIterRef nEPS)) ;
    ((fun s => o_epsLITests s <' n0), (set_o_epsLITests nEPS)) ;
    ((fun s => o_epsNZCTests s <' n0), (set_o_epsNZCTests nEPS)) ].
Lemma run_list s : ensureConsistency_run s = fold_left (fun st a => adj (fst a) (snd a) st) adjustments (false, s).
Proof. reflexivity. Qed.
Lemma list_noop l s b : (forall a, In a l -> fst a s = false) -> fold_left (fun st a => adj (fst a) (snd a) st) l (b, s) = (b, s).
Proof.
  induction l as [|a l IH]; simpl; intros H; [reflexivity|].
  unfold adj at 2. cbn [snd]. rewrite (H a) by auto. apply IH. auto.
Qed.
Lemma list_flag (l : list ((options M -> bool) * (options M -> options M))) st : fst st = true -> fst (fold_left (fun st a => adj (fst a) (snd a) st) l st) = true.
Proof.
  revert st. induction l as [|a l IH]; simpl; intros st H; [exact H|]. apply IH. unfold adj. now destruct (fst a (snd st)).
Qed.
Lemma list_false l s s' : fold_left (fun st a => adj (fst a) (snd a) st) l (false, s) = (false, s') -> s' = s.
Proof.
  revert s. induction l as [|a l IH]; simpl; intros s E; [congruence|].
  unfold adj at 2 in E. cbn [snd] in E. destruct (fst a s); [|now apply IH].
  pose proof (list_flag l (true, snd a s) eq_refl) as F. rewrite E in F. discriminate.
Qed.
End AnyNum.

Section Proofs.
Variables eps zero infty : R.
Hypothesis eps_pos : 0 < eps.
Notation N := (RNumT eps zero infty).
Implicit Types s : options N.

Ltac cmp1 :=
  match goal with
  | |- context [Rleb ?a ?b] => destruct (Rleb_spec a b)
  | |- context [Rltb ?a ?b] => destruct (Rltb_spec a b)
  | |- context [(?a <? ?b)%Z] => destruct (Z.ltb_spec a b)
  end.
Ltac fin := cbv zeta; rnum; rewrite ?Rlit_11; repeat cmp1; split; intros; try reflexivity; try lia; try lra.

Lemma run_adjusted s : adjusted eps zero infty s (snd (ensureConsistency_run s)).
Proof.
  constructor; unfold kept_or.
  - rewrite f_drift. fin.
  - rewrite f_chol. fin.
  - rewrite f_term. fin.
  - rewrite f_btol. fin.
  - rewrite f_brel. fin. - rewrite f_pj. fin. - rewrite f_dj. fin. - rewrite f_ir. fin. - rewrite f_fr. fin.
  - rewrite f_far. fin. - rewrite f_grow. fin. - rewrite f_flip. fin. - rewrite f_nreg. fin.
  - rewrite f_ereg. fin. - rewrite f_nref. fin. - rewrite f_eref. fin. - rewrite f_li. fin. - rewrite f_nzc. fin.
Qed.

Lemma kept_pos {A} (P : Prop) (old new d : A) (Q : A -> Prop) :
  kept_or P old new d -> (P \/ ~ P) -> (P -> Q old) -> Q d -> Q new.
Proof. intros [H1 H2] [p|np] HP HD; [rewrite H1|rewrite H2]; auto. Qed.

Lemma Rdec1 a b : a < b \/ ~ a < b. Proof. destruct (Rlt_dec a b); auto. Qed.
Lemma Rdec2 a b : a <= b \/ ~ a <= b. Proof. destruct (Rle_dec a b); auto. Qed.
Lemma Zdec2 a b : (a <= b)%Z \/ ~ (a <= b)%Z. Proof. lia. Qed.

Lemma adjusted_consistent s s' : adjusted eps zero infty s s' -> consistent eps zero infty s'.
Proof.
  intros [].
  constructor;
  match goal with
  | K : kept_or _ _ (?f s') _ |- _ ?a (?f s') =>
      apply (kept_pos _ _ _ _ _ K); [first [apply Rdec1|apply Rdec2|apply Zdec2]|auto|first [lra|lia]]
  end.
Qed.

Lemma consistent_noop s : consistent eps zero infty s -> ensureConsistency_run s = (false, s).
Proof.
  intros []. rewrite run_list. apply list_noop. unfold adjustments. intros a.
  cbn [In]. intros Ha.
  repeat (destruct Ha as [<-|Ha];
    [cbn [fst]; first [ apply Z.ltb_ge; assumption
      | rnum; rewrite ?Rlit_11; first [apply Rleb_false|apply Rltb_false]; first [lra|assumption] ]|]).
  destruct Ha.
Qed.

Lemma flag_false_noop s b s' : ensureConsistency_run s = (b, s') -> b = false -> s' = s.
Proof. intros E ->. rewrite run_list in E. now apply list_false in E. Qed.
End Proofs.

(** ** C10 *)

(** Over the reals, for every positive EPS: the result satisfies the documented
    ranges; each member keeps an admissible value and otherwise gets the
    documented replacement; members outside the list never change; the return
    value tells whether anything was wrong; a second call is silent. *)
Theorem C10_ensureConsistency : forall eps zero infty (s : options (RNumT eps zero infty)), 0 < eps ->
  exists r s', ensureConsistency s = (r, s') /\
    consistent eps zero infty s' /\ adjusted eps zero infty s s' /\ others_kept s s' /\
    (consistent eps zero infty s -> r = SUCCESSFUL_RETURN /\ s' = s) /\
    (~ consistent eps zero infty s -> r = RET_OPTIONS_ADJUSTED) /\
    ensureConsistency s' = (SUCCESSFUL_RETURN, s').
Proof.
  intros eps zero infty s He. unfold ensureConsistency at 1.
  pose proof (run_adjusted eps zero infty He s) as A. pose proof (f_others s) as O.
  destruct (ensureConsistency_run s) as [b s'] eqn:E. cbn [snd] in *.
  pose proof (adjusted_consistent eps zero infty He s s' A) as C.
  eexists; exists s'. split; [reflexivity|]. split; [exact C|]. split; [exact A|]. split; [exact O|].
  split; [|split].
  - intros Cs. pose proof (consistent_noop eps zero infty s Cs) as N. rewrite E in N. injection N as -> ->. auto.
  - intros NC. destruct b; [reflexivity|]. exfalso. apply NC.
    pose proof (flag_false_noop eps zero infty s false s' E eq_refl). now subst.
  - unfold ensureConsistency. now rewrite (consistent_noop eps zero infty s' C).
Qed.

(** The members outside the list are never touched, in any arithmetic. *)
Theorem C10_others_untouched : forall (M : Num) (s : options M), others_kept s (snd (ensureConsistency s)).
Proof.
  intros M s. unfold ensureConsistency. pose proof (f_others s) as O.
  destruct (ensureConsistency_run s) as [b s']. exact O.
Qed.

(** In double arithmetic the property fails twice.  With the default
    boundRelaxation 1e4, adding EPS to it changes nothing: a far-bound setting
    that is too small is reported as adjusted, stays too small, and the second
    call reports an adjustment again.  A NaN tolerance is accepted silently. *)
Definition small_far : options FNum :=
  set_o_initialFarBounds (nlit 1 3) (setToDefault (setToDefault (mkOpt PL_NONE true true true true true true 0 0 true
    n0 n0 n0 n0 n0 n0 n0 n0 n0 n0 n0 ST_LOWER n0 0 n0 0 n0 n0 n0 n0 true true 0 0 0))).

Lemma list_one {M : Num} l1 x l2 (s : options M) b :
  forallb (fun a => negb (fst a s)) l1 = true -> fst x s = true ->
  forallb (fun a => negb (fst a (snd x s))) l2 = true ->
  fold_left (fun st a => adj (fst a) (snd a) st) (l1 ++ x :: l2) (b, s) = (true, snd x s).
Proof.
  intros H1 Hx H2. rewrite fold_left_app, list_noop.
  2:{ intros a Ha. rewrite forallb_forall in H1. apply negb_true_iff, H1, Ha. }
  cbn [fold_left]. unfold adj at 2. cbn [snd]. rewrite Hx. apply list_noop.
  intros a Ha. rewrite forallb_forall in H2. apply negb_true_iff, H2, Ha.
Qed.

Lemma list_none {M : Num} (s : options M) :
  forallb (fun a => negb (fst a s)) adjustments = true -> ensureConsistency s = (SUCCESSFUL_RETURN, s).
Proof.
  intros H. unfold ensureConsistency. rewrite run_list, list_noop; [reflexivity|].
  intros a Ha. rewrite forallb_forall in H. apply negb_true_iff, H, Ha.
Qed.

Lemma far_adjusted (s : options FNum) :
  forallb (fun a => negb (fst a s)) (firstn 11 adjustments) = true ->
  nleb (o_initialFarBounds s) (o_boundRelaxation s) = true ->
  forallb (fun a => negb (fst a (set_o_initialFarBounds (o_boundRelaxation s +' nEPS) s))) (skipn 12 adjustments) = true ->
  ensureConsistency s = (RET_OPTIONS_ADJUSTED, set_o_initialFarBounds (o_boundRelaxation s +' nEPS) s).
Proof.
  intros H1 H2 H3. unfold ensureConsistency. rewrite run_list.
  change adjustments with (firstn 11 adjustments ++ nth 11 (@adjustments FNum) (fun _ => true, fun s => s) :: skipn 12 adjustments).
  rewrite list_one; [reflexivity|exact H1|exact H2|exact H3].
Qed.

Theorem C10_double_refuted :
  (exists s : options FNum, let s1 := snd (ensureConsistency s) in
     fst (ensureConsistency s) = RET_OPTIONS_ADJUSTED /\
     nltb (o_boundRelaxation s1) (o_initialFarBounds s1) = false /\
     fst (ensureConsistency s1) = RET_OPTIONS_ADJUSTED) /\
  (exists s : options FNum,
     ensureConsistency s = (SUCCESSFUL_RETURN, s) /\ nltb n0 (o_terminationTolerance s) = false).
Proof.
  split.
  - exists small_far. cbv zeta.
    rewrite (far_adjusted small_far) by (lazy; reflexivity). cbn [fst snd].
    split; [reflexivity|split].
    + lazy. reflexivity.
    + rewrite far_adjusted by (lazy; reflexivity). reflexivity.
  - exists (set_o_terminationTolerance (SpecFloat.S754_nan : FNum) (setToDefault small_far)). split.
    + apply list_none. lazy. reflexivity.
    + lazy. reflexivity.
Qed.

(** ** C11 *)

(** Each preset ignores the previous options and passes ensureConsistency
    unchanged: over the reals and in double arithmetic. *)
Definition is_preset {M : Num} (f : options M -> options M) : Prop :=
  f = setToDefault \/ f = setToReliable \/ f = setToMPC \/ f = setToFast.

Theorem C11_presets_consistent : forall eps zero infty f (s : options (RNumT eps zero infty)), 0 < eps ->
  is_preset f -> consistent eps zero infty (f s) /\ ensureConsistency (f s) = (SUCCESSFUL_RETURN, f s).
Proof.
  intros eps zero infty f s He Hf.
  assert (C : consistent eps zero infty (f s)).
  { destruct Hf as [ -> | [ -> | [ -> | -> ]]]; constructor; cbn; rnum;
      change (Rlit 5 6) with 5000000; change (Rlit 1 9) with 1000000000; change (Rlit 1 6) with 1000000;
      change (Rlit 1 4) with 10000; change (Rlit 1 3) with 1000; change (Rlit 1 8) with 100000000;
      change (Rlit 5 (-1)) with (5 / 10); change (Rlit 1 2) with 100; change (Rlit 1 5) with 100000;
      change (Rlit 3 3) with 3000; first [lia|lra]. }
  split; [exact C|]. unfold ensureConsistency. now rewrite (consistent_noop eps zero infty (f s) C).
Qed.

Theorem C11_presets_consistent_double : forall f (s : options FNum), is_preset f ->
  ensureConsistency (f s) = (SUCCESSFUL_RETURN, f s).
Proof.
  intros f s [ -> | [ -> | [ -> | -> ]]]; apply list_none; lazy; reflexivity.
Qed.

(** In any arithmetic a preset does not depend on the prior state. *)
Theorem C11_presets_independent : forall (M : Num) f (s1 s2 : options M), is_preset f -> f s1 = f s2.
Proof. intros M f s1 s2 [ -> | [ -> | [ -> | -> ]]]; reflexivity. Qed.

(** Assignment copies every member (part of C07 for Options). *)
Theorem C07_options_copy : forall (M : Num) (s : options M), options_copy s = s.
Proof. now intros M []. Qed.

Print Assumptions C10_ensureConsistency.
Print Assumptions C10_others_untouched.
Print Assumptions C10_double_refuted.
Print Assumptions C11_presets_consistent.
Print Assumptions C11_presets_consistent_double.
Print Assumptions C11_presets_independent.
Print Assumptions C07_options_copy.
