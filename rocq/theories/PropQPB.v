(** Properties of QProblemB that hold for every arithmetic: results are only
    handed out when they exist (C31), the working set budget (C32), contradictory
    bounds (C38), continuing after the budget ran out (C46), export of the working
    set (C60), and no undefined behaviour for any history of calls (C62). *)
From Coq Require Import QArith.
From Verif Require Import Base Types Num Indexlist IndexlistProofs SubjectTo SubjectToProofs SubjectToProofs2 Options Flipper PropFlipper
  Utils Matrices CsLib LinAlg SafeLib MatSafe QProblemB QPBSafe QPBSafe2 QPBSafe3 QPBSafe4 QPBSafe5 QPBSafe6.
Local Open Scope Z_scope.

Section PropQPB.
Context {N : Num}.
Notation arr := (list N).
Notation qpb := (qpb N).
Variable junk : Z -> arr.    (* contents of fresh memory *)
Variable cpu : Z -> bool.    (* whether the k-th look at the clock finds the time limit exceeded *)

(** ** Histories of calls *)
Inductive call :=
| KInit (fuel : nat) (h : harg N) (g lb ub : option arr) (nWSR : Z) (xOpt yOpt : option arr) (guess : option subjectTo) (Rin : option arr)
| KHot (fuel : nat) (gn : arr) (lb ub : option arr) (nWSR : Z) (guess : option subjectTo)
| KReset
| KOptions (o : options N)
| KHessian (h : HessianType).

Definition exec (c : call) (s : qpb) : res (returnValue * Z * qpb) :=
  match c with
  | KInit fuel h g lb ub nWSR x y guess R => qb_init junk cpu fuel h g lb ub nWSR x y guess R s
  | KHot fuel gn lb ub nWSR guess => hotstart junk cpu fuel gn lb ub nWSR guess s
  | KReset => '(r, s') <- qb_reset s ;; Ok (r, 0, s')
  | KOptions o => Ok (SUCCESSFUL_RETURN, 0, qb_setOptions o s)
  | KHessian h => Ok (SUCCESSFUL_RETURN, 0, qb_setHessianType h s)
  end.

(** What the caller has to respect: arrays of the documented sizes, lists of bounds
    that are real Bounds objects, a Hessian when one is declared, and [fuel] large
    enough for the number of far bound enlargements. *)
Definition guess_ok (guess : option subjectTo) : Prop := forall gb, guess = Some gb -> gwf gb.
Definition legal (n : Z) (s : qpb) (c : call) : Prop :=
  match c with
  | KInit fuel h g lb ub nWSR x y guess R =>
      fuel_ok n (q_opts s) fuel /\ harg_ok n h /\ olen n g /\ olen n lb /\ olen n ub /\ olen n x /\ olen n y /\ olen (n * n) R /\ guess_ok guess
  | KHot fuel gn lb ub nWSR guess =>
      fuel_ok n (q_opts s) fuel /\ n <= zlen gn /\ olen n lb /\ olen n ub /\ guess_ok guess /\ callable guess s
  | KReset | KOptions _ => True
  | KHessian h => q_status s = QPS_NOTINITIALISED \/ hk (qb_setHessianType h s)
  end.

(** [hist n l s]: the calls [l] (latest first, with return value and reported nWSR)
    turn a new object for [n] variables into [s]. *)
Inductive hist (n : Z) : list (call * returnValue * Z) -> qpb -> Prop :=
| hist_new nv h o : n = (if nv <=? 0 then 1 else nv) -> hist n [] (qb_new junk nv h o)
| hist_call l s c r k s' : hist n l s -> legal n s c -> exec c s = Ok (r, k, s') -> hist n ((c, r, k) :: l) s'.

Hypothesis J : junk_ok junk.

Lemma exec_ok n s c : qok n s -> legal n s c -> wp (exec c s) (fun '(r, k, s') => qok n s').
Proof.
  intros OK L. destruct c; cbn [exec] in *; cbn [legal] in L.
  - destruct L as (L1 & L2 & L3 & L4 & L5 & L6 & L7 & L8 & L9).
    eapply wp_mono; [apply (init_safe junk J cpu n s fuel h g lb ub nWSR xOpt yOpt guess Rin); auto|]. intros [[r k] s'] (A & _). exact A.
  - destruct L as (L1 & L2 & L3 & L4 & L5 & L6).
    eapply wp_mono; [apply (hotstart_safe junk J cpu n s fuel gn lb ub nWSR guess); auto|]. intros [[r k] s'] (A & _). exact A.
  - sstep. eapply wp_mono; [apply (reset_ok n s OK)|]. intros [r s'] (_ & A & _). exact A.
  - cbn. now apply setOptions_ok.
  - cbn. destruct OK as (l0 & l1 & W & V & K). exists l0, l1. split; [apply (wf_same n s); [exact W|samearr]|]. split; [exact V|].
    cbn [q_status set_q_htype qb_setHessianType]. intros Q. destruct L as [L|L]; [contradiction|exact L].
Qed.
Lemma hist_ok n l s : hist n l s -> qok n s.
Proof.
  induction 1 as [nv h o ->|l s c r k s' H IH L E]; [apply new_ok, J|]. exact (wp_ok_inv _ _ _ (exec_ok n s c IH L) E).
Qed.

(** ** C62: no call of a legal history has undefined behaviour or fails to return *)
Theorem C62_memory_safe n l s c : hist n l s -> legal n s c -> exists r k s', exec c s = Ok (r, k, s') /\ hist n ((c, r, k) :: l) s'.
Proof.
  intros H L. destruct (wp_inv _ _ (exec_ok n s c (hist_ok _ _ _ H) L)) as ([[r k] s'] & E & _).
  exists r, k, s'. split; [exact E|]. econstructor; eauto.
Qed.

(** ** C31 *)
(** the answers of the getters, as far as they are determined by the object *)
Definition hands_out n (s : qpb) : Prop :=
  (forall x, n <= zlen x -> exists a, getPrimalSolution s x = Ok (SUCCESSFUL_RETURN, a) /\ zlen a = zlen x /\
     (forall i, 0 <= i < n -> zn n0 a i = zn n0 (q_x s) i) /\ (forall i, n <= i < zlen x -> zn n0 a i = zn n0 x i)) /\
  (forall y, n <= zlen y -> exists a, getDualSolution s y = Ok (SUCCESSFUL_RETURN, a) /\ zlen a = zlen y /\
     (forall i, 0 <= i < n -> zn n0 a i = zn n0 (q_y s) i) /\ (forall i, n <= i < zlen y -> zn n0 a i = zn n0 y i)) /\
  (exists v, getObjVal junk s = Ok v /\ getObjValAt junk s (q_x s) = Ok v).
Definition refuses n (s : qpb) : Prop :=
  (forall x, n <= zlen x -> getPrimalSolution s x = Ok (RET_QP_NOT_SOLVED, x)) /\
  (forall y, n <= zlen y -> exists a, getDualSolution s y = Ok (RET_QP_NOT_SOLVED, a)) /\
  getObjVal junk s = Ok nINFTY.

Lemma hasSolution_iff (s : qpb) : hasSolution s = true <-> accepted (q_status s).
Proof. unfold hasSolution, accepted. destruct (q_status s); split; try congruence; intros H; try tauto; destruct H as [H|[H|H]]; discriminate. Qed.

Lemma hands_or_refuses n s : qok n s -> if hasSolution s then hands_out n s else refuses n s.
Proof.
  intros OK. destruct (hasSolution s) eqn:E.
  - split; [|split].
    + intros x Hx. destruct (wp_inv _ _ (getPrimal_ok n s x OK Hx)) as ([r a] & Ea & [(-> & _ & H)|(_ & X & _)]); [|congruence]. eauto.
    + intros y Hy. destruct (wp_inv _ _ (getDual_ok n s y OK Hy)) as ([r a] & Ea & Er & H). rewrite E in Er. subst r. eauto.
    + unfold getObjVal. rewrite E. apply hasSolution_iff in E. pose proof OK as (l0 & l1 & W & _ & K).
      destruct (wp_inv _ _ (getObjValAt_ok junk J n s (q_x s) OK (K (accepted_init _ E)) ltac:(rewrite (w_x _ _ _ _ W); lia))) as (v & Ev & _). eauto.
  - split; [|split].
    + intros x Hx. destruct (wp_inv _ _ (getPrimal_ok n s x OK Hx)) as ([r a] & Ea & [(_ & X & _)|(-> & _ & ->)]); [congruence|]. exact Ea.
    + intros y Hy. destruct (wp_inv _ _ (getDual_ok n s y OK Hy)) as ([r a] & Ea & Er & H). rewrite E in Er. subst r. eauto.
    + unfold getObjVal. now rewrite E.
Qed.

Definition crossed_user n (lb ub : option arr) : Prop := crossed n (Some (taken n lb (-' nINFTY))) (Some (taken n ub nINFTY)).

Lemma isSolved_iff (s : qpb) : isSolved s = true <-> q_status s = QPS_SOLVED.
Proof. unfold isSolved, is_qps. destruct (qps_eq_dec _ _); split; congruence. Qed.
Lemma isInitialised_iff (s : qpb) : isInitialised s = true <-> q_status s <> QPS_NOTINITIALISED.
Proof. unfold isInitialised, is_qps. destruct (qps_eq_dec _ _); cbn; split; congruence. Qed.
(** what the return value of the latest call says about the object *)
Definition outcome_says n (before : qpb) (c : call) (r : returnValue) (s : qpb) : Prop :=
  match c with
  | KInit _ _ _ lb ub _ _ _ _ _ =>
      (isSolved s = true <-> r = SUCCESSFUL_RETURN) /\
      (r = RET_INVALID_ARGUMENTS \/ r = RET_NO_CHOLESKY_WITH_INITIAL_GUESS \/ r = RET_INIT_FAILED \/ r = RET_INIT_FAILED_REGULARISATION -> hasSolution s = false)
  | KHot _ _ lb ub _ guess =>
      (r = SUCCESSFUL_RETURN -> ~ crossed n lb ub -> isSolved s = true) /\
      (r = RET_SETUP_AUXILIARYQP_FAILED \/ r = RET_HOTSTART_FAILED_AS_QP_NOT_INITIALISED -> isSolved s = true -> isSolved before = true) /\
      (isSolved s = true -> r = SUCCESSFUL_RETURN /\ ~ crossed n lb ub \/ guess = None /\ isSolved before = true /\ q_wsc s = q_wsc before)
  | KReset => isSolved s = false /\ hasSolution s = false /\ isInitialised s = false
  | KOptions _ | KHessian _ => q_status s = q_status before
  end.

Lemma ran_solved nWSR p (s : qpb) r k (s' : qpb) : ran cpu nWSR p s r k s' -> q_status s' = QPS_SOLVED ->
  r = SUCCESSFUL_RETURN \/ (r = RET_MAX_NWSR_REACHED /\ k <= p /\ q_status s = QPS_SOLVED /\ q_wsc s' = q_wsc s).
Proof.
  intros (_ & _ & _ & [(-> & _)|[(-> & _ & C & _ & Qa & Qb)|[(_ & _ & -> & _)|(_ & _ & -> & _)]]]) Q; auto; try discriminate Q.
  right. destruct (Z.le_gt_cases k p) as [H|H]; [|rewrite (Qb H) in Q; discriminate]. split; [reflexivity|]. split; [exact H|].
  destruct (Qa H) as [X|[_ X]]; [|congruence]. split; [congruence|]. lia.
Qed.

(** For every history: the getters either hand out the stored point or refuse, and
    the return values tell which states are possible. *)
Theorem C31_results n l s : hist n l s ->
  (hasSolution s = true -> hands_out n s) /\ (hasSolution s = false -> refuses n s) /\
  (isSolved s = true -> hasSolution s = true) /\ (hasSolution s = true -> isInitialised s = true) /\
  match l with
  | [] => isInitialised s = false /\ isSolved s = false /\ hasSolution s = false
  | (c, r, k) :: l' => exists before, hist n l' before /\ exec c before = Ok (r, k, s) /\ outcome_says n before c r s
  end.
Proof.
  intros H. pose proof (hands_or_refuses n s (hist_ok _ _ _ H)) as HR.
  split; [intros E; now rewrite E in HR|]. split; [intros E; now rewrite E in HR|].
  split; [rewrite isSolved_iff, hasSolution_iff; unfold accepted; auto|].
  split; [rewrite isInitialised_iff, hasSolution_iff; apply accepted_init|]. clear HR.
  destruct H as [nv h o ->|l s c r k s' H L E]; [cbn; auto|].
  exists s. split; [exact H|]. split; [exact E|]. pose proof (hist_ok _ _ _ H) as OK.
  destruct c; cbn [exec legal outcome_says] in *.
  - destruct L as (L1 & L2 & L3 & L4 & L5 & L6 & L7 & L8 & L9).
    pose proof (wp_ok_inv _ _ _ (init_safe junk J cpu n s fuel h g lb ub nWSR xOpt yOpt guess Rin OK L1 L2 L3 L4 L5 L6 L7 L8 L9) E) as (_ & _ & P).
    assert (NS : forall st, q_status s' = st -> st <> QPS_SOLVED -> isSolved s' = false).
    { intros st Y X. destruct (isSolved s') eqn:Z; auto. apply isSolved_iff in Z. congruence. }
    destruct P as [(Hr & _ & _ & Q)|[(_ & -> & _ & _ & _ & Q)|[(_ & Hr & _ & _ & Q)|(_ & s1 & r1 & Q1 & _ & RN & _ & Er)]]].
    + assert (X : isSolved s' = false) by (destruct Q as [Q|Q]; apply (NS _ Q); discriminate). rewrite X. split.
      * split; [discriminate|]. destruct Hr as [-> | [-> | [-> | ->]]]; discriminate.
      * intros _. destruct (hasSolution s') eqn:Y; auto. apply hasSolution_iff in Y. unfold accepted in Y. destruct Q as [Q|Q]; rewrite Q in Y; destruct Y as [Y|[Y|Y]]; discriminate.
    + rewrite (NS _ Q ltac:(discriminate)). split; [split; discriminate|]. intros [X|[X|[X|X]]]; discriminate.
    + rewrite (NS _ Q ltac:(discriminate)). destruct Hr as [-> | [-> | ->]]; (split; [split; discriminate|]; intros [X|[X|[X|X]]]; discriminate).
    + pose proof RN as (_ & _ & _ & D). split.
      * rewrite isSolved_iff. destruct D as [(-> & Q & U & _)|[(-> & U & C & _ & Qa & Qb)|[(-> & U & Q & _)|(N1 & N2 & Q & U & _)]]].
        -- rewrite U in Er. split; auto.
        -- rewrite U in Er. cbn in Er. subst r. split; [|discriminate]. intros Q.
           destruct (Z.le_gt_cases k 0) as [Hk|Hk]; [destruct (Qa Hk) as [X|[X _]]; congruence|rewrite (Qb Hk) in Q; discriminate].
        -- rewrite U in Er. subst r. split; [congruence|discriminate].
        -- rewrite U in Er. apply rv_eqb_neq in N1, N2. rewrite N1, N2 in Er. cbn in Er. subst r. split; [congruence|discriminate].
      * intros Hr. exfalso. destruct (q_unbounded s'); [subst r; destruct Hr as [X|[X|[X|X]]]; discriminate|].
        destruct (r1 =r? SUCCESSFUL_RETURN) eqn:E1; [apply rv_eqb_eq in E1; cbn in Er; subst; destruct Hr as [X|[X|[X|X]]]; discriminate|].
        destruct (r1 =r? RET_MAX_NWSR_REACHED) eqn:E2; [apply rv_eqb_eq in E2; cbn in Er; subst; destruct Hr as [X|[X|[X|X]]]; discriminate|].
        cbn in Er. subst. destruct Hr as [X|[X|[X|X]]]; discriminate.
  - destruct L as (L1 & L2 & L3 & L4 & L5 & L6).
    pose proof (wp_ok_inv _ _ _ (hotstart_safe junk J cpu n s fuel gn lb ub nWSR guess OK L6 L1 L2 L3 L4 L5) E) as (_ & _ & P).
    rewrite !isSolved_iff.
    destruct P as [(GN & -> & (-> & C & _) & Q & I)|[(CR & -> & (-> & C & _) & Q & I)|[(NC & HC & N1 & N2 & (-> & C & _) & Q & I)|[(NC & NA & Hr & (-> & C & _) & Q & I)|(NC & s1 & Q1 & C1 & _ & _ & RN)]]]].
    + rewrite Q. split; [discriminate|]. split; [discriminate|discriminate].
    + rewrite Q. split; [intros _ X; contradiction|]. split; [intros [X|X]; discriminate|]. unfold status0. destruct guess; [discriminate|]. intros X. right. auto.
    + rewrite Q. split; [intros X; congruence|]. unfold status0. destruct guess; (split; [intros _ X; auto; discriminate X|]); intros X; auto; discriminate X.
    + rewrite Q. split; [intros ->; destruct Hr; discriminate|]. split; [intros _ X; exfalso; apply NA; rewrite X; unfold accepted; auto|].
      intros X. exfalso. apply NA. rewrite X. unfold accepted; auto.
    + split; [|split].
      * intros -> _. pose proof RN as (_ & _ & _ & [(_ & X & _)|[(X & _)|[(X & _)|(X & _)]]]); try discriminate X; [exact X|congruence].
      * intros Hr X. destruct (ran_solved _ _ _ _ _ _ RN X) as [-> | (-> & _)]; destruct Hr; discriminate.
      * intros X. destruct (ran_solved _ _ _ _ _ _ RN X) as [-> | (-> & _ & Y & Z)]; [auto|]. right. unfold status0 in Q1. rewrite Q1 in Y.
        destruct guess; [discriminate Y|]. split; [reflexivity|]. split; [exact Y|congruence].
  - pose proof (reset_ok n s OK) as P. destruct (qb_reset s) as [[r0 s0]| |]; try contradiction. cbn in E. injection E as <- <- <-.
    destruct P as (_ & _ & Q & _). unfold isSolved, hasSolution, isInitialised, is_qps. rewrite Q. cbn. auto.
  - injection E as <- <- <-. reflexivity.
  - injection E as <- <- <-. reflexivity.
Qed.

(** ** C32 *)
(** [q_wsc] counts the working set recalculations (see QProblemB.v) *)
Definition performed (s s' : qpb) : Z := q_wsc s' - q_wsc s.
Definition budget_kept nWSR (no_limit : Prop) (s : qpb) (r : returnValue) (k : Z) (s' : qpb) (ran_ : Prop) : Prop :=
  performed s s' <= Z.max 0 nWSR /\
  (r = RET_MAX_NWSR_REACHED -> performed s s' = Z.max 0 k /\ (0 <= nWSR -> 0 <= k <= nWSR) /\ (no_limit -> k = nWSR)) /\
  (r = SUCCESSFUL_RETURN -> ran_ -> performed s s' = k /\ 0 <= k < nWSR).
Definition no_time_limit : Prop := forall c, cpu c = false.

Theorem C32_budget n l s c r k s' : hist n l s -> legal n s c -> exec c s = Ok (r, k, s') ->
  match c with
  | KInit _ _ _ _ _ nWSR _ _ _ _ => budget_kept nWSR no_time_limit s r k s' True
  | KHot _ _ lb ub nWSR _ => budget_kept nWSR no_time_limit s r k s' (~ crossed n lb ub)
  | _ => True
  end.
Proof.
  intros H L E. pose proof (hist_ok _ _ _ H) as OK.
  assert (UM : forall nW (P : Prop), q_wsc s' = q_wsc s -> (r <> RET_MAX_NWSR_REACHED) -> (r = SUCCESSFUL_RETURN -> ~ P) -> budget_kept nW no_time_limit s r k s' P).
  { intros nW P C N1 N2. unfold budget_kept, performed. split; [lia|]. split; [intros; contradiction|]. intros R X. exfalso. exact (N2 R X). }
  assert (RUN : forall nW s1 r1 (P : Prop), q_wsc s1 = q_wsc s -> ran cpu nW 0 s1 r1 k s' ->
     (r = RET_MAX_NWSR_REACHED -> r1 = RET_MAX_NWSR_REACHED) -> (r = SUCCESSFUL_RETURN -> r1 = SUCCESSFUL_RETURN) -> budget_kept nW no_time_limit s r k s' P).
  { intros nW s1 r1 P C (_ & _ & B & D) HM HS. unfold budget_kept, performed, budget in *.
    destruct D as [(-> & _ & _ & Hk & W)|[(-> & _ & W & M & _)|[(-> & _ & _ & W)|(N1 & N2 & _ & _ & W)]]].
    - split; [lia|]. split; [intros X; discriminate (HM X)|]. intros _ _. lia.
    - split; [lia|]. split; [|intros X; discriminate (HS X)]. intros _. split; [lia|]. split; [lia|].
      intros NL. destruct M as [M|(_ & c0 & X)]; [exact M|]. rewrite NL in X. discriminate.
    - split; [lia|]. split; [intros X; discriminate (HM X)|intros X; discriminate (HS X)].
    - split; [lia|]. split; [intros X; elim (N2 (HM X))|intros X; elim (N1 (HS X))]. }
  destruct c; cbn [exec legal] in *; auto.
  - destruct L as (L1 & L2 & L3 & L4 & L5 & L6 & L7 & L8 & L9).
    pose proof (wp_ok_inv _ _ _ (init_safe junk J cpu n s fuel h g lb ub nWSR xOpt yOpt guess Rin OK L1 L2 L3 L4 L5 L6 L7 L8 L9) E) as (_ & _ & P).
    destruct P as [(Hr & _ & C & _)|[(_ & -> & _ & _ & C & _)|[(_ & Hr & _ & C & _)|(_ & s1 & r1 & Q1 & C & RN & _ & Er)]]].
    + apply UM; auto; destruct Hr as [-> | [-> | [-> | ->]]]; discriminate.
    + apply UM; auto; discriminate.
    + apply UM; auto; destruct Hr as [-> | [-> | ->]]; discriminate.
    + apply (RUN nWSR s1 r1); auto; intros ->; (destruct (q_unbounded s'); [discriminate|]).
      all: destruct (r1 =r? SUCCESSFUL_RETURN) eqn:E1; cbn [orb] in Er; [apply rv_eqb_eq in E1; congruence|].
      all: destruct (r1 =r? RET_MAX_NWSR_REACHED) eqn:E2; [apply rv_eqb_eq in E2; congruence|discriminate].
  - destruct L as (L1 & L2 & L3 & L4 & L5 & L6).
    pose proof (wp_ok_inv _ _ _ (hotstart_safe junk J cpu n s fuel gn lb ub nWSR guess OK L6 L1 L2 L3 L4 L5) E) as (_ & _ & P).
    destruct P as [(GN & -> & (-> & C & _) & Q & I)|[(CR & -> & (-> & C & _) & Q & I)|[(NC & HC & N1 & N2 & (-> & C & _) & Q & I)|[(NC & NA & Hr & (-> & C & _) & Q & I)|(NC & s1 & Q1 & C1 & _ & _ & RN)]]]].
    + apply UM; auto; discriminate.
    + apply UM; auto. discriminate.
    + apply UM; auto.
    + apply UM; auto; destruct Hr as [-> | ->]; discriminate.
    + apply (RUN nWSR s1 r); auto.
Qed.

(** ** C38 *)
(** Contradictory bounds: hotstart never touches the iterate and sets the
    infeasibility flag, except when the working set guess itself is rejected. *)
Theorem C38_contradictory n l s fuel gn lb ub nWSR guess r k s' : hist n l s -> legal n s (KHot fuel gn lb ub nWSR guess) ->
  exec (KHot fuel gn lb ub nWSR guess) s = Ok (r, k, s') -> crossed n lb ub ->
  (q_infeasible s' = true /\ r = SUCCESSFUL_RETURN /\ (isSolved s' = true -> isSolved s = true /\ guess = None)) \/
  (guess <> None /\ r = RET_SETUP_AUXILIARYQP_FAILED /\ isSolved s' = false).
Proof.
  intros H (L1 & L2 & L3 & L4 & L5 & L6) E CR. pose proof (hist_ok _ _ _ H) as OK. cbn [exec] in E.
  pose proof (wp_ok_inv _ _ _ (hotstart_safe junk J cpu n s fuel gn lb ub nWSR guess OK L6 L1 L2 L3 L4 L5) E) as (_ & _ & P).
  rewrite !isSolved_iff. destruct P as [(GN & -> & _ & Q & _)|[(_ & -> & _ & Q & I)|[(NC & _)|[(NC & _)|(NC & _)]]]]; try contradiction.
  - right. split; [exact GN|]. split; [reflexivity|]. destruct (isSolved s') eqn:X; auto. apply isSolved_iff in X. congruence.
  - left. split; [exact I|]. split; [reflexivity|]. rewrite Q. unfold status0. destruct guess; [discriminate|auto].
Qed.
(** init with contradictory bounds is never a success and flags infeasibility
    (unless it fails earlier). *)
Theorem C38_contradictory_init n l s fuel h g lb ub nWSR x y guess R r k s' : hist n l s ->
  legal n s (KInit fuel h g lb ub nWSR x y guess R) -> exec (KInit fuel h g lb ub nWSR x y guess R) s = Ok (r, k, s') -> crossed_user n lb ub ->
  r <> SUCCESSFUL_RETURN /\ isSolved s' = false /\
  ((r = RET_INIT_FAILED_INFEASIBILITY /\ q_infeasible s' = true) \/
   r = RET_INVALID_ARGUMENTS \/ r = RET_NO_CHOLESKY_WITH_INITIAL_GUESS \/ r = RET_INIT_FAILED \/ r = RET_INIT_FAILED_REGULARISATION).
Proof.
  intros H (L1 & L2 & L3 & L4 & L5 & L6 & L7 & L8 & L9) E CR. pose proof (hist_ok _ _ _ H) as OK. cbn [exec] in E.
  pose proof (wp_ok_inv _ _ _ (init_safe junk J cpu n s fuel h g lb ub nWSR x y guess R OK L1 L2 L3 L4 L5 L6 L7 L8 L9) E) as (_ & _ & P).
  destruct P as [(Hr & _ & _ & Q)|[(_ & -> & I & _ & _ & Q)|[(NC & _)|(NC & _)]]]; try contradiction.
  - split; [destruct Hr as [-> | [-> | [-> | ->]]]; discriminate|]. split; [|tauto].
    destruct (isSolved s') eqn:X; auto. apply isSolved_iff in X. destruct Q; congruence.
  - split; [discriminate|]. split; [|auto]. destruct (isSolved s') eqn:X; auto. apply isSolved_iff in X. congruence.
Qed.

(** ** C46 *)
(** After init or hotstart reported RET_MAX_NWSR_REACHED, any further hotstart with
    consistent bounds starts the homotopy at the very iterate that was reached. *)
Theorem C46_continue n l s c k : hist n ((c, RET_MAX_NWSR_REACHED, k) :: l) s ->
  accepted (q_status s) /\ q_haveChol s = true /\ q_infeasible s = false /\
  forall fuel gn lb ub nWSR, legal n s (KHot fuel gn lb ub nWSR None) -> ~ crossed n lb ub ->
    exists r k' s', exec (KHot fuel gn lb ub nWSR None) s = Ok (r, k', s') /\
      ran cpu nWSR 0 (set_q_count (q_count s + 1) s) r k' s'.
Proof.
  intros H. inversion H as [|l0 s0 c0 r0 k0 s1 H0 L E]. subst. pose proof (hist_ok _ _ _ H0) as OK.
  assert (F : accepted (q_status s) /\ q_haveChol s = true /\ q_infeasible s = false).
  { assert (RUN : forall nW s1 r1, ran cpu nW 0 s1 r1 k s -> r1 = RET_MAX_NWSR_REACHED -> accepted (q_status s) /\ q_infeasible s = false).
    { intros nW s1 r1 (A & I & B & D) ->. split; [|exact I]. destruct D as [(X & _)|[(_ & U & C & _ & Qa & Qb)|[(X & _)|(_ & X & _)]]]; try discriminate X; [|congruence].
      destruct (Z.le_gt_cases k 0) as [Hk|Hk]; [|rewrite (Qb Hk); unfold accepted; auto].
      destruct (Qa Hk) as [-> | [_ ->]]; [exact A|unfold accepted; auto]. }
    destruct c; cbn [exec legal] in *.
    - destruct L as (L1 & L2 & L3 & L4 & L5 & L6 & L7 & L8 & L9).
      pose proof (wp_ok_inv _ _ _ (init_safe junk J cpu n s0 fuel h g lb ub nWSR xOpt yOpt guess Rin OK L1 L2 L3 L4 L5 L6 L7 L8 L9) E) as (_ & _ & P).
      destruct P as [(Hr & _)|[(_ & X & _)|[(_ & Hr & _)|(_ & s1 & r1 & Q1 & C & RN & HC & Er)]]].
      + destruct Hr as [X|[X|[X|X]]]; discriminate X.
      + discriminate X.
      + destruct Hr as [X|[X|X]]; discriminate X.
      + destruct (q_unbounded s); [discriminate|]. assert (R1 : r1 = RET_MAX_NWSR_REACHED).
        { destruct (r1 =r? SUCCESSFUL_RETURN) eqn:E1; cbn [orb] in Er; [apply rv_eqb_eq in E1; congruence|].
          destruct (r1 =r? RET_MAX_NWSR_REACHED) eqn:E2; [apply rv_eqb_eq in E2; congruence|discriminate]. }
        destruct (RUN _ _ _ RN R1). auto.
    - destruct L as (L1 & L2 & L3 & L4 & L5 & L6).
      pose proof (wp_ok_inv _ _ _ (hotstart_safe junk J cpu n s0 fuel gn lb ub nWSR guess OK L6 L1 L2 L3 L4 L5) E) as (_ & _ & P).
      destruct P as [(_ & X & _)|[(_ & X & _)|[(_ & _ & _ & X & _)|[(_ & _ & Hr & _)|(NC & s1 & Q1 & C1 & HC & _ & RN)]]]]; try discriminate X; try congruence.
      + destruct Hr; discriminate.
      + destruct (RUN _ _ _ RN eq_refl). auto.
    - pose proof (reset_ok n s0 OK) as P. destruct (qb_reset s0) as [[r0 s2]| |]; try contradiction. cbn in E. destruct P as (-> & _). discriminate E.
    - discriminate E.
    - discriminate E. }
  destruct F as (A & HC & I). split; [exact A|]. split; [exact HC|]. split; [exact I|].
  intros fuel gn lb ub nWSR LG NC. pose proof (hist_ok _ _ _ H) as OKs. cbn [exec]. pose proof LG as (L1 & L2 & L3 & L4 & L5 & L6).
  destruct (wp_inv _ _ (hotstart_safe junk J cpu n s fuel gn lb ub nWSR None OKs L6 L1 L2 L3 L4 L5)) as ([[r k'] s'] & E' & _ & _ & P).
  exists r, k', s'. split; [exact E'|].
  destruct P as [(X & _)|[(X & _)|[(_ & X & _)|[(_ & X & _)|(_ & s2 & Q1 & C1 & _ & X & RN)]]]]; try congruence; try contradiction.
  rewrite (X eq_refl HC) in RN. exact RN.
Qed.

(** ** C60 *)
Definition export_value (v : SubjectToStatus) : N := match v with ST_LOWER => nm1 | ST_UPPER => n1 | _ => n0 end.
Theorem C60_export n l s (ws : arr) : hist n l s -> n <= zlen ws ->
  exists a, getWorkingSetBounds s ws = Ok a /\ zlen a = zlen ws /\
    (forall i, 0 <= i < n -> zn n0 a i = export_value (zn ST_UNDEFINED (st_status (q_bounds s)) i)) /\
    (forall i, n <= i < zlen ws -> zn n0 a i = zn n0 ws i).
Proof.
  intros H Hw. destruct (hist_ok _ _ _ H) as (l0 & l1 & W & _). unfold getWorkingSetBounds. rewrite (w_nv _ _ _ _ W). pose proof (w_n _ _ _ _ W) as Hn.
  assert (X : wp (for_up 0 n (fun i a => v <- st_getStatus (q_bounds s) i ;; wr a i (export_value v)) ws)
    (fun a => zlen a = zlen ws /\
      (forall i, 0 <= i < n -> zn n0 a i = export_value (zn ST_UNDEFINED (st_status (q_bounds s)) i)) /\
      (forall i, n <= i < zlen ws -> zn n0 a i = zn n0 ws i))).
  { apply wp_for_up with (I := fun j a => zlen a = zlen ws /\ (forall i, 0 <= i < j -> zn n0 a i = export_value (zn ST_UNDEFINED (st_status (q_bounds s)) i)) /\
      (forall i, j <= i < zlen ws -> zn n0 a i = zn n0 ws i)); [lia|split; [auto|split; [intros; lia|auto]]| |auto].
    intros j a Hj (La & A & B). rewrite (w_status _ _ _ _ W j Hj). cbn [bind]. apply wp_wr; [lia|]. rewrite zlen_zupd. split; [exact La|].
    split; intros i Hi; rewrite zn_zupd by lia; destruct (Z.eqb_spec i j); try lia.
    - subst. reflexivity.
    - apply A; lia.
    - apply B; lia. }
  destruct (wp_inv _ _ X) as (a & E & P). exists a. auto.
Qed.
End PropQPB.
