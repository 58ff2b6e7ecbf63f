(** What the set-up of an auxiliary working set does to types and statuses: every
    status is the wanted one or inactive (or lower, for an equality).  For every
    arithmetic. *)
From Verif Require Import Base Types Num Options Indexlist IndexlistProofs SafeLib SubjectTo SubjectToProofs Flipper Matrices LinAlg QProblemB QProblem QProblem2 QProblem3 QProblem4 QProblem5 QPFrame QPFrame2.
Local Open Scope Z_scope.

Section St.
(** [b'] differs from [b] in the status of [i] only, which is [v] if it changed *)
Definition chg (b : subjectTo) (i : Z) (v : SubjectToStatus) (b' : subjectTo) : Prop :=
  st_n b' = st_n b /\ st_type b' = st_type b /\ (forall j, 0 <= j -> j <> i -> zs (st_status b') j = zs (st_status b) j) /\
  (zs (st_status b') i = zs (st_status b) i \/ zs (st_status b') i = v \/ zs (st_status b') i = ST_UNDEFINED).
Definition chg_ok b i v (x : returnValue * subjectTo) : Prop := chg b i v (snd x) /\ (fst x = SUCCESSFUL_RETURN -> zs (st_status (snd x)) i = v).
Lemma chg_refl b i v : chg b i v b.
Proof. repeat split; auto. Qed.
Lemma chg_list b i v b' w l : chg b i v b' -> chg b i v (st_set_list b' w l).
Proof. destruct w; auto. Qed.
Lemma stat_list b w l : st_status (st_set_list b w l) = st_status b.
Proof. destruct w; reflexivity. Qed.
Lemma chg_wr b i v stat : wr (st_status b) i v = Ok stat -> chg b i v (st_set_status b stat) /\ zs (st_status (st_set_status b stat)) i = v.
Proof.
  intros E. apply wr_inv in E as (Hi & ->). cbn [st_status st_set_status]. assert (V : zs (zupd (st_status b) i v) i = v) by (apply zn_zupd_eq; lia).
  split; [|exact V]. split; [reflexivity|]. split; [reflexivity|]. split; [|auto]. intros j Hj NE. cbn [st_status st_set_status]. apply zn_zupd_ne; lia.
Qed.
Lemma c_add b w i v : pc (st_addIndex b w i v) (chg_ok b i v).
Proof.
  unfold st_addIndex. destruct (_ =? _); [split; [apply chg_refl|discriminate]|]. apply pc_any. intros old. destruct (sts_eq_dec _ _); [split; [apply chg_refl|discriminate]|].
  destruct (wr (st_status b) i v) as [stat| |] eqn:E; try exact I. cbn [bind]. apply chg_wr in E as (C & V). cbv zeta.
  apply pc_any. intros [r l]. destruct (_ =r? _); cbn [pc]; (split; cbn [fst snd]; [now apply chg_list|]); [discriminate|]. now rewrite stat_list.
Qed.
Lemma c_rem b w i : pc (st_removeIndex b w i) (fun x => chg b i ST_UNDEFINED (snd x)).
Proof.
  unfold st_removeIndex. destruct (_ =? _); [apply chg_refl|].
  destruct (wr (st_status b) i ST_UNDEFINED) as [stat| |] eqn:E; try exact I. cbn [bind]. apply chg_wr in E as (C & V). cbv zeta.
  apply pc_any. intros [r l]. destruct (_ =r? _); cbn [pc snd]; now apply chg_list.
Qed.
Lemma c_activate b i v : pc (st_activate b i v) (fun x => chg b i v (snd x)).
Proof.
  unfold st_activate. destruct (negb _); [apply chg_refl|]. eapply pc_bind; [apply c_rem|]. intros [r s1] E. cbn [snd] in E.
  assert (C1 : chg b i v s1) by (destruct E as (A & B & C & D); repeat split; auto; intuition). destruct (negb _); [exact C1|].
  eapply pc_bind; [apply c_add|]. intros [r2 s2] (E2 & _). cbn [snd] in E2.
  assert (C2 : chg b i v s2).
  { destruct C1 as (A & B & C & D), E2 as (A2 & B2 & C3 & D2). split; [congruence|]. split; [congruence|]. split; [intros j Hj NE; rewrite C3, C by assumption; reflexivity|].
    destruct D2 as [-> |D2]; auto. }
  destruct (negb _); exact C2.
Qed.
Lemma c_setup k b i v : pc (st_setup k b i v) (chg_ok b i v).
Proof.
  unfold st_setup. destruct (negb _); [split; [apply chg_refl|discriminate]|]. cbv zeta.
  assert (F : forall r : returnValue, r <> SUCCESSFUL_RETURN -> chg_ok b i v (r, b)) by (intros r Hr; split; [apply chg_refl|intros E; contradiction]).
  destruct v; try (apply F; discriminate).
  all: eapply pc_bind; [apply c_add|]; intros [r s1] (E & S); cbn [fst snd] in *; destruct (r =r? SUCCESSFUL_RETURN) eqn:ER; (split; [exact E|]); cbn [fst snd].
  all: try (intros _; apply S; destruct r; try discriminate ER; reflexivity).
  all: destruct k; discriminate.
Qed.
Lemma setup_settled k b i v x : st_setup k b i v = Ok x -> fst x = SUCCESSFUL_RETURN -> v = ST_INACTIVE \/ v = ST_LOWER \/ v = ST_UPPER.
Proof.
  unfold st_setup. destruct (negb _); [intros E; injection E as <-; discriminate|]. cbv zeta. destruct v; auto; intros E; injection E as <-; discriminate.
Qed.
Definition same_st (b b' : subjectTo) : Prop := st_n b' = st_n b /\ st_type b' = st_type b /\ st_status b' = st_status b.
Lemma c_swap b i j : pc (st_swapFree b i j) (fun x => same_st b (snd x)).
Proof.
  assert (R0 : forall r : returnValue, pc (Ok (r, b)) (fun x => same_st b (snd x))) by (intros r; repeat split).
  unfold st_swapFree, st_swapIndex. destruct (_ || _); [apply R0|]. destruct (_ =? _); [apply R0|]. apply pc_any. intro. apply pc_any. intro.
  destruct (sts_eq_dec _ _); [|apply R0]. destruct (_ =? _); [apply R0|]. apply pc_any. intros [r l]. destruct (_ =r? _); repeat split.
Qed.
(** set-up of fresh statuses *)
Definition fresh (v : SubjectToStatus) (b b' : subjectTo) : Prop := st_n b' = st_n b /\ st_type b' = st_type b /\
  forall j, 0 <= j -> zs (st_status b') j = zs (st_status b) j \/ zs (st_status b') j = v \/ zs (st_status b') j = ST_UNDEFINED.
Lemma fresh_chg v b b1 i b2 : fresh v b b1 -> chg b1 i v b2 -> fresh v b b2.
Proof.
  intros (A & B & C) (A2 & B2 & C2 & D2). split; [congruence|]. split; [congruence|]. intros j Hj. destruct (Z.eq_dec j i) as [->|NE].
  - destruct D2 as [-> |D2]; auto.
  - rewrite C2 by assumption. now apply C.
Qed.
Lemma f_pass k sel v b0 b : fresh v b0 b -> pc (st_setupPass k sel v b) (fun c => match c with Next s => fresh v b0 s | Brk e => fresh v b0 (snd e) end).
Proof.
  intros F. unfold st_setupPass. eapply pc_mono.
  - apply (pc_forb (fun s => fresh v b0 s) (fun e : returnValue * subjectTo => fresh v b0 (snd e))); [exact F|].
    intros i s Hs. apply pc_any. intro t. destruct (sel t); [|exact Hs]. eapply pc_bind; [apply c_setup|]. intros [r s1] (E & _). cbn [snd] in E.
    pose proof (fresh_chg _ _ _ _ _ Hs E). destruct (_ =r? _); assumption.
  - intros [s|e]; auto.
Qed.
Lemma f_setupAll k b v : pc (st_setupAll k b v) (fun x => fresh v b (snd x)).
Proof.
  assert (F0 : fresh v b b) by (repeat split; auto).
  unfold st_setupAll. eapply pc_bind; [apply f_pass, F0|]. intros [b1|e1] E1; [|exact E1]. eapply pc_bind; [apply f_pass, E1|]. intros [b2|e2] E2; [|exact E2].
  eapply pc_bind; [apply f_pass, E2|]. intros [b3|e3] E3; [|exact E3]. eapply pc_bind; [apply f_pass, E3|]. intros [b4|e4] E4; exact E4.
Qed.
Lemma status_inv b i v : st_getStatus b i = Ok v -> v = zs (st_status b) i \/ v = ST_UNDEFINED.
Proof. unfold st_getStatus. destruct (_ && _); intros E; [left|right; congruence]. now apply rd_inv in E as (_ & E). Qed.
Lemma type_inv b i t : st_getType b i = Ok t -> (t = zt (st_type b) i /\ 0 <= i < st_n b) \/ (t = ST_UNKNOWN /\ ~ 0 <= i < st_n b).
Proof.
  unfold st_getType. destruct (Z.leb_spec 0 i), (Z.ltb_spec i (st_n b)); cbn [andb]; intros E; try (right; split; [congruence|lia]).
  left. apply rd_inv in E as (_ & E). auto.
Qed.
End St.

Section F.
Context {N : Num}.
Notation arr := (list N).
Notation qp := (qp N).
Variable junk : Z -> arr.
Variables auxB auxC : subjectTo.
(** types of bounds and constraints, and options, at the start *)
Variables TB TC : list SubjectToType.
Variables (rlx btol : N) (ramping : bool).

Definition allowed (t : SubjectToType) (v a : SubjectToStatus) : Prop :=
  v = ST_INACTIVE \/ v = ST_UNDEFINED \/ v = a \/ (t = ST_EQUALITY /\ v = ST_LOWER).
Definition wsi (aux b : subjectTo) : Prop := forall i, 0 <= i -> allowed (zt (st_type b) i) (zs (st_status b) i) (zs (st_status aux) i).
Definition inv (s : qp) : Prop :=
  (st_type (p_bounds s) = TB /\ wsi auxB (p_bounds s)) /\
  ((forall i, 0 <= i -> zt (st_type (p_cons s)) i = zt TC i \/ zt (st_type (p_cons s)) i = ST_BOUNDED) /\ wsi auxC (p_cons s)) /\
  (o_boundRelaxation (p_opts s) = rlx /\ o_boundTolerance (p_opts s) = btol /\ o_enableRamping (p_opts s) = ramping).
Definition iok (x : returnValue * qp) : Prop := inv (snd x).
(** a status that may be given to [i] *)
Definition okv (b aux : subjectTo) (i : Z) (v : SubjectToStatus) : Prop :=
  v = ST_UNDEFINED \/ v = zs (st_status aux) i \/ (zt (st_type b) i = ST_EQUALITY /\ v = ST_LOWER).
Lemma wsi_chg aux b i v b' : wsi aux b -> okv b aux i v -> chg b i v b' -> wsi aux b'.
Proof.
  intros W O (A & B & C & D) j Hj. rewrite B. destruct (Z.eq_dec j i) as [->|NE]; [|rewrite C by assumption; now apply W].
  unfold allowed. destruct D as [-> |[-> | ->]]; [now apply W| |auto]. destruct O as [-> | [-> | O]]; auto.
Qed.
Lemma wsi_same aux b b' : wsi aux b -> same_st b b' -> wsi aux b'.
Proof. intros W (_ & B & C) j Hj. rewrite B, C. now apply W. Qed.
Lemma inv_bounds s b : inv s -> st_type b = st_type (p_bounds s) -> wsi auxB b -> inv (up_b (set_q_bounds b) s).
Proof. intros ((A1 & A2) & B & C) E W. split; [split; [exact (eq_trans E A1)|exact W]|]. split; assumption. Qed.
Lemma inv_cons s c : inv s -> st_type c = st_type (p_cons s) -> wsi auxC c -> inv (set_p_cons c s).
Proof. intros (A & (B1 & B2) & C) E W. split; [exact A|]. split; [|exact C]. split; [|exact W]. intros i Hi. change (p_cons (set_p_cons c s)) with c. rewrite E. now apply B1. Qed.
Ltac ik := match goal with H : inv _ |- inv _ => exact H end.
Ltac known := fail.
Ltac istep :=
  cbv beta zeta;
  match goal with
  | |- pc (Ok _) _ => cbn [pc]
  | |- pc UB _ => exact I
  | |- pc Hang _ => exact I
  | |- pc (bind UB _) _ => exact I
  | |- pc (bind Hang _) _ => exact I
  | |- pc (bind (bind _ _) _) _ => apply pc_assoc
  | |- pc (bind (Ok _) _) _ => cbn [bind]
  | |- pc (bind _ _) _ => eapply pc_bind; [known|]; cbv beta; [intros [? ?] ?; unfold iok in *; cbn [fst snd] in *]
  | |- pc (bind (if ?b then _ else _) _) _ => destruct b eqn:?
  | |- pc (bind (match ?b with _ => _ end) _) _ => destruct b eqn:?
  | |- pc (if ?b then _ else _) _ => destruct b eqn:?
  | |- pc (let '_ := ?b in _) _ => destruct b eqn:?
  | |- pc (match ?b with _ => _ end) _ => destruct b eqn:?
  | |- pc (bind _ _) _ => apply pc_any; intro
  | |- pc _ _ => known
  end.
Ltac leaf := unfold iok; cbn [fst snd]; try ik.
Ltac isteps := repeat istep; leaf.

Lemma i_addC number v upd s : inv s -> okv (p_cons s) auxC number v -> pc (addConstraint_update junk number v upd s) iok.
Proof.
  intros K O. unfold addConstraint_update. cbv zeta. apply pc_any. intros A. apply pc_any. intros aFR. apply pc_any. intros wZ. apply pc_any. intros T. apply pc_any. intros [[T' Q] R].
  eapply pc_bind; [apply c_activate|]. intros [r c] C. cbn [snd pc] in *. unfold iok. cbn [snd].
  apply (inv_cons (set_p_T T' (set_p_Q Q (up_b (set_q_R R) s))) c).
  - exact K.
  - exact (proj1 (proj2 C)).
  - exact (wsi_chg _ _ _ _ _ (proj2 (proj1 (proj2 K))) O C).
Qed.
Lemma i_addB number v upd s : inv s -> okv (p_bounds s) auxB number v -> pc (addBound_update junk number v upd s) iok.
Proof.
  intros K O. unfold addBound_update. cbv zeta. apply pc_any. intros last.
  eapply pc_bind with (P := fun s' => inv s' /\ okv (p_bounds s') auxB number v).
  { destruct (negb _); [|split; assumption]. eapply pc_bind; [apply c_swap|]. intros [r b] S. cbn [pc snd] in *. split.
    - apply inv_bounds; [exact K|apply S|]. exact (wsi_same _ _ _ (proj2 (proj1 K)) S).
    - unfold okv. change (p_bounds (up_b (set_q_bounds b) s)) with b. rewrite (proj1 (proj2 S)). exact O. }
  intros s1 (K1 & O1). apply pc_any. intros ll. apply pc_any. intros w. apply pc_any. intros [[w' Q] R]. apply pc_any. intros [Q' T]. apply pc_any. intros R'.
  eapply pc_bind; [apply c_activate|]. intros [r b] C. cbn [snd pc] in *. unfold iok. cbn [snd].
  apply (inv_bounds (set_p_T T (set_p_Q Q' (up_b (set_q_R R') s1))) b).
  - exact K1.
  - exact (proj1 (proj2 C)).
  - exact (wsi_chg _ _ _ _ _ (proj2 (proj1 K1)) O1 C).
Qed.
(** the independence tests change neither types nor statuses *)
Definition keep (s s' : qp) : Prop := p_bounds s' = p_bounds s /\ p_cons s' = p_cons s /\ p_opts s' = p_opts s.
Lemma keep_inv s s' : keep s s' -> inv s -> inv s'.
Proof. unfold keep, inv. intros (-> & -> & ->). auto. Qed.
Ltac kp := match goal with H : keep _ _ |- keep _ _ => exact H | |- keep _ _ => repeat split; assumption || reflexivity end.
Lemma k_step d bCz bBz p s : pc (p_stepDirection d bCz bBz p s) (fun '(_, _, s') => keep s s').
Proof.
  unfold p_stepDirection. do 5 (apply pc_any; intro). apply pc_any. intros [[[c xFR] yAC]|[[[rv c] xFR] yAC]]; cbv beta zeta iota; repeat istep; repeat split.
Qed.
Lemma k_full dg s : pc (fullLI junk dg s) (fun '(_, s') => keep s s').
Proof. unfold fullLI. cbv zeta. apply pc_any. intro. eapply pc_bind; [apply k_step|]. intros [[? ?] ?] ?. repeat istep; kp. Qed.
Lemma k_checkC number s : pc (addConstraint_checkLI junk number s) (fun '(_, s') => keep s s').
Proof.
  assert (K : keep s s) by (repeat split). unfold addConstraint_checkLI. repeat (cbv beta zeta; match goal with
    | |- pc (bind (fullLI _ _ _) _) _ => eapply pc_bind; [apply k_full|]; intros [? ?] ?
    | |- pc (fullLI _ _ _) _ => apply k_full
    | _ => istep end); kp.
Qed.
Lemma k_checkB number s : pc (addBound_checkLI junk number s) (fun '(_, s') => keep s s').
Proof.
  assert (K : keep s s) by (repeat split). unfold addBound_checkLI. repeat (cbv beta zeta; match goal with
    | |- pc (bind (fullLI _ _ _) _) _ => eapply pc_bind; [apply k_full|]; intros [? ?] ?
    | |- pc (fullLI _ _ _) _ => apply k_full
    | _ => istep end); kp.
Qed.
Lemma i_p_addC number v li s : inv s -> okv (p_cons s) auxC number v -> pc (p_addConstraint junk number v false li s) iok.
Proof. intros K O. unfold p_addConstraint. cbn [andb]. apply pc_any. intros [r|]; [exact K|]. cbn [bind]. cbn iota. now apply i_addC. Qed.
Lemma i_p_addB number v li s : inv s -> okv (p_bounds s) auxB number v -> pc (p_addBound junk number v false li s) iok.
Proof. intros K O. unfold p_addBound. cbn [andb]. apply pc_any. intros [r|]; [exact K|]. cbn [bind]. cbn iota. now apply i_addB. Qed.
Lemma i_loop n step s : inv s -> (forall i s, inv s -> pc (step i s) iok) ->
  pc (ws_loop n step s) (fun c => match c with Next s => inv s | Brk s => inv s end).
Proof.
  intros K H. unfold ws_loop. eapply pc_mono; [apply (pc_forb inv inv); [exact K|]|intros [x|x]; auto].
  intros i s1 K1. eapply pc_bind; [apply H, K1|]. intros [r s2] K2. unfold iok in K2. cbn [snd] in K2. destruct (_ =r? _); exact K2.
Qed.
(** a status read from the wanted working set may be given *)
Lemma okv_read b aux i : pc (st_getStatus aux i) (fun v => okv b aux i v).
Proof. destruct (st_getStatus aux i) eqn:E; try exact I. cbn [pc]. apply status_inv in E as [-> | ->]; [right; left|left]; reflexivity. Qed.
Lemma equality_read b i : pc (st_getType b i) (fun t => is_stt t ST_EQUALITY = true -> zt (st_type b) i = ST_EQUALITY).
Proof. destruct (st_getType b i) as [t| |] eqn:E; try exact I. cbn [pc]. apply type_inv in E as [(-> & _)|(-> & _)]; [|discriminate]. destruct (zt _ _); try discriminate; reflexivity. Qed.
Lemma inactive_read b i : pc (st_getStatus b i) (fun v => is_sts v ST_INACTIVE = true -> zs (st_status b) i = ST_INACTIVE).
Proof. destruct (st_getStatus b i) as [t| |] eqn:E; try exact I. cbn [pc]. apply status_inv in E as [-> | ->]; [|discriminate]. destruct (zs _ _); try discriminate; reflexivity. Qed.

Lemma i_afresh s : inv s -> pc (p_setupAuxiliaryWorkingSet junk (Some auxB) (Some auxC) true s) iok.
Proof.
  intros K. unfold p_setupAuxiliaryWorkingSet. cbv zeta. cbn [negb].
  apply pc_any. intros ok1. destruct (negb ok1); [exact K|]. apply pc_any. intros ok2. destruct (negb ok2); [exact K|].
  apply pc_any. intros triv. destruct triv.
  { eapply pc_bind; [apply (pc_for_up inv); [exact K|]|intros s1 K1; exact K1]. intros i s1 K1. apply pc_any. intros v. destruct (is_sts v ST_INACTIVE); [|exact K1].
    eapply pc_bind; [apply (okv_read (p_bounds s1))|]. intros w O. eapply pc_bind; [apply c_activate|]. intros [r b] C. cbn [pc snd] in *.
    apply inv_bounds; [exact K1|exact (proj1 (proj2 C))|exact (wsi_chg _ _ _ _ _ (proj2 (proj1 K1)) O C)]. }
  eapply pc_bind; [apply i_loop; [exact K|intros i s1 K1]|].
  { eapply pc_bind; [apply equality_read|]. intros t T. destruct (is_stt t ST_EQUALITY) eqn:Et; [|exact K1]. cbv beta in T; rewrite ?Et in T; specialize (T eq_refl). apply pc_any. intros a. destruct (is_sts a ST_INACTIVE); [|exact K1].
    apply i_p_addB; [exact K1|]. right. right. auto. }
  intros [s1|s1] E1; [|exact E1].
  eapply pc_bind; [apply i_loop; [exact E1|intros i s2 K2]|].
  { eapply pc_bind; [apply equality_read|]. intros t T. destruct (is_stt t ST_EQUALITY) eqn:Et; [|exact K2]. cbv beta in T; rewrite ?Et in T; specialize (T eq_refl). eapply pc_bind; [apply inactive_read|]. intros a A. destruct (is_sts a ST_INACTIVE) eqn:Ea; [|exact K2]. cbv beta in A; rewrite ?Ea in A; specialize (A eq_refl).
    eapply pc_bind; [apply k_checkC|]. intros [r s3] KP. pose proof (keep_inv _ _ KP K2) as K3. destruct KP as (_ & KC & _). destruct (_ =r? _).
    - apply i_p_addC; [exact K3|]. right. right. rewrite KC. auto.
    - unfold st_setType. destruct (_ && _); [|exact K3]. destruct (wr (st_type (p_cons s3)) i ST_BOUNDED) as [l| |] eqn:EW; try exact I. cbn [bind pc]. unfold iok. cbn [snd].
      apply wr_inv in EW as (Hi & ->). destruct K3 as (B & (C1 & C2) & D). split; [exact B|]. split; [|exact D]. cbn [p_cons set_p_cons]. unfold wsi in *. cbn [st_type st_status st_set_type].
      split; intros j Hj; (destruct (Z.eq_dec j i) as [->|NE]; [rewrite zn_zupd_eq by lia|rewrite zn_zupd_ne by lia]); auto.
      left. rewrite KC. auto. }
  intros [s2|s2] E2; [|exact E2].
  eapply pc_bind; [apply i_loop; [exact E2|intros i s3 K3]|].
  { apply pc_any. intros t. destruct (is_stt t ST_EQUALITY); [exact K3|]. apply pc_any. intros a. destruct (negb _); [exact K3|]. apply pc_any. intros b. destruct (is_sts b _); [exact K3|].
    eapply pc_bind; [apply k_checkB|]. intros [r s4] KP. pose proof (keep_inv _ _ KP K3) as K4. destruct (_ =r? _); [|exact K4].
    eapply pc_bind; [apply (okv_read (p_bounds s4))|]. intros w O. now apply i_p_addB. }
  intros [s3|s3] E3; [|exact E3].
  eapply pc_bind; [apply i_loop; [exact E3|intros i s4 K4]|].
  { apply pc_any. intros t. destruct (is_stt t ST_EQUALITY); [exact K4|]. apply pc_any. intros b. destruct (is_sts b _); [exact K4|]. apply pc_any. intros a. destruct (negb _); [exact K4|].
    eapply pc_bind; [apply k_checkC|]. intros [r s5] KP. pose proof (keep_inv _ _ KP K4) as K5. destruct (_ =r? _); [|exact K5].
    eapply pc_bind; [apply (okv_read (p_cons s5))|]. intros w O. now apply i_p_addC. }
  intros [s4|s4] E4; [|exact E4]. exact E4.
Qed.
Lemma k_tq s : pc (setupTQfactorisation s) (fun '(_, s') => keep s s').
Proof. unfold setupTQfactorisation. repeat istep; kp. Qed.
Lemma k_copyR Rin xOpt yOpt gB gC s : pc (p_copyR Rin xOpt yOpt gB gC s) (keep s).
Proof. unfold p_copyR, on_b, copyR. repeat istep; kp. Qed.
End F.
