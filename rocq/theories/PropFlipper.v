(** Properties C08 and C09: Flipper. *)
From Verif Require Import Base Types Num Indexlist SubjectTo SubjectToProofs Flipper.

Section S.
Context {N : Num}.
Notation arr := (list N).

(** ** Specification: a snapshot remembers the last value given for each part *)

Record snap := mkSnap {
  sn_b : option subjectTo; sn_R : option arr; sn_c : option subjectTo; sn_Q : option arr; sn_T : option arr }.
Definition snap0 : snap := mkSnap None None None None None.
Definition latest {A} (new old : option A) : option A := match new with Some x => Some x | None => old end.
Definition snap_set (s : snap) (g : snap) : snap :=
  mkSnap (latest (sn_b g) (sn_b s)) (latest (sn_R g) (sn_R s)) (latest (sn_c g) (sn_c s))
         (latest (sn_Q g) (sn_Q s)) (latest (sn_T g) (sn_T s)).

(** Arrays the callers pass have the documented sizes. *)
Definition dimT (nV nC : Z) : Z := Z.min nV nC * Z.min nV nC.
Definition len_ok (o : option arr) (k : Z) : Prop := match o with Some x => zlen x = k | None => True end.
Definition sized (nV nC : Z) (g : snap) : Prop :=
  len_ok (sn_R g) (nV * nV) /\ len_ok (sn_Q g) (nV * nV) /\ len_ok (sn_T g) (dimT nV nC).

(** What get must write: the saved value if there is one, else nothing. *)
Definition delivered {A} (buf saved : option A) : option A :=
  match buf with Some x => match saved with Some y => Some y | None => Some x end | None => None end.
Definition deliver_obj (buf : option subjectTo) (saved : option subjectTo) : option subjectTo :=
  match buf with Some _ => Some (match saved with Some y => y | None => st_empty end) | None => None end.

(** A history of set calls. *)
Fixpoint set_run (junk : Z -> arr) (gs : list snap) (s : flipper N) : res (flipper N) :=
  match gs with
  | [] => Ok s
  | g :: gs => s1 <- fl_set junk s (sn_b g) (sn_R g) (sn_c g) (sn_Q g) (sn_T g) ;; set_run junk gs s1
  end.

Definition junk_ok (junk : Z -> arr) : Prop := forall k, 0 <= k -> zlen (junk k) = k.

(** ** Proofs *)

Lemma memcpy_full (d x : arr) k : zlen d = k -> zlen x = k -> memcpy d x k = Ok x.
Proof.
  intros Hd Hx. unfold memcpy. destruct (Z.ltb_spec (zlen x) k); [lia|]. destruct (Z.ltb_spec (zlen d) k); [lia|]. simpl.
  unfold zlen in *. rewrite firstn_all2 by lia. rewrite skipn_all2 by lia. now rewrite app_nil_r.
Qed.

Lemma dimT_eq nV nC : (if nC <? nV then nC * nC else nV * nV) = dimT nV nC.
Proof. unfold dimT. destruct (Z.ltb_spec nC nV); [rewrite Z.min_r by lia|rewrite Z.min_l by lia]; reflexivity. Qed.

Record holds (nV nC : Z) (s : flipper N) (g : snap) : Prop := {
  h_nV : fl_nV s = Some nV; h_nC : fl_nC s = Some nC;
  h_b : fl_bounds s = match sn_b g with Some x => x | None => st_empty end;
  h_c : fl_constraints s = match sn_c g with Some x => x | None => st_empty end;
  h_R : fl_R s = sn_R g; h_Q : fl_Q s = sn_Q g; h_T : fl_T s = sn_T g;
  h_sz : sized nV nC g }.

Lemma setArr_ok junk mine src k : junk_ok junk -> 0 <= k -> len_ok mine k -> len_ok src k ->
  setArr junk mine src (Ok k) = Ok (latest src mine).
Proof.
  intros J Hk Hm Hs. unfold setArr. destruct src as [x|]; [|reflexivity]. simpl in *.
  destruct mine as [d|]; cbn [bind]; rewrite memcpy_full; auto.
Qed.

Lemma latest_len (a b : option arr) k : len_ok a k -> len_ok b k -> len_ok (latest a b) k.
Proof. destruct a; simpl; auto. Qed.

Lemma set_holds junk nV nC s g g' : junk_ok junk -> 0 <= nV -> 0 <= nC -> holds nV nC s g -> sized nV nC g' ->
  exists s', fl_set junk s (sn_b g') (sn_R g') (sn_c g') (sn_Q g') (sn_T g') = Ok s' /\ holds nV nC s' (snap_set g g').
Proof.
  intros J HV HC [] (S1 & S2 & S3). destruct h_sz0 as (Z1 & Z2 & Z3).
  unfold fl_set, fl_dimRQ, fl_getDimT. rewrite h_nV0, h_nC0. cbn [use bind]. rewrite dimT_eq.
  assert (0 <= nV * nV) by (apply Z.mul_nonneg_nonneg; lia).
  assert (0 <= dimT nV nC) by (unfold dimT; apply Z.mul_nonneg_nonneg; lia).
  rewrite h_R0, h_Q0, h_T0. rewrite !setArr_ok by auto. cbn [bind].
  eexists; split; [reflexivity|]. constructor; cbn; auto.
  - destruct (sn_b g'); auto.
  - destruct (sn_c g'); auto.
  - repeat split; cbn; apply latest_len; auto.
Qed.

Lemma run_holds junk nV nC gs s g : junk_ok junk -> 0 <= nV -> 0 <= nC -> holds nV nC s g ->
  Forall (sized nV nC) gs ->
  exists s', set_run junk gs s = Ok s' /\ holds nV nC s' (fold_left snap_set gs g).
Proof.
  intros J HV HC. revert s g. induction gs as [|g' gs IH]; simpl; intros s g H F; [eauto|].
  inversion F; subst. destruct (set_holds junk nV nC s g g' J HV HC H) as (s1 & E & H1); auto.
  rewrite E. cbn [bind]. now apply IH.
Qed.

Lemma getArr_ok dst src k : 0 <= k -> len_ok dst k -> len_ok src k -> getArr dst src (Ok k) = Ok (delivered dst src).
Proof.
  intros Hk Hd Hs. unfold getArr. destruct dst as [d|]; [|reflexivity]. destruct src as [x|]; [|reflexivity].
  cbn in *. now rewrite memcpy_full.
Qed.

(** ** C09 *)
Theorem C09_flipper_round_trip : forall junk nV nC gs buf, junk_ok junk -> 0 <= nV -> 0 <= nC ->
  Forall (sized nV nC) gs -> sized nV nC buf ->
  exists s, set_run junk gs (fl_new nV nC) = Ok s /\
    fl_get s (sn_b buf) (sn_R buf) (sn_c buf) (sn_Q buf) (sn_T buf) =
      let g := fold_left snap_set gs snap0 in
      Ok (deliver_obj (sn_b buf) (sn_b g), delivered (sn_R buf) (sn_R g),
          deliver_obj (sn_c buf) (sn_c g), delivered (sn_Q buf) (sn_Q g), delivered (sn_T buf) (sn_T g)).
Proof.
  intros junk nV nC gs buf J HV HC F (B1 & B2 & B3).
  destruct (run_holds junk nV nC gs (fl_new nV nC) snap0 J HV HC) as (s & E & H); auto.
  { constructor; cbn; auto. repeat split; exact I. }
  exists s. split; [exact E|]. cbv zeta. set (g := fold_left snap_set gs snap0) in *. destruct H. destruct h_sz0 as (Z1 & Z2 & Z3).
  assert (0 <= nV * nV) by (apply Z.mul_nonneg_nonneg; lia).
  assert (0 <= dimT nV nC) by (unfold dimT; apply Z.mul_nonneg_nonneg; lia).
  unfold fl_get, fl_dimRQ, fl_getDimT. rewrite h_nV0, h_nC0. cbn [use bind]. rewrite dimT_eq.
  rewrite h_R0, h_Q0, h_T0, h_b0, h_c0. rewrite !getArr_ok by auto. cbn [bind].
  destruct (sn_b buf), (sn_c buf); reflexivity.
Qed.

(** ** C08 *)

(** The flipper a copy is supposed to equal. *)
Definition same_get (s s' : flipper N) : Prop :=
  forall b R c Q T, fl_get s' b R c Q T = fl_get s b R c Q T.

(** Copying works when the target already has the source's dimensions ... *)
Theorem C08_assign_same_dimensions : forall junk nV nC gs s t, junk_ok junk -> 0 <= nV -> 0 <= nC ->
  Forall (sized nV nC) gs -> set_run junk gs (fl_new nV nC) = Ok s ->
  fl_nV t = Some nV -> fl_nC t = Some nC ->
  exists t', fl_assign junk t s = Ok t' /\ same_get s t'.
Proof.
  intros junk nV nC gs s t J HV HC F E TV TC.
  destruct (run_holds junk nV nC gs (fl_new nV nC) snap0 J HV HC) as (s' & E' & H); auto.
  { constructor; cbn; auto. repeat split; exact I. }
  rewrite E in E'. injection E' as <-. destruct H. destruct h_sz0 as (Z1 & Z2 & Z3).
  assert (0 <= nV * nV) by (apply Z.mul_nonneg_nonneg; lia).
  assert (0 <= dimT nV nC) by (unfold dimT; apply Z.mul_nonneg_nonneg; lia).
  unfold fl_assign, fl_copy, fl_set, fl_clear, fl_dimRQ, fl_getDimT. cbn [fl_nV fl_nC fl_R fl_Q fl_T fl_bounds fl_constraints].
  rewrite TV, TC. cbn [use bind]. rewrite dimT_eq.
  rewrite <- h_R0, <- h_Q0, <- h_T0 in *.
  rewrite !setArr_ok by (auto; exact I). cbn [bind]. eexists; split; [reflexivity|].
  intros b R c Q T. unfold fl_get, fl_dimRQ, fl_getDimT. cbn. rewrite h_nV0, h_nC0.
  destruct (fl_R s), (fl_Q s), (fl_T s); reflexivity.
Qed.

(** ... and what it does for a target with no dimensions or other dimensions. *)
Theorem C08_copy_constructor_ub : forall (junk : Z -> arr) s, fl_R s <> None -> fl_copyctor junk s = UB.
Proof.
  intros junk s H. unfold fl_copyctor, fl_copy, fl_set. destruct (fl_R s) as [x|]; [|congruence]. reflexivity.
Qed.
End S.

(** A problem object built by copying: its flipper was default constructed, so
    the assignment keeps dimension 0 and copies nothing; a later get leaves the
    caller's factor as it is instead of restoring the snapshot. *)
Definition junk0 (k : Z) : list QNum := repeat n0 (Z.to_nat k).
Definition saved : list QNum := repeat n1 4.
Definition scratch : list QNum := repeat (nlit 7 0) 4.

Theorem C08_copy_loses_snapshot_refuted :
  (exists s, fl_set junk0 (fl_new 2 0) None (Some saved) None None None = Ok s /\
     fl_get s None (Some scratch) None None None = Ok (None, Some saved, None, None, None) /\
     exists t, fl_assign junk0 fl_new0 s = Ok t /\
       fl_get t None (Some scratch) None None None = Ok (None, Some scratch, None, None, None)) /\
  (exists s, fl_set junk0 (fl_new 1 0) None (Some [n1 : QNum]) None None None = Ok s /\
     fl_assign junk0 (fl_new 2 0) s = UB).
Proof.
  split.
  - eexists. split; [reflexivity|]. split; [reflexivity|]. eexists. split; reflexivity.
  - eexists. split; [reflexivity|]. reflexivity.
Qed.

Example C09_case : exists gs buf, Forall (sized (N:=QNum) 2 1) gs /\ sized (N:=QNum) 2 1 buf /\
  sn_R (fold_left snap_set gs snap0) = Some saved /\ sn_T (fold_left snap_set gs snap0) = Some [nlit 3 0 : QNum] /\
  sn_Q (fold_left snap_set gs snap0) = None /\ sn_R buf = Some scratch.
Proof.
  exists [mkSnap None (Some scratch) None None (Some [nlit 3 0 : QNum]); mkSnap None (Some saved) None None None].
  exists (mkSnap None (Some scratch) None None None).
  repeat split; try (repeat constructor; fail). all: repeat constructor.
Qed.

Print Assumptions C09_flipper_round_trip.
Print Assumptions C08_assign_same_dimensions.
Print Assumptions C08_copy_constructor_ub.
Print Assumptions C08_copy_loses_snapshot_refuted.
