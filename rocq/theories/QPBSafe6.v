(** Memory safety of QProblemB, continued: the public functions keep the object
    invariant [qok]. *)
From Verif Require Import Base Types Num Indexlist IndexlistProofs SubjectTo SubjectToProofs SubjectToProofs2 Options Flipper PropFlipper
  Utils Matrices CsLib LinAlg SafeLib MatSafe QProblemB QPBSafe QPBSafe2 QPBSafe3 QPBSafe4 QPBSafe5.

Section QPBSafe6.
Context {N : Num}.
Notation arr := (list N).
Notation qpb := (qpb N).
Variable junk : Z -> arr.
Hypothesis J : junk_ok junk.
Hint Resolve oframe_refl hframe_refl sfr_refl sst_refl cfr_refl : core.
Notation bst s i := (zs (st_status (q_bounds s)) i).

(** The invariant of a QProblemB object between calls. *)
Definition virgin n (s : qpb) : Prop := forall i, 0 <= i < n -> bst s i = ST_UNDEFINED.
Definition qok n (s : qpb) : Prop := exists l0 l1, qwf n s l0 l1 /\
  (q_status s = QPS_NOTINITIALISED -> l0 = [] /\ l1 = [] /\ virgin n s) /\ (q_status s <> QPS_NOTINITIALISED -> hk s).

Lemma qok_owf n s : qok n s -> owf n s.
Proof. intros (l0 & l1 & W & _). exists l0, l1. exact W. Qed.
Lemma accepted_init st : accepted st -> st <> QPS_NOTINITIALISED.
Proof. intros [-> | [-> | ->]]; discriminate. Qed.
Lemma qok_intro n s : owf n s -> q_status s <> QPS_NOTINITIALISED -> hk s -> qok n s.
Proof. intros (l0 & l1 & W) H K. exists l0, l1. split; [exact W|]. split; [intros; contradiction|auto]. Qed.

Lemma zeros_len n : 0 <= n -> zlen (zeros (N:=N) n) = n.
Proof. intros H. unfold zeros. rewrite zlen_repeat. lia. Qed.
Lemma init_holds f n : exists g, holds n 0 (fl_init f n 0 : flipper N) g.
Proof.
  exists (mkSnap (Some (fl_bounds f)) None (Some (fl_constraints f)) None None). constructor; cbn; auto. repeat split; exact I.
Qed.
Lemma new_ok _nV h (o : options N) : qok (if _nV <=? 0 then 1 else _nV) (qb_new junk _nV h o).
Proof.
  unfold qb_new. set (n := if _nV <=? 0 then 1 else _nV). assert (Hn : 0 < n) by (unfold n; destruct (Z.leb_spec _nV 0); lia).
  destruct (init_wf n st_empty Hn) as (W & E & U).
  exists [], []. split; [|split; [intros _; split; [auto|split; [auto|exact U]]|cbn; congruence]].
  constructor; cbn [q_bounds q_g q_lb q_ub q_R q_x q_y q_tmp q_flip q_H]; auto using zeros_len with zarith; try (apply zeros_len; nia); try discriminate.
  all: try (apply J; lia); try apply init_holds.
  intros i Hi. right; right. now apply U.
Qed.

Lemma reset_ok n s : qok n s -> wp (qb_reset s) (fun '(r, s') => r = SUCCESSFUL_RETURN /\ qok n s' /\ q_status s' = QPS_NOTINITIALISED /\
  q_infeasible s' = false /\ q_unbounded s' = false /\ q_wsc s' = q_wsc s /\ q_opts s' = q_opts s /\ q_H s' = q_H s).
Proof.
  intros (l0 & l1 & W & _ & _). unfold qb_reset. rewrite (w_nv _ _ _ _ W). pose proof (w_n _ _ _ _ W) as Hn. destruct (Z.eqb_spec n 0); [lia|].
  sstep. apply zero_loop; [rewrite (w_R _ _ _ _ W); lia|]. intros R LR. cbn [wp]. split; [reflexivity|]. split; [|cbn; tauto].
  destruct (init_wf n (q_bounds s) Hn) as (Wb & E & U).
  exists [], []. split; [|split; [intros _; split; [auto|split; [auto|exact U]]|cbn; congruence]].
  destruct W. constructor; cbn [q_bounds q_g q_lb q_ub q_R q_x q_y q_tmp q_flip q_H]; auto; try lia.
  - intros i Hi. right; right. now apply U.
  - apply init_holds.
Qed.
Lemma setOptions_ok n s o : qok n s -> qok n (qb_setOptions o s).
Proof. intros (l0 & l1 & W & A & B). exists l0, l1. split; [apply (wf_same n s); [exact W|samearr]|]. split; [exact A|exact B]. Qed.

Lemma wp_inv_eq {A} (m : res A) (a : A) : wp m (fun x => x = a) -> m = Ok a.
Proof. intros H. apply wp_inv in H as (x & -> & ->). reflexivity. Qed.

(** ** hotstart *)
Definition crossed (n : Z) (lbn ubn : option arr) : Prop :=
  exists ln un i, lbn = Some ln /\ ubn = Some un /\ 0 <= i < n /\ zn n0 ln i >' zn n0 un i +' nEPS = true.
Lemma areBoundsConsistent_ok n s lbn ubn : nV s = n -> 0 <= n -> olen n lbn -> olen n ubn ->
  wp (areBoundsConsistent lbn ubn s) (fun r => (r = SUCCESSFUL_RETURN /\ ~ crossed n lbn ubn) \/ (r = RET_QP_INFEASIBLE /\ crossed n lbn ubn)).
Proof.
  intros E Hn Hl Hu. unfold areBoundsConsistent. rewrite E.
  destruct lbn as [ln|], ubn as [un|]; try (cbn; left; split; [reflexivity|]; intros (? & ? & ? & X & Y & _); congruence).
  cbn in Hl, Hu. sstep. apply wp_forb_up with
    (I := fun i _ => forall k, 0 <= k < i -> zn n0 ln k >' zn n0 un k +' nEPS = false) (J := fun _ => crossed n (Some ln) (Some un)); [lia|intros; lia| | |].
  - intros i _ Hi IH. sstep. apply (wp_rd n0); [lia|]. sstep. apply (wp_rd n0); [lia|].
    destruct (_ >' _) eqn:G; cbn [wp].
    + exists ln, un, i. repeat split; auto; lia.
    + intros k Hk. destruct (Z.eq_dec k i) as [->|]; [exact G|apply IH; lia].
  - intros _ IH. cbn. left. split; [reflexivity|]. intros (l & u & i & X & Y & Hi & G). injection X as <-. injection Y as <-.
    rewrite IH in G by lia. discriminate.
  - intros _ C. cbn. right. auto.
Qed.

(** [fuel] bounds the number of enlargements of the far bounds *)
Definition fuel_ok (n : Z) (o : options N) (fuel : nat) : Prop := o_enableFarBounds o = true -> forall lbn ubn far,
  extendFar lbn ubn n (o_initialFarBounds o) = Ok far -> grows (o_growFarBounds o) fuel far.
Lemma fuel_frame n o o' fuel : oframe o o' -> fuel_ok n o fuel -> fuel_ok n o' fuel.
Proof. intros [e ->] H. exact H. Qed.

Definition callable (guess : option subjectTo) (s : qpb) : Prop :=
  q_status s = QPS_NOTINITIALISED -> hk s \/ (guess = None /\ o_enableRegularisation (q_opts s) = false).
Definition status0 (guess : option subjectTo) (s : qpb) : QProblemStatus := match guess with None => q_status s | Some _ => QPS_AUXILIARYQPSOLVED end.
Definition unmoved (nWSR : Z) (s : qpb) k (s' : qpb) : Prop := k = nWSR /\ q_wsc s' = q_wsc s /\ q_unbounded s' = q_unbounded s.

Lemma setupInitialCholesky_have (s s' : qpb) : setupInitialCholesky s = Ok (SUCCESSFUL_RETURN, s') -> q_haveChol s' = true.
Proof.
  unfold setupInitialCholesky. intros H. apply bind_ok in H as (fv & _ & H). apply bind_ok in H as ([r s1] & _ & H).
  destruct (negb _) in H; [discriminate|]. apply bind_ok in H as ([rc s2] & _ & H). cbv zeta in H.
  destruct (rc =r? RET_HESSIAN_NOT_SPD).
  - apply bind_ok in H as ([r3 s3] & _ & H). destruct (negb _) in H; [discriminate|]. apply bind_ok in H as ([rc4 s4] & _ & H).
    destruct (negb _) in H; [discriminate|]. injection H as <-. reflexivity.
  - destruct (negb _) in H; [discriminate|]. injection H as <-. reflexivity.
Qed.
Lemma wp_eq {A} (m : res A) P : wp m P -> wp m (fun x => P x /\ m = Ok x).
Proof. destruct m; cbn; auto. Qed.

Section Cpu.
Variable cpu : Z -> bool.
Definition hs_post n (lbn ubn : option arr) (nWSR : Z) (guess : option subjectTo) (s : qpb) (r : returnValue) (k : Z) (s' : qpb) : Prop :=
  (guess <> None /\ r = RET_SETUP_AUXILIARYQP_FAILED /\ unmoved nWSR s k s' /\ q_status s' = QPS_PREPARINGAUXILIARYQP /\ q_infeasible s' = q_infeasible s) \/
  (crossed n lbn ubn /\ r = SUCCESSFUL_RETURN /\ unmoved nWSR s k s' /\ q_status s' = status0 guess s /\ q_infeasible s' = true) \/
  (~ crossed n lbn ubn /\ q_haveChol s = false /\ r <> SUCCESSFUL_RETURN /\ r <> RET_MAX_NWSR_REACHED /\ unmoved nWSR s k s' /\ q_status s' = status0 guess s /\ q_infeasible s' = q_infeasible s) \/
  (~ crossed n lbn ubn /\ ~ accepted (status0 guess s) /\ (r = RET_HOTSTART_FAILED_AS_QP_NOT_INITIALISED \/ r = RET_HOTSTART_STOPPED_INFEASIBILITY) /\
     unmoved nWSR s k s' /\ q_status s' = status0 guess s /\ q_infeasible s' = q_infeasible s) \/
  (~ crossed n lbn ubn /\ exists s1, q_status s1 = status0 guess s /\ q_wsc s1 = q_wsc s /\ q_haveChol s' = true /\
     (guess = None -> q_haveChol s = true -> s1 = set_q_count (q_count s + 1) s) /\ ran cpu nWSR 0 s1 r k s').
Definition kept (s s' : qpb) : Prop := q_freeH s' = q_freeH s /\ oframe (q_opts s) (q_opts s') /\ hframe (q_htype s) (q_htype s').

Lemma hotstart_safe n (s : qpb) fuel (gn : arr) lbn ubn nWSR guess : qok n s -> callable guess s -> fuel_ok n (q_opts s) fuel ->
  n <= zlen gn -> olen n lbn -> olen n ubn -> (forall gb, guess = Some gb -> gwf gb) ->
  wp (hotstart junk cpu fuel gn lbn ubn nWSR guess s) (fun '(r, k, s') => qok n s' /\ kept s s' /\ hs_post n lbn ubn nWSR guess s r k s').
Proof.
  intros (l0 & l1 & W & V & HK) CA FU Hg Hl Hu HG. unfold hotstart. rewrite (w_nv _ _ _ _ W). pose proof (w_n _ _ _ _ W) as Hn.
  destruct (Z.eqb_spec n 0); [lia|].
  sstep. eapply wp_mono with (P := fun '(r, s1) => qok n s1 /\ sfr s s1 /\ q_infeasible s1 = q_infeasible s /\ q_unbounded s1 = q_unbounded s /\ q_wsc s1 = q_wsc s /\
     ((r = SUCCESSFUL_RETURN /\ q_status s1 = status0 guess s /\ (guess = None -> s1 = s)) \/ (guess <> None /\ r = RET_SETUP_AUXILIARYQP_FAILED /\ q_status s1 = QPS_PREPARINGAUXILIARYQP))).
  { destruct guess as [gb|].
    - assert (K : hk s).
      { destruct (qps_eq_dec (q_status s) QPS_NOTINITIALISED) as [E|E]; [|now apply HK]. destruct (CA E) as [K|[X _]]; [exact K|discriminate X]. }
      sstep. eapply wp_mono; [apply (setupAuxiliaryQP_safe junk J n s l0 l1 gb W K (HG gb eq_refl))|]. intros [r s1] (_ & F & S & W1).
      pose proof (hk_frame _ _ F K) as K1. destruct S.
      destruct (r =r? SUCCESSFUL_RETURN); cbn [negb wp].
      + split; [apply qok_intro; [eapply owf_same; [|exact W1]; samearr|discriminate|exact K1]|]. split; [destruct F; frm|].
        split; [exact f_inf|]. split; [exact f_unb|]. split; [exact f_wsc|]. left. split; [reflexivity|]. split; [reflexivity|discriminate].
      + split; [apply qok_intro; [exact W1|rewrite f_stat; discriminate|exact K1]|]. split; [exact F|].
        split; [exact f_inf|]. split; [exact f_unb|]. split; [exact f_wsc|]. right. split; [discriminate|]. split; [reflexivity|exact f_stat].
    - cbn. split; [exists l0, l1; auto|]. split; [auto|]. split; [auto|]. split; [auto|]. split; [auto|]. left. auto. }
  intros [r s1] (OK1 & F1 & I1 & U1 & C1 & H1).
  assert (KP : kept s s1) by (destruct F1; split; [auto|split; auto]).
  destruct H1 as [(-> & Q1 & E1)|(GN & -> & Q1)].
  2:{ cbn. split; [exact OK1|]. split; [exact KP|]. left. unfold unmoved. auto 8. }
  change (negb (SUCCESSFUL_RETURN =r? SUCCESSFUL_RETURN)) with false. cbn iota.
  destruct OK1 as (m0 & m1 & W1 & V1 & K1).
  sstep. eapply wp_mono; [apply (areBoundsConsistent_ok n s1 lbn ubn); auto; [exact (w_nv _ _ _ _ W1)|lia]|].
  intros rc [(-> & NC)|(-> & CR)].
  2:{ cbn. split; [exists m0, m1; split; [apply (wf_same n s1); [exact W1|samearr]|]; split; [exact V1|exact K1]|]. split; [exact KP|].
      right; left. unfold unmoved; cbn. auto 9. }
  change (negb (SUCCESSFUL_RETURN =r? SUCCESSFUL_RETURN)) with false. cbn iota zeta.
  set (s2 := set_q_count _ s1).
  assert (W2 : qwf n s2 m0 m1) by (apply (wf_same n s1); [exact W1|samearr]).
  assert (X2 : q_status s2 = q_status s1 /\ q_infeasible s2 = q_infeasible s1 /\ q_unbounded s2 = q_unbounded s1 /\ q_wsc s2 = q_wsc s1 /\ q_freeH s2 = q_freeH s1) by (cbn; auto).
  destruct X2 as (Qs2 & Is2 & Us2 & Cs2 & Fs2).
  assert (HC : q_haveChol s2 = q_haveChol s) by (cbn; apply F1).
  sstep. eapply wp_mono with (P := fun '(r, s3) => qwf n s3 m0 m1 /\ (q_status s3 <> QPS_NOTINITIALISED -> hk s3) /\ q_bounds s3 = q_bounds s2 /\ cfr s2 s3 /\ sst s2 s3 /\ r <> RET_MAX_NWSR_REACHED /\
      (r <> SUCCESSFUL_RETURN -> q_haveChol s = false) /\ (r = SUCCESSFUL_RETURN -> q_haveChol s3 = true) /\ (q_haveChol s = true -> s3 = s2)).
  { destruct (q_haveChol s2) eqn:HC2.
    - cbn. split; [exact W2|]. split; [exact K1|]. split; [auto|]. split; [auto|]. split; [auto|]. split; [discriminate|]. split; [congruence|auto].
    - destruct (qps_eq_dec (q_status s1) QPS_NOTINITIALISED) as [E|E].
      + assert (GN : guess = None) by (destruct guess; auto; cbn in Q1; congruence). specialize (E1 GN). subst s1.
        destruct (CA E) as [K|(_ & ER)].
        * eapply wp_mono; [apply wp_eq, (setupInitialCholesky_safe n s2 m0 m1 W2 K)|]. intros [r s3] ((A & B & C & D & X) & EQ).
          split; [exact A|]. split; [auto|]. split; [apply C|]. split; [exact C|]. split; [exact D|]. split; [exact X|]. split; [congruence|]. split; [intros ->; eapply setupInitialCholesky_have; exact EQ|congruence].
        * destruct (V1 E) as (-> & -> & _). eapply wp_mono; [apply wp_eq, (setupInitialCholesky_safe0 n s2 [] W2 ER)|]. intros [r s3] ((A & C & D & X) & EQ).
          split; [exact A|]. split; [intros Y; exfalso; apply Y; destruct D; cbn in *; congruence|]. split; [apply C|]. split; [exact C|]. split; [exact D|]. split; [exact X|]. split; [congruence|]. split; [intros ->; eapply setupInitialCholesky_have; exact EQ|congruence].
      + eapply wp_mono; [apply wp_eq, (setupInitialCholesky_safe n s2 m0 m1 W2 (K1 E))|]. intros [r s3] ((A & B & C & D & X) & EQ).
        split; [exact A|]. split; [auto|]. split; [apply C|]. split; [exact C|]. split; [exact D|]. split; [exact X|]. split; [congruence|]. split; [intros ->; eapply setupInitialCholesky_have; exact EQ|congruence]. }
  intros [r s3] (W3 & K3 & B3 & C3 & S3 & NM & HCr & HCs & HC3).
  assert (KP3 : kept s s3).
  { destruct KP as (Ka & Kb & Kc), C3. split; [congruence|]. split; [eapply oframe_trans; [exact Kb|exact c_o]|eapply hframe_trans; [exact Kc|exact c_h]]. }
  assert (Q3 : q_status s3 = status0 guess s) by (destruct S3; cbn in *; congruence).
  assert (V3 : q_status s3 = QPS_NOTINITIALISED -> m0 = [] /\ m1 = [] /\ virgin n s3).
  { intros E. destruct (V1 ltac:(destruct S3; cbn in *; congruence)) as (A & B & C). split; [exact A|]. split; [exact B|]. intros i Hi. rewrite B3. now apply C. }
  assert (OK3 : qok n s3) by (exists m0, m1; auto).
  assert (UM : q_infeasible s3 = q_infeasible s /\ q_unbounded s3 = q_unbounded s /\ q_wsc s3 = q_wsc s) by (destruct S3; cbn in *; repeat split; congruence).
  destruct UM as (I3 & U3 & X3).
  destruct (r =r? SUCCESSFUL_RETURN) eqn:Er; cbn [negb].
  2:{ cbn. split; [exact OK3|]. split; [exact KP3|]. right; right; left. apply rv_eqb_neq in Er. unfold unmoved. repeat split; auto. }
  apply rv_eqb_eq in Er. specialize (HCs Er).
  assert (TR : forall rr k s', owf n s' -> sfr s3 s' -> (rejected nWSR s3 rr k s' \/ ran cpu nWSR 0 s3 rr k s') ->
     qok n s' /\ kept s s' /\ hs_post n lbn ubn nWSR guess s rr k s').
  { intros rr k s' Wx Fx Hx.
    assert (KPx : kept s s') by (destruct KP3 as (Ka & Kb & Kc), Fx; split; [congruence|split; [eapply oframe_trans; eauto|eapply hframe_trans; eauto]]).
    destruct Hx as [(NA & -> & Hr & o & ->)|RN].
    - split; [exists m0, m1; split; [apply (wf_same n s3); [exact W3|samearr]|]; split; [exact V3|exact K3]|]. split; [exact KPx|].
      right; right; right; left. unfold unmoved; cbn. rewrite <- Q3. repeat split; auto.
    - assert (AC : accepted (q_status s3)) by apply RN. specialize (K3 (accepted_init _ AC)).
      split; [apply qok_intro; [exact Wx| |exact (hk_frame _ _ Fx K3)]|].
      + destruct RN as (_ & _ & _ & [(_ & -> & _)|[(_ & _ & _ & _ & Qa & Qb)|[(_ & _ & -> & _)|(_ & _ & -> & _)]]]); try discriminate.
        destruct (Z.le_gt_cases k 0) as [Hk|Hk]; [|rewrite (Qb Hk); discriminate].
        destruct (Qa Hk) as [-> | [_ ->]]; [now apply accepted_init|discriminate].
      + split; [exact KPx|]. right; right; right; right. split; [exact NC|]. exists s3. split; [exact Q3|]. split; [exact X3|]. split; [destruct Fx; congruence|]. split; [|exact RN].
        intros GN HT. rewrite (HC3 HT). unfold s2. now rewrite (E1 GN). }
  assert (KA : accepted (q_status s3) -> hk s3) by (intros A; apply K3, accepted_init, A).
  destruct (o_enableFarBounds (q_opts s3)) eqn:EF; cbn [negb].
  - rewrite (w_nv _ _ _ _ W3).
    assert (XS := extendFar_safe n lbn ubn (o_initialFarBounds (q_opts s3)) Hl Hu).
    destruct (extendFar lbn ubn n (o_initialFarBounds (q_opts s3))) as [far| |] eqn:EX; cbn in XS; [|contradiction|contradiction]. cbn [bind].
    sstep. eapply wp_mono; [apply (updateFarBounds_safe far n lbn ubn s3 (junk n) (junk n) n); auto; [exact (w_nv _ _ _ _ W3)|apply J; lia|apply J; lia]|].
    intros [lf uf] (L1 & L2). eapply wp_mono; [apply (farLoop_safe junk J cpu n fuel s3 gn lbn ubn nWSR 0 far lf uf (qok_owf _ _ OK3) KA Hg Hl Hu L1 L2)|].
    + destruct KP3 as (_ & Ko & _). apply (fuel_frame _ _ _ _ Ko FU EF lbn ubn far EX).
    + intros [[rr k] s'] (A & B & C). now apply TR.
  - eapply wp_mono; [apply (solveRegularisedQP_safe junk J cpu n s3 gn lbn ubn nWSR 0 (qok_owf _ _ OK3) KA Hg Hl Hu)|].
    intros [[rr k] s'] (A & B & C). apply TR; auto. destruct C as [(NA & -> & -> & ->)|(RN & _)]; [left|right; exact RN].
    split; [exact NA|]. split; [reflexivity|]. split; [auto|]. exists (q_rampOffset s3). destruct s3; reflexivity.
Qed.

(** ** init *)
Definition harg_ok n (h : harg N) : Prop :=
  match h with HMat None => True | HMat (Some M) => msafe n M | HArr None => True | HArr (Some a) => n * n <= zlen a end.
Definition xwf n (s : qpb) : Prop := qwf n s [] [] /\ virgin n s.

(** the vector a call takes from its argument *)
Definition taken n (src : option arr) (dflt : N) : arr :=
  match src with Some a => firstn (Z.to_nat n) a | None => repeat dflt (Z.to_nat n) end.
Lemma zlen_taken n src dflt : 0 <= n -> olen n src -> zlen (taken n src dflt) = n.
Proof.
  intros Hn Hs. unfold taken, zlen. destruct src as [a|]; cbn in Hs; [|rewrite repeat_length; lia]. unfold zlen in Hs. rewrite firstn_length. lia.
Qed.
Lemma setVec_ok n (dst : arr) src dflt : 0 <= n -> zlen dst = n -> olen n src -> setVec dst src n dflt = Ok (taken n src dflt).
Proof.
  intros Hn Hd Hs. unfold setVec, taken. destruct src as [a|]; cbn in Hs.
  - unfold memcpy. destruct (Z.ltb_spec (zlen a) n); [lia|]. destruct (Z.ltb_spec (zlen dst) n); [lia|]. cbn.
    unfold zlen in *. rewrite skipn_all2 by lia. now rewrite app_nil_r.
  - apply wp_inv_eq. apply wp_for_up with (I := fun i x => zlen x = n /\ forall k, 0 <= k < i -> zn dflt x k = dflt); [lia|split; [auto|intros; lia]| |].
    + intros i x Hi (Lx & A). apply wp_wr; [lia|]. rewrite zlen_zupd. split; [exact Lx|]. intros k Hk. rewrite zn_zupd by lia.
      destruct (Z.eqb_spec k i); [reflexivity|]. apply A. lia.
    + intros x (Lx & A). apply (list_ext_zn dflt); [rewrite zlen_repeat; lia|]. intros k Hk. rewrite A by lia. symmetry. apply zn_repeat. lia.
Qed.
Lemma copy_eq n (src dst : arr) : 0 <= n -> zlen src = n -> zlen dst = n -> for_up 0 n (fun i a => v <- rd src i ;; wr a i v) dst = Ok src.
Proof.
  intros Hn Hs Hd. apply wp_inv_eq. apply wp_for_up with (I := fun i x => zlen x = n /\ forall k, 0 <= k < i -> zn n0 x k = zn n0 src k); [lia|split; [auto|intros; lia]| |].
  + intros i x Hi (Lx & A). sstep. apply (wp_rd n0); [lia|]. apply wp_wr; [lia|]. rewrite zlen_zupd. split; [exact Lx|]. intros k Hk. rewrite zn_zupd by lia.
    destruct (Z.eqb_spec k i); [subst; reflexivity|]. apply A. lia.
  + intros x (Lx & A). apply (list_ext_zn n0); [lia|]. intros k Hk. apply A; lia.
Qed.
Lemma setH_ok n h (s : qpb) : xwf n s -> harg_ok n h -> xwf n (qb_setH h s).
Proof.
  intros (W & V) Hh. pose proof (w_n _ _ _ _ W) as Hn. unfold qb_setH. destruct h as [[M|]|[a|]]; cbn in Hh.
  - split; [|exact V]. destruct W. constructor; cbn; auto. intros M' [= <-]. exact Hh.
  - split; [|exact V]. destruct W. constructor; cbn; auto. discriminate.
  - split; [|exact V]. pose proof (w_nv _ _ _ _ W) as E. destruct W. constructor; cbn; auto. intros M [= <-]. split; [exact Hn|]. rewrite E. repeat split; cbn; nia.
  - destruct (is_hst _ _); [split; auto|]. split; [|exact V]. destruct W. constructor; cbn; auto. discriminate.
Qed.
Lemma setH_frame h (s : qpb) : q_status (qb_setH h s) = q_status s /\ q_wsc (qb_setH h s) = q_wsc s /\ q_opts (qb_setH h s) = q_opts s /\
  q_infeasible (qb_setH h s) = q_infeasible s /\ q_unbounded (qb_setH h s) = q_unbounded s.
Proof. unfold qb_setH. destruct h as [[M|]|[a|]]; try destruct (is_hst _ _); cbn; auto. Qed.

Definition same_run (s s' : qpb) : Prop := q_wsc s' = q_wsc s /\ q_infeasible s' = q_infeasible s /\ q_unbounded s' = q_unbounded s.
Definition same_rd (s s' : qpb) : Prop := same_run s s' /\ q_g s' = q_g s /\ q_lb s' = q_lb s /\ q_ub s' = q_ub s.
Lemma setupQPdata_ok n h g lb ub (s : qpb) : xwf n s -> harg_ok n h -> olen n g -> olen n lb -> olen n ub ->
  wp (setupQPdata h g lb ub s) (fun '(r, s') => xwf n s' /\ q_status s' = q_status s /\ same_run s s' /\ q_opts s' = q_opts s /\
    ((r = RET_INVALID_ARGUMENTS /\ g = None) \/
     (r = SUCCESSFUL_RETURN /\ g <> None /\ s' = set_q_ub (taken n ub nINFTY) (set_q_lb (taken n lb (-' nINFTY)) (set_q_g (taken n g n0) (qb_setH h s)))))).
Proof.
  intros W Hh Hg Hl Hu. unfold setupQPdata. pose proof (setH_ok n h s W Hh) as W1. destruct (setH_frame h s) as (A & B & C & D & E).
  set (s1 := qb_setH h s) in *. clearbody s1. destruct W1 as (W1 & V1).
  destruct g as [g|]; [|cbn; unfold xwf, same_run; tauto].
  pose proof (w_n _ _ _ _ W1) as Hn. rewrite (w_nv _ _ _ _ W1).
  rewrite (setVec_ok n (q_g s1) (Some g)), (setVec_ok n (q_lb s1) lb), (setVec_ok n (q_ub s1) ub); auto; try lia; try apply W1.
  cbn [bind wp]. split; [split; [|exact V1]; apply wf_set_ub; [apply wf_set_lb; [apply wf_set_g|]|]; auto; apply zlen_taken; auto; lia|].
  split; [exact A|]. split; [unfold same_run; cbn; tauto|]. split; [exact C|]. right. split; [reflexivity|]. split; [discriminate|reflexivity].
Qed.

Lemma copyR_ok n (s : qpb) l0 l1 Rin xOpt yOpt guess : qwf n s l0 l1 -> olen (n * n) Rin ->
  wp (copyR Rin xOpt yOpt guess s) (fun s' => qwf n s' l0 l1 /\ exists R b, s' = set_q_haveChol b (set_q_R R s)).
Proof.
  intros W HR. unfold copyR. pose proof (w_n _ _ _ _ W) as Hn.
  assert (W1 : qwf n (set_q_haveChol false s) l0 l1) by (apply (wf_same n s); [exact W|samearr]).
  assert (ID : wp (Ok (set_q_haveChol false s)) (fun s' => qwf n s' l0 l1 /\ exists R b, s' = set_q_haveChol b (set_q_R R s))).
  { cbn. split; [exact W1|]. exists (q_R s), false. destruct s; reflexivity. }
  destruct Rin as [r|]; [|exact ID]. cbn in HR. destruct (negb _); [exact ID|]. destruct xOpt, yOpt, guess; try exact ID.
  rewrite (w_nv _ _ _ _ W1). sstep. apply wp_for_inv with (I := fun R => zlen R = n * n); [apply W| |].
  - intros i R Hi LR. apply wp_for_inv with (I := fun R => zlen R = n * n); auto. intros k R' Hk LR'. sstep. sstep; [nia|].
    apply wp_wrv; [rewrite LR'; nia|congruence].
  - intros R LR. cbn [wp]. split; [apply (wf_same n (set_q_R R s)); [now apply wf_set_R|samearr]|]. exists R, true. reflexivity.
Qed.

(** options the solver may change by itself *)
Definition optframe (o o' : options N) : Prop := exists e, oframe o e /\ (o' = e \/ o' = set_o_numRegularisationSteps 1 (set_o_enableRegularisation true e)).
Lemma fuel_opt n o o' fuel : optframe o o' -> fuel_ok n o fuel -> fuel_ok n o' fuel.
Proof. intros (e & [x ->] & [-> | ->]) H; exact H. Qed.

Definition prep_fail (r : returnValue) (st : QProblemStatus) : Prop :=
  (r = RET_INIT_FAILED \/ r = RET_INIT_FAILED_REGULARISATION) /\ (st = QPS_NOTINITIALISED \/ st = QPS_PREPARINGAUXILIARYQP).

Lemma prepareInitial_ok n (s : qpb) xOpt yOpt guess Rin : xwf n s -> olen n xOpt -> olen n yOpt -> olen (n * n) Rin -> (forall gb, guess = Some gb -> gwf gb) ->
  wp (prepareInitial junk xOpt yOpt guess Rin s) (fun '(r, (g0, lb0, ub0), s') => qok n s' /\ same_run s s' /\ optframe (q_opts s) (q_opts s') /\
    ((r = SUCCESSFUL_RETURN /\ q_status s' = QPS_AUXILIARYQPSOLVED /\ g0 = q_g s /\ lb0 = q_lb s /\ ub0 = q_ub s) \/ prep_fail r (q_status s'))).
Proof.
  intros (W & V) Hx Hy HR HG. pose proof (w_n _ _ _ _ W) as Hn. unfold prepareInitial. cbv zeta.
  set (s0 := set_q_status QPS_NOTINITIALISED s).
  assert (W0 : qwf n s0 [] []) by (apply (wf_same n s); [exact W|samearr]).
  sstep. eapply wp_mono; [apply (determineHessianType_safe n s0 [] [] W0)|]. intros [r s1] (W1 & K1 & h & o & E1 & Ho).
  assert (S1 : same_rd s s1 /\ optframe (q_opts s) (q_opts s1) /\ q_status s1 = QPS_NOTINITIALISED /\ virgin n s1).
  { subst s1. split; [split; [split|]; auto|]. split; [exists (q_opts s); split; [auto|exact Ho]|]. split; [reflexivity|exact V]. }
  clear E1 Ho h o. destruct S1 as (S1 & O1 & Q1 & V1).
  destruct (r =r? SUCCESSFUL_RETURN); cbn [negb].
  2:{ cbn. split; [exists [], []; auto|]. split; [apply S1|]. split; [exact O1|]. right. split; auto. }
  sstep. eapply wp_mono; [apply (setupSubjectToType_safe n s1 [] [] _ _ W1); cbn; [rewrite (w_lb _ _ _ _ W1)|rewrite (w_ub _ _ _ _ W1)]; lia|].
  intros s2 (W2 & b2 & E2 & B2).
  set (s3 := set_q_status QPS_PREPARINGAUXILIARYQP s2).
  assert (W3 : qwf n s3 [] []) by (apply (wf_same n s2); [exact W2|samearr]).
  assert (K3 : hk s3) by (subst s3 s2; exact K1).
  assert (S3 : same_rd s s3 /\ optframe (q_opts s) (q_opts s3) /\ q_status s3 = QPS_PREPARINGAUXILIARYQP).
  { subst s3 s2. split; [exact S1|]. split; [exact O1|reflexivity]. }
  destruct S3 as (S3 & O3 & Q3).
  assert (U3 : virgin n s3). { intros i Hi. subst s3 s2. cbn. destruct B2 as (_ & -> & _). now apply V1. }
  clearbody s3. clear s2 W2 E2 B2 b2 s1 W1 K1 S1 O1 Q1 V1 s0 W0.
  assert (FAIL : forall r' s', r' = RET_INIT_FAILED \/ r' = RET_INIT_FAILED_REGULARISATION -> owf n s' -> hk s' -> same_run s s' -> optframe (q_opts s) (q_opts s') -> q_status s' = QPS_PREPARINGAUXILIARYQP ->
     wp (Ok (r', (@nil N, @nil N, @nil N), s')) (fun '(r, (g0, lb0, ub0), s') => qok n s' /\ same_run s s' /\ optframe (q_opts s) (q_opts s') /\
    ((r = SUCCESSFUL_RETURN /\ q_status s' = QPS_AUXILIARYQPSOLVED /\ g0 = q_g s /\ lb0 = q_lb s /\ ub0 = q_ub s) \/ prep_fail r (q_status s')))).
  { intros r' s' Hr' Wx Kx Sx Ox Qx. cbn. split; [apply qok_intro; auto; congruence|]. split; [exact Sx|]. split; [exact Ox|]. right. split; auto. }
  sstep. eapply wp_mono; [apply (setupAll_safe n s3 W3 U3)|]. intros [r4 b] (-> & W4 & I4 & M4).
  change (negb (SUCCESSFUL_RETURN =r? SUCCESSFUL_RETURN)) with false. cbn iota.
  set (s4 := set_q_bounds b s3) in *. set (m0 := setup_order _) in *.
  assert (K4 : hk s4) by exact K3. assert (S4 : same_rd s s4) by exact S3. assert (O4 : optframe (q_opts s) (q_opts s4)) by exact O3.
  assert (Q4 : q_status s4 = QPS_PREPARINGAUXILIARYQP) by exact Q3.
  clearbody s4 m0. clear M4.
  sstep. eapply wp_mono; [apply (setupAuxiliaryQPsolution_safe n s4 m0 [] xOpt yOpt W4 Hx Hy)|]. intros s5 (W5 & x5 & y5 & E5).
  assert (S5 : hk s5 /\ same_rd s s5 /\ optframe (q_opts s) (q_opts s5) /\ q_status s5 = QPS_PREPARINGAUXILIARYQP) by (subst s5; auto).
  clear E5. destruct S5 as (K5 & S5 & O5 & Q5).
  sstep. eapply wp_mono; [apply (obtainAux_safe n s5 m0 [] xOpt yOpt guess W5 Hx Hy HG)|]. intros [r6 aux] HA.
  destruct (r6 =r? SUCCESSFUL_RETURN) eqn:E6; cbn [negb]; [|apply FAIL; auto; [exists m0, []; exact W5|apply S5]].
  apply rv_eqb_eq in E6. destruct (HA E6) as (An & Aw & As). clear HA E6 r6.
  assert (GA : gwf aux). { split; [exact Aw|]. intros i Hi. rewrite An in Hi. destruct (As i Hi) as [-> | X]; unfold good_status; auto. }
  sstep. eapply wp_mono; [apply (setupAuxiliaryWorkingSet_safe junk J n s5 m0 [] aux true W5 K5 GA Q5)|]. intros [r7 s7] (WS & _ & _).
  destruct (ws_only_frames _ _ _ WS) as (F7 & T7). destruct WS as (p0 & p1 & b7 & R7 & f7 & W7 & E7 & _).
  assert (S7 : hk s7 /\ same_rd s s7 /\ optframe (q_opts s) (q_opts s7) /\ q_status s7 = QPS_PREPARINGAUXILIARYQP) by (subst s7; auto).
  clear E7 F7 T7. destruct S7 as (K7 & S7 & O7 & Q7).
  destruct (r7 =r? SUCCESSFUL_RETURN); cbn [negb]; [|apply FAIL; auto; [exists p0, p1; exact W7|apply S7]].
  sstep. eapply wp_mono with (P := fun '(r, s8) => qwf n s8 p0 p1 /\ hk s8 /\ same_rd s s8 /\ optframe (q_opts s) (q_opts s8) /\ q_status s8 = QPS_PREPARINGAUXILIARYQP).
  { destruct (_ || _); [|cbn; auto]. eapply wp_mono; [apply (regulariseHessian_safe n s7 p0 p1 W7 K7)|]. intros [r8 s8] (W8 & K8 & v & M & E8 & _).
    split; [exact W8|]. split; [exact K8|]. subst s8. auto. }
  intros [r8 s8] (W8 & K8 & S8 & O8 & Q8).
  destruct (r8 =r? SUCCESSFUL_RETURN); cbn [negb]; [|apply FAIL; auto; [exists p0, p1; exact W8|apply S8]].
  sstep. eapply wp_mono; [apply (copyR_ok n s8 p0 p1 Rin xOpt yOpt guess W8 HR)|]. intros s9 (W9 & R9 & b9 & E9).
  assert (S9 : hk s9 /\ same_rd s s9 /\ optframe (q_opts s) (q_opts s9) /\ q_status s9 = QPS_PREPARINGAUXILIARYQP) by (subst s9; auto).
  clear E9. destruct S9 as (K9 & S9 & O9 & Q9).
  rewrite (w_nv _ _ _ _ W9). pose proof (J n ltac:(lia)) as Jn.
  rewrite (copy_eq n (q_g s9)), (copy_eq n (q_lb s9)), (copy_eq n (q_ub s9)); auto; try lia; try apply W9. cbn [bind].
  destruct S9 as (S9 & -> & -> & ->).
  sstep. eapply wp_mono; [apply (setupAuxiliaryQPgradient_safe n s9 p0 p1 W9 K9)|]. intros s10 (W10 & g10 & E10).
  assert (S10 : hk s10 /\ same_run s s10 /\ optframe (q_opts s) (q_opts s10) /\ q_status s10 = QPS_PREPARINGAUXILIARYQP) by (subst s10; auto).
  clear E10. destruct S10 as (K10 & S10 & O10 & Q10).
  sstep. eapply wp_mono; [apply (setupAuxiliaryQPbounds_safe n s10 p0 p1 true W10)|]. intros [r11 s11] (W11 & lb11 & ub11 & E11).
  assert (S11 : hk s11 /\ same_run s s11 /\ optframe (q_opts s) (q_opts s11) /\ q_status s11 = QPS_PREPARINGAUXILIARYQP) by (subst s11; auto).
  clear E11. destruct S11 as (K11 & S11 & O11 & Q11).
  destruct (r11 =r? SUCCESSFUL_RETURN); cbn [negb]; [|apply FAIL; auto; exists p0, p1; exact W11].
  cbn [wp]. split; [apply qok_intro; [eapply owf_same; [|exists p0, p1; exact W11]; samearr|discriminate|exact K11]|].
  split; [exact S11|]. split; [exact O11|]. left. auto.
Qed.

Definition init_post n (lb ub : option arr) nWSR (s : qpb) (r : returnValue) (k : Z) (s' : qpb) : Prop :=
  let cross := crossed n (Some (taken n lb (-' nINFTY))) (Some (taken n ub nINFTY)) in
  ((r = RET_INVALID_ARGUMENTS \/ r = RET_NO_CHOLESKY_WITH_INITIAL_GUESS \/ r = RET_INIT_FAILED \/ r = RET_INIT_FAILED_REGULARISATION) /\
     k = nWSR /\ q_wsc s' = q_wsc s /\ (q_status s' = QPS_NOTINITIALISED \/ q_status s' = QPS_PREPARINGAUXILIARYQP)) \/
  (cross /\ r = RET_INIT_FAILED_INFEASIBILITY /\ q_infeasible s' = true /\
     k = nWSR /\ q_wsc s' = q_wsc s /\ q_status s' = QPS_AUXILIARYQPSOLVED) \/
  (~ cross /\ (r = RET_INIT_FAILED_INFEASIBILITY \/ r = RET_INIT_FAILED_UNBOUNDEDNESS \/ r = RET_INIT_FAILED_HOTSTART) /\
     k = nWSR /\ q_wsc s' = q_wsc s /\ q_status s' = QPS_AUXILIARYQPSOLVED) \/
  (~ cross /\ exists s1 r1, q_status s1 = QPS_AUXILIARYQPSOLVED /\ q_wsc s1 = q_wsc s /\ ran cpu nWSR 0 s1 r1 k s' /\ q_haveChol s' = true /\
     r = (if q_unbounded s' then RET_INIT_FAILED_UNBOUNDEDNESS
          else if (r1 =r? SUCCESSFUL_RETURN) || (r1 =r? RET_MAX_NWSR_REACHED) then r1 else RET_INIT_FAILED_HOTSTART)).

Lemma optframe_o o o' e : optframe o o' -> oframe o' e -> optframe o e.
Proof.
  intros (a & [x ->] & [-> | ->]) [y ->].
  - exists (set_o_epsRegularisation y o). split; [exists y; reflexivity|left; reflexivity].
  - exists (set_o_epsRegularisation y o). split; [exists y; reflexivity|right; reflexivity].
Qed.

Lemma guessDefined_ok guess n : (forall gb, guess = Some gb -> gwf gb) -> wp (guessDefined guess n) (fun _ => True).
Proof.
  intros HG. unfold guessDefined. destruct guess as [gb|]; [|exact I]. sstep.
  apply wp_forb_inv with (I := fun _ => True) (J := fun _ => True); try (intros; exact I).
  intros i _ Hi _. sstep. eapply wp_mono; [apply gwf_status; auto|]. intros v _. sstep; exact I.
Qed.

Lemma init_safe n (s : qpb) fuel h g lb ub nWSR xOpt yOpt guess Rin : qok n s -> fuel_ok n (q_opts s) fuel ->
  harg_ok n h -> olen n g -> olen n lb -> olen n ub -> olen n xOpt -> olen n yOpt -> olen (n * n) Rin -> (forall gb, guess = Some gb -> gwf gb) ->
  wp (qb_init junk cpu fuel h g lb ub nWSR xOpt yOpt guess Rin s)
     (fun '(r, k, s') => qok n s' /\ optframe (q_opts s) (q_opts s') /\ init_post n lb ub nWSR s r k s').
Proof.
  intros OK FU Hh Hg Hl Hu Hx Hy HR HG. unfold qb_init.
  assert (Hn : 0 < n) by (destruct OK as (? & ? & [] & _); auto).
  assert (NV : nV s = n) by (destruct OK as (l0 & l1 & W & _); exact (w_nv _ _ _ _ W)).
  rewrite NV. destruct (Z.eqb_spec n 0); [lia|].
  sstep. eapply wp_mono with (P := fun s1 => xwf n s1 /\ q_status s1 = QPS_NOTINITIALISED /\ q_wsc s1 = q_wsc s /\ q_opts s1 = q_opts s).
  { unfold isInitialised, is_qps. destruct (qps_eq_dec (q_status s) QPS_NOTINITIALISED) as [E|E]; cbn [negb].
    - cbn. destruct OK as (l0 & l1 & W & V & _). destruct (V E) as (-> & -> & U). split; [split; auto|]. auto.
    - sstep. eapply wp_mono; [apply (reset_ok n s OK)|]. intros [r s1] (_ & (l0 & l1 & W & V & _) & Q & _ & _ & C & O & _).
      destruct (V Q) as (-> & -> & U). cbn. split; [split; auto|]. auto. }
  intros s1 (W1 & Q1 & C1 & O1).
  assert (OKx : forall s', xwf n s' -> q_status s' = QPS_NOTINITIALISED -> qok n s').
  { intros s' (W' & V') Q'. exists [], []. split; [exact W'|]. split; [auto|intros; contradiction]. }
  assert (RFL : forall o : options N, optframe o o) by (intros o; exists o; auto).
  sstep. eapply wp_mono; [apply (guessDefined_ok guess _ HG)|]. intros ok _.
  assert (FAIL : forall r' s', (r' = RET_INVALID_ARGUMENTS \/ r' = RET_NO_CHOLESKY_WITH_INITIAL_GUESS \/ r' = RET_INIT_FAILED \/ r' = RET_INIT_FAILED_REGULARISATION) ->
     qok n s' -> optframe (q_opts s) (q_opts s') -> q_wsc s' = q_wsc s -> (q_status s' = QPS_NOTINITIALISED \/ q_status s' = QPS_PREPARINGAUXILIARYQP) ->
     wp (Ok (r', nWSR, s')) (fun '(r, k, s') => qok n s' /\ optframe (q_opts s) (q_opts s') /\ init_post n lb ub nWSR s r k s')).
  { intros r' s' Hr' A B C D. cbn. split; [exact A|]. split; [exact B|]. left. auto. }
  assert (OO : optframe (q_opts s) (q_opts s1)) by (rewrite O1; auto).
  destruct (negb ok); [apply FAIL; auto|].
  destruct (match xOpt with None => _ | Some _ => _ end); [apply FAIL; auto|].
  destruct (match Rin with None => _ | Some _ => _ end); [apply FAIL; auto|].
  sstep. eapply wp_mono; [apply (setupQPdata_ok n h g lb ub s1 W1 Hh Hg Hl Hu)|]. intros [r s2] (W2 & Q2 & (C2 & I2 & U2) & O2 & RS).
  destruct RS as [(-> & _)|(-> & _ & E2)]; [cbn [negb]; apply FAIL; auto; [apply OKx; auto; congruence|rewrite O2, O1; auto|congruence|left; congruence]|].
  change (negb (SUCCESSFUL_RETURN =r? SUCCESSFUL_RETURN)) with false. cbn iota.
  assert (EL : q_lb s2 = taken n lb (-' nINFTY) /\ q_ub s2 = taken n ub nINFTY) by (subst s2; auto). destruct EL as (EL & EU). clear E2.
  unfold solveInitialQP. sstep. eapply wp_mono; [apply (prepareInitial_ok n s2 xOpt yOpt guess Rin W2 Hx Hy HR HG)|].
  intros [[r3 [[g0 lb0] ub0]] s3] (OK3 & (C3 & I3 & U3) & O3 & H3).
  assert (OO3 : optframe (q_opts s) (q_opts s3)) by (rewrite <- O1, <- O2; exact O3).
  destruct H3 as [(-> & Q3 & -> & -> & ->)|(Hr & Hq)].
  2:{ assert (NE : (r3 =r? SUCCESSFUL_RETURN) = false) by (destruct Hr as [-> | ->]; reflexivity). rewrite NE. cbn [negb].
      apply FAIL; auto; try tauto; congruence. }
  change (negb (SUCCESSFUL_RETURN =r? SUCCESSFUL_RETURN)) with false. cbn iota.
  sstep. eapply wp_mono; [apply (hotstart_safe n s3 fuel (q_g s2) (Some (q_lb s2)) (Some (q_ub s2)) nWSR None OK3)|].
  - intros X. congruence.
  - eapply fuel_opt; [exact OO3|exact FU].
  - rewrite (w_g _ _ _ _ (proj1 W2)); lia.
  - cbn; rewrite (w_lb _ _ _ _ (proj1 W2)); lia.
  - cbn; rewrite (w_ub _ _ _ _ (proj1 W2)); lia.
  - discriminate.
  - rewrite EL, EU. intros [[r4 k] s4] (OK4 & (_ & KO & _) & H4).
    assert (OO4 : optframe (q_opts s) (q_opts s4)) by (eapply optframe_o; eauto).
    assert (C34 : q_wsc s3 = q_wsc s) by congruence.
    assert (FIN : forall r' : returnValue, init_post n lb ub nWSR s r' k s4 -> wp (Ok (r', k, s4)) (fun '(r, k, s') => qok n s' /\ optframe (q_opts s) (q_opts s') /\ init_post n lb ub nWSR s r k s')).
    { intros r' Hp. cbn. auto. }
    assert (CH : (negb (r4 =r? SUCCESSFUL_RETURN) && negb (r4 =r? RET_MAX_NWSR_REACHED)) = negb ((r4 =r? SUCCESSFUL_RETURN) || (r4 =r? RET_MAX_NWSR_REACHED)))
      by (destruct (_ =r? _), (_ =r? _); reflexivity). rewrite CH.
    destruct H4 as [(X & _)|[(CR & -> & (-> & X4 & _) & Q4 & I4)|[(NC & HC & N1 & N2 & (-> & X4 & _) & Q4 & I4)|[(NC & NA & _)|(NC & s5 & Q5 & C5 & HC5 & _ & RN)]]]].
    + congruence.
    + rewrite I4. apply FIN. right; left. cbn in Q4. repeat split; auto; congruence.
    + cbn in Q4. apply rv_eqb_neq in N1, N2. rewrite N1, N2. cbn [orb negb]. destruct (q_infeasible s4); [|destruct (q_unbounded s4)]; apply FIN; right; right; left; repeat split; auto; congruence.
    + exfalso. apply NA. cbn. rewrite Q3. unfold accepted; auto.
    + pose proof RN as (_ & I4 & _). rewrite I4. cbn in Q5.
      assert (GO : init_post n lb ub nWSR s (if q_unbounded s4 then RET_INIT_FAILED_UNBOUNDEDNESS
          else if (r4 =r? SUCCESSFUL_RETURN) || (r4 =r? RET_MAX_NWSR_REACHED) then r4 else RET_INIT_FAILED_HOTSTART) k s4).
      { right; right; right. split; [exact NC|]. exists s5, r4. split; [congruence|]. split; [congruence|]. split; [exact RN|]. split; [exact HC5|reflexivity]. }
      destruct (q_unbounded s4); [apply FIN; exact GO|].
      destruct (_ || _); apply FIN; exact GO.
Qed.
End Cpu.

(** ** getters *)
Lemma getPrimal_ok n (s : qpb) (x : arr) : qok n s -> n <= zlen x ->
  wp (getPrimalSolution s x) (fun '(r, a) => (r = SUCCESSFUL_RETURN /\ hasSolution s = true /\ zlen a = zlen x /\ (forall i, 0 <= i < n -> zn n0 a i = zn n0 (q_x s) i) /\
     (forall i, n <= i < zlen x -> zn n0 a i = zn n0 x i)) \/ (r = RET_QP_NOT_SOLVED /\ hasSolution s = false /\ a = x)).
Proof.
  intros (l0 & l1 & W & _) Hx. unfold getPrimalSolution. destruct (hasSolution s) eqn:E; [|cbn; auto].
  rewrite (w_nv _ _ _ _ W). pose proof (w_n _ _ _ _ W). pose proof (w_x _ _ _ _ W) as Lx. sstep.
  apply wp_for_up with (I := fun i a => zlen a = zlen x /\ (forall k, 0 <= k < i -> zn n0 a k = zn n0 (q_x s) k) /\ (forall k, i <= k < zlen x -> zn n0 a k = zn n0 x k)); [lia| | |].
  - split; [reflexivity|]. split; [intros; lia|auto].
  - intros i a Hi (La & A & B). sstep. apply (wp_rd n0); [lia|]. apply wp_wr; [lia|]. rewrite zlen_zupd. split; [exact La|].
    split; intros k Hk; rewrite zn_zupd by lia; destruct (Z.eq_dec k i) as [->|]; try lia.
    + rewrite Z.eqb_refl; auto.
    + destruct (Z.eqb_spec k i); [lia|]. apply A; lia.
    + destruct (Z.eqb_spec k i); [lia|]. apply B; lia.
  - intros a (La & A & B). cbn. left. auto.
Qed.
Lemma getDual_ok n (s : qpb) (y : arr) : qok n s -> n <= zlen y ->
  wp (getDualSolution s y) (fun '(r, a) => r = (if hasSolution s then SUCCESSFUL_RETURN else RET_QP_NOT_SOLVED) /\ zlen a = zlen y /\ (forall i, 0 <= i < n -> zn n0 a i = zn n0 (q_y s) i) /\
     (forall i, n <= i < zlen y -> zn n0 a i = zn n0 y i)).
Proof.
  intros (l0 & l1 & W & _) Hx. unfold getDualSolution.
  rewrite (w_nv _ _ _ _ W). pose proof (w_n _ _ _ _ W). pose proof (w_y _ _ _ _ W) as Ly. sstep.
  apply wp_for_up with (I := fun i a => zlen a = zlen y /\ (forall k, 0 <= k < i -> zn n0 a k = zn n0 (q_y s) k) /\ (forall k, i <= k < zlen y -> zn n0 a k = zn n0 y k)); [lia| | |].
  - split; [reflexivity|]. split; [intros; lia|auto].
  - intros i a Hi (La & A & B). sstep. apply (wp_rd n0); [lia|]. apply wp_wr; [lia|]. rewrite zlen_zupd. split; [exact La|].
    split; intros k Hk; rewrite zn_zupd by lia; destruct (Z.eq_dec k i) as [->|]; try lia.
    + rewrite Z.eqb_refl; auto.
    + destruct (Z.eqb_spec k i); [lia|]. apply A; lia.
    + destruct (Z.eqb_spec k i); [lia|]. apply B; lia.
  - intros a (La & A & B). cbn. auto.
Qed.
Lemma getObjValAt_ok n (s : qpb) (x : arr) : qok n s -> hk s -> n <= zlen x -> wp (getObjValAt junk s x) (fun _ => True).
Proof.
  intros (l0 & l1 & W & _) K Hx. unfold getObjValAt. rewrite (w_nv _ _ _ _ W). pose proof (w_n _ _ _ _ W) as Hn. destruct (Z.eqb_spec n 0) as [|Nz]; [exact I|].
  sstep. apply wp_for_inv with (I := fun _ => True); auto.
  { intros i v Hi _. sstep. sstep; [lia|]. sstep. sstep; [rewrite (w_g _ _ _ _ W); lia|exact I]. }
  intros v _. sstep. eapply wp_mono with (P := fun _ => True).
  { assert (PL : plainH s = true -> wp (M <- q_theH s ;; Hx <- m_times M 1 n1 x n n0 (junk n) n ;; for_up 0 n (fun i v => a <- rd x i ;; b <- rd Hx i ;; Ok (v +' nlit 5 (-1) *' a *' b)) v) (fun _ => True)).
    { intros P. sstep. apply (w_theH n s l0 l1 W _ K P). intros M HM. pose proof (J n ltac:(lia)) as Jn.
      sstep. eapply wp_mono; [apply (m_times_safe n M HM); lia|]. intros y Ly. cbn beta in Ly. apply wp_for_inv with (I := fun _ => True); auto.
      intros i v' Hi _. sstep. sstep; [lia|]. sstep. sstep; [lia|exact I]. }
    unfold plainH in PL. destruct (q_htype s) eqn:EH; try (apply PL; reflexivity); [exact I|].
    apply wp_for_inv with (I := fun _ => True); auto. intros i v' Hi _. sstep. sstep; [lia|exact I]. }
  intros v' _. destruct (usingReg s); [|exact I]. apply wp_for_inv with (I := fun _ => True); auto. intros i v2 Hi _. sstep. sstep; [lia|exact I].
Qed.
End QPBSafe6.
