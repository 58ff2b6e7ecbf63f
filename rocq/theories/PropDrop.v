(** C50: which constraint or bound is dropped when a dependence cannot be resolved. *)
From Verif Require Import Base Types Num Options Indexlist IndexlistProofs Loops RSum LinSpec SafeLib SubjectTo SubjectToProofs Flipper PropFlipper Matrices LinAlg QProblemB QPBX2 QPBX3 QPBX4 QProblem QProblem2 QProblem3 QProblem4
  QPX1 QPX4 QPX8 QPX9 QPX11 QPX12 QPX13 QPX14 QPX15 QPX16 PropAux PropDense PropTQ PropTQ2 PropLI.
From Coq Require Import QArith.
Local Open Scope R_scope.

Lemma search_ok n (test : Z -> res bool) (P : Z -> Prop) : (0 <= n)%Z -> (forall i, (0 <= i < n)%Z -> wp (test i) (fun b => b = true <-> P i)) ->
  wp (search n test) (fun o => match o with Some i => (0 <= i < n)%Z /\ P i /\ (forall j, (0 <= j < i)%Z -> ~ P j) | None => forall i, (0 <= i < n)%Z -> ~ P i end).
Proof.
  intros Hn T. unfold search. apply wp_bind. apply wp_forb_up with (I := fun k _ => forall j, (0 <= j < k)%Z -> ~ P j) (J := fun i => (0 <= i < n)%Z /\ P i /\ (forall j, (0 <= j < i)%Z -> ~ P j)).
  - exact Hn.
  - intros; lia.
  - intros i [] Hi K. apply wp_bind. eapply wp_mono; [apply T; exact Hi|]. intros [|] B; cbn.
    + split; [exact Hi|]. split; [now apply B|exact K].
    + intros j Hj Pj. destruct (Z.eq_dec j i) as [->|]; [apply B in Pj; discriminate Pj|]. apply (K j); [lia|exact Pj].
  - intros [] K. exact K.
  - intros i K. exact K.
Qed.

Section Drop.
Variables eps zero infty : R.
Notation N := (RNumT eps zero infty).
Notation arr := (list R).
Variable junk : Z -> arr.
Hypothesis zero_0 : zero = 0.
Hypothesis eps_pos : 0 < eps.
Hypothesis J : junk_ok (N := N) junk.
Notation pinv := (pinv eps zero infty).

(** A member of the working set can go when it has a multiplier direction xi
    that is not negligible.  kinds of members and their priorities *)
Inductive kind := KEq | KIneq | KBound.
Definition price (s : qp N) (k : kind) : Z :=
  match k with KEq => o_dropEqConPriority (p_opts s) | KIneq => o_dropIneqConPriority (p_opts s) | KBound => o_dropBoundPriority (p_opts s) end.
Definition heavy (s : qp N) (xi : arr) (i : Z) : Prop := o_epsDen (p_opts s) < Rabs (zn 0 xi i).
Definition ctype (s : qp N) (c : Z) : SubjectToType := zt (st_type (p_cons s)) c.
(** as the code sees it: the constraint at position i of the active list is taken
    to have the type of constraint number i *)
Definition seen (s : qp N) (xiB xiC : arr) (k : kind) (i : Z) : Prop :=
  match k with
  | KEq => (0 <= i < pAC s)%Z /\ ctype s i = ST_EQUALITY /\ heavy s xiC i
  | KIneq => (0 <= i < pAC s)%Z /\ ctype s i = ST_BOUNDED /\ heavy s xiC i
  | KBound => (0 <= i < pFX s)%Z /\ heavy s xiB i
  end.
Definition blocking (s : qp N) (isBound : bool) : Z := if isBound then o_dropBoundPriority (p_opts s) else o_dropIneqConPriority (p_opts s).
Definition isB (k : kind) : bool := match k with KBound => true | _ => false end.
Definition member (s : qp N) (k : kind) (i : Z) : Z := if isB k then zn 0%Z (p_FX s) i else zn 0%Z (p_AC s) i.

Lemma candidate_ok n m Am (s : qp N) l0 l1 k0 k1 isBound (xiB xiC : arr) : pinv n m Am s l0 l1 k0 k1 -> (pFX s <= zlen xiB)%Z -> (pAC s <= zlen xiC)%Z ->
  wp (dropCandidate (N := N) isBound xiB xiC s) (fun c => match c with
    | Some (num, b) => exists k i, seen s xiB xiC k i /\ num = member s k i /\ b = isB k /\ (price s k <= blocking s isBound)%Z /\ (forall k' i', seen s xiB xiC k' i' -> (price s k <= price s k')%Z)
    | None => forall k' i', seen s xiB xiC k' i' -> (blocking s isBound < price s k')%Z
    end).
Proof using.
  intros I LB LC. pose proof (pi_w _ _ _ _ _ _ _ _ _ _ _ I) as W. pose proof (pw_b _ _ _ _ _ _ _ _ _ _ _ W) as Wb. pose proof (pw_c _ _ _ _ _ _ _ _ _ _ _ W) as Wc.
  destruct (br_dims _ _ _ _ _ _ _ _ _ _ _ I) as (En & Em & EF & EC & EX & _). destruct (len_b _ _ _ Wc) as (_ & LM). pose proof (zlen_nonneg k1) as NA. pose proof (zlen_nonneg l1) as NF.
  assert (CON : forall ty, wp (search (pAC s) (fun i => t <- st_getType (p_cons s) i ;; if is_stt t ty then v <- rd xiC i ;; Ok (nltb (n := N) (o_epsDen (p_opts s)) (nabs (n := N) v)) else Ok false))
    (fun o => match o with Some i => (0 <= i < pAC s)%Z /\ (ctype s i = ty /\ heavy s xiC i) /\ (forall j, (0 <= j < i)%Z -> ~ (ctype s j = ty /\ heavy s xiC j)) | None => forall i, (0 <= i < pAC s)%Z -> ~ (ctype s i = ty /\ heavy s xiC i) end)).
  { intros ty. apply search_ok; [lia|]. intros i Hi. rewrite (getType_ok _ _ _ _ Wc) by lia. cbn [bind]. fold (ctype s i). destruct (is_stt (ctype s i) ty) eqn:Et.
    - rewrite (rd_ok 0) by lia. cbn [bind wp]. unfold heavy. rnum. assert (ctype s i = ty) by (destruct (ctype s i), ty; try discriminate Et; reflexivity). destruct (Rltb_spec (o_epsDen (p_opts s)) (Rabs (zn 0 xiC i))); split; intros X; auto; try discriminate X. destruct X. contradiction.
    - cbn. split; [discriminate|]. intros (X & _). rewrite X in Et. destruct ty; discriminate Et. }
  assert (RA : forall i, (0 <= i < pAC s)%Z -> rd (p_AC s) i = Ok (zn 0%Z (p_AC s) i)).
  { intros i Hi. apply rd_ok. unfold p_AC, p_active. rewrite (rep_ln _ _ (wf_act _ _ _ Wc)). pose proof (rep_phys _ _ (wf_act _ _ _ Wc)). rewrite (rep_len _ _ (wf_act _ _ _ Wc)) in *. lia. }
  assert (RX : forall i, (0 <= i < pFX s)%Z -> rd (p_FX s) i = Ok (zn 0%Z (p_FX s) i)).
  { intros i Hi. apply rd_ok. unfold p_FX, p_fixed. pose proof (rep_phys _ _ (wf_act _ _ _ Wb)). rewrite (rep_len _ _ (wf_act _ _ _ Wb)) in *. pose proof (rep_ln _ _ (wf_act _ _ _ Wb)). lia. }
  unfold dropCandidate. cbv zeta.
  (* the state of the search after the equalities, after the inequalities *)
  set (best := fun (ks : list kind) (c : option (Z * bool)) (p : Z) => (p <= blocking s isBound)%Z /\ match c with
     | Some (num, b) => exists k i, In k ks /\ seen s xiB xiC k i /\ num = member s k i /\ b = isB k /\ p = price s k
     | None => p = blocking s isBound end /\
     (forall k i, In k ks -> seen s xiB xiC k i -> match c with Some _ => (p <= price s k)%Z | None => (p < price s k)%Z end)).
  apply wp_bind. apply wp_mono with (P := fun '(c, p) => best [KEq] c p).
  { destruct (Z.leb_spec (o_dropEqConPriority (p_opts s)) (if isBound then o_dropBoundPriority (p_opts s) else o_dropIneqConPriority (p_opts s))) as [LE|LT].
    - apply wp_bind. eapply wp_mono; [apply CON|]. intros [i|] K.
      + destruct K as (Hi & (T & Hv) & _). rewrite RA by exact Hi. cbn. split; [exact LE|]. split.
        * exists KEq, i. split; [now left|]. split; [cbn; auto|]. auto.
        * intros k i' [<-|[]] _. cbn. lia.
      + cbn. split; [unfold blocking; lia|]. split; [reflexivity|]. intros k i' [<-|[]] (Hi & T & Hv). exfalso. apply (K i' Hi). auto.
    - cbn. split; [unfold blocking; lia|]. split; [reflexivity|]. intros k i' [<-|[]] _. cbn. exact LT. }
  intros [c p] B1. apply wp_bind. apply wp_mono with (P := fun '(c, p) => best [KEq; KIneq] c p).
  { destruct B1 as (BP & BC & BM). destruct (Z.leb_spec (o_dropIneqConPriority (p_opts s)) p) as [LE|LT].
    - apply wp_bind. eapply wp_mono; [apply CON|]. intros [i|] K.
      + destruct K as (Hi & (T & Hv) & _). rewrite RA by exact Hi. cbn. split; [lia|]. split.
        * exists KIneq, i. split; [right; now left|]. split; [cbn; auto|]. auto.
        * intros k i' [<-|[<-|[]]] S; cbn; [|lia]. specialize (BM KEq i' (or_introl eq_refl) S). destruct c; cbn in *; lia.
      + cbn [wp]. split; [exact BP|]. split.
        * destruct c as [[num b]|]; [|exact BC]. destruct BC as (k & i & [<-|[]] & R0). exists KEq, i. split; [now left|exact R0].
        * intros k i' [<-|[<-|[]]] S; [exact (BM KEq i' (or_introl eq_refl) S)|]. exfalso. destruct S as (Hi & T & Hv). apply (K i' Hi). auto.
    - cbn [wp]. split; [exact BP|]. split.
      + destruct c as [[num b]|]; [|exact BC]. destruct BC as (k & i & [<-|[]] & R0). exists KEq, i. split; [now left|exact R0].
      + intros k i' [<-|[<-|[]]] S; [exact (BM KEq i' (or_introl eq_refl) S)|]. cbn. destruct c; lia. }
  clear c p B1. intros [c p] (BP & BC & BM). destruct (Z.leb_spec (o_dropBoundPriority (p_opts s)) p) as [LE|LT].
  - apply wp_bind. eapply wp_mono; [apply (search_ok (pFX s) _ (fun i => heavy s xiB i)); [lia|]|].
    { intros i Hi. rewrite (rd_ok 0) by lia. cbn [bind wp]. unfold heavy. rnum. destruct (Rltb_spec (o_epsDen (p_opts s)) (Rabs (zn 0 xiB i))); split; intros X; auto; discriminate X. }
    intros [i|] K.
    + destruct K as (Hi & Hv & _). rewrite RX by exact Hi. cbn. exists KBound, i. split; [cbn; auto|]. split; [reflexivity|]. split; [reflexivity|]. split; [cbn; lia|].
      intros [| |] i' S; cbn; try lia; [specialize (BM KEq i' (or_introl eq_refl) S)|specialize (BM KIneq i' (or_intror (or_introl eq_refl)) S)]; destruct c; cbn in *; lia.
    + cbn [wp]. assert (NB : forall i', ~ seen s xiB xiC KBound i') by (intros i' (Hi & Hv); exact (K i' Hi Hv)). destruct c as [[num b]|].
      * destruct BC as (k & i & _ & S & E1 & E2 & ->). exists k, i. repeat (split; [assumption|]). intros [| |] i' S'; [apply (BM KEq i'); cbn; auto|apply (BM KIneq i'); cbn; auto|exfalso; exact (NB i' S')].
      * rewrite BC in *. intros [| |] i' S'; [apply (BM KEq i'); cbn; auto|apply (BM KIneq i'); cbn; auto|exfalso; exact (NB i' S')].
  - cbn [wp]. destruct c as [[num b]|].
    + destruct BC as (k & i & _ & S & E1 & E2 & ->). exists k, i. repeat (split; [assumption|]). intros [| |] i' S'; [apply (BM KEq i'); cbn; auto|apply (BM KIneq i'); cbn; auto|cbn; lia].
    + rewrite BC in *. intros [| |] i' S'; [apply (BM KEq i'); cbn; auto|apply (BM KIneq i'); cbn; auto|cbn; lia].
Qed.

(** ** The effect *)
Definition stC (s : qp N) (c : Z) : SubjectToStatus := zs (st_status (p_cons s)) c.
Definition stB (s : qp N) (j : Z) : SubjectToStatus := zs (st_status (p_bounds s)) j.
(** only the status of constraint (bound) k is changed *)
Definition only (n m : Z) (s s' : qp N) (b : bool) (k : Z) (w : SubjectToStatus) : Prop :=
  (forall c, (0 <= c < m)%Z -> stC s' c = if negb b && (c =? k)%Z then w else stC s c) /\
  (forall j, (0 <= j < n)%Z -> stB s' j = if b && (j =? k)%Z then w else stB s j).
(** states reached by changes of the working set, R being up to date *)
Definition reach_chol (n m : Z) (Am Hm : Z -> Z -> R) (s : qp N) : Prop := exists s0 s1 os,
  ready eps zero infty n m Am Hm s0 /\ setupTQfactorisation (N := N) s0 = Ok (SUCCESSFUL_RETURN, s1) /\
  (exec eps zero infty junk (cheap eps zero infty) Am false s1 os true s \/ exec eps zero infty junk (sound eps zero infty Hm) Am false s1 os true s).
Lemma reach_good n m Am Hm s : reach_chol n m Am Hm s -> exists l0 l1 k0 k1, good eps zero infty n m Am Hm true s l0 l1 k0 k1.
Proof using zero_0 eps_pos J.
  intros (s0 & s1 & os & RD & E & X). destruct (ready_good eps zero infty zero_0 n m Am Hm s0 RD) as (s1' & E' & l0 & l1 & k0 & G). assert (s1' = s1) by congruence. subst s1'.
  destruct X as [X|X]; [exact (exec_ok eps zero infty junk zero_0 eps_pos J n m Am Hm _ _ _ _ _ X l0 l1 k0 [] G)|].
  destruct (exec_exact eps zero infty junk zero_0 eps_pos J n m Am Hm _ _ _ _ _ X l0 l1 k0 [] G ltac:(discriminate)) as (a & b & c & d & G' & _). exists a, b, c, d. exact G'.
Qed.
Definition infeasible (v : SubjectToStatus) : SubjectToStatus := match v with ST_LOWER => ST_INFEASIBLE_LOWER | _ => ST_INFEASIBLE_UPPER end.
Lemma infeasible_ok v : infeasStatus v = infeasible v.
Proof using. destruct v; reflexivity. Qed.
Lemma setStatus_eq (c : subjectTo) l0 l1 k w : st_wf c l0 l1 -> (0 <= k < st_n c)%Z -> st_setStatus c k w = Ok (SUCCESSFUL_RETURN, st_set_status c (zupd (st_status c) k w)).
Proof using.
  intros W Hk. unfold st_setStatus. destruct (Z.leb_spec 0 k); [|lia]. destruct (Z.ltb_spec k (st_n c)); [|lia]. cbn [andb]. rewrite (@wr_ok SubjectToStatus) by (rewrite (wf_stat _ _ _ W); lia). reflexivity.
Qed.

Section At.
Variables (n m : Z) (Am Hm : Z -> Z -> R) (s : qp N) (number : Z) (v : SubjectToStatus) (isBound : bool) (xiB xiC : arr).
Hypothesis RS : reach_chol n m Am Hm s.
Hypothesis updatable : p_noUpdate s = false.
Hypothesis in_range : (0 <= number < if isBound then n else m)%Z.
Hypothesis lenB : (pFX s <= zlen xiB)%Z.
Hypothesis lenC : (pAC s <= zlen xiC)%Z.

(** Exactly one status changes.  The choice is by priority, but among what is seen. *)
Theorem C50_dropped : exists r s', dropInfeasibles (N := N) junk number v isBound xiB xiC s = Ok (r, s') /\ TQ_exact eps zero infty Am s' /\
  ((r = SUCCESSFUL_RETURN /\ exists k i, seen s xiB xiC k i /\ (price s k <= blocking s isBound)%Z /\ (forall k' i', seen s xiB xiC k' i' -> (price s k <= price s k')%Z) /\
      only n m s s' (isB k) (member s k i) (infeasible ((if isB k then stB else stC) s (member s k i))) /\ pAC s' = (if isB k then pAC s else pAC s - 1)%Z /\ pFX s' = (if isB k then pFX s - 1 else pFX s)%Z) \/
   (r = RET_ENSURELI_DROPPED /\ (forall k i, seen s xiB xiC k i -> (blocking s isBound < price s k)%Z) /\ only n m s s' isBound number (infeasible v) /\ pAC s' = pAC s /\ pFX s' = pFX s)).
Proof using zero_0 eps_pos J RS updatable in_range lenB lenC.
  destruct (reach_good _ _ _ _ _ RS) as (l0 & l1 & k0 & k1 & I & (HD & _) & RV). specialize (RV eq_refl). pose proof (pi_w _ _ _ _ _ _ _ _ _ _ _ I) as W. pose proof (pw_b _ _ _ _ _ _ _ _ _ _ _ W) as Wb. pose proof (pw_c _ _ _ _ _ _ _ _ _ _ _ W) as Wc.
  destruct (br_dims _ _ _ _ _ _ _ _ _ _ _ I) as (En & Em & EF & EC & EX & _).
  destruct (wp_inv _ _ (candidate_ok n m Am s l0 l1 k0 k1 isBound xiB xiC I lenB lenC)) as (c & E & K). unfold dropInfeasibles. rewrite E. cbn [bind]. destruct c as [[num b]|].
  - destruct K as (k & i & S & -> & -> & LE & MIN). destruct (isB k) eqn:Ek.
    + assert (Hin : In (member s k i) l1). { destruct k; try discriminate Ek. destruct S as (Hi & _). unfold member. cbn. rewrite EX in Hi. unfold p_FX, p_fixed. rewrite (rd_zn _ _ _ (proj1 Hi) (rep_rd1 _ _ _ Wb i Hi)). apply zn_In. exact Hi. }
      set (j := member s k i) in *. pose proof (proj2 (range_b _ _ _ Wb) j Hin) as Hj. rewrite (getStatus_ok _ _ _ _ Wb Hj). cbn [bind].
      destruct (remB_full eps zero infty zero_0 junk J n m Am Hm s l0 l1 k0 k1 j I HD eps_pos updatable Hin RV) as (s' & ER & I' & _ & _ & _ & _ & ST & EC'). rewrite ER. cbn [bind].
      pose proof (pw_b _ _ _ _ _ _ _ _ _ _ _ (pi_w _ _ _ _ _ _ _ _ _ _ _ I')) as Wb'. destruct (br_dims _ _ _ _ _ _ _ _ _ _ _ I') as (En' & _ & _ & EC1 & EX1 & _). unfold pV in En, En'. rewrite En in Hj.
      rewrite (setStatus_eq _ _ _ j _ Wb') by (rewrite En'; exact Hj). cbn [bind]. eexists _, _. split; [reflexivity|]. split; [destruct (pinv_exact _ _ _ _ _ _ _ _ _ _ _ I'); constructor; assumption|]. left. split; [reflexivity|].
      exists k, i. rewrite Ek. split; [exact S|]. split; [exact LE|]. split; [exact MIN|]. rewrite infeasible_ok. fold j. split; [|].
      * split; cbn [negb andb].
        -- intros c Hc. unfold stC. change (p_cons (up_b _ s')) with (p_cons s'). now rewrite EC'.
        -- intros u Hu. unfold stB at 1. change (st_status _) with (zupd (st_status (p_bounds s')) j (infeasible (stB s j))). rewrite ST. pose proof (wf_stat _ _ _ Wb) as LS. rewrite En in LS.
           destruct (Z.eqb_spec u j) as [->|NE]; [rewrite zn_zupd_eq; [reflexivity|rewrite zlen_zupd; lia]|]. rewrite !zn_zupd_ne by lia. reflexivity.
      * split; [change (pAC s' = pAC s); congruence|]. change (pFX s' = (pFX s - 1)%Z). rewrite EX1, EX. rewrite (spec_remove_len l1 j Hin). lia.
    + assert (Hin : In (member s k i) k1).
      { assert (Hi : (0 <= i < pAC s)%Z) by (destruct k; try discriminate Ek; apply S). unfold member. rewrite Ek. rewrite EC in Hi. unfold p_AC, p_active. rewrite (rd_zn _ _ _ (proj1 Hi) (rep_rd1 _ _ _ Wc i Hi)). apply zn_In. exact Hi. }
      set (j := member s k i) in *. pose proof (proj2 (range_b _ _ _ Wc) j Hin) as Hj. rewrite (getStatus_ok _ _ _ _ Wc Hj). cbn [bind].
      destruct (remC_full eps zero infty zero_0 junk J n m Am Hm s l0 l1 k0 k1 j I HD eps_pos updatable Hin RV) as (s' & ER & I' & _ & _ & _ & _ & ST & EB'). rewrite ER. cbn [bind].
      pose proof (pw_c _ _ _ _ _ _ _ _ _ _ _ (pi_w _ _ _ _ _ _ _ _ _ _ _ I')) as Wc'. destruct (br_dims _ _ _ _ _ _ _ _ _ _ _ I') as (_ & Em' & _ & EC1 & EX1 & _). unfold pC in Em, Em'. rewrite Em in Hj.
      rewrite (setStatus_eq _ _ _ j _ Wc') by (rewrite Em'; exact Hj). cbn [bind]. eexists _, _. split; [reflexivity|]. split; [destruct (pinv_exact _ _ _ _ _ _ _ _ _ _ _ I'); constructor; assumption|]. left. split; [reflexivity|].
      exists k, i. rewrite Ek. split; [exact S|]. split; [exact LE|]. split; [exact MIN|]. rewrite infeasible_ok. fold j. split; [|].
      * split; cbn [negb andb].
        -- intros u Hu. unfold stC at 1. change (st_status _) with (zupd (st_status (p_cons s')) j (infeasible (stC s j))). rewrite ST. pose proof (wf_stat _ _ _ Wc) as LS. rewrite Em in LS.
           destruct (Z.eqb_spec u j) as [->|NE]; [rewrite zn_zupd_eq; [reflexivity|rewrite zlen_zupd; lia]|]. rewrite !zn_zupd_ne by lia. reflexivity.
        -- intros c Hc. unfold stB. change (p_bounds (set_p_cons _ s')) with (p_bounds s'). now rewrite EB'.
      * split; [change (pAC s' = (pAC s - 1)%Z); rewrite EC1, EC, (spec_remove_len k1 j Hin); lia|]. change (pFX s' = pFX s). congruence.
  - unfold pV in En. unfold pC in Em. pose proof (wf_stat _ _ _ Wb) as LB. pose proof (wf_stat _ _ _ Wc) as LC. rewrite En in LB. rewrite Em in LC. destruct isBound.
    + rewrite (setStatus_eq _ _ _ number _ Wb) by (rewrite En; exact in_range). cbn [bind]. eexists _, _. split; [reflexivity|]. split; [destruct (pinv_exact _ _ _ _ _ _ _ _ _ _ _ I); constructor; assumption|]. right. split; [reflexivity|].
      split; [exact K|]. split; [|split; reflexivity]. rewrite infeasible_ok. split; cbn [negb andb]; [reflexivity|]. intros u Hu. unfold stB at 1. change (st_status _) with (zupd (st_status (p_bounds s)) number (infeasible v)).
      destruct (Z.eqb_spec u number) as [->|NE]; [rewrite zn_zupd_eq; [reflexivity|lia]|]. rewrite !zn_zupd_ne by lia. reflexivity.
    + rewrite (setStatus_eq _ _ _ number _ Wc) by (rewrite Em; exact in_range). cbn [bind]. eexists _, _. split; [reflexivity|]. split; [destruct (pinv_exact _ _ _ _ _ _ _ _ _ _ _ I); constructor; assumption|]. right. split; [reflexivity|].
      split; [exact K|]. split; [|split; reflexivity]. rewrite infeasible_ok. split; cbn [negb andb]; [|reflexivity]. intros u Hu. unfold stC at 1. change (st_status _) with (zupd (st_status (p_cons s)) number (infeasible v)).
      destruct (Z.eqb_spec u number) as [->|NE]; [rewrite zn_zupd_eq; [reflexivity|lia]|]. rewrite !zn_zupd_ne by lia. reflexivity.
Qed.

(** Where position and number agree as far as types go, equality constraints
    with a worse priority stay. *)
Definition active (w : SubjectToStatus) : Prop := w = ST_LOWER \/ w = ST_UPPER.
Theorem C50_equalities_stay : (blocking s isBound < o_dropEqConPriority (p_opts s))%Z ->
  (forall i, (0 <= i < pAC s)%Z -> ctype s (ac eps zero infty s i) = ST_EQUALITY -> ctype s i <> ST_BOUNDED) ->
  (isBound = false -> stC s number = ST_INACTIVE) ->
  exists r s', dropInfeasibles (N := N) junk number v isBound xiB xiC s = Ok (r, s') /\ (r = SUCCESSFUL_RETURN \/ r = RET_ENSURELI_DROPPED) /\
    forall c, (0 <= c < m)%Z -> ctype s c = ST_EQUALITY -> active (stC s c) -> stC s' c = stC s c.
Proof using zero_0 eps_pos J RS updatable in_range lenB lenC.
  intros PR AL IA. destruct C50_dropped as (r & s' & E & _ & K). exists r, s'. split; [exact E|]. destruct K as [(-> & k & i & S & LE & _ & (O & _) & _)|(-> & _ & (O & _) & _)].
  - split; [auto|]. intros c Hc T A. rewrite O by exact Hc. destruct (isB k) eqn:Ek; [reflexivity|]. cbn [negb andb]. destruct (Z.eqb_spec c (member s k i)) as [->|]; [|reflexivity]. exfalso.
    unfold member in T. rewrite Ek in T. destruct k; [|destruct S as (Hi & TB & _)|discriminate Ek]; [cbn in LE; lia|]. exact (AL i Hi T TB).
  - split; [auto|]. intros c Hc T A. rewrite O by exact Hc. destruct isBound; [reflexivity|]. cbn [negb andb]. destruct (Z.eqb_spec c number) as [->|]; [|reflexivity]. exfalso. rewrite (IA eq_refl) in A. destruct A; discriminate.
Qed.

(** The member that goes has minimum priority among the members that can go,
    and at most the priority of the blocking constraint. *)
Definition own (k : kind) (s : qp N) (c : Z) : Prop := match k with KEq => ctype s c = ST_EQUALITY | KIneq => ctype s c = ST_BOUNDED | KBound => True end.
Definition droppable (k : kind) (c : Z) : Prop := own k s c /\ exists i, (0 <= i < if isB k then pFX s else pAC s)%Z /\ c = member s k i /\ heavy s (if isB k then xiB else xiC) i.
Theorem C50_minimum : (forall i, (0 <= i < pAC s)%Z -> ctype s (ac eps zero infty s i) = ctype s i) ->
  exists r s', dropInfeasibles (N := N) junk number v isBound xiB xiC s = Ok (r, s') /\
  ((r = SUCCESSFUL_RETURN /\ exists k c, droppable k c /\ (price s k <= blocking s isBound)%Z /\ (forall k' c', droppable k' c' -> (price s k <= price s k')%Z) /\
      only n m s s' (isB k) c (infeasible ((if isB k then stB else stC) s c))) \/
   (r = RET_ENSURELI_DROPPED /\ (forall k' c', droppable k' c' -> (blocking s isBound < price s k')%Z) /\ only n m s s' isBound number (infeasible v))).
Proof using zero_0 eps_pos J RS updatable in_range lenB lenC.
  intros AL. destruct C50_dropped as (r & s' & E & _ & K). exists r, s'. split; [exact E|].
  assert (DS : forall k c, droppable k c -> exists i, seen s xiB xiC k i).
  { intros k c (O & i & Hi & -> & Hv). exists i. destruct k; cbn in *; repeat (split; [assumption|]); try assumption; (split; [|exact Hv]); rewrite <- O; symmetry; exact (AL i Hi). }
  assert (SD : forall k i, seen s xiB xiC k i -> droppable k (member s k i)).
  { intros k i S. destruct k; cbn in S; [destruct S as (Hi & T & Hv)|destruct S as (Hi & T & Hv)|destruct S as (Hi & Hv)]; (split; [|exists i; cbn; auto]); cbn; auto; rewrite <- T; exact (AL i Hi). }
  destruct K as [(-> & k & i & S & LE & MIN & O & _)|(-> & MIN & O & _)]; [left|right]; (split; [reflexivity|]).
  - exists k, (member s k i). split; [exact (SD _ _ S)|]. split; [exact LE|]. split; [|exact O]. intros k' c' D. destruct (DS _ _ D) as (i' & S'). exact (MIN _ _ S').
  - split; [|exact O]. intros k' c' D. destruct (DS _ _ D) as (i' & S'). exact (MIN _ _ S').
Qed.
End At.
End Drop.

(** ** Equality constraints can be dropped *)
Definition d_load (lbA ubA : list Q) (o : options QNum) (A : list Q) : res (qp QNum) :=
  let m := zlen lbA in
  s <- q_load 2 m [1; 0; 0; 1]%Q A o ;;
  p_setupSubjectToType (N := QNum) None None (Some lbA) (Some ubA) (set_p_ubA (N := QNum) ubA (set_p_lbA (N := QNum) lbA s)).
Definition d_opt (eq : Z) : options QNum := set_o_enableDropInfeasibles (N := QNum) true (set_o_enableEqualities (N := QNum) true (set_o_dropEqConPriority (N := QNum) eq optDefault)).

Definition d_s1 : res (qp QNum) :=
  s <- d_load [0; 1]%Q [0; 2]%Q (d_opt 1) [1; 0; 1; 0]%Q ;;
  '(_, s) <- p_addConstraint (N := QNum) ce_junk 0 ST_LOWER false true s ;;
  '(_, s) <- computeProjectedCholesky s ;; Ok s.
Definition d_s2 : res (qp QNum) :=
  s <- d_load [0; 0; 1]%Q [1; 0; 2]%Q (d_opt 2) [0; 1; 1; 0; 1; 0]%Q ;;
  '(_, s) <- p_addConstraint (N := QNum) ce_junk 1 ST_LOWER false true s ;;
  '(_, s) <- computeProjectedCholesky s ;; Ok s.

(** x0 = 0 goes for 1 <= x0 <= 2, with the default priorities *)
Theorem C50_default_refuted : exists s s', d_s1 = Ok s /\ o_dropEqConPriority (p_opts s) = o_dropEqConPriority (optDefault (N := QNum)) /\
  st_type (p_cons s) = [ST_EQUALITY; ST_BOUNDED] /\ st_status (p_cons s) = [ST_LOWER; ST_INACTIVE] /\
  p_addConstraint (N := QNum) ce_junk 1 ST_LOWER true true s = Ok (SUCCESSFUL_RETURN, s') /\ st_status (p_cons s') = [ST_INFEASIBLE_LOWER; ST_LOWER].
Proof.
  assert (T : match d_s1 with Ok s => (o_dropEqConPriority (p_opts s) = o_dropEqConPriority (optDefault (N := QNum)) /\ st_type (p_cons s) = [ST_EQUALITY; ST_BOUNDED] /\ st_status (p_cons s) = [ST_LOWER; ST_INACTIVE]) /\
      match p_addConstraint (N := QNum) ce_junk 1 ST_LOWER true true s with Ok (SUCCESSFUL_RETURN, s') => st_status (p_cons s') = [ST_INFEASIBLE_LOWER; ST_LOWER] | _ => False end | _ => False end) by (vm_compute; auto).
  destruct d_s1 as [s| |]; try contradiction. destruct T as ((T1 & T2 & T3) & T). exists s. destruct (p_addConstraint (N := QNum) ce_junk 1 ST_LOWER true true s) as [[r s']| |]; try contradiction.
  destruct r; try contradiction. exists s'. auto 8.
Qed.

(** the same with a worse priority for equality constraints: constraint 1 is
    active at position 0 and is taken for an inequality, as constraint 0 is one *)
Theorem C50_wrong_index_refuted : exists s s', d_s2 = Ok s /\ (o_dropIneqConPriority (p_opts s) < o_dropEqConPriority (p_opts s))%Z /\
  st_type (p_cons s) = [ST_BOUNDED; ST_EQUALITY; ST_BOUNDED] /\ st_status (p_cons s) = [ST_INACTIVE; ST_LOWER; ST_INACTIVE] /\
  p_addConstraint (N := QNum) ce_junk 2 ST_LOWER true true s = Ok (SUCCESSFUL_RETURN, s') /\ st_status (p_cons s') = [ST_INACTIVE; ST_INFEASIBLE_LOWER; ST_LOWER].
Proof.
  assert (T : match d_s2 with Ok s => ((o_dropIneqConPriority (p_opts s) < o_dropEqConPriority (p_opts s))%Z /\ st_type (p_cons s) = [ST_BOUNDED; ST_EQUALITY; ST_BOUNDED] /\ st_status (p_cons s) = [ST_INACTIVE; ST_LOWER; ST_INACTIVE]) /\
      match p_addConstraint (N := QNum) ce_junk 2 ST_LOWER true true s with Ok (SUCCESSFUL_RETURN, s') => st_status (p_cons s') = [ST_INACTIVE; ST_INFEASIBLE_LOWER; ST_LOWER] | _ => False end | _ => False end) by (vm_compute; auto).
  destruct d_s2 as [s| |]; try contradiction. destruct T as ((T1 & T2 & T3) & T). exists s. destruct (p_addConstraint (N := QNum) ce_junk 2 ST_LOWER true true s) as [[r s']| |]; try contradiction.
  destruct r; try contradiction. exists s'. auto 8.
Qed.

Definition d_ropt : options tqN := set_o_enableDropInfeasibles (N := tqN) true (set_o_dropEqConPriority (N := tqN) 2 optDefault).
Example C50_ex : exists s, reach_chol tq_eps 0 tq_inf tq_junk 2 1 tq_Am tq_Hm s /\ p_noUpdate s = false /\ pFX s = 0%Z /\ pAC s = 0%Z /\ stC tq_eps 0 tq_inf s 0 = ST_INACTIVE /\
  (blocking tq_eps 0 tq_inf s false < o_dropEqConPriority (p_opts s))%Z /\
  (forall i, (0 <= i < pAC s)%Z -> ctype tq_eps 0 tq_inf s (ac tq_eps 0 tq_inf s i) = ctype tq_eps 0 tq_inf s i).
Proof.
  destruct (C47_ready tq_eps 0 tq_inf tq_junk eq_refl tq_junk_ok 2 1 HST_UNKNOWN d_ropt tq_H [0; 0] tq_A None None None None) as (s & E & RD & V & C & O & HT & FX & AC & NU & _ & IA); try (exact I || lia || reflexivity || discriminate).
  { intros i j Hi Hj. assert (i = 0 \/ i = 1)%Z as [->| ->] by lia; assert (j = 0 \/ j = 1)%Z as [->| ->] by lia; reflexivity. }
  destruct (C48_first_factorisation tq_eps 0 tq_inf tq_junk eq_refl tq_eps_pos tq_junk_ok 2 1 tq_Am tq_Hm s RD tq_posdef) as (s0 & s1 & E0 & L0 & E1 & X1 & O1 & V1 & C1 & U1 & K1 & B1 & _); [unfold plainH, is_hst; rewrite HT; reflexivity|].
  exists s1. split; [exists s, s0, [OChol]; split; [exact RD|split; [exact E0|left; eapply exec_cons; [exact L0|exact I|exact E1|reflexivity|apply exec_nil]]]|].
  unfold pFX, pAC, stC, ctype, blocking in *. rewrite U1, K1, B1, O1, O. repeat (split; [assumption|]). split; [|split; [reflexivity|intros; lia]].
  specialize (IA 0%Z ltac:(lia)). unfold st_getStatus in IA. unfold pC in C. rewrite C in IA. cbn [Z.leb Z.ltb Z.compare andb] in IA. unfold rd in IA. cbn [Z.leb Z.compare] in IA. unfold zn. destruct (nth_error (st_status (p_cons s)) (Z.to_nat 0)) eqn:X; [|discriminate IA].
  injection IA as ->. now apply nth_error_nth.
Qed.

Print Assumptions C50_dropped.
Print Assumptions C50_equalities_stay.
Print Assumptions C50_minimum.
Print Assumptions C50_default_refuted.
Print Assumptions C50_wrong_index_refuted.
