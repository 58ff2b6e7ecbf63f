(** Properties C01, C02, C07 (index lists) and C57. *)
From Verif Require Import Base Types Indexlist IndexlistProofs SubjectToProofs.

(** ** Specification: what a caller sees of an insertion-ordered set *)

Inductive il_op := OAdd (v : Z) | ORemove (v : Z) | OSwap (a b : Z).

(** The library's operations. *)
Definition il_do (o : il_op) (s : indexlist) : res (returnValue * indexlist) :=
  match o with
  | OAdd v => il_addNumber s v
  | ORemove v => il_removeNumber s v
  | OSwap a b => il_swapNumbers s a b
  end.

Fixpoint il_run (ops : list il_op) (s : indexlist) : res (list returnValue * indexlist) :=
  match ops with
  | [] => Ok ([], s)
  | o :: ops => '(r, s1) <- il_do o s ;; '(rs, s2) <- il_run ops s1 ;; Ok (r :: rs, s2)
  end.

Definition mem (v : Z) (l : list Z) : bool := existsb (Z.eqb v) l.

(** The abstract operations on a list with capacity [n]. *)
Definition spec_do (n : Z) (o : il_op) (l : list Z) : returnValue * list Z :=
  match o with
  | OAdd v => if n <=? zlen l then (RET_INDEXLIST_EXCEEDS_MAX_LENGTH, l) else (SUCCESSFUL_RETURN, l ++ [v])
  | ORemove v => (SUCCESSFUL_RETURN, spec_remove l v)
  | OSwap a b => if mem a l && mem b l then (SUCCESSFUL_RETURN, spec_swap l a b)
                 else (RET_INDEXLIST_CORRUPTED, l)
  end.

Fixpoint spec_run (n : Z) (ops : list il_op) (l : list Z) : list returnValue * list Z :=
  match ops with
  | [] => ([], l)
  | o :: ops => let '(r, l1) := spec_do n o l in let '(rs, l2) := spec_run n ops l1 in (r :: rs, l2)
  end.

(** The contract: no number is added twice; a number that is looked up is not
    smaller than everything stored (see C02). *)
Definition lookup_ok (l : list Z) (v : Z) : Prop := exists x, In x l /\ x <= v.
Definition admissible (o : il_op) (l : list Z) : Prop :=
  match o with
  | OAdd v => ~ In v l
  | ORemove v => lookup_ok l v
  | OSwap a b => lookup_ok l a /\ lookup_ok l b
  end.
Fixpoint admissible_run (n : Z) (ops : list il_op) (l : list Z) : Prop :=
  match ops with
  | [] => True
  | o :: ops => admissible o l /\ admissible_run n ops (snd (spec_do n o l))
  end.

(** Every query a caller can ask. *)
Record il_answers (s : indexlist) (l : list Z) : Prop := {
  ans_length : il_length s = zlen l;
  ans_array : il_numbers s = l;
  ans_number : forall k, 0 <= k < zlen l -> il_getNumber s k = Ok (zn 0 l k);
  ans_index : forall v k, 0 <= k < zlen l -> zn 0 l k = v -> il_getIndex s v = Ok k;
  ans_absent : forall v, lookup_ok l v -> ~ In v l -> il_getIndex s v = Ok (-1);
  ans_member : forall v, lookup_ok l v -> il_isMember s v = Ok (mem v l);
  ans_last : forall l' x, l = l' ++ [x] -> il_getLastNumber s = Ok x
}.

Lemma mem_In v l : mem v l = true <-> In v l.
Proof.
  unfold mem. rewrite existsb_exists. split.
  - intros (x & Hx & E). apply Z.eqb_eq in E. now subst.
  - intros H. exists v. split; [auto|apply Z.eqb_refl].
Qed.

Lemma classic_lookup l v : lookup_ok l v \/ ~ lookup_ok l v.
Proof.
  destruct (existsb (fun x => x <=? v) l) eqn:E.
  - left. apply existsb_exists in E as (x & Hx & E). exists x. split; [auto|now apply Z.leb_le].
  - right. intros (x & Hx & H). assert (existsb (fun x => x <=? v) l = true); [|congruence].
    apply existsb_exists. exists x. split; [auto|now apply Z.leb_le].
Qed.

Lemma rep_answers s l : il_rep s l -> il_answers s l.
Proof.
  intros R. pose proof (rep_NoDup _ _ R) as ND. constructor.
  - now reps R.
  - now apply rep_numbers.
  - intros. now apply getNumber_spec.
  - intros v k Hk <-. rewrite (getIndex_spec s l); [|exact R|exists (zn 0 l k); split; [now apply zn_In|lia]].
    now rewrite spec_pos_unique.
  - intros v Hl Hn. rewrite (getIndex_spec s l) by auto. f_equal.
    pose proof (spec_pos_range l v). rewrite <- spec_pos_nonneg_In in Hn. lia.
  - intros v Hl. unfold il_isMember. rewrite (getIndex_spec s l) by auto. cbn. f_equal.
    destruct (mem v l) eqn:E.
    + apply mem_In, spec_pos_nonneg_In in E. apply Z.leb_le. lia.
    + apply Z.leb_gt. assert (~ In v l) by (rewrite <- mem_In; congruence).
      rewrite <- spec_pos_nonneg_In in *. lia.
  - intros l' x ->. now apply (getLastNumber_spec s l').
Qed.

Lemma do_spec o s l : il_rep s l -> admissible o l ->
  exists s', il_do o s = Ok (fst (spec_do (il_phys s) o l), s') /\
    il_rep s' (snd (spec_do (il_phys s) o l)) /\ il_phys s' = il_phys s.
Proof.
  intros R A. destruct o as [v|v|a b]; simpl in *.
  - destruct (Z.leb_spec (il_phys s) (zlen l)).
    + exists s. rewrite (addNumber_full s l) by (auto; reps R; lia). auto.
    + pose proof (addNumber_spec s l v R) as W. apply wp_inv in W as ([r s'] & E & -> & R' & P); auto.
      exists s'. auto.
  - destruct (in_dec Z.eq_dec v l).
    + pose proof (removeNumber_spec s l v R) as W. apply wp_inv in W as ([r s'] & E & -> & R' & P); auto.
      exists s'. auto.
    + exists s. rewrite (removeNumber_absent s l) by auto. rewrite spec_remove_notin by auto. auto.
  - destruct A as [A B]. destruct (mem a l && mem b l) eqn:E.
    + apply andb_true_iff in E as [Ea Eb]. rewrite mem_In in Ea, Eb.
      pose proof (swapNumbers_spec s l a b R) as W. apply wp_inv in W as ([r s'] & Es & -> & R' & P); auto.
      exists s'. auto.
    + exists s. rewrite (swapNumbers_absent s l) by (auto; intros [Ia Ib]; rewrite <- mem_In in Ia, Ib; rewrite Ia, Ib in E; discriminate).
      auto.
Qed.

Lemma run_spec ops s l : il_rep s l -> admissible_run (il_phys s) ops l ->
  exists s', il_run ops s = Ok (fst (spec_run (il_phys s) ops l), s') /\
    il_rep s' (snd (spec_run (il_phys s) ops l)) /\ il_phys s' = il_phys s.
Proof.
  revert s l. induction ops as [|o ops IH]; simpl; intros s l R A.
  - exists s. auto.
  - destruct A as [A B]. destruct (do_spec o s l R A) as (s1 & E & R1 & P).
    destruct (spec_do (il_phys s) o l) as [r l1]. simpl in *.
    rewrite <- P in B. destruct (IH s1 l1 R1 B) as (s2 & E2 & R2 & P2). rewrite P in *.
    destruct (spec_run (il_phys s) ops l1) as [rs l2]. simpl in *.
    exists s2. rewrite E. cbn [bind]. rewrite E2. cbn. auto.
Qed.

(** ** C01 *)

(** From a freshly initialised list (whatever the fresh memory contains), any
    sequence of operations within the contract runs without touching memory
    outside the arrays, returns the specified codes, and leaves a list that
    answers every query like the abstract one. *)
Theorem C01_indexlist_is_ordered_set :
  forall n jn js ops, 0 <= n -> zlen jn = n -> zlen js = n ->
  admissible_run n ops [] ->
  exists s, il_run ops (snd (il_init n jn js)) = Ok (fst (spec_run n ops []), s) /\
    il_answers s (snd (spec_run n ops [])) /\ NoDup (snd (spec_run n ops [])) /\
    zlen (snd (spec_run n ops [])) <= n.
Proof.
  intros n jn js ops Hn Hj Hs A. destruct (rep_init n jn js Hn Hj Hs) as [R _].
  assert (P : il_phys (snd (il_init n jn js)) = n).
  { unfold il_init. destruct (Z.ltb_spec n 0); [lia|reflexivity]. }
  destruct (run_spec ops _ [] R) as (s & E & R' & P'); rewrite ?P; auto. rewrite P in *.
  exists s. split; [exact E|]. split; [now apply rep_answers|]. split; [now apply (rep_NoDup s)|].
  reps R'. lia.
Qed.

(** The operations on the abstract list are the ones named in the property. *)
Theorem C01_remove_keeps_order : forall l v, NoDup l -> In v l ->
  exists a b, l = a ++ v :: b /\ spec_remove l v = a ++ b.
Proof.
  induction l as [|h t IH]; simpl; intros v ND Hv; [tauto|]. inversion ND; subst.
  destruct (Z.eqb_spec h v) as [->|Hne].
  - exists [], t. auto.
  - destruct Hv as [?|Hv]; [congruence|]. destruct (IH v) as (a & b & -> & ->); auto.
    exists (h :: a), b. auto.
Qed.

Theorem C01_swap_exchanges : forall l a b k, NoDup l -> In a l -> In b l -> 0 <= k < zlen l ->
  zn 0 (spec_swap l a b) k =
    if k =? spec_pos l a then b else if k =? spec_pos l b then a else zn 0 l k.
Proof.
  intros l a b k ND Ia Ib Hk. rewrite spec_swap_zz by auto. cbn.
  assert (P : forall v, In v l -> (zn 0 l k =? v) = (k =? spec_pos l v)).
  { intros v Hv. destruct (Z.eqb_spec (zn 0 l k) v) as [<-|Hne].
    - now rewrite spec_pos_unique, Z.eqb_refl.
    - destruct (Z.eqb_spec k (spec_pos l v)) as [E|]; [|reflexivity]. exfalso. apply Hne.
      rewrite E. apply spec_pos_zz. now apply spec_pos_nonneg_In. }
  now rewrite !P.
Qed.

Example C01_case :
  let ops := [OAdd 7; OAdd 3; OAdd 9; OAdd 4; ORemove 3; OSwap 7 9; OAdd 3] in
  admissible_run 3 ops [] /\
  spec_run 3 ops [] = ([SUCCESSFUL_RETURN; SUCCESSFUL_RETURN; SUCCESSFUL_RETURN; RET_INDEXLIST_EXCEEDS_MAX_LENGTH;
                        SUCCESSFUL_RETURN; SUCCESSFUL_RETURN; SUCCESSFUL_RETURN], [9; 7; 3]).
Proof.
  split; [|reflexivity]. unfold admissible_run, admissible, spec_do, lookup_ok. simpl.
  repeat split; try lia; try (eexists; split; [|apply Z.le_refl]; simpl; lia).
Qed.

(** ** C02 *)

(** States a caller can reach. *)
Definition reachable (s : indexlist) (l : list Z) : Prop :=
  exists n jn js ops, 0 <= n /\ zlen jn = n /\ zlen js = n /\ admissible_run n ops [] /\
    il_run ops (snd (il_init n jn js)) = Ok (fst (spec_run n ops []), s) /\ l = snd (spec_run n ops []).

Lemma reachable_rep s l : reachable s l -> il_rep s l.
Proof.
  intros (n & jn & js & ops & Hn & Hj & Hs & A & E & ->).
  destruct (rep_init n jn js Hn Hj Hs) as [R _].
  assert (P : il_phys (snd (il_init n jn js)) = n).
  { unfold il_init. destruct (Z.ltb_spec n 0); [lia|reflexivity]. }
  destruct (run_spec ops _ [] R) as (s' & E' & R' & P'); rewrite ?P; auto. rewrite P in *.
  rewrite E in E'. injection E' as ->. exact R'.
Qed.

(** The property as stated fails: asking for a number smaller than every stored
    one makes findInsert return -1 and getIndex read iSort[-1]
    (Indexlist.cpp:159). *)
Theorem C02_lookup_in_bounds_refuted :
  exists s l v, reachable s l /\ il_getIndex s v = UB /\ il_isMember s v = UB /\
    il_removeNumber s v = UB /\ il_swapNumbers s v v = UB.
Proof.
  exists (mkIL [1; 0; 0] [0; 0; 0] 1 3), [1], 0. split; [|vm_compute; auto].
  exists 3, [0; 0; 0], [0; 0; 0], [OAdd 1]. vm_compute. repeat split; try lia; try discriminate; try tauto.
Qed.

(** Exact guard: the look-ups are defined for precisely the numbers that are
    not smaller than all stored ones (so never on an empty list). *)
Theorem C02_getIndex_defined_iff : forall s l v, reachable s l ->
  ((exists k, il_getIndex s v = Ok k) <-> lookup_ok l v).
Proof.
  intros s l v H%reachable_rep. split.
  - intros (k & E). destruct (classic_lookup l v) as [Y|N]; [exact Y|]. rewrite (getIndex_ub s l v H N) in E. discriminate.
  - intros Y. exists (spec_pos l v). now apply getIndex_spec.
Qed.

Theorem C02_isMember_defined_iff : forall s l v, reachable s l ->
  ((exists b, il_isMember s v = Ok b) <-> lookup_ok l v).
Proof.
  intros s l v H. rewrite <- (C02_getIndex_defined_iff s l v H). unfold il_isMember.
  destruct (il_getIndex s v); cbn; split; intros (x & E); try discriminate; eauto.
Qed.

Theorem C02_removeNumber_defined_iff : forall s l v, reachable s l ->
  ((exists r, il_removeNumber s v = Ok r) <-> lookup_ok l v).
Proof.
  intros s l v H%reachable_rep. split.
  - intros (k & E). destruct (classic_lookup l v) as [Y|N]; [exact Y|]. rewrite (removeNumber_ub s l v H N) in E. discriminate.
  - intros Y. destruct (do_spec (ORemove v) s l H Y) as (s' & E & _). eexists. exact E.
Qed.

(** swapNumbers evaluates the second look-up only if the first number is stored. *)
Theorem C02_swapNumbers_defined : forall s l a b, reachable s l -> lookup_ok l a -> lookup_ok l b ->
  exists r, il_swapNumbers s a b = Ok r.
Proof.
  intros s l a b H%reachable_rep Ha Hb. destruct (do_spec (OSwap a b) s l H (conj Ha Hb)) as (s' & E & _).
  eexists. exact E.
Qed.

(** In particular every look-up of a stored number is in bounds. *)
Theorem C02_stored_lookups_in_bounds : forall s l v, reachable s l -> In v l ->
  exists k, il_getIndex s v = Ok k /\ 0 <= k < zlen l /\ zn 0 l k = v.
Proof.
  intros s l v H%reachable_rep Hv. exists (spec_pos l v).
  assert (0 <= spec_pos l v) by now apply spec_pos_nonneg_In.
  split; [|split].
  - apply getIndex_spec; auto. exists v. split; [auto|lia].
  - pose proof (spec_pos_range l v). lia.
  - now apply spec_pos_zz.
Qed.

Example C02_case : reachable (mkIL [7; 3; 0] [1; 0; 0] 2 3) [7; 3] /\ lookup_ok [7; 3] 5 /\
  il_getIndex (mkIL [7; 3; 0] [1; 0; 0] 2 3) 5 = Ok (-1).
Proof.
  split; [|split; [exists 3; simpl; split; [tauto|lia]|reflexivity]].
  exists 3, [0; 0; 0], [0; 0; 0], [OAdd 7; OAdd 3]. vm_compute. repeat split; try lia; try discriminate; try tauto.
Qed.

(** ** C57 *)

(** getNumber(length) passes the range check (Indexlist.ipp:50 tests
    [physicalindex > length]): it returns a stale number, or reads past the
    allocation when the list is full. *)
Theorem C57_getNumber_at_length_refuted :
  (exists s l, reachable s l /\ exists v, il_getNumber s (zlen l) = Ok v /\ v <> - rv_code RET_INDEXLIST_OUTOFBOUNDS) /\
  (exists s l, reachable s l /\ il_getNumber s (zlen l) = UB).
Proof.
  split.
  - exists (mkIL [7; -1; 0] [0; 1; 0] 1 3), [7]. split; [|exists (-1); split; [reflexivity|vm_compute; discriminate]].
    exists 3, [0; 0; 0], [0; 0; 0], [OAdd 7; OAdd 9; ORemove 9]. vm_compute.
    repeat split; try lia; try discriminate; try tauto; try (intros [?|[]]; discriminate).
    exists 7. split; [auto|discriminate].
  - exists (mkIL [7] [0] 1 1), [7]. split; [|reflexivity].
    exists 1, [0], [0], [OAdd 7]. vm_compute. repeat split; try lia; try discriminate; try tauto.
Qed.

Theorem C57_getNumber_elsewhere : forall s l k, reachable s l -> k <> zlen l ->
  il_getNumber s k = Ok (if (0 <=? k) && (k <? zlen l) then zn 0 l k else - rv_code RET_INDEXLIST_OUTOFBOUNDS).
Proof.
  intros s l k H%reachable_rep Hk. destruct (Z.leb_spec 0 k); [destruct (Z.ltb_spec k (zlen l))|]; cbn [andb].
  - apply getNumber_spec; auto.
  - apply (getNumber_refused s l); auto. lia.
  - apply (getNumber_refused s l); auto.
Qed.

(** ** C07, index lists *)

(** The copy has the same contents in fresh arrays (whatever those contained),
    so it answers every query and every later operation like the original.
    Values are immutable in the model: sharing would show up only if the copy
    referred to the original's arrays, which copy() replaces by new ones. *)
Theorem C07_indexlist_copy : forall s l jn js, reachable s l ->
  zlen jn = il_phys s -> zlen js = il_phys s ->
  exists s', il_copy s jn js = Ok s' /\ il_answers s' l /\
    forall ops, il_run ops s' = il_run ops s.
Proof.
  intros s l jn js H%reachable_rep Hj Hs. exists s. split.
  - reps H. apply copy_spec; auto. pose proof (zlen_nonneg jn). lia.
  - split; [now apply rep_answers|reflexivity].
Qed.

Print Assumptions C01_indexlist_is_ordered_set.
Print Assumptions C01_remove_keeps_order.
Print Assumptions C01_swap_exchanges.
Print Assumptions C02_lookup_in_bounds_refuted.
Print Assumptions C02_getIndex_defined_iff.
Print Assumptions C02_isMember_defined_iff.
Print Assumptions C02_removeNumber_defined_iff.
Print Assumptions C02_swapNumbers_defined.
Print Assumptions C02_stored_lookups_in_bounds.
Print Assumptions C57_getNumber_at_length_refuted.
Print Assumptions C57_getNumber_elsewhere.
Print Assumptions C07_indexlist_copy.
