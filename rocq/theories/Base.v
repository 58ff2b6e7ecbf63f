(** Base: result monad with undefined behaviour, C arrays as lists, loops.

    This file is the modelling vocabulary; it follows no particular file of
    /repo.  Its purpose is that C++ code can be transcribed statement by
    statement, with every memory access checked. *)
From Coq Require Export ZArith List Bool Lia.
Export ListNotations.
Open Scope Z_scope.

(** ** Outcomes of running a piece of C++ code *)

Inductive res (A : Type) : Type :=
| Ok (a : A)      (* ran to completion *)
| UB              (* undefined behaviour: bad index, NULL dereference, ... *)
| Hang.           (* loop fuel exhausted; theorems exclude it *)
Arguments Ok {A} _.
Arguments UB {A}.
Arguments Hang {A}.

Definition bind {A B} (m : res A) (f : A -> res B) : res B :=
  match m with Ok a => f a | UB => UB | Hang => Hang end.

Declare Scope res_scope.
Delimit Scope res_scope with res.
Notation "x <- m ;; k" := (bind m (fun x => k))
  (at level 100, m at next level, right associativity) : res_scope.
Notation "' p <- m ;; k" := (bind m (fun x => match x with p => k end))
  (at level 100, p pattern, m at next level, right associativity) : res_scope.
Notation "m ;;; k" := (bind m (fun _ => k))
  (at level 100, right associativity) : res_scope.
Open Scope res_scope.

(** Total-correctness weakest precondition. *)
Definition wp {A} (m : res A) (Q : A -> Prop) : Prop :=
  match m with Ok a => Q a | _ => False end.

(** ** Arrays *)

Definition zlen {A} (l : list A) : Z := Z.of_nat (length l).

(** Pure total access, for specifications. *)
Definition zn {A} (d : A) (l : list A) (i : Z) : A := nth (Z.to_nat i) l d.

Fixpoint upd {A} (l : list A) (k : nat) (v : A) : list A :=
  match l, k with
  | [], _ => []
  | _ :: t, O => v :: t
  | h :: t, S k' => h :: upd t k' v
  end.
Definition zupd {A} (l : list A) (i : Z) (v : A) : list A := upd l (Z.to_nat i) v.

(** Checked access: the C++ expressions [l[i]] and [l[i] = v]. *)
Definition inb {A} (l : list A) (i : Z) : bool := (0 <=? i) && (i <? zlen l).

Definition rd {A} (l : list A) (i : Z) : res A :=
  if 0 <=? i then match nth_error l (Z.to_nat i) with Some a => Ok a | None => UB end else UB.

Definition wr {A} (l : list A) (i : Z) (v : A) : res (list A) :=
  if inb l i then Ok (zupd l i v) else UB.

Arguments Z.add : simpl never.
Arguments Z.sub : simpl never.
Arguments Z.mul : simpl never.
Arguments Z.opp : simpl never.
Arguments Z.of_nat : simpl never.
Arguments Z.to_nat : simpl never.
Arguments Z.quot : simpl never.
Arguments Z.div : simpl never.
Arguments zlen : simpl never.
Arguments zn : simpl never.
Arguments zupd : simpl never.
Arguments rd : simpl never.
Arguments wr : simpl never.

(** ** Loops *)

(** [for ( i=lo; i<hi; ++i ) body] *)
Fixpoint for_up_n {S} (n : nat) (i : Z) (body : Z -> S -> res S) (s : S) : res S :=
  match n with
  | O => Ok s
  | S n' => s' <- body i s ;; for_up_n n' (i + 1) body s'
  end.
Definition for_up {S} (lo hi : Z) (body : Z -> S -> res S) (s : S) : res S :=
  for_up_n (Z.to_nat (hi - lo)) lo body s.

(** [for ( i=hi; i>lo; --i ) body] *)
Fixpoint for_dn_n {S} (n : nat) (i : Z) (body : Z -> S -> res S) (s : S) : res S :=
  match n with
  | O => Ok s
  | S n' => s' <- body i s ;; for_dn_n n' (i - 1) body s'
  end.
Definition for_dn {S} (hi lo : Z) (body : Z -> S -> res S) (s : S) : res S :=
  for_dn_n (Z.to_nat (hi - lo)) hi body s.

(** Loops whose body may [return]/[break] with a value. *)
Inductive ctl (S E : Type) : Type := Next (s : S) | Brk (e : E).
Arguments Next {S E} _.
Arguments Brk {S E} _.

Fixpoint forb_up_n {S E} (n : nat) (i : Z) (body : Z -> S -> res (ctl S E)) (s : S) : res (ctl S E) :=
  match n with
  | O => Ok (Next s)
  | S n' => c <- body i s ;;
      match c with Next s' => forb_up_n n' (i + 1) body s' | Brk e => Ok (Brk e) end
  end.
Definition forb_up {S E} (lo hi : Z) (body : Z -> S -> res (ctl S E)) (s : S) : res (ctl S E) :=
  forb_up_n (Z.to_nat (hi - lo)) lo body s.

Fixpoint forb_dn_n {S E} (n : nat) (i : Z) (body : Z -> S -> res (ctl S E)) (s : S) : res (ctl S E) :=
  match n with
  | O => Ok (Next s)
  | S n' => c <- body i s ;;
      match c with Next s' => forb_dn_n n' (i - 1) body s' | Brk e => Ok (Brk e) end
  end.
Definition forb_dn {S E} (hi lo : Z) (body : Z -> S -> res (ctl S E)) (s : S) : res (ctl S E) :=
  forb_dn_n (Z.to_nat (hi - lo)) hi body s.

(** [while ( cond ) body] on explicit fuel. *)
Fixpoint while_ {S} (fuel : nat) (cond : S -> res bool) (body : S -> res S) (s : S) : res S :=
  match fuel with
  | O => Hang
  | S f => b <- cond s ;;
      if b then (s' <- body s ;; while_ f cond body s') else Ok s
  end.

(** ** Lemmas about the vocabulary *)

Lemma wp_ok {A} (a : A) (Q : A -> Prop) : Q a -> wp (Ok a) Q.
Proof. exact (fun H => H). Qed.

Lemma wp_bind {A B} (m : res A) (f : A -> res B) (Q : B -> Prop) :
  wp m (fun a => wp (f a) Q) -> wp (bind m f) Q.
Proof. destruct m; simpl; auto. Qed.

Lemma wp_bind_inv {A B} (m : res A) (f : A -> res B) (Q : B -> Prop) :
  wp (bind m f) Q -> wp m (fun a => wp (f a) Q).
Proof. destruct m; simpl; auto. Qed.

Lemma wp_mono {A} (m : res A) (P Q : A -> Prop) :
  wp m P -> (forall a, P a -> Q a) -> wp m Q.
Proof. destruct m; simpl; auto. Qed.

Lemma wp_conj {A} (m : res A) (P Q : A -> Prop) :
  wp m P -> wp m Q -> wp m (fun a => P a /\ Q a).
Proof. destruct m; simpl; auto. Qed.

Lemma wp_inv {A} (m : res A) (Q : A -> Prop) :
  wp m Q -> exists a, m = Ok a /\ Q a.
Proof. destruct m; simpl; intros H; try contradiction; eauto. Qed.

Lemma wp_of_ok {A} (m : res A) (a : A) (Q : A -> Prop) :
  m = Ok a -> Q a -> wp m Q.
Proof. intros -> H; exact H. Qed.

Lemma wp_ok_inv {A} (m : res A) (a : A) (Q : A -> Prop) :
  wp m Q -> m = Ok a -> Q a.
Proof. intros H ->; exact H. Qed.

Lemma bind_ok {A B} (m : res A) (f : A -> res B) (b : B) :
  bind m f = Ok b -> exists a, m = Ok a /\ f a = Ok b.
Proof. destruct m; simpl; intros H; try discriminate; eauto. Qed.

(** *** list access *)

Lemma zlen_nonneg {A} (l : list A) : 0 <= zlen l.
Proof. unfold zlen; lia. Qed.

Lemma zlen_nil {A} : zlen (@nil A) = 0.
Proof. reflexivity. Qed.

Lemma zlen_cons {A} (a : A) l : zlen (a :: l) = 1 + zlen l.
Proof. unfold zlen; simpl length; lia. Qed.

Lemma zlen_app {A} (l m : list A) : zlen (l ++ m) = zlen l + zlen m.
Proof. unfold zlen; rewrite app_length; lia. Qed.

Lemma zlen_repeat {A} (a : A) n : zlen (repeat a n) = Z.of_nat n.
Proof. unfold zlen; now rewrite repeat_length. Qed.

Lemma upd_length {A} (l : list A) k v : length (upd l k v) = length l.
Proof. revert k; induction l as [|h t IH]; intros [|k]; simpl; auto. Qed.

Lemma zlen_zupd {A} (l : list A) i v : zlen (zupd l i v) = zlen l.
Proof. unfold zlen, zupd; now rewrite upd_length. Qed.

Lemma nth_upd_eq {A} (d : A) l k v : (k < length l)%nat -> nth k (upd l k v) d = v.
Proof. revert k; induction l as [|h t IH]; intros [|k]; simpl; intros; try lia; auto. apply IH; lia. Qed.

Lemma nth_upd_ne {A} (d : A) l k j v : j <> k -> nth j (upd l k v) d = nth j l d.
Proof.
  revert k j; induction l as [|h t IH]; intros [|k] [|j]; simpl; intros; try congruence; auto.
Qed.

Lemma zn_zupd_eq {A} (d : A) l i v : 0 <= i < zlen l -> zn d (zupd l i v) i = v.
Proof. unfold zn, zupd, zlen; intros; apply nth_upd_eq; lia. Qed.

Lemma zn_zupd_ne {A} (d : A) l i j v : 0 <= i -> 0 <= j -> j <> i -> zn d (zupd l i v) j = zn d l j.
Proof. unfold zn, zupd; intros; apply nth_upd_ne; lia. Qed.

Lemma zn_zupd {A} (d : A) l i j v : 0 <= i < zlen l -> 0 <= j ->
  zn d (zupd l i v) j = if j =? i then v else zn d l j.
Proof.
  intros Hi Hj. destruct (Z.eqb_spec j i) as [->|Hne].
  - now apply zn_zupd_eq.
  - now apply zn_zupd_ne; try lia.
Qed.

Lemma rd_ok {A} (d : A) l i : 0 <= i < zlen l -> rd l i = Ok (zn d l i).
Proof.
  unfold rd, zn, zlen; intros H. destruct (Z.leb_spec 0 i); [|lia].
  destruct (nth_error l (Z.to_nat i)) eqn:E.
  - now rewrite (nth_error_nth _ _ _ E).
  - apply nth_error_None in E; lia.
Qed.

Lemma rd_inv {A} l i (a : A) : rd l i = Ok a -> 0 <= i < zlen l /\ forall d, zn d l i = a.
Proof.
  unfold rd, zn, zlen; intros H. destruct (Z.leb_spec 0 i); [|discriminate].
  destruct (nth_error l (Z.to_nat i)) eqn:E; [|discriminate].
  injection H as ->. split.
  - assert (Z.to_nat i < length l)%nat by (apply nth_error_Some; congruence). lia.
  - intros d. now apply nth_error_nth.
Qed.

Lemma rd_ub {A} (l : list A) i : ~ (0 <= i < zlen l) -> rd l i = UB.
Proof.
  unfold rd, zlen; intros H. destruct (Z.leb_spec 0 i); [|reflexivity].
  destruct (nth_error l (Z.to_nat i)) eqn:E; [|reflexivity].
  assert (Z.to_nat i < length l)%nat by (apply nth_error_Some; congruence). lia.
Qed.

Lemma wr_ok {A} (l : list A) i v : 0 <= i < zlen l -> wr l i v = Ok (zupd l i v).
Proof. unfold wr, inb; intros H. destruct (Z.leb_spec 0 i), (Z.ltb_spec i (zlen l)); simpl; auto; lia. Qed.

Lemma wr_inv {A} (l l' : list A) i v : wr l i v = Ok l' -> 0 <= i < zlen l /\ l' = zupd l i v.
Proof.
  unfold wr, inb. destruct (Z.leb_spec 0 i), (Z.ltb_spec i (zlen l)); simpl; intros E; inversion E; auto.
Qed.

Lemma wr_ub {A} (l : list A) i v : ~ (0 <= i < zlen l) -> wr l i v = UB.
Proof. unfold wr, inb; intros H. destruct (Z.leb_spec 0 i), (Z.ltb_spec i (zlen l)); simpl; auto; lia. Qed.

Lemma wp_rd {A} (d : A) l i (Q : A -> Prop) : 0 <= i < zlen l -> Q (zn d l i) -> wp (rd l i) Q.
Proof. intros H HQ. now rewrite (rd_ok d) by assumption. Qed.

Lemma wp_wr {A} (l : list A) i v (Q : list A -> Prop) : 0 <= i < zlen l -> Q (zupd l i v) -> wp (wr l i v) Q.
Proof. intros H HQ. now rewrite wr_ok by assumption. Qed.

Lemma list_ext_zn {A} (d : A) (l m : list A) :
  zlen l = zlen m -> (forall i, 0 <= i < zlen l -> zn d l i = zn d m i) -> l = m.
Proof.
  unfold zlen, zn; intros Hl H. apply (nth_ext l m d d); [lia|].
  intros n Hn. specialize (H (Z.of_nat n)). rewrite Nat2Z.id in H. apply H; lia.
Qed.

Lemma zn_In {A} (d : A) l i : 0 <= i < zlen l -> In (zn d l i) l.
Proof. unfold zn, zlen; intros; apply nth_In; lia. Qed.

Lemma In_zn {A} (d : A) l a : In a l -> exists i, 0 <= i < zlen l /\ zn d l i = a.
Proof.
  intros H. apply (In_nth _ _ d) in H as (n & Hn & E).
  exists (Z.of_nat n). unfold zn, zlen. rewrite Nat2Z.id. split; [lia|assumption].
Qed.

Lemma zn_app1 {A} (d : A) l m i : 0 <= i < zlen l -> zn d (l ++ m) i = zn d l i.
Proof. unfold zn, zlen; intros; apply app_nth1; lia. Qed.

Lemma zn_app2 {A} (d : A) l m i : zlen l <= i -> zn d (l ++ m) i = zn d m (i - zlen l).
Proof. unfold zn, zlen; intros. rewrite app_nth2 by lia. f_equal. lia. Qed.

Lemma zn_repeat {A} (d a : A) n i : 0 <= i < Z.of_nat n -> zn d (repeat a n) i = a.
Proof. unfold zn; intros. apply nth_repeat_lt || (rewrite nth_indep with (d' := a); [apply nth_repeat|rewrite repeat_length; lia]). Qed.

Lemma zn_map {A B} (f : A -> B) (da : A) (db : B) l i : 0 <= i < zlen l -> zn db (map f l) i = f (zn da l i).
Proof.
  unfold zn, zlen; intros. rewrite (nth_indep _ db (f da)) by (rewrite map_length; lia). apply map_nth.
Qed.

Lemma zlen_map {A B} (f : A -> B) l : zlen (map f l) = zlen l.
Proof. unfold zlen; now rewrite map_length. Qed.

Lemma zupd_same {A} (d : A) l i : zupd l i (zn d l i) = l.
Proof.
  unfold zupd, zn. generalize (Z.to_nat i) as k. induction l as [|h t IH]; intros [|k]; simpl; auto. now rewrite IH.
Qed.

Lemma zupd_zupd {A} (l : list A) i v w : zupd (zupd l i v) i w = zupd l i w.
Proof.
  unfold zupd. generalize (Z.to_nat i) as k. induction l as [|h t IH]; intros [|k]; simpl; auto. now rewrite IH.
Qed.

(** *** loops *)

Lemma for_up_empty {S} lo hi (body : Z -> S -> res S) s : hi <= lo -> for_up lo hi body s = Ok s.
Proof. unfold for_up; intros. replace (Z.to_nat (hi - lo)) with O by lia. reflexivity. Qed.

Lemma for_dn_empty {S} lo hi (body : Z -> S -> res S) s : hi <= lo -> for_dn hi lo body s = Ok s.
Proof. unfold for_dn; intros. replace (Z.to_nat (hi - lo)) with O by lia. reflexivity. Qed.

Lemma for_up_step {S} lo hi (body : Z -> S -> res S) s : lo < hi ->
  for_up lo hi body s = (s' <- body lo s ;; for_up (lo + 1) hi body s').
Proof.
  unfold for_up; intros. replace (Z.to_nat (hi - lo)) with (Datatypes.S (Z.to_nat (hi - (lo + 1)))) by lia. reflexivity.
Qed.

Lemma for_up_last {S} lo hi (body : Z -> S -> res S) s : lo <= hi ->
  for_up lo (hi + 1) body s = (s' <- for_up lo hi body s ;; body hi s').
Proof.
  unfold for_up; intros H.
  replace (Z.to_nat (hi + 1 - lo)) with (Datatypes.S (Z.to_nat (hi - lo))) by lia.
  remember (Z.to_nat (hi - lo)) as n eqn:E.
  assert (Hhi : hi = lo + Z.of_nat n) by lia. clear E H. revert lo s hi Hhi.
  induction n as [|n IH]; intros lo s hi Hhi.
  - simpl. replace hi with lo by lia. destruct (body lo s); reflexivity.
  - cbn [for_up_n]. cbn [for_up_n] in IH. destruct (body lo s) as [s'| |]; cbn [bind]; try reflexivity.
    apply (IH (lo + 1) s' hi). lia.
Qed.

Lemma wp_for_up {S} (I : Z -> S -> Prop) lo hi body (s : S) (Q : _ -> Prop) :
  lo <= hi -> I lo s ->
  (forall i s, lo <= i < hi -> I i s -> wp (body i s) (I (i + 1))) ->
  (forall s, I hi s -> Q s) ->
  wp (for_up lo hi body s) Q.
Proof.
  unfold for_up; intros Hle H0 Hs HQ.
  remember (Z.to_nat (hi - lo)) as n eqn:E.
  assert (Hhi : hi = lo + Z.of_nat n) by lia. clear E.
  cut (forall lo' s', lo <= lo' -> forall n', hi = lo' + Z.of_nat n' -> I lo' s' -> wp (for_up_n n' lo' body s') Q).
  { intros H. apply (H lo s); auto; lia. }
  intros lo' s' Hlo n'. revert lo' s' Hlo. induction n' as [|n' IH]; intros lo' s' Hlo E HI.
  - simpl. apply HQ. replace hi with lo' by lia. exact HI.
  - cbn [for_up_n]. apply wp_bind. apply wp_mono with (P := I (lo' + 1)).
    + apply Hs; [lia|assumption].
    + intros a Ha. apply IH; auto; lia.
Qed.

Lemma wp_for_dn {S} (I : Z -> S -> Prop) hi lo body (s : S) (Q : _ -> Prop) :
  lo <= hi -> I hi s ->
  (forall i s, lo < i <= hi -> I i s -> wp (body i s) (I (i - 1))) ->
  (forall s, I lo s -> Q s) ->
  wp (for_dn hi lo body s) Q.
Proof.
  unfold for_dn; intros Hle H0 Hs HQ.
  cut (forall n' hi' s', hi' <= hi -> hi' = lo + Z.of_nat n' -> I hi' s' -> wp (for_dn_n n' hi' body s') Q).
  { intros H. apply H; auto; lia. }
  induction n' as [|n' IH]; intros hi' s' Hhi E HI.
  - simpl. apply HQ. replace lo with hi' by lia. exact HI.
  - cbn [for_dn_n]. apply wp_bind. apply wp_mono with (P := I (hi' - 1)).
    + apply Hs; [lia|assumption].
    + intros a Ha. apply IH; auto; lia.
Qed.

(** Loops with early exit: [J] is the postcondition of an exit with [Brk]. *)
Lemma wp_forb_up {S E} (I : Z -> S -> Prop) (J : E -> Prop) lo hi body (s : S) (Q : _ -> Prop) :
  lo <= hi -> I lo s ->
  (forall i s, lo <= i < hi -> I i s ->
     wp (body i s) (fun c => match c with Next s' => I (i + 1) s' | Brk e => J e end)) ->
  (forall s, I hi s -> Q (Next s)) -> (forall e, J e -> Q (Brk e)) ->
  wp (forb_up lo hi body s) Q.
Proof.
  unfold forb_up; intros Hle H0 Hs HQ HJ.
  cut (forall n' lo' s', lo <= lo' -> hi = lo' + Z.of_nat n' -> I lo' s' -> wp (forb_up_n n' lo' body s') Q).
  { intros H. apply H; auto; lia. }
  induction n' as [|n' IH]; intros lo' s' Hlo E0 HI.
  - simpl. apply HQ. replace hi with lo' by lia. exact HI.
  - cbn [forb_up_n]. apply wp_bind. eapply wp_mono.
    + apply Hs; [lia|eassumption].
    + intros [a|e] Ha; simpl.
      * apply IH; auto; lia.
      * auto.
Qed.

Lemma wp_forb_dn {S E} (I : Z -> S -> Prop) (J : E -> Prop) hi lo body (s : S) (Q : _ -> Prop) :
  lo <= hi -> I hi s ->
  (forall i s, lo < i <= hi -> I i s ->
     wp (body i s) (fun c => match c with Next s' => I (i - 1) s' | Brk e => J e end)) ->
  (forall s, I lo s -> Q (Next s)) -> (forall e, J e -> Q (Brk e)) ->
  wp (forb_dn hi lo body s) Q.
Proof.
  unfold forb_dn; intros Hle H0 Hs HQ HJ.
  cut (forall n' hi' s', hi' <= hi -> hi' = lo + Z.of_nat n' -> I hi' s' -> wp (forb_dn_n n' hi' body s') Q).
  { intros H. apply H; auto; lia. }
  induction n' as [|n' IH]; intros hi' s' Hhi E0 HI.
  - simpl. apply HQ. replace lo with hi' by lia. exact HI.
  - cbn [forb_dn_n]. apply wp_bind. eapply wp_mono.
    + apply Hs; [lia|eassumption].
    + intros [a|e] Ha; simpl.
      * apply IH; auto; lia.
      * auto.
Qed.

(** While loops: a measure shows that the fuel suffices. *)
Lemma wp_while {S} (I : S -> Prop) (m : S -> nat) fuel (cond : S -> res bool) (body : S -> res S) (s : S) (Q : S -> Prop) :
  I s -> (m s < fuel)%nat ->
  (forall s, I s -> wp (cond s) (fun b =>
     if b then wp (body s) (fun s' => I s' /\ (m s' < m s)%nat) else Q s)) ->
  wp (while_ fuel cond body s) Q.
Proof.
  revert s; induction fuel as [|f IH]; intros s HI Hm Hstep; [lia|].
  cbn [while_]. apply wp_bind. eapply wp_mono; [apply (Hstep s HI)|].
  intros [|] Hb; [|exact Hb].
  apply wp_bind. eapply wp_mono; [exact Hb|]. intros s' [HI' Hlt].
  apply IH; auto; lia.
Qed.

(** Loops that cannot be entered or whose invariant needs no bounds. *)
Lemma for_up_ok_inv {S} (I : Z -> S -> Prop) lo hi (body : Z -> S -> res S) (s s' : S) :
  for_up lo hi body s = Ok s' -> lo <= hi -> I lo s ->
  (forall i a b, lo <= i < hi -> I i a -> body i a = Ok b -> I (i + 1) b) ->
  I hi s'.
Proof.
  unfold for_up; intros E Hle H0 Hs.
  assert (G : forall n lo' a, lo <= lo' -> hi = lo' + Z.of_nat n -> I lo' a -> for_up_n n lo' body a = Ok s' -> I hi s').
  { induction n as [|n IH]; intros lo' a Hlo Eh HI Ea.
    - simpl in Ea. inversion Ea; subst a. replace hi with lo' by lia. exact HI.
    - cbn [for_up_n] in Ea. apply bind_ok in Ea as (b & Eb & Ea).
      eapply (IH (lo' + 1) b); eauto; try lia. eapply Hs; eauto. lia. }
  apply (G (Z.to_nat (hi - lo)) lo s); auto; lia.
Qed.
