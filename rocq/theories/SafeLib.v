(** Rules for proving memory safety of array code for every arithmetic: values
    read are arbitrary, only lengths are tracked. *)
From Verif Require Import Base Types Num Indexlist IndexlistProofs.

Section Rules.
Context {A : Type}.

Lemma wp_rdv (l : list A) i (Q : A -> Prop) : 0 <= i < zlen l -> (forall v, Q v) -> wp (rd l i) Q.
Proof.
  intros Hi H. destruct l as [|d l]; [unfold zlen in Hi; cbn in Hi; lia|]. rewrite (rd_ok d) by assumption. cbn. apply H.
Qed.
Lemma wp_wrv (l : list A) i v (Q : list A -> Prop) :
  0 <= i < zlen l -> (forall l', zlen l' = zlen l -> Q l') -> wp (wr l i v) Q.
Proof. intros Hi H. rewrite wr_ok by assumption. cbn. apply H. apply zlen_zupd. Qed.

(** for loops with an invariant that does not depend on the counter *)
Lemma wp_for_inv (I : A -> Prop) lo hi body s (Q : A -> Prop) :
  I s -> (forall i s, lo <= i < hi -> I s -> wp (body i s) I) -> (forall s, I s -> Q s) -> wp (for_up lo hi body s) Q.
Proof.
  intros H0 Hs HQ. destruct (Z.le_gt_cases lo hi).
  - apply wp_for_up with (I := fun _ => I); auto.
  - rewrite for_up_empty by lia. cbn. auto.
Qed.
Lemma wp_for_dn_inv (I : A -> Prop) hi lo body s (Q : A -> Prop) :
  I s -> (forall i s, lo < i <= hi -> I s -> wp (body i s) I) -> (forall s, I s -> Q s) -> wp (for_dn hi lo body s) Q.
Proof.
  intros H0 Hs HQ. destruct (Z.le_gt_cases lo hi).
  - apply wp_for_dn with (I := fun _ => I); auto.
  - rewrite for_dn_empty by lia. cbn. auto.
Qed.
Lemma wp_forb_inv {E} (I : A -> Prop) (J : E -> Prop) lo hi body s (Q : ctl A E -> Prop) :
  I s -> (forall i s, lo <= i < hi -> I s -> wp (body i s) (fun c => match c with Next s => I s | Brk e => J e end)) ->
  (forall s, I s -> Q (Next s)) -> (forall e, J e -> Q (Brk e)) -> wp (forb_up lo hi body s) Q.
Proof.
  intros H0 Hs HQ HJ. destruct (Z.le_gt_cases lo hi).
  - apply wp_forb_up with (I := fun _ => I) (J := J); auto.
  - unfold forb_up. replace (Z.to_nat (hi - lo)) with 0%nat by lia. cbn. auto.
Qed.
Lemma wp_forb_dn_inv {E} (I : A -> Prop) (J : E -> Prop) hi lo body s (Q : ctl A E -> Prop) :
  I s -> (forall i s, lo < i <= hi -> I s -> wp (body i s) (fun c => match c with Next s => I s | Brk e => J e end)) ->
  (forall s, I s -> Q (Next s)) -> (forall e, J e -> Q (Brk e)) -> wp (forb_dn hi lo body s) Q.
Proof.
  intros H0 Hs HQ HJ. destruct (Z.le_gt_cases lo hi).
  - apply wp_forb_dn with (I := fun _ => I) (J := J); auto.
  - unfold forb_dn. replace (Z.to_nat (hi - lo)) with 0%nat by lia. cbn. auto.
Qed.
End Rules.

(** loops over an array of fixed length *)
Lemma wp_for_len {A} lo hi body (l : list A) (Q : list A -> Prop) :
  (forall i s, lo <= i < hi -> zlen s = zlen l -> wp (body i s) (fun s' => zlen s' = zlen l)) ->
  (forall l', zlen l' = zlen l -> Q l') -> wp (for_up lo hi body l) Q.
Proof. intros H HQ. apply wp_for_inv with (I := fun s => zlen s = zlen l); auto. Qed.

(** entries of an index list *)
Lemma wp_rdi s l i (Q : Z -> Prop) : il_rep s l -> 0 <= i < zlen l -> (In (zn 0 l i) l -> Q (zn 0 l i)) -> wp (rd (il_number s) i) Q.
Proof. intros R Hi H. apply (rd_num s l); auto. apply H. now apply zn_In. Qed.
Lemma wp_rds s l i (Q : Z -> Prop) : il_rep s l -> 0 <= i < zlen l -> (0 <= zn 0 (il_iSort s) i < zlen l -> Q (zn 0 (il_iSort s) i)) ->
  wp (rd (il_iSort s) i) Q.
Proof. apply rd_sort. Qed.

Lemma wp_any {A} (m : res A) (P Q : A -> Prop) : wp m P -> (forall a, P a -> Q a) -> wp m Q.
Proof. apply wp_mono. Qed.

Ltac lens := rewrite ?zlen_zupd in *; try lia.
(** one step of a safety proof *)
Ltac sstep :=
  lazymatch goal with
  | |- wp (bind _ _) _ => apply wp_bind
  | |- wp (Ok _) _ => cbn [wp]
  | |- wp (rd _ _) _ => apply wp_rdv; [|intros ?]
  | |- wp (wr _ _ _) _ => apply wp_wrv; [|intros ? ?]
  | |- wp (if ?b then _ else _) _ => destruct b
  | |- wp (let '(_, _) := ?x in _) _ => destruct x
  | |- wp (match ?x with _ => _ end) _ => destruct x
  end.
