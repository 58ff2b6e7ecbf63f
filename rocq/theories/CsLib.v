(** Compressed (sparse) storage: what it represents, and the loops over it. *)
From Verif Require Import Base Types Num Indexlist IndexlistProofs RSum Loops Utils PropUtils Matrices MatLib PropDense.
Local Open Scope R_scope.

(** ** Specification *)

(** n compressed vectors of length m: the entries of vector j are stored at the
    positions ptr[j] .. ptr[j+1]-1, position p holding component idx[p]. *)
Record wf_cs {T : Type} (n m : Z) (ptr idx : list Z) (val : list T) : Prop := {
  cs_n : (0 <= n)%Z; cs_m : (0 <= m)%Z;
  cs_ptr : (n < zlen ptr)%Z;
  cs_first : (0 <= zn 0 ptr 0)%Z;
  cs_mono : forall j, (0 <= j < n)%Z -> (zn 0 ptr j <= zn 0 ptr (j + 1))%Z;
  cs_idx : (zn 0 ptr n <= zlen idx)%Z;
  cs_val : (zn 0 ptr n <= zlen val)%Z;
  cs_rng : forall p, (zn 0 ptr 0 <= p < zn 0 ptr n)%Z -> (0 <= zn 0 idx p < m)%Z;
  cs_srt : forall j p q, (0 <= j < n)%Z -> (zn 0 ptr j <= p < q)%Z -> (q < zn 0 ptr (j + 1))%Z -> (zn 0 idx p < zn 0 idx q)%Z
}.

(** component r of vector j *)
Definition ent (ptr idx : list Z) (val : list R) (j r : Z) : R :=
  rsum (zn 0%Z ptr j) (zn 0%Z ptr (j + 1)) (fun p => if (zn 0%Z idx p =? r)%Z then zn 0 val p else 0).

Section Cs0.
Context {T : Type}.
Variables (n m : Z) (ptr idx : list Z) (val : list T).
Hypothesis WF : wf_cs n m ptr idx val.

Lemma ptr_mono i j : (0 <= i <= j)%Z -> (j <= n)%Z -> (zn 0 ptr i <= zn 0 ptr j)%Z.
Proof.
  intros Hij Hj. assert (H : forall k : nat, (i + Z.of_nat k <= n)%Z -> (zn 0 ptr i <= zn 0 ptr (i + Z.of_nat k))%Z).
  { induction k as [|k IH]; intros Hk; [rewrite Z.add_0_r; lia|].
    specialize (IH ltac:(lia)). pose proof (cs_mono _ _ _ _ _ WF (i + Z.of_nat k)%Z ltac:(lia)).
    replace (i + Z.of_nat (S k))%Z with (i + Z.of_nat k + 1)%Z by lia. lia. }
  specialize (H (Z.to_nat (j - i)) ltac:(lia)). rewrite Z2Nat.id in H by lia. now replace (i + (j - i))%Z with j in H by lia.
Qed.

Lemma pos_in j p : (0 <= j < n)%Z -> (zn 0 ptr j <= p < zn 0 ptr (j + 1))%Z ->
  (zn 0 ptr 0 <= p < zn 0 ptr n)%Z /\ (0 <= p < zlen idx)%Z /\ (0 <= p < zlen val)%Z /\ (0 <= zn 0 idx p < m)%Z.
Proof.
  intros Hj Hp. pose proof (ptr_mono 0 j ltac:(lia) ltac:(lia)). pose proof (ptr_mono (j + 1) n ltac:(lia) ltac:(lia)).
  pose proof (cs_first _ _ _ _ _ WF). pose proof (cs_idx _ _ _ _ _ WF). pose proof (cs_val _ _ _ _ _ WF).
  repeat split; try lia; apply (cs_rng _ _ _ _ _ WF); lia.
Qed.

Lemma rd_ptr j : (0 <= j <= n)%Z -> rd ptr j = Ok (zn 0%Z ptr j).
Proof. intros Hj. apply rd_ok. pose proof (cs_ptr _ _ _ _ _ WF). lia. Qed.
Lemma rd_idx j p : (0 <= j < n)%Z -> (zn 0 ptr j <= p < zn 0 ptr (j + 1))%Z -> rd idx p = Ok (zn 0%Z idx p).
Proof. intros Hj Hp. apply rd_ok. now apply (pos_in j). Qed.
Lemma idx_inj j p q : (0 <= j < n)%Z -> (zn 0 ptr j <= p < zn 0 ptr (j + 1))%Z -> (zn 0 ptr j <= q < zn 0 ptr (j + 1))%Z ->
  zn 0%Z idx p = zn 0%Z idx q -> p = q.
Proof.
  intros Hj Hp Hq E. destruct (Z.lt_total p q) as [L|[L|L]]; [|assumption|].
  - pose proof (cs_srt _ _ _ _ _ WF j p q Hj ltac:(lia) ltac:(lia)). lia.
  - pose proof (cs_srt _ _ _ _ _ WF j q p Hj ltac:(lia) ltac:(lia)). lia.
Qed.

(** loops over one vector *)
Lemma each_entry_eq {St} j f (s : St) : (0 <= j < n)%Z ->
  each_entry ptr j f s = for_up (zn 0%Z ptr j) (zn 0%Z ptr (j + 1)) f s.
Proof. intros Hj. unfold each_entry. rewrite !rd_ptr by lia. reflexivity. Qed.

(** ** Scanning for a component *)
Lemma scan_ok j r : (0 <= j < n)%Z -> exists i, scan idx (zn 0%Z ptr j) (zn 0%Z ptr (j + 1)) r = Ok i /\
  (zn 0 ptr j <= i <= zn 0 ptr (j + 1))%Z /\
  (forall p, (zn 0 ptr j <= p < i)%Z -> (zn 0 idx p < r)%Z) /\ (forall p, (i <= p < zn 0 ptr (j + 1))%Z -> (r <= zn 0 idx p)%Z).
Proof.
  intros Hj. unfold scan. set (lo := zn 0%Z ptr j). set (hi := zn 0%Z ptr (j + 1)).
  pose proof (cs_mono _ _ _ _ _ WF j Hj) as Hm. fold lo hi in Hm.
  match goal with |- context [bind ?mm _] => assert (W : wp mm (fun c => match c with
     | Next _ => forall p, (lo <= p < hi)%Z -> (zn 0 idx p < r)%Z
     | Brk i => (lo <= i < hi)%Z /\ (forall p, (lo <= p < i)%Z -> (zn 0 idx p < r)%Z) /\ (r <= zn 0 idx i)%Z end)) end.
  - apply wp_forb_up with (I := fun k _ => forall p, (lo <= p < k)%Z -> (zn 0 idx p < r)%Z)
      (J := fun i => (lo <= i < hi)%Z /\ (forall p, (lo <= p < i)%Z -> (zn 0 idx p < r)%Z) /\ (r <= zn 0 idx i)%Z); auto.
    + intros p Hp. lia.
    + intros i _ Hi HI. rewrite (rd_idx j) by assumption. cbn [bind]. destruct (Z.ltb_spec (zn 0%Z idx i) r) as [L|L]; cbn [wp].
      * intros p Hp. destruct (Z.eq_dec p i) as [->|]; [assumption|]. apply HI. lia.
      * repeat split; try lia. exact HI.
  - apply wp_inv in W as (c & E & Hc). rewrite E. cbn [bind]. destruct c as [u|i].
    + exists hi. rewrite Z.max_r by lia. repeat split; try lia. exact Hc.
    + exists i. destruct Hc as (Hi & H1 & H2). repeat split; try lia; auto.
      intros p Hp. destruct (Z.eq_dec p i) as [->|]; [assumption|].
      pose proof (cs_srt _ _ _ _ _ WF j i p Hj ltac:(fold lo; lia) ltac:(fold hi; lia)). lia.
Qed.

(** ** Merging with an index list *)
Lemma merge_ok {St} (I : Z -> Z -> St -> Prop) j lo s l hit miss (s0 : St) (Q : Z -> Z -> St -> Prop) :
  (0 <= j < n)%Z -> (zn 0 ptr j <= lo <= zn 0 ptr (j + 1))%Z -> il_rep s l ->
  let hi := zn 0%Z ptr (j + 1) in
  let L c := zn 0%Z l (zn 0%Z (il_iSort s) c) in
  let below i k := (forall p c, (lo <= p < i)%Z -> (k <= c < zlen l)%Z -> (zn 0 idx p < L c)%Z) /\
                   (forall p c, (i <= p < hi)%Z -> (0 <= c < k)%Z -> (L c < zn 0 idx p)%Z) in
  I lo 0%Z s0 ->
  (forall i k st, (lo <= i < hi)%Z -> (0 <= k < zlen l)%Z -> below i k -> I i k st -> zn 0%Z idx i = L k ->
     wp (hit i (zn 0%Z (il_iSort s) k) st) (I (i + 1)%Z (k + 1)%Z)) ->
  (forall i k st, (lo <= i < hi)%Z -> (0 <= k < zlen l)%Z -> below i k -> I i k st -> (L k < zn 0 idx i)%Z ->
     wp (miss (zn 0%Z (il_iSort s) k) st) (I i (k + 1)%Z)) ->
  (forall i k st, (lo <= i < hi)%Z -> (0 <= k < zlen l)%Z -> below i k -> I i k st -> (zn 0 idx i < L k)%Z -> I (i + 1)%Z k st) ->
  (forall i k st, (lo <= i <= hi)%Z -> (0 <= k <= zlen l)%Z -> below i k -> I i k st -> (i = hi \/ k = zlen l) -> Q i k st) ->
  wp (merge idx lo hi s hit miss s0) (fun r => let '(i, k, st) := r in Q i k st).
Proof.
  intros Hj Hlo Rp hi L below H0 Hhit Hmiss Hskip HQ. unfold merge. pose proof (zlen_nonneg l) as Hl.
  apply wp_while with (I := fun r => let '(i, k, st) := r in (lo <= i <= hi)%Z /\ (0 <= k <= zlen l)%Z /\ below i k /\ I i k st)
    (m := fun r => let '(i, k, _) := r in (Z.to_nat (hi - i) + Z.to_nat (zlen l - k))%nat).
  - split; [subst hi; lia|]. split; [lia|]. split; [|assumption]. split; intros; lia.
  - rewrite (rep_len _ _ Rp). lia.
  - intros [[i k] st] (Hi & Hk & [B1 B2] & HI). cbn [wp]. rewrite (rep_len _ _ Rp).
    destruct (Z.ltb_spec i hi) as [Li|Li]; destruct (Z.ltb_spec k (zlen l)) as [Lk|Lk]; cbn [andb].
    2-4: apply HQ; auto; try (split; assumption); lia.
    rewrite (rd_idx j) by (subst hi; lia). cbn [bind]. rewrite (rd_iSort s l) by (auto; lia). cbn [bind].
    pose proof (rep_rng _ _ Rp k ltac:(lia)) as Hr. rewrite (rd_number s l) by auto. cbn [bind]. fold (L k).
    destruct (Z.eqb_spec (zn 0%Z idx i) (L k)) as [E|NE]; [|destruct (Z.ltb_spec (L k) (zn 0%Z idx i)) as [Lt|Lt]].
    + apply wp_bind. eapply wp_mono; [apply (Hhit i k st); auto; try lia; split; assumption|]. intros st' HI'. cbn [wp].
      split; [|lia]. split; [lia|]. split; [lia|]. split; [|assumption]. split.
      * intros p c Hp Hc. assert (Lkc : (L k < L c)%Z) by (apply (rep_srt _ _ Rp); lia).
        destruct (Z.eq_dec p i) as [->|]; [lia|]. specialize (B1 p c ltac:(lia) ltac:(lia)). lia.
      * intros p c Hp Hc. assert (Lip : (zn 0 idx i < zn 0 idx p)%Z) by (apply (cs_srt _ _ _ _ _ WF j); subst hi; lia).
        destruct (Z.eq_dec c k) as [->|]; [lia|]. specialize (B2 p c ltac:(lia) ltac:(lia)). lia.
    + apply wp_bind. eapply wp_mono; [apply (Hmiss i k st); auto; try lia; split; assumption|]. intros st' HI'. cbn [wp].
      split; [|lia]. split; [lia|]. split; [lia|]. split; [|assumption]. split.
      * intros p c Hp Hc. apply B1; lia.
      * intros p c Hp Hc. destruct (Z.eq_dec c k) as [->|]; [|apply B2; lia].
        destruct (Z.eq_dec p i) as [->|]; [lia|]. pose proof (cs_srt _ _ _ _ _ WF j i p Hj ltac:(lia) ltac:(subst hi; lia)). lia.
    + cbn [wp]. split; [|lia]. split; [lia|]. split; [lia|]. split; [|apply Hskip; auto; try lia; split; assumption]. split.
      * intros p c Hp Hc. destruct (Z.eq_dec p i) as [->|]; [|apply B1; lia].
        destruct (Z.eq_dec c k) as [->|]; [lia|]. assert (L k < L c)%Z by (apply (rep_srt _ _ Rp); lia). lia.
      * intros p c Hp Hc. apply B2; lia.
Qed.

End Cs0.

Section Cs.
Variables (n m : Z) (ptr idx : list Z) (val : list R).
Hypothesis WF : wf_cs n m ptr idx val.

Lemma rd_val j p : (0 <= j < n)%Z -> (zn 0 ptr j <= p < zn 0 ptr (j + 1))%Z -> rd val p = Ok (zn 0 val p).
Proof. intros Hj Hp. apply rd_ok. now apply (pos_in _ _ _ _ _ WF j). Qed.

(** the value of a stored entry *)
Lemma ent_stored j p : (0 <= j < n)%Z -> (zn 0 ptr j <= p < zn 0 ptr (j + 1))%Z -> ent ptr idx val j (zn 0%Z idx p) = zn 0 val p.
Proof.
  intros Hj Hp. unfold ent. rewrite (rsum_delta _ _ p); [now rewrite Z.eqb_refl|assumption|].
  intros q Hq Hne. destruct (Z.eqb_spec (zn 0%Z idx q) (zn 0%Z idx p)) as [E|]; [|reflexivity]. now apply (idx_inj _ _ _ _ _ WF j) in E.
Qed.
Lemma ent_absent j r : (forall p, (zn 0 ptr j <= p < zn 0 ptr (j + 1))%Z -> zn 0%Z idx p <> r) -> ent ptr idx val j r = 0.
Proof. intros H. apply rsum_0. intros p Hp. destruct (Z.eqb_spec (zn 0%Z idx p) r) as [E|]; [|reflexivity]. now apply H in E. Qed.

(** sums over the stored entries are sums over all components *)
Lemma ent_sum j f : (0 <= j < n)%Z ->
  rsum (zn 0%Z ptr j) (zn 0%Z ptr (j + 1)) (fun p => zn 0 val p * f (zn 0%Z idx p)) = rsum 0 m (fun r => ent ptr idx val j r * f r).
Proof.
  intros Hj. transitivity (rsum (zn 0%Z ptr j) (zn 0%Z ptr (j + 1)) (fun p => rsum 0 m (fun r => (if (zn 0%Z idx p =? r)%Z then zn 0 val p else 0) * f r))).
  - apply rsum_ext. intros p Hp. rewrite (rsum_delta 0 m (zn 0%Z idx p)).
    + now rewrite Z.eqb_refl.
    + now apply (pos_in _ _ _ _ _ WF j).
    + intros r Hr Hne. destruct (Z.eqb_spec (zn 0%Z idx p) r) as [E|]; [congruence|]. ring.
  - rewrite rsum_swap. apply rsum_ext. intros r Hr. unfold ent, rsum. now rewrite lsum_scal_r.
Qed.

(** ** Loops over one vector *)
Lemma adds_entry j L (f : Z -> list R -> res (list R)) g : (0 <= j < n)%Z ->
  (forall p, (zn 0 ptr j <= p < zn 0 ptr (j + 1))%Z -> adds (f p) L (g p)) ->
  adds (each_entry ptr j f) L (fun q => rsum (zn 0%Z ptr j) (zn 0%Z ptr (j + 1)) (fun p => g p q)).
Proof. intros Hj H. eapply adds_ext_m; [intros s _; apply (each_entry_eq _ _ _ _ _ WF); assumption|]. now apply adds_for. Qed.

Lemma entry_at_ok j r : (0 <= j < n)%Z ->
  (entry_at (N := RNum) ptr idx val j r = Ok (Some (ent ptr idx val j r)) \/
   entry_at (N := RNum) ptr idx val j r = Ok None /\ ent ptr idx val j r = 0).
Proof.
  intros Hj. unfold entry_at. rewrite !(rd_ptr _ _ _ _ _ WF) by lia. cbn [bind]. destruct (scan_ok _ _ _ _ _ WF j r Hj) as (i & E & Hi & H1 & H2). rewrite E. cbn [bind].
  destruct (Z.ltb_spec i (zn 0%Z ptr (j + 1))) as [L|L].
  - rewrite (rd_idx _ _ _ _ _ WF j) by lia. cbn [bind]. destruct (Z.eqb_spec (zn 0%Z idx i) r) as [Er|Er].
    + left. change (car RNum) with R. rewrite (rd_val j) by lia. cbn [bind]. rewrite <- Er. now rewrite ent_stored by lia.
    + right. split; [reflexivity|]. apply ent_absent. intros p Hp Ep. destruct (Z.lt_total p i) as [Lt|[Lt|Lt]].
      * specialize (H1 p ltac:(lia)). lia.
      * subst. congruence.
      * pose proof (cs_srt _ _ _ _ _ WF j i p Hj ltac:(lia) ltac:(lia)). specialize (H2 i ltac:(lia)). lia.
  - right. split; [reflexivity|]. apply ent_absent. intros p Hp Ep. specialize (H1 p ltac:(lia)). lia.
Qed.

(** merging with additive hits: every stored entry whose component is in the list contributes once *)
Lemma adds_merge j lo s l LL hit (g : Z -> Z -> Z -> R) :
  (0 <= j < n)%Z -> (zn 0 ptr j <= lo <= zn 0 ptr (j + 1))%Z -> il_rep s l ->
  (forall p c, (lo <= p < zn 0 ptr (j + 1))%Z -> (0 <= c < zlen l)%Z -> zn 0%Z idx p = zn 0%Z l c -> adds (hit p c) LL (g p c)) ->
  adds (fun y => st <- merge idx lo (zn 0%Z ptr (j + 1)) s hit (fun _ y => Ok y) y ;; let '(_, _, y) := st in Ok y) LL
    (fun q => rsum 0 (zlen l) (fun c => rsum lo (zn 0%Z ptr (j + 1)) (fun p => if (zn 0%Z idx p =? zn 0%Z l c)%Z then g p c q else 0))).
Proof.
  intros Hj Hlo Rp H y Hy. set (hi := zn 0%Z ptr (j + 1)). set (L c := zn 0%Z l (zn 0%Z (il_iSort s) c)).
  set (T q i k := rsum 0 k (fun c => rsum lo i (fun p => if (zn 0%Z idx p =? L c)%Z then g p (zn 0%Z (il_iSort s) c) q else 0))).
  assert (W : wp (merge idx lo hi s hit (fun _ y => Ok y) y) (fun r => let '(_, _, y') := r in zlen y' = LL /\
     forall q, (0 <= q)%Z -> zn 0 y' q = zn 0 y q + T q hi (zlen l))).
  { apply (merge_ok _ _ _ _ _ WF (fun i k y' => zlen y' = LL /\ forall q, (0 <= q)%Z -> zn 0 y' q = zn 0 y q + T q i k) j lo s l hit (fun _ y => Ok y) y
      (fun _ _ y' => zlen y' = LL /\ forall q, (0 <= q)%Z -> zn 0 y' q = zn 0 y q + T q hi (zlen l))); auto; fold hi; fold L.
    - split; [assumption|]. intros q _. unfold T. rewrite rsum_empty by lia. lra.
    - intros i k y' Hi Hk [B1 B2] [Ly V] E.
      destruct (H i (zn 0%Z (il_iSort s) k) Hi ltac:(apply (rep_rng _ _ Rp); assumption) E y' Ly) as (y2 & E2 & L2 & V2).
      rewrite E2. cbn [wp]. split; [assumption|]. intros q Hq. rewrite V2, V by assumption. unfold T.
      rewrite rsum_last by lia. rewrite rsum_last by lia.
      rewrite (rsum_0 lo i (fun p => if (zn 0%Z idx p =? L k)%Z then _ else 0)).
      2:{ intros p Hp. specialize (B1 p k Hp ltac:(lia)). fold (L k) in B1. destruct (Z.eqb_spec (zn 0%Z idx p) (L k)); [lia|reflexivity]. }
      rewrite E, Z.eqb_refl. rewrite (rsum_ext 0 k (fun c => rsum lo (i + 1) (fun p => if (zn 0%Z idx p =? L c)%Z then g p (zn 0%Z (il_iSort s) c) q else 0)) (fun c => rsum lo i (fun p => if (zn 0%Z idx p =? L c)%Z then g p (zn 0%Z (il_iSort s) c) q else 0))); [lra|].
      intros c Hc. rewrite rsum_last by lia. specialize (B2 i c ltac:(lia) Hc). fold (L c) in B2. destruct (Z.eqb_spec (zn 0%Z idx i) (L c)); [lia|lra].
    - intros i k y' Hi Hk [B1 B2] [Ly V] E. cbn [wp]. split; [assumption|]. intros q Hq. rewrite V by assumption. unfold T. rewrite (rsum_last 0 k) by lia.
      rewrite (rsum_0 lo i); [lra|]. intros p Hp. specialize (B1 p k Hp ltac:(lia)). fold (L k) in B1. destruct (Z.eqb_spec (zn 0%Z idx p) (L k)); [lia|reflexivity].
    - intros i k y' Hi Hk [B1 B2] [Ly V] E. split; [assumption|]. intros q Hq. rewrite V by assumption. f_equal. unfold T. apply rsum_ext. intros c Hc.
      rewrite rsum_last by lia. specialize (B2 i c ltac:(lia) Hc). fold (L c) in B2. destruct (Z.eqb_spec (zn 0%Z idx i) (L c)); [lia|lra].
    - intros i k y' Hi Hk [B1 B2] [Ly V] E. split; [assumption|]. intros q Hq. rewrite V by assumption. f_equal. unfold T.
      rewrite (rsum_split 0 k (zlen l)) by lia. rewrite (rsum_0 k (zlen l)).
      + rewrite Rplus_0_r. apply rsum_ext. intros c Hc. rewrite (rsum_split lo i hi) by lia. rewrite (rsum_0 i hi); [lra|].
        intros p Hp. specialize (B2 p c Hp Hc). fold (L c) in B2. destruct (Z.eqb_spec (zn 0%Z idx p) (L c)); [lia|reflexivity].
      + intros c Hc. apply rsum_0. intros p Hp. destruct (Z.eqb_spec (zn 0%Z idx p) (L c)) as [Ep|]; [exfalso|reflexivity].
        destruct E as [-> | ->]; [|lia]. specialize (B1 p c Hp Hc). fold (L c) in B1. lia. }
  apply wp_inv in W as ([[i k] y'] & E & Ly & V). exists y'. rewrite E. cbn [bind]. split; [reflexivity|]. split; [assumption|].
  intros q Hq. rewrite V by assumption. f_equal. unfold T, L.
  apply (rsum_iSort s l (fun c => rsum lo hi (fun p => if (zn 0%Z idx p =? zn 0%Z l c)%Z then g p c q else 0)) Rp).
Qed.
End Cs.
