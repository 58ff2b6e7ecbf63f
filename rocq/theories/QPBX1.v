(** Exact results of QProblemB's elementary loops. *)
From Verif Require Import Base Types Num Options Indexlist IndexlistProofs Loops RSum LinSpec SafeLib SubjectTo SubjectToProofs SubjectToProofs2
  Flipper PropFlipper Matrices MatSafe LinAlg QProblemB QPBSafe.
Local Open Scope Z_scope.

Lemma wp_fill {T} (d : T) (v : Z -> T) n body (a : list T) (Q : list T -> Prop) : 0 <= n <= zlen a ->
  (forall i s, 0 <= i < n -> zlen s = zlen a -> body i s = Ok (zupd s i (v i))) ->
  (forall a', zlen a' = zlen a -> (forall k, 0 <= k < n -> zn d a' k = v k) -> (forall k, n <= k -> zn d a' k = zn d a k) -> Q a') ->
  wp (for_up 0 n body a) Q.
Proof.
  intros Hn Hb HQ. destruct (fill_loop d body (fun i _ => v i) 0 0 n a) as (a' & -> & L & V); [lia|lia|intros; now rewrite Hb|].
  apply wp_ok. apply HQ; [exact L| |]; intros k Hk; rewrite V by lia.
  - destruct (Z.leb_spec (0 + 0) k), (Z.ltb_spec k (0 + n)); try lia. cbn. f_equal. lia.
  - destruct (Z.ltb_spec k (0 + n)); try lia. now rewrite andb_false_r.
Qed.
Lemma wp_map {T} (d : T) (v : Z -> T -> T) n body (a : list T) (Q : list T -> Prop) : 0 <= n <= zlen a ->
  (forall i s, 0 <= i < n -> zlen s = zlen a -> body i s = Ok (zupd s i (v i (zn d s i)))) ->
  (forall a', zlen a' = zlen a -> (forall k, 0 <= k < n -> zn d a' k = v k (zn d a k)) -> (forall k, n <= k -> zn d a' k = zn d a k) -> Q a') ->
  wp (for_up 0 n body a) Q.
Proof.
  intros Hn Hb HQ. destruct (fill_loop d body v 0 0 n a) as (a' & -> & L & V); [lia|lia|intros; now rewrite Hb|].
  apply wp_ok. apply HQ; [exact L| |]; intros k Hk; rewrite V by lia.
  - destruct (Z.leb_spec (0 + 0) k), (Z.ltb_spec k (0 + n)); try lia. cbn. f_equal. lia.
  - destruct (Z.ltb_spec k (0 + n)); try lia. now rewrite andb_false_r.
Qed.

(** the loops over an index list: x[l[i]] := v i x[l[i]] *)
Lemma wp_scatter {T} (d : T) (v : Z -> T -> T) (l : list Z) n body (a : list T) (Q : list T -> Prop) :
  NoDup l -> (forall k, In k l -> 0 <= k < zlen a) -> n = zlen l ->
  (forall i s, 0 <= i < n -> zlen s = zlen a -> body i s = Ok (zupd s (zn 0 l i) (v i (zn d s (zn 0 l i))))) ->
  (forall a', zlen a' = zlen a -> (forall p, 0 <= p < n -> zn d a' (zn 0 l p) = v p (zn d a (zn 0 l p))) ->
     (forall k, 0 <= k -> ~ In k l -> zn d a' k = zn d a k) -> Q a') ->
  wp (for_up 0 n body a) Q.
Proof.
  intros ND R En Hb HQ.
  assert (INJ : forall p q, 0 <= p < n -> 0 <= q < n -> zn 0 l p = zn 0 l q -> p = q).
  { intros p q Hp Hq E. apply (NoDup_zz l); auto; lia. }
  apply wp_for_up with (I := fun i a' => zlen a' = zlen a /\
    (forall p, 0 <= p < n -> zn d a' (zn 0 l p) = if p <? i then v p (zn d a (zn 0 l p)) else zn d a (zn 0 l p)) /\
    (forall k, 0 <= k -> ~ In k l -> zn d a' k = zn d a k)); [unfold zlen in *; lia| | |].
  - split; [reflexivity|]. split; [|reflexivity]. intros p Hp. destruct (Z.ltb_spec p 0); [lia|reflexivity].
  - intros i a' Hi (L & V & U). rewrite Hb by auto. apply wp_ok. rewrite zlen_zupd. split; [exact L|].
    assert (Hi' : 0 <= zn 0 l i < zlen a') by (rewrite L; apply R, zn_In; lia).
    split.
    + intros p Hp. assert (Hp' : 0 <= zn 0 l p) by (apply R, zn_In; lia). rewrite zn_zupd by lia. destruct (Z.eqb_spec (zn 0 l p) (zn 0 l i)) as [E|E].
      * apply INJ in E; [|lia|lia]. subst p. rewrite V by lia. destruct (Z.ltb_spec i i), (Z.ltb_spec i (i + 1)); try lia. reflexivity.
      * rewrite V by lia. assert (p <> i) by congruence. destruct (Z.ltb_spec p i), (Z.ltb_spec p (i + 1)); try lia; reflexivity.
    + intros k H0 Hk. rewrite zn_zupd_ne; [now apply U|lia|lia|]. intros ->. apply Hk. apply zn_In. lia.
  - intros a' (L & V & U). apply HQ; auto. intros p Hp. rewrite V by lia. destruct (Z.ltb_spec p n); [reflexivity|lia].
Qed.

Section X1.
Context {N : Num}.
Notation qpb := (qpb N).
Notation arr := (list N).

Definition za (a : arr) (i : Z) : N := zn n0 a i.

Lemma rd_rep s l i : il_rep s l -> 0 <= i < zlen l -> rd (il_number s) i = Ok (zn 0 l i).
Proof.
  intros R Hi. assert (W : wp (rd (il_number s) i) (fun x => x = zn 0 l i)) by (apply (rd_num s l); auto).
  apply wp_inv in W as (x & -> & ->). reflexivity.
Qed.
End X1.
