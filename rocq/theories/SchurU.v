(** Deleting a row and column of the Schur complement, and the undo of the deletion. *)
From Verif Require Import Base Types Num LinAlg Schur SchurS.
Open Scope Z_scope.

Section Undo.
Context {N : Num}.
Notation schur := (Schur.schur N).
Notation arr := (list N).

(** arrays of the right size; the columns of M lie one after the other *)
Record sizes (w : schur) : Prop := {
  z_n : 0 <= sc_n w <= sc_max w;
  z_S : zlen (sc_S w) = sc_max w * sc_max w;
  z_Q : zlen (sc_Q w) = sc_max w * sc_max w;
  z_R : zlen (sc_R w) = sc_max w * sc_max w;
  z_jc : zlen (sc_jc w) = sc_max w + 1;
  z_idx : zlen (sc_idx w) = sc_max w;
  z_typ : zlen (sc_typ w) = sc_max w }.
Record mcols (w : schur) : Prop := {
  c_pos : 0 <= zn 0 (sc_jc w) 0;
  c_mono : forall i, 0 <= i < sc_n w -> zn 0 (sc_jc w) i <= zn 0 (sc_jc w) (i + 1);
  c_ir : zn 0 (sc_jc w) (sc_n w) <= zlen (sc_ir w);
  c_mv : zlen (sc_ir w) = zlen (sc_mv w) }.
Lemma mono_le w : mcols w -> forall i k, 0 <= i <= k -> k <= sc_n w -> zn 0 (sc_jc w) i <= zn 0 (sc_jc w) k.
Proof.
  intros C i k Hik Hk. remember (Z.to_nat (k - i)) as t eqn:Et. revert k Hik Hk Et. induction t as [|t IH]; intros k Hik Hk Et.
  - replace k with i by lia. lia.
  - specialize (IH (k - 1)). pose proof (c_mono w C (k - 1)) as M. replace (k - 1 + 1) with k in M by lia. lia.
Qed.

Lemma jc_up idx n ne (jc : list Z) : 0 <= idx <= n -> n < zlen jc ->
  wp (for_up idx n (fun i jc => v <- rd jc (i + 1) ;; wr jc i (v - ne)) jc) (fun jc' => zlen jc' = zlen jc /\
    forall k, 0 <= k -> zn 0 jc' k = if (idx <=? k) && (k <? n) then zn 0 jc (k + 1) - ne else zn 0 jc k).
Proof.
  intros Hi Hn. apply wp_for_up with (I := fun i jc' => zlen jc' = zlen jc /\
    forall k, 0 <= k -> zn 0 jc' k = if (idx <=? k) && (k <? i) then zn 0 jc (k + 1) - ne else zn 0 jc k); [lia| | |].
  - split; [reflexivity|]. intros k Hk. destruct (Z.leb_spec idx k), (Z.ltb_spec k idx); try lia; reflexivity.
  - intros i jc1 Hi1 (L1 & V1). rewrite (rd_ok 0) by lia. cbn [bind]. rewrite wr_ok by lia. apply wp_ok. rewrite zlen_zupd. split; [exact L1|].
    intros k Hk. rewrite zn_zupd by lia. rewrite !V1 by lia. destruct (Z.eqb_spec k i) as [->|].
    + destruct (Z.leb_spec idx i), (Z.ltb_spec i (i + 1)), (Z.ltb_spec (i + 1) i); try lia. rewrite andb_false_r. reflexivity.
    + destruct (Z.ltb_spec k i), (Z.ltb_spec k (i + 1)); try lia; reflexivity.
  - intros jc1 H. exact H.
Qed.
Lemma jc_dn idx n ne (jc : list Z) : 0 <= idx <= n + 1 -> n + 1 < zlen jc ->
  wp (for_dn n (idx - 1) (fun i jc => v <- rd jc i ;; wr jc (i + 1) (v + ne)) jc) (fun jc' => zlen jc' = zlen jc /\
    forall k, 0 <= k -> zn 0 jc' k = if (idx <? k) && (k <=? n + 1) then zn 0 jc (k - 1) + ne else zn 0 jc k).
Proof.
  intros Hi Hn. apply wp_for_dn with (I := fun i jc' => zlen jc' = zlen jc /\
    forall k, 0 <= k -> zn 0 jc' k = if (i + 1 <? k) && (k <=? n + 1) then zn 0 jc (k - 1) + ne else zn 0 jc k); [lia| | |].
  - split; [reflexivity|]. intros k Hk. destruct (Z.ltb_spec (n + 1) k), (Z.leb_spec k (n + 1)); try lia; reflexivity.
  - intros i jc1 Hi1 (L1 & V1). rewrite (rd_ok 0) by lia. cbn [bind]. rewrite wr_ok by lia. apply wp_ok. rewrite zlen_zupd. split; [exact L1|].
    intros k Hk. rewrite zn_zupd by lia. rewrite !V1 by lia. destruct (Z.eqb_spec k (i + 1)) as [->|].
    + destruct (Z.ltb_spec (i - 1 + 1) (i + 1)), (Z.leb_spec (i + 1) (n + 1)), (Z.ltb_spec (i + 1) i); try lia. cbn [andb]. f_equal; f_equal; lia.
    + destruct (Z.ltb_spec (i + 1) k), (Z.ltb_spec (i - 1 + 1) k); try lia; reflexivity.
  - intros jc1 (L1 & V1). split; [exact L1|]. intros k Hk. rewrite V1 by lia. now replace (idx - 1 + 1) with idx by lia.
Qed.
Lemma column_ok {A} (d : A) m n c (S t : list A) (f : Z -> Z) : 0 <= n <= m -> 0 <= c < m -> zlen S = m * m -> zlen t = n -> (forall i, f i = i + c * m) ->
  wp (for_up 0 n (fun i t => v <- rd S (f i) ;; wr t i v) t) (fun t' => zlen t' = n /\ forall i, 0 <= i < n -> zn d t' i = mg d m S i c).
Proof.
  intros Hn Hc L Lt E. apply wp_for_up with (I := fun k t' => zlen t' = n /\ forall i, 0 <= i < k -> zn d t' i = mg d m S i c); [lia| | |].
  - split; [exact Lt|]. intros; lia.
  - intros k t1 Hk (L1 & V1). rewrite (rd_mg d m S _ k c) by (try assumption; try apply E; lia). cbn [bind]. rewrite wr_ok by lia. apply wp_ok. rewrite zlen_zupd. split; [exact L1|].
    intros i Hi. rewrite zn_zupd by lia. destruct (Z.eqb_spec i k) as [->|]; [reflexivity|]. apply V1; lia.
  - intros t1 H. exact H.
Qed.

(** what the deletion does *)
Record deleted (undo : bool) (idx : Z) (w w' : schur) : Prop := {
  d_max : sc_max w' = sc_max w;
  d_n : sc_n w' = sc_n w - 1;
  d_Q : sc_Q w' = sc_Q w;
  d_R : sc_R w' = sc_R w;
  d_det : sc_det w' = sc_det w;
  d_sz : zlen (sc_S w') = zlen (sc_S w) /\ zlen (sc_jc w') = zlen (sc_jc w) /\ zlen (sc_ir w') = zlen (sc_ir w) /\ zlen (sc_mv w') = zlen (sc_mv w) /\ zlen (sc_idx w') = zlen (sc_idx w) /\ zlen (sc_typ w') = zlen (sc_typ w);
  d_S : forall a b, 0 <= a < sc_n w - 1 -> 0 <= b < sc_n w - 1 -> mg n0 (sc_max w) (sc_S w') a b = mg n0 (sc_max w) (sc_S w) (skz idx a) (skz idx b);
  d_So : forall a b, 0 <= a < sc_max w -> 0 <= b < sc_max w -> sc_n w <= a \/ sc_n w <= b -> mg n0 (sc_max w) (sc_S w') a b = mg n0 (sc_max w) (sc_S w) a b;
  d_idx : forall k, 0 <= k < sc_n w - 1 -> zn 0 (sc_idx w') k = zn 0 (sc_idx w) (skz idx k) /\ zn 0 (sc_typ w') k = zn 0 (sc_typ w) (skz idx k);
  d_idxo : forall k, sc_n w <= k -> zn 0 (sc_idx w') k = zn 0 (sc_idx w) k /\ zn 0 (sc_typ w') k = zn 0 (sc_typ w) k;
  d_jc : forall k, 0 <= k -> zn 0 (sc_jc w') k = if (idx <=? k) && (k <? sc_n w) then zn 0 (sc_jc w) (k + 1) - (zn 0 (sc_jc w) (idx + 1) - zn 0 (sc_jc w) idx) else zn 0 (sc_jc w) k;
  d_M : forall k, 0 <= k < zn 0 (sc_jc w) (sc_n w) - (zn 0 (sc_jc w) (idx + 1) - zn 0 (sc_jc w) idx) ->
     let k' := if k <? zn 0 (sc_jc w) idx then k else k + (zn 0 (sc_jc w) (idx + 1) - zn 0 (sc_jc w) idx) in
     zn 0 (sc_ir w') k = zn 0 (sc_ir w) k' /\ zn n0 (sc_mv w') k = zn n0 (sc_mv w) k';
  d_Mo : forall k, zn 0 (sc_jc w) (sc_n w) <= k -> zn 0 (sc_ir w') k = zn 0 (sc_ir w) k /\ zn n0 (sc_mv w') k = zn n0 (sc_mv w) k;
  d_undo : undo = true ->
     (forall a, 0 <= a < sc_n w -> mg n0 (sc_max w) (sc_S w') a (sc_n w - 1) = mg n0 (sc_max w) (sc_S w) a idx) /\
     zn 0 (sc_idx w') (sc_n w - 1) = zn 0 (sc_idx w) idx /\ zn 0 (sc_typ w') (sc_n w - 1) = zn 0 (sc_typ w) idx /\
     (forall k, 0 <= k < zn 0 (sc_jc w) (idx + 1) - zn 0 (sc_jc w) idx ->
        let k' := zn 0 (sc_jc w) (sc_n w) - (zn 0 (sc_jc w) (idx + 1) - zn 0 (sc_jc w) idx) + k in
        zn 0 (sc_ir w') k' = zn 0 (sc_ir w) (zn 0 (sc_jc w) idx + k) /\ zn n0 (sc_mv w') k' = zn n0 (sc_mv w) (zn 0 (sc_jc w) idx + k)) }.

Lemma zlen_rep {A} (x : A) n : 0 <= n -> zlen (repeat x (Z.to_nat n)) = n.
Proof. intros. unfold zlen. rewrite repeat_length. lia. Qed.

Lemma delete_M idx n undo (jc ir : list Z) (mv : arr) : 0 <= idx < n - 1 -> n < zlen jc -> 0 <= zn 0 jc idx -> zn 0 jc idx <= zn 0 jc (idx + 1) -> zn 0 jc (idx + 1) <= zn 0 jc n ->
  zn 0 jc n <= zlen ir -> zlen ir = zlen mv ->
  forall (Q : list Z * list Z * arr -> Prop),
  (forall jc' ir' mv', zlen jc' = zlen jc -> zlen ir' = zlen ir -> zlen mv' = zlen mv ->
    let ne := zn 0 jc (idx + 1) - zn 0 jc idx in
    (forall k, 0 <= k -> zn 0 jc' k = if (idx <=? k) && (k <? n) then zn 0 jc (k + 1) - ne else zn 0 jc k) ->
    (forall k, 0 <= k -> (undo = false -> k < zn 0 jc n - ne \/ zn 0 jc n <= k) ->
       let k' := if (k <? zn 0 jc idx) || (zn 0 jc n <=? k) then k else if k <? zn 0 jc n - ne then k + ne else zn 0 jc idx + (k - (zn 0 jc n - ne)) in
       zn 0 ir' k = zn 0 ir k' /\ zn n0 mv' k = zn n0 mv k') -> Q (jc', ir', mv')) ->
  wp (lo <- rd jc idx ;; hi <- rd jc (idx + 1) ;;
    let ne := hi - lo in
    '(tir, tmv) <- (if undo then for_up lo hi (fun i t => let '(tir, tmv) := t in
        p <- rd ir i ;; tir <- wr tir (i - lo) p ;; v <- rd mv i ;; tmv <- wr tmv (i - lo) v ;; Ok (tir, tmv))
        (repeat 0 (Z.to_nat ne), repeat n0 (Z.to_nat ne)) else Ok (nil, nil)) ;;
    en <- rd jc n ;;
    '(ir, mv) <- for_up hi en (fun i p => move2 (fst p) (snd p) i (i - ne)) (ir, mv) ;;
    jc <- for_up idx n (fun i jc => v <- rd jc (i + 1) ;; wr jc i (v - ne)) jc ;;
    '(ir, mv) <- (if undo then
        l <- rd jc (n - 1) ;; h <- rd jc n ;;
        for_up l h (fun i p => let '(ir, mv) := p in
          k <- rd tir (i - l) ;; ir <- wr ir i k ;; v <- rd tmv (i - l) ;; mv <- wr mv i v ;; Ok (ir, mv)) (ir, mv)
      else Ok (ir, mv)) ;;
    Ok (jc, ir, mv)) Q.
Proof.
  intros Hi Hjc P0 P1 P2 P3 P4 Q HQ. rewrite (rd_ok 0) by lia. cbn [bind]. rewrite (rd_ok 0) by lia. cbn [bind]. cbv zeta in HQ |- *.
  set (lo := zn 0 jc idx) in *. set (hi := zn 0 jc (idx + 1)) in *. set (en := zn 0 jc n) in *. set (ne := hi - lo) in *.
  apply wp_bind. eapply wp_mono with (P := fun t : list Z * arr => undo = true -> zlen (fst t) = ne /\ zlen (snd t) = ne /\
      (forall k, 0 <= k < ne -> zn 0 (fst t) k = zn 0 ir (lo + k)) /\ (forall k, 0 <= k < ne -> zn n0 (snd t) k = zn n0 mv (lo + k))).
  { destruct undo; [|apply wp_ok; discriminate]. eapply wp_mono; [apply (gather2 0 n0 lo hi); rewrite ?zlen_rep; lia|]. intros t H _. exact H. }
  intros [tir tmv] HT. cbn [fst snd] in HT. rewrite (rd_ok 0) by lia. cbn [bind]. fold en.
  apply wp_bind. eapply wp_mono; [apply (copy2_up 0 n0 hi en ne); try lia; intros; reflexivity|]. intros [ir1 mv1] (L1 & L2 & V1 & V2). cbn [fst snd] in *.
  apply wp_bind. eapply wp_mono; [apply jc_up; lia|]. intros jc1 (L3 & V3). cbv beta.
  assert (J1 : zn 0 jc1 (n - 1) = en - ne). { rewrite V3 by lia. destruct (Z.leb_spec idx (n - 1)), (Z.ltb_spec (n - 1) n); try lia. cbn [andb]. unfold en. f_equal. f_equal. lia. }
  assert (J2 : zn 0 jc1 n = en). { rewrite V3 by lia. rewrite Z.ltb_irrefl, andb_false_r. reflexivity. }
  destruct undo.
  - rewrite (rd_ok 0) by lia. cbn [bind]. rewrite (rd_ok 0) by lia. cbn [bind]. rewrite J1, J2. destruct (HT eq_refl) as (T1 & T2 & T3 & T4).
    apply wp_bind. eapply wp_mono; [apply (scatter2 0 n0); try lia|]. intros [ir2 mv2] (L4 & L5 & V4 & V5). cbn [fst snd] in *. apply wp_ok. apply HQ; try lia; [exact V3|].
    intros k Hk _. rewrite V4, V5 by lia.
    destruct (Z.leb_spec (en - ne) k), (Z.ltb_spec k en); cbn [andb].
    + rewrite T3, T4 by lia. destruct (Z.ltb_spec k lo), (Z.leb_spec en k), (Z.ltb_spec k (en - ne)); try lia; cbn [orb]. split; reflexivity.
    + rewrite V1, V2 by lia. destruct (Z.ltb_spec k (en - ne)); [lia|]. rewrite !andb_false_r. destruct (Z.leb_spec en k); [|lia]. rewrite orb_true_r. split; reflexivity.
    + rewrite V1, V2 by lia. destruct (Z.ltb_spec k (en - ne)); [|lia]. rewrite !andb_true_r. destruct (Z.leb_spec en k); [lia|]. rewrite orb_false_r. destruct (Z.leb_spec (hi - ne) k), (Z.ltb_spec k lo); try lia; split; reflexivity.
    + lia.
  - cbn [bind]. apply wp_ok. apply HQ; try lia; [exact V3|]. intros k Hk Hk'. specialize (Hk' eq_refl). rewrite V1, V2 by lia.
    destruct (Z.leb_spec (hi - ne) k), (Z.ltb_spec k (en - ne)), (Z.leb_spec en k), (Z.ltb_spec k lo); try lia; cbn [andb orb]; split; reflexivity.
Qed.

Lemma wp_assoc {A B C} (m : res A) (f : A -> res B) (g : B -> res C) Q : wp (bind (bind m f) g) Q -> wp (bind m (fun x => bind (f x) g)) Q.
Proof. destruct m; cbn [bind]; auto. Qed.

Lemma delete_spec undo idx w : sizes w -> mcols w -> 0 <= idx < sc_n w ->
  wp (deleteFromSchurComplement idx undo w) (fun r => fst r = SUCCESSFUL_RETURN /\ deleted undo idx w (snd r)).
Proof.
  intros Z C Hi. destruct Z as [Zn ZS ZQ ZR Zjc Zidx Ztyp]. pose proof (mono_le w C) as MM. destruct C as [C0 C1 C2 C3].
  unfold deleteFromSchurComplement. set (n := sc_n w) in *. set (m := sc_max w) in *.
  destruct (Z.eqb_spec idx (n - 1)) as [->|Hne].
  { apply wp_ok. split; [reflexivity|]. assert (SK : forall k, 0 <= k < n - 1 -> skz (n - 1) k = k) by (intros k Hk; unfold skz; destruct (Z.ltb_spec k (n - 1)); lia).
    pose proof (MM (n - 1) n ltac:(lia) ltac:(lia)) as MMn.
    constructor; cbn [sc_max sc_n sc_S sc_Q sc_R sc_det sc_jc sc_ir sc_mv sc_idx sc_typ snd]; fold n m; try reflexivity.
    - repeat split; reflexivity.
    - intros a b Ha Hb. now rewrite !SK by lia.
    - intros k Hk. rewrite SK by lia. split; reflexivity.
    - split; reflexivity.
    - intros k Hk. replace (n - 1 + 1) with n by lia. destruct (Z.leb_spec (n - 1) k), (Z.ltb_spec k n); cbn [andb]; try reflexivity. replace k with (n - 1) by lia. replace (n - 1 + 1) with n by lia. lia.
    - intros k Hk. cbv zeta. replace (n - 1 + 1) with n in * by lia. destruct (Z.ltb_spec k (zn 0 (sc_jc w) (n - 1))); [split; reflexivity|lia].
    - split; reflexivity.
    - intros _. replace (n - 1 + 1) with n by lia. do 3 (split; [reflexivity|]). intros k Hk. cbv zeta. replace (zn 0 (sc_jc w) n - (zn 0 (sc_jc w) n - zn 0 (sc_jc w) (n - 1)) + k) with (zn 0 (sc_jc w) (n - 1) + k) by lia. split; reflexivity. }
  apply wp_bind. eapply wp_mono with (P := fun t : arr => undo = true -> zlen t = n /\ forall i, 0 <= i < n -> zn n0 t i = mg n0 m (sc_S w) i idx).
  { destruct undo; [|apply wp_ok; discriminate]. eapply wp_mono; [apply (column_ok n0 m n idx); rewrite ?zlen_rep; try assumption; try lia|]. intros t H _. exact H. }
  intros tmp HT. apply wp_bind. eapply wp_mono with (P := fun t => undo = true -> t = zn 0 (sc_idx w) idx). { destruct undo; [rewrite (rd_ok 0) by lia; apply wp_ok; reflexivity|apply wp_ok; discriminate]. }
  intros ti Hti. apply wp_bind. eapply wp_mono with (P := fun t => undo = true -> t = zn 0 (sc_typ w) idx). { destruct undo; [rewrite (rd_ok 0) by lia; apply wp_ok; reflexivity|apply wp_ok; discriminate]. }
  intros tt Htt. apply wp_assoc. change (wp (bind (del_shift m n idx (sc_S w)) _) _) || (match goal with |- wp (bind ?x _) _ => change x with (del_shift m n idx (sc_S w)) end).
  apply wp_bind. eapply wp_mono; [apply (del_shift_ok n0 m n idx); try assumption; lia|]. intros S1 (LS1 & VS1 & VO1).
  apply wp_bind. eapply wp_mono; [apply (copy2_up 0 0 (idx + 1) n 1); try lia; intros; reflexivity|]. intros [si st] (Lsi & Lst & Vsi & Vst). cbn [fst snd] in *.
  apply wp_bind. eapply wp_mono with (P := fun S' : arr => zlen S' = m * m /\
    (forall a b, 0 <= a < n - 1 -> 0 <= b < n - 1 -> mg n0 m S' a b = mg n0 m (sc_S w) (skz idx a) (skz idx b)) /\
    (forall a b, 0 <= a < m -> 0 <= b < m -> n <= a \/ n <= b -> mg n0 m S' a b = mg n0 m (sc_S w) a b) /\
    (undo = true -> forall a, 0 <= a < n -> mg n0 m S' a (n - 1) = mg n0 m (sc_S w) a idx)).
  { destruct undo; [|apply wp_ok; repeat split; try assumption; discriminate]. destruct (HT eq_refl) as (T1 & T2).
    eapply wp_mono; [apply (cross_ok n0 m n (n - 1) tmp); try assumption; try lia; intros; reflexivity|]. cbv beta. intros S2 (LS2 & VS2). split; [exact LS2|]. split; [|split].
    - intros a b Ha Hb. rewrite VS2 by lia. destruct (Z.eqb_spec a (n - 1)), (Z.eqb_spec b (n - 1)); try lia. cbn [andb]. apply VS1; lia.
    - intros a b Ha Hb H. rewrite VS2 by lia. destruct H; [destruct (Z.ltb_spec a n), (Z.eqb_spec a (n - 1)); try lia|destruct (Z.ltb_spec b n), (Z.eqb_spec b (n - 1)); try lia]; rewrite ?andb_false_r; cbn [andb]; rewrite ?andb_false_r; apply VO1; lia.
    - intros _ a Ha. rewrite VS2 by lia. rewrite Z.eqb_refl. destruct (Z.ltb_spec a n); [|lia]. cbn [andb]. apply T2; lia. }
  intros S2 (LS2 & VS2 & VO2 & VU2).
  apply wp_bind. eapply wp_mono with (P := fun s => zlen s = zlen si /\ (forall k, 0 <= k -> k <> n - 1 -> zn 0 s k = zn 0 si k) /\ (undo = true -> zn 0 s (n - 1) = ti)).
  { destruct undo; [|apply wp_ok; repeat split; discriminate]. rewrite wr_ok by lia. apply wp_ok. rewrite zlen_zupd. split; [reflexivity|]. split; [intros k Hk Nk; rewrite zn_zupd by lia; destruct (Z.eqb_spec k (n - 1)); [lia|reflexivity]|intros _; rewrite zn_zupd by lia; now rewrite Z.eqb_refl]. }
  intros si2 (Lsi2 & Vsi2 & Usi2).
  apply wp_bind. eapply wp_mono with (P := fun s => zlen s = zlen st /\ (forall k, 0 <= k -> k <> n - 1 -> zn 0 s k = zn 0 st k) /\ (undo = true -> zn 0 s (n - 1) = tt)).
  { destruct undo; [|apply wp_ok; repeat split; discriminate]. rewrite wr_ok by lia. apply wp_ok. rewrite zlen_zupd. split; [reflexivity|]. split; [intros k Hk Nk; rewrite zn_zupd by lia; destruct (Z.eqb_spec k (n - 1)); [lia|reflexivity]|intros _; rewrite zn_zupd by lia; now rewrite Z.eqb_refl]. }
  intros st2 (Lst2 & Vst2 & Ust2).
  pose proof (MM 0 idx ltac:(lia) ltac:(lia)) as M1. pose proof (MM idx (idx + 1) ltac:(lia) ltac:(lia)) as M2. pose proof (MM (idx + 1) n ltac:(lia) ltac:(lia)) as M3.
  set (QQ := fun r : returnValue * schur => fst r = SUCCESSFUL_RETURN /\ deleted undo idx w (snd r)).
  pose proof (delete_M idx n undo (sc_jc w) (sc_ir w) (sc_mv w) ltac:(lia) ltac:(lia) ltac:(lia) ltac:(lia) ltac:(lia) ltac:(lia) ltac:(lia)
    (fun p => let '(jc, ir, mv) := p in QQ (SUCCESSFUL_RETURN, mkSchur m (n - 1) S2 (sc_Q w) (sc_R w) (sc_det w) jc ir mv si2 st2))) as DM.
  cbv beta iota zeta in DM.
  match type of DM with ?P -> wp ?x _ => assert (HP : P) end.
  2:{ specialize (DM HP). revert DM. clear. intros DM.
      (* the same run, with the record built at the end *)
      rewrite <- (wp_bind _ (fun p => let '(jc, ir, mv) := p in Ok (SUCCESSFUL_RETURN, mkSchur m (n - 1) S2 (sc_Q w) (sc_R w) (sc_det w) jc ir mv si2 st2))) in DM || idtac.
      destruct (rd (sc_jc w) idx) as [lo| |]; cbn [bind wp] in DM |- *; try exact DM.
      destruct (rd (sc_jc w) (idx + 1)) as [hi| |]; cbn [bind wp] in DM |- *; try exact DM.
      match goal with |- wp (bind ?x _) _ => destruct x as [[tir tmv]| |]; cbn [bind wp] in DM |- *; try exact DM end.
      destruct (rd (sc_jc w) n) as [en| |]; cbn [bind wp] in DM |- *; try exact DM.
      match goal with |- wp (bind ?x _) _ => destruct x as [[ir mv]| |]; cbn [bind wp] in DM |- *; try exact DM end.
      match goal with |- wp (bind ?x _) _ => destruct x as [jc| |]; cbn [bind wp] in DM |- *; try exact DM end.
      match goal with |- wp (bind ?x _) _ => destruct x as [[ir' mv']| |]; cbn [bind wp] in DM |- *; try exact DM end. }
  intros jc' ir' mv' Ljc Lir Lmv VJ VM. unfold QQ. split; [reflexivity|]. set (lo := zn 0 (sc_jc w) idx) in *. set (hi := zn 0 (sc_jc w) (idx + 1)) in *. set (en := zn 0 (sc_jc w) n) in *.
  constructor; cbn [sc_max sc_n sc_S sc_Q sc_R sc_det sc_jc sc_ir sc_mv sc_idx sc_typ snd]; fold n m; fold lo hi en; try reflexivity.
  - repeat split; lia.
  - exact VS2.
  - exact VO2.
  - intros k Hk. rewrite Vsi2, Vst2 by lia. rewrite Vsi, Vst by lia. unfold skz. destruct (Z.leb_spec (idx + 1 - 1) k), (Z.ltb_spec k (n - 1)), (Z.ltb_spec k idx); try lia; split; reflexivity.
  - intros k Hk. rewrite Vsi2, Vst2 by lia. rewrite Vsi, Vst by lia. destruct (Z.ltb_spec k (n - 1)); [lia|]. rewrite !andb_false_r. split; reflexivity.
  - exact VJ.
  - intros k Hk. cbv zeta. destruct (VM k ltac:(lia) ltac:(lia)) as [A B]. rewrite A, B. destruct (Z.leb_spec en k), (Z.ltb_spec k (en - (hi - lo))), (Z.ltb_spec k lo); try lia; cbn [orb]; split; reflexivity.
  - intros k Hk. destruct (VM k ltac:(lia) ltac:(lia)) as [A B]. rewrite A, B. destruct (Z.leb_spec en k); [|lia]. rewrite orb_true_r. split; reflexivity.
  - intros U. split; [exact (VU2 U)|]. rewrite Usi2, Ust2, (Hti U), (Htt U) by exact U. do 2 (split; [reflexivity|]). intros k Hk. cbv zeta. destruct (VM (en - (hi - lo) + k) ltac:(lia) ltac:(intros F; rewrite F in U; discriminate)) as [A B]. rewrite A, B.
    destruct (Z.ltb_spec (en - (hi - lo) + k) lo), (Z.leb_spec en (en - (hi - lo) + k)), (Z.ltb_spec (en - (hi - lo) + k) (en - (hi - lo))); try lia; cbn [orb]. replace (lo + (en - (hi - lo) + k - (en - (hi - lo)))) with (lo + k) by lia. split; reflexivity.
Qed.

Lemma schur_ext (u v : schur) : sizes u -> sizes v -> sc_max u = sc_max v -> sc_n u = sc_n v -> sc_Q u = sc_Q v -> sc_R u = sc_R v -> sc_det u = sc_det v ->
  zlen (sc_ir u) = zlen (sc_ir v) -> zlen (sc_mv u) = zlen (sc_mv v) ->
  (forall a b, 0 <= a < sc_max v -> 0 <= b < sc_max v -> mg n0 (sc_max v) (sc_S u) a b = mg n0 (sc_max v) (sc_S v) a b) ->
  (forall k, 0 <= k -> zn 0 (sc_jc u) k = zn 0 (sc_jc v) k) ->
  (forall k, 0 <= k -> zn 0 (sc_ir u) k = zn 0 (sc_ir v) k /\ zn n0 (sc_mv u) k = zn n0 (sc_mv v) k) ->
  (forall k, 0 <= k -> zn 0 (sc_idx u) k = zn 0 (sc_idx v) k /\ zn 0 (sc_typ u) k = zn 0 (sc_typ v) k) -> u = v.
Proof.
  destruct u as [m n S Q R d jc ir mv ui ut], v as [m' n' S' Q' R' d' jc' ir' mv' ui' ut']. intros [] []. cbn in *. intros -> -> -> -> -> L1 L2 E1 E2 E3 E4. f_equal.
  - apply (mg_ext n0 m'); try assumption. lia.
  - apply (list_ext_zn 0); [congruence|]. intros k Hk. apply E2; lia.
  - apply (list_ext_zn 0); [exact L1|]. intros k Hk. apply E3; lia.
  - apply (list_ext_zn n0); [exact L2|]. intros k Hk. apply E3; lia.
  - apply (list_ext_zn 0); [congruence|]. intros k Hk. apply E4; lia.
  - apply (list_ext_zn 0); [congruence|]. intros k Hk. apply E4; lia.
Qed.

Lemma undo_spec idx w w' : sizes w -> mcols w -> 0 <= idx < sc_n w - 1 ->
  (forall a b, 0 <= a < sc_n w -> 0 <= b < sc_n w -> mg n0 (sc_max w) (sc_S w) a b = mg n0 (sc_max w) (sc_S w) b a) ->
  deleted true idx w w' -> wp (undoDeleteFromSchurComplement idx w') (fun r => r = (SUCCESSFUL_RETURN, w)).
Proof.
  intros Z C Hi SY D.
  pose proof Z as Z'. destruct Z' as [Zn ZS ZQ ZR Zjc Zidx Ztyp]. pose proof (mono_le w C) as MM. destruct C as [C0 C1 C2 C3].
  pose proof (MM 0 idx ltac:(lia) ltac:(lia)) as M1. pose proof (MM idx (idx + 1) ltac:(lia) ltac:(lia)) as M2. pose proof (MM (idx + 1) (sc_n w) ltac:(lia) ltac:(lia)) as M3.
  destruct D as [Dm Dn DQ DR Dd (ZS' & Zjc' & Zir' & Zmv' & Zidx' & Ztyp') DS DSo Didx Didxo Djc DM DMo DU]. destruct (DU eq_refl) as (US & Uidx & Utyp & UM). clear DU.
  unfold undoDeleteFromSchurComplement. rewrite Dm, Dn. set (n := sc_n w) in *. set (m := sc_max w) in *.
  set (lo := zn 0 (sc_jc w) idx) in *. set (hi := zn 0 (sc_jc w) (idx + 1)) in *. set (en := zn 0 (sc_jc w) n) in *. cbv zeta in DM, UM.
  destruct (Z.eqb_spec idx (n - 1)) as [|Hne]; [lia|]. replace (n - 1 + 1) with n by lia.
  apply wp_bind. eapply wp_mono; [apply (column_ok n0 m n (n - 1)); rewrite ?zlen_rep; try lia|]. cbv beta. intros tmp (Lt & Vt).
  rewrite (rd_ok 0) by lia. cbn [bind]. rewrite (rd_ok 0) by lia. cbn [bind].
  apply wp_assoc. match goal with |- wp (bind ?x _) _ => change x with (undo_shift m (n - 1) idx (sc_S w')) end.
  apply wp_bind. eapply wp_mono; [apply (undo_shift_ok n0 m (n - 1) idx); lia|]. intros S1 (LS1 & VS1 & VO1).
  apply wp_bind. eapply wp_mono; [apply (copy2_dn 0 0 (n - 1 - 1) (idx - 1) 1); try lia; intros; reflexivity|]. intros [si st] (Lsi & Lst & Vsi & Vst). cbn [fst snd] in *.
  apply wp_bind. eapply wp_mono; [apply (cross_ok n0 m n idx tmp); try lia; intros; reflexivity|]. cbv beta. intros S2 (LS2 & VS2).
  rewrite wr_ok by lia. cbn [bind]. rewrite wr_ok by lia. cbn [bind].
  rewrite (rd_ok 0) by lia. cbn [bind]. rewrite (rd_ok 0) by lia. cbn [bind].
  assert (J1 : zn 0 (sc_jc w') (n - 1) = en - (hi - lo)). { rewrite Djc by lia. destruct (Z.leb_spec idx (n - 1)), (Z.ltb_spec (n - 1) n); try lia. cbn [andb]. unfold en. f_equal. f_equal. lia. }
  assert (J2 : zn 0 (sc_jc w') n = en). { rewrite Djc by lia. rewrite Z.ltb_irrefl, andb_false_r. reflexivity. }
  assert (J3 : zn 0 (sc_jc w') idx = lo). { rewrite Djc by lia. destruct (Z.leb_spec idx idx), (Z.ltb_spec idx n); try lia. cbn [andb]. unfold hi. lia. }
  rewrite J1, J2.
  replace (en - (en - (hi - lo))) with (hi - lo) by lia.
  apply wp_bind. eapply wp_mono; [apply (gather2 0 n0 (en - (hi - lo)) en); rewrite ?zlen_rep; lia|]. intros [tir tmv] (T1 & T2 & T3 & T4). cbn [fst snd] in *.
  rewrite (rd_ok 0) by lia. cbn [bind]. rewrite J3.
  apply wp_bind. eapply wp_mono; [apply (copy2_dn 0 n0 (en - (hi - lo) - 1) (lo - 1) (hi - lo)); try lia; intros; reflexivity|]. intros [ir1 mv1] (L1 & L2 & V1 & V2). cbn [fst snd] in *.
  apply wp_bind. eapply wp_mono; [apply jc_dn; lia|]. intros jc1 (L3 & V3). cbv beta.
  assert (VJ : forall k, 0 <= k -> zn 0 jc1 k = zn 0 (sc_jc w) k).
  { intros k Hk. rewrite V3 by lia. replace (n - 1 + 1) with n by lia.
    destruct (Z.ltb_spec idx k), (Z.leb_spec k n); cbn [andb]; rewrite Djc by lia.
    - destruct (Z.leb_spec idx (k - 1)), (Z.ltb_spec (k - 1) n); try lia. cbn [andb]. replace (k - 1 + 1) with k by lia. lia.
    - destruct (Z.ltb_spec k n); [lia|]. rewrite andb_false_r. reflexivity.
    - destruct (Z.leb_spec idx k), (Z.ltb_spec k n); try lia; cbn [andb]; try reflexivity. replace k with idx by lia. fold hi lo. lia.
    - lia. }
  rewrite (rd_ok 0) by lia. cbn [bind]. rewrite (rd_ok 0) by lia. cbn [bind]. rewrite !VJ by lia. fold lo hi.
  apply wp_bind. eapply wp_mono; [apply (scatter2 0 n0); lia|]. intros [ir2 mv2] (L4 & L5 & V4 & V5). cbn [fst snd] in *. apply wp_ok. f_equal.
  apply schur_ext; try exact Z; cbn [sc_max sc_n sc_S sc_Q sc_R sc_det sc_jc sc_ir sc_mv sc_idx sc_typ]; fold n m; try assumption; try lia.
  - constructor; cbn [sc_max sc_n sc_S sc_Q sc_R sc_det sc_jc sc_ir sc_mv sc_idx sc_typ]; rewrite ?DQ, ?DR, ?zlen_zupd; fold m; lia.
  - intros a b Ha Hb. rewrite VS2 by lia. destruct (Z.eqb_spec b idx) as [->|Nb]; destruct (Z.ltb_spec a n); cbn [andb].
    + rewrite Vt by lia. apply US; lia.
    + destruct (Z.eqb_spec a idx); [lia|]. cbn [andb]. rewrite VO1 by lia. apply DSo; lia.
    + destruct (Z.eqb_spec a idx) as [->|Na]; destruct (Z.ltb_spec b n); cbn [andb].
      * rewrite Vt by lia. rewrite US by lia. apply SY; lia.
      * rewrite VO1 by lia. apply DSo; lia.
      * rewrite VS1 by lia. assert (SU : forall k, 0 <= k < n -> k <> idx -> 0 <= usk idx k < n - 1 /\ skz idx (usk idx k) = k).
        { intros k Hk Nk. unfold skz, usk. destruct (Z.ltb_spec k idx); [destruct (Z.ltb_spec k idx); lia|]. destruct (Z.ltb_spec (k - 1) idx); lia. }
        destruct (SU a ltac:(lia) Na) as [A1 A2], (SU b ltac:(lia) Nb) as [B1 B2]. rewrite DS by lia. now rewrite A2, B2.
      * rewrite VO1 by lia. apply DSo; lia.
    + destruct (Z.eqb_spec a idx); [lia|]. cbn [andb]. rewrite VO1 by lia. apply DSo; lia.
  - intros k Hk. rewrite V4, V5 by lia.
    destruct (Z.leb_spec lo k), (Z.ltb_spec k hi); cbn [andb]; try lia.
    + rewrite T3, T4 by lia. destruct (UM (k - lo) ltac:(lia)) as [A B]. rewrite A, B. replace (lo + (k - lo)) with k by lia. split; reflexivity.
    + rewrite V1, V2 by lia. destruct (Z.ltb_spec (lo - 1 + (hi - lo)) k); [|lia]. cbn [andb]. destruct (Z.leb_spec k (en - (hi - lo) - 1 + (hi - lo))).
      * destruct (DM (k - (hi - lo)) ltac:(lia)) as [A B]. rewrite A, B. destruct (Z.ltb_spec (k - (hi - lo)) lo); [lia|]. replace (k - (hi - lo) + (hi - lo)) with k by lia. split; reflexivity.
      * apply DMo; lia.
    + rewrite V1, V2 by lia. destruct (Z.ltb_spec (lo - 1 + (hi - lo)) k); [lia|]. cbn [andb]. destruct (DM k ltac:(lia)) as [A B]. rewrite A, B. destruct (Z.ltb_spec k lo); [|lia]. split; reflexivity.
  - intros k Hk. rewrite !zn_zupd by lia. destruct (Z.eqb_spec k idx) as [->|Nk]; [now rewrite Uidx, Utyp|]. rewrite Vsi, Vst by lia.
    destruct (Z.ltb_spec (idx - 1 + 1) k), (Z.leb_spec k (n - 1 - 1 + 1)); cbn [andb]; try lia.
    + destruct (Didx (k - 1) ltac:(lia)) as [A B]. rewrite A, B. unfold skz. destruct (Z.ltb_spec (k - 1) idx); [lia|]. replace (k - 1 + 1) with k by lia. split; reflexivity.
    + apply Didxo; lia.
    + destruct (Didx k ltac:(lia)) as [A B]. rewrite A, B. unfold skz. destruct (Z.ltb_spec k idx); [|lia]. split; reflexivity.
Qed.

(** a deletion with the undo option followed by its undo leaves no trace *)
Lemma delete_undo idx w : sizes w -> mcols w -> 0 <= idx < sc_n w ->
  (forall a b, 0 <= a < sc_n w -> 0 <= b < sc_n w -> mg n0 (sc_max w) (sc_S w) a b = mg n0 (sc_max w) (sc_S w) b a) ->
  exists w1, deleteFromSchurComplement idx true w = Ok (SUCCESSFUL_RETURN, w1) /\ deleted true idx w w1 /\ undoDeleteFromSchurComplement idx w1 = Ok (SUCCESSFUL_RETURN, w).
Proof.
  intros Z C Hi SY. pose proof (delete_spec true idx w Z C Hi) as D. destruct (deleteFromSchurComplement idx true w) as [[r w1]| |] eqn:E; cbn in D; try contradiction. destruct D as [-> D]. exists w1. split; [reflexivity|]. split; [exact D|].
  destruct (Z.eqb_spec idx (sc_n w - 1)) as [E1|Hne].
  - unfold deleteFromSchurComplement in E. rewrite E1, Z.eqb_refl in E. injection E as <-. unfold undoDeleteFromSchurComplement. cbn [sc_max sc_n sc_S sc_Q sc_R sc_det sc_jc sc_ir sc_mv sc_idx sc_typ]. rewrite E1, Z.eqb_refl.
    replace (sc_n w - 1 + 1) with (sc_n w) by lia. now destruct w.
  - pose proof (undo_spec idx w w1 Z C ltac:(lia) SY D) as G. destruct (undoDeleteFromSchurComplement idx w1) as [r| |]; cbn in G; [now rewrite G|contradiction..].
Qed.
End Undo.
