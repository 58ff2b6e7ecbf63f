(** Building blocks of the removals: the new column of R, and the flipper. *)
From Verif Require Import Base Types Num Options Indexlist IndexlistProofs Loops RSum LinSpec SafeLib SubjectTo SubjectToProofs SubjectToProofs2
  Flipper PropFlipper Matrices MatLib MatSafe LinAlg PropLinAlg QProblemB QPBSafe QPBX1 QPBX2 QPBX3 QPBX4 QProblem QPX1 QPX2 QPX3 QPX4 QPX5.
Local Open Scope R_scope.

Section X8.
Variables eps zero infty : R.
Notation N := (RNumT eps zero infty).
Notation arr := (list R).
Hypothesis zero_0 : zero = 0.
Variable junk : Z -> arr.
Hypothesis J : junk_ok (N := N) junk.
Notation pwf := (pwf eps zero infty).

(** r = R^-T w, stored as column nz of R *)
Lemma rcol_ok n nz (Ra w : arr) (rho0 : R) : (0 < nz < n)%Z -> zlen Ra = (n * n)%Z -> (nz <= zlen w)%Z -> (forall i, (0 <= i < nz)%Z -> ce n Ra i i <> 0) ->
  wp ('(rv, r) <- backsolveR (N := N) n nz Ra (Some w) true (junk nz) ;;
      if negb (rv =r? SUCCESSFUL_RETURN) then Ok (Brk tt) else
      rho2 <- for_up 0 nz (fun i rho2 => v <- rd r i ;; Ok (nsub rho2 (nmul v v))) rho0 ;;
      R <- for_up 0 nz (fun i R => v <- rd r i ;; wr R (i + n * nz) v) Ra ;;
      Ok (Next (rho2, R)))
     (fun c => exists r R', c = Next (rho0 - rsum 0 nz (fun i => r i * r i), R') /\ zlen R' = zlen Ra /\
        (forall p, (0 <= p < nz)%Z -> matvec nz (utrans true (triu Ra n)) r p = zn 0 w p) /\
        (forall p q, (0 <= p < n)%Z -> (0 <= q < n)%Z -> ce n R' p q = if ((q =? nz) && (p <? nz))%Z then r p else ce n Ra p q)).
Proof.
  intros Hz LR Lw DG.
  destruct (backsolveR_gen eps zero infty n nz Ra (Some w) true (junk nz)) as (ret & r & Er & Lr & _ & Sr).
  { right. intros p Hp. apply (DG p Hp). }
  { lia. } { eapply Z.le_trans; [|apply Z.eq_le_incl; symmetry; exact LR]. nia. } { apply Z.eq_le_incl. symmetry. apply J. lia. } { exact Lw. }
  rewrite J in Lr by lia. rewrite Er. cbn [bind].
  destruct Sr as [(-> & Sr)|(-> & p & Hp & Bad)].
  2:{ exfalso. cbv zeta in Bad. revert Bad. apply Rle_not_lt. eapply Rle_trans; [|apply Rabs_pos]. match goal with |- zero * ?v <= 0 => generalize v end. intros v. rewrite zero_0. lra. }
  change (negb (SUCCESSFUL_RETURN =r? SUCCESSFUL_RETURN)) with false. cbn iota. cbn [rhs] in Sr.
  rcar. rewrite (diff_loop 0 nz _ (fun i => zn 0 r i * zn 0 r i)); [|lia|intros i v Hi; rewrite (rd_ok 0) by lia; reflexivity]. cbn [bind].
  apply wp_bind.
  eapply wp_mono with (P := fun a : arr => zlen a = (n * n)%Z /\
    (forall p q, (0 <= p < n)%Z -> (0 <= q < n)%Z -> ce n a p q = if ((q =? nz) && (p <? nz))%Z then zn 0 r p else ce n Ra p q)).
  { apply wp_for_up with (I := fun k (a : arr) => zlen a = (n * n)%Z /\
      (forall p q, (0 <= p < n)%Z -> (0 <= q < n)%Z -> ce n a p q = if ((q =? nz) && (p <? k))%Z then zn 0 r p else ce n Ra p q)); [lia| | |].
    - split; [exact LR|]. intros p q Hp Hq. destruct (Z.ltb_spec p 0); [lia|]. now rewrite andb_false_r.
    - intros k a Hk (La & A). rewrite (rd_ok 0) by lia. cbn [bind].
      pose proof (ce_in n a (nz + 1) k nz ltac:(lia) La ltac:(lia) ltac:(lia)) as IN.
      rewrite wr_ok by exact IN. apply wp_ok. split; [now rewrite zlen_zupd|].
      intros p q Hp Hq. rewrite ce_upd by lia. rewrite A by lia. destruct (Z.eqb_spec q nz) as [->|]; rewrite ?andb_false_r, ?andb_true_r; cbn [andb]; [|reflexivity].
      destruct (Z.eqb_spec p k), (Z.ltb_spec p k), (Z.ltb_spec p (k + 1)); try lia; try reflexivity. congruence.
    - auto. }
  intros R' (L' & V'). apply wp_ok. exists (zn 0 r), R'. split; [reflexivity|]. split; [exact (eq_trans L' (eq_sym LR))|]. split; [exact Sr|exact V'].
Qed.

(** what a flip needs *)
Record pfl (n m : Z) (s : qp N) : Prop := {
  pf_f : exists g, holds (N := N) n m (q_flip (p_b s)) g;
  pf_lb : zlen (q_lb (p_b s)) = n; pf_ub : zlen (q_ub (p_b s)) = n;
  pf_lbA : zlen (p_lbA s) = m; pf_ubA : zlen (p_ubA s) = m;
  pf_Axl : zlen (p_Ax_l s) = m; pf_Axu : zlen (p_Ax_u s) = m
}.

Definition saved (n m : Z) (f : flipper N) (s : qp N) : Prop :=
  exists g, holds (N := N) n m f g /\ sn_b g = Some (p_bounds s) /\ sn_R g = Some (q_R (p_b s)) /\ sn_c g = Some (p_cons s) /\ sn_Q g = Some (p_Q s) /\ sn_T g = Some (p_T s).

Lemma p_save_ok n m Am (s : qp N) l0 l1 k0 k1 : pwf n m Am s l0 l1 k0 k1 -> pfl n m s ->
  exists f, p_save (N := N) junk s = Ok (up_b (set_q_flip f) s) /\ saved n m f s.
Proof.
  intros W F. destruct W, F. destruct pf_f0 as (g & Hg).
  assert (Hn : (0 <= n)%Z) by (unfold pV in pw_n; rewrite <- pw_n; exact (wf_n _ _ _ pw_b)).
  assert (Hm : (0 <= m)%Z) by (unfold pC in pw_m; rewrite <- pw_m; exact (wf_n _ _ _ pw_c)).
  set (g' := mkSnap (Some (p_bounds s)) (Some (q_R (p_b s))) (Some (p_cons s)) (Some (p_Q s)) (Some (p_T s))).
  destruct (set_holds (N := N) junk n m (q_flip (p_b s)) g g') as (f & E & Hf); auto.
  { split; [exact pw_R|]. split; [exact pw_Q|]. cbn. unfold dimT. rewrite <- pw_sT. exact pw_T. }
  exists f. unfold p_save. split; [match goal with |- bind ?m _ = _ => replace m with (Ok f) by (symmetry; exact E) end; reflexivity|].
  exists (snap_set g g'). split; [exact Hf|]. cbn. auto.
Qed.

Lemma p_restore_ok n m (s0 s : qp N) : saved n m (q_flip (p_b s)) s0 -> zlen (q_R (p_b s)) = (n * n)%Z -> zlen (p_Q s) = (n * n)%Z -> zlen (p_T s) = (Z.min n m * Z.min n m)%Z ->
  p_restore (N := N) s = Ok (set_p_T (p_T s0) (set_p_Q (p_Q s0) (set_p_cons (p_cons s0) (up_b (fun q => set_q_R (q_R (p_b s0)) (set_q_bounds (p_bounds s0) q)) s)))).
Proof.
  intros (g & H & gb & gR & gc & gQ & gT) LR LQ LT. destruct H. destruct h_sz as (S1 & S2 & S3). rewrite gb in h_b. rewrite gc in h_c. rewrite gR in *. rewrite gQ in *. rewrite gT in *.
  unfold p_restore, fl_get, getArr, fl_dimRQ, fl_getDimT. rewrite h_R, h_Q, h_T, h_nV, h_nC. cbn [use bind]. rewrite dimT_eq. cbn in S1, S2, S3. unfold dimT in *. rcar.
  rewrite !memcpy_full by auto. cbn [bind]. rewrite h_b, h_c. reflexivity.
Qed.
End X8.
