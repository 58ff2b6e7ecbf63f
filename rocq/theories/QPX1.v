(** Plane rotations of the columns of Q and what they preserve. *)
From Verif Require Import Base Types Num Options Indexlist IndexlistProofs Loops RSum LinSpec SafeLib SubjectTo SubjectToProofs SubjectToProofs2
  Flipper PropFlipper Matrices MatLib MatSafe LinAlg PropLinAlg QProblemB QPBSafe QPBX1 QPBX2 QPBX3 QProblem.
Local Open Scope R_scope.

(** ** Rotation of the entries 1+p and p of a row vector *)
Definition rot (c s : R) (p : Z) (f : Z -> R) (q : Z) : R :=
  if (q =? 1 + p)%Z then c * f (1 + p)%Z + s * f p else if (q =? p)%Z then - s * f (1 + p)%Z + c * f p else f q.

Lemma rot_hi c s p f : rot c s p f (1 + p)%Z = c * f (1 + p)%Z + s * f p.
Proof. unfold rot. now rewrite Z.eqb_refl. Qed.
Lemma rot_lo c s p f : rot c s p f p = - s * f (1 + p)%Z + c * f p.
Proof. unfold rot. destruct (Z.eqb_spec p (1 + p)); [lia|]. now rewrite Z.eqb_refl. Qed.
Lemma rot_ne c s p f q : q <> (1 + p)%Z -> q <> p -> rot c s p f q = f q.
Proof. intros. unfold rot. destruct (Z.eqb_spec q (1 + p)); [lia|]. destruct (Z.eqb_spec q p); [lia|reflexivity]. Qed.
Lemma rot_ext c s p f g q : f (1 + p)%Z = g (1 + p)%Z -> f p = g p -> f q = g q -> rot c s p f q = rot c s p g q.
Proof. intros A B C. unfold rot. rewrite A, B, C. reflexivity. Qed.
Lemma rot_zero c s p f q : f (1 + p)%Z = 0 -> f p = 0 -> f q = 0 -> rot c s p f q = 0.
Proof. intros A B C. unfold rot. rewrite A, B, C. destruct (q =? 1 + p)%Z, (q =? p)%Z; ring. Qed.
Lemma rot_id p f q : rot 1 0 p f q = f q.
Proof. unfold rot. destruct (Z.eqb_spec q (1 + p)) as [->|]; [ring|]. destruct (Z.eqb_spec q p) as [->|]; ring. Qed.

Lemma rsum_pair m p f : (0 <= p)%Z -> (1 + p < m)%Z -> rsum 0 m f = rsum 0 p f + (f p + f (1 + p)%Z) + rsum (2 + p) m f.
Proof.
  intros A B. rewrite (rsum_two (1 + p)) by lia. replace (1 + p - 1)%Z with p by lia. now replace (1 + p + 1)%Z with (2 + p)%Z by lia.
Qed.
(** rotations keep inner products of rows *)
Lemma rot_dot m p f g c s : (0 <= p)%Z -> (1 + p < m)%Z -> c * c + s * s = 1 ->
  rsum 0 m (fun q => rot c s p f q * rot c s p g q) = rsum 0 m (fun q => f q * g q).
Proof.
  intros A B E. rewrite !(rsum_pair m p) by lia. rewrite !rot_hi, !rot_lo. f_equal; [f_equal|].
  - apply rsum_ext. intros q Hq. now rewrite !rot_ne by lia.
  - replace (f p * g p + f (1 + p)%Z * g (1 + p)%Z) with ((c * c + s * s) * (f p * g p + f (1 + p)%Z * g (1 + p)%Z)) by (rewrite E; ring). ring.
  - apply rsum_ext. intros q Hq. now rewrite !rot_ne by lia.
Qed.
Lemma rot_adj m p f g c s : (0 <= p)%Z -> (1 + p < m)%Z ->
  rsum 0 m (fun q => f q * rot c s p g q) = rsum 0 m (fun q => rot c (- s) p f q * g q).
Proof.
  intros A B. rewrite !(rsum_pair m p) by lia. rewrite !rot_hi, !rot_lo. f_equal; [f_equal|].
  - apply rsum_ext. intros q Hq. now rewrite !rot_ne by lia.
  - ring.
  - apply rsum_ext. intros q Hq. now rewrite !rot_ne by lia.
Qed.
(** rotations act on every combination of rows *)
Lemma lsum_rot c s p l a F q : lsum l (fun v => a v * rot c s p (F v) q) = rot c s p (fun q => lsum l (fun v => a v * F v q)) q.
Proof.
  unfold rot. destruct (q =? 1 + p)%Z; [|destruct (q =? p)%Z; [|reflexivity]].
  - rewrite <- !lsum_scal, <- lsum_plus. apply lsum_ext. intros. ring.
  - rewrite <- !lsum_scal, <- lsum_plus. apply lsum_ext. intros. ring.
Qed.
Lemma lsum_rot_r c s p l a F q : lsum l (fun v => rot c s p (F v) q * a v) = rot c s p (fun q => lsum l (fun v => F v q * a v)) q.
Proof.
  unfold rot. destruct (q =? 1 + p)%Z; [|destruct (q =? p)%Z; [|reflexivity]].
  - rewrite <- !lsum_scal, <- lsum_plus. apply lsum_ext. intros. ring.
  - rewrite <- !lsum_scal, <- lsum_plus. apply lsum_ext. intros. ring.
Qed.

(** both indices of a matrix rotated *)
Definition rot2 (c s : R) (p : Z) (M : Z -> Z -> R) (a b : Z) : R := rot c s p (fun x => rot c s p (M x) b) a.
Lemma rot2_ext c s p M M' a b m : (0 <= p)%Z -> (1 + p < m)%Z -> (0 <= a < m)%Z -> (0 <= b < m)%Z ->
  (forall x y, (0 <= x < m)%Z -> (0 <= y < m)%Z -> M x y = M' x y) -> rot2 c s p M a b = rot2 c s p M' a b.
Proof. intros A B C D E. unfold rot2. apply rot_ext; apply rot_ext; apply E; lia. Qed.
Lemma rot2_delta c s p a b : c * c + s * s = 1 -> rot2 c s p delta a b = delta a b.
Proof.
  intros E. unfold rot2, rot, delta.
  destruct (Z.eqb_spec a (1 + p)), (Z.eqb_spec b (1 + p)), (Z.eqb_spec a p), (Z.eqb_spec b p); try lia; subst;
    repeat match goal with |- context [(?x =? ?y)%Z] => destruct (Z.eqb_spec x y); try lia end; try ring; nra.
Qed.
Lemma lsum_rot2 c s p l F a b : lsum l (fun v => rot c s p (F v) a * rot c s p (F v) b) = rot2 c s p (fun x y => lsum l (fun v => F v x * F v y)) a b.
Proof.
  unfold rot2. rewrite (lsum_rot_r c s p l (fun v => rot c s p (F v) b) F a). apply rot_ext; apply lsum_rot.
Qed.
(** F' M F with F having rows l *)
Definition zhz (l : list Z) (M : Z -> Z -> R) (F : Z -> Z -> R) (a b : Z) : R := lsum l (fun u => lsum l (fun v => F u a * M u v * F v b)).
Lemma zhz_ext l M F F' a b : (forall v, In v l -> F v a = F' v a) -> (forall v, In v l -> F v b = F' v b) -> zhz l M F a b = zhz l M F' a b.
Proof. intros A B. unfold zhz. apply lsum_ext. intros u Hu. apply lsum_ext. intros v Hv. now rewrite A, B. Qed.
Lemma zhz_rot c s p l M F a b : zhz l M (fun v => rot c s p (F v)) a b = rot2 c s p (zhz l M F) a b.
Proof.
  unfold zhz, rot2. transitivity (lsum l (fun u => rot c s p (F u) a * lsum l (fun v => M u v * rot c s p (F v) b))).
  { apply lsum_ext. intros u Hu. rewrite <- lsum_scal. apply lsum_ext. intros. ring. }
  rewrite lsum_rot_r.
  assert (E : forall x, lsum l (fun u => F u x * lsum l (fun v => M u v * rot c s p (F v) b)) = rot c s p (zhz l M F x) b).
  { intros x. unfold zhz. transitivity (lsum l (fun u => F u x * rot c s p (fun y => lsum l (fun v => M u v * F v y)) b)).
    - apply lsum_ext. intros u Hu. now rewrite lsum_rot.
    - rewrite lsum_rot. apply rot_ext; apply lsum_ext; intros u Hu; rewrite <- lsum_scal; apply lsum_ext; intros; ring. }
  apply rot_ext; apply E.
Qed.

(** ** Orthogonal matrices with rows l and columns 0..m-1 *)
Definition orth (l : list Z) (m : Z) (F : Z -> Z -> R) : Prop :=
  (forall p q, (0 <= p < m)%Z -> (0 <= q < m)%Z -> lsum l (fun v => F v p * F v q) = delta p q) /\
  (forall u v, In u l -> In v l -> rsum 0 m (fun p => F u p * F v p) = delta u v).
Lemma orth_ext l m F F' : (forall v q, In v l -> (0 <= q < m)%Z -> F' v q = F v q) -> orth l m F -> orth l m F'.
Proof.
  intros E (A & B). split.
  - intros p q Hp Hq. rewrite <- A by lia. apply lsum_ext. intros v Hv. now rewrite !E.
  - intros u v Hu Hv. rewrite <- B by auto. apply rsum_ext. intros p Hp. now rewrite !E.
Qed.
Lemma orth_rot l m F c s p : (0 <= p)%Z -> (1 + p < m)%Z -> c * c + s * s = 1 -> orth l m F -> orth l m (fun v => rot c s p (F v)).
Proof.
  intros H1 H2 E (A & B). split.
  - intros a b Ha Hb. rewrite lsum_rot2. rewrite <- (rot2_delta c s p a b E). apply (rot2_ext _ _ _ _ _ _ _ m); auto.
  - intros u v Hu Hv. rewrite rot_dot by assumption. auto.
Qed.

(** a combination of the rows of F *)
Definition comb (l : list Z) (a : Z -> R) (F : Z -> Z -> R) (q : Z) : R := lsum l (fun v => a v * F v q).
Lemma comb_ext l a F F' q : (forall v, In v l -> F v q = F' v q) -> comb l a F q = comb l a F' q.
Proof. intros E. unfold comb. apply lsum_ext. intros v Hv. now rewrite E. Qed.
Lemma comb_rot c s p l a F q : comb l a (fun v => rot c s p (F v)) q = rot c s p (comb l a F) q.
Proof. unfold comb. apply lsum_rot. Qed.
Lemma comb_delta l u F q : NoDup l -> In u l -> comb l (fun v => delta v u) F q = F u q.
Proof.
  intros ND Hu. unfold comb. rewrite (lsum_delta l u); auto.
  - unfold delta. rewrite Z.eqb_refl. ring.
  - intros v Hv N. unfold delta. destruct (Z.eqb_spec v u); [contradiction|ring].
Qed.
(** norms: |a' F| = |a| *)
Lemma comb_norm l m a F : NoDup l -> orth l m F -> rsum 0 m (fun q => comb l a F q * comb l a F q) = lsum l (fun v => a v * a v).
Proof.
  intros ND (A & B). unfold comb, rsum.
  transitivity (lsum (zseq 0 m) (fun q => lsum l (fun u => lsum l (fun v => (a u * a v) * (F u q * F v q))))).
  { apply lsum_ext. intros q Hq. rewrite <- lsum_scal_r. apply lsum_ext. intros u Hu. rewrite <- lsum_scal. apply lsum_ext. intros; ring. }
  rewrite lsum_swap. apply lsum_ext. intros u Hu. rewrite lsum_swap.
  rewrite (lsum_delta l u); auto.
  - rewrite lsum_scal. pose proof (B u u Hu Hu) as E. unfold rsum in E. rewrite E. unfold delta. rewrite Z.eqb_refl. ring.
  - intros v Hv Nv. rewrite lsum_scal. pose proof (B u v Hu Hv) as E. unfold rsum in E. rewrite E. unfold delta.
    destruct (Z.eqb_spec u v); [congruence|ring].
Qed.

(** positive definiteness is preserved *)
Lemma all_zero_dec m (f : Z -> R) : (exists i, (0 <= i < m)%Z /\ f i <> 0) \/ (forall i, (0 <= i < m)%Z -> f i = 0).
Proof.
  destruct (Z.le_gt_cases 0 m) as [Hm|Hm]; [|right; intros; lia]. pattern m. apply natlike_ind; [right; intros; lia| |exact Hm].
  intros k Hk [(i & Hi & Ni)|A]; [left; exists i; split; [lia|exact Ni]|].
  destruct (Req_EM_T (f k) 0) as [E|E]; [right|left; exists k; split; [lia|exact E]].
  intros i Hi. destruct (Z.eq_dec i k) as [->|]; [exact E|apply A; lia].
Qed.
Lemma posdef_rot m M c s p : (0 <= p)%Z -> (1 + p < m)%Z -> c * c + s * s = 1 -> posdef m M -> posdef m (rot2 c s p M).
Proof.
  intros H1 H2 E P x (i & Hi & Nx).
  assert (Q : quad m (rot2 c s p M) x = quad m M (rot c (- s) p x)).
  { assert (QE : forall M x, quad m M x = rsum 0 m (fun i => x i * rsum 0 m (fun j => M i j * x j))).
    { intros M' x'. unfold quad. apply rsum_ext. intros k Hk. rewrite <- rsum_scal. apply rsum_ext. intros; ring. }
    rewrite !QE.
    assert (A : forall i, (0 <= i < m)%Z -> rsum 0 m (fun j => rot2 c s p M i j * x j) = rot c s p (fun k => rsum 0 m (fun j => M k j * rot c (- s) p x j)) i).
    { intros k Hk. unfold rot2. rewrite (lsum_rot_r c s p (zseq 0 m) x (fun j y => rot c s p (M y) j) k : rsum 0 m (fun j => rot c s p (fun y => rot c s p (M y) j) k * x j) = _).
      assert (B : forall y, rsum 0 m (fun j => rot c s p (M y) j * x j) = rsum 0 m (fun j => M y j * rot c (- s) p x j)).
      { intros y. transitivity (rsum 0 m (fun j => x j * rot c s p (M y) j)); [apply rsum_ext; intros; ring|]. rewrite rot_adj by lia. apply rsum_ext; intros; ring. }
      apply rot_ext; apply B. }
    transitivity (rsum 0 m (fun i => x i * rot c s p (fun k => rsum 0 m (fun j => M k j * rot c (- s) p x j)) i)).
    - apply rsum_ext. intros k Hk. now rewrite A.
    - now rewrite rot_adj by lia. }
  rewrite Q. apply P.
  assert (Nn : rsum 0 m (fun q => rot c (- s) p x q * rot c (- s) p x q) <> 0).
  { rewrite rot_dot by (auto; nra). intros Z. apply Nx. assert (x i * x i = 0).
    { apply (rsum_nonneg_0 0 m (fun q => x q * x q)); auto. intros; nra. } nra. }
  destruct (all_zero_dec m (rot c (- s) p x)) as [(j & Hj & Nj)|Z0]; [exists j; auto|].
  exfalso. apply Nn. apply rsum_0. intros q Hq. rewrite Z0 by lia. ring.
Qed.
