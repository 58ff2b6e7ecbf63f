(** C53, C64: freed and leaked matrix memory. *)
From Coq Require Import FunctionalExtensionality.
From Verif Require Import Base Ownership.
Import ListNotations.
Local Open Scope nat_scope.

(** ** Invariant.  [tm]: matrix objects created by the library that no object has to
    free yet; [ta]: arrays created by the library that no matrix object owns yet *)
Record Inv (tm ta : nat -> Prop) (w : world) : Prop := mkInv {
  i_fresh : forall k, nxt w <= k -> arrs w k = false /\ mats w k = None /\ carr w k = false /\ cmat w k = false;
  i_dead : forall i b, alive w i = false -> ptr w (i, b) = None;
  i_own : forall s p, ptr w s = Some p -> flg w s = true -> cmat w p = false /\ ~ tm p /\
    exists m, mats w p = Some m /\ (mo_owns m = false -> lent_a w s (mo_arr m) = true \/ ta (mo_arr m));
  i_ref : forall s p, ptr w s = Some p -> flg w s = false -> lent_m w s p = true \/
    (tm p /\ exists m, mats w p = Some m /\ (lent_a w s (mo_arr m) = true \/ ta (mo_arr m)));
  i_lm : forall i b p, alive w i = true -> lent_m w (i, b) p = true -> cmat w p = true /\ exists m, mats w p = Some m /\ lent_a w (i, b) (mo_arr m) = true;
  i_la : forall i b a, alive w i = true -> lent_a w (i, b) a = true -> arrs w a = true /\ ~ ta a /\
    forall q m, mats w q = Some m -> mo_owns m = true -> mo_arr m = a -> cmat w q = true;
  i_arr : forall p m, mats w p = Some m -> mo_owns m = true -> arrs w (mo_arr m) = true /\ carr w (mo_arr m) = false /\ ~ ta (mo_arr m);
  i_bound : forall p m, mats w p = Some m -> mo_arr m < nxt w;
  i_carr : forall a, carr w a = true -> arrs w a = true;
  i_ta : forall a, ta a -> arrs w a = true /\ carr w a = false;
  i_uarr : forall p q m m', mats w p = Some m -> mats w q = Some m' -> mo_owns m = true -> mo_owns m' = true -> mo_arr m = mo_arr m' -> p = q;
  i_uslot : forall s t p, ptr w s = Some p -> ptr w t = Some p -> flg w s = true -> flg w t = true -> s = t;
  i_tm : forall p, tm p -> cmat w p = false /\ exists m, mats w p = Some m /\ mo_owns m = false;
  i_lmat : forall p m, mats w p = Some m -> cmat w p = false -> tm p \/ exists s, ptr w s = Some p /\ flg w s = true;
  i_larr : forall a, arrs w a = true -> carr w a = false -> ta a \/ exists p m, mats w p = Some m /\ mo_owns m = true /\ mo_arr m = a;
  i_flg : forall s, flg w s = true -> ptr w s <> None
}.
Definition none : nat -> Prop := fun _ => False.
Definition plus (P : nat -> Prop) (k : nat) : nat -> Prop := fun x => P x \/ x = k.
Definition minus (P : nat -> Prop) (k : nat) : nat -> Prop := fun x => P x /\ x <> k.

Ltac wcbn := cbn [arrs mats nxt alive hasC ptr flg carr cmat lent_m lent_a set_arrs set_mats set_nxt set_alive set_hasC set_ptr set_flg set_carr set_cmat set_lent_m set_lent_a put mo_arr mo_owns mo_dense fst snd] in *.
Ltac cases := unfold upd, upds, plus, minus in *; repeat match goal with
  | |- context [if Nat.eq_dec ?a ?b then _ else _] => destruct (Nat.eq_dec a b); [subst|]
  | H : context [if Nat.eq_dec ?a ?b then _ else _] |- _ => destruct (Nat.eq_dec a b); [subst|]
  | |- context [if slot_dec ?a ?b then _ else _] => destruct (slot_dec a b); [subst|]
  | H : context [if slot_dec ?a ?b then _ else _] |- _ => destruct (slot_dec a b); [subst|]
  end.
Ltac inj := repeat match goal with H : Some _ = Some _ |- _ => injection H as H; subst | H : (_, _) = (_, _) |- _ => injection H as H; subst end.

Lemma Inv0 : Inv none none nothing.
Proof. constructor; cbn; unfold none; intros; try discriminate; try tauto; try congruence. Qed.

(** everything an object refers to is allocated *)
Lemma live_ptr tm ta w s p : Inv tm ta w -> ptr w s = Some p -> exists m, mats w p = Some m /\ arrs w (mo_arr m) = true.
Proof.
  intros I E. destruct s as [i b]. destruct (alive w i) eqn:Al; [|rewrite (i_dead _ _ _ I i b Al) in E; discriminate].
  destruct (flg w (i, b)) eqn:F.
  - destruct (i_own _ _ _ I _ _ E F) as (_ & _ & m & M & L). exists m. split; [exact M|].
    destruct (mo_owns m) eqn:O; [apply (i_arr _ _ _ I _ _ M O)|]. destruct (L eq_refl) as [L'|L']; [apply (i_la _ _ _ I i b _ Al L')|apply (i_ta _ _ _ I _ L')].
  - destruct (i_ref _ _ _ I _ _ E F) as [L|(T & m & M & [L'|L'])].
    + destruct (i_lm _ _ _ I _ _ _ Al L) as (_ & m & M & L'). exists m. split; [exact M|apply (i_la _ _ _ I i b _ Al L')].
    + exists m. split; [exact M|apply (i_la _ _ _ I i b _ Al L')].
    + exists m. split; [exact M|apply (i_ta _ _ _ I _ L')].
Qed.
Lemma read_ok tm ta w s : Inv tm ta w -> read_mat (ptr w s) w = Ok w.
Proof.
  intros I. unfold read_mat. destruct (ptr w s) as [p|] eqn:E; [|reflexivity]. destruct (live_ptr _ _ _ _ _ I E) as (m & -> & ->). reflexivity.
Qed.
Lemma read_obj_ok tm ta w i : Inv tm ta w -> read_obj i w = Ok w.
Proof. intros I. unfold read_obj. rewrite (read_ok _ _ _ _ I). cbn [bind]. apply (read_ok _ _ _ _ I). Qed.

(** ** Releasing a slot *)
(** what [release] keeps: everything but one matrix object that belonged to the
    library, and its array *)
Record kept (s : slot) (w w' : world) : Prop := mkKept {
  k_alive : alive w' = alive w; k_hasC : hasC w' = hasC w; k_flg : flg w' = flg w; k_carr : carr w' = carr w; k_cmat : cmat w' = cmat w;
  k_lm : lent_m w' = lent_m w; k_la : lent_a w' = lent_a w; k_nxt : nxt w' = nxt w;
  k_ptr : forall t, t <> s -> ptr w' t = ptr w t;
  k_mats : forall p m, mats w p = Some m -> (ptr w s = Some p -> flg w s = false) -> mats w' p = Some m;
  k_arrs : forall a, arrs w a = true -> (forall p m, mats w p = Some m -> ptr w s = Some p -> flg w s = true -> mo_owns m = true -> mo_arr m <> a) -> arrs w' a = true;
  k_free : ptr w' s = None \/ flg w' s = false
}.
Lemma hole_inv tm ta w s : Inv tm ta w -> ptr w s = None \/ flg w s = false -> Inv tm ta (put s None false w).
Proof.
  intros I Fr. destruct I. constructor; wcbn; auto.
  - intros i b D. cases; auto.
  - intros t q. cases; [discriminate|auto].
  - intros t q. cases; [discriminate|auto].
  - intros t u q. cases; try discriminate; eauto.
  - intros q m M C. destruct (i_lmat0 q m M C) as [T|(t & T1 & T2)]; [auto|]. right. exists t. cases; [|auto]. destruct Fr; congruence.
  - intros t. cases; [discriminate|auto].
Qed.
Lemma del_inv tm ta w s p m arrs' : Inv tm ta w -> ptr w s = Some p -> flg w s = true -> mats w p = Some m ->
  (forall x, arrs' x = true <-> arrs w x = true /\ ~ (mo_owns m = true /\ x = mo_arr m)) ->
  Inv tm ta (put s None false (set_ptr (upds (ptr w) s None) (set_mats (upd (mats w) p None) (set_arrs arrs' w)))).
Proof.
  intros I E F M A1. destruct (i_own _ _ _ I _ _ E F) as (C & NT & _).
  assert (NC : forall q, cmat w q = true -> q <> p) by congruence.
  assert (NTm : forall q, tm q -> q <> p) by congruence.
  destruct I. constructor; wcbn; auto.
  - intros k Hk. destruct (i_fresh0 k Hk) as (a & b & c & d). split; [|split; [cases; auto|auto]].
    destruct (arrs' k) eqn:X; [|reflexivity]. apply A1 in X as (X & _). congruence.
  - intros i b D. cases; auto.
  - intros t q. cases; try discriminate; intros Pt Ft; [elim n; eapply i_uslot0; eauto|auto].
  - intros t q. cases; try discriminate; intros Pt Ft; destruct (i_ref0 _ _ Pt Ft) as [L|(T & L)]; auto; now elim (NTm p).
  - intros i b q Al Lm. destruct (i_lm0 i b q Al Lm) as (Cq & L). split; [exact Cq|]. cases; [congruence|exact L].
  - intros i b a Al La. destruct (i_la0 i b a Al La) as (Aa & Ta & O). split; [|split; [exact Ta|]].
    + apply A1. split; [exact Aa|]. intros (Ow & ->). specialize (O p m M Ow eq_refl). congruence.
    + intros q m'. cases; [discriminate|]. apply O.
  - intros q m'. cases; [discriminate|]. intros Mq Oq. destruct (i_arr0 q m' Mq Oq) as (a & b & c). split; [|auto].
    apply A1. split; [exact a|]. intros (Ow & X). apply n. eapply i_uarr0; eauto.
  - intros q m'. cases; [discriminate|]. apply i_bound0.
  - intros a Ca. apply A1. split; [auto|]. intros (Ow & ->). destruct (i_arr0 p m M Ow) as (_ & X & _). congruence.
  - intros a Ta. destruct (i_ta0 a Ta) as (a1 & a2). split; [|exact a2]. apply A1. split; [exact a1|]. intros (Ow & ->). destruct (i_arr0 p m M Ow) as (_ & _ & X). contradiction.
  - intros q q' m1 m2. cases; try discriminate. apply i_uarr0.
  - intros t u q. cases; try discriminate. apply i_uslot0.
  - intros q T. destruct (i_tm0 q T) as (a & b). split; [exact a|]. cases; [contradiction|exact b].
  - intros q m'. cases; [discriminate|]. intros Mq Cq. destruct (i_lmat0 q m' Mq Cq) as [T|(t & T1 & T2)]; [auto|]. right. exists t. cases; [congruence|auto].
  - intros a Aa Ca. apply A1 in Aa as (Aa & NO). destruct (i_larr0 a Aa Ca) as [T|(q & m' & Mq & Oq & X)]; [auto|]. right. exists q, m'. cases; [|auto].
    elim NO. split; congruence.
  - intros t. cases; [discriminate|]. apply i_flg0.
Qed.
Lemma release_ok tm ta w s : Inv tm ta w -> exists w', release s w = Ok w' /\ Inv tm ta (put s None false w') /\ kept s w w'.
Proof.
  intros I. unfold release. destruct (ptr w s) as [p|] eqn:E.
  2:{ exists w. split; [reflexivity|]. split; [apply hole_inv; auto|constructor; auto]. }
  destruct (flg w s) eqn:F.
  2:{ exists w. split; [reflexivity|]. split; [apply hole_inv; auto|constructor; auto]. }
  destruct (i_own _ _ _ I _ _ E F) as (C & NT & m & M & L). unfold del_mat. rewrite M.
  destruct (mo_owns m) eqn:O.
  - destruct (i_arr _ _ _ I _ _ M O) as (Ar & Ca & Ta). unfold free_arr. rewrite Ar. cbn [bind].
    eexists. split; [reflexivity|]. split.
    + eapply (del_inv tm ta w s p m (upd (arrs w) (mo_arr m) false)); eauto. intros x. cases; split; try tauto; try discriminate.
    + constructor; wcbn; intros; cases; auto; try congruence; exfalso; [rewrite H0 in F; congruence|apply (H0 p m); auto].
  - cbn [bind]. eexists. split; [reflexivity|]. split.
    + eapply (del_inv tm ta w s p m (arrs w)); eauto. intros x. split; [|tauto]. intros X. split; [exact X|]. intros (Y & _). congruence.
    + constructor; wcbn; intros; cases; auto; try congruence. exfalso; rewrite H0 in F; congruence.
Qed.

(** ** Filling a slot *)
(** with a matrix object of the caller, or a temporary one *)
Lemma put_ref tm ta w s p : Inv tm ta (put s None false w) -> alive w (fst s) = true ->
  lent_m w s p = true \/ (tm p /\ exists m, mats w p = Some m /\ (lent_a w s (mo_arr m) = true \/ ta (mo_arr m))) ->
  Inv tm ta (put s (Some p) false w).
Proof.
  intros I Al L. destruct I. constructor; wcbn; auto.
  - intros i b D. specialize (i_dead0 i b D). cases; [cbn in Al; congruence|auto].
  - intros t q Pt Ft. specialize (i_own0 t q). cases; [discriminate|auto].
  - intros t q Pt Ft. specialize (i_ref0 t q). cases; [injection Pt as ->; exact L|auto].
  - intros t u q Pt Pu Ft Fu. specialize (i_uslot0 t u q). cases; try discriminate; auto.
  - intros q m M C. destruct (i_lmat0 q m M C) as [T|(t & T1 & T2)]; [auto|]. right. exists t. cases; [discriminate|auto].
  - intros t Ft. specialize (i_flg0 t). cases; [discriminate|auto].
Qed.
(** with a temporary matrix object, to be freed with the object *)
Lemma put_own tm ta w s p m : Inv tm ta (put s None false w) -> alive w (fst s) = true -> tm p -> mats w p = Some m ->
  lent_a w s (mo_arr m) = true \/ ta (mo_arr m) -> (forall t, t <> s -> ptr w t <> Some p) ->
  Inv (minus tm p) ta (put s (Some p) true w).
Proof.
  intros I Al T M L U. destruct (i_tm _ _ _ I p T) as (Cp & _). destruct I. constructor; wcbn; auto.
  - intros i b D. specialize (i_dead0 i b D). cases; [cbn in Al; congruence|auto].
  - intros t q Pt Ft. specialize (i_own0 t q). unfold minus. cases.
    + injection Pt as <-. split; [exact Cp|]. split; [tauto|]. eauto.
    + destruct (i_own0 Pt Ft) as (a & b & c). split; [auto|split; [tauto|auto]].
  - intros t q Pt Ft. specialize (i_ref0 t q). unfold minus. cases; [discriminate|]. destruct (i_ref0 Pt Ft) as [?|(Tq & X)]; [auto|].
    right. split; [split; [exact Tq|]|exact X]. intros ->. now apply (U t n).
  - intros t u q Pt Pu Ft Fu. specialize (i_uslot0 t u q). unfold upds in *. destruct (slot_dec t s) as [->|Nt], (slot_dec u s) as [->|Nu]; auto.
    + injection Pt as <-. now elim (U u Nu).
    + injection Pu as <-. now elim (U t Nt).
  - intros q (Tq & _). auto.
  - intros q m' Mq Cq. destruct (Nat.eq_dec q p) as [->|Ne].
    + right. exists s. cases; [auto|congruence].
    + destruct (i_lmat0 q m' Mq Cq) as [Tq|(t & T1 & T2)]; [left; split; auto|]. right. exists t. cases; [discriminate|auto].
  - intros t Ft. specialize (i_flg0 t). cases; [discriminate|auto].
Qed.
Lemma Inv_iff tm tm' ta ta' w : (forall x, tm x <-> tm' x) -> (forall x, ta x <-> ta' x) -> Inv tm ta w -> Inv tm' ta' w.
Proof.
  intros E1 E2 I. destruct I. constructor; auto.
  - intros s p Pt Ft. destruct (i_own0 s p Pt Ft) as (a & b & m & M & L). split; [auto|]. split; [rewrite <- E1; auto|]. exists m. split; [auto|]. rewrite <- E2. auto.
  - intros s p Pt Ft. destruct (i_ref0 s p Pt Ft) as [?|(T & m & M & L)]; [auto|]. right. rewrite <- E1. split; [auto|]. exists m. rewrite <- E2. auto.
  - intros i b a Al La. rewrite <- E2. apply (i_la0 i b a Al La).
  - intros p m. rewrite <- E2. apply i_arr0.
  - intros a. rewrite <- E2. apply i_ta0.
  - intros p. rewrite <- E1. apply i_tm0.
  - intros p m. rewrite <- E1. apply i_lmat0.
  - intros a. rewrite <- E2. apply i_larr0.
Qed.
Lemma live_lt tm ta w a : Inv tm ta w -> arrs w a = true -> a < nxt w.
Proof. intros I A. destruct (le_lt_dec (nxt w) a) as [L|L]; [|exact L]. destruct (i_fresh _ _ _ I a L). congruence. Qed.
Lemma mats_lt tm ta w p m : Inv tm ta w -> mats w p = Some m -> p < nxt w.
Proof. intros I M. destruct (le_lt_dec (nxt w) p) as [L|L]; [|exact L]. destruct (i_fresh _ _ _ I p L) as (_ & X & _). congruence. Qed.
(** a new matrix object around an array *)
Lemma new_tmp_d tm ta w a d : Inv tm ta w -> a < nxt w -> Inv (plus tm (nxt w)) ta (snd (new_mat (mkM a false d) w)).
Proof.
  intros I La. destruct (i_fresh _ _ _ I (nxt w) (le_n _)) as (F1 & F2 & F3 & F4).
  assert (MN : forall p m, mats w p = Some m -> p <> nxt w) by (intros p m M ->; congruence).
  pose proof (fun s p => live_ptr _ _ _ s p I) as LP.
  assert (PN : forall s, ptr w s <> Some (nxt w)) by (intros s E; destruct (LP s _ E) as (m & M & _); congruence).
  unfold new_mat. cbn [snd]. destruct I. constructor; wcbn; auto.
  - intros k Hk. destruct (i_fresh0 k ltac:(lia)) as (x1 & x2 & x3 & x4). split; [auto|]. split; [cases; [lia|auto]|auto].
  - intros s p Pt Ft. destruct (i_own0 s p Pt Ft) as (x1 & x2 & m & M & L). split; [auto|]. split; [intros [X|X]; [auto|subst; now apply (PN s)]|]. exists m. split; [|exact L]. cases; [congruence|auto].
  - intros s p Pt Ft. destruct (i_ref0 s p Pt Ft) as [?|(T & m & M & L)]; [auto|]. right. split; [left; exact T|]. exists m. split; [|exact L]. cases; [congruence|auto].
  - intros i b p Al Lm. destruct (i_lm0 i b p Al Lm) as (x1 & m & M & L). split; [auto|]. exists m. split; [|exact L]. cases; [congruence|auto].
  - intros i b x Al Lx. destruct (i_la0 i b x Al Lx) as (x1 & x2 & x3). split; [auto|]. split; [auto|]. intros q m. cases; [intros [= <-]; discriminate|apply x3].
  - intros p m. cases; [intros [= <-]; discriminate|apply i_arr0].
  - intros p m. cases; [intros [= <-]; cbn; lia|]. intros M. specialize (i_bound0 p m M). lia.
  - intros p q m m'. cases; intros M M'; try (injection M as <-); try (injection M' as <-); try discriminate; eauto.
  - intros p [T| ->]; [|split; [auto|]].
    + destruct (i_tm0 p T) as (x1 & m & M & O). split; [auto|]. exists m. split; [|exact O]. cases; [congruence|auto].
    + exists (mkM a false d). split; [cases; congruence|reflexivity].
  - intros p m. cases; [intros _ _; left; right; reflexivity|]. intros M C. destruct (i_lmat0 p m M C); [left; left; auto|auto].
  - intros x A C. destruct (i_larr0 x A C) as [?|(p & m & M & O)]; [auto|]. right. exists p, m. split; [|exact O]. cases; [congruence|auto].
Qed.
Lemma new_tmp tm ta w a : Inv tm ta w -> a < nxt w -> Inv (plus tm (nxt w)) ta (snd (new_mat (mkM a false true) w)).
Proof. apply new_tmp_d. Qed.
(** a new array *)
Lemma new_ta tm ta w : Inv tm ta w -> Inv tm (plus ta (nxt w)) (snd (new_arr w)).
Proof.
  intros I. destruct (i_fresh _ _ _ I (nxt w) (le_n _)) as (F1 & F2 & F3 & F4).
  assert (AT : forall x, arrs w x = true -> upd (arrs w) (nxt w) true x = true) by (intros; cases; auto).
  assert (NA : forall x, arrs w x = true -> x <> nxt w) by congruence.
  unfold new_arr. cbn [snd]. destruct I. constructor; wcbn; auto.
  - intros k Hk. destruct (i_fresh0 k ltac:(lia)) as (x1 & x2 & x3 & x4). split; [cases; [lia|auto]|auto].
  - intros s p Pt Ft. destruct (i_own0 s p Pt Ft) as (x1 & x2 & m & M & L). split; [auto|]. split; [auto|]. exists m. split; [auto|]. intros O. destruct (L O); unfold plus; auto.
  - intros s p Pt Ft. destruct (i_ref0 s p Pt Ft) as [?|(T & m & M & L)]; [auto|]. right. split; [auto|]. exists m. split; [auto|]. destruct L; unfold plus; auto.
  - intros i b x Al Lx. destruct (i_la0 i b x Al Lx) as (x1 & x2 & x3). split; [auto|]. split; [|auto]. intros [?|?]; [auto|]. now apply (NA x).
  - intros p m M O. destruct (i_arr0 p m M O) as (x1 & x2 & x3). split; [auto|]. split; [auto|]. intros [?|X]; [auto|]. now apply (NA (mo_arr m)).
  - intros p m M. specialize (i_bound0 p m M). lia.
  - intros x [T| ->]; [|split; [cases; congruence|auto]]. destruct (i_ta0 x T). auto.
  - intros x A C. unfold plus. cases; [auto|]. destruct (i_larr0 x A C); auto.
Qed.
(** doFreeMemory() for an array nobody else refers to *)
Lemma own_ok tm ta w s p m : Inv tm ta w -> ptr w s = Some p -> flg w s = true -> mats w p = Some m -> ta (mo_arr m) ->
  (forall q m', mats w q = Some m' -> mo_arr m' = mo_arr m -> q = p) ->
  exists w', own_mat p w = Ok w' /\ Inv tm (minus ta (mo_arr m)) w' /\ w' = set_mats (upd (mats w) p (Some (mkM (mo_arr m) true (mo_dense m)))) w.
Proof.
  intros I Pt Ft M T U. unfold own_mat. rewrite M. eexists. split; [reflexivity|]. split; [|reflexivity]. destruct (i_own _ _ _ I _ _ Pt Ft) as (Cp & NT & _).
  destruct (i_ta _ _ _ I _ T) as (Aa & Ca). set (a := mo_arr m) in *.
  destruct I. constructor; wcbn; auto.
  - intros k Hk. destruct (i_fresh0 k Hk) as (x1 & x2 & x3 & x4). split; [auto|]. split; [cases; congruence|auto].
  - intros t q Pq Fq. destruct (i_own0 t q Pq Fq) as (x1 & x2 & m' & M' & L). split; [auto|]. split; [auto|]. cases.
    + exists (mkM a true (mo_dense m)). split; [reflexivity|discriminate].
    + exists m'. split; [auto|]. intros O. destruct (L O) as [?|Tq]; [auto|]. right. split; [exact Tq|]. intros X. apply n. eapply U; eauto.
  - intros t q Pq Fq. destruct (i_ref0 t q Pq Fq) as [?|(Tq & m' & M' & L)]; [auto|]. right. split; [exact Tq|]. cases; [contradiction|].
    exists m'. split; [auto|]. destruct L as [?|Tb]; [auto|]. right. split; [exact Tb|]. intros X. apply n. eapply U; eauto.
  - intros i b q Al Lm. destruct (i_lm0 i b q Al Lm) as (x1 & x2). split; [auto|]. cases; [congruence|auto].
  - intros i b x Al Lx. destruct (i_la0 i b x Al Lx) as (x1 & x2 & x3). split; [auto|]. split; [intros [X _]; auto|]. intros q m'. cases; [intros [= <-] _ Y; cbn in Y; subst; contradiction|apply x3].
  - intros q m'. cases.
    + intros [= <-] _. cbn. split; [auto|]. split; [auto|]. tauto.
    + intros M' O'. destruct (i_arr0 q m' M' O') as (x1 & x2 & x3). split; [auto|]. split; [auto|]. tauto.
  - intros q m'. cases; [intros [= <-]; apply (i_bound0 p m M)|apply i_bound0].
  - intros x [Tx _]. auto.
  - intros q q' m1 m2. cases; intros M1 M2; try (injection M1 as <-); try (injection M2 as <-); cbn; auto.
    + intros _ O2 X. exfalso. apply n. eapply U; eauto.
    + intros O1 _ X. exfalso. apply n. eapply U; eauto.
    + eapply i_uarr0; eauto.
  - intros q Tq. destruct (i_tm0 q Tq) as (x1 & x2). split; [auto|]. cases; [contradiction|auto].
  - intros q m'. cases; [intros [= <-]; apply (i_lmat0 p m M)|apply i_lmat0].
  - intros x Ax Cx. destruct (Nat.eq_dec x a) as [->|Ne].
    + right. exists p, (mkM a true (mo_dense m)). split; [cases; congruence|auto].
    + destruct (i_larr0 x Ax Cx) as [?|(q & m' & M' & O' & X)]; [left; split; auto|]. right. cases.
      exists q, m'. cases; [|auto]. exfalso. destruct (i_arr0 p m' M' O') as (_ & _ & X). rewrite M in M'. injection M' as <-. contradiction.
Qed.
(** ** What is lent *)
Lemma lend_m_ok tm ta w i b p : Inv tm ta w -> alive w i = true -> usable_m w p -> Inv tm ta (lend_m (i, b) p w).
Proof.
  intros I Al (m & M & C & A & O). unfold lend_m. cbv zeta. change (mats (set_lent_m (upds (lent_m w) (i, b) (upd (lent_m w (i, b)) p true)) w) p) with (mats w p). rewrite M.
  assert (LM : forall t q, lent_m w t q = true -> upds (lent_m w) (i, b) (upd (lent_m w (i, b)) p true) t q = true) by (intros; cases; auto).
  assert (LA : forall t q, lent_a w t q = true -> upds (lent_a w) (i, b) (upd (lent_a w (i, b)) (mo_arr m) true) t q = true) by (intros; cases; auto).
  destruct I. constructor; wcbn; auto.
  - intros s q Pq Fq. destruct (i_own0 s q Pq Fq) as (x1 & x2 & m' & M' & L). split; [auto|]. split; [auto|]. exists m'. split; [auto|]. intros O'. destruct (L O'); auto.
  - intros s q Pq Fq. destruct (i_ref0 s q Pq Fq) as [?|(T & m' & M' & L)]; [auto|]. right. split; [auto|]. exists m'. split; [auto|]. destruct L; auto.
  - intros j c q Aj Lq. destruct (slot_dec (j, c) (i, b)) as [E|NE].
    + injection E as -> ->. unfold upds at 1 in Lq. destruct (slot_dec (i, b) (i, b)); [|congruence]. unfold upd in Lq. destruct (Nat.eq_dec q p) as [->|Nq].
      * split; [exact C|]. exists m. split; [exact M|]. cases; congruence.
      * destruct (i_lm0 i b q Aj Lq) as (x1 & m' & M' & L). eauto.
    + unfold upds at 1 in Lq. destruct (slot_dec (j, c) (i, b)); [contradiction|]. destruct (i_lm0 j c q Aj Lq) as (x1 & m' & M' & L). eauto.
  - intros j c x Aj Lx. assert (D : lent_a w (j, c) x = true \/ x = mo_arr m) by (cases; auto; destruct e; subst; auto). destruct D as [D| ->]; [eauto|].
    split; [exact A|]. split; [intros T; destruct (i_ta0 _ T) as (_ & X); destruct (mo_owns m) eqn:Om; [apply (i_arr0 p m M Om); exact T|rewrite O in X; auto; discriminate]|].
    intros q m' M' O' E'. destruct (mo_owns m) eqn:Om; [rewrite (i_uarr0 q p m' m M' M O' Om E'); exact C|].
    destruct (i_arr0 q m' M' O') as (_ & X & _). rewrite E' in X. rewrite O in X; auto. discriminate.
Qed.
Lemma lend_a_ok tm ta w i b a : Inv tm ta w -> alive w i = true -> usable_a w a -> Inv tm ta (lend_a (i, b) a w).
Proof.
  intros I Al (A & C). unfold lend_a.
  assert (LA : forall t q, lent_a w t q = true -> upds (lent_a w) (i, b) (upd (lent_a w (i, b)) a true) t q = true) by (intros; cases; auto).
  destruct I. constructor; wcbn; auto.
  - intros s q Pq Fq. destruct (i_own0 s q Pq Fq) as (x1 & x2 & m' & M' & L). split; [auto|]. split; [auto|]. exists m'. split; [auto|]. intros O'. destruct (L O'); auto.
  - intros s q Pq Fq. destruct (i_ref0 s q Pq Fq) as [?|(T & m' & M' & L)]; [auto|]. right. split; [auto|]. exists m'. split; [auto|]. destruct L; auto.
  - intros j c q Aj Lq. destruct (i_lm0 j c q Aj Lq) as (x1 & m' & M' & L). eauto.
  - intros j c x Aj Lx. assert (D : lent_a w (j, c) x = true \/ x = a) by (cases; inj; auto). destruct D as [D| ->]; [eauto|].
    split; [exact A|]. split; [intros T; destruct (i_ta0 _ T); congruence|]. intros q m' M' O' E'. destruct (i_arr0 q m' M' O') as (_ & X & _). congruence.
Qed.
Lemma lend_as_ok tm ta w i b j c : Inv tm ta w -> ptr w (i, b) = None -> (alive w i = true -> alive w j = true) -> Inv tm ta (lend_as (i, b) (j, c) w).
Proof.
  intros I P Aj. unfold lend_as. destruct I. constructor; wcbn; auto.
  - intros s q Pq Fq. destruct (i_own0 s q Pq Fq) as (x1 & x2 & m' & M' & L). split; [auto|]. split; [auto|]. exists m'. split; [auto|]. cases; [congruence|auto].
  - intros s q Pq Fq. cases; [congruence|auto].
  - intros k d q Ak Lq. unfold upds in *. destruct (slot_dec (k, d) (i, b)) as [E|NE]; [injection E as -> ->; auto|auto].
  - intros k d x Ak Lx. unfold upds in *. destruct (slot_dec (k, d) (i, b)) as [E|NE]; [injection E as -> ->; eauto|eauto].
Qed.
(** forgetting all but the data in use *)
Lemma only_m_ok tm ta w i b p : Inv tm ta w -> alive w i = true -> ptr w (i, b) = Some p -> flg w (i, b) = false -> lent_m w (i, b) p = true ->
  Inv tm ta (only_m (i, b) p w).
Proof.
  intros I Al P F L. destruct (i_lm _ _ _ I i b p Al L) as (C & m & M & La).
  unfold only_m, lend_m. cbv zeta. wcbn. rewrite M. wcbn.
  assert (E1 : forall t, t <> (i, b) -> upds (upds (lent_m w) (i, b) (fun _ => false)) (i, b) (upd (upds (lent_m w) (i, b) (fun _ => false) (i, b)) p true) t = lent_m w t) by (intros; cases; congruence).
  assert (E2 : forall t, t <> (i, b) -> upds (upds (lent_a w) (i, b) (fun _ => false)) (i, b) (upd (upds (lent_a w) (i, b) (fun _ => false) (i, b)) (mo_arr m) true) t = lent_a w t) by (intros; cases; congruence).
  set (lm' := upds (upds (lent_m w) _ _) _ _) in *. set (la' := upds (upds (lent_a w) _ _) _ _) in *.
  assert (E3 : forall q, lm' (i, b) q = true <-> q = p) by (intros q; unfold lm'; cases; try congruence; split; congruence).
  assert (E4 : forall q, la' (i, b) q = true <-> q = mo_arr m) by (intros q; unfold la'; cases; try congruence; split; congruence).
  clearbody lm' la'. destruct I. constructor; wcbn; auto.
  - intros s q Pq Fq. destruct (slot_dec s (i, b)) as [->|N]; [congruence|]. destruct (i_own0 s q Pq Fq) as (x1 & x2 & m' & M' & L'). split; [auto|]. split; [auto|]. exists m'. split; [auto|]. rewrite E2 by auto. auto.
  - intros s q Pq Fq. destruct (slot_dec s (i, b)) as [->|N]; [left; apply E3; congruence|]. rewrite E1, E2 by auto. auto.
  - intros j c q Aj Lq. destruct (slot_dec (j, c) (i, b)) as [E|N].
    + injection E as -> ->. apply E3 in Lq as ->. split; [exact C|]. exists m. split; [exact M|]. now apply E4.
    + rewrite E1 in Lq by auto. rewrite E2 by auto. auto.
  - intros j c x Aj Lx. destruct (slot_dec (j, c) (i, b)) as [E|N].
    + injection E as -> ->. apply E4 in Lx as ->. eauto.
    + rewrite E2 in Lx by auto. eauto.
Qed.
Lemma only_a_ok tm ta w i b p m : Inv tm ta w -> alive w i = true -> ptr w (i, b) = Some p -> flg w (i, b) = true -> mats w p = Some m -> lent_a w (i, b) (mo_arr m) = true ->
  Inv tm ta (only_a (i, b) (mo_arr m) w).
Proof.
  intros I Al P F M La. unfold only_a, lend_a. wcbn.
  assert (E1 : forall t, t <> (i, b) -> upds (lent_m w) (i, b) (fun _ => false) t = lent_m w t) by (intros; cases; congruence).
  assert (E2 : forall t, t <> (i, b) -> upds (upds (lent_a w) (i, b) (fun _ => false)) (i, b) (upd (upds (lent_a w) (i, b) (fun _ => false) (i, b)) (mo_arr m) true) t = lent_a w t) by (intros; cases; congruence).
  set (lm' := upds (lent_m w) _ _) in *. set (la' := upds (upds (lent_a w) _ _) _ _) in *.
  assert (E3 : forall q, lm' (i, b) q = false) by (intros q; unfold lm'; cases; try congruence; split; congruence).
  assert (E4 : forall q, la' (i, b) q = true <-> q = mo_arr m) by (intros q; unfold la'; cases; try congruence; split; congruence).
  clearbody lm' la'. destruct I. constructor; wcbn; auto.
  - intros s q Pq Fq. destruct (i_own0 s q Pq Fq) as (x1 & x2 & m' & M' & L'). split; [auto|]. split; [auto|]. exists m'. split; [auto|].
    destruct (slot_dec s (i, b)) as [->|N]; [|rewrite E2 by auto; auto]. intros _. left. apply E4. congruence.
  - intros s q Pq Fq. destruct (slot_dec s (i, b)) as [->|N]; [congruence|]. rewrite E1, E2 by auto. auto.
  - intros j c q Aj Lq. destruct (slot_dec (j, c) (i, b)) as [E|N].
    + injection E as -> ->. rewrite E3 in Lq. discriminate.
    + rewrite E1 in Lq by auto. rewrite E2 by auto. auto.
  - intros j c x Aj Lx. destruct (slot_dec (j, c) (i, b)) as [E|N].
    + injection E as -> ->. apply E4 in Lx as ->. eauto.
    + rewrite E2 in Lx by auto. eauto.
Qed.
(** ** Replacing the matrix of a slot *)
Record fr (s : slot) (w w' : world) : Prop := mkFr {
  f_alive : alive w' = alive w; f_hasC : hasC w' = hasC w; f_carr : carr w' = carr w; f_cmat : cmat w' = cmat w;
  f_lm : lent_m w' = lent_m w; f_la : lent_a w' = lent_a w; f_nxt : nxt w <= nxt w';
  f_ptr : forall t, t <> s -> ptr w' t = ptr w t; f_flg : forall t, t <> s -> flg w' t = flg w t;
  f_mats : forall p m, mats w p = Some m -> (ptr w s = Some p -> flg w s = false) -> mats w' p = Some m
}.
Lemma kept_fr s p f w w' : kept s w w' -> fr s w (put s p f w').
Proof.
  intros K. destruct K. constructor; wcbn; auto.
  - rewrite k_nxt0. lia.
  - intros t N. cases; [contradiction|auto].
  - intros t N. cases; [contradiction|now rewrite k_flg0].
Qed.
Lemma tm_free tm ta w s p : Inv tm ta w -> tm p -> ptr w s = Some p -> flg w s = false.
Proof. intros I T P. destruct (flg w s) eqn:F; [|reflexivity]. destruct (i_own _ _ _ I _ _ P F) as (_ & X & _). contradiction. Qed.
Lemma set_none tm ta w s : Inv tm ta w -> exists w1, release s w = Ok w1 /\ Inv tm ta (put s None false w1) /\ fr s w (put s None false w1).
Proof. intros I. destruct (release_ok tm ta w s I) as (w1 & E & I1 & K). exists w1. split; [exact E|]. split; [exact I1|now apply kept_fr]. Qed.
Lemma set_mat tm ta w s p : Inv tm ta w -> alive w (fst s) = true ->
  lent_m w s p = true \/ (tm p /\ exists m, mats w p = Some m /\ (lent_a w s (mo_arr m) = true \/ ta (mo_arr m))) ->
  exists w1, release s w = Ok w1 /\ Inv tm ta (put s (Some p) false w1) /\ fr s w (put s (Some p) false w1).
Proof.
  intros I Al L. destruct (release_ok tm ta w s I) as (w1 & E & I1 & K). exists w1. split; [exact E|]. split; [|now apply kept_fr].
  destruct K. apply put_ref; [exact I1|now rewrite k_alive0|]. rewrite k_lm0, k_la0. destruct L as [L|(T & m & M & L)]; [auto|]. right. split; [exact T|].
  exists m. split; [|exact L]. apply k_mats0; [exact M|]. intros P. eapply tm_free; eauto.
Qed.
Lemma set_arr tm ta w s a : Inv tm ta w -> alive w (fst s) = true -> lent_a w s a = true \/ ta a ->
  exists w1, release s w = Ok w1 /\ nxt w1 = nxt w /\
  let w' := put s (Some (nxt w1)) true (snd (new_mat (mkM a false true) w1)) in
  Inv tm ta w' /\ fr s w w' /\ mats w' (nxt w1) = Some (mkM a false true).
Proof.
  intros I Al L. destruct (release_ok tm ta w s I) as (w1 & E & I1 & K). exists w1. split; [exact E|]. split; [apply (k_nxt _ _ _ K)|]. intros w'.
  pose proof (kept_fr s (Some (nxt w1)) true w w1 K) as FR.
  assert (NP : mats w1 (nxt w1) = None) by apply (i_fresh _ _ _ I1 (nxt w1) (le_n _)).
  destruct K. assert (L1 : lent_a w1 s a = true \/ ta a) by now rewrite k_la0.
  assert (Al1 : alive w1 (fst s) = true) by now rewrite k_alive0.
  assert (A : a < nxt w1).
  { apply (live_lt _ _ _ _ I1). destruct L1 as [L1|L1]; [destruct s as [i b]; apply (i_la _ _ _ I1 i b a Al1 L1)|apply (i_ta _ _ _ I1 a L1)]. }
  pose proof (new_tmp _ _ _ a I1 A) as I2. change (snd (new_mat (mkM a false true) (put s None false w1))) with (put s None false (snd (new_mat (mkM a false true) w1))) in I2.
  change (nxt (put s None false w1)) with (nxt w1) in I2.
  assert (Mp : mats (snd (new_mat (mkM a false true) w1)) (nxt w1) = Some (mkM a false true)) by (unfold new_mat; wcbn; cases; congruence).
  split; [|split; [|exact Mp]].
  - apply (Inv_iff (minus (plus tm (nxt w1)) (nxt w1)) tm ta ta).
    + intros x. unfold minus, plus. split; [tauto|]. intros T. split; [auto|]. intros ->. destruct (i_tm _ _ _ I1 _ T) as (_ & m & M & _). wcbn. congruence.
    + tauto.
    + apply put_own with (m := mkM a false true); auto; [right; reflexivity|]. intros t N P.
      assert (P1 : ptr (put s None false w1) t = Some (nxt w1)) by (wcbn; cases; [contradiction|exact P]).
      destruct (live_ptr _ _ _ _ _ I1 P1) as (m & M & _). wcbn. congruence.
  - destruct FR. constructor; auto; [unfold w', new_mat; wcbn; lia|]. intros q m M Q. unfold w', new_mat. wcbn. unfold upd. specialize (f_mats0 q m M Q). destruct (Nat.eq_dec q (nxt w1)); [subst; congruence|auto].
Qed.
(** constraint matrices of objects without constraints *)
Definition NC (w : world) : Prop := forall i, alive w i = true -> hasC w i = false -> exists p, ptr w (i, false) = Some p /\ flg w (i, false) = true.
Definition Good (tm : nat -> Prop) (w : world) : Prop := Inv tm none w /\ NC w.
Lemma NC_H i w w' : NC w -> fr (i, true) w w' -> NC w'.
Proof. intros C F j Aj Hj. destruct F. rewrite f_alive0 in Aj. rewrite f_hasC0 in Hj. rewrite f_ptr0, f_flg0 by congruence. auto. Qed.
Lemma NC_A i w w' : NC w -> fr (i, false) w w' -> hasC w i = true -> NC w'.
Proof.
  intros C F Hi j Aj Hj. destruct F. rewrite f_alive0 in Aj. rewrite f_hasC0 in Hj. assert (j <> i) by congruence. rewrite f_ptr0, f_flg0 by congruence. auto.
Qed.

(** ** The data passed to a call *)
Record same (w w' : world) : Prop := mkSame {
  s_arrs : arrs w' = arrs w; s_mats : mats w' = mats w; s_nxt : nxt w' = nxt w; s_alive : alive w' = alive w; s_hasC : hasC w' = hasC w;
  s_ptr : ptr w' = ptr w; s_flg : flg w' = flg w; s_carr : carr w' = carr w; s_cmat : cmat w' = cmat w
}.
Lemma same_refl w : same w w. Proof. now constructor. Qed.
Lemma same_trans w1 w2 w3 : same w1 w2 -> same w2 w3 -> same w1 w3.
Proof. intros [] []. constructor; congruence. Qed.
Lemma same_lend_m s p w : same w (lend_m s p w).
Proof. unfold lend_m. cbv zeta. destruct (mats _ p); now constructor. Qed.
Lemma same_lend_a s p w : same w (lend_a s p w).
Proof. now constructor. Qed.
Lemma same_only_m s p w : same w (only_m s p w).
Proof. unfold only_m. eapply same_trans; [|apply same_lend_m]. now constructor. Qed.
Lemma same_only_a s p w : same w (only_a s p w).
Proof. now constructor. Qed.
Lemma NC_same w w' : same w w' -> NC w -> NC w'.
Proof. intros [] C i. rewrite s_alive0, s_hasC0, s_ptr0, s_flg0. apply C. Qed.
Lemma same_usable_m w w' p : same w w' -> usable_m w p -> usable_m w' p.
Proof. intros [] U. unfold usable_m. rewrite s_mats0, s_cmat0, s_arrs0, s_carr0. exact U. Qed.
Lemma same_usable_a w w' p : same w w' -> usable_a w p -> usable_a w' p.
Proof. intros [] U. unfold usable_a. rewrite s_carr0, s_arrs0. exact U. Qed.
Lemma lend_m_lent s t p q w : lent_m w t q = true \/ (t = s /\ q = p) -> lent_m (lend_m s p w) t q = true.
Proof.
  intros L. unfold lend_m. cbv zeta. assert (E : lent_m (set_lent_m (upds (lent_m w) s (upd (lent_m w s) p true)) w) t q = true).
  { wcbn. destruct L as [L|(-> & ->)]; cases; auto; congruence. }
  destruct (mats _ p); exact E.
Qed.
Lemma lend_a_lent s t p q w : lent_a w t q = true \/ (t = s /\ q = p) -> lent_a (lend_a s p w) t q = true.
Proof. intros L. unfold lend_a. wcbn. destruct L as [L|(-> & ->)]; cases; auto; congruence. Qed.
Lemma lend2_m tm ta i H A w : Inv tm ta w -> alive w i = true -> opt (usable_m w) H -> opt (usable_m w) A ->
  let w' := lend2 lend_m i H A w in Inv tm ta w' /\ same w w' /\ (forall p, H = Some p -> lent_m w' (i, true) p = true) /\
  (forall p, A = Some p -> hasC w i = true -> lent_m w' (i, false) p = true).
Proof.
  intros I Al UH UA. unfold lend2. cbv zeta. set (w1 := ofold (lend_m (i, true)) H w).
  assert (S1 : same w w1) by (unfold w1; destruct H; [apply same_lend_m|apply same_refl]).
  assert (I1 : Inv tm ta w1) by (unfold w1; destruct H; [now apply lend_m_ok|exact I]).
  assert (L1 : forall p, H = Some p -> lent_m w1 (i, true) p = true) by (unfold w1; intros p ->; apply lend_m_lent; auto).
  rewrite (s_hasC _ _ S1). destruct (hasC w i) eqn:C; [|split; [exact I1|split; [exact S1|split; [exact L1|discriminate]]]].
  destruct A as [q|]; cbn [ofold]; [|split; [exact I1|split; [exact S1|split; [exact L1|discriminate]]]].
  split; [apply lend_m_ok; [exact I1|now rewrite (s_alive _ _ S1)|eapply same_usable_m; eauto]|]. split; [eapply same_trans; [exact S1|apply same_lend_m]|].
  split; [intros p E; apply lend_m_lent; auto|]. intros p [= ->] _. apply lend_m_lent. auto.
Qed.
Lemma lend2_a tm ta i H A w : Inv tm ta w -> alive w i = true -> opt (usable_a w) H -> opt (usable_a w) A ->
  let w' := lend2 lend_a i H A w in Inv tm ta w' /\ same w w' /\ (forall p, H = Some p -> lent_a w' (i, true) p = true) /\
  (forall p, A = Some p -> hasC w i = true -> lent_a w' (i, false) p = true).
Proof.
  intros I Al UH UA. unfold lend2. cbv zeta. set (w1 := ofold (lend_a (i, true)) H w).
  assert (S1 : same w w1) by (unfold w1; destruct H; [apply same_lend_a|apply same_refl]).
  assert (I1 : Inv tm ta w1) by (unfold w1; destruct H; [now apply lend_a_ok|exact I]).
  assert (L1 : forall p, H = Some p -> lent_a w1 (i, true) p = true) by (unfold w1; intros p ->; apply lend_a_lent; auto).
  rewrite (s_hasC _ _ S1). destruct (hasC w i) eqn:C; [|split; [exact I1|split; [exact S1|split; [exact L1|discriminate]]]].
  destruct A as [q|]; cbn [ofold]; [|split; [exact I1|split; [exact S1|split; [exact L1|discriminate]]]].
  split; [apply lend_a_ok; [exact I1|now rewrite (s_alive _ _ S1)|eapply same_usable_a; eauto]|]. split; [eapply same_trans; [exact S1|apply same_lend_a]|].
  split; [intros p E; apply lend_a_lent; auto|]. intros p [= ->] _. apply lend_a_lent. auto.
Qed.
(** at the end of a successful call *)
Lemma note_m tm i H A ok w : Good tm w -> alive w i = true ->
  (ok = true -> (forall p, H = Some p -> ptr w (i, true) = Some p /\ flg w (i, true) = false /\ lent_m w (i, true) p = true) /\
     (forall p, A = Some p -> hasC w i = true -> ptr w (i, false) = Some p /\ flg w (i, false) = false /\ lent_m w (i, false) p = true)) ->
  Good tm (note only_m i H A ok w).
Proof.
  intros (I & C) Al P. unfold note. destruct ok; [|now split]. destruct (P eq_refl) as (P1 & P2). unfold lend2. cbv zeta. set (w1 := ofold (only_m (i, true)) H w).
  assert (S1 : same w w1) by (unfold w1; destruct H; [apply same_only_m|apply same_refl]).
  assert (I1 : Inv tm none w1) by (unfold w1; destruct H as [p|]; [destruct (P1 p eq_refl) as (x & y & z); now apply only_m_ok|exact I]).
  assert (L1 : forall q, lent_m w1 (i, false) q = lent_m w (i, false) q).
  { intros q. unfold w1. destruct H as [p|]; [|reflexivity]. cbn [ofold]. unfold only_m, lend_m. cbv zeta. wcbn. destruct (mats w p); wcbn; cases; congruence. }
  rewrite (s_hasC _ _ S1). destruct (hasC w i) eqn:Hi; [|split; [exact I1|eapply NC_same; eauto]].
  destruct A as [q|]; cbn [ofold]; [|split; [exact I1|eapply NC_same; eauto]]. destruct (P2 q eq_refl eq_refl) as (x & y & z).
  split; [|eapply NC_same; [apply same_only_m|eapply NC_same; eauto]].
  apply only_m_ok; [exact I1|now rewrite (s_alive _ _ S1)|now rewrite (s_ptr _ _ S1)|now rewrite (s_flg _ _ S1)|now rewrite L1].
Qed.
Lemma note_a tm i H A ok w : Good tm w -> alive w i = true ->
  (ok = true -> (forall a, H = Some a -> exists p m, ptr w (i, true) = Some p /\ flg w (i, true) = true /\ mats w p = Some m /\ mo_arr m = a /\ lent_a w (i, true) a = true) /\
     (forall a, A = Some a -> hasC w i = true -> exists p m, ptr w (i, false) = Some p /\ flg w (i, false) = true /\ mats w p = Some m /\ mo_arr m = a /\ lent_a w (i, false) a = true)) ->
  Good tm (note only_a i H A ok w).
Proof.
  intros (I & C) Al P. unfold note. destruct ok; [|now split]. destruct (P eq_refl) as (P1 & P2). unfold lend2. cbv zeta. set (w1 := ofold (only_a (i, true)) H w).
  assert (S1 : same w w1) by (unfold w1; destruct H; [apply same_only_a|apply same_refl]).
  assert (I1 : Inv tm none w1) by (unfold w1; destruct H as [a|]; [destruct (P1 a eq_refl) as (p & m & x & y & z & <- & u); cbn [ofold]; eapply only_a_ok; eauto|exact I]).
  assert (L1 : forall q, lent_a w1 (i, false) q = lent_a w (i, false) q).
  { intros q. unfold w1. destruct H as [p|]; [|reflexivity]. cbn [ofold]. unfold only_a, lend_a. wcbn. cases; congruence. }
  rewrite (s_hasC _ _ S1). destruct (hasC w i) eqn:Hi; [|split; [exact I1|eapply NC_same; eauto]].
  destruct A as [q|]; cbn [ofold]; [|split; [exact I1|eapply NC_same; eauto]]. destruct (P2 q eq_refl eq_refl) as (p & m & x & y & z & <- & u).
  split; [|eapply NC_same; [apply same_only_a|eapply NC_same; eauto]].
  eapply only_a_ok; [exact I1|now rewrite (s_alive _ _ S1)|rewrite (s_ptr _ _ S1); exact x|now rewrite (s_flg _ _ S1)|rewrite (s_mats _ _ S1); exact z|now rewrite L1].
Qed.
(** ** The caller *)
Lemma caller_array tm w : Good tm w -> exists w', exec CallerArray w = Ok w' /\ Good tm w'.
Proof.
  intros (I & C). cbn [exec]. unfold new_arr. eexists. split; [reflexivity|]. split; [|exact C].
  pose proof (new_ta _ _ _ I) as I1. unfold new_arr in I1. cbn [snd] in I1. destruct (i_fresh _ _ _ I (nxt w) (le_n _)) as (F1 & F2 & F3 & F4).
  assert (MB : forall p m, mats w p = Some m -> mo_arr m <> nxt w) by (intros p m M X; pose proof (i_bound _ _ _ I p m M); lia).
  destruct I1. constructor; wcbn; auto.
  - intros k Hk. destruct (i_fresh0 k Hk) as (x1 & x2 & x3 & x4). split; [auto|]. split; [auto|]. split; [cases; [lia|auto]|auto].
  - intros s p Pt Ft. destruct (i_own0 s p Pt Ft) as (x1 & x2 & m & M & L). split; [auto|]. split; [auto|]. exists m. split; [auto|]. intros O. destruct (L O) as [?|[?|X]]; auto. now elim (MB p m).
  - intros s p Pt Ft. destruct (i_ref0 s p Pt Ft) as [?|(T & m & M & L)]; [auto|]. right. split; [auto|]. exists m. split; [auto|]. destruct L as [?|[?|X]]; auto. now elim (MB p m).
  - intros i b x Al Lx. destruct (i_la0 i b x Al Lx) as (x1 & x2 & x3). split; [auto|]. split; [now intros []|auto].
  - intros p m M O. destruct (i_arr0 p m M O) as (x1 & x2 & x3). split; [auto|]. split; [|now intros []]. cases; auto. now elim (MB p m).
  - intros a. specialize (i_carr0 a). cases; auto.
  - intros a [].
  - intros x A Cx. specialize (i_larr0 x A). unfold upd in Cx. destruct (Nat.eq_dec x (nxt w)); [discriminate|]. destruct (i_larr0 Cx) as [[T|T]|?]; auto. contradiction.
Qed.
Lemma caller_matrix tm w a owns dense : Good tm w -> allowed w (CallerMatrix a owns dense) -> exists w', exec (CallerMatrix a owns dense) w = Ok w' /\ Good tm w'.
Proof.
  intros (I & C) ((A & Ca) & NL). cbn [exec]. unfold new_mat. eexists. split; [reflexivity|]. split.
  2:{ intros i. destruct owns; apply C. }
  destruct (i_fresh _ _ _ I (nxt w) (le_n _)) as (F1 & F2 & F3 & F4). pose proof (live_lt _ _ _ _ I A) as La.
  pose proof (fun s p => live_ptr _ _ _ s p I) as LP.
  assert (PN : forall s, ptr w s <> Some (nxt w)) by (intros s E; destruct (LP s _ E) as (m & M & _); congruence).
  assert (TN : forall p, tm p -> p <> nxt w) by (intros p T ->; destruct (i_tm _ _ _ I _ T) as (_ & m & M & _); congruence).
  assert (CA : forall x, (if owns then upd (carr w) a false else carr w) x = true <-> carr w x = true /\ ~ (owns = true /\ x = a)).
  { intros x. destruct owns; cases; split; try tauto; try discriminate; intuition congruence. }
  set (cf := if owns then upd (carr w) a false else carr w) in *.
  replace (if owns then _ else _) with (mkW (arrs w) (upd (mats w) (nxt w) (Some (mkM a owns dense))) (S (nxt w)) (alive w) (hasC w) (ptr w) (flg w) cf (upd (cmat w) (nxt w) true) (lent_m w) (lent_a w)) by (unfold cf; destruct owns; reflexivity).
  assert (CF : forall x, carr w x = false -> cf x = false).
  { intros x X. destruct (cf x) eqn:E; [|reflexivity]. apply CA in E as (E & _). congruence. }
  clearbody cf. destruct I. constructor; wcbn; auto.
  - intros k Hk. destruct (i_fresh0 k ltac:(lia)) as (x1 & x2 & x3 & x4). split; [auto|]. split; [cases; [lia|auto]|]. split; [auto|cases; [lia|auto]].
  - intros s p Pt Ft. assert (p <> nxt w) by (intros ->; now apply (PN s)). destruct (i_own0 s p Pt Ft) as (x1 & x2 & m & M & L). split; [cases; [congruence|auto]|]. split; [auto|]. exists m. split; [cases; [congruence|auto]|auto].
  - intros s p Pt Ft. assert (p <> nxt w) by (intros ->; now apply (PN s)). destruct (i_ref0 s p Pt Ft) as [?|(T & m & M & L)]; [auto|]. right. split; [auto|]. exists m. split; [cases; [congruence|auto]|auto].
  - intros i b p Al Lm. destruct (i_lm0 i b p Al Lm) as (x1 & m & M & L). split; [cases; auto|]. exists m. split; [cases; [congruence|auto]|auto].
  - intros i b x Al Lx. destruct (i_la0 i b x Al Lx) as (x1 & x2 & x3). split; [auto|]. split; [auto|]. intros q m. cases; [auto|]. intros M O E. rewrite (x3 q m M O E). auto.
  - intros p m. cases.
    + intros [= <-]. cbn. intros ->. split; [auto|]. split; [|tauto]. destruct (cf a) eqn:E; [|reflexivity]. apply CA in E as (_ & E). elim E. auto.
    + intros M O. destruct (i_arr0 p m M O) as (x1 & x2 & x3). auto.
  - intros p m. cases; [intros [= <-]; cbn; lia|]. intros M. specialize (i_bound0 p m M). lia.
  - intros x X. apply CA in X as (X & _). auto.
  - intros x [].
  - intros p q m m'. cases; intros M M'; try (injection M as <-); try (injection M' as <-); cbn; auto.
    + intros -> O X. destruct (i_arr0 q m' M' O) as (_ & Y & _). congruence.
    + intros O -> X. destruct (i_arr0 p m M O) as (_ & Y & _). congruence.
    + eapply i_uarr0; eauto.
  - intros p T. destruct (i_tm0 p T) as (x1 & m & M & O). pose proof (TN p T). split; [cases; [contradiction|auto]|]. exists m. split; [cases; [contradiction|auto]|auto].
  - intros p m. cases; [discriminate|apply i_lmat0].
  - intros x X Y. destruct (carr w x) eqn:Cx.
    + assert (owns = true /\ x = a) as (-> & ->). { destruct owns; [|exfalso; assert (cf x = true) by (apply CA; split; [auto|intros (? & _); discriminate]); congruence].
        split; [reflexivity|]. destruct (Nat.eq_dec x a); [auto|]. assert (cf x = true) by (apply CA; split; [auto|tauto]). congruence. }
      right. exists (nxt w), (mkM a true dense). split; [cases; congruence|auto].
    + destruct (i_larr0 x X Cx) as [[]|(p & m & M & O & E)]. right. exists p, m. split; [cases; [congruence|auto]|auto].
Qed.
Lemma caller_free_array tm w a : Good tm w -> allowed w (CallerFreeArray a) -> exists w', exec (CallerFreeArray a) w = Ok w' /\ Good tm w'.
Proof.
  intros (I & C) ((A & Ca) & NL). cbn [exec]. unfold free_arr. rewrite A. cbn [bind]. eexists. split; [reflexivity|]. split; [|exact C].
  assert (LN : forall i b x, alive w i = true -> lent_a w (i, b) x = true -> x <> a) by (intros i b x Al L ->; rewrite (NL i b Al) in L; discriminate).
  destruct I. constructor; wcbn; auto.
  - intros k Hk. destruct (i_fresh0 k Hk) as (x1 & x2 & x3 & x4). split; [cases; auto|]. split; [auto|]. split; [cases; auto|auto].
  - intros i b x Al L. pose proof (LN i b x Al L). destruct (i_la0 i b x Al L) as (x1 & x2 & x3). split; [cases; [contradiction|auto]|auto].
  - intros p m M O. destruct (i_arr0 p m M O) as (x1 & x2 & x3). cases; [congruence|auto].
  - intros x. cases; [discriminate|auto].
  - intros x [].
  - intros x. cases; [discriminate|auto].
Qed.
Lemma caller_free_matrix tm w p : Good tm w -> allowed w (CallerFreeMatrix p) -> exists w', exec (CallerFreeMatrix p) w = Ok w' /\ Good tm w'.
Proof.
  intros (I & C) (Cp & NL & m & M & NA). cbn [exec]. unfold del_mat. rewrite M.
  assert (X : exists arrs', (if mo_owns m then free_arr (mo_arr m) w else Ok w) = Ok (set_arrs arrs' w) /\ forall x, arrs' x = true <-> arrs w x = true /\ ~ (mo_owns m = true /\ x = mo_arr m)).
  { destruct (mo_owns m) eqn:O.
    - destruct (i_arr _ _ _ I p m M O) as (A & _). unfold free_arr. rewrite A. eexists. split; [reflexivity|]. intros x. cases; split; try tauto; try discriminate.
    - exists (arrs w). split; [destruct w; reflexivity|]. intros x. split; [|tauto]. intros X. split; [auto|]. intros (Y & _). discriminate. }
  destruct X as (arrs' & E & A1). rewrite E. cbn [bind]. eexists. split; [reflexivity|]. split; [|exact C].
  assert (AF : forall x, arrs w x = false -> arrs' x = false) by (intros x X; destruct (arrs' x) eqn:Y; [apply A1 in Y as (Y & _); congruence|auto]).
  assert (LN : forall i b q, alive w i = true -> lent_m w (i, b) q = true -> q <> p) by (intros i b x Al L ->; rewrite (NL i b Al) in L; discriminate).
  assert (PN : forall s, ptr w s <> Some p).
  { intros [i b] P. destruct (alive w i) eqn:Al; [|rewrite (i_dead _ _ _ I i b Al) in P; discriminate]. destruct (flg w (i, b)) eqn:F.
    - destruct (i_own _ _ _ I _ _ P F) as (x & _). congruence.
    - destruct (i_ref _ _ _ I _ _ P F) as [L|(T & _)]; [now apply (LN i b p)|]. destruct (i_tm _ _ _ I p T). congruence. }
  assert (TN : forall q, tm q -> q <> p) by (intros q T ->; destruct (i_tm _ _ _ I p T); congruence).
  destruct I. constructor; wcbn; auto.
  - intros k Hk. destruct (i_fresh0 k Hk) as (x1 & x2 & x3 & x4). split; [auto|]. split; [cases; auto|]. split; [auto|cases; auto].
  - intros s q Pq Fq. destruct (i_own0 s q Pq Fq) as (x1 & x2 & x3). assert (q <> p) by (intros ->; now apply (PN s)). cases; [contradiction|auto].
  - intros s q Pq Fq. destruct (i_ref0 s q Pq Fq) as [?|(T & x)]; [auto|]. right. split; [auto|]. pose proof (TN q T). cases; [contradiction|auto].
  - intros i b q Al L. pose proof (LN i b q Al L). cases; [contradiction|auto].
  - intros i b x Al L. destruct (i_la0 i b x Al L) as (x1 & x2 & x3). split; [|split; [auto|]].
    + apply A1. split; [auto|]. intros (O & ->). rewrite (NA O i b Al) in L. discriminate.
    + intros q m'. cases; [discriminate|apply x3].
  - intros q m'. cases; [discriminate|]. intros M' O'. destruct (i_arr0 q m' M' O') as (x1 & x2 & x3). split; [|auto]. apply A1. split; [auto|]. intros (O & X). apply n. eapply i_uarr0; eauto.
  - intros q m'. cases; [discriminate|]. apply i_bound0.
  - intros x X. apply A1. split; [auto|]. intros (O & ->). destruct (i_arr0 p m M O) as (_ & Y & _). congruence.
  - intros x [].
  - intros q q' m1 m2. cases; try discriminate. apply i_uarr0.
  - intros q T. pose proof (TN q T). cases; [contradiction|auto].
  - intros q m'. cases; [discriminate|]. apply i_lmat0.
  - intros x X Y. apply A1 in X as (X & NO). destruct (i_larr0 x X Y) as [?|(q & m' & M' & O' & E')]; [auto|]. right. exists q, m'. cases; [|auto].
    elim NO. split; congruence.
Qed.
(** ** init and hotstart with matrix objects *)
Lemma note_false f i H A w : note f i H A false w = w. Proof. reflexivity. Qed.
Ltac al := match goal with
  | F : fr _ _ ?w |- alive ?w _ = true => rewrite (f_alive _ _ _ F); al
  | S : same _ ?w |- alive ?w _ = true => rewrite (s_alive _ _ S); al
  | _ => assumption end.
Lemma put_same s p f w : ptr (put s p f w) s = p /\ flg (put s p f w) s = f.
Proof. wcbn. cases; [auto|congruence]. Qed.
Lemma setH_mat_ok tm ta i H w : Inv tm ta w -> alive w i = true ->
  (forall p, H = Some p -> lent_m w (i, true) p = true \/ (tm p /\ exists m, mats w p = Some m /\ (lent_a w (i, true) (mo_arr m) = true \/ ta (mo_arr m)))) ->
  exists w', setH_mat i H w = Ok w' /\ Inv tm ta w' /\ fr (i, true) w w' /\ ptr w' (i, true) = H /\ flg w' (i, true) = false.
Proof.
  intros I Al L. unfold setH_mat. destruct H as [p|].
  - destruct (set_mat tm ta w (i, true) p I Al (L p eq_refl)) as (w1 & -> & I1 & F1). cbn [bind]. eexists. split; [reflexivity|]. split; [exact I1|]. split; [exact F1|apply put_same].
  - destruct (set_none tm ta w (i, true) I) as (w1 & -> & I1 & F1). cbn [bind]. eexists. split; [reflexivity|]. split; [exact I1|]. split; [exact F1|apply put_same].
Qed.
Lemma setA_mat_ok tm ta i p w : Inv tm ta w -> alive w i = true ->
  lent_m w (i, false) p = true \/ (tm p /\ exists m, mats w p = Some m /\ (lent_a w (i, false) (mo_arr m) = true \/ ta (mo_arr m))) ->
  exists w', setA_mat i p w = Ok w' /\ Inv tm ta w' /\ fr (i, false) w w' /\ ptr w' (i, false) = Some p /\ flg w' (i, false) = false.
Proof.
  intros I Al L. unfold setA_mat. destruct (set_mat tm ta w (i, false) p I Al L) as (w1 & -> & I1 & F1). cbn [bind]. cbv zeta.
  exists (put (i, false) (Some p) false w1). destruct (put_same (i, false) (Some p) false w1) as (P & Q).
  split; [rewrite <- P at 1; apply (read_ok _ _ _ _ I1)|]. auto.
Qed.
Lemma setH_arr_ok tm ta i id H w : Inv tm ta w -> alive w i = true -> (forall a, H = Some a -> lent_a w (i, true) a = true \/ ta a) ->
  exists w', setH_arr i id H w = Ok w' /\ Inv tm ta w' /\ fr (i, true) w w' /\
   forall a, H = Some a -> ptr w' (i, true) = Some (nxt w) /\ flg w' (i, true) = true /\ mats w' (nxt w) = Some (mkM a false true).
Proof.
  intros I Al L. unfold setH_arr. destruct H as [a|].
  - destruct (set_arr tm ta w (i, true) a I Al (L a eq_refl)) as (w1 & -> & N1 & I1 & F1 & M1). cbn [bind]. unfold new_mat in *. cbn [snd] in *. rewrite N1 in *. eexists. split; [reflexivity|].
    split; [exact I1|]. split; [exact F1|]. intros x [= <-]. split; [apply put_same|]. split; [apply put_same|exact M1].
  - destruct id; [exists w; split; [reflexivity|split; [exact I|split; [now constructor|discriminate]]]|].
    destruct (set_none tm ta w (i, true) I) as (w1 & -> & I1 & F1). cbn [bind]. eexists. split; [reflexivity|]. split; [exact I1|]. split; [exact F1|discriminate].
Qed.
Lemma setA_arr_ok tm ta i a w : Inv tm ta w -> alive w i = true -> lent_a w (i, false) a = true \/ ta a ->
  exists w', setA_arr i a w = Ok w' /\ Inv tm ta w' /\ fr (i, false) w w' /\ ptr w' (i, false) = Some (nxt w) /\ flg w' (i, false) = true /\ mats w' (nxt w) = Some (mkM a false true).
Proof.
  intros I Al L. unfold setA_arr. destruct (set_arr tm ta w (i, false) a I Al L) as (w1 & -> & N1 & I1 & F1 & M1). cbn [bind]. unfold new_mat in *. cbn [snd] in *. cbv zeta. rewrite N1 in *.
  match goal with |- context [read_mat _ ?x] => exists x; destruct (put_same (i, false) (Some (nxt w)) true (set_nxt (S (nxt w)) (set_mats (upd (mats w1) (nxt w) (Some (mkM a false true))) w1))) as (P & Q) end.
  split; [rewrite <- P at 1; apply (read_ok _ _ _ _ I1)|]. auto.
Qed.
Lemma init_mat_step tm w i early H gok A ok : Good tm w -> allowed w (InitMat i early H gok A ok) -> exists w', exec (InitMat i early H gok A ok) w = Ok w' /\ Good tm w'.
Proof.
  intros (I & C) (Al & UH & UA & Co & Ok'). cbn [exec]. destruct (lend2_m tm none i H A w I Al UH UA) as (I0 & S0 & LH & LA). set (w0 := lend2 lend_m i H A w) in *. clearbody w0.
  assert (C0 : NC w0) by (eapply NC_same; eauto). assert (Al0 : alive w0 i = true) by al. unfold init_mat.
  assert (Hc0 : hasC w0 i = hasC w i) by now rewrite (s_hasC _ _ S0).
  destruct early. { cbn [bind]. destruct ok; [destruct (Co eq_refl); discriminate|]. eexists. split; [reflexivity|]. now split. }
  destruct (setH_mat_ok tm none i H w0 I0 Al0 ltac:(intros p E; left; now apply LH)) as (w1 & -> & I1 & F1 & P1 & Q1). cbn [bind].
  assert (C1 : NC w1) by (eapply NC_H; eauto). assert (Al1 : alive w1 i = true) by al.
  destruct gok; cbn [negb]; cbv iota. 2:{ cbn [bind]. destruct ok; [destruct (Co eq_refl); discriminate|]. eexists. split; [reflexivity|]. now split. }
  assert (Hc1 : hasC w1 i = hasC w i) by (rewrite (f_hasC _ _ _ F1); exact Hc0). rewrite Hc1. destruct (hasC w i) eqn:Hc.
  - destruct A as [p|]. 2:{ cbn [bind]. destruct ok; [now elim (Ok' eq_refl eq_refl)|]. eexists. split; [reflexivity|]. now split. }
    destruct (setA_mat_ok tm none i p w1 I1 Al1) as (w2 & -> & I2 & F2 & P2 & Q2). { left. rewrite (f_lm _ _ _ F1). now apply LA. }
    cbn [bind]. rewrite (read_obj_ok _ _ _ _ I2). cbn [bind]. eexists. split; [reflexivity|].
    assert (C2 : NC w2) by (eapply NC_A; eauto). apply note_m; [now split|al|]. intros _. split.
    + intros q E. rewrite (f_ptr _ _ _ F2), (f_flg _ _ _ F2), (f_lm _ _ _ F2), (f_lm _ _ _ F1) by congruence. split; [congruence|]. split; [auto|now apply LH].
    + intros q E _. split; [congruence|]. split; [auto|]. rewrite (f_lm _ _ _ F2), (f_lm _ _ _ F1). now apply LA.
  - rewrite (read_obj_ok _ _ _ _ I1). cbn [bind]. eexists. split; [reflexivity|]. apply note_m; [now split|al|]. intros _. split; [|congruence].
    intros q E. split; [congruence|]. split; [auto|]. rewrite (f_lm _ _ _ F1). now apply LH.
Qed.
Lemma init_arr_step tm w i early id H gok A ok : Good tm w -> allowed w (InitArr i early id H gok A ok) -> exists w', exec (InitArr i early id H gok A ok) w = Ok w' /\ Good tm w'.
Proof.
  intros (I & C) (Al & UH & UA & Co & Ok'). cbn [exec]. destruct (lend2_a tm none i H A w I Al UH UA) as (I0 & S0 & LH & LA). set (w0 := lend2 lend_a i H A w) in *. clearbody w0.
  assert (C0 : NC w0) by (eapply NC_same; eauto). assert (Al0 : alive w0 i = true) by al. unfold init_arr.
  assert (Hc0 : hasC w0 i = hasC w i) by now rewrite (s_hasC _ _ S0).
  destruct early. { cbn [bind]. destruct ok; [destruct (Co eq_refl); discriminate|]. eexists. split; [reflexivity|]. now split. }
  destruct (setH_arr_ok tm none i id H w0 I0 Al0 ltac:(intros p E; left; now apply LH)) as (w1 & -> & I1 & F1 & P1). cbn [bind].
  assert (C1 : NC w1) by (eapply NC_H; eauto). assert (Al1 : alive w1 i = true) by al.
  destruct gok; cbn [negb]; cbv iota. 2:{ cbn [bind]. destruct ok; [destruct (Co eq_refl); discriminate|]. eexists. split; [reflexivity|]. now split. }
  assert (Hc1 : hasC w1 i = hasC w i) by (rewrite (f_hasC _ _ _ F1); exact Hc0). rewrite Hc1. destruct (hasC w i) eqn:Hc.
  - destruct A as [p|]. 2:{ cbn [bind]. destruct ok; [now elim (Ok' eq_refl eq_refl)|]. eexists. split; [reflexivity|]. now split. }
    destruct (setA_arr_ok tm none i p w1 I1 Al1) as (w2 & -> & I2 & F2 & P2 & Q2 & M2). { left. rewrite (f_la _ _ _ F1). now apply LA. }
    cbn [bind]. rewrite (read_obj_ok _ _ _ _ I2). cbn [bind]. eexists. split; [reflexivity|].
    assert (C2 : NC w2) by (eapply NC_A; eauto). apply note_a; [now split|al|]. intros _. split.
    + intros q E. destruct (P1 q E) as (x & y & z). exists (nxt w0), (mkM q false true). rewrite (f_ptr _ _ _ F2), (f_flg _ _ _ F2), (f_la _ _ _ F2), (f_la _ _ _ F1) by congruence.
      split; [exact x|]. split; [exact y|]. split; [|split; [reflexivity|now apply LH]]. apply (f_mats _ _ _ F2); [exact z|]. intros X. exfalso.
      destruct (flg w1 (i, false)) eqn:Fl.
      * assert ((i, true) = (i, false)) by (eapply (i_uslot _ _ _ I1); eauto). congruence.
      * destruct (i_own _ _ _ I1 _ _ x y) as (Cm & _). destruct (i_ref _ _ _ I1 _ _ X Fl) as [L|(T & _)]; [destruct (i_lm _ _ _ I1 _ _ _ Al1 L); congruence|].
        destruct (i_own _ _ _ I1 _ _ x y) as (_ & NT & _). contradiction.
    + intros q E _. exists (nxt w1), (mkM q false true). injection E as <-. split; [exact P2|]. split; [exact Q2|]. split; [exact M2|]. split; [reflexivity|]. rewrite (f_la _ _ _ F2), (f_la _ _ _ F1). now apply LA.
  - rewrite (read_obj_ok _ _ _ _ I1). cbn [bind]. eexists. split; [reflexivity|]. apply note_a; [now split|al|]. intros _. split; [|congruence].
    intros q E. destruct (P1 q E) as (x & y & z). exists (nxt w0), (mkM q false true). rewrite (f_la _ _ _ F1). repeat (split; [assumption || reflexivity|]). now apply LH.
Qed.
Definition okp (tm ta : nat -> Prop) (w : world) (s : slot) (p : nat) : Prop :=
  lent_m w s p = true \/ (tm p /\ exists m, mats w p = Some m /\ (lent_a w s (mo_arr m) = true \/ ta (mo_arr m))).
Lemma fr_tm tm ta s w w' p m : Inv tm ta w -> fr s w w' -> tm p -> mats w p = Some m -> mats w' p = Some m.
Proof. intros I F T M. apply (f_mats _ _ _ F); [exact M|]. intros P. eapply tm_free; eauto. Qed.
Lemma fr_okp tm ta s w w' t p : Inv tm ta w -> fr s w w' -> okp tm ta w t p -> okp tm ta w' t p.
Proof.
  intros I F [L|(T & m & M & L)]; [left; now rewrite (f_lm _ _ _ F)|]. right. split; [exact T|]. exists m. split; [eapply fr_tm; eauto|]. now rewrite (f_la _ _ _ F).
Qed.
Lemma newaux_ok tm ta i H A w : Inv tm ta w -> NC w -> alive w i = true ->
  (forall p, H = Some p -> okp tm ta w (i, true) p) -> (forall p, A = Some p -> hasC w i = true -> okp tm ta w (i, false) p) ->
  exists w', newaux i H A w = Ok w' /\ Inv tm ta w' /\ NC w' /\ alive w' = alive w /\ hasC w' = hasC w /\ lent_m w' = lent_m w /\ lent_a w' = lent_a w /\
  (forall t, t <> (i, true) -> t <> (i, false) -> ptr w' t = ptr w t) /\
  (hasC w i = false -> ptr w' (i, false) = ptr w (i, false) /\ flg w' (i, false) = flg w (i, false)) /\
  (forall p, A = Some p -> hasC w i = true -> ptr w' (i, false) = Some p /\ flg w' (i, false) = false) /\
  (H = None -> ptr w' (i, true) = ptr w (i, true)) /\
  ((hasC w i = true -> A <> None) -> forall p, H = Some p -> ptr w' (i, true) = Some p /\ flg w' (i, true) = false) /\
  (forall p m, tm p -> mats w p = Some m -> mats w' p = Some m).
Proof.
  intros I C Al LH LA. unfold newaux.
  assert (S1 : (hasC w i = true /\ A = None) \/ exists w1, (if hasC w i then match A with None => Ok (false, w) | Some p => w <- setA_mat i p w ;; Ok (true, w) end else Ok (true, w)) = Ok (true, w1)
     /\ Inv tm ta w1 /\ NC w1 /\ fr (i, false) w w1 /\ (hasC w i = false -> w1 = w) /\ forall p, A = Some p -> hasC w i = true -> ptr w1 (i, false) = Some p /\ flg w1 (i, false) = false).
  { destruct (hasC w i) eqn:Hc; [|right; exists w; split; [reflexivity|]; split; [exact I|]; split; [exact C|]; split; [now constructor|]; split; [reflexivity|discriminate]].
    destruct A as [p|]; [|left; auto]. right. destruct (setA_mat_ok tm ta i p w I Al (LA p eq_refl eq_refl)) as (w1 & -> & I1 & F1 & P1 & Q1). cbn [bind].
    exists w1. split; [reflexivity|]. split; [exact I1|]. split; [eapply NC_A; eauto|]. split; [exact F1|]. split; [discriminate|]. intros q [= <-] _. auto. }
  destruct S1 as [(Hc & ->)|(w1 & -> & I1 & C1 & F1 & E1 & P1)].
  { rewrite Hc. cbn [bind negb]. exists w. split; [reflexivity|]. repeat (split; [assumption || reflexivity|]). split; [discriminate|]. split; [discriminate|]. split; [auto|].
    split; [intros X; now elim (X eq_refl)|auto]. }
  cbn [bind negb]. assert (Al1 : alive w1 i = true) by al.
  assert (G1 : hasC w i = false -> ptr w1 (i, false) = ptr w (i, false) /\ flg w1 (i, false) = flg w (i, false)) by (intros Hc; now rewrite (E1 Hc)).
  destruct H as [p|].
  - destruct (setH_mat_ok tm ta i (Some p) w1 I1 Al1) as (w2 & -> & I2 & F2 & P2 & Q2). { intros q E. injection E as <-. exact (fr_okp _ _ _ _ _ _ _ I F1 (LH p eq_refl)). }
    cbn [bind]. exists w2. split; [apply (read_obj_ok _ _ _ _ I2)|]. split; [exact I2|]. split; [eapply NC_H; eauto|].
    split; [now rewrite (f_alive _ _ _ F2), (f_alive _ _ _ F1)|]. split; [now rewrite (f_hasC _ _ _ F2), (f_hasC _ _ _ F1)|].
    split; [now rewrite (f_lm _ _ _ F2), (f_lm _ _ _ F1)|]. split; [now rewrite (f_la _ _ _ F2), (f_la _ _ _ F1)|].
    split; [intros t N1 N2; now rewrite (f_ptr _ _ _ F2), (f_ptr _ _ _ F1)|].
    rewrite (f_ptr _ _ _ F2), (f_flg _ _ _ F2) by congruence. split; [exact G1|]. split; [exact P1|]. split; [discriminate|].
    split; [intros _ q [= <-]; auto|]. intros q m T M. eapply fr_tm; [exact I1|exact F2|exact T|]. eapply fr_tm; [exact I|exact F1|exact T|exact M].
  - exists w1. split; [destruct (ptr w1 (i, true)) eqn:E; [reflexivity|apply (read_obj_ok _ _ _ _ I1)]|]. split; [exact I1|]. split; [exact C1|].
    split; [apply (f_alive _ _ _ F1)|]. split; [apply (f_hasC _ _ _ F1)|]. split; [apply (f_lm _ _ _ F1)|]. split; [apply (f_la _ _ _ F1)|].
    split; [intros t N1 N2; now apply (f_ptr _ _ _ F1)|]. split; [exact G1|]. split; [exact P1|]. split; [intros _; apply (f_ptr _ _ _ F1); congruence|]. split; [discriminate|].
    intros q m T M. eapply fr_tm; [exact I|exact F1|exact T|exact M].
Qed.
Lemma sq_mat_step tm w i refused H A ok : Good tm w -> allowed w (SqMat i refused H A ok) -> exists w', exec (SqMat i refused H A ok) w = Ok w' /\ Good tm w'.
Proof.
  intros (I & C) (Al & UH & UA & Co). cbn [exec]. destruct (lend2_m tm none i H A w I Al UH UA) as (I0 & S0 & LH & LA). set (w0 := lend2 lend_m i H A w) in *. clearbody w0.
  assert (C0 : NC w0) by (eapply NC_same; eauto). assert (Al0 : alive w0 i = true) by al. assert (Hc0 : hasC w0 i = hasC w i) by now rewrite (s_hasC _ _ S0). unfold sq_mat.
  destruct refused. { cbn [bind]. destruct ok; [destruct (Co eq_refl); discriminate|]. eexists. split; [reflexivity|]. now split. }
  destruct (newaux_ok tm none i H A w0 I0 C0 Al0) as (w1 & -> & I1 & C1 & A1 & H1 & Lm1 & La1 & O1 & N1 & P1 & X1 & P2 & M1).
  { intros p E. left. auto. } { intros p E Hc. left. apply LA; congruence. }
  cbn [bind]. rewrite (read_obj_ok _ _ _ _ I1). cbn [bind]. eexists. split; [reflexivity|]. apply note_m; [now split|congruence|]. intros ->. destruct (Co eq_refl) as (_ & CA & _).
  split.
  - intros p E. destruct (P2 ltac:(now rewrite Hc0) p E) as (x & y). rewrite Lm1. auto.
  - intros p E Hc. rewrite H1 in Hc. destruct (P1 p E Hc) as (x & y). rewrite Lm1. split; [exact x|]. split; [exact y|]. apply LA; congruence.
Qed.
Lemma own_flip tm ta w s p m : Inv tm ta w -> alive w (fst s) = true -> ptr w s = Some p -> flg w s = false -> tm p -> mats w p = Some m ->
  lent_a w s (mo_arr m) = true \/ ta (mo_arr m) -> (forall t, t <> s -> ptr w t <> Some p) -> Inv (minus tm p) ta (set_flg (upds (flg w) s true) w).
Proof.
  intros I Al P F T M L U.
  assert (E : set_flg (upds (flg w) s true) w = put s (Some p) true w).
  { unfold put. destruct w; unfold set_flg, set_ptr; wcbn. f_equal. apply functional_extensionality. intros t. cases; auto. }
  rewrite E. eapply put_own; eauto. apply hole_inv; auto.
Qed.
Lemma flip_same w s : flg w s = true -> set_flg (upds (flg w) s true) w = w.
Proof. intros F. destruct w; unfold set_flg; wcbn. f_equal. apply functional_extensionality. intros t. cases; auto. Qed.
Definition tmp (H : option nat) (w : world) : option nat * world := match H with Some a => let (p, w) := new_mat (mkM a false true) w in (Some p, w) | None => (None, w) end.
Record more (w w' : world) : Prop := mkMore {
  m_ptr : ptr w' = ptr w; m_flg : flg w' = flg w; m_alive : alive w' = alive w; m_hasC : hasC w' = hasC w; m_lm : lent_m w' = lent_m w; m_la : lent_a w' = lent_a w;
  m_arrs : arrs w' = arrs w; m_carr : carr w' = carr w; m_mats : forall p m, mats w p = Some m -> mats w' p = Some m }.
Lemma tmp_opt tm w H : Inv tm none w -> opt (usable_a w) H ->
  exists sH w' tm', tmp H w = (sH, w') /\ Inv tm' none w' /\ more w w' /\ (forall x, tm' x <-> tm x \/ sH = Some x) /\ (H = None -> sH = None) /\
  forall a, H = Some a -> exists p, sH = Some p /\ mats w' p = Some (mkM a false true) /\ (forall t, ptr w t <> Some p) /\ mats w p = None.
Proof.
  intros I U. unfold tmp. destruct H as [a|].
  - destruct U as (U1 & U2). pose proof (new_tmp tm none w a I (live_lt _ _ _ _ I U1)) as I1.
    assert (NP : mats w (nxt w) = None) by apply (i_fresh _ _ _ I (nxt w) (le_n _)).
    eexists _, _, _. split; [unfold new_mat; reflexivity|]. split; [exact I1|]. split.
    { constructor; try reflexivity. intros p m M. unfold new_mat. wcbn. cases; [congruence|exact M]. }
    split; [intros x; unfold plus; split; intros [?|E]; auto; right; congruence|]. split; [discriminate|]. intros b [= <-]. eexists. split; [reflexivity|]. split; [wcbn; cases; congruence|].
    split; [|exact NP]. intros t E. destruct (live_ptr _ _ _ _ _ I E) as (m & M & _). congruence.
  - exists None, w, tm. split; [reflexivity|]. split; [exact I|]. split; [now constructor|]. split; [intros x; split; [auto|intros [?|?]; [auto|discriminate]]|]. split; [auto|discriminate].
Qed.
Lemma NC_more w w' : more w w' -> NC w -> NC w'.
Proof. intros [] C i. rewrite m_alive0, m_hasC0, m_ptr0, m_flg0. apply C. Qed.
Definition flip (H : option nat) (s : slot) (w : world) : world := match H with Some _ => set_flg (upds (flg w) s true) w | None => w end.
Lemma flip_opt tm w i b H sH : Inv tm none w -> NC w -> alive w i = true -> (H = None -> sH = None) ->
  (forall a, H = Some a -> exists p, sH = Some p /\ ptr w (i, b) = Some p /\ flg w (i, b) = false /\ tm p /\ mats w p = Some (mkM a false true) /\ lent_a w (i, b) a = true /\ forall t, t <> (i, b) -> ptr w t <> Some p) ->
  exists tm', Inv tm' none (flip H (i, b) w) /\ NC (flip H (i, b) w) /\ forall x, tm' x <-> tm x /\ sH <> Some x.
Proof.
  intros I C Al E1 E2. unfold flip. destruct H as [a|].
  - destruct (E2 a eq_refl) as (p & -> & P & F & T & M & L & U). exists (minus tm p). split; [eapply own_flip; eauto|]. split.
    + intros j Aj Hj. wcbn. destruct (C j Aj Hj) as (q & x & y). exists q. split; [exact x|]. cases; auto.
    + intros x. unfold minus. split; intros (y & z); split; auto; congruence.
  - rewrite (E1 eq_refl). exists tm. split; [exact I|]. split; [exact C|]. intros x. split; [intros ?; split; [auto|discriminate]|tauto].
Qed.
Lemma newaux_arr_eq i H A w : newaux_arr i H A w =
  if hasC w i && (if A then false else true) then Ok w else
  let (sA, w) := tmp A w in let (sH, w) := tmp H w in
  w <- newaux i sH sA w ;; Ok (set_flg (upds (flg (flip H (i, true) w)) (i, false) true) (flip H (i, true) w)).
Proof.
  unfold newaux_arr, tmp. destruct A as [b|].
  - rewrite Bool.andb_false_r. destruct H; reflexivity.
  - destruct (hasC w i); [reflexivity|]. destruct H; reflexivity.
Qed.
Lemma opt_more w w' H : more w w' -> opt (usable_a w) H -> opt (usable_a w') H.
Proof. intros []. destruct H; cbn; [|auto]. unfold usable_a. now rewrite m_arrs0, m_carr0. Qed.
Lemma more_trans w1 w2 w3 : more w1 w2 -> more w2 w3 -> more w1 w3.
Proof. intros [] []. constructor; try congruence. auto. Qed.

Lemma newaux_arr_ok tm i H A w : Good tm w -> alive w i = true -> opt (usable_a w) H -> opt (usable_a w) A ->
  (forall a, H = Some a -> lent_a w (i, true) a = true) -> (forall a, A = Some a -> hasC w i = true -> lent_a w (i, false) a = true) ->
  exists w' tm', newaux_arr i H A w = Ok w' /\ Good tm' w' /\ alive w' = alive w /\ hasC w' = hasC w /\
  (tm' = tm \/ hasC w i = false /\ A <> None) /\
  ((hasC w i = true -> A <> None) ->
    (forall a, H = Some a -> exists p m, ptr w' (i, true) = Some p /\ flg w' (i, true) = true /\ mats w' p = Some m /\ mo_arr m = a /\ lent_a w' (i, true) a = true) /\
    (forall a, A = Some a -> hasC w' i = true -> exists p m, ptr w' (i, false) = Some p /\ flg w' (i, false) = true /\ mats w' p = Some m /\ mo_arr m = a /\ lent_a w' (i, false) a = true)).
Proof.
  intros (I & C) Al UH UA LH LA. rewrite newaux_arr_eq. destruct (hasC w i && (if A then false else true)) eqn:X.
  { apply andb_prop in X as (Hc & X). destruct A; [discriminate|]. exists w, tm. split; [reflexivity|]. split; [now split|]. split; [reflexivity|]. split; [reflexivity|]. split; [auto|].
    intros Y. now elim (Y Hc). }
  assert (NA : hasC w i = true -> A <> None) by (intros Hc ->; rewrite Hc in X; discriminate). clear X.
  destruct (tmp_opt tm w A I UA) as (sA & w1 & tm1 & -> & I1 & M1 & T1 & N1 & A1).
  destruct (tmp_opt tm1 w1 H I1 (opt_more _ _ _ M1 UH)) as (sH & w2 & tm2 & -> & I2 & M2 & T2 & N2 & H2).
  pose proof (NC_more _ _ (more_trans _ _ _ M1 M2) C) as C2. pose proof (more_trans _ _ _ M1 M2) as M12.
  assert (Al2 : alive w2 i = true) by (now rewrite (m_alive _ _ M12)). assert (Hc2 : hasC w2 i = hasC w i) by now rewrite (m_hasC _ _ M12).
  assert (SA : forall q, sA = Some q -> exists a, A = Some a /\ mats w2 q = Some (mkM a false true) /\ (forall t, ptr w t <> Some q)).
  { intros q E. destruct A as [a|]; [|rewrite (N1 eq_refl) in E; discriminate]. destruct (A1 a eq_refl) as (p & -> & Mp & Np & _). injection E as <-. exists a. split; [reflexivity|]. split; [apply (m_mats _ _ M2); exact Mp|exact Np]. }
  assert (SH : forall q, sH = Some q -> exists a, H = Some a /\ mats w2 q = Some (mkM a false true) /\ (forall t, ptr w t <> Some q) /\ sA <> Some q).
  { intros q E. destruct H as [a|]; [|rewrite (N2 eq_refl) in E; discriminate]. destruct (H2 a eq_refl) as (p & -> & Mp & Np & Zp). injection E as <-. exists a. split; [reflexivity|]. split; [exact Mp|].
    split; [intros t; rewrite <- (m_ptr _ _ M1); apply Np|]. intros Y. destruct A as [b|]; [|rewrite (N1 eq_refl) in Y; discriminate]. destruct (A1 b eq_refl) as (q & Eq & Mq & _). congruence. }
  destruct (newaux_ok tm2 none i sH sA w2 I2 C2 Al2) as (w3 & -> & I3 & C3 & Al3 & Hc3 & Lm3 & La3 & O3 & NC3 & PA3 & X3 & PH3 & M3).
  { intros q E. destruct (SH q E) as (a & -> & Mq & _). right. split; [apply T2; auto|]. exists (mkM a false true). split; [exact Mq|]. left. cbn. rewrite (m_la _ _ M12). auto. }
  { intros q E Hc. destruct (SA q E) as (a & -> & Mq & _). right. split; [apply T2; left; apply T1; auto|]. exists (mkM a false true). split; [exact Mq|]. left. cbn. rewrite (m_la _ _ M12). apply LA; congruence. }
  assert (SHn : forall q, sH = Some q -> mats w q = None).
  { intros q E. destruct H as [a|]; [|rewrite (N2 eq_refl) in E; discriminate]. destruct (H2 a eq_refl) as (p & Ep & _ & _ & Zp). rewrite E in Ep. injection Ep as <-.
    destruct (mats w q) as [m|] eqn:Mq; [|reflexivity]. apply (m_mats _ _ M1) in Mq. congruence. }
  cbn [bind].
  assert (Tm3 : forall q, sH = Some q \/ sA = Some q -> tm2 q) by (intros q [E|E]; apply T2; [auto|left; apply T1; auto]).
  assert (NA3 : hasC w2 i = true -> sA <> None).
  { intros Hc E. destruct A as [a|]; [destruct (A1 a eq_refl) as (? & ? & _); congruence|]. now apply NA; [congruence|]. }
  specialize (PH3 NA3).
  destruct (flip_opt tm2 w3 i true H sH I3 C3 ltac:(congruence) N2) as (tm4 & I4 & C4 & T4).
  { intros a E. destruct (H2 a E) as (p & -> & Mp & Np & Zp). exists p. split; [reflexivity|]. destruct (PH3 p eq_refl) as (P & F). split; [exact P|]. split; [exact F|]. split; [auto|]. split; [apply M3; auto|].
    split; [rewrite La3, (m_la _ _ M12); auto|]. intros t Nt. destruct (SH p eq_refl) as (_ & _ & _ & Np' & NpA). destruct (slot_dec t (i, false)) as [->|Nf].
    - destruct (hasC w2 i) eqn:Hc; [|destruct (NC3 eq_refl) as (-> & _); rewrite (m_ptr _ _ M12); apply Np'].
      destruct sA as [q|]; [|now elim NA3]. destruct (PA3 q eq_refl eq_refl) as (-> & _). congruence.
    - rewrite O3, (m_ptr _ _ M12) by auto. apply Np'. }
  set (w4 := flip H (i, true) w3) in *.
  assert (F4 : ptr w4 = ptr w3 /\ alive w4 = alive w3 /\ hasC w4 = hasC w3 /\ mats w4 = mats w3 /\ lent_a w4 = lent_a w3 /\ (forall t, t <> (i, true) -> flg w4 t = flg w3 t) /\ (H <> None -> flg w4 (i, true) = true)).
  { unfold w4, flip. destruct H; wcbn; do 5 (split; [reflexivity|]); (split; [intros t Nt; cases; congruence|]); [intros _; cases; congruence|intros Y; now elim Y]. }
  destruct F4 as (P4 & Al4 & Hc4 & M4 & La4 & G4 & H4). clearbody w4.
  destruct (hasC w i) eqn:Hc.
  - destruct A as [b|]; [|now elim NA].
    destruct (flip_opt tm4 w4 i false (Some b) sA I4 C4 ltac:(congruence) ltac:(discriminate)) as (tm5 & I5 & C5 & T5).
    { intros a E. injection E as <-. destruct (A1 b eq_refl) as (p & -> & Mp & Np & Zp). exists p. split; [reflexivity|]. destruct (PA3 p eq_refl Hc2) as (P & F). rewrite P4. split; [exact P|].
      split; [rewrite G4 by congruence; exact F|]. split; [apply T4; split; [auto|]; intros E; destruct (SH p E) as (_ & _ & _ & _ & Y); congruence|].
      split; [rewrite M4; apply M3; [auto|apply (m_mats _ _ M2); exact Mp]|]. split; [rewrite La4, La3, (m_la _ _ M12); auto|].
      intros t Nt. destruct (slot_dec t (i, true)) as [->|Nf].
      - destruct H as [a|]; [|rewrite X3, (m_ptr _ _ M12) by auto; apply Np]. destruct (H2 a eq_refl) as (q & Eq & _). destruct (PH3 q Eq) as (-> & _). destruct (SH q Eq) as (_ & _ & _ & _ & Y). congruence.
      - rewrite O3, (m_ptr _ _ M12) by auto. apply Np. }
    cbn [flip] in I5, C5. exists (set_flg (upds (flg w4) (i, false) true) w4), tm. split; [reflexivity|]. split.
    { split; [|exact C5]. eapply Inv_iff; [| |exact I5]; [|tauto]. intros x. rewrite T5, T4, T2, T1. split.
      - intros (([[?|?]|?] & ?) & ?); auto; congruence.
      - intros T. destruct (i_tm _ _ _ I x T) as (_ & m & M & _). split; [split; [auto|]|].
        + intros E. specialize (SHn x E). congruence.
        + intros E. destruct (A1 b eq_refl) as (p & Ep & _ & _ & Zp). congruence. }
    wcbn. split; [rewrite Al4, Al3; apply (m_alive _ _ M12)|]. split; [rewrite Hc4, Hc3; apply (m_hasC _ _ M12)|]. split; [auto|]. intros _. split.
    + intros a E. destruct (H2 a E) as (p & Ep & Mp & _). destruct (PH3 p Ep) as (P & F). exists p, (mkM a false true). rewrite P4, M4, La4, La3, (m_la _ _ M12).
      split; [exact P|]. split; [cases; [congruence|apply H4; congruence]|]. split; [apply M3; auto|]. auto.
    + intros a E _. destruct (A1 a E) as (p & Ep & Mp & _). destruct (PA3 p Ep Hc2) as (P & F). exists p, (mkM a false true). rewrite P4, M4, La4, La3, (m_la _ _ M12).
      split; [exact P|]. split; [cases; congruence|]. split; [apply M3; [auto|apply (m_mats _ _ M2); exact Mp]|]. auto.
  - assert (Fl : flg w4 (i, false) = true).
    { rewrite G4 by congruence. destruct (NC3 Hc2) as (_ & ->). rewrite (m_flg _ _ M12). destruct (C i Al Hc) as (q & _ & y). exact y. }
    rewrite (flip_same _ _ Fl). exists w4.
    assert (R : forall tm', (forall x, tm4 x <-> tm' x) -> Good tm' w4).
    { intros tm' T. split; [|exact C4]. eapply Inv_iff; [exact T| |exact I4]. tauto. }
    exists (match A with Some _ => tm4 | None => tm end). split; [reflexivity|]. split.
    { apply R. intros x. destruct A as [b|]; [tauto|]. rewrite T4, T2, T1, (N1 eq_refl). split.
      - intros ([[?|?]|?] & ?); auto; congruence.
      - intros T. destruct (i_tm _ _ _ I x T) as (_ & m & M & _). split; [auto|]. intros E. specialize (SHn x E). congruence. }
    split; [rewrite Al4, Al3; apply (m_alive _ _ M12)|]. split; [rewrite Hc4, Hc3; apply (m_hasC _ _ M12)|]. split; [destruct A; [right; split; [reflexivity|discriminate]|auto]|]. intros _. split.
    + intros a E. destruct (H2 a E) as (p & Ep & Mp & _). destruct (PH3 p Ep) as (P & F). exists p, (mkM a false true). rewrite P4, M4, La4, La3, (m_la _ _ M12).
      split; [exact P|]. split; [apply H4; congruence|]. split; [apply M3; auto|]. auto.
    + intros a E Y. congruence.
Qed.

Lemma sq_arr_step tm w i refused H A ok : Good tm w -> allowed w (SqArr i refused H A ok) ->
  exists w' tm', exec (SqArr i refused H A ok) w = Ok w' /\ Good tm' w' /\ (tm' = tm \/ refused = false /\ hasC w i = false /\ A <> None).
Proof.
  intros (I & C) (Al & UH & UA & Co). cbn [exec]. destruct (lend2_a tm none i H A w I Al UH UA) as (I0 & S0 & LH & LA). set (w0 := lend2 lend_a i H A w) in *. clearbody w0.
  assert (C0 : NC w0) by (eapply NC_same; eauto). assert (Al0 : alive w0 i = true) by al. assert (Hc0 : hasC w0 i = hasC w i) by now rewrite (s_hasC _ _ S0). unfold sq_arr.
  destruct refused. { cbn [bind]. destruct ok; [destruct (Co eq_refl); discriminate|]. exists w0, tm. split; [reflexivity|]. split; [now split|auto]. }
  destruct (newaux_arr_ok tm i H A w0 (conj I0 C0) Al0) as (w1 & tm1 & -> & G1 & A1 & H1 & L1 & P1).
  { destruct H; [eapply same_usable_a; eauto|exact Logic.I]. } { destruct A; [eapply same_usable_a; eauto|exact Logic.I]. } { exact LH. } { intros a E Hc. apply LA; congruence. }
  cbn [bind]. rewrite (read_obj_ok _ _ _ _ (proj1 G1)). cbn [bind]. eexists _, tm1. split; [reflexivity|]. split; [|rewrite <- Hc0; destruct L1; auto].
  apply note_a; [exact G1|congruence|]. intros ->. destruct (Co eq_refl) as (_ & CA & _). apply P1. now rewrite Hc0.
Qed.
(** ** Reading from files *)
Lemma Inv_nxt tm ta w : Inv tm ta w -> Inv tm ta (set_nxt (S (nxt w)) w).
Proof.
  intros []. constructor; wcbn; auto.
  - intros k Hk. apply i_fresh0. lia.
  - intros p m M. specialize (i_bound0 p m M). lia.
Qed.
Lemma new_free tm ta w : Inv tm ta w -> free_arr (nxt w) (snd (new_arr w)) = Ok (set_nxt (S (nxt w)) w).
Proof.
  intros I. destruct (i_fresh _ _ _ I (nxt w) (le_n _)) as (F & _). unfold free_arr, new_arr. wcbn. unfold upd at 1. destruct (Nat.eq_dec (nxt w) (nxt w)); [|congruence].
  f_equal. destruct w; unfold set_arrs, set_nxt; wcbn. f_equal. apply functional_extensionality. intros x. cases; auto.
Qed.
Lemma release_back s w w1 q m : release s w = Ok w1 -> mats w1 q = Some m -> mats w q = Some m.
Proof.
  unfold release, del_mat, free_arr. destruct (ptr w s) as [p|]; [|intros [= <-]; auto]. destruct (flg w s); [|intros [= <-]; auto].
  destruct (mats w p) as [x|]; [|discriminate]. destruct (mo_owns x); [destruct (arrs w (mo_arr x)); [|discriminate]|]; cbn [bind]; intros [= <-]; wcbn; cases; auto; discriminate.
Qed.
Lemma file_own tm w s w1 : Inv tm none w -> Inv tm (plus none (nxt w)) w1 -> fr s (snd (new_arr w)) w1 ->
  ptr w1 s = Some (S (nxt w)) -> flg w1 s = true -> mats w1 (S (nxt w)) = Some (mkM (nxt w) false true) ->
  (forall q m, mats w1 q = Some m -> q = S (nxt w) \/ mats w q = Some m) ->
  exists w2, own_mat (S (nxt w)) w1 = Ok w2 /\ Inv tm none w2 /\ fr s w w2.
Proof.
  intros I I1 F P Fl M B. destruct (own_ok _ _ w1 s _ _ I1 P Fl M) as (w2 & -> & I2 & ->).
  - right. reflexivity.
  - intros q m' Mq E. destruct (B q m' Mq) as [?|X]; [auto|]. pose proof (i_bound _ _ _ I _ _ X). cbn in E. lia.
  - eexists. split; [reflexivity|]. split.
    + eapply Inv_iff; [| |exact I2]; [tauto|]. intros x. unfold minus, plus, none. cbn. tauto.
    + unfold new_arr in F. cbn [snd] in F. destruct F. wcbn. constructor; wcbn; auto; [lia|]. intros p m Mp Q. specialize (f_mats0 p m Mp Q). cases; [pose proof (mats_lt _ _ _ _ _ I Mp); lia|auto].
Qed.
Lemma fr_refl s w : fr s w w. Proof. now constructor. Qed.
Lemma fr_nxt s w : fr s w (set_nxt (S (nxt w)) w). Proof. constructor; wcbn; auto. Qed.
Lemma setH_file tm i id w : Inv tm none w -> alive w i = true ->
  exists w2, (w <- setH_arr i id (Some (nxt w)) (snd (new_arr w)) ;; w <- (match ptr w (i, true) with Some p => own_mat p w | None => UB end) ;; Ok (true, w)) = Ok (true, w2) /\ Inv tm none w2 /\ fr (i, true) w w2.
Proof.
  intros I Al. destruct (setH_arr_ok tm _ i id (Some (nxt w)) _ (new_ta _ _ _ I) Al) as (w1 & E & I1 & F1 & P1). { intros a X. injection X as <-. right. right. reflexivity. }
  destruct (P1 _ eq_refl) as (P & Q & M). change (nxt (snd (new_arr w))) with (S (nxt w)) in *.
  assert (B : forall q m, mats w1 q = Some m -> q = S (nxt w) \/ mats w q = Some m).
  { unfold setH_arr in E. destruct (release (i, true) (snd (new_arr w))) as [w0| |] eqn:R; try discriminate. cbn [bind] in E. unfold new_mat in E. injection E as <-. intros q m. wcbn. unfold upd.
    destruct (Nat.eq_dec q (nxt w0)) as [->|N].
    - intros _. left. destruct (release_ok _ _ _ (i, true) (new_ta _ _ _ I)) as (w0' & R' & _ & K). rewrite R in R'. injection R' as <-. rewrite (k_nxt _ _ _ K). reflexivity.
    - intros Mq. right. exact (release_back _ _ _ _ _ R Mq). }
  destruct (file_own tm w (i, true) w1 I I1 F1 P Q M B) as (w2 & E2 & I2 & F2). exists w2. rewrite E. cbn [bind]. rewrite P, E2. cbn [bind]. auto.
Qed.
Lemma setA_file tm i w : Inv tm none w -> alive w i = true ->
  exists w2, (w <- setA_arr i (nxt w) (snd (new_arr w)) ;; w <- (match ptr w (i, false) with Some p => own_mat p w | None => UB end) ;; read_obj i w) = Ok w2 /\ Inv tm none w2 /\ fr (i, false) w w2.
Proof.
  intros I Al. destruct (setA_arr_ok tm _ i (nxt w) _ (new_ta _ _ _ I) Al) as (w1 & E & I1 & F1 & P & Q & M). { right. right. reflexivity. }
  change (nxt (snd (new_arr w))) with (S (nxt w)) in *.
  assert (B : forall q m, mats w1 q = Some m -> q = S (nxt w) \/ mats w q = Some m).
  { unfold setA_arr in E. destruct (release (i, false) (snd (new_arr w))) as [w0| |] eqn:R; try discriminate. cbn [bind] in E. unfold new_mat in E. cbv zeta in E.
    assert (E' : put (i, false) (Some (nxt w0)) true (set_nxt (S (nxt w0)) (set_mats (upd (mats w0) (nxt w0) (Some (mkM (nxt w) false true))) w0)) = w1).
    { unfold read_mat in E. destruct (mats _ _); [destruct (arrs _ _)|]; congruence. }
    rewrite <- E'. intros q m. wcbn. unfold upd. destruct (Nat.eq_dec q (nxt w0)) as [->|N].
    - intros _. left. destruct (release_ok _ _ _ (i, false) (new_ta _ _ _ I)) as (w0' & R' & _ & K). rewrite R in R'. injection R' as <-. rewrite (k_nxt _ _ _ K). reflexivity.
    - intros Mq. right. exact (release_back _ _ _ _ _ R Mq). }
  destruct (file_own tm w (i, false) w1 I I1 F1 P Q M B) as (w2 & E2 & I2 & F2). exists w2. rewrite E. cbn [bind]. rewrite P, E2. cbn [bind]. rewrite (read_obj_ok _ _ _ _ I2). auto.
Qed.
Lemma init_file_step tm w i early id Hf vok vokA Af : Good tm w -> allowed w (InitFile i early id Hf vok vokA Af) -> exists w', exec (InitFile i early id Hf vok vokA Af) w = Ok w' /\ Good tm w'.
Proof.
  intros (I & C) Al. cbn [allowed] in Al. cbn [exec]. unfold init_file. destruct early; [eexists; split; [reflexivity|now split]|].
  assert (S1 : exists go w1, (match Hf with
    | Some r => let (a, w) := new_arr w in
        if r then w <- setH_arr i id (Some a) w ;;
                  w <- (match ptr w (i, true) with Some p => own_mat p w | None => UB end) ;; Ok (true, w)
        else w <- free_arr a w ;; Ok (false, w)
    | None => w <- setH_arr i id None w ;; Ok (true, w) end) = Ok (go, w1) /\ Inv tm none w1 /\ fr (i, true) w w1).
  { destruct Hf as [[|]|].
    - destruct (setH_file tm i id w I Al) as (w2 & E & X). exists true, w2. split; [exact E|exact X].
    - exists false. eexists. split; [change (new_arr w) with (nxt w, snd (new_arr w)); cbv iota; rewrite (new_free _ _ _ I); reflexivity|]. split; [now apply Inv_nxt|apply fr_nxt].
    - destruct (setH_arr_ok tm none i id None w I Al) as (w1 & -> & I1 & F1 & _); [discriminate|]. exists true, w1. auto. }
  destruct S1 as (go & w1 & -> & I1 & F1). cbn [bind]. assert (C1 : NC w1) by (eapply NC_H; eauto). assert (Al1 : alive w1 i = true) by al.
  destruct (go && vok); cbn [negb]; [|exists w1; split; [reflexivity|now split]].
  destruct (hasC w1 i) eqn:Hc; [|exists w1; split; [apply (read_obj_ok _ _ _ _ I1)|now split]].
  destruct Af as [r|]; [|exists w1; split; [reflexivity|now split]]. destruct vokA; cbn [negb]; [|exists w1; split; [reflexivity|now split]].
  change (new_arr w1) with (nxt w1, snd (new_arr w1)). cbv iota. destruct r.
  - destruct (setA_file tm i w1 I1 Al1) as (w2 & E & I2 & F2). exists w2. split; [exact E|]. split; [exact I2|]. eapply NC_A; eauto.
  - rewrite (new_free _ _ _ I1). eexists. split; [reflexivity|]. split; [now apply Inv_nxt|exact C1].
Qed.
Definition stale (noargs refused hok aok vok : bool) : bool := negb noargs && negb refused && hok && aok && vok.
Lemma sq_file_step tm w i noargs refused hok aok vok : stale noargs refused hok aok vok = false -> Good tm w ->
  exists w', exec (SqFile i noargs refused hok aok vok) w = Ok w' /\ Good tm w'.
Proof.
  intros St (I & C). cbn [exec]. unfold sq_file. destruct noargs; [exists w; split; [reflexivity|now split]|].
  change (new_arr w) with (nxt w, snd (new_arr w)). cbv iota. set (w1 := snd (new_arr w)). change (new_arr w1) with (nxt w1, snd (new_arr w1)). cbv iota.
  assert (I1 : Inv tm (plus none (nxt w)) w1) by apply (new_ta _ _ _ I).
  assert (E : (if hok && aok && vok then sq_arr i refused (Some (nxt w)) (Some (nxt w1)) (snd (new_arr w1)) else Ok (snd (new_arr w1))) = Ok (snd (new_arr w1))).
  { unfold stale in St. destruct (hok && aok && vok) eqn:X; [|reflexivity]. unfold sq_arr. destruct refused; [reflexivity|]. cbn [negb andb] in St. destruct hok, aok, vok; discriminate. }
  rewrite E. cbn [bind]. rewrite (new_free _ _ _ I1). cbn [bind].
  exists (set_nxt (S (S (nxt w))) w). split; [|split; [|exact C]].
  - destruct (i_fresh _ _ _ I (nxt w) (le_n _)) as (F & _). unfold free_arr, w1, new_arr. wcbn. unfold upd at 1. destruct (Nat.eq_dec (nxt w) (nxt w)); [|congruence].
    f_equal. destruct w; unfold set_arrs, set_nxt; wcbn. f_equal. apply functional_extensionality. intros x. cases; auto.
  - change (Inv tm none (set_nxt (S (nxt (set_nxt (S (nxt w)) w))) (set_nxt (S (nxt w)) w))). apply Inv_nxt, Inv_nxt, I.
Qed.
(** ** Construction, copies and destruction *)
Lemma put_put s p f w : put s p f (put s None false w) = put s p f w.
Proof. destruct w. unfold put, set_flg, set_ptr. wcbn. f_equal; apply functional_extensionality; intros x; cases; auto. Qed.
Lemma put_comm s t p q f g w : s <> t -> put s p f (put t q g w) = put t q g (put s p f w).
Proof. intros N. destruct w. unfold put, set_flg, set_ptr. wcbn. f_equal; apply functional_extensionality; intros x; cases; auto; congruence. Qed.
Lemma release_put s u w : s <> u -> release s (put u None false w) = (w' <- release s w ;; Ok (put u None false w')).
Proof.
  intros N. unfold release. assert (P : ptr (put u None false w) s = ptr w s) by (wcbn; cases; congruence). assert (F : flg (put u None false w) s = flg w s) by (wcbn; cases; congruence).
  rewrite P, F. destruct (ptr w s) as [p|]; [|reflexivity]. destruct (flg w s); [|reflexivity]. unfold del_mat. change (mats (put u None false w)) with (mats w).
  destruct (mats w p) as [m|]; [|reflexivity]. unfold free_arr. change (arrs (put u None false w)) with (arrs w).
  assert (X : forall w0 : world, ptr w0 = ptr w -> flg w0 = flg w -> Ok (set_ptr (upds (ptr (put u None false w0)) s None) (put u None false w0)) = Ok (put u None false (set_ptr (upds (ptr w0) s None) w0))).
  { intros w0 _ _. f_equal. destruct w0. unfold put, set_flg, set_ptr. wcbn. f_equal; apply functional_extensionality; intros x; cases; auto. }
  destruct (mo_owns m); [destruct (arrs w (mo_arr m)); [|reflexivity]|]; cbn [bind];
  match goal with |- _ = Ok (put u None false (set_ptr _ ?w0)) => exact (X w0 eq_refl eq_refl) end.
Qed.
Lemma copy_put s t u w : s <> u -> t <> u -> copy_slot s t (put u None false w) = (w' <- copy_slot s t w ;; Ok (put u None false w')).
Proof.
  intros N1 N2. unfold copy_slot. assert (P : ptr (put u None false w) t = ptr w t) by (wcbn; cases; congruence). assert (F : flg (put u None false w) t = flg w t) by (wcbn; cases; congruence).
  rewrite P, F. destruct (flg w t); [|cbn [bind]; now rewrite put_comm]. destruct (ptr w t) as [p|]; [|reflexivity]. unfold dup_mat. change (mats (put u None false w)) with (mats w).
  destruct (mats w p) as [m|]; [|reflexivity]. change (arrs (put u None false w)) with (arrs w). destruct (mo_owns m || negb (mo_dense m)); [destruct (arrs w (mo_arr m)); [|reflexivity]|].
  - unfold new_arr, new_mat. cbn [bind]. match goal with |- _ = Ok (put u None false (put s ?p ?f ?y)) => change (Ok (put s p f (put u None false y)) = Ok (put u None false (put s p f y))) end. now rewrite put_comm.
  - unfold new_mat. cbn [bind]. match goal with |- _ = Ok (put u None false (put s ?p ?f ?y)) => change (Ok (put s p f (put u None false y)) = Ok (put u None false (put s p f y))) end. now rewrite put_comm.
Qed.
Lemma copy_hole s t w : s <> t -> copy_slot s t (put s None false w) = copy_slot s t w.
Proof.
  intros N. unfold copy_slot. assert (P : ptr (put s None false w) t = ptr w t) by (wcbn; cases; congruence). assert (F : flg (put s None false w) t = flg w t) by (wcbn; cases; congruence).
  rewrite P, F. destruct (flg w t); [|now rewrite put_put]. destruct (ptr w t) as [p|]; [|reflexivity]. unfold dup_mat. change (mats (put s None false w)) with (mats w).
  destruct (mats w p) as [m|]; [|reflexivity]. change (arrs (put s None false w)) with (arrs w). destruct (mo_owns m || negb (mo_dense m)); [destruct (arrs w (mo_arr m)); [|reflexivity]|].
  - unfold new_arr, new_mat. cbn [bind]. match goal with |- _ = Ok (put s ?p ?f ?y) => change (Ok (put s p f (put s None false y)) = Ok (put s p f y)) end. now rewrite put_put.
  - unfold new_mat. cbn [bind]. match goal with |- _ = Ok (put s ?p ?f ?y) => change (Ok (put s p f (put s None false y)) = Ok (put s p f y)) end. now rewrite put_put.
Qed.
Lemma own_eq w s d : let w3 := put s (Some (S (nxt w))) true (snd (new_mat (mkM (nxt w) false d) (snd (new_arr w)))) in
  set_mats (upd (mats w3) (S (nxt w)) (Some (mkM (nxt w) true d))) w3 = put s (Some (S (nxt w))) true (snd (new_mat (mkM (nxt w) true d) (snd (new_arr w)))).
Proof.
  destruct w as [x1 x2 x3 x4 x5 x6 x7 x8 x9 x10 x11]. cbv zeta. cbv beta iota delta [new_mat new_arr put set_flg set_ptr set_mats set_nxt set_arrs arrs mats nxt alive hasC ptr flg carr cmat lent_m lent_a snd].
  f_equal. apply functional_extensionality. intros x. cases; auto.
Qed.
(** a new matrix object with an array of its own *)
Lemma new_own tm w s d : Inv tm none w -> ptr w s = None -> alive w (fst s) = true ->
  Inv tm none (put s (Some (S (nxt w))) true (snd (new_mat (mkM (nxt w) true d) (snd (new_arr w))))).
Proof.
  intros I P Al. pose proof (new_ta _ _ _ I) as I1. pose proof (new_tmp_d _ _ _ (nxt w) d I1 ltac:(unfold new_arr; cbn; lia)) as I2.
  set (w2 := snd (new_mat (mkM (nxt w) false d) (snd (new_arr w)))) in *. change (nxt (snd (new_arr w))) with (S (nxt w)) in I2.
  assert (PN : forall t, ptr w t <> Some (S (nxt w))) by (intros t E; destruct (live_ptr _ _ _ _ _ I E) as (m & M & _); pose proof (mats_lt _ _ _ _ _ I M); lia).
  assert (M2 : mats w2 (S (nxt w)) = Some (mkM (nxt w) false d)) by (unfold w2, new_mat, new_arr; wcbn; cases; congruence).
  assert (I3 : Inv (minus (plus tm (S (nxt w))) (S (nxt w))) (plus none (nxt w)) (put s (Some (S (nxt w))) true w2)).
  { eapply put_own; [apply hole_inv; [exact I2|left; exact P]|exact Al|right; reflexivity|exact M2|right; right; reflexivity|]. intros t _. exact (PN t). }
  destruct (own_ok _ _ _ s (S (nxt w)) (mkM (nxt w) false d) I3) as (w4 & _ & I4 & ->).
  - apply put_same. - apply put_same. - exact M2. - right. reflexivity.
  - intros q m' Mq E. unfold w2, new_mat, new_arr in Mq. wcbn. unfold upd in Mq. destruct (Nat.eq_dec q (S (nxt w))); [auto|]. pose proof (i_bound _ _ _ I _ _ Mq). lia.
  - cbn [mo_arr mo_dense] in I4. unfold w2 in I4. rewrite own_eq in I4. eapply Inv_iff; [| |exact I4].
    + intros x. unfold minus, plus. split; [tauto|]. intros T. split; [auto|]. intros ->. destruct (i_tm _ _ _ I _ T) as (_ & m & M & _). pose proof (mats_lt _ _ _ _ _ I M). lia.
    + intros x. unfold minus, plus, none. cbn. tauto.
Qed.
Lemma copy_ok tm s t w : Inv tm none w -> ptr w s = None -> s <> t -> alive w (fst s) = true -> lent_m w s = lent_m w t -> lent_a w s = lent_a w t ->
  exists w', copy_slot s t w = Ok w' /\ Inv tm none w' /\ fr s w w' /\ flg w' s = flg w t /\ (ptr w t <> None -> ptr w' s <> None).
Proof.
  intros I P N Al Em Ea. unfold copy_slot. destruct (flg w t) eqn:F.
  - destruct (ptr w t) as [p|] eqn:Pt; [|now elim (i_flg _ _ _ I t F)]. destruct (live_ptr _ _ _ _ _ I Pt) as (m & M & A). unfold dup_mat. rewrite M.
    destruct (mo_owns m || negb (mo_dense m)) eqn:O.
    + rewrite A. unfold new_arr, new_mat. cbn [bind]. eexists. split; [reflexivity|]. split; [exact (new_own tm w s (mo_dense m) I P Al)|]. split; [|split; [apply put_same|intros _; rewrite (proj1 (put_same _ _ _ _)); discriminate]].
      constructor; wcbn; auto; [intros x Nx; cases; congruence|intros x Nx; cases; congruence|]. intros q m' Mq _. cases; [pose proof (mats_lt _ _ _ _ _ I Mq); lia|auto].
    + apply Bool.orb_false_iff in O as (O & _). unfold new_mat. cbn [bind]. eexists. split; [reflexivity|].
      destruct (i_own _ _ _ I _ _ Pt F) as (_ & _ & m' & M' & L). rewrite M in M'. injection M' as <-. destruct (L O) as [La|[]].
      pose proof (new_tmp _ _ _ (mo_arr m) I (live_lt _ _ _ _ I A)) as I1. split.
      { eapply Inv_iff; [| |eapply (put_own _ _ _ s (nxt w) (mkM (mo_arr m) false true)); [apply hole_inv; [exact I1|left; exact P]|exact Al|right; reflexivity| | |]].
        - intros x. unfold minus, plus. split; [tauto|]. intros T. split; [auto|]. intros ->. destruct (i_tm _ _ _ I _ T) as (_ & m' & M' & _). pose proof (mats_lt _ _ _ _ _ I M'). lia.
        - tauto.
        - unfold new_mat. wcbn. cases; congruence.
        - left. cbn. unfold new_mat. wcbn. now rewrite Ea.
        - intros x _ E. unfold new_mat in E. wcbn. destruct (live_ptr _ _ _ _ _ I E) as (m' & M' & _). pose proof (mats_lt _ _ _ _ _ I M'). lia. }
      split; [|split; [apply put_same|intros _; rewrite (proj1 (put_same _ _ _ _)); discriminate]].
      constructor; wcbn; auto; [intros x Nx; cases; congruence|intros x Nx; cases; congruence|]. intros q m' Mq _. cases; [pose proof (mats_lt _ _ _ _ _ I Mq); lia|auto].
  - eexists. split; [reflexivity|]. assert (I0 : Inv tm none (put s None false w)) by (apply hole_inv; auto). split; [|split; [|split; [apply put_same|rewrite (proj1 (put_same _ _ _ _)); auto]]].
    + destruct (ptr w t) as [p|] eqn:Pt; [|exact I0]. apply put_ref; [exact I0|exact Al|]. rewrite Em, Ea. apply (i_ref _ _ _ I _ _ Pt F).
    + constructor; wcbn; auto; intros x Nx; cases; congruence.
Qed.
Lemma Inv_hasC tm ta w h : Inv tm ta w -> Inv tm ta (set_hasC h w).
Proof. intros []. constructor; wcbn; auto. Qed.
Lemma alive_ok tm ta w i : Inv tm ta w ->
  (forall b p, lent_m w (i, b) p = true -> cmat w p = true /\ exists m, mats w p = Some m /\ lent_a w (i, b) (mo_arr m) = true) ->
  (forall b a, lent_a w (i, b) a = true -> arrs w a = true /\ ~ ta a /\ forall q m, mats w q = Some m -> mo_owns m = true -> mo_arr m = a -> cmat w q = true) ->
  Inv tm ta (set_alive (upd (alive w) i true) w).
Proof.
  intros [] X Y. constructor; wcbn; auto.
  - intros k b D. apply i_dead0. cases; [discriminate|auto].
  - intros k b p Ak Lp. destruct (Nat.eq_dec k i) as [->|N]; [auto|]. apply (i_lm0 k b p); [cases; congruence|auto].
  - intros k b a Ak La. destruct (Nat.eq_dec k i) as [->|N]; [eauto|]. apply (i_la0 k b a); [cases; congruence|auto].
Qed.
Definition unlent (i : nat) (w : world) : world :=
  set_lent_a (upds (upds (lent_a w) (i, true) (fun _ => false)) (i, false) (fun _ => false)) (set_lent_m (upds (upds (lent_m w) (i, true) (fun _ => false)) (i, false) (fun _ => false)) w).
Lemma unlent_ok tm ta w i : Inv tm ta w -> alive w i = false -> Inv tm ta (unlent i w).
Proof.
  intros I D. pose proof (i_dead _ _ _ I i) as P. assert (K : forall k b, alive w k = true -> lent_m (unlent i w) (k, b) = lent_m w (k, b) /\ lent_a (unlent i w) (k, b) = lent_a w (k, b)).
  { intros k b Ak. unfold unlent. wcbn. split; cases; congruence. }
  assert (L : forall s p, ptr w s = Some p -> lent_m (unlent i w) s = lent_m w s /\ lent_a (unlent i w) s = lent_a w s).
  { intros [k b] p Q. apply K. destruct (alive w k) eqn:Ak; [reflexivity|]. rewrite (i_dead _ _ _ I k b Ak) in Q. discriminate. }
  destruct I. constructor; auto.
  - intros s p Q. change (ptr (unlent i w)) with (ptr w) in Q. destruct (L s p Q) as (_ & ->). exact (i_own0 s p Q).
  - intros s p Q. change (ptr (unlent i w)) with (ptr w) in Q. destruct (L s p Q) as (-> & ->). exact (i_ref0 s p Q).
  - intros k b p Ak. change (alive (unlent i w)) with (alive w) in Ak. destruct (K k b Ak) as (-> & ->). exact (i_lm0 k b p Ak).
  - intros k b a Ak. change (alive (unlent i w)) with (alive w) in Ak. destruct (K k b Ak) as (_ & ->). exact (i_la0 k b a Ak).
Qed.
Lemma create_step tm w i c : Good tm w -> allowed w (Create i c) -> exists w', exec (Create i c) w = Ok w' /\ Good tm w'.
Proof.
  intros (I & C) D. cbn [allowed] in D. cbn [exec]. unfold create. fold (unlent i (set_hasC (upd (hasC w) i c) (set_alive (upd (alive w) i true) w))).
  pose proof (i_dead _ _ _ I i true D) as PH. pose proof (i_dead _ _ _ I i false D) as PA.
  pose proof (unlent_ok _ _ _ _ I D) as I1.
  assert (I2 : Inv tm none (set_alive (upd (alive (unlent i w)) i true) (unlent i w))).
  { apply alive_ok; [exact I1| |]; intros b x; unfold unlent; wcbn; cases; try discriminate; destruct b; congruence. }
  pose proof (Inv_hasC _ _ _ (upd (hasC w) i c) I2) as I3. change (set_hasC (upd (hasC w) i c) (set_alive (upd (alive (unlent i w)) i true) (unlent i w))) with (unlent i (set_hasC (upd (hasC w) i c) (set_alive (upd (alive w) i true) w))) in I3.
  set (w1 := unlent i (set_hasC (upd (hasC w) i c) (set_alive (upd (alive w) i true) w))) in *. cbv zeta.
  assert (P1 : ptr w1 = ptr w) by reflexivity. assert (F1 : flg w1 = flg w) by reflexivity. assert (A1 : alive w1 = upd (alive w) i true) by reflexivity. assert (H1 : hasC w1 = upd (hasC w) i c) by reflexivity. clearbody w1. clear I2 I1.
  pose proof (hole_inv _ _ _ (i, true) I3 ltac:(left; congruence)) as I4.
  destruct c.
  - eexists. split; [reflexivity|]. split; [apply hole_inv; [exact I4|left; wcbn; cases; congruence]|].
    intros k Ak Hk. wcbn. rewrite A1 in Ak. rewrite H1 in Hk. rewrite P1, F1. destruct (Nat.eq_dec k i) as [->|N]; [unfold upd in Hk; destruct (Nat.eq_dec i i); congruence|].
    destruct (C k) as (p & x & y); [unfold upd in *; destruct (Nat.eq_dec k i); congruence|unfold upd in *; destruct (Nat.eq_dec k i); congruence|]. exists p. split; cases; congruence.
  - set (w2 := put (i, true) None false w1) in *. change (new_arr w2) with (nxt w2, snd (new_arr w2)). cbv iota. change (new_mat (mkM (nxt w2) true true) (snd (new_arr w2))) with (S (nxt w2), snd (new_mat (mkM (nxt w2) true true) (snd (new_arr w2)))). cbv iota.
    assert (P2 : forall t, t <> (i, true) -> ptr w2 t = ptr w t /\ flg w2 t = flg w t) by (intros t N; unfold w2; wcbn; rewrite P1, F1; split; cases; congruence).
    assert (A2 : alive w2 = upd (alive w) i true) by exact A1. assert (H2 : hasC w2 = upd (hasC w) i false) by exact H1. clearbody w2.
    eexists. split; [reflexivity|]. split; [apply new_own; [exact I4|destruct (P2 (i, false)); congruence|cbn [fst]; rewrite A2; unfold upd; destruct (Nat.eq_dec i i); congruence]|].
    intros k Ak Hk. destruct (Nat.eq_dec k i) as [->|N]; [eexists; apply put_same|].
    change (alive w2 k = true) in Ak. change (hasC w2 k = false) in Hk. rewrite A2 in Ak. rewrite H2 in Hk.
    destruct (C k) as (p & x & y); [unfold upd in *; destruct (Nat.eq_dec k i); congruence|unfold upd in *; destruct (Nat.eq_dec k i); congruence|]. exists p.
    destruct (P2 (k, false) ltac:(congruence)) as (E1 & E2). unfold new_mat, new_arr. wcbn. split; cases; congruence.
Qed.
Lemma clear_ok tm w i : Inv tm none w -> exists w', clear i w = Ok w' /\ Inv tm none (put (i, true) None false (put (i, false) None false w')) /\
  alive w' = alive w /\ hasC w' = hasC w /\ lent_m w' = lent_m w /\ lent_a w' = lent_a w /\ (ptr w' (i, false) = None \/ flg w' (i, false) = false) /\
  (forall t, t <> (i, true) -> t <> (i, false) -> ptr w' t = ptr w t /\ flg w' t = flg w t).
Proof.
  intros I. destruct (release_ok tm none w (i, false) I) as (w1 & E1 & I1 & K1). destruct (release_ok _ _ _ (i, true) I1) as (w2' & E2 & I2 & K2).
  rewrite release_put in E2 by congruence. destruct (release (i, true) w1) as [w2| |] eqn:R; try discriminate. cbn [bind] in E2. injection E2 as <-.
  exists w2. unfold clear. rewrite E1. cbn [bind]. split; [exact R|]. split; [exact I2|].
  assert (X : alive w2 = alive w1 /\ hasC w2 = hasC w1 /\ lent_m w2 = lent_m w1 /\ lent_a w2 = lent_a w1 /\ flg w2 = flg w1 /\ forall t, t <> (i, true) -> ptr w2 t = ptr w1 t).
  { revert R. unfold release, del_mat, free_arr. destruct (ptr w1 (i, true)) as [p|]; [|intros [= <-]; auto 10]. destruct (flg w1 (i, true)); [|intros [= <-]; auto 10].
    destruct (mats w1 p) as [m|]; [|discriminate]. destruct (mo_owns m); [destruct (arrs w1 (mo_arr m)); [|discriminate]|]; cbn [bind]; intros [= <-]; wcbn; (do 5 (split; [reflexivity|])); intros t N; cases; congruence. }
  destruct X as (x1 & x2 & x3 & x4 & x5 & x6). destruct K1. split; [congruence|]. split; [congruence|]. split; [congruence|]. split; [congruence|].
  split; [rewrite x6, x5 by congruence; exact k_free0|]. intros t N1 N2. rewrite x6, x5, k_ptr0, k_flg0 by auto. auto.
Qed.
Lemma dead_ok tm w i : Inv tm none w -> ptr w (i, true) = None -> ptr w (i, false) = None -> Inv tm none (set_alive (upd (alive w) i false) w).
Proof.
  intros [] P1 P2. constructor; wcbn; auto.
  - intros k b D. destruct (Nat.eq_dec k i) as [->|N]; [destruct b; auto|]. apply i_dead0. unfold upd in D. destruct (Nat.eq_dec k i); congruence.
  - intros k b p Ak. apply (i_lm0 k b p). unfold upd in Ak. destruct (Nat.eq_dec k i); congruence.
  - intros k b p Ak. apply (i_la0 k b p). unfold upd in Ak. destruct (Nat.eq_dec k i); congruence.
Qed.
Lemma destroy_step tm w i : Good tm w -> allowed w (Destroy i) -> exists w', exec (Destroy i) w = Ok w' /\ Good tm w' /\ alive w' i = false.
Proof.
  intros (I & C) Al. cbn [allowed] in Al. cbn [exec]. unfold destroy. destruct (clear_ok tm w i I) as (w1 & -> & I1 & A1 & H1 & _ & _ & _ & P1). cbn [bind]. rewrite put_comm in I1 by congruence.
  set (w2 := put (i, false) None false (put (i, true) None false w1)) in *.
  assert (P2 : forall t, t <> (i, true) -> t <> (i, false) -> ptr w2 t = ptr w t /\ flg w2 t = flg w t).
  { intros t N1 N2. destruct (P1 t N1 N2) as (<- & <-). unfold w2. wcbn. split; cases; congruence. }
  assert (Q1 : ptr w2 (i, true) = None) by (unfold w2; wcbn; cases; congruence). assert (Q2 : ptr w2 (i, false) = None) by (unfold w2; wcbn; cases; congruence).
  assert (A2 : alive w2 = alive w) by (unfold w2; wcbn; exact A1). assert (H2 : hasC w2 = hasC w) by (unfold w2; wcbn; exact H1).
  change (alive w1) with (alive w2). clearbody w2. eexists. split; [reflexivity|]. split; [split; [now apply dead_ok|]|wcbn; unfold upd; destruct (Nat.eq_dec i i); congruence].
  intros k Ak Hk. wcbn. unfold upd in Ak. destruct (Nat.eq_dec k i) as [->|N]; [discriminate|]. rewrite A2 in Ak. rewrite H2 in Hk. destruct (P2 (k, false)) as (-> & ->); [congruence|congruence|]. auto.
Qed.
Lemma copy2_ok tm i j w : Inv tm none w -> ptr w (i, true) = None -> ptr w (i, false) = None -> i <> j -> alive w i = true ->
  (forall b, lent_m w (i, b) = lent_m w (j, b) /\ lent_a w (i, b) = lent_a w (j, b)) ->
  exists w1 w2, copy_slot (i, true) (j, true) w = Ok w1 /\ copy_slot (i, false) (j, false) w1 = Ok w2 /\ Inv tm none w2 /\ alive w2 = alive w /\ hasC w2 = hasC w /\
  (forall k, k <> i -> ptr w2 (k, false) = ptr w (k, false) /\ flg w2 (k, false) = flg w (k, false)) /\
  flg w2 (i, false) = flg w (j, false) /\ (ptr w (j, false) <> None -> ptr w2 (i, false) <> None).
Proof.
  intros I P1 P2 N Al L. destruct (copy_ok tm (i, true) (j, true) w I P1 ltac:(congruence) Al (proj1 (L true)) (proj2 (L true))) as (w1 & E1 & I1 & F1 & _ & _).
  destruct (copy_ok tm (i, false) (j, false) w1 I1) as (w2 & E2 & I2 & F2 & G2 & Q2).
  - rewrite (f_ptr _ _ _ F1); congruence.
  - congruence.
  - cbn [fst]. al.
  - rewrite (f_lm _ _ _ F1). apply L.
  - rewrite (f_la _ _ _ F1). apply L.
  - exists w1, w2. split; [exact E1|]. split; [exact E2|]. split; [exact I2|]. split; [rewrite (f_alive _ _ _ F2); apply (f_alive _ _ _ F1)|]. split; [rewrite (f_hasC _ _ _ F2); apply (f_hasC _ _ _ F1)|].
    split.
    + intros k Nk. rewrite (f_ptr _ _ _ F2), (f_flg _ _ _ F2), (f_ptr _ _ _ F1), (f_flg _ _ _ F1) by congruence. auto.
    + rewrite (f_flg _ _ _ F1) in G2 by congruence. rewrite (f_ptr _ _ _ F1) in Q2 by congruence. auto.
Qed.
Lemma NC_copy i j w w2 : NC w -> alive w j = true -> (forall k, k <> i -> alive w2 k = alive w k) -> (forall k, k <> i -> hasC w2 k = hasC w k) -> hasC w2 i = hasC w j ->
  (forall k, k <> i -> ptr w2 (k, false) = ptr w (k, false) /\ flg w2 (k, false) = flg w (k, false)) ->
  flg w2 (i, false) = flg w (j, false) -> (ptr w (j, false) <> None -> ptr w2 (i, false) <> None) -> NC w2.
Proof.
  intros C Aj A H Hi P F Q k Ak Hk. destruct (Nat.eq_dec k i) as [->|N].
  - rewrite Hi in Hk. destruct (C j Aj Hk) as (p & x & y). destruct (ptr w2 (i, false)) as [q|] eqn:E; [exists q; split; [auto|congruence]|]. elim Q; congruence.
  - rewrite A in Ak by auto. rewrite H in Hk by auto. destruct (P k N) as (-> & ->). auto.
Qed.
Lemma copy_new_step tm w i j : Good tm w -> allowed w (CopyNew i j) -> exists w', exec (CopyNew i j) w = Ok w' /\ Good tm w'.
Proof.
  intros (I & C) (Di & Aj). cbn [exec]. unfold copy_new. assert (N : i <> j) by congruence.
  pose proof (i_dead _ _ _ I i true Di) as PH. pose proof (i_dead _ _ _ I i false Di) as PA.
  pose proof (lend_as_ok _ _ _ i true j true I PH ltac:(congruence)) as I1.
  pose proof (lend_as_ok _ _ _ i false j false I1 PA ltac:(cbn; congruence)) as I2.
  set (u := lend_as (i, false) (j, false) (lend_as (i, true) (j, true) w)) in *.
  assert (Lu : forall b, lent_m u (i, b) = lent_m u (j, b) /\ lent_a u (i, b) = lent_a u (j, b)).
  { intros b. unfold u, lend_as. wcbn. unfold upds. destruct b; repeat (match goal with |- context [slot_dec ?x ?y] => destruct (slot_dec x y); try congruence end); auto. }
  pose proof (hole_inv _ _ _ (i, true) I2 (or_introl PH)) as I3.
  pose proof (hole_inv _ _ _ (i, false) I3 ltac:(left; unfold u, lend_as; wcbn; cases; congruence)) as I4.
  assert (Au : alive u = alive w) by reflexivity.
  assert (I5 : Inv tm none (set_alive (upd (alive (put (i, false) None false (put (i, true) None false u))) i true) (put (i, false) None false (put (i, true) None false u)))).
  { apply alive_ok; [exact I4| |].
    - intros b p. change (lent_m u (i, b) p = true -> cmat u p = true /\ exists m, mats u p = Some m /\ lent_a u (i, b) (mo_arr m) = true). destruct (Lu b) as (-> & ->). apply (i_lm _ _ _ I2). congruence.
    - intros b p. change (lent_a u (i, b) p = true -> arrs u p = true /\ ~ none p /\ (forall q m, mats u q = Some m -> mo_owns m = true -> mo_arr m = p -> cmat u q = true)). destruct (Lu b) as (_ & ->). apply (i_la _ _ _ I2). congruence. }
  pose proof (Inv_hasC _ _ _ (upd (hasC w) i (hasC w j)) I5) as I6.
  match goal with |- context [copy_slot (i, true) (j, true) ?x] => set (v := x) end.
  match type of I6 with Inv _ _ ?x => change x with v in I6 end.
  assert (Lv : forall b, lent_m v (i, b) = lent_m v (j, b) /\ lent_a v (i, b) = lent_a v (j, b)) by exact Lu.
  assert (Av : alive v = upd (alive w) i true) by reflexivity. assert (Hv : hasC v = upd (hasC w) i (hasC w j)) by reflexivity.
  assert (Pv : forall b, ptr v (i, b) = None) by (intros [|]; unfold v, lend_as; wcbn; cases; congruence).
  assert (Qv : forall k, k <> i -> ptr v (k, false) = ptr w (k, false) /\ flg v (k, false) = flg w (k, false)) by (intros k Nk; unfold v, lend_as; wcbn; split; cases; congruence).
  clearbody v. clear I5 I4 I3 I2 I1.
  destruct (copy2_ok tm i j v I6 (Pv true) (Pv false) N) as (w1 & w2 & -> & E2 & G2 & A2 & H2 & P2 & F2 & Q2); [rewrite Av; unfold upd; destruct (Nat.eq_dec i i); congruence|exact Lv|].
  cbn [bind]. exists w2. split; [exact E2|]. split; [exact G2|]. destruct (Qv j ltac:(congruence)) as (X1 & X2). eapply (NC_copy i j w); auto.
  - intros k Nk. rewrite A2, Av. unfold upd. destruct (Nat.eq_dec k i); congruence.
  - intros k Nk. rewrite H2, Hv. unfold upd. destruct (Nat.eq_dec k i); congruence.
  - rewrite H2, Hv. unfold upd. destruct (Nat.eq_dec i i); congruence.
  - intros k Nk. destruct (P2 k Nk) as (-> & ->). auto.
  - congruence.
  - rewrite <- X1. exact Q2.
Qed.
Lemma copy_frame s t w w' u : copy_slot s t w = Ok w' -> u <> s -> ptr w' u = ptr w u /\ flg w' u = flg w u.
Proof.
  intros E N. revert E. unfold copy_slot, dup_mat. destruct (flg w t); [destruct (ptr w t) as [p|]; [|discriminate]|].
  - destruct (mats w p) as [m|]; [|discriminate]. destruct (mo_owns m || negb (mo_dense m)); [destruct (arrs w (mo_arr m)); [|discriminate]|]; unfold new_arr, new_mat; cbn [bind]; intros [= <-]; wcbn; split; cases; congruence.
  - intros [= <-]. wcbn. split; cases; congruence.
Qed.
Lemma release_noop s w : ptr w s = None \/ flg w s = false -> release s w = Ok w.
Proof. intros [E|E]; unfold release; rewrite E; [reflexivity|]. destruct (ptr w s); reflexivity. Qed.
Lemma assign_step tm w i j : Good tm w -> allowed w (Assign i j) -> exists w', exec (Assign i j) w = Ok w' /\ Good tm w'.
Proof.
  intros (I & C) (Ai & Aj). cbn [exec]. unfold assign. destruct (Nat.eq_dec i j) as [->|N]; [exists w; split; [reflexivity|now split]|].
  destruct (clear_ok tm w i I) as (w1 & -> & I1 & A1 & H1 & Lm1 & La1 & K1 & P1). cbn [bind].
  assert (PP : forall b, ptr (put (i, true) None false (put (i, false) None false w1)) (i, b) = None) by (intros [|]; wcbn; cases; congruence).
  set (v1 := put (i, true) None false (put (i, false) None false w1)) in *.
  pose proof (lend_as_ok _ _ _ i true j true (Inv_hasC _ _ _ (upd (hasC w1) i (hasC w1 j)) I1) (PP true) ltac:(intros _; change (alive w1 j = true); congruence)) as I2.
  pose proof (lend_as_ok _ _ _ i false j false I2 (PP false) ltac:(intros _; change (alive w1 j = true); congruence)) as I3.
  cbv zeta. match goal with |- context [copy_slot (i, true) (j, true) ?x] => set (w3 := x) end.
  match type of I3 with Inv _ _ ?x => change x with (put (i, true) None false (put (i, false) None false w3)) in I3 end.
  assert (P3 : ptr w3 = ptr w1 /\ flg w3 = flg w1) by (split; reflexivity). destruct P3 as (P3 & F3).
  assert (A3 : alive w3 = alive w1) by reflexivity. assert (H3 : hasC w3 = upd (hasC w1) i (hasC w1 j)) by reflexivity.
  assert (Lv : forall b, lent_m w3 (i, b) = lent_m w3 (j, b) /\ lent_a w3 (i, b) = lent_a w3 (j, b)).
  { intros b. unfold w3, lend_as. wcbn. unfold upds. destruct b; repeat (match goal with |- context [slot_dec ?x ?y] => destruct (slot_dec x y); try congruence end); auto. }
  clearbody w3. clear I2 I1. clear PP v1.
  destruct (copy2_ok tm i j _ I3) as (u1 & u2 & E1 & E2 & G2 & A2 & H2 & P2 & F2 & Q2).
  - wcbn. cases; congruence.
  - wcbn. cases; congruence.
  - exact N.
  - wcbn. congruence.
  - exact Lv.
  - rewrite copy_hole in E1 by congruence. rewrite copy_put in E1 by congruence. destruct (copy_slot (i, true) (j, true) w3) as [w4| |] eqn:E4; try discriminate. cbn [bind] in E1. injection E1 as <-. cbn [bind].
    destruct (copy_frame _ _ _ _ (i, false) E4 ltac:(congruence)) as (X1 & X2). rewrite release_noop by (rewrite X1, X2, P3, F3; exact K1). cbn [bind].
    rewrite copy_hole in E2 by congruence. exists u2. split; [exact E2|]. split; [exact G2|].
    assert (Z : forall k, k <> i -> ptr (put (i, true) None false (put (i, false) None false w3)) (k, false) = ptr w (k, false) /\ flg (put (i, true) None false (put (i, false) None false w3)) (k, false) = flg w (k, false)).
    { intros k Nk. destruct (P1 (k, false)) as (<- & <-); [congruence|congruence|]. rewrite <- P3, <- F3. wcbn. split; cases; congruence. }
    destruct (Z j ltac:(congruence)) as (Z1 & Z2). wcbn. eapply (NC_copy i j w); auto.
    + intros k Nk. congruence.
    + intros k Nk. rewrite H2, H3. unfold upd. destruct (Nat.eq_dec k i); congruence.
    + rewrite H2, H3. unfold upd. destruct (Nat.eq_dec i i); congruence.
    + intros k Nk. destruct (P2 k Nk) as (-> & ->). apply Z. exact Nk.
    + congruence.
    + rewrite <- Z1. exact Q2.
Qed.
(** ** Histories *)
(** the hotstart reading new matrices from files goes through, SQProblem.cpp:262-287 *)
Definition uses_files (o : op) : Prop := match o with SqFile _ noargs refused hok aok vok => stale noargs refused hok aok vok = true | _ => False end.
(** hotstart with arrays of an object without constraints, with an array for the constraint matrix *)
Definition leaks (w : world) (o : op) : Prop := match o with SqArr i refused _ A _ => refused = false /\ hasC w i = false /\ A <> None | _ => False end.
Inductive history : world -> Prop :=
| h_start : history nothing
| h_step w o w' : history w -> allowed w o -> ~ uses_files o -> exec o w = Ok w' -> history w'.
Inductive clean_history : world -> Prop :=
| c_start : clean_history nothing
| c_step w o w' : clean_history w -> allowed w o -> ~ uses_files o -> ~ leaks w o -> exec o w = Ok w' -> clean_history w'.

Lemma step_ok tm w o : Good tm w -> allowed w o -> ~ uses_files o -> exists w' tm', exec o w = Ok w' /\ Good tm' w' /\ (~ leaks w o -> tm' = tm).
Proof.
  intros G A U. assert (X : (exists w', exec o w = Ok w' /\ Good tm w') -> exists w' tm', exec o w = Ok w' /\ Good tm' w' /\ (~ leaks w o -> tm' = tm)).
  { intros (w' & E & G'). exists w', tm. auto. }
  destruct o.
  - apply X. now apply caller_array.
  - apply X. now apply caller_matrix.
  - apply X. now apply caller_free_array.
  - apply X. now apply caller_free_matrix.
  - apply X. now apply create_step.
  - apply X. now apply copy_new_step.
  - apply X. now apply assign_step.
  - destruct (destroy_step tm w i G A) as (w' & E & G' & _). exists w', tm. auto.
  - apply X. now apply init_mat_step.
  - apply X. now apply init_arr_step.
  - apply X. now apply init_file_step.
  - apply X. exists w. split; [apply (read_obj_ok _ _ _ _ (proj1 G))|exact G].
  - apply X. now apply sq_mat_step.
  - destruct (sq_arr_step tm w i refused H A0 ok G A) as (w' & tm' & E & G' & L). exists w', tm'. split; [exact E|]. split; [exact G'|]. intros NL. destruct L as [L|L]; [exact L|]. now elim NL.
  - apply X. apply sq_file_step; [|exact G]. cbn [uses_files] in U. destruct (stale _ _ _ _ _); [now elim U|reflexivity].
Qed.
Lemma history_good w : history w -> exists tm, Good tm w.
Proof.
  induction 1 as [|w o w' _ (tm & G) A U E]; [exists none; split; [apply Inv0|intros i Ai; discriminate]|].
  destruct (step_ok tm w o G A U) as (w1 & tm' & E1 & G1 & _). rewrite E in E1. injection E1 as <-. eauto.
Qed.
Lemma clean_good w : clean_history w -> Good none w.
Proof.
  induction 1 as [|w o w' _ G A U L E]; [split; [apply Inv0|intros i Ai; discriminate]|].
  destruct (step_ok none w o G A U) as (w1 & tm' & E1 & G1 & T). rewrite E in E1. injection E1 as <-. rewrite (T L) in G1. exact G1.
Qed.

(** C53.  If the caller keeps what the objects still refer to, then no call of the
    library, whether it ends well or fails, reads freed memory or frees memory twice;
    afterwards the matrix objects H and A of every object and their arrays are
    allocated, and so is every array the caller has to free.  The exception is the
    hotstart that reads new matrices from files. *)
Theorem C53_no_freed_data w o : history w -> allowed w o -> ~ uses_files o ->
  exists w', exec o w = Ok w' /\
  (forall i b p, ptr w' (i, b) = Some p -> exists m, mats w' p = Some m /\ arrs w' (mo_arr m) = true) /\
  (forall a, carr w' a = true -> arrs w' a = true).
Proof.
  intros Hh A U. destruct (history_good w Hh) as (tm & G). destruct (step_ok tm w o G A U) as (w' & tm' & E & (I & _) & _). exists w'. split; [exact E|].
  split; [intros i b p P; exact (live_ptr _ _ _ _ _ I P)|exact (i_carr _ _ _ I)].
Qed.
Definition run (l : list op) (w : world) : res world := fold_left (fun r o => w <- r ;; exec o w) l (Ok w).
Fixpoint permitted (l : list op) (w : world) : Prop :=
  match l with [] => True | o :: l => allowed w o /\ match exec o w with Ok w' => permitted l w' | _ => False end end.
Lemma run_history l : forall w, history w -> Forall (fun o => ~ uses_files o) l -> permitted l w -> exists w', run l w = Ok w' /\ history w'.
Proof.
  induction l as [|o l IH]; intros w Hw Fl R; [exists w; auto|]. destruct R as (A & R). destruct (exec o w) as [w1| |] eqn:E; try contradiction. inversion Fl; subst.
  destruct (IH w1) as (w2 & E2 & H2'); [eapply h_step; eauto|assumption|exact R|]. exists w2. split; [|exact H2']. unfold run in *. cbn [fold_left bind]. rewrite E. exact E2.
Qed.
(** the data of init, a copy, a hotstart with new arrays and the end of both objects *)
Definition ex_calls : list op :=
  [CallerArray; CallerArray; Create 0 true; InitArr 0 false false (Some 0) true (Some 1) true; CopyNew 1 0; Use 1; CallerArray; CallerArray;
   SqArr 0 false (Some 6) (Some 7) true; Destroy 1; CallerFreeArray 0; CallerFreeArray 1; Use 0; InitFile 0 false false (Some true) true true (Some true); Assign 0 0; Destroy 0].
Lemma ex_permitted : permitted ex_calls nothing.
Proof. unfold ex_calls. vm_compute. intuition (try congruence). all: destruct x as [|[|x]], x0; try discriminate; reflexivity. Qed.
Example C53_ex : exists w, run ex_calls nothing = Ok w /\ history w.
Proof. apply run_history; [apply h_start|unfold ex_calls; repeat constructor; intros []|apply ex_permitted]. Qed.

(** After init and one hotstart with files the object refers to freed arrays: the
    next call of any kind reads them. *)
Theorem C53_file_hotstart_refuted : exists w w', history w /\ allowed w (SqFile 0 false false true true true) /\
  exec (SqFile 0 false false true true true) w = Ok w' /\
  (exists p m, ptr w' (0, true) = Some p /\ mats w' p = Some m /\ arrs w' (mo_arr m) = false) /\
  allowed w' (Use 0) /\ exec (Use 0) w' = UB.
Proof.
  set (l := [Create 0 true; InitFile 0 false false (Some true) true true (Some true)]).
  destruct (run_history l nothing h_start) as (w & E & H).
  - repeat constructor; intros [].
  - unfold l. vm_compute. auto.
  - assert (R : match run l nothing with Ok w => allowed w (SqFile 0 false false true true true) /\ match exec (SqFile 0 false false true true true) w with
      Ok w' => (exists p m, ptr w' (0, true) = Some p /\ mats w' p = Some m /\ arrs w' (mo_arr m) = false) /\ allowed w' (Use 0) /\ exec (Use 0) w' = UB | _ => False end | _ => False end).
    { vm_compute. split; [reflexivity|]. split; [|auto]. eexists _, _. split; [reflexivity|]. split; reflexivity. }
    rewrite E in R. destruct R as (A & R). exists w. destruct (exec _ w) as [w'| |] eqn:E3; try contradiction. exists w'. auto.
Qed.

(** C64.  Once all objects are destroyed, the caller owns everything that is still
    allocated. *)
Theorem C64_nothing_left w : clean_history w -> (forall i, alive w i = false) ->
  (forall p m, mats w p = Some m -> cmat w p = true) /\
  (forall a, arrs w a = true -> carr w a = true \/ exists p m, mats w p = Some m /\ cmat w p = true /\ mo_owns m = true /\ mo_arr m = a).
Proof.
  intros Hh D. destruct (clean_good w Hh) as (I & _).
  assert (L : forall p m, mats w p = Some m -> cmat w p = true).
  { intros p m M. destruct (cmat w p) eqn:C; [reflexivity|]. destruct (i_lmat _ _ _ I _ _ M C) as [[]|([i b] & P & _)]. rewrite (i_dead _ _ _ I i b (D i)) in P. discriminate. }
  split; [exact L|]. intros a A. destruct (carr w a) eqn:C; [auto|]. right. destruct (i_larr _ _ _ I _ A C) as [[]|(p & m & M & O & E)]. exists p, m. eauto.
Qed.
(** With arrays for H and A an object without constraints loses the matrix object
    made for A. *)
Theorem C64_wrapper_refuted : exists w, history w /\ (forall i, alive w i = false) /\ exists p m, mats w p = Some m /\ cmat w p = false.
Proof.
  set (l := [CallerArray; CallerArray; Create 0 false; InitArr 0 false false (Some 0) true None true; SqArr 0 false (Some 0) (Some 1) true; Destroy 0]).
  destruct (run_history l nothing h_start) as (w & E & H).
  - unfold l. repeat constructor; intros [].
  - unfold l. vm_compute. intuition (try congruence).
  - exists w. split; [exact H|]. assert (R : match run l nothing with Ok w => (forall i, alive w i = false) /\ exists p m, mats w p = Some m /\ cmat w p = false | _ => False end).
    { vm_compute. split; [intros [|i]; reflexivity|]. exists 5. eexists. split; reflexivity. }
    now rewrite E in R.
Qed.
Fixpoint no_leaks (l : list op) (w : world) : Prop :=
  match l with [] => True | o :: l => ~ leaks w o /\ match exec o w with Ok w' => no_leaks l w' | _ => False end end.
Lemma run_clean l : forall w, clean_history w -> Forall (fun o => ~ uses_files o) l -> permitted l w -> no_leaks l w -> exists w', run l w = Ok w' /\ clean_history w'.
Proof.
  induction l as [|o l IH]; intros w Hw Fl R L; [exists w; auto|]. destruct R as (A & R). destruct L as (NL & L). destruct (exec o w) as [w1| |] eqn:E; try contradiction. inversion Fl; subst.
  destruct (IH w1) as (w2 & E2 & H2'); [eapply c_step; eauto|assumption|exact R|exact L|]. exists w2. split; [|exact H2']. unfold run in *. cbn [fold_left bind]. rewrite E. exact E2.
Qed.
Example C64_ex : exists w, run ex_calls nothing = Ok w /\ clean_history w /\ (forall i, alive w i = false) /\ mats w 4 = None /\ arrs w 6 = true.
Proof.
  destruct (run_clean ex_calls nothing c_start) as (w & E & H).
  - unfold ex_calls. repeat constructor; intros [].
  - apply ex_permitted.
  - unfold ex_calls. vm_compute. intuition (try congruence).
  - exists w. split; [exact E|]. split; [exact H|]. assert (R : match run ex_calls nothing with Ok w => (forall i, alive w i = false) /\ mats w 4 = None /\ arrs w 6 = true | _ => False end).
    { vm_compute. split; [intros [|[|i]]; reflexivity|auto]. }
    now rewrite E in R.
Qed.
