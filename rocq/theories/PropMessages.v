(** Properties C12, C15 and C61: message handler and simple status. *)
From Verif Require Import Base Types Messages.

(** ** Specification *)

(** What a call reports: the code that is returned and the kind it is printed
    under.  Non-error codes are replaced by the matching "undefined" error. *)
Definition reported (k : msgKind) (r : returnValue) : msgKind * returnValue :=
  match k with
  | KError => match r with TERMINAL_LIST_ELEMENT | SUCCESSFUL_RETURN => (KError, RET_ERROR_UNDEFINED) | _ => (KError, r) end
  | KWarning => match r with TERMINAL_LIST_ELEMENT | SUCCESSFUL_RETURN => (KError, RET_WARNING_UNDEFINED) | _ => (KWarning, r) end
  | KInfo => match r with TERMINAL_LIST_ELEMENT => (KError, RET_INFO_UNDEFINED) | _ => (KInfo, r) end
  end.

Definition throw (k : msgKind) : returnValue -> VisibilityStatus -> mh -> res (returnValue * mh) :=
  match k with KError => throwError | KWarning => throwWarning | KInfo => throwInfo end.

Definition setting (k : msgKind) (s : mh) : VisibilityStatus :=
  match k with KError => mh_err s | KWarning => mh_warn s | KInfo => mh_info s end.

(** The only globally hidden message is RET_AVAILABLE_WITH_LINUX_ONLY. *)
Definition printed (k : msgKind) (r : returnValue) (loc : VisibilityStatus) (s : mh) : bool :=
  let '(k', r') := reported k r in
  let substituted := negb (rv_eqb r r') in
  visible (setting k' s) && (substituted || visible loc) && negb (rv_eqb r' RET_AVAILABLE_WITH_LINUX_ONLY).

Definition handler_after (k : msgKind) (r : returnValue) (loc : VisibilityStatus) (s : mh) : mh :=
  if printed k r loc s then
    mkMh (mh_err s) (mh_warn s) (mh_info s)
      (match fst (reported k r) with KError => Z.max 0 (mh_cnt s) + 1 | _ => 0 end)
      (reported k r :: mh_log s)
  else s.

(** ** Lookups *)

Lemma whitespaces_range c : 0 <= whitespaces c <= 40.
Proof.
  unfold whitespaces. cbv zeta. set (n := (c - 1) * 2).
  destruct (Z.ltb_spec n 0); cbv iota.
  - cbn. lia.
  - destruct (Z.ltb_spec 40 n); cbv iota.
    + cbn. lia.
    + destruct (Z.leb_spec 160 n); lia.
Qed.

(** Every enumerator other than the terminal element is found, at the position
    given by its code. *)
Lemma find_key_code r : r <> TERMINAL_LIST_ELEMENT ->
  find_key r = Ok (rv_code r) /\
  rd returnValueList (rv_code r) =
    Ok (r, if rv_eqb r RET_AVAILABLE_WITH_LINUX_ONLY then VS_HIDDEN else VS_VISIBLE).
Proof. intros H. destruct r; try (now contradiction H); split; vm_compute; reflexivity. Qed.

Lemma throwMessage_spec f r loc k s : r <> TERMINAL_LIST_ELEMENT ->
  throwMessage_b f r loc k s =
    Ok (r, if visible loc && negb (rv_eqb r RET_AVAILABLE_WITH_LINUX_ONLY)
           then mkMh (mh_err s) (mh_warn s) (mh_info s)
                  (match k with KError => Z.max 0 (mh_cnt s) + 1 | _ => 0 end) ((k, r) :: mh_log s)
           else s).
Proof.
  intros H. unfold throwMessage_b.
  rewrite wr_ok by (rewrite zlen_repeat; pose proof (whitespaces_range (mh_cnt s)); lia). cbn [bind].
  destruct (find_key_code r H) as [E1 E2]. rewrite E1. cbn [bind]. rewrite E2. cbn [bind fst snd].
  replace (rv_eqb r TERMINAL_LIST_ELEMENT) with false by (symmetry; now apply rv_eqb_neq).
  destruct (rv_eqb r RET_AVAILABLE_WITH_LINUX_ONLY), loc; cbn [visible negb andb]; try reflexivity.
  destruct (Z.ltb_spec (mh_cnt s) 0) as [Hc|Hc];
    [rewrite (Z.max_l 0 (mh_cnt s)) by lia|rewrite (Z.max_r 0 (mh_cnt s)) by lia]; destruct k; reflexivity.
Qed.

(** ** C12 *)

Theorem C12_report_preserves_code : forall k r loc s,
  throw k r loc s = Ok (snd (reported k r), handler_after k r loc s).
Proof.
  intros k r loc s. destruct s as [ve vw vi c lg].
  assert (E : forall loc r, r <> TERMINAL_LIST_ELEMENT -> r <> SUCCESSFUL_RETURN -> forall n,
    throwError_n (S n) r loc (mkMh ve vw vi c lg) = Ok (r,
      if visible ve && visible loc && negb (rv_eqb r RET_AVAILABLE_WITH_LINUX_ONLY)
      then mkMh ve vw vi (Z.max 0 c + 1) ((KError, r) :: lg) else mkMh ve vw vi c lg)).
  { clear. intros loc r H0 H1 n. cbn [throwError_n].
    replace (rv_code r <=? rv_code SUCCESSFUL_RETURN) with false
      by (destruct r; try reflexivity; now contradiction H0 || contradiction H1).
    cbn [mh_err]. destruct ve; cbn [visible andb]; [reflexivity|].
    rewrite throwMessage_spec by assumption. reflexivity. }
  destruct (rv_eq_dec r TERMINAL_LIST_ELEMENT) as [->|H0]; [|destruct (rv_eq_dec r SUCCESSFUL_RETURN) as [->|H1]].
  - assert (X : throw k TERMINAL_LIST_ELEMENT loc (mkMh ve vw vi c lg) =
      throwError_n (match k with KError => 9 | _ => 10 end) (snd (reported k TERMINAL_LIST_ELEMENT)) VS_VISIBLE (mkMh ve vw vi c lg))
      by (destruct k; reflexivity).
    rewrite X. destruct k; cbn [reported snd]; (rewrite E by discriminate); destruct ve; reflexivity.
  - destruct k.
    1,2: match goal with |- throw ?k SUCCESSFUL_RETURN _ ?s = _ =>
      change (throw k SUCCESSFUL_RETURN loc s) with
        (throwError_n (match k with KError => 9 | _ => 10 end) (snd (reported k SUCCESSFUL_RETURN)) VS_VISIBLE s) end;
      cbn [reported snd]; (rewrite E by discriminate); destruct ve; reflexivity.
    cbn [throw]. unfold throwInfo.
    change (rv_code SUCCESSFUL_RETURN <? rv_code SUCCESSFUL_RETURN) with false. cbv iota.
    unfold handler_after, printed. cbn [reported setting mh_info fst snd].
    destruct vi; cbn [visible andb]; [reflexivity|]. unfold throwMessage.
    rewrite throwMessage_spec by assumption.
    change (rv_eqb SUCCESSFUL_RETURN SUCCESSFUL_RETURN) with true. reflexivity.
  - assert (L : rv_code r <=? rv_code SUCCESSFUL_RETURN = false)
      by (destruct r; try reflexivity; now contradiction H0 || contradiction H1).
    assert (L' : rv_code r <? rv_code SUCCESSFUL_RETURN = false)
      by (destruct r; try reflexivity; now contradiction H0 || contradiction H1).
    assert (Rp : reported k r = (k, r)) by (destruct k, r; try reflexivity; now contradiction H0 || contradiction H1).
    assert (Q : rv_eqb r r = true) by now apply rv_eqb_eq.
    unfold handler_after, printed. rewrite Rp, Q. cbn [fst snd negb orb].
    destruct k; cbn [throw setting mh_err mh_warn mh_info].
    + unfold throwError. rewrite E by assumption. reflexivity.
    + unfold throwWarning. rewrite L. cbn [mh_warn]. destruct vw; cbn [visible andb]; [reflexivity|].
      unfold throwMessage. rewrite throwMessage_spec by assumption. reflexivity.
    + unfold throwInfo. rewrite L'. cbn [mh_info]. destruct vi; cbn [visible andb]; [reflexivity|].
      unfold throwMessage. rewrite throwMessage_spec by assumption. reflexivity.
Qed.

(** The macros return exactly the code they are given, for every code that is an
    error (or, for THROWINFO, not below SUCCESSFUL_RETURN). *)
Corollary C12_macros : forall r s, r <> TERMINAL_LIST_ELEMENT ->
  wp (THROWINFO r s) (fun p => fst p = r) /\
  (r <> SUCCESSFUL_RETURN ->
   wp (THROWERROR r s) (fun p => fst p = r) /\ wp (THROWWARNING r s) (fun p => fst p = r)).
Proof.
  intros r s H0. unfold THROWINFO, THROWERROR, THROWWARNING.
  pose proof (C12_report_preserves_code KInfo r VS_VISIBLE s) as Hi.
  pose proof (C12_report_preserves_code KError r VS_VISIBLE s) as He.
  pose proof (C12_report_preserves_code KWarning r VS_VISIBLE s) as Hw.
  cbn [throw] in *. rewrite Hi, He, Hw. cbn [wp fst].
  split; [|intros H1; split]; destruct r; try reflexivity; now contradiction H0 || contradiction H1.
Qed.

(** ** C61: nesting depth *)

(** Calls a program can make on the handler between two resets of the counter. *)
Inductive mhop := OThrow (k : msgKind) (r : returnValue) (loc : VisibilityStatus) | OVis (k : msgKind) (v : VisibilityStatus).
Definition mhstep (o : mhop) (s : mh) : res mh :=
  match o with
  | OThrow k r loc => p <- throw k r loc s ;; Ok (snd p)
  | OVis KError v => Ok (set_mh_err v s)
  | OVis KWarning v => Ok (set_mh_warn v s)
  | OVis KInfo v => Ok (set_mh_info v s)
  end.
Fixpoint mhrun (l : list mhop) (s : mh) : res mh :=
  match l with [] => Ok s | o :: l' => s' <- mhstep o s ;; mhrun l' s' end.

(** Errors printed since the last printed warning or info. *)
Fixpoint trailing_errors (log : list (msgKind * returnValue)) : Z :=
  match log with (KError, _) :: l => 1 + trailing_errors l | _ => 0 end.

Lemma trailing_nonneg l : 0 <= trailing_errors l.
Proof. induction l as [|[[] r] l IH]; cbn [trailing_errors]; lia. Qed.

Theorem C61_error_nesting : forall ops e w i,
  wp (mhrun ops (mkMh e w i 0 [])) (fun s => mh_cnt s = trailing_errors (mh_log s)).
Proof.
  assert (G : forall ops s, mh_cnt s = trailing_errors (mh_log s) ->
    wp (mhrun ops s) (fun s => mh_cnt s = trailing_errors (mh_log s))).
  { induction ops as [|o ops IH]; intros s H; [exact H|]. cbn [mhrun]. apply wp_bind.
    assert (S1 : wp (mhstep o s) (fun s => mh_cnt s = trailing_errors (mh_log s))).
    { destruct o as [k r loc|[] v]; try exact H. cbn [mhstep]. rewrite C12_report_preserves_code.
      cbn [bind wp snd]. unfold handler_after. destruct (printed k r loc s); [|exact H].
      cbn [mh_cnt mh_log]. pose proof (trailing_nonneg (mh_log s)).
      destruct (reported k r) as [[] r']; cbn [fst trailing_errors]; lia. }
    eapply wp_mono; [exact S1|]. intros a Ha. now apply IH. }
  intros. apply G. reflexivity.
Qed.

Example C61_example : mhrun [OThrow KError RET_INIT_FAILED VS_VISIBLE; OThrow KError RET_QP_NOT_SOLVED VS_VISIBLE]
  (mkMh VS_VISIBLE VS_HIDDEN VS_HIDDEN 0 []) =
  Ok (mkMh VS_VISIBLE VS_HIDDEN VS_HIDDEN 2 [(KError, RET_QP_NOT_SOLVED); (KError, RET_INIT_FAILED)]).
Proof. vm_compute. reflexivity. Qed.

(** ** C15 *)

(** Utils.hpp:155-166 and the manual: 0 solved, 1 iteration limit, -2 infeasible,
    -3 unbounded, -1 any other outcome. *)
Inductive documented : returnValue -> Z -> Prop :=
| doc_solved : documented SUCCESSFUL_RETURN 0
| doc_limit : documented RET_MAX_NWSR_REACHED 1
| doc_infeasible r : In r [RET_INIT_FAILED_INFEASIBILITY; RET_HOTSTART_STOPPED_INFEASIBILITY] -> documented r (-2)
| doc_unbounded r : In r [RET_INIT_FAILED_UNBOUNDEDNESS; RET_HOTSTART_STOPPED_UNBOUNDEDNESS] -> documented r (-3)
| doc_other r : ~ In r [SUCCESSFUL_RETURN; RET_MAX_NWSR_REACHED; RET_INIT_FAILED_INFEASIBILITY;
    RET_HOTSTART_STOPPED_INFEASIBILITY; RET_INIT_FAILED_UNBOUNDEDNESS; RET_HOTSTART_STOPPED_UNBOUNDEDNESS] -> documented r (-1).

Definition status_message (z : Z) : returnValue :=
  if z =? 1 then RET_SIMPLE_STATUS_P1 else if z =? 0 then RET_SIMPLE_STATUS_P0
  else if z =? -1 then RET_SIMPLE_STATUS_M1 else if z =? -2 then RET_SIMPLE_STATUS_M2 else RET_SIMPLE_STATUS_M3.

(** For every return value and handler: the documented number, the same
    visibility settings afterwards, and exactly the matching message printed
    when printing was requested (nothing otherwise). *)
Theorem C15_simple_status : forall r pr s,
  exists z, documented r z /\
    getSimpleStatus r pr s =
      Ok (z, if pr then mkMh (mh_err s) (mh_warn s) (mh_info s) 0 ((KInfo, status_message z) :: mh_log s) else s).
Proof.
  intros r pr [ve vw vi c lg].
  assert (T : forall q, q <> TERMINAL_LIST_ELEMENT -> q <> RET_AVAILABLE_WITH_LINUX_ONLY ->
    THROWINFO q (mkMh ve vw VS_VISIBLE (-1) lg) = Ok (q, mkMh ve vw VS_VISIBLE 0 ((KInfo, q) :: lg))).
  { intros q H0 H1. unfold THROWINFO. change throwInfo with (throw KInfo). rewrite C12_report_preserves_code.
    assert (Rp : reported KInfo q = (KInfo, q)) by (destruct q; try reflexivity; now contradiction H0).
    unfold handler_after, printed. rewrite Rp. cbn [fst snd setting mh_info visible andb].
    replace (rv_eqb q q) with true by (symmetry; now apply rv_eqb_eq).
    replace (rv_eqb q RET_AVAILABLE_WITH_LINUX_ONLY) with false by (symmetry; now apply rv_eqb_neq). reflexivity. }
  assert (G : forall z, (z = 0 \/ z = 1 \/ z = -1 \/ z = -2 \/ z = -3) ->
    match rv_of_code (rv_code RET_SIMPLE_STATUS_P0 - z) with
    | None => UB
    | Some rn => '(_, s) <- THROWINFO rn (mkMh ve vw VS_VISIBLE (-1) lg) ;; Ok (z, set_mh_info vi s)
    end = Ok (z, mkMh ve vw vi 0 ((KInfo, status_message z) :: lg))).
  { intros z [ -> | [ -> | [ -> | [ -> | -> ]]]];
      match goal with |- match ?c with _ => _ end = _ => let v := eval vm_compute in c in change c with v end;
      cbv iota; (rewrite T by discriminate); reflexivity. }
  assert (K : forall z, documented r z -> (z = 0 \/ z = 1 \/ z = -1 \/ z = -2 \/ z = -3) ->
     (let s := snd (setErrorCount (-1) (set_mh_info VS_VISIBLE (mkMh ve vw vi c lg))) in
      getSimpleStatus r pr (mkMh ve vw vi c lg) =
      if pr then match rv_of_code (rv_code RET_SIMPLE_STATUS_P0 - z) with
        | None => UB
        | Some rn => '(_, s) <- THROWINFO rn s ;; Ok (z, set_mh_info vi s) end
      else Ok (z, mkMh ve vw vi c lg)) ->
     exists z, documented r z /\ getSimpleStatus r pr (mkMh ve vw vi c lg) =
      Ok (z, if pr then mkMh ve vw vi 0 ((KInfo, status_message z) :: lg) else mkMh ve vw vi c lg)).
  { intros z D Hz E. exists z. split; [exact D|]. cbv zeta in E. rewrite E.
    destruct pr; [|reflexivity]. exact (G z Hz). }
  cbn [mh_err mh_warn mh_info mh_log].
  destruct r; unshelve refine (K _ _ _ eq_refl);
    try (now constructor; cbn; auto); try (constructor; cbn; intuition discriminate); auto 6.
Qed.

Print Assumptions C12_report_preserves_code.
Print Assumptions C12_macros.
Print Assumptions C61_error_nesting.
Print Assumptions C15_simple_status.
