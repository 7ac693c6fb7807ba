(** Running the source of the combinators, of "not" and of references gives what the model
    says, if it does for the constraints they consist of: combinations.go, basic.go,
    reference.go. *)
From Verif Require Import Base GoFloat GoValue Maybe Formats Constraint StructInfo Validate SrcSyntax SrcText SrcExec SrcProg SrcStep.
Open Scope string_scope.
Open Scope list_scope.
Open Scope Z_scope.

Section Combo.
  Variables (cx : ctx) (mrec : recT) (P : constr -> Prop) (I : gval -> Prop).
  Hypothesis Hrec : forall c v w u, P c -> I v -> agrees (cx_rec cx c v w u) (mrec c v w).
  Hypothesis Hpres : forall c v w r v' w', P c -> I v -> mrec c v w = (r, v', w') -> I v'.

  Lemma any_call k l e d w u : Forall P l -> I d ->
    ended e (call_in funcs cx (S k) "AnyConstraint.Validate" [VObj (CAny l); VIf LRoot] {| env_ := e; doc := d; ord_w := w; ord_u := u |})
      (any_loop mrec l d w).
  Proof.
    intros HP HI. open_call. steps.
    generalize (VObj (CAny l)). intro o. generalize 0. revert d w u HI. induction HP as [|c l Hc HP IH]; intros d w u HI z.
    - cbn [rounds values map indexed any_loop all_loop]. steps. ended_.
    - cbn [values map indexed]. round1. steps.
      pose proof (Hrec c d w u Hc HI) as H. cbn [any_loop]. child_agrees H; steps; try ended_. apply IH. exact (Hpres _ _ _ _ _ _ Hc HI Hm).
  Qed.

  Lemma all_call k l e d w u : Forall P l -> I d ->
    ended e (call_in funcs cx (S k) "AllConstraint.Validate" [VObj (CAll l); VIf LRoot] {| env_ := e; doc := d; ord_w := w; ord_u := u |})
      (all_loop mrec l d w).
  Proof.
    intros HP HI. open_call. steps.
    generalize (VObj (CAll l)). intro o. generalize 0. revert d w u HI. induction HP as [|c l Hc HP IH]; intros d w u HI z.
    - cbn [rounds values map indexed any_loop all_loop]. steps. ended_.
    - cbn [values map indexed]. round1. steps.
      pose proof (Hrec c d w u Hc HI) as H. cbn [all_loop]. child_agrees H; steps; try ended_. apply IH. exact (Hpres _ _ _ _ _ _ Hc HI Hm).
  Qed.

  Lemma oneof_call k l e d w u : Forall P l -> I d ->
    ended e (call_in funcs cx (S k) "OneOfConstraint.Validate" [VObj (COneOf l); VIf LRoot] {| env_ := e; doc := d; ord_w := w; ord_u := u |})
      (oneof_loop mrec l 0 d w).
  Proof.
    intros HP HI. open_call. steps.
    generalize (VObj (COneOf l)). intro o. change (VInt 0) with (VInt (Z.of_nat 0)). generalize 0%nat.
    match goal with |- context [indexed ?a ?b] =>
      set (ix := indexed a b); assert (Hix : exists z, ix = indexed z b) by (exists a; reflexivity); clearbody ix end.
    revert ix Hix d w u HI. induction HP as [|c l Hc HP IH]; intros ix (z & ->) d w u HI n.
    - cbn [rounds values map indexed]. steps. cbn [oneof_loop].
      destruct n as [|[|n]].
      + change (Z.of_nat 0 =? 0) with true. steps. ended_.
      + change (Z.of_nat 1 =? 0) with false. steps. change (1 <? Z.of_nat 1) with false. steps. ended_.
      + replace (Z.of_nat (S (S n)) =? 0) with false by (symmetry; apply Z.eqb_neq; lia). steps.
        replace (1 <? Z.of_nat (S (S n))) with true by (symmetry; apply Z.ltb_lt; lia). steps. ended_.
    - cbn [values map indexed]. round1. steps.
      pose proof (Hrec c d w u Hc HI) as H. cbn [oneof_loop]. child_agrees H; steps; try ended_.
      + replace (Z.of_nat n + 1) with (Z.of_nat (S n)) by lia. apply IH; [eexists; reflexivity|]. exact (Hpres _ _ _ _ _ _ Hc HI Hm).
      + apply IH; [eexists; reflexivity|]. exact (Hpres _ _ _ _ _ _ Hc HI Hm).
  Qed.

  Lemma not_call k c e d w u : P c -> I d ->
    ended e (call_in funcs cx (S k) "NotConstraint.Validate" [VObj (CNot c); VIf LRoot] {| env_ := e; doc := d; ord_w := w; ord_u := u |})
      (not_validate mrec c d w).
  Proof.
    intros HP HI. open_call. steps. destruct (is_cnil c) eqn:Hn; steps.
    - destruct c; try discriminate. cbn [not_validate]. ended_.
    - replace (not_validate mrec c d w) with (match mrec c d w with
        | (Pass, v', w') => (Fail "'not' validation failed", v', w')
        | (Fail _, v', w') => (Pass, v', w')
        | o => o end) by (destruct c; try discriminate; reflexivity).
      pose proof (Hrec c d w u HP HI) as H. child_agrees H; steps; ended_.
  Qed.

  Lemma resolved_call k n s :
    call_in funcs cx (S k) "ReferenceConstraint.Resolved" [VObj (CRef n)] s =
    Ok (match e_refs (cx_E cx) n with Some c => [VConstr c; VNil] | None => [VNil; VErr ("reference '" +++ n +++ "' not found")] end) s.
  Proof.
    destruct s as [e d w u]. open_call. steps. destruct (e_refs (cx_E cx) n); steps; reflexivity.
  Qed.
  Lemma ref_call k n e d w u : (forall c, e_refs (cx_E cx) n = Some c -> P c) -> I d ->
    ended e (call_in funcs cx (S (S k)) "ReferenceConstraint.Validate" [VObj (CRef n); VIf LRoot] {| env_ := e; doc := d; ord_w := w; ord_u := u |})
      match e_refs (cx_E cx) n with
      | None => (Fail ("reference '" +++ n +++ "' not found"), d, w)
      | Some c => mrec c d w
      end.
  Proof.
    intros HP HI. open_call. steps. rewrite resolved_call. destruct (e_refs (cx_E cx) n) as [c|]; steps; [|ended_].
    pose proof (Hrec c d w u (HP c eq_refl) HI) as H. child_agrees H; steps; ended_.
  Qed.

  Lemma empty_call k e d w u :
    ended e (call_in funcs cx (S k) "emptyConstraint.Validate" [VObj CEmpty; VIf LRoot] {| env_ := e; doc := d; ord_w := w; ord_u := u |})
      (Pass, d, w).
  Proof. open_call. steps. ended_. Qed.
End Combo.
