(** Running the source of HasDefault and DefaultValue gives the default of the model
    (basic.go, reference.go); JSVal.Validate (jsval.go). *)
From Verif Require Import Base GoFloat GoValue Maybe Formats Constraint StructInfo Validate SrcSyntax SrcText SrcExec SrcProg SrcStep SrcCombo.
Open Scope string_scope.
Open Scope list_scope.
Open Scope Z_scope.

Section Default.
  Variable cx : ctx.
  Lemma has_default_call k c s : default_owner c = "defaultValue" ->
    call_in funcs cx (S k) "defaultValue.HasDefault" [VObj c] s =
    Ok [VBool (match c with CBool d | CStr d _ | CNum d _ | CInt d _ => match d with Some _ => true | None => false end | _ => false end)] s.
  Proof.
    intro H. destruct s as [e d w u]. open_call. destruct c; try discriminate H; steps; reflexivity.
  Qed.
  Lemma default_value_call k c s : default_owner c = "defaultValue" ->
    call_in funcs cx (S k) "defaultValue.DefaultValue" [VObj c] s =
    Ok [match c with CBool (Some g) | CStr (Some g) _ | CNum (Some g) _ | CInt (Some g) _ => of_if g | _ => VNil end] s.
  Proof.
    intro H. destruct s as [e d w u]. open_call. destruct c; try discriminate H; steps; reflexivity.
  Qed.
  Lemma empty_has k c s : call_in funcs cx (S k) "emptyConstraint.HasDefault" [VObj c] s = Ok [VBool false] s.
  Proof. destruct s as [e d w u]. open_call. steps. reflexivity. Qed.
  Lemma null_has k c s : call_in funcs cx (S k) "nullConstraint.HasDefault" [VObj c] s = Ok [VBool false] s.
  Proof. destruct s as [e d w u]. open_call. steps. reflexivity. Qed.
  Lemma not_has k c s : call_in funcs cx (S k) "NotConstraint.HasDefault" [VObj c] s = Ok [VBool false] s.
  Proof. destruct s as [e d w u]. open_call. steps. reflexivity. Qed.
  Lemma ref_has k n s : call_in funcs cx (S (S k)) "ReferenceConstraint.HasDefault" [VObj (CRef n)] s =
    match e_refs (cx_E cx) n with
    | None => Ok [VBool false] s
    | Some c => match cx_gd cx c with
        | Some DNone => Ok [VBool false] s
        | Some (DSome _) => Ok [VBool true] s
        | Some DPanic => panic "nil Constraint" s
        | Some DOOF => Ab OOF s
        | None => Stk "HasDefault"
        end
    end.
  Proof.
    destruct s as [e d w u]. open_call. steps. rewrite resolved_call. destruct (e_refs (cx_E cx) n) as [c|]; steps; [|reflexivity].
    destruct (cx_gd cx c) as [[]|]; steps; reflexivity.
  Qed.
  Lemma ref_default k n s : call_in funcs cx (S (S k)) "ReferenceConstraint.DefaultValue" [VObj (CRef n)] s =
    match e_refs (cx_E cx) n with
    | None => Ok [VNil] s
    | Some c => match cx_gd cx c with
        | Some DNone => Ok [VNil] s
        | Some (DSome g) => Ok [of_if g] s
        | Some DPanic => panic "nil Constraint" s
        | Some DOOF => Ab OOF s
        | None => Stk "DefaultValue"
        end
    end.
  Proof.
    destruct s as [e d w u]. open_call. steps. rewrite resolved_call. destruct (e_refs (cx_E cx) n) as [c|]; steps; [|reflexivity].
    destruct (cx_gd cx c) as [[]|]; steps; reflexivity.
  Qed.
End Default.

Lemma of_if_content g d : content (LImm (valueOf g)) d = g.
Proof. destruct g; reflexivity. Qed.
Lemma src_default_model E hit order n c : src_default E hit order n c = Some (get_default n E c).
Proof.
  revert c. induction n as [|n IH]; intro c; [reflexivity|].
  cbn [src_default get_default]. set (cx := cx_of E hit order no_rec (src_default E hit order n)).
  destruct c as [| | |d|d s|d m|d m| | | | | | | |nm]; unfold run_method, depth; try reflexivity;
    try (change (method _ "HasDefault") with "emptyConstraint.HasDefault"; rewrite empty_has; reflexivity);
    try (change (method _ "HasDefault") with "nullConstraint.HasDefault"; rewrite null_has; reflexivity);
    try (change (method _ "HasDefault") with "NotConstraint.HasDefault"; rewrite not_has; reflexivity);
    try (change (method _ "HasDefault") with "defaultValue.HasDefault"; change (method _ "DefaultValue") with "defaultValue.DefaultValue";
         rewrite has_default_call, default_value_call by reflexivity;
         try (destruct d; [cbn [default_res]; unfold of_if; rewrite of_if_content|]); reflexivity).
  change (method _ "HasDefault") with "ReferenceConstraint.HasDefault". change (method _ "DefaultValue") with "ReferenceConstraint.DefaultValue".
  rewrite ref_has, ref_default. change (cx_E cx) with E. change (cx_gd cx) with (src_default E hit order n).
  destruct (e_refs E nm) as [c|]; [|reflexivity]. rewrite IH.
  destruct (get_default n E c); try reflexivity. cbn [default_res]. unfold of_if. rewrite of_if_content. reflexivity.
Qed.

(** jsval.go:22-28 *)
Definition label (name addr : string) : string := match name with EmptyString => addr | _ => name end.
Lemma jsval_call cx (mrec : recT) k name addr root e d w u :
  agrees (cx_rec cx root d w u) (mrec root d w) ->
  ended e (call_in funcs cx (S k) "JSVal.Validate" [VJSVal name addr root; VIf LRoot] {| env_ := e; doc := d; ord_w := w; ord_u := u |})
    match mrec root d w with
    | (Fail m, v', w') => (Fail ("validator " +++ label name addr +++ " failed: " +++ m), v', w')
    | o => o
    end.
Proof.
  intro H. open_call. steps. destruct name as [|c r].
  - change (slen "" =? 0) with true. steps. child_agrees H; steps; ended_.
  - replace (slen (String c r) =? 0) with false by (unfold slen; cbn [String.length]; symmetry; apply Z.eqb_neq; lia).
    steps. child_agrees H; steps; ended_.
Qed.
