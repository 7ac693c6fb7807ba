(** Running the source of the scalar constraints without format gives what the model says:
    enum.go, number.go, bool.go, basic.go. *)
From Verif Require Import Base GoFloat GoValue Maybe Formats Constraint StructInfo Validate SrcSyntax SrcText SrcExec SrcProg SrcStep.
Open Scope string_scope.
Open Scope list_scope.
Open Scope Z_scope.

Lemma enum_call_if cx k l lx s :
  call_in funcs cx (S k) "EnumConstraint.Validate" [VObj (CEnum l); VIf lx] s = res_ev (enum_loop l (content lx (doc s))) s.
Proof.
  destruct s as [e d w u].
  open_call. steps. change (doc {| env_ := e; doc := d; ord_w := w; ord_u := u |}) with d.
  generalize (VObj (CEnum l)). intro o. generalize 0. induction l as [|a l IH]; intro z.
  - cbn [rounds values map indexed]. steps. reflexivity.
  - cbn [values map indexed]. round1. steps.
    cbn [enum_loop]. destruct (ieq a (content lx d)) as [[]|]; steps; try reflexivity.
    apply IH.
Qed.

Lemma enum_call_float cx k l f s :
  call_in funcs cx (S k) "EnumConstraint.Validate" [VObj (CEnum l); VFloat f] s = res_ev (enum_loop l (gfloat f)) s.
Proof. pass_as [VObj (CEnum l); VIf (LImm (RV false (gfloat f)))]. apply enum_call_if. Qed.
Lemma enum_call_str cx k l x s :
  call_in funcs cx (S k) "EnumConstraint.Validate" [VObj (CEnum l); VStr x] s = res_ev (enum_loop l (gstr x)) s.
Proof. pass_as [VObj (CEnum l); VIf (LImm (RV false (gstr x)))]. apply enum_call_if. Qed.

Lemma num_call cx k dv c lx s :
  call_in funcs cx (S (S k)) "NumberConstraint.Validate" [VObj (CNum dv c); VIf lx] s = res_ev (num_validate c (content lx (doc s))) s.
Proof.
  destruct s as [e d w u].
  open_call. steps.
  change (content lx (doc {| env_ := e; doc := d; ord_w := w; ord_u := u |})) with (content lx d).
  after_deref lx d (fun lr => {| env_ := [[("rv", VRv lr); ("nc", VObj (CNum dv c)); ("v", VIf lx); ("err", VNil)]]; doc := d; ord_w := w; ord_u := u |}).
  unfold num_validate. generalize dependent (deref1 (content lx d)). intros r Hr.
  destruct (float_case r) as [(T & is32 & f & ->)|(H32 & H64 & Hnf)].
  2: { steps. destruct r as [|[] []]; try reflexivity; discriminate. }
  steps. rewrite (kind_f32 T is32 f), (kind_f64 T is32 f), either_way. steps.
  generalize (rv_float is32 f). clear Hr is32 f. intro f.
  destruct c as [amin amax amul mn mx mu xmin xmax en]. unfold num_check. cbn [n_amin n_amax n_amul n_min n_max n_mul n_xmin n_xmax n_enum].
  steps.
  joined (if amin && xmin && fle f mn
    then Fail "numeric value is less than the minimum (exclusive minimum)"
    else if amin && negb xmin && flt f mn
    then Fail "numeric value is less than the minimum" else Pass).
  { destruct amin; steps; [destruct xmin; steps; [destruct (fle f mn)|destruct (flt f mn)]|]; steps; verdict. }
  destruct (amin && xmin && fle f mn); [cbn; congruence|]. destruct (amin && negb xmin && flt f mn); [cbn; congruence|].
  cbn [stmt_res]. clear s1 H0. steps.
  joined (if amax && xmax && fle mx f
    then Fail "numeric value is greater than maximum (exclusive maximum)"
    else if amax && negb xmax && flt mx f
    then Fail "numeric value is greater than maximum" else Pass).
  { destruct amax; steps; [destruct xmax; steps; [destruct (fle mx f)|destruct (flt mx f)]|]; steps; verdict. }
  destruct (amax && xmax && fle mx f); [cbn; congruence|]. destruct (amax && negb xmax && flt mx f); [cbn; congruence|].
  cbn [stmt_res]. clear s1 H0. steps.
  joined (if amul && negb (feq mu fzero) && negb (feq (fmod f mu) fzero)
    then Fail "numeric value is fails multipleOf validation" else Pass).
  { change fzero with (f64_of_Z 0).
    destruct amul; steps; [destruct (feq mu (f64_of_Z 0)) eqn:Hm; steps; [|destruct (feq (fmod f mu) (f64_of_Z 0)) eqn:Hf; steps]|]; verdict. }
  destruct (_ && _); [cbn; congruence|]. cbn [stmt_res]. clear s1 H0. steps.
  destruct en as [l|]; steps; [|reflexivity].
  rewrite enum_call_float. destruct (enum_loop l (gfloat f)); cbn [res_ev]; steps; reflexivity.
Qed.
Lemma num_call_float cx k dv c f s :
  call_in funcs cx (S (S k)) "NumberConstraint.Validate" [VObj (CNum dv c); VFloat f] s = res_ev (num_validate c (gfloat f)) s.
Proof. pass_as [VObj (CNum dv c); VIf (LImm (RV false (gfloat f)))]. apply num_call. Qed.

Lemma int_call cx k dv c lx s :
  call_in funcs cx (S (S (S k))) "IntegerConstraint.Validate" [VObj (CInt dv c); VIf lx] s = res_ev (int_validate c (content lx (doc s))) s.
Proof.
  destruct s as [e d w u].
  open_call. steps.
  change (content lx (doc {| env_ := e; doc := d; ord_w := w; ord_u := u |})) with (content lx d).
  after_deref lx d (fun lr => {| env_ := [[("rv", VRv lr); ("ic", VObj (CInt dv c)); ("v", VIf lx); ("err", VNil)]]; doc := d; ord_w := w; ord_u := u |}).
  unfold int_validate. generalize dependent (deref1 (content lx d)). intros r Hr.
  destruct r as [|[] [| |T [] z|T [] z|T [] f| | | | | | | |T [] ? ?]]; steps; 
    lazymatch goal with
    | |- Ok _ _ = _ => reflexivity
    | |- context [ffloor] => destruct (feq (ffloor _) _) eqn:Hf; steps
    | _ => idtac
    end; try rewrite Hf;
    lazymatch goal with
    | |- Ok _ _ = _ => reflexivity
    | |- context [call_in] => idtac
    end; rewrite num_call_float; cbn [negb]; destruct (num_validate _ _); cbn [res_ev]; steps; reflexivity.
Qed.

Lemma null_call cx k lx s :
  call_in funcs cx (S k) "nullConstraint.Validate" [VObj CNull; VIf lx] s = res_ev (null_validate (content lx (doc s))) s.
Proof.
  destruct s as [e d w u]. open_call. steps.
  change (content lx (doc {| env_ := e; doc := d; ord_w := w; ord_u := u |})) with (content lx d).
  destruct (content lx d) as [|T b|T []|T []|T []| |T ifc [l|]|T kk ifc ET [m|]|T a [[i x]|]| | | |T [] [] id] eqn:Hc; steps; reflexivity.
Qed.
Lemma bool_call cx k dv lx s :
  call_in funcs cx (S k) "BooleanConstraint.Validate" [VObj (CBool dv); VIf lx] s = res_ev (bool_validate (content lx (doc s))) s.
Proof.
  destruct s as [e d w u]. open_call. steps.
  change (content lx (doc {| env_ := e; doc := d; ord_w := w; ord_u := u |})) with (content lx d).
  destruct (content lx d) as [|T b|T []|T []|T []| |T ifc [l|]|T kk ifc ET [m|]|T a [[i x]|]| | | |T [] [] id] eqn:Hc; steps; reflexivity.
Qed.
