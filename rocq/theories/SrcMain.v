(** Running the source of every Validate method gives the model's verdict, message,
    document and iteration choices. *)
From Verif Require Import Base GoFloat GoValue Maybe Formats Constraint StructInfo Validate Fuel ReadOnly Reach Frame SrcSyntax SrcText SrcExec SrcProg SrcStep SrcScalar SrcString SrcCombo SrcDefault SrcArray SrcAccess SrcProps SrcSet SrcPlace SrcObject SrcLoops SrcRest SrcSorted.
Open Scope string_scope.
Open Scope list_scope.
Open Scope Z_scope.

Section Main.
  Variables (E : Constraint.env) (hit : string -> bool).
  Lemma deep_child c x : Deep E canonical c -> In x (children E c) -> Deep E canonical x.
  Proof. intros HP Hx y Hy. apply HP. eapply reach_step; eauto. Qed.
  Lemma run_eq c m args cx v w u : c <> CNil -> run_method cx c m args v w u = call_in funcs cx 4 (method c m) (VObj c :: args) (start v w u).
  Proof. destruct c; [congruence|reflexivity..]. Qed.

  Theorem source_agrees n : forall c v w u, Deep E canonical c -> in_order v ->
    agrees (src_validate E hit orders n c v w u) (validate n E c v w).
  Proof.
    induction n as [|n IH]; intros c v w u Hc Hv.
    { exists OOF, u. split; reflexivity. }
    cbn [src_validate validate]. unfold src_step.
    set (cx := cx_of E hit orders (src_validate E hit orders n) (src_default E hit orders n)).
    assert (Hrec : forall c v w u, Deep E canonical c -> in_order v -> agrees (cx_rec cx c v w u) (validate n E c v w)) by exact IH.
    assert (Hpres : forall c v w r v' w', Deep E canonical c -> in_order v -> validate n E c v w = (r, v', w') -> in_order v')
      by (intros; eapply validate_in_order; eauto).
    assert (Hkids : forall l, (forall x, In x l -> In x (children E c)) -> Forall (Deep E canonical) l)
      by (intros l Hl; apply Forall_forall; intros x Hx; exact (deep_child c x Hc (Hl x Hx))).
    assert (Hres : forall r f k args, call_in funcs cx k f args (start v w u) = res_ev r (start v w u) -> agrees (error_res (call_in funcs cx k f args (start v w u))) (r, v, w)).
    { intros r f k args ->. exists r, u. split; destruct r; reflexivity || exact I. }
    assert (Hroot : content LRoot (doc (start v w u)) = v) by (destruct v; reflexivity).
    destruct c as [| | |d|d s|d m|d m|a|o|l|l|l|l|x|name].
    - exists (Panic "nil Constraint"), u. split; [reflexivity|exact I].
    - rewrite run_eq by discriminate. apply ended_agrees. apply empty_call.
    - rewrite run_eq by discriminate. apply Hres. etransitivity; [apply (null_call cx 3 LRoot)|rewrite Hroot; reflexivity].
    - rewrite run_eq by discriminate. apply Hres. etransitivity; [apply (bool_call cx 3 d LRoot)|rewrite Hroot; reflexivity].
    - rewrite run_eq by discriminate. apply Hres. etransitivity; [apply (str_call cx 2 d s LRoot)|rewrite Hroot; reflexivity].
    - rewrite run_eq by discriminate. apply Hres. etransitivity; [apply (num_call cx 2 d m LRoot)|rewrite Hroot; reflexivity].
    - rewrite run_eq by discriminate. apply Hres. etransitivity; [apply (int_call cx 1 d m LRoot)|rewrite Hroot; reflexivity].
    - rewrite run_eq by discriminate. apply ended_agrees.
      apply (array_call cx (validate n E) (Deep E canonical) in_order Hrec Hpres 3 a).
      + apply (deep_child _ _ Hc). left. reflexivity.
      + apply (deep_child _ _ Hc). right. left. reflexivity.
      + apply Hkids. intros x Hx. right. right. exact Hx.
      + intros T i l ->. exact (io_slice_elems _ _ _ Hv).
    - rewrite run_eq by discriminate. apply ended_agrees.
      assert (Hp : forall x c, In (x, c) (o_props o) -> In c (children E (CObj o)))
        by (intros k x Hin; cbn [children]; right; apply in_or_app; right; apply in_or_app; left; apply (in_map snd _ _ Hin)).
      apply (object_call cx (validate n E) (get_default n E) (Deep E canonical) in_order eq_refl Hrec Hpres).
      + intros c _. apply src_default_model.
      + intros ? ? ? ?. apply io_prop.
      + intros ? ? ? ? ?. apply io_put.
      + intros o' k c g v0 v' pv Ho Hin Hg Iv0 _ _ Hset. eapply io_set; [exact Iv0| |exact Hset].
        apply (default_in_order E c); [|exact (get_default_sound _ _ _ _ Hg)].
        apply (deep_child _ _ Ho). cbn [children]. right. apply in_or_app. right. apply in_or_app. left. apply (in_map snd _ _ Hin).
      + apply io_maybe.
      + apply io_names.
      + exact Hc.
      + intros x c Hin. exact (deep_child _ _ Hc (Hp _ _ Hin)).
      + intros p c Hin. apply (deep_child _ _ Hc). cbn [children]. right. apply in_or_app. left. apply (in_map snd _ _ Hin).
      + intros _. apply (deep_child _ _ Hc). left. reflexivity.
      + intros x c Hin. apply (deep_child _ _ Hc). cbn [children]. right. apply in_or_app. right. apply in_or_app. right. apply (in_map snd _ _ Hin).
      + exact (Hc _ (reach_refl _ _)).
      + exact Hv.
    - rewrite run_eq by discriminate. apply Hres. etransitivity; [apply (enum_call_if cx 3 l LRoot)|rewrite Hroot; reflexivity].
    - rewrite run_eq by discriminate. apply ended_agrees. apply (any_call cx (validate n E) (Deep E canonical) in_order Hrec Hpres); [apply Hkids; intros x Hx; exact Hx|exact Hv].
    - rewrite run_eq by discriminate. apply ended_agrees. apply (all_call cx (validate n E) (Deep E canonical) in_order Hrec Hpres); [apply Hkids; intros x Hx; exact Hx|exact Hv].
    - rewrite run_eq by discriminate. apply ended_agrees. apply (oneof_call cx (validate n E) (Deep E canonical) in_order Hrec Hpres); [apply Hkids; intros x Hx; exact Hx|exact Hv].
    - rewrite run_eq by discriminate. apply ended_agrees. apply (not_call cx (validate n E) (Deep E canonical) in_order Hrec); [apply (deep_child _ _ Hc); left; reflexivity|exact Hv].
    - rewrite run_eq by discriminate. apply ended_agrees. apply (ref_call cx (validate n E) (Deep E canonical) in_order Hrec); [|exact Hv].
      intros c Hn. apply (deep_child _ _ Hc). cbn [children]. change (cx_E cx) with E in Hn. rewrite Hn. left. reflexivity.
  Qed.

  (** the same for JSVal.Validate (jsval.go:22-28) *)
  Theorem source_agrees_jsval n name addr root v w u : Deep E canonical root -> in_order v ->
    agrees (error_res (call_in funcs (cx_of E hit orders (src_validate E hit orders n) (src_default E hit orders n)) 1 "JSVal.Validate" [VJSVal name addr root; VIf LRoot] (start v w u)))
      (jsval_validate n E name addr root v w).
  Proof.
    intros Hc Hv. apply ended_agrees. unfold start.
    exact (jsval_call (cx_of E hit orders (src_validate E hit orders n) (src_default E hit orders n)) (validate n E) 0 name addr root [] v w u (source_agrees n root v w u Hc Hv)).
  Qed.
End Main.

