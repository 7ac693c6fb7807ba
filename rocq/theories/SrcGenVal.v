(** generateValidatorCode of generator.go. *)
From Verif Require Import Base GoFloat GoValue Maybe Formats Constraint ConstrInd StructInfo Validate Builder GoText GoLang Generator SrcSyntax SrcText SrcTextG SrcProg SrcGen SrcProgG SrcStepG SrcGenFun SrcGenLoop SrcGenTree SrcGenObj SrcGenCode SrcGenAll.
Open Scope string_scope.
Open Scope list_scope.
Open Scope Z_scope.

Definition of_ref (m : list (string * constr)) : list (string * qv) := map (fun e => (fst e, QRefC (fst e) (snd e))) m.

(** a parameter does not keep the identity of a constraint *)
Lemma call_root G k x y l c e B v w : qcall (prog_g G) k "generateCode" [x; y; QRoot l c] (mk e B v w) = qcall (prog_g G) k "generateCode" [x; y; QC c] (mk e B v w).
Proof.
  destruct k; [reflexivity|].
  let b := eval lazy in (funcs_g "generateCode") in
  match b with Some ?g =>
    rewrite (qcall_unfold G k "generateCode" g [("ctx", q_base x); ("out", q_base y); ("c", QC c)] [x; y; QRoot l c] e B v w eq_refl eq_refl);
    rewrite (qcall_unfold G k "generateCode" g [("ctx", q_base x); ("out", q_base y); ("c", QC c)] [x; y; QC c] e B v w eq_refl eq_refl)
  end. reflexivity.
Qed.
Lemma call_ref G k x y n c e B v w : qcall (prog_g G) k "generateCode" [x; y; QRefC n c] (mk e B v w) = qcall (prog_g G) k "generateCode" [x; y; QC c] (mk e B v w).
Proof.
  destruct k; [reflexivity|].
  let b := eval lazy in (funcs_g "generateCode") in
  match b with Some ?g =>
    rewrite (qcall_unfold G k "generateCode" g [("ctx", q_base x); ("out", q_base y); ("c", QC c)] [x; y; QRefC n c] e B v w eq_refl eq_refl);
    rewrite (qcall_unfold G k "generateCode" g [("ctx", q_base x); ("out", q_base y); ("c", QC c)] [x; y; QC c] e B v w eq_refl eq_refl)
  end. reflexivity.
Qed.
Section Gen.
Variable G : genv.
Variable cm : string.
Variable refs : list (string * constr).
Variable rn : list (string * qv).
Variable rnames : list (string * string).
Hypothesis Hrn : forall r, In r (map fst refs) -> exists x, sget r rnames = Some x /\ sget r rn = Some (QStr x).
Notation ctx := (ctxv cm (QMap (of_ref refs)) (QMap rn)).
Notation call := (qcall (prog_g G)).
Notation gen_at := (gen_at G cm (QMap (of_ref refs)) (QMap rn)).

Definition val_body (v : validator) : gm string := fun w =>
  let head := "jsval.New()." +++ nl +++ "SetName(" +++ quote (g_print G) (v_name v) +++ ")" +++
              when (negb (String.eqb cm "")) ("." +++ nl +++ "SetConstraintMap(" +++ cm +++ ")") in
    let '(order, w1) := shuffle w (keys refs) in
    match find (fun r => mem r (v_same v)) order with
    | Some r => GOk (head +++ "." +++ nl +++ "SetRoot(" +++ match sget r rnames with Some x => x | None => "" end +++ ")", w1)
    | None => (get x <- emit G cm (v_root v);
               gret (head +++ "." +++ nl +++ "SetRoot(" +++ nl +++ x +++ "," +++ nl +++ ")" +++ nl)) w1
    end.

Lemma gen_val k a t B e v w i vd : nth_error v i = Some vd -> gen_at k (v_root vd) -> (a < List.length B)%nat ->
  gives (call (S k) "generateValidatorCode" [ctx; QBuf a; QVal i] (mk e (bufput a t B) v w)) (val_body vd w) a t B e v.
Proof.
  intros Hi. remember (of_ref refs) as mr eqn:Hmr. intro IH. begin_. rewrite Hi. qsteps. cond_write (negb (qsame cm "")).
  rewrite range_map.
  unfold val_body, keys. rewrite (shuffle_map fst).
  destruct (shuffle w refs) as [p w1] eqn:Es. cbn [fst snd].
  assert (Hs : shuffle w mr = (map (fun e => (fst e, QRefC (fst e) (snd e))) p, w1)) by (rewrite Hmr; unfold of_ref; rewrite shuffle_map, Es; reflexivity).
  rewrite Hs. cbn [fst snd].
  match goal with |- context [qrounds ?body ?kk ?vv _ (mk ?env (bufput ?a ?t0 ?B) ?vs ?w)] =>
    match env with context E [QBool false] =>
      let g := constr:(fun b : bool => ltac:(let t := context E [QBool b] in exact t)) in
      assert (L : forall p, (forall r, In r (map fst p) -> In r (map fst refs)) ->
        qrounds body kk vv (map q_entry (map (fun e => (fst e, QRefC (fst e) (snd e))) p)) (mk (g false) (bufput a t0 B) vs w) =
        match find (fun r => mem r (v_same vd)) (map fst p) with
        | Some r => QNx (mk (g true) (bufput a (t0 +++ "." +++ nl +++ "SetRoot(" +++ match sget r rnames with Some x => x | None => "" end +++ ")") B) vs w)
        | None => QNx (mk (g false) (bufput a t0 B) vs w)
        end)
    end
  end.
  { clear Es Hs p. intro p. induction p as [|[n c] p IHp]; intro Hp; [reflexivity|].
    cbn [map find fst snd]. unfold q_entry at 1. cbn [fst snd]. roundq. qsteps. rewrite Hi. qsteps.
    destruct (mem n (v_same vd)) eqn:Em; qsteps.
    - destruct (Hrn n) as (x & Hx1 & Hx2); [apply Hp; now left|]. rewrite Hx2. qsteps. rewrite Hx1. newline. same_text.
    - apply IHp. intros r Hr. apply Hp. now right. }
  rewrite (L p); clear L.
  2: { intros r Hr. apply in_map_iff in Hr as (e0 & <- & He0). apply in_map. apply (in_shuffle w). now rewrite Es. }
  destruct (find (fun r => mem r (v_same vd)) (map fst p)) as [r|]; qsteps.
  - done_w; same_text.
  - rewrite Hi. qsteps. rewrite call_root. called_code IH. done_w; same_text.
Qed.

(** generateCode of a validator *)
Lemma code_val k a t B e v w i vd : nth_error v i = Some vd -> gen_at k (v_root vd) -> (a < List.length B)%nat ->
  gives (call (S (S k)) "generateCode" [ctx; QBuf a; QVal i] (mk e (bufput a t B) v w)) (validator_code G cm rnames refs vd w) a t B e v.
Proof.
  intros Hi IH. pose proof (fun a t B e w => gen_val k a t B e v w i vd Hi IH) as Hv. remember (of_ref refs) as mr eqn:Hmr.
  change (validator_code G cm rnames refs vd) with (post (val_body vd)). begin_.
  match goal with |- context [qcall (prog_g ?G) ?k ?f ?args (mk ?e0 (?B1 ++ [""]) ?v ?w)] =>
    pose proof (Hv (List.length B1) "" (B1 ++ [""]) e0 w (buf_new B1)) as He;
    rewrite (bufput_same (List.length B1) "" (B1 ++ [""]) (bufat_new B1 "")) in He; unfold ctxv in He
  end.
  rest_code a t B He.
Qed.
End Gen.
