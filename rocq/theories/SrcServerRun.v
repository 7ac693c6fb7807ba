(** The text of the handlers answers every request as the model says. *)
From Verif Require Import Base SrcSyntax SrcTextC SrcShell Server SrcServer.
Open Scope Z_scope.
Open Scope string_scope.

Lemma execs_cons {H St R : Type} (p : prims H St R) fns n e s c r k ret :
  execs p fns (S n) e s (c :: r) k ret = exec p fns n e s c (fun e s => execs p fns n e s r k ret) ret.
Proof. reflexivity. Qed.
Lemma exec_switch {H St R : Type} (p : prims H St R) fns n e s x cls k ret :
  exec p fns (S n) e s (SSwitch (Some x) cls) k ret =
  eval p fns n e s x (fun e s vs =>
    match vs with
    | [WStr t] => match pick t cls with Some b => execs p fns n ([] :: e) s b (fun e s => k (tl e) s) ret | None => p_stuck p end
    | _ => p_stuck p
    end).
Proof. reflexivity. Qed.
(** the three clauses *)
Lemma pick_three t a b x y z :
  pick t [(Some [EStr a], x); (Some [EStr b], y); (None, z)] =
  Some (if String.eqb t a then x else if String.eqb t b then y else z).
Proof.
  unfold pick. cbn [flat_map app pick_in names_tag]. rewrite !Bool.orb_false_r. rewrite app_nil_r.
  destruct (String.eqb t a); [reflexivity|]. destruct (String.eqb t b); reflexivity.
Qed.

Theorem serve_source {schema ctx validator tmpl : Type} (read : string -> outcome schema) (decode : string -> outcome ctx)
  (build : schema -> ctx -> outcome validator) (process : validator -> outcome string) (gt : outcome tmpl) (execute : tmpl -> outcome string) path input :
  src_serve read decode build process gt execute path input = Some (serve read decode build process gt execute path input).
Proof.
  set (p := prims_s read decode build process gt execute path input).
  unfold src_serve. fold p.
  match goal with |- ?l = _ => let f := eval vm_compute in (funcs_s "ServeHTTP") in change (funcs_s "ServeHTTP") with f end.
  cbn [fn_recv fn_params fn_body combine app]. rewrite execs_cons.
  match goal with |- exec ?p ?f ?n ?e ?s ?c ?k ?r = _ => 
    let t := constr:(fun K => exec p f n e s c K r) in let t' := eval lazy in t in change (exec p f n e s c k r) with (t' k) end.
  cbv beta iota. rewrite execs_cons, exec_switch.
  match goal with |- eval ?p ?f ?n ?e ?s ?c ?k = _ => 
    let t := constr:(fun K => eval p f n e s c K) in let t' := eval lazy in t in change (eval p f n e s c k) with (t' k) end.
  cbv beta iota. rewrite pick_three. unfold serve.
  destruct (String.eqb path "/"); [|destruct (String.eqb path "/generate.json")]; subst p.
  - lazy. destruct gt as [t|m|]; try reflexivity. destruct (execute t); reflexivity.
  - lazy. destruct (read input) as [sc|m|]; try reflexivity. destruct (decode input) as [c|m|]; try reflexivity.
    destruct (build sc c) as [v|m|]; try reflexivity. destruct (process v); reflexivity.
  - lazy. reflexivity.
Qed.
