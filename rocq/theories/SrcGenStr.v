(** generateStringCode of generator.go. *)
From Verif Require Import Base GoFloat GoValue Maybe Formats Constraint StructInfo Validate Builder GoText GoLang Generator SrcSyntax SrcText SrcTextG SrcProg SrcGen SrcProgG SrcStepG SrcGenFun SrcGenEnum.
Open Scope string_scope.
Open Scope list_scope.
Open Scope Z_scope.

Section Gen.
Variable G : genv.
Variable cm : string.
Variables refs refnames : qv.
Notation ctx := (ctxv cm refs refnames).
Notation call := (qcall (prog_g G)).

Ltac tail_ d :=
  rewrite has_default; qsteps; destruct d as [g|]; [|qsteps; done_];
  rewrite default_value;
  destruct g as [|T b|T ki z|T ku z|T is32 f|T x0| | | | | | |T ko isn id];
  try (qsteps; eapply gives_err; reflexivity);
  [destruct is32; (qsteps; eapply gives_err; reflexivity)|];
  change (String.eqb T "string") with (qsame T "string");
  let E := fresh in destruct (qsame T "string") eqn:E; qsteps; rewrite ?E; qsteps; rewrite ?E; qsteps;
  [done_|eapply gives_err; reflexivity].
Ltac called_enum :=
  match goal with |- context [qcall (prog_g ?G) (S (S ?k)) "generateEnumCode" [QRec [("cmname", QStr ?cm); _; ("refs", ?rs); ("refnames", ?rn); _]; _; QEnum ?l] (mk ?e0 (bufput ?a ?t0 ?B) ?v ?w)] =>
    let Ha := match goal with H : (a < _)%nat |- _ => H end in pose proof (gen_enum G cm rs rn k a t0 B e0 v w l Ha) as He; unfold ctxv in He
  end.
Lemma gen_str k a t B e v w d c : (a < List.length B)%nat ->
  gives (call (S (S (S k))) "generateStringCode" [ctx; QBuf a; QC (CStr d c)] (mk e (bufput a t B) v w)) (string_code G d c w) a t B e v.
Proof.
  begin_. cond_write (-1 <? s_max c). cond_write (0 <? s_min c). cond_write (negb (qsame (s_fmt c) "")).
  unfold string_code. change (String.eqb (s_fmt c) "") with (qsame (s_fmt c) "").
  destruct (s_rx c) as [rx|]; qsteps.
  all: destruct (s_enum c) as [l|]; qsteps.
  2, 4: tail_ d.
  all: called_enum; unfold gbind at 1 2; destruct (enum_code G l w) as [[x w1]|m|m]; cbn [gives] in He;
    [|destruct He as (m' & t' & w' & He & Hs); rewrite He; qsteps; eapply gives_err; [reflexivity|exact Hs]
     |destruct He as (m' & He); rewrite He; qsteps; eapply gives_panic; reflexivity].
  all: rewrite He; clear He; qsteps; tail_ d.
Qed.
End Gen.
