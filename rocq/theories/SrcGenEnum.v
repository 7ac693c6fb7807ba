(** generateEnumCode and generateStringCode of generator.go. *)
From Verif Require Import Base GoFloat GoValue Maybe Formats Constraint StructInfo Validate Builder GoText GoLang Generator SrcSyntax SrcText SrcTextG SrcProg SrcGen SrcProgG SrcStepG SrcGenFun.
Open Scope string_scope.
Open Scope list_scope.
Open Scope Z_scope.

Section Gen.
Variable G : genv.
Variable cm : string.
Variables refs refnames : qv.
Notation ctx := (ctxv cm refs refnames).
Notation call := (qcall (prog_g G)).

Lemma gen_enum k a t B e v w l : (a < List.length B)%nat ->
  gives (call (S (S k)) "generateEnumCode" [ctx; QBuf a; QEnum l] (mk e (bufput a t B) v w)) (enum_code G l w) a t B e v.
Proof.
  begin_.
  match goal with |- context [qrounds ?body ?k ?v ?es (mk ?env ?bs ?vs ?w)] =>
    set (body0 := body); set (env0 := env);
    assert (L : forall l' i t, i + Z.of_nat (List.length l') = Z.of_nat (List.length l) ->
              wrote (qrounds body0 k v (q_indexed i (map QGo l')) (mk env0 (bufput a t B) vs w)) (enum_code G l' w) a t B env0 vs)
  end.
  { induction l' as [|g r IH]; intros i t0 Hi; cbn [map q_indexed].
    { unfold wrote. cbn [enum_code gret qrounds]. now rewrite append_nil_r'. }
    assert (Hl : (i <? Z.of_nat (List.length l) - 1) = match r with [] => false | _ => true end).
    { cbn [List.length] in Hi. destruct r; cbn [List.length] in Hi; [apply Z.ltb_ge|apply Z.ltb_lt]; lia. }
    assert (tl : forall x (m : gm string), m w = GOk (x, w) -> enum_code G (g :: r) = (get x <- m; get y <- enum_code G r; gret (x +++ match r with [] => y | _ => ", " +++ y end)) ->
      wrote (qrounds body0 (Some "i") (Some "v") (q_indexed (i + 1) (map QGo r)) (mk env0 (bufput a ((t0 +++ x) +++ when (i <? Z.of_nat (List.length l) - 1) ", ") B) v w)) (enum_code G (g :: r) w) a t0 B env0 v).
    { intros x m Hm Hc. specialize (IH (i + 1) ((t0 +++ x) +++ when (i <? Z.of_nat (List.length l) - 1) ", ")).
      cbn [List.length] in Hi. specialize (IH ltac:(lia)). rewrite Hc. unfold gbind at 1. rewrite Hm. unfold gbind.
      destruct (enum_code G r w) as [[y w1]|m1|m1]; [|exact IH..].
      unfold wrote in *. cbn [gret]. rewrite IH, Hl. destruct r; cbn [when]; do 2 f_equal; texts_; reflexivity. }
    unfold body0, env0 in *. clear body0 env0. roundq.
    destruct g as [|T b|T ki z|T ku z|T is32 f|T x| | | | | | |T ko isn id];
      [| |destruct ki|destruct ku|destruct is32| | | | | | | |destruct ko]; qsteps.
    all: match goal with |- wrote (QPnS _) _ _ _ _ _ _ => eapply wrote_panic; reflexivity | |- wrote (QRt _ _) _ _ _ _ _ _ => eapply wrote_err; reflexivity | _ => idtac end.
    all: cond_write (i <? Z.of_nat (List.length l) - 1).
    all: eapply tl; [|cbn [enum_code enum_item]; reflexivity]; reflexivity. }
  specialize (L l 0 t ltac:(lia)). rewrite <- (gbind_ret (enum_code G l) w). eapply then_gives; [exact L|].
  intros x w1 _. unfold env0. qsteps. done_.
Qed.

End Gen.
