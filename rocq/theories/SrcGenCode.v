(** generateCode of generator.go: the text the source writes is what the model says. *)
From Verif Require Import Base GoFloat GoValue Maybe Formats Constraint ConstrInd StructInfo Validate Builder GoText GoLang Generator SrcSyntax SrcText SrcTextG SrcProg SrcGen SrcProgG SrcStepG SrcGenFun SrcGenEnum SrcGenStr SrcGenLoop SrcGenTree SrcGenObj.
Open Scope string_scope.
Open Scope list_scope.
Open Scope Z_scope.

Lemma write_old a x t B l e v w : (a < List.length B)%nat ->
  qwrite a x (mk e (bufput a t B ++ l) v w) = QOk [] (mk e (bufput a (t +++ x) B ++ l) v w).
Proof.
  intro H. rewrite <- (bufput_old a t B l H), write_put by (rewrite app_length; lia). now rewrite bufput_old.
Qed.
Lemma firstn_old {A} (B C : list A) n : n = List.length B -> firstn n (B ++ C) = B.
Proof. intros ->. now rewrite firstn_app, firstn_all, Nat.sub_diag, app_nil_r. Qed.
Lemma starts_refl m : starts m m = true.
Proof. induction m as [|c m IH]; cbn; [reflexivity|]. now rewrite Ascii.eqb_refl, IH. Qed.

(** the call that fills the buffer, and the rest of generateCode *)
Lemma buf_new B : (List.length B < List.length (B ++ [""]))%nat.
Proof. rewrite app_length. cbn. lia. Qed.
Ltac filled H :=
  match goal with |- context [qcall (prog_g ?G) ?k ?f ?args (mk ?e0 (?B1 ++ [""]) ?v ?w)] =>
    let He := fresh "He" in
    pose proof (H (List.length B1) "" (B1 ++ [""]) e0 v w (buf_new B1)) as He;
    rewrite (bufput_same (List.length B1) "" (B1 ++ [""]) (bufat_new B1 "")) in He; unfold ctxv in He
  end.
Lemma append_nil_l' x : "" +++ x = x.
Proof. reflexivity. Qed.
Ltac rest_ok a t B :=
  rewrite ?(bufput_new (bufput a t B)); rewrite ?append_nil_l'; rewrite bufat_new; qsteps;
  rewrite (write_old a _ t B _ _ _ _) by assumption; qsteps;
  rewrite firstn_old by (rewrite !bufput_length; reflexivity); unfold gives; cbn [gret]; newline; same_text.
Ltac rest_code a t B He :=
  unfold post, gbind;
  match type of He with gives _ ?m _ _ _ _ _ =>
    let x := fresh "x" in let w1 := fresh "w1" in let m1 := fresh "m1" in let m2 := fresh "m2" in
    let m' := fresh "m'" in let t' := fresh "t'" in let w' := fresh "w'" in let Hs := fresh "Hs" in
    let r := fresh "r" in let Er := fresh "Er" in
    remember m as r eqn:Er in *; clear Er;
    destruct r as [[x w1]|m1|m2]; cbn [gives] in He;
    [rewrite He; clear He; qsteps; rest_ok a t B
    |destruct He as (m' & t' & w' & He & Hs); rewrite He; clear He; qsteps;
     rewrite (bufput_new (bufput a t B)), firstn_old by reflexivity; eapply gives_err; [reflexivity|exact Hs]
    |destruct He as (m' & He); rewrite He; clear He; qsteps; eapply gives_panic; reflexivity]
  end.
Section Gen.
Variable G : genv.
Variable cm : string.
Variables refs refnames : qv.
Notation ctx := (ctxv cm refs refnames).
Notation call := (qcall (prog_g G)).
Notation gen_at := (gen_at G cm refs refnames).



Lemma code_nil k : gen_at (S k) CNil.
Proof.
  intros a t B e v w. begin_. cbn [emit]. unfold post, gbind. cbn [gret]. rest_ok a t B.
Qed.
Lemma code_enum k l : gen_at (S k) (CEnum l).
Proof.
  intros a t B e v w. begin_. cbn [emit]. unfold post, gbind. cbn [gret]. rest_ok a t B.
Qed.
Lemma code_null k : gen_at (S (S k)) CNull.
Proof.
  intros a t B e v w. begin_. filled (gen_null G cm refs refnames k).
  cbn [gives] in He. rewrite He. clear He. qsteps. cbn [emit]. unfold post, gbind. cbn [gret]. rest_ok a t B.
Qed.
Lemma code_empty k : gen_at (S (S k)) CEmpty.
Proof.
  intros a t B e v w. begin_. filled (gen_empty G cm refs refnames k).
  cbn [gives] in He. rewrite He. clear He. qsteps. cbn [emit]. unfold post, gbind. cbn [gret]. rest_ok a t B.
Qed.
Lemma code_str k d c : gen_at (S (S (S (S k)))) (CStr d c).
Proof.
  intros a t B e v w. begin_. filled (fun a t B e v w => gen_str G cm refs refnames k a t B e v w d c). cbn [emit]. rest_code a t B He.
Qed.
Lemma code_ref k n : gen_at (S (S k)) (CRef n).
Proof.
  intros a t B e v w. begin_. filled (fun a t B e v w => gen_ref G cm refs refnames k a t B e v w n). cbn [emit]. rest_code a t B He.
Qed.
Lemma code_int k d c : gen_at (S (S (S k))) (CInt d c).
Proof.
  intros a t B e v w. begin_. filled (fun a t B e v w => gen_int G cm refs refnames k a t B e v w d c). cbn [emit]. rest_code a t B He.
Qed.
Lemma code_num k d c : gen_at (S (S (S k))) (CNum d c).
Proof.
  intros a t B e v w. begin_. filled (fun a t B e v w => gen_num G cm refs refnames k a t B e v w d c). cbn [emit]. rest_code a t B He.
Qed.
Lemma code_bool k d : gen_at (S (S (S k))) (CBool d).
Proof.
  intros a t B e v w. begin_. filled (fun a t B e v w => gen_bool G cm refs refnames k a t B e v w d). cbn [emit]. rest_code a t B He.
Qed.
Lemma code_any k l : (forall x, In x l -> gen_at (S k) x) -> gen_at (S (S (S (S k)))) (CAny l).
Proof.
  intros IH a t B e v w. begin_. filled (fun a t B e v w => gen_any G cm refs refnames k a t B e v w l IH). cbn [emit]. rest_code a t B He.
Qed.
Lemma code_all k l : (forall x, In x l -> gen_at (S k) x) -> gen_at (S (S (S (S k)))) (CAll l).
Proof.
  intros IH a t B e v w. begin_. filled (fun a t B e v w => gen_all G cm refs refnames k a t B e v w l IH). cbn [emit]. rest_code a t B He.
Qed.
Lemma code_oneof k l : (forall x, In x l -> gen_at (S k) x) -> gen_at (S (S (S (S k)))) (COneOf l).
Proof.
  intros IH a t B e v w. begin_. filled (fun a t B e v w => gen_oneof G cm refs refnames k a t B e v w l IH). cbn [emit]. rest_code a t B He.
Qed.
Lemma code_not k c : gen_at k c -> gen_at (S (S k)) (CNot c).
Proof.
  intros IH a t B e v w. begin_. filled (fun a t B e v w => gen_not G cm refs refnames k a t B e v w c IH). cbn [emit]. rest_code a t B He.
Qed.
Lemma code_arr k c : gen_at k c.(a_items) -> gen_at k c.(a_add) ->
  (forall x, In x c.(a_pos) -> gen_at k x /\ forall w m, emit G cm x w <> GErr m) -> gen_at (S (S k)) (CArr c).
Proof.
  intros IH1 IH2 IH a t B e v w. begin_. filled (fun a t B e v w => gen_arr G cm refs refnames k a t B e v w c IH1 IH2 IH). cbn [emit]. rest_code a t B He.
Qed.
Lemma code_obj k o : gen_at (S k) o.(o_add) -> (forall x, In x (map snd o.(o_props)) -> gen_at (S k) x) ->
  (forall x, In x (map snd o.(o_pats)) -> gen_at (S k) x) -> gen_at (S (S (S k))) (CObj o).
Proof.
  intros IH1 IH2 IH a t B e v w. begin_. filled (fun a t B e v w => gen_obj G cm refs refnames k a t B e v w o IH1 IH2 IH). cbn [emit]. rest_code a t B He.
Qed.
End Gen.
