(** The functions of generator.go for combinations, negation and arrays. *)
From Verif Require Import Base GoFloat GoValue Maybe Formats Constraint StructInfo Validate Builder GoText GoLang Generator SrcSyntax SrcText SrcTextG SrcProg SrcGen SrcProgG SrcStepG SrcGenFun SrcGenLoop.
Open Scope string_scope.
Open Scope list_scope.
Open Scope Z_scope.

Section Gen.
Variable G : genv.
Variable cm : string.
Variables refs refnames : qv.
Notation ctx := (ctxv cm refs refnames).
Notation call := (qcall (prog_g G)).

(** generateCode writes what [emit] says, given enough fuel *)
Definition gen_at (k : nat) (c : constr) : Prop :=
  forall a t B e v w, (a < List.length B)%nat ->
  gives (call k "generateCode" [ctx; QBuf a; QC c] (mk e (bufput a t B) v w)) (emit G cm c w) a t B e v.
End Gen.
(** after a call of generateCode *)
Ltac called_code Hc :=
  match goal with |- context [qcall (prog_g ?G) ?k "generateCode" [QRec [("cmname", QStr ?cm); _; _; _; _]; _; QC ?c] (mk ?e0 (bufput ?a ?t0 ?B) ?v ?w)] =>
    let He := fresh "He" in
    let Ha := match goal with H : (a < _)%nat |- _ => H end in pose proof (Hc a t0 B e0 v w Ha) as He; unfold ctxv in He;
    unfold arg_line; unfold gbind; 
    let x := fresh "x" in let w1 := fresh "w1" in let m := fresh "m" in let m' := fresh "m'" in let t' := fresh "t'" in
    let w' := fresh "w'" in let Hs := fresh "Hs" in
    destruct (emit G cm c w) as [[x w1]|m|m]; cbn [gives] in He;
    [rewrite He; clear He; qsteps
    |destruct He as (m' & t' & w' & He & Hs); rewrite He; clear He; qsteps; try (first [eapply gives_err|eapply wrote_err]; [reflexivity|exact Hs])
    |destruct He as (m' & He); rewrite He; clear He; qsteps; first [eapply gives_panic|eapply wrote_panic]; reflexivity]
  end.
Ltac done_w := unfold wrote; cbn [map gret gbind]; newline; same_text.
(** "return f(..)" *)
Lemma ret_gives o r K a t t2 B e0 e v : gives o r a t B e0 v ->
  gives (q_called e (List.length (bufput a t2 B)) (qends (gain vs, s <- o; QRt vs s) K)) r a t B e v.
Proof.
  destruct r as [[x w1]|m1|m1]; cbn [gives].
  - intros ->. cbn [qlift qends q_called q_vars q_bufs qvars qbufs qvals qord]. rewrite firstn_put. reflexivity.
  - intros (m' & t' & w' & -> & Hs). cbn [qlift qends q_called q_vars q_bufs qvars qbufs qvals qord].
    rewrite firstn_put. do 3 eexists. split; [reflexivity|exact Hs].
  - intros (m' & ->). eexists; reflexivity.
Qed.
Lemma nil_or c : c = CNil \/ (forall A (x y : A), match c with CNil => x | _ => y end = y).
Proof. destruct c; auto. Qed.
(** the next statement of the function writes *)
Ltac stmt_writes :=
  match goal with |- gives (q_called _ _ (qends ?x _)) _ _ _ _ _ _ =>
    match x with
    | context [if _ then _ else QNx (mk (_ :: ?env) (bufput _ ?t0 _) _ _)] => eapply (then_gives x _ _ _ _ _ t0 _ _ env)
    | context [mk (_ :: ?env) (bufput _ ?t0 _) _ _] => eapply (then_gives x _ _ _ _ _ t0 _ _ env)
    end end.
Section Gen2.
Variable G : genv.
Variable cm : string.
Variables refs refnames : qv.
Notation ctx := (ctxv cm refs refnames).
Notation call := (qcall (prog_g G)).
Notation gen_at := (gen_at G cm refs refnames).

Lemma combo_cons name l : l <> [] -> combo_code name (map (emit G cm) l) =
  (get body <- gconcat (map (fun x => get y <- emit G cm x; gret ("." +++ nl +++ "Add(" +++ nl +++ y +++ "," +++ nl +++ ")")) l);
   gret ("jsval." +++ name +++ "()" +++ body)).
Proof. destruct l; [easy|]. intros _. unfold combo_code. cbn [map]. now rewrite map_map. Qed.
Lemma gen_combo k a t B e v w name l : (forall x, In x l -> gen_at (S k) x) -> (a < List.length B)%nat ->
  gives (call (S (S k)) "generateComboCode" [ctx; QBuf a; QStr name; QCs l] (mk e (bufput a t B) v w))
    (combo_code name (map (emit G cm) l) w) a t B e v.
Proof.
  intro IH. begin_.
  destruct (Z.of_nat (List.length l)) as [|n|n] eqn:El; [| |lia].
  { destruct l; [|discriminate]. qsteps.
    match goal with |- context [call ?k' "generateEmptyCode" [_; QBuf ?a'; QC CEmpty] (mk ?e0 (bufput a t B) ?v0 ?w0)] =>
      pose proof (gen_empty G cm refs refnames k a t B e0 v0 w0 Ha) as He end.
    unfold ctxv in He. unfold gives in He.
    rewrite He; clear He; qsteps. unfold gives. cbn [map combo_code gret]. same_text. }
  qsteps.
  match goal with |- context [qrounds ?body ?k ?v ?es (mk ?env (bufput ?a ?t0 ?B) ?vs ?w)] =>
    set (body0 := body); set (env0 := env);
    assert (L : wrote (qrounds body0 k v (q_indexed 0 (map QC l)) (mk env0 (bufput a t0 B) vs w))
      (gconcat (map (fun x => get y <- emit G cm x; gret ("." +++ nl +++ "Add(" +++ nl +++ y +++ "," +++ nl +++ ")")) l) w) a t0 B env0 vs)
  end.
  { apply rounds_wrote. intros x i t0 w0 Hin. specialize (IH x Hin). unfold body0, env0. in_round. qsteps. 
    called_code IH. done_w. }
  rewrite combo_cons by (intros ->; discriminate El). eapply then_gives; [exact L|]. intros x w1 _. unfold env0. qsteps. done_.
Qed.
Lemma gen_any k a t B e v w l : (forall x, In x l -> gen_at (S k) x) -> (a < List.length B)%nat ->
  gives (call (S (S (S k))) "generateAnyCode" [ctx; QBuf a; QC (CAny l)] (mk e (bufput a t B) v w))
    (combo_code "Any" (map (emit G cm) l) w) a t B e v.
Proof. intro IH. begin_. eapply ret_gives. exact (gen_combo k a t B _ v w "Any" l IH Ha). Qed.
Lemma gen_all k a t B e v w l : (forall x, In x l -> gen_at (S k) x) -> (a < List.length B)%nat ->
  gives (call (S (S (S k))) "generateAllCode" [ctx; QBuf a; QC (CAll l)] (mk e (bufput a t B) v w))
    (combo_code "All" (map (emit G cm) l) w) a t B e v.
Proof. intro IH. begin_. eapply ret_gives. exact (gen_combo k a t B _ v w "All" l IH Ha). Qed.
Lemma gen_oneof k a t B e v w l : (forall x, In x l -> gen_at (S k) x) -> (a < List.length B)%nat ->
  gives (call (S (S (S k))) "generateOneOfCode" [ctx; QBuf a; QC (COneOf l)] (mk e (bufput a t B) v w))
    (combo_code "OneOf" (map (emit G cm) l) w) a t B e v.
Proof. intro IH. begin_. eapply ret_gives. exact (gen_combo k a t B _ v w "OneOf" l IH Ha). Qed.

Lemma gen_not k a t B e v w c : gen_at k c -> (a < List.length B)%nat ->
  gives (call (S k) "generateNotCode" [ctx; QBuf a; QC (CNot c)] (mk e (bufput a t B) v w))
    (not_code (emit G cm c) w) a t B e v.
Proof. intro IH. begin_. unfold not_code. called_code IH. unfold gives; cbn [gret gbind]; newline; same_text. Qed.

Lemma gen_arr k a t B e v w c : gen_at k c.(a_items) -> gen_at k c.(a_add) ->
  (forall x, In x c.(a_pos) -> gen_at k x /\ forall w m, emit G cm x w <> GErr m) -> (a < List.length B)%nat ->
  gives (call (S k) "generateArrayCode" [ctx; QBuf a; QC (CArr c)] (mk e (bufput a t B) v w))
    (array_code c (emit G cm c.(a_items)) (emit G cm c.(a_add)) (map (emit G cm) c.(a_pos)) w) a t B e v.
Proof.
  intros IH1 IH2 IH. begin_. unfold array_code.
  stmt_writes.
  { destruct (nil_or (a_items c)) as [E|Hn]; [rewrite E; qsteps; done_w|].
    rewrite !Hn. qsteps. called_code IH1. done_w. }
  intros x1 w1 _. qsteps. stmt_writes.
  { destruct (nil_or (a_add c)) as [E|Hn]; [rewrite E; qsteps; done_w|].
    rewrite !Hn. qsteps. called_code IH2. done_w. }
  intros x2 w2 _. qsteps. stmt_writes.
  { destruct (a_pos c) as [|x0 l0] eqn:El; [change (0 <? Z.of_nat (@List.length constr [])) with false; qsteps; done_w|].
    rewrite <- El in *.
    replace (0 <? Z.of_nat (List.length (a_pos c))) with true by (rewrite El; reflexivity). qsteps.
    assert (Em : forall X (n y : gm X), match map (emit G cm) (a_pos c) with [] => n | _ :: _ => y end = y) by (rewrite El; reflexivity).
    rewrite Em, map_map. clear Em El. 
    match goal with |- context [qrounds ?body ?k ?v ?es (mk ?env (bufput ?a ?t0 ?B) ?vs ?w)] =>
      set (body0 := body); set (env0 := env);
      assert (L : wrote (qrounds body0 k v (q_indexed 0 (map QC (a_pos c))) (mk env0 (bufput a t0 B) vs w))
        (gconcat (map (fun x => get y <- ignore_err (emit G cm x); gret (y +++ "," +++ nl)) (a_pos c)) w) a t0 B env0 vs)
    end.
    { apply rounds_wrote. intros x i t0 w0 Hin. destruct (IH x Hin) as [Hx Hq]. unfold body0, env0. in_round. qsteps.
      specialize (Hq w0). unfold ignore_err.
      called_code Hx; [|exfalso; exact (Hq _ eq_refl)]. done_w. }
    apply leave_wrote with (l := [("cc", QCs (a_pos c))]). apply leave_wrote with (l := []).
    eapply then_wrote; [exact L|]. intros x3 w3 _. unfold env0. qsteps. done_w. }
  intros x3 w3 _. qsteps. cond_write (-1 <? a_min c). cond_write (-1 <? a_max c). cond_write (a_uniq c).
  unfold gives; cbn [gret gbind]; newline; same_text.
Qed.
End Gen2.
