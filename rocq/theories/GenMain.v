(** Process: the generated file is Go code, and running it defines the validators and the
    references the generator was given. *)
From Coq Require Import DecimalString DecimalZ.
From Verif Require Import Base GoFloat GoValue Maybe Formats Constraint StructInfo Validate Reach ConstrInd Builder GoText GoLang GoEval Generator GenLex GenParse GenCode GenLike GenSpec GenFaith GenRound GenObj.
Open Scope string_scope.
Open Scope list_scope.

(** ** Statements *)
Definition PStmt (ts : list tok) (s : stmt) : Prop :=
  (exists x r, ts = TId x :: r) /\
  match s with
  | SAssign l r => exists a b, ts = a ++ TP "=" :: b /\ Parses a l /\ Parses b r
  | SExpr e => Parses ts e
  end.
Definition Stmts (ts : list tok) (ss : list stmt) : Prop := forall r ss' tail,
  (forall m, (2 * List.length r < m)%nat -> pstmts m r = Some (ss', tail)) ->
  forall m, (2 * List.length (ts ++ r) < m)%nat -> pstmts m (ts ++ r) = Some (ss ++ ss', tail).

Lemma stmts_nil : Stmts [] [].
Proof. intros r ss' tail H m M. apply H, M. Qed.
Lemma stmts_app a x b y : Stmts a x -> Stmts b y -> Stmts (a ++ b) (x ++ y).
Proof.
  intros A B r ss' tail H m M. rewrite <- !app_assoc. rewrite <- app_assoc in M. apply A; auto.
Qed.
Lemma pst_assign m x r0 e r1 e2 r ss tail : pexpr m (TId x :: r0) = Some (e, TP "=" :: r1) -> pexpr m r1 = Some (e2, TSemi :: r) ->
  pstmts m r = Some (ss, tail) -> pstmts (S m) (TId x :: r0) = Some (SAssign e e2 :: ss, tail).
Proof. intros A B C. cbn [pstmts]. rewrite A, B. cbn [is_semi]. now rewrite C. Qed.
Lemma pst_expr m x r0 e r ss tail : pexpr m (TId x :: r0) = Some (e, TSemi :: r) ->
  pstmts m r = Some (ss, tail) -> pstmts (S m) (TId x :: r0) = Some (SExpr e :: ss, tail).
Proof. intros A C. cbn [pstmts]. rewrite A. cbn [is_semi]. now rewrite C. Qed.
Lemma stmts_one ts s : PStmt ts s -> Stmts (ts ++ [TSemi]) [s].
Proof.
  intros [(x & r0 & E) H] r ss' tail K m M. rewrite <- app_assoc in *. cbn [app] in *.
  rewrite !app_length in M. cbn [List.length] in M.
  destruct m as [|m]; [lia|].
  assert (KR : pstmts m r = Some (ss', tail)) by (apply K; lia).
  destruct s as [l e|e].
  - destruct H as (a & b & E2 & PA & PB).
    assert (NP : nopost (TP "=" :: b ++ TSemi :: r)) by (split; discriminate).
    assert (A := PA _ NP). assert (B := PB (TSemi :: r) I).
    assert (LB : (List.length ts = List.length a + S (List.length b))%nat) by (rewrite E2, app_length; reflexivity).
    assert (TT : ts ++ TSemi :: r = a ++ TP "=" :: b ++ TSemi :: r) by (rewrite E2, <- app_assoc; reflexivity).
    apply (px_fuel _ _ _ m) in A; [|rewrite app_length; cbn [List.length]; rewrite app_length; cbn [List.length]; lia].
    apply (px_fuel _ _ _ m) in B; [|rewrite app_length; cbn [List.length]; lia].
    rewrite <- TT in A. clear TT E2. subst ts. cbn [app] in *. eapply pst_assign; eauto.
  - assert (A := H (TSemi :: r) I). apply (px_fuel _ _ _ m) in A; [|rewrite app_length; cbn [List.length]; lia].
    subst ts. cbn [app] in *. eapply pst_expr; eauto.
Qed.

(** text that starts on a new line and is a sequence of statements *)
Definition Body (t : string) (ss : list stmt) : Prop := (t = "" \/ exists r, t = String newline r) /\
  exists ts, Stmts ts ss /\ forall r, run (LNone false) (t +++ String newline r) = pre ts (run (LNone false) (String newline r)).

Lemma run_newline b r : run (LNone b) (String newline r) = pre (if b then [TSemi] else []) (run (LNone false) r).
Proof. rewrite (run_step _ _ _ (if b then [TSemi] else []) (LNone false)); [reflexivity|now destruct b]. Qed.

Lemma run_nlf r : run (LNone false) (String newline r) = run (LNone false) r.
Proof. now rewrite run_newline, pre_nil. Qed.
Lemma run_nlt r : run (LNone true) (String newline r) = pre [TSemi] (run (LNone false) r).
Proof. apply run_newline. Qed.

Lemma body_nil : Body "" [].
Proof. split; [auto|]. exists []. split; [exact stmts_nil|]. intros r. now rewrite pre_nil. Qed.
Lemma body_app a x b y : Body a x -> Body b y -> Body (a +++ b) (x ++ y).
Proof.
  intros [A (ta & SA & LA)] [B (tb & SB & LB)]. split.
  - destruct A as [-> |[r ->]]; [exact B|]. right. cbn. eauto.
  - exists (ta ++ tb). split; [now apply stmts_app|]. intros r. rewrite sapp_assoc.
    destruct B as [-> |[r2 ->]].
    + cbn [String.append]. rewrite LA. specialize (LB r). cbn [String.append] in LB.
      rewrite LB at 1. now rewrite pre_pre.
    + cbn [String.append] in *. now rewrite LA, LB, pre_pre.
Qed.
Lemma body_one s st : (exists ts, PStmt ts st /\ forall r, run (LNone false) (s +++ String newline r) = pre ts (run (LNone true) (String newline r))) ->
  Body (nl +++ s) [st].
Proof.
  intros (ts & P & L). split; [right; cbn; eauto|]. exists (ts ++ [TSemi]). split; [now apply stmts_one|].
  intros r. change ((nl +++ s) +++ String newline r) with (String newline (s +++ String newline r)). rewrite (run_nlf (s +++ _)), L.
  rewrite run_nlt, run_nlf. now rewrite pre_pre.
Qed.
(** a further newline at the end *)
Lemma body_one_nl s st : (exists ts, PStmt ts st /\ forall r, run (LNone false) (s +++ String newline r) = pre ts (run (LNone true) (String newline r))) ->
  Body (nl +++ s +++ nl) [st].
Proof.
  intros (ts & P & L). split; [right; cbn; eauto|]. exists (ts ++ [TSemi]). split; [now apply stmts_one|].
  intros r. rewrite !sapp_assoc. change (nl +++ s +++ nl +++ String newline r) with (String newline (s +++ String newline (String newline r))). rewrite (run_nlf (s +++ _)), L.
  rewrite run_nlt, !run_nlf. now rewrite !pre_pre.
Qed.

Lemma ident_start x : ident x = true -> exists c r, x = String c r /\ id_start c = true.
Proof. unfold ident. destruct x as [|c r]; [discriminate|]. rewrite !andb_true_iff. intros ((A & _) & _). eauto. Qed.
Lemma ident_nokey x : ident x = true -> keyword x = false.
Proof. unfold ident. destruct x as [|c r]; [discriminate|]. rewrite !andb_true_iff, negb_true_iff. tauto. Qed.

(** an assignment *)
Lemma run_assign x s r : ident x = true -> run (LNone false) ((x +++ " = " +++ s) +++ r) = pre [TId x; TP "="] (run (LNone false) (s +++ r)).
Proof.
  intros I. rewrite !sapp_assoc. cbn [String.append].
  rewrite lexes_id_gen by auto. rewrite (run_step _ _ _ [] (LNone true)) by reflexivity. rewrite pre_nil.
  rewrite (run_step _ _ _ [TP "="] (LNone false)) by reflexivity. rewrite (run_step _ _ _ [] (LNone false)) by reflexivity. now rewrite !pre_pre.
Qed.
Lemma text_assign x s e : ident x = true -> Code s e ->
  exists ts, PStmt ts (SAssign (EId x) e) /\ forall r, run (LNone false) ((x +++ " = " +++ s) +++ String newline r) = pre ts (run (LNone true) (String newline r)).
Proof.
  intros I (_ & ts & L & P & _). exists ([TId x] ++ TP "=" :: ts). split.
  - split; [cbn; eauto|]. exists [TId x], ts. split; [reflexivity|]. split; [|exact P]. now apply parses_id, ident_nokey.
  - intros r. rewrite run_assign by auto. rewrite L by reflexivity. rewrite pre_pre. reflexivity.
Qed.
Lemma body_assign x s e : ident x = true -> Code s e -> Body (nl +++ x +++ " = " +++ s) [SAssign (EId x) e].
Proof. intros I C. apply body_one. now apply text_assign. Qed.
Lemma body_assign_nl x s e : ident x = true -> Code s e -> Body (nl +++ x +++ " = " +++ s +++ nl) [SAssign (EId x) e].
Proof.
  intros I C. replace (x +++ " = " +++ s +++ nl) with ((x +++ " = " +++ s) +++ nl) by now rewrite !sapp_assoc.
  apply body_one_nl. now apply text_assign.
Qed.

(** leading white space *)
Lemma strip_lex s t0 : run (LNone false) (s +++ t0) <> None -> forall t, run (LNone false) (strip s +++ t) = run (LNone false) (s +++ t).
Proof.
  intros N t. unfold strip. assert (X : skip_space s = "" \/ run (LNone false) (skip_space s +++ t) = run (LNone false) (s +++ t)).
  { induction s as [|c s IH]; [now left|]. cbn [skip_space].
    destruct (existsb (Ascii.eqb c) [" "; "009"; "010"; "011"; "012"; "013"]%char) eqn:E; [|now right].
    cbn [existsb] in E. rewrite !orb_true_iff, !Ascii.eqb_eq in E.
    assert (W : c = "011"%char \/ c = "012"%char \/ step (LNone false) c = Some ([], LNone false)).
    { destruct E as [->|[->|[->|[->|[->|[->|E]]]]]]; auto; try discriminate E; right; right; reflexivity. }
    destruct W as [->|[->|W]]; [now destruct N|now destruct N|].
    cbn [String.append] in *. rewrite (run_step _ _ _ _ _ W), pre_nil in N. rewrite (run_step _ _ _ _ _ W), pre_nil. auto. }
  destruct X as [-> |X]; [reflexivity|]. destruct (skip_space s); [reflexivity|exact X].
Qed.
Lemma body_ref x s e : ident x = true -> Code s e -> Body (nl +++ x +++ " = " +++ strip s) [SAssign (EId x) e].
Proof.
  intros I (_ & ts & L & P & _). apply body_one. exists ([TId x] ++ TP "=" :: ts). split.
  - split; [cbn; eauto|]. exists [TId x], ts. split; [reflexivity|]. split; [|exact P]. now apply parses_id, ident_nokey.
  - intros r. rewrite run_assign by auto. rewrite (strip_lex s nl).
    + rewrite L by reflexivity. rewrite pre_pre. reflexivity.
    + change nl with (String newline ""). rewrite L by reflexivity. discriminate.
Qed.

(** M = &jsval.ConstraintMap{} and M.SetReference(..., R) *)
Lemma body_map : Body (nl +++ "M = &jsval.ConstraintMap{}") [SAssign (EId "M") (EAddr "jsval" "ConstraintMap")].
Proof.
  apply body_one. exists [TId "M"; TP "="; TP "&"; TId "jsval"; TP "."; TId "ConstraintMap"; TP "{"; TP "}"]. split.
  - split; [eauto|]. exists [TId "M"], [TP "&"; TId "jsval"; TP "."; TId "ConstraintMap"; TP "{"; TP "}"]. split; [reflexivity|].
    split; [now apply parses_id|]. intros r N. apply px_addr.
  - intros r. rewrite run_app. replace (run (LNone false) "M = &jsval.ConstraintMap{}")
      with (Some ([TId "M"; TP "="; TP "&"; TId "jsval"; TP "."; TId "ConstraintMap"; TP "{"; TP "}"], LNone true)) by reflexivity. reflexivity.
Qed.
Lemma body_set pr n x : ident x = true -> Body (nl +++ "M.SetReference(" +++ quote pr n +++ ", " +++ x +++ ")")
  [SExpr (ECall (ESel (EId "M") "SetReference") [EStr n; EId x])].
Proof.
  intros I. apply body_one. exists (TId "M" :: [TP "."; TId "SetReference"; TP "("; TStr n; TP ","; TId x; TP ")"]). split.
  - split; [eauto|]. apply (parses_posts "M" _ (fun e => ECall (ESel e "SetReference") [EStr n; EId x])); [reflexivity|].
    apply posts_call; [reflexivity|]. apply (args_cons ")" [TStr n] (EStr n) [TId x; TP ")"] [EId x]); auto; [exact Logic.I|apply parses_str|].
    apply (args_last ")" [TId x] (EId x)); auto; [exact Logic.I|]. now apply parses_id, ident_nokey.
  - intros r. rewrite !sapp_assoc. rewrite run_app.
    replace (run (LNone false) "M.SetReference(") with (Some ([TId "M"; TP "."; TId "SetReference"; TP "("], LNone false)) by reflexivity.
    rewrite unquote_quote. cbn [String.append]. rewrite (run_step _ _ _ [TP ","] (LNone false)) by reflexivity.
    rewrite (run_step _ _ _ [] (LNone false)) by reflexivity. rewrite lexes_id_gen by auto.
    rewrite (run_step _ _ _ [TP ")"] (LNone true)) by reflexivity. rewrite !pre_pre. reflexivity.
Qed.

(** ** Declarations *)
Definition Decls (ts : list tok) (ds : list decl) : Prop := forall r ds' tail,
  (forall m, (List.length r < m)%nat -> pdecls m r = Some (ds', tail)) ->
  forall m, (List.length (ts ++ r) < m)%nat -> pdecls m (ts ++ r) = Some (ds ++ ds', tail).
Definition DeclText (t : string) (ds : list decl) : Prop := (t = "" \/ exists r, t = String newline r) /\
  exists ts, Decls ts ds /\ forall r, run (LNone false) (t +++ String newline r) = pre ts (run (LNone false) (String newline r)).

Lemma decls_nil : DeclText "" [].
Proof. split; [auto|]. exists []. split; [intros r ds' tail H m M; apply H, M|]. intros r. now rewrite pre_nil. Qed.
Lemma decls_app a x b y : DeclText a x -> DeclText b y -> DeclText (a +++ b) (x ++ y).
Proof.
  intros [A (ta & SA & LA)] [B (tb & SB & LB)]. split.
  - destruct A as [-> |[r ->]]; [exact B|]. right. cbn. eauto.
  - exists (ta ++ tb). split.
    + intros r ds' tail H m M. rewrite <- !app_assoc in *. apply SA; auto.
    + intros r. rewrite sapp_assoc. destruct B as [-> |[r2 ->]].
      * cbn [String.append]. rewrite LA. specialize (LB r). cbn [String.append] in LB. rewrite LB at 1. now rewrite pre_pre.
      * cbn [String.append] in *. now rewrite LA, LB, pre_pre.
Qed.
Definition the_decl (x : string) (ptr : bool) (ty : string) : decl := {| d_name := x; d_ptr := ptr; d_pkg := "jsval"; d_type := ty |}.
Lemma decl_one x (ptr : bool) ty : ident x = true -> ident ty = true ->
  DeclText (nl +++ "var " +++ x +++ (if ptr then " *jsval." else " jsval.") +++ ty) [the_decl x ptr ty].
Proof.
  intros I IT. split; [right; cbn; eauto|].
  exists ([TId "var"; TId x] ++ (if ptr then [TP "*"] else []) ++ [TId "jsval"; TP "."; TId ty; TSemi]). split.
  - intros r ds' tail H m M. rewrite <- !app_assoc in M. rewrite !app_length in M. cbn [List.length] in M.
    destruct m as [|m]; [lia|]. assert (H' : pdecls m r = Some (ds', tail)) by (apply H; lia).
    apply ident_nokey in I. destruct ptr; cbn [app pdecls]; rewrite I; cbn [is_semi]; rewrite H'; reflexivity.
  - intros r. rewrite !sapp_assoc.
    change (nl +++ "var " +++ x +++ (if ptr then " *jsval." else " jsval.") +++ ty +++ String newline r)
      with (String newline ("var " +++ (x +++ (if ptr then " *jsval." else " jsval.") +++ ty +++ String newline r))).
    rewrite !run_nlf.
    rewrite run_app. replace (run (LNone false) "var ") with (Some ([TId "var"], LNone false)) by reflexivity.
    destruct ptr; cbn [String.append].
    + rewrite lexes_id_gen by auto. 
      match goal with |- context [run (LNone true) ?s] => change s with (" *jsval." +++ (ty +++ String newline r)) end.
      rewrite run_app. replace (run (LNone true) " *jsval.") with (Some ([TP "*"; TId "jsval"; TP "."], LNone false)) by reflexivity.
      rewrite lexes_id_gen by (auto; left; reflexivity). rewrite run_nlt, !pre_pre. reflexivity.
    + rewrite lexes_id_gen by auto.
      match goal with |- context [run (LNone true) ?s] => change s with (" jsval." +++ (ty +++ String newline r)) end.
      rewrite run_app. replace (run (LNone true) " jsval.") with (Some ([TId "jsval"; TP "."], LNone false)) by reflexivity.
      rewrite lexes_id_gen by (auto; left; reflexivity). rewrite run_nlt, !pre_pre. reflexivity.
Qed.

(** ** Files *)
Theorem parse_file d ds b ss : DeclText d ds -> Body b ss ->
  parse_go (d +++ nl +++ "func init() {" +++ b +++ nl +++ "}") = Some {| f_decls := ds; f_body := ss |}.
Proof.
  intros [_ (td & SD & LD)] [B (tb & SB & LB)]. unfold parse_go, lex.
  assert (F : run (LNone false) (d +++ nl +++ "func init() {" +++ b +++ nl +++ "}") =
    Some (td ++ [TId "func"; TId "init"; TP "("; TP ")"; TP "{"] ++ tb ++ [TP "}"], LNone true)).
  { change (nl +++ "func init() {" +++ b +++ nl +++ "}") with (String newline ("func init() {" +++ b +++ nl +++ "}")).
    rewrite LD. change (String newline ("func init() {" +++ b +++ nl +++ "}")) with ((nl +++ "func init() {") +++ (b +++ nl +++ "}")).
    rewrite run_app. replace (run (LNone false) (nl +++ "func init() {")) with (Some ([TId "func"; TId "init"; TP "("; TP ")"; TP "{"], LNone false)) by reflexivity.
    change (nl +++ "}") with (String newline "}"). rewrite LB. cbn [run step pre]. reflexivity. }
  rewrite F. cbn [finish]. set (ts := (td ++ _) ++ [TSemi]).
  assert (E : ts = td ++ (TId "func" :: TId "init" :: TP "(" :: TP ")" :: TP "{" :: (tb ++ [TP "}"; TSemi]))).
  { unfold ts. rewrite <- !app_assoc. reflexivity. }
  unfold parse. rewrite E at 2.
  rewrite (SD _ [] (TId "func" :: TId "init" :: TP "(" :: TP ")" :: TP "{" :: (tb ++ [TP "}"; TSemi]))).
  - rewrite (SB [TP "}"; TSemi] [] [TSemi]).
    + cbn [forallb is_semi andb]. now rewrite !app_nil_r.
    + intros m M. destruct m; [cbn in M; lia|]. reflexivity.
    + rewrite E. rewrite !app_length. cbn [List.length]. rewrite !app_length. cbn [List.length]. lia.
  - intros m M. destruct m; [cbn in M; lia|]. reflexivity.
  - rewrite <- E. lia.
Qed.
