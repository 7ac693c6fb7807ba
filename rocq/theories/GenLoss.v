(** What generation loses (C48). *)
From Verif Require Import Base GoFloat GoValue Maybe Formats Constraint StructInfo Validate Reach ConstrInd Local Builder GoText GoLang GoEval Generator GenLex GenParse GenCode GenLike GenSpec GenFaith GenRound GenObj GenMain GenProcess GenTheorems.
Open Scope string_scope.
Open Scope list_scope.

(** ** Aspects that leave no trace in the text *)
Theorem number_aspects_dropped G cm d m b mul en :
  emit G cm (CNum d {| n_amin := n_amin m; n_amax := n_amax m; n_amul := b; n_min := n_min m; n_max := n_max m; n_mul := mul;
                       n_xmin := n_xmin m; n_xmax := n_xmax m; n_enum := en |}) = emit G cm (CNum d m).
Proof. reflexivity. Qed.
Theorem integer_aspects_dropped G cm d m b mul en lo hi :
  f64_to_int64 lo = f64_to_int64 (n_min m) -> f64_to_int64 hi = f64_to_int64 (n_max m) ->
  emit G cm (CInt d {| n_amin := n_amin m; n_amax := n_amax m; n_amul := b; n_min := lo; n_max := hi; n_mul := mul;
                       n_xmin := n_xmin m; n_xmax := n_xmax m; n_enum := en |}) = emit G cm (CInt d m).
Proof. intros A B. cbn [emit]. f_equal. unfold integer_code. cbn [n_amin n_amax n_min n_max n_xmin n_xmax]. now rewrite A, B. Qed.
Theorem object_aspects_dropped G cm o lo hi sd :
  emit G cm (CObj {| o_add := o_add o; o_pats := o_pats o; o_props := o_props o; o_propdeps := o_propdeps o; o_req := o_req o;
                     o_min := lo; o_max := hi; o_sdeps := sd |}) = emit G cm (CObj o).
Proof. reflexivity. Qed.

(** ** Not: the code for it is never accepted *)
Lemma px_unique n ts p e r : pexpr n ts = Some p -> Px ts e r -> p = (e, r).
Proof.
  intros H [k K]. destruct p as [e' r']. destruct (suff_all n) as (X & _). apply X in H as [L F].
  destruct (suff_all k) as (Y & _). apply Y in K as [L' F'].
  specialize (F (2 * List.length ts)%nat ltac:(lia)). specialize (F' (2 * List.length ts)%nat ltac:(lia)). congruence.
Qed.
(** an argument list cannot continue after a semicolon *)
Lemma args_semi n cl ts e r : first_ok ts -> cl = ")"%char \/ cl = "}"%char -> Parses ts e -> plist n cl (ts ++ TSemi :: r) = None.
Proof.
  intros F C P. destruct n as [|n]; [reflexivity|].
  assert (K : match pexpr n (ts ++ TSemi :: r) with Some (e0, r1) => pmore n cl e0 r1 | None => None end = None).
  { destruct (pexpr n (ts ++ TSemi :: r)) as [p|] eqn:E; [|reflexivity].
    apply px_unique with (e := e) (r := TSemi :: r) in E; [|apply P; exact I]. subst p. now destruct n. }
  destruct ts as [|t ts]; [contradiction|]. cbn [app plist] in *. destruct t as [| | |c|]; try exact K.
  destruct (Ascii.eqb_spec c cl) as [->|NE]; [|exact K]. cbn in F. destruct C as [-> | ->]; tauto.
Qed.

Lemma sel_none e x r : keyword x = false -> (forall k, ppost k (ESel e x) r = None) -> forall k, ppost k e (TP "." :: TId x :: r) = None.
Proof. intros K H [|k]; [reflexivity|]. cbn [ppost]. now rewrite K. Qed.
Lemma call_none e us l r : Args ")" us l -> (forall k, ppost k (ECall e l) r = None) -> forall k, ppost k e (TP "(" :: us ++ r) = None.
Proof.
  intros A H [|k]; [reflexivity|]. cbn [ppost]. destruct (plist k ")" (us ++ r)) as [[l' r']|] eqn:E; [|reflexivity].
  destruct (A r) as [m M]. destruct (suff_all k) as (_ & _ & X & _). apply X in E as [_ F]. destruct (suff_all m) as (_ & _ & Y & _). apply Y in M as [_ F'].
  specialize (F (2 * List.length (us ++ r))%nat ltac:(lia)). specialize (F' (2 * List.length (us ++ r))%nat ltac:(lia)).
  assert (Z : (l', r') = (l, r)) by congruence. inversion Z; subst. apply H.
Qed.
Lemma id_none x r : keyword x = false -> (forall k, ppost k (EId x) r = None) -> forall k, pexpr k (TId x :: r) = None.
Proof. intros K H [|k]; [reflexivity|]. cbn [pexpr]. now rewrite K. Qed.
Lemma arg_none e x r : (forall k, pexpr k (TId x :: r) = None) -> forall k, ppost k e (TP "(" :: TId x :: r) = None.
Proof. intros H [|[|k]]; try reflexivity. cbn [ppost plist]. now rewrite H. Qed.
Definition not_tokens (nm : string) (ts : list tok) (r : list tok) : list tok :=
  [TId "jsval"; TP "."; TId "New"; TP "("; TP ")"; TP "."; TId "SetName"; TP "("; TStr nm; TP ")"; TP "."; TId "SetRoot"; TP "(";
   TId "jsval"; TP "."; TId "Not"; TP "("] ++ ts ++ TSemi :: r.
Lemma not_tokens_none nm ts e r : first_ok ts -> Parses ts e -> forall n, pexpr n (not_tokens nm ts r) = None.
Proof.
  intros F P. unfold not_tokens. cbn [app].
  apply id_none; [reflexivity|]. apply sel_none; [reflexivity|].
  apply (call_none _ [TP ")"] []); [apply args_nil|]. apply sel_none; [reflexivity|].
  apply (call_none _ [TStr nm; TP ")"] [EStr nm]); [apply (args_last ")" [TStr nm]); [now left|exact I|apply parses_str]|]. apply sel_none; [reflexivity|].
  apply arg_none. apply id_none; [reflexivity|]. apply sel_none; [reflexivity|].
  intros [|k]; [reflexivity|]. cbn [ppost]. rewrite (args_semi k ")" ts e r); auto.
Qed.

Lemma stmts_none n x r : keyword x = false -> (forall k, pexpr k r = None) -> pstmts n (TId x :: TP "=" :: r) = None.
Proof.
  intros K H. destruct n as [|n]; [reflexivity|].
  assert (A : pexpr n (TId x :: TP "=" :: r) = None \/ pexpr n (TId x :: TP "=" :: r) = Some (EId x, TP "=" :: r)).
  { destruct n as [|n]; [now left|]. cbn [pexpr]. rewrite K. destruct n as [|n]; [now left|now right]. }
  cbn [pstmts]. destruct A as [-> | ->]; [reflexivity|]. now rewrite H.
Qed.

(** no references, root Not(x): an error, whatever x is (within what could be generated) *)
Theorem not_never_generates G v x : names_ok [v] -> v_refs v = [] -> v_root v = CNot x -> emittable false x ->
  forall w, exists m, process G [v] w = GErr m.
Proof.
  intros [_ NO] NR RT EM w. destruct (emit_good G false x EM) as (s & e & D & (PL & ts & L & P & F) & LC & _).
  set (nm := v_name (named 0 v)). assert (ID : ident nm = true) by (apply NO; cbn; auto).
  assert (MR : merge_refs [v] = []) by (unfold merge_refs; cbn [fold_left]; now rewrite NR).
  set (code := "jsval.New()." +++ nl +++ "SetName(" +++ quote (g_print G) nm +++ ")" +++ "." +++ nl +++ "SetRoot(" +++ nl +++ "jsval.Not(" +++ nl +++ s +++ nl +++ ")" +++ "," +++ nl +++ ")" +++ nl).
  set (text := (nl +++ "var " +++ nm +++ " *jsval." +++ "JSVal") +++ nl +++ "func init() {" +++ (nl +++ nm +++ " = " +++ code) +++ nl +++ "}").
  assert (DX : det (emit G "" (v_root v)) ("jsval.Not(" +++ nl +++ s +++ nl +++ ")")).
  { rewrite RT. cbn [emit]. unfold post, not_code. eapply det_bind; [eapply det_bind; [exact D|apply det_ret]|].
    rewrite trim_last.
    - rewrite fprintf_plain; [apply det_ret|]. rewrite !plain_app. now rewrite PL.
    - change ("jsval.Not(" +++ nl +++ s +++ nl +++ ")") with (("jsval.Not(" +++ nl) +++ s +++ nl +++ ")").
      rewrite last_app_some by (destruct s; discriminate). rewrite last_app_some by discriminate. discriminate. }
  assert (SN : forall w, exists w', shuffle w (@nil string) = ([], w')).
  { intros u. destruct (shuffle u (@nil string)) as [p u'] eqn:E. apply shuffle_perm in E. apply Permutation_nil in E. subst. eauto. }
  assert (DV : det (validator_code G "" [] [] (named 0 v)) code).
  { intros u. unfold validator_code, post, gbind. cbn [keys map]. destruct (SN u) as [u1 ->]. cbn [find].
    rewrite named_root. destruct (DX u1) as [u2 ->]. unfold gret. exists u2. do 2 f_equal. cbn [String.eqb negb when].
    set (t := "jsval.New()." +++ nl +++ "SetName(" +++ quote (g_print G) nm +++ ")" +++ "." +++ nl +++ "SetRoot(" +++ nl +++ "jsval.Not(" +++ nl +++ s +++ nl +++ ")" +++ "," +++ nl).
    assert (CE : code = t +++ ")" +++ nl) by (unfold code, t; rewrite !sapp_assoc; reflexivity).
    match goal with |- fprintf0 (trim_suffix _ ?y) = _ => assert (Y : y = code) end.
    { unfold code. fold nm. rewrite !sapp_assoc. reflexivity. }
    rewrite Y, CE, trim_paren. apply fprintf_plain. unfold t. rewrite !plain_app. rewrite PL. rewrite quote_plain by now apply ident_plain. reflexivity. }
  assert (T : exists w', process_text G [v] w = GOk (text, w')).
  { unfold process_text. rewrite MR. unfold sorted_names, gbind. cbn [keys map]. destruct (SN w) as [w1 ->].
    unfold gret. cbn [List.length seq map combine sort_v fold_right insert_v name_all gconcat fst snd].
    unfold gbind. change (combine (sort_s []) (map ref_var (seq 0 (Datatypes.length (sort_s []))))) with (@nil (string * string)). destruct (DV w1) as [w2 ->]. unfold gret. exists w2. cbn [sort_s fold_right insert_s map join]. rewrite sapp_nil. reflexivity. }
  destruct T as [w' T]. exists "syntax error". unfold process, gbind. rewrite T.
  assert (PN : parse_go text = None).
  { unfold parse_go, lex. destruct (decl_one nm true "JSVal" ID eq_refl) as [_ (td & SD & LD)].
    assert (R : run (LNone false) text = Some (td ++ [TId "func"; TId "init"; TP "("; TP ")"; TP "{"] ++ [TId nm; TP "="] ++
       not_tokens nm ts [TP ")"; TP ","; TP ")"; TSemi; TP "}"], LNone true)).
    { unfold text.
      change (nl +++ "func init() {" +++ ?b) with (String newline ("func init() {" +++ b)). rewrite LD.
      change (String newline ("func init() {" +++ ?b)) with ((nl +++ "func init() {") +++ b).
      rewrite run_app. replace (run (LNone false) (nl +++ "func init() {")) with (Some ([TId "func"; TId "init"; TP "("; TP ")"; TP "{"], LNone false)) by reflexivity.
      change ((nl +++ nm +++ " = " +++ code) +++ ?r) with (String newline ((nm +++ " = " +++ code) +++ r)). rewrite run_nlf, run_assign by auto.
      assert (CE : code +++ nl +++ "}" = "jsval.New().
SetName(" +++ quote (g_print G) nm +++ ").
SetRoot(
jsval.Not(
" +++ s +++ String newline ("),
)

}")) by (unfold code; rewrite !sapp_assoc; reflexivity).
      rewrite CE, run_app.
      replace (run (LNone false) "jsval.New().
SetName(") with (Some ([TId "jsval"; TP "."; TId "New"; TP "("; TP ")"; TP "."; TId "SetName"; TP "("], LNone false)) by reflexivity.
      rewrite lexes_str, run_app.
      replace (run (LNone true) ").
SetRoot(
jsval.Not(
") with (Some ([TP ")"; TP "."; TId "SetRoot"; TP "("; TId "jsval"; TP "."; TId "Not"; TP "("], LNone false)) by reflexivity.
      rewrite L by reflexivity.
      replace (run (LNone true) (String newline ("),
)

}"))) with (Some ([TSemi; TP ")"; TP ","; TP ")"; TSemi; TP "}"], LNone true)) by reflexivity.
      cbn [pre]. unfold not_tokens. cbn [app]. reflexivity. }
    rewrite R. cbn [finish]. unfold parse. set (N := (4 * _ + 8)%nat).
    rewrite <- !app_assoc. rewrite (SD _ [] ([TId "func"; TId "init"; TP "("; TP ")"; TP "{"] ++ [TId nm; TP "="] ++ not_tokens nm ts [TP ")"; TP ","; TP ")"; TSemi; TP "}"] ++ [TSemi])).
    - cbn [app]. rewrite stmts_none; [reflexivity|now apply ident_nokey|]. 
      assert (Q : not_tokens nm ts [TP ")"; TP ","; TP ")"; TSemi; TP "}"] ++ [TSemi] = not_tokens nm ts [TP ")"; TP ","; TP ")"; TSemi; TP "}"; TSemi]).
      { unfold not_tokens. rewrite <- !app_assoc. reflexivity. }
      rewrite Q. eapply not_tokens_none; eauto.
    - intros m M. destruct m; [cbn in M; lia|]. reflexivity.
    - unfold N. rewrite !app_length. lia. }
  now rewrite PN.
Qed.
