(** Text that is an expression, an argument list or a chain of method calls, and what such a
    chain evaluates to. *)
From Verif Require Import Base GoFloat GoValue Maybe Formats Constraint StructInfo Validate Builder GoText GoLang GoEval Generator GenLex GenParse.
Open Scope string_scope.
Open Scope list_scope.

(** ** TrimSuffix and Fprintf leave clean text alone *)
Definition plain (s : string) : bool := all_chars (fun c => negb (Ascii.eqb c "%")) s.

Lemma plain_app a b : plain (a +++ b) = (plain a && plain b)%bool.
Proof. apply all_chars_app. Qed.

Lemma fprintf_plain s : plain s = true -> fprintf0 s = s.
Proof.
  unfold fprintf0. induction s as [|c s IH]; [reflexivity|]. cbn. rewrite andb_true_iff, negb_true_iff. intros [A B].
  rewrite A. cbn [String.append]. now rewrite IH.
Qed.

Fixpoint last_char (s : string) : option ascii :=
  match s with EmptyString => None | String c EmptyString => Some c | String _ r => last_char r end.
Lemma last_app a c b : last_char (a +++ String c b) = last_char (String c b).
Proof. induction a as [|x a IH]; [reflexivity|]. cbn [String.append last_char]. destruct (a +++ String c b) eqn:E; [destruct a; discriminate|]. exact IH. Qed.
Lemma last_app_some a b : b <> "" -> last_char (a +++ b) = last_char b.
Proof. destruct b as [|c b]; [congruence|]. intros _. apply last_app. Qed.

Lemma trim_keep suf s : (forall a, s <> a +++ suf) -> trim_suffix suf s = s.
Proof.
  induction s as [|c s IH]; intros H; cbn [trim_suffix].
  - destruct (String.eqb_spec "" suf); [destruct (H ""); cbn; auto|reflexivity].
  - destruct (String.eqb_spec (String c s) suf) as [E|_]; [destruct (H ""); cbn; auto|].
    rewrite IH; [reflexivity|]. intros a E. apply (H (String c a)). cbn. congruence.
Qed.
Lemma trim_last s : last_char s <> Some newline -> trim_suffix ("." +++ nl) s = s.
Proof. intros H. apply trim_keep. intros a ->. apply H. rewrite last_app_some by discriminate. reflexivity. Qed.
Lemma trim_paren s : trim_suffix ("." +++ nl) (s +++ ")" +++ nl) = s +++ ")" +++ nl.
Proof.
  apply trim_keep. revert s. induction s as [|c s IH]; intros a E.
  - destruct a as [|x [|y a]]; cbn in E; try discriminate E. destruct a; discriminate E.
  - destruct a as [|x a]; cbn in E; [|inversion E; eapply IH; eauto].
    inversion E as [[A B]]. destruct s as [|d s]; cbn in B; [discriminate B|]. inversion B as [[C D]]. destruct s; discriminate D.
Qed.

(** the string literal of a string without '%' has no '%' *)
Definition pct (c : ascii) : bool := negb (Ascii.eqb c "%").
Lemma hexdigit_plain d : (0 <= d < 16)%Z -> Ascii.eqb (hexdigit d) "%" = false.
Proof.
  intros H. rewrite eqb_byte. apply Z.eqb_neq. unfold hexdigit. change (byte "%") with 37%Z.
  destruct (d <? 10)%Z eqn:L; bools; rewrite byte_chr; lia.
Qed.
Lemma hex_plain n v : plain (hex n v) = true.
Proof.
  unfold plain. induction n as [|n IH]; cbn [hex all_chars]; [reflexivity|]. rewrite hexdigit_plain, IH; [reflexivity|]. apply Z.mod_pos_bound. lia.
Qed.
Lemma escape_plain r : plain (escape r) = true.
Proof.
  unfold escape. repeat match goal with |- context [if ?a then _ else _] => destruct a; [try reflexivity|] end;
    try (rewrite plain_app, hex_plain; reflexivity).
Qed.
Lemma quote_from_plain pr s : forall copy skip, plain s = true -> plain (quote_from pr copy skip s) = true.
Proof.
  induction s as [|c s IH]; intros copy skip H; [reflexivity|]. unfold plain in H. cbn [all_chars] in H. apply andb_true_iff in H as [A B].
  cbn [quote_from]. destruct skip as [|k].
  - destruct (decode1 c s) as [rn k]. repeat match goal with |- context [if ?a then _ else _] => destruct a end.
    + rewrite !plain_app, hex_plain, IH by auto. reflexivity.
    + cbn. rewrite A. apply IH; auto.
    + cbn. rewrite A. apply IH; auto.
    + rewrite plain_app, escape_plain. apply IH; auto.
  - destruct copy; [|apply IH; auto]. cbn. rewrite A. apply IH; auto.
Qed.
Lemma quote_plain pr s : plain s = true -> plain (quote pr s) = true.
Proof. intros H. unfold quote. rewrite !plain_app, quote_from_plain by auto. reflexivity. Qed.

Lemma digits_plain s : all_chars digit s = true -> plain s = true.
Proof.
  apply all_chars_imp. intros c H. rewrite eqb_byte. change (byte "%") with 37%Z. unfold digit, between in H. bools. apply negb_true_iff, Z.eqb_neq. lia.
Qed.

(** ** Expressions *)
Definition Code (s : string) (e : expr) : Prop :=
  plain s = true /\ exists ts, Lexes s ts /\ Parses ts e /\ first_ok ts.

Lemma code_str pr s : plain s = true -> Code (quote pr s) (EStr s).
Proof.
  intros P. split; [now apply quote_plain|]. exists [TStr s]. split; [apply lexes_c, lexes_str|]. split; [apply parses_str|exact I].
Qed.
Lemma code_num s z : numeral s z -> Code s (ENum s).
Proof.
  intros N. split; [apply digits_plain; apply N|]. exists [TNum s]. split; [eapply numeral_lexes; eauto|]. split; [apply parses_num|exact I].
Qed.
Lemma code_num_dot a x b y : numeral a x -> numeral b y -> Code (a +++ "." +++ b) (ENum (a +++ "." +++ b)).
Proof.
  intros A B. split.
  { rewrite !plain_app, (digits_plain a), (digits_plain b); [reflexivity|apply B|apply A]. }
  exists [TNum (a +++ "." +++ b)]. split; [|split; [apply parses_num|exact I]].
  destruct A as ((c & r & ->) & A & _). cbn [String.append]. cbn in A. apply andb_true_iff in A as [A1 A2].
  assert (K : forall s, all_chars digit s = true -> all_chars num_char s = true).
  { intros s. apply all_chars_imp. intros d H. unfold num_char. now rewrite H. }
  apply lexes_num; auto. rewrite all_chars_app, (K r) by auto. cbn. apply K, B.
Qed.
Lemma code_neg s e : Code s e -> Code (String "-" s) (ENeg e).
Proof.
  intros (P & ts & L & Q & F). split; [cbn; exact P|]. exists (TP "-" :: ts). split; [|split; [now apply parses_neg|cbn; split; congruence]].
  intros b k r D. cbn [String.append]. rewrite (run_step _ _ _ [TP "-"] (LNone false)) by reflexivity.
  rewrite L by auto. now rewrite pre_pre.
Qed.
Lemma code_id x : ident x = true -> plain x = true -> Code x (EId x).
Proof.
  intros I P. split; auto. exists [TId x]. split; [now apply lexes_id|]. split; [|exact Logic.I]. apply parses_id.
  unfold ident in I. destruct x; [discriminate|]. rewrite !andb_true_iff, negb_true_iff in I. tauto.
Qed.

(** ** Arguments: the text after the opening token, with the closing one *)
Definition ArgText (cl : ascii) (s : string) (l : list expr) : Prop :=
  plain s = true /\ last_char s = Some cl /\
  exists us, (forall r, run (LNone false) (s +++ r) = pre us (run (LNone true) r)) /\ Args cl us l.

Definition closer (cl : ascii) : Prop := cl = ")"%char \/ cl = "}"%char.

Lemma at_close cl : closer cl -> ArgText cl (String cl "") [].
Proof.
  intros C. split; [|split; [reflexivity|exists [TP cl]; split; [|apply args_nil]]].
  - destruct C; subst; reflexivity.
  - intros r. cbn [String.append]. destruct C; subst; now erewrite run_step by reflexivity.
Qed.
Lemma at_nl cl s l : ArgText cl s l -> ArgText cl (String newline s) l.
Proof.
  intros (P & L & us & R & A). split; [exact P|]. split; [|exists us; split; auto].
  - cbn. destruct s; [discriminate L|exact L].
  - intros r. cbn [String.append]. rewrite (run_step _ _ _ [] (LNone false)) by reflexivity. now rewrite pre_nil, R.
Qed.
Lemma at_sp cl s l : ArgText cl s l -> ArgText cl (String " " s) l.
Proof.
  intros (P & L & us & R & A). split; [exact P|]. split; [|exists us; split; auto].
  - cbn. destruct s; [discriminate L|exact L].
  - intros r. cbn [String.append]. rewrite (run_step _ _ _ [] (LNone false)) by reflexivity. now rewrite pre_nil, R.
Qed.
Lemma at_cons cl x e s l : closer cl -> Code x e -> ArgText cl s l -> ArgText cl (x +++ String "," s) (e :: l).
Proof.
  intros C (P & ts & X & Q & F) (P2 & L & us & R & A). split; [rewrite plain_app, P; exact P2|]. split.
  - rewrite last_app. cbn. destruct s; [discriminate L|exact L].
  - exists (ts ++ TP "," :: us). split; [|now apply args_cons].
    intros r. rewrite sapp_assoc. cbn [String.append]. rewrite X by reflexivity.
    rewrite (run_step _ _ _ [TP ","] (LNone false)) by reflexivity. rewrite R, !pre_pre, <- app_assoc. reflexivity.
Qed.
Lemma at_last x e : Code x e -> ArgText ")" (x +++ ")") [e].
Proof.
  intros (P & ts & X & Q & F). split.
  { rewrite plain_app, P. reflexivity. }
  split; [apply last_app|]. exists (ts ++ [TP ")"]). split; [|apply args_last; auto].
  intros r. rewrite sapp_assoc. cbn [String.append].
  rewrite X by reflexivity. erewrite (run_step (LNone true) ")") by reflexivity. now rewrite pre_pre.
Qed.

(** ** Chains of method calls *)
Definition call := (string * list expr)%type.
Definition app1 (e : expr) (k : call) : expr := ECall (ESel e (fst k)) (snd k).

Definition Chain (s : string) (ks : list call) : Prop :=
  plain s = true /\
  (s = "" \/ (exists r, s = String "." r) /\ last_char s = Some ")"%char) /\
  exists ts, (forall r, run (LNone true) (s +++ r) = pre ts (run (LNone true) r)) /\ Posts ts (fun e => fold_left app1 ks e).

Lemma chain_nil : Chain "" [].
Proof. split; [reflexivity|]. split; [auto|]. exists []. split; [intros r; now rewrite pre_nil|exact posts_nil]. Qed.
Lemma chain_app a x b y : Chain a x -> Chain b y -> Chain (a +++ b) (x ++ y).
Proof.
  intros (P & A & ts & R & S) (P2 & A2 & ts2 & R2 & S2). split; [rewrite plain_app, P; exact P2|]. split.
  - destruct A as [-> | ((r & ->) & L)]; [exact A2|]. right. split; [cbn; eauto|].
    destruct A2 as [-> | ((r2 & ->) & L2)]; [now rewrite sapp_nil|]. now rewrite last_app.
  - exists (ts ++ ts2). split.
    + intros r. rewrite sapp_assoc, R, R2, pre_pre. reflexivity.
    + intros e0 r e r' H. rewrite <- app_assoc. apply S, S2. now rewrite fold_left_app in H.
Qed.
Lemma ident_keyword m : ident m = true -> keyword m = false.
Proof. unfold ident. destruct m; [discriminate|]. rewrite !andb_true_iff, negb_true_iff. tauto. Qed.

Lemma chain_call m s l : ident m = true -> plain m = true -> ArgText ")" s l -> Chain (String "." (m +++ String "(" s)) [(m, l)].
Proof.
  intros I P (P2 & L & us & R & A). assert (K : keyword m = false) by now apply ident_keyword.
  split; [change (plain (m +++ String "(" s) = true); rewrite plain_app, P; exact P2|]. split.
  - right. split; [eauto|]. change (String "." (m +++ String "(" s)) with ("." +++ (m +++ String "(" s)).
    rewrite last_app_some by (destruct m; discriminate). rewrite last_app. cbn. destruct s; [discriminate L|exact L].
  - exists (TP "." :: TId m :: TP "(" :: us). split; [|now apply (posts_call m us l)].
    intros r. cbn [String.append]. rewrite (run_step _ _ _ [TP "."] (LNone false)) by reflexivity.
    rewrite sapp_assoc. cbn [String.append]. rewrite lexes_id_gen by auto.
    rewrite (run_step _ _ _ [TP "("] (LNone false)) by reflexivity. rewrite R, !pre_pre. reflexivity.
Qed.
Lemma chain_call_nl m s l : ident m = true -> plain m = true -> ArgText ")" s l -> Chain (String "." (String newline (m +++ String "(" s))) [(m, l)].
Proof.
  intros I P (P2 & L & us & R & A). assert (K : keyword m = false) by now apply ident_keyword.
  split; [change (plain (m +++ String "(" s) = true); rewrite plain_app, P; exact P2|]. split.
  - right. split; [eauto|]. change (String "." (String newline (m +++ String "(" s))) with (("." +++ nl) +++ (m +++ String "(" s)).
    rewrite last_app_some by (destruct m; discriminate). rewrite last_app. cbn. destruct s; [discriminate L|exact L].
  - exists (TP "." :: TId m :: TP "(" :: us). split; [|now apply (posts_call m us l)].
    intros r. cbn [String.append]. rewrite (run_step _ _ _ [TP "."] (LNone false)) by reflexivity.
    rewrite (run_step _ _ _ [] (LNone false)) by reflexivity.
    rewrite sapp_assoc. cbn [String.append]. rewrite lexes_id_gen by auto.
    rewrite (run_step _ _ _ [TP "("] (LNone false)) by reflexivity. rewrite R, !pre_pre. reflexivity.
Qed.

(** "x.f(...).g(...)": an expression *)
Lemma code_chain x s ks : ident x = true -> plain x = true -> Chain s ks -> s <> "" -> Code (x +++ s) (fold_left app1 ks (EId x)).
Proof.
  intros I P (P2 & A & ts & R & S) N. split; [rewrite plain_app, P; exact P2|].
  destruct A as [A|((r & ->) & L)]; [congruence|].
  exists (TId x :: ts). split; [|split; [|exact Logic.I]].
  - apply lexes_c. intros b r2. rewrite sapp_assoc. cbn [String.append] in *. rewrite lexes_id_gen by auto.
    rewrite (R r2), pre_pre. reflexivity.
  - apply (parses_posts x ts (fun e => fold_left app1 ks e)); auto. now apply ident_keyword.
Qed.
Lemma chain_last x s ks : Chain s ks -> s <> "" -> last_char (x +++ s) <> Some newline.
Proof.
  intros (_ & [A|(A & L)] & _) N; [congruence|]. rewrite last_app_some by auto. rewrite L. discriminate.
Qed.

(** "x.y" *)
Lemma code_sel x y : ident x = true -> plain x = true -> ident y = true -> plain y = true -> Code (x +++ "." +++ y) (ESel (EId x) y).
Proof.
  intros I P I2 P2. split; [rewrite !plain_app, P, P2; reflexivity|]. exists [TId x; TP "."; TId y]. split; [|split; [|exact Logic.I]].
  - intros b k r D. rewrite !sapp_assoc. cbn [String.append]. rewrite lexes_id_gen by auto.
    rewrite (run_step _ _ _ [TP "."] (LNone false)) by reflexivity. rewrite lexes_id_gen by auto. rewrite !pre_pre. reflexivity.
  - intros r N. cbn [app]. apply px_id; [now apply ident_keyword|]. apply pp_sel; [now apply ident_keyword|]. now apply pp_stop.
Qed.

(** "[]jsval.Constraint{...}" *)
Lemma code_slice s l : ArgText "}" s l -> Code ("[]jsval.Constraint{" +++ s) (ESlice "jsval" "Constraint" l).
Proof.
  intros (P & L & us & R & A). split; [exact P|].
  exists (TP "[" :: TP "]" :: TId "jsval" :: TP "." :: TId "Constraint" :: TP "{" :: us). split; [|split; [now apply parses_slice|cbn; split; congruence]].
  apply lexes_c. intros b r. rewrite sapp_assoc, run_app. 
  replace (run (LNone b) "[]jsval.Constraint{") with (Some ([TP "["; TP "]"; TId "jsval"; TP "."; TId "Constraint"; TP "{"]%char, LNone false)) by now destruct b.
  rewrite R, pre_pre. reflexivity.
Qed.

(** ** Evaluating a chain *)
Definition ev1 (o : option (value * estate)) (k : call) : option (value * estate) :=
  match o with
  | None => None
  | Some (v, st) => match evals eval (snd k) st with Some (vs, st2) => call_method v (fst k) vs st2 | None => None end
  end.
Lemma eval_chain ks : forall e st, is_pkg e = false -> eval (fold_left app1 ks e) st = fold_left ev1 ks (eval e st).
Proof.
  induction ks as [|[m l] ks IH]; intros e st N; [reflexivity|]. cbn [fold_left].
  rewrite IH by reflexivity. f_equal. unfold app1. cbn [fst snd eval]. rewrite N. unfold ev1. cbn [fst snd].
  destruct (eval e st) as [[v st1]|]; reflexivity.
Qed.
(** jsval.f(l) followed by method calls *)
Lemma eval_jsval f l ks st : eval (fold_left app1 ((f, l) :: ks) (EId "jsval")) st =
  fold_left ev1 ks (match evals eval l st with Some (vs, st') => option_map (fun v => (v, st')) (call_fun f vs) | None => None end).
Proof. cbn [fold_left]. rewrite eval_chain by reflexivity. reflexivity. Qed.

Lemma evals_one e st v st' : eval e st = Some (v, st') -> evals eval [e] st = Some ([v], st').
Proof. intros H. cbn. now rewrite H. Qed.
