(** The jsval command (C67-C69). *)
From Verif Require Import Base GoFloat FloatSpec FloatProofs GoValue Maybe Formats HostSpec Constraint StructInfo Validate Fuel Reach Terminate ConstrInd Local
  Builder BuildSpec BuildProofs BuildRefs BuildErr Spec SpecSound SpecMain Scalars DocSpec Height SchemaSpec SchemaForm SchemaRegular SchemaMeans SchemaMain
  GoText GoLang GoEval Generator GenLex GenParse GenCode GenLike GenSpec GenFaith GenRound GenObj GenMain GenProcess GenTheorems EndToEnd Cli.
Open Scope Z_scope.
Open Scope string_scope.
Open Scope list_scope.
Local Ltac splits := repeat match goal with |- _ /\ _ => split end.

(** ** "#" is the root unless it was built as a definition *)
Definition hash_ok (c : constr) (st : cstate) : Prop := forall x, sget "#" (c_refs st) = Some x -> x = c \/ In "#" (c_log st).
Lemma range_hash c n body : (forall k st st', hash_ok c st -> body k st = COk st' -> hash_ok c st') ->
  forall m, (m <= n)%nat -> forall start visited st st', hash_ok c st -> range_refs m body start visited st = COk st' -> hash_ok c st'.
Proof.
  intros HB m _. induction m as [|m IH]; intros start visited st st' H R; [discriminate|]. cbn [range_refs] in R.
  destruct (next (c_w st)) as [i w']. set (st1 := {| c_refs := c_refs st; c_R := c_R st; c_w := w'; c_log := c_log st |}) in *.
  assert (H1 : hash_ok c st1) by exact H.
  destruct (filter (fun k => mem k start) _) as [|d l].
  - destruct (nth_error _ i) as [k|]; [|inversion R; subst; exact H1].
    destruct (body k st1) as [st2| | |] eqn:B; try discriminate. apply (IH _ _ _ _ (HB _ _ _ H1 B) R).
  - destruct (body (nth i _ d) st1) as [st2| | |] eqn:B; try discriminate. apply (IH _ _ _ _ (HB _ _ _ H1 B) R).
Qed.
Lemma compile_hash c D n : forall k st st', hash_ok c st -> compile n D k st = COk st' -> hash_ok c st'.
Proof.
  induction n as [|n IH]; intros k st st' H C; [discriminate|]. cbn [compile] in C.
  destruct (sget k (c_refs st)); [inversion C; subst; exact H|].
  set (b := match D k with RError m => GErr m | RSchema s => build s (c_R st) (c_w st) | RMap (inl s) => build s (c_R st) (c_w st) | RMap (inr m) => GErr m | ROther => build SNil (c_R st) (c_w st) end) in *.
  destruct b as [[[x R'] w']| |]; try discriminate.
  apply (range_hash c n (compile n D) IH n (le_n n)) in C; auto.
  intros y Hy. cbn [c_refs c_log] in *. destruct (String.eqb "#" k) eqn:Q.
  - apply String.eqb_eq in Q. subst. right. now left.
  - apply String.eqb_neq in Q. rewrite sget_sset_other in Hy by auto. destruct (H y Hy); auto. right. now right.
Qed.
Lemma hash_root n D s w c rf log x : build_with n D s w = Built c rf log -> sget "#" rf = Some x -> ~ In "#" log -> x = c.
Proof.
  unfold build_with. destruct s as [|c0]; [discriminate|]. destruct (build (Sch c0) [] w) as [[[c1 R] w1]| |]; try discriminate.
  intros B Hx NI.
  assert (K : forall rf0 R1, (forall y, sget "#" rf0 = Some y -> y = c1) ->
    match R1 with [] => Built c1 rf0 [] | _ :: _ => match range_refs n (compile n D) (keys R1) [] {| c_refs := rf0; c_R := R1; c_w := w1; c_log := [] |} with
      | COk st => Built c1 (c_refs st) (c_log st) | CErr m => BErr m | CPanic m => BPanic m | COOF => BOOF end end = Built c rf log -> x = c).
  { intros rf0 R1 H0 Q. destruct R1 as [|r R1]; [inversion Q; subst; auto|].
    destruct (range_refs n _ _ _ _) as [st| | |] eqn:RR; inversion Q; subst.
    apply (range_hash c n (compile n D) (compile_hash c D n) n (le_n n)) in RR; [|intros y Hy; left; now apply H0].
    destruct (RR x Hx); [assumption|contradiction]. }
  destruct (sget "#" R); eapply K; try exact B; cbn; intros y Q; congruence.
Qed.

(** ** The validators handed to the generator *)
Notation product := (constr * Builder.refs * list string)%type.
Lemma combine_nth {A} (l : list A) : forall k i x, nth_error (combine (seq k (List.length l)) l) i = Some x <-> (fst x = k + i)%nat /\ nth_error l i = Some (snd x).
Proof.
  induction l as [|a l IH]; intros k [|i] [j x]; cbn; try (split; [discriminate|intros [_ H]; discriminate]).
  - rewrite Nat.add_0_r. split; [intros [= -> ->]; auto|intros [-> [= ->]]; reflexivity].
  - rewrite IH. cbn. rewrite Nat.add_succ_r. reflexivity.
Qed.
Definition the_validator (prefix : string) (ps : list product) (i : nat) (p : product) : validator :=
  {| v_name := numbered prefix i; v_root := fst (fst p); v_refs := snd (fst p);
     v_same := map fst (filter (is_root (negb (existsb has_hash (firstn i ps))) p) (merge_refs (map unnamed_of ps))) |}.
Lemma validators_nth prefix ps i : nth_error (validators prefix ps) i = option_map (the_validator prefix ps i) (nth_error ps i).
Proof.
  unfold validators. rewrite nth_error_map. unfold Builder.refs in *. destruct (nth_error (combine (seq 0 (List.length ps)) ps) i) as [[j [[c rf] log]]|] eqn:Q.
  - apply combine_nth in Q as [J Q]. cbn in J, Q. subst j. now rewrite Q.
  - destruct (nth_error ps i) as [p|] eqn:P; [|reflexivity]. exfalso.
    enough (nth_error (combine (seq 0 (List.length ps)) ps) i = Some (i, p)) by congruence. apply combine_nth. auto.
Qed.
Lemma validators_len prefix ps : List.length (validators prefix ps) = List.length ps.
Proof. unfold validators. rewrite map_length, combine_length, seq_length. lia. Qed.
Lemma nth_error_ext {A} : forall l l' : list A, (forall i, nth_error l i = nth_error l' i) -> l = l'.
Proof.
  induction l as [|a l IH]; intros [|b l'] H; auto; try (specialize (H 0%nat); discriminate).
  pose proof (H 0%nat) as H0. cbn in H0. injection H0 as ->. f_equal. apply IH. intros i. apply (H (S i)).
Qed.
Lemma merge_same_refs vs vs' : map v_refs vs = map v_refs vs' -> merge_refs vs = merge_refs vs'.
Proof.
  unfold merge_refs. generalize (@nil (string * constr)). revert vs'. induction vs as [|v vs IH]; intros [|v' vs'] m E; try discriminate; auto.
  injection E as E1 E2. cbn [fold_left]. rewrite E1. now apply IH.
Qed.
Lemma merge_validators prefix ps : merge_refs (validators prefix ps) = merge_refs (map unnamed_of ps).
Proof.
  apply merge_same_refs. apply nth_error_ext. intros i. rewrite !nth_error_map, validators_nth.
  destruct (nth_error ps i) as [[[c rf] log]|]; reflexivity.
Qed.
Lemma merge_app vs k : forall l1 v l2, vs = l1 ++ v :: l2 -> (forall u, In u l1 -> sget k (v_refs u) = None) -> forall x, sget k (v_refs v) = Some x ->
  sget k (merge_refs vs) = Some x.
Proof.
  intros l1 v l2 -> H x Hx. unfold merge_refs. rewrite fold_left_app.
  set (f := fun m v => fold_left (fun m e => match sget (fst e) m with Some _ => m | None => sset (fst e) (snd e) m end) (v_refs v) m).
  assert (N : forall l m, (forall u, In u l -> sget k (v_refs u) = None) -> sget k m = None -> sget k (fold_left f l m) = None).
  { induction l as [|u l IH]; intros m A B; cbn; auto. apply IH; [intros; apply A; now right|]. unfold f. rewrite merge_one, B. apply A. now left. }
  assert (K : forall l m y, sget k m = Some y -> sget k (fold_left f l m) = Some y).
  { induction l as [|u l IH]; intros m y A; cbn; auto. apply IH. unfold f. now rewrite merge_one, A. }
  cbn [fold_left]. apply K. unfold f at 1. rewrite merge_one. rewrite N; auto.
Qed.

Lemma validators_same_roots prefix (ps : list product) :
  (forall c rf log, In (c, rf, log) ps -> forall x, sget "#" rf = Some x -> ~ In "#" log -> x = c) ->
  same_roots (validators prefix ps).
Proof.
  intros H v r x I Ir Hx. apply In_nth_error in I as [i I]. rewrite validators_nth in I.
  destruct (nth_error ps i) as [[[c rf] log]|] eqn:P; [|discriminate]. cbn in I. injection I as <-. cbn [v_root v_same the_validator fst snd] in *.
  rewrite merge_validators in Hx. apply in_map_iff in Ir as ([r' y] & Q & Ir). cbn in Q. subst r'. apply filter_In in Ir as [Iy Ir].
  assert (y = x).
  { assert (S1 : ssorted (merge_refs (map unnamed_of ps))) by apply merge_sorted. apply nodup_sget in Iy; [|now apply ssorted_nodup]. congruence. }
  subst y. clear Iy.
  assert (G : (r =? "#") && negb (existsb has_hash (firstn i ps)) && mem "#" (keys rf) && negb (mem "#" log) = true -> x = c).
  { rewrite !andb_true_iff, !negb_true_iff. intros [[[R F] M] L]. apply String.eqb_eq in R. subst r.
    apply mem_In in M. apply sget_some_keys in M as [z Z].
    assert (X : sget "#" (merge_refs (map unnamed_of ps)) = Some z).
    { destruct (nth_error_split _ _ P) as (l1 & l2 & -> & LE). eapply merge_app with (l1 := map unnamed_of l1) (l2 := map unnamed_of l2) (v := unnamed_of (c, rf, log)).
      - rewrite map_app. reflexivity.
      - intros u Iu. apply in_map_iff in Iu as ([[c1 rf1] log1] & <- & Iu). cbn [v_refs unnamed_of].
        rewrite <- LE, firstn_app, Nat.sub_diag, firstn_all, app_nil_r in F.
        destruct (sget "#" rf1) eqn:S1; auto. exfalso. enough (existsb has_hash l1 = true) by congruence. apply existsb_exists. exists (c1, rf1, log1). split; auto.
        cbn. apply mem_In. apply sget_some_keys. eauto.
      - exact Z. }
    assert (x = z) by congruence. subst. apply (H c rf log); auto; [eapply nth_error_In; eauto|]. intros N. apply mem_In in N. congruence. }
  unfold is_root in Ir. cbn [fst snd] in Ir. destruct c, x; try reflexivity; now apply G.
Qed.

(** ** Their names *)
Definition base_name (prefix : string) : string := match prefix with EmptyString => "V" | _ => prefix end.
Definition member_name (prefix : string) (i : nat) : string := base_name prefix +++ dec_Z (Z.of_nat i).
(** an ASCII identifier that is not "R" followed by digits, the names of the generator's own variables *)
Definition good_prefix (p : string) : Prop :=
  match p with
  | EmptyString => True
  | String c r => id_start c = true /\ all_chars id_char r = true /\ forall ds, all_chars digit ds = true -> p <> "R" +++ ds
  end.
Lemma named_validator prefix ps i p : v_name (named i (the_validator prefix ps i p)) = member_name prefix i.
Proof.
  unfold named, the_validator, member_name, numbered. cbn [v_name]. destruct prefix; reflexivity.
Qed.
Lemma name_all_nth_error vs : forall i, nth_error (name_all vs) i = option_map (named i) (nth_error vs i).
Proof.
  intros i. unfold name_all. rewrite nth_error_map. destruct (nth_error (combine (seq 0 (List.length vs)) vs) i) as [[j v]|] eqn:Q.
  - apply combine_nth in Q as [J Q]. cbn in J, Q. subst. now rewrite Q.
  - destruct (nth_error vs i) as [v|] eqn:P; [|reflexivity]. exfalso.
    enough (nth_error (combine (seq 0 (List.length vs)) vs) i = Some (i, v)) by congruence. apply combine_nth. auto.
Qed.
Lemma validators_names prefix ps : map v_name (name_all (validators prefix ps)) = map (member_name prefix) (seq 0 (List.length ps)).
Proof.
  apply nth_error_ext. intros i. rewrite !nth_error_map, name_all_nth_error, validators_nth.
  destruct (nth_error ps i) as [p|] eqn:P; cbn [option_map].
  - assert (L : (i < List.length ps)%nat) by (apply nth_error_Some; congruence).
    rewrite named_validator. assert (Q : nth_error (seq 0 (List.length ps)) i = Some i).
    { rewrite nth_error_nth' with (d := 0%nat) by (now rewrite seq_length). now rewrite seq_nth. }
    now rewrite Q.
  - apply nth_error_None in P. assert (Q : nth_error (seq 0 (List.length ps)) i = None) by (apply nth_error_None; now rewrite seq_length). now rewrite Q.
Qed.
Lemma append_left a b c : a +++ b = a +++ c -> b = c.
Proof. induction a; cbn; [auto|]. intros [= H]. auto. Qed.
Lemma dec_digits i : (exists c r, dec_Z (Z.of_nat i) = String c r) /\ all_chars digit (dec_Z (Z.of_nat i)) = true.
Proof. destruct (dec_numeral (Z.of_nat i)) as (A & B & _); [lia|]. auto. Qed.
(** texts ending in a digit *)
Lemma ends_in_digit a i w : a +++ dec_Z (Z.of_nat i) = w -> all_chars (fun c => negb (digit c)) w = false.
Proof.
  intros <-. rewrite all_chars_app. destruct (dec_digits i) as ((c & r & Q) & D). rewrite Q in *. cbn in D. apply andb_true_iff in D as [D _]. cbn.
  rewrite D. cbn. apply andb_false_r.
Qed.
Lemma member_not a i l : forallb (all_chars (fun c => negb (digit c))) l = true -> mem (a +++ dec_Z (Z.of_nat i)) l = false.
Proof.
  intros F. apply mem_false. intros I. rewrite forallb_forall in F. specialize (F _ I). rewrite (ends_in_digit a i _ eq_refl) in F. discriminate.
Qed.
Lemma validators_names_ok prefix ps : good_prefix prefix -> names_ok (validators prefix ps).
Proof.
  intros GP. unfold names_ok. cbn zeta. rewrite validators_names. split.
  - apply FinFun.Injective_map_NoDup; [|apply seq_NoDup]. intros i j H. apply append_left in H. apply dec_inj in H; lia.
  - intros n I. apply in_map_iff in I as (i & <- & _). unfold member_name. destruct (dec_digits i) as ((dc & dr & Q) & D).
    assert (B : exists c r, base_name prefix = String c r /\ id_start c = true /\ all_chars id_char r = true /\ forall ds, all_chars digit ds = true -> String c r <> "R" +++ ds).
    { destruct prefix as [|c r]; [exists "V"%char, ""|exists c, r; cbn; auto]. splits; auto. intros ds _. discriminate. }
    destruct B as (c & r & -> & B1 & B2 & B3). splits.
    + change (String c r +++ dec_Z (Z.of_nat i)) with (String c (r +++ dec_Z (Z.of_nat i))). unfold ident. rewrite B1, all_chars_app, B2.
      assert (X : all_chars id_char (dec_Z (Z.of_nat i)) = true) by (eapply all_chars_imp; [|exact D]; intros z H; unfold id_char; now rewrite H, orb_true_r).
      rewrite X. cbn [andb]. apply negb_true_iff. unfold keyword. apply (member_not (String c r) i). reflexivity.
    + unfold reserved. apply (member_not (String c r) i). reflexivity.
    + intros _. split.
      * intros H. pose proof (ends_in_digit _ _ _ H) as X. discriminate.
      * intros j _ H. unfold ref_var in H. apply (B3 r).
        -- injection H as _ H. assert (X : all_chars digit (r +++ dec_Z (Z.of_nat i)) = true) by (rewrite H; apply dec_digits). rewrite all_chars_app in X. now apply andb_true_iff in X as [X _].
        -- injection H as -> _. reflexivity.
Qed.

(** ** Their references *)
Lemma built_consistent D (l : list (schema * product)) :
  (forall m s', BuildSpec.lookup D m = Some s' -> BuildSpec.Sorted s') ->
  (forall s c rf log, In (s, (c, rf, log)) l -> BuildSpec.Sorted s /\ exists n w, build_with n D s w = Built c rf log) ->
  (forall s p s' p', In (s, p) l -> In (s', p') l -> Referred D s "#" -> Referred D s' "#" -> s = s') ->
  forall s c rf log s' c' rf' log' m x x', In (s, (c, rf, log)) l -> In (s', (c', rf', log')) l ->
    sget m rf = Some x -> sget m rf' = Some x' -> x = x'.
Proof.
  intros SD HB HR s c rf log s' c' rf' log' m x x' I I' H H'.
  destruct (HB _ _ _ _ I) as (S1 & n & w & B). destruct (HB _ _ _ _ I') as (S2 & n' & w' & B').
  pose proof (build_outcome n D s w S1 SD) as O. rewrite B in O. destruct O as (_ & _ & _ & _ & K & Df).
  pose proof (build_outcome n' D s' w' S2 SD) as O. rewrite B' in O. destruct O as (_ & _ & _ & _ & K' & Df').
  destruct (Df m x H) as (t & T & _ & ->). destruct (Df' m x' H') as (t' & T' & _ & ->).
  assert (R : Referred D s m) by (apply K, sget_some_keys; eauto). assert (R' : Referred D s' m) by (apply K', sget_some_keys; eauto).
  f_equal. destruct (string_dec m "#") as [->|N].
  - assert (s = s') by (eapply HR; eauto). subst. eapply Def_fun; eauto.
  - inversion T; inversion T'; subst; try congruence.
Qed.

(** ** Building *)
Definition built_from (fuel : nat) (D : resolver) (s : schema) (p : product) : Prop :=
  exists w, build_with fuel D s w = Built (fst (fst p)) (snd (fst p)) (snd p).
Lemma build_each_spec fuel D ws ss : forall i,
  match build_each fuel D ws i ss with
  | BAll ps => Forall2 (built_from fuel D) ss ps
  | BStop e => exists s w, In s ss /\
      match build_with fuel D s w with Built _ _ _ => False | BErr _ => e = Exit 1 | BPanic m => e = Crash m | BOOF => e = Loops end
  end.
Proof.
  induction ss as [|s ss IH]; intros i; cbn [build_each]; [constructor|].
  destruct (build_with fuel D s (ws i)) as [c rf log|m|m|] eqn:B.
  2-4: exists s, (ws i); rewrite B; split; [now left|reflexivity].
  specialize (IH (S i)). destruct (build_each fuel D ws (S i) ss) as [ps|e].
  - constructor; [exists (ws i); exact B|exact IH].
  - destruct IH as (s' & w & I & H). exists s', w. split; [now right|exact H].
Qed.

(** ** The command succeeds and the code it writes is right *)
(** the text arrives where it should, and nothing else changes *)
Definition delivered (h : host) (o : copts) (text : string) (wd wd' : world) : Prop :=
  match o_outfile o with
  | EmptyString => wd' = {| w_files := w_files wd; w_stdout := w_stdout wd +++ h_write h "" text |}
  | f => wd' = {| w_files := sset f (h_write h f text) (w_files wd); w_stdout := w_stdout wd |}
  end.
Definition writable_out (h : host) (o : copts) : Prop := o_outfile o = "" \/ h_create h (o_outfile o) = true.
Definition readable (h : host) (o : copts) (wd : world) (m : list (string * gval)) (ss : list schema) : Prop :=
  exists text, h_open h (o_schema o) = true /\ sget (o_schema o) (w_files wd) = Some text /\
    h_decode h text = Some m /\ schemas h o text m = Some ss.

Lemma cli_readable h G fuel o ch wd m ss : readable h o wd m ss ->
  cli h G fuel (Some o) ch wd =
  match build_each fuel (h_names h m) (ch_build ch) 0 ss with
  | BStop e => (e, wd)
  | BAll ps => finish h G o (validators (o_prefix o) ps) (ch_gen ch) wd
  end.
Proof. intros (text & A & B & C & D). unfold cli. now rewrite A, B, C, D. Qed.

Lemma Forall2_nth {A B} (R : A -> B -> Prop) l l' : Forall2 R l l' -> forall i,
  match nth_error l i, nth_error l' i with Some a, Some b => R a b | None, None => True | _, _ => False end.
Proof. induction 1; intros [|i]; cbn; auto. apply IHForall2. Qed.

Theorem cli_generates h G E bytes fuel o ch wd m ss :
  readable h o wd m ss -> writable_out h o -> good_prefix (o_prefix o) ->
  let D := h_names h m in
  (forall k s, BuildSpec.lookup D k = Some s -> BuildSpec.Sorted s) ->
  (forall s, In s ss -> BuildSpec.Sorted s /\ sound D s /\ all_plain E D s bytes s /\ codable D s) ->
  (* at most one of the schemas refers to "#" *)
  (forall s s', In s ss -> In s' ss -> Referred D s "#" -> Referred D s' "#" -> s = s') ->
  forall e wd', cli h G fuel (Some o) ch wd = (e, wd') -> e <> Loops ->
  e = Exit 0 /\ exists code st, delivered h o code wd wd' /\ run_go code = Some st /\
    forall i s, nth_error ss i = Some s -> exists j,
      sget (member_name (o_prefix o) i) (e_vars st) = Some (VJ j) /\ j_name j = member_name (o_prefix o) i /\
      speaks_for E D s bytes (run_refs st) (j_name j) (j_root j).
Proof.
  intros RD WO GP D SD HS HH e wd' C NL. rewrite (cli_readable _ _ _ _ _ _ _ _ RD) in C. fold D in C.
  pose proof (build_each_spec fuel D (ch_build ch) ss 0) as B. destruct (build_each fuel D (ch_build ch) 0 ss) as [ps|e0].
  2: { exfalso. destruct B as (s & w & I & B). destruct (HS s I) as (S0 & SO & _). destruct (sound_not_bad D s S0 SO) as [N1 N2].
       pose proof (build_outcome fuel D s w S0 SD) as O. inversion C; subst. destruct (build_with fuel D s w) as [| | |] eqn:Q; auto.
       - apply N2. split; auto. intros ->. discriminate Q. }
  pose proof (Forall2_nth _ _ _ B) as FN.
  set (vs := validators (o_prefix o) ps) in *. set (items := map (fun e => (D, fst e, snd e)) (combine ss vs)).
  assert (LV : List.length vs = List.length ss) by (unfold vs; rewrite validators_len; clear - B; induction B; cbn; auto).
  assert (SN : map snd items = vs).
  { unfold items. rewrite map_map. cbn [snd]. apply nth_error_ext. intros i. rewrite nth_error_map.
    clear - LV. revert ss LV i. induction vs as [|v l IH]; intros [|s ss] L i; try discriminate; [now destruct i|]. destruct i; cbn; auto. }
  assert (NT : forall i s, nth_error ss i = Some s -> exists p, nth_error ps i = Some p /\ built_from fuel D s p /\ nth_error vs i = Some (the_validator (o_prefix o) ps i p)).
  { intros i s H. specialize (FN i). rewrite H in FN. destruct (nth_error ps i) as [p|] eqn:P; [|contradiction]. exists p. splits; auto. unfold vs. now rewrite validators_nth, P. }
  assert (NI : forall i s v, nth_error ss i = Some s -> nth_error vs i = Some v -> nth_error items i = Some (D, s, v)).
  { intros i s v H1 H2. unfold items. rewrite nth_error_map. enough (nth_error (combine ss vs) i = Some (s, v)) as -> by reflexivity.
    clear - H1 H2. clearbody vs. revert vs i H1 H2. induction ss as [|a l IH]; intros [|b l'] [|i] H1 H2; try discriminate; cbn in *; [congruence|auto]. }
  assert (IN : forall D' s v, In (D', s, v) items -> D' = D /\ exists i, nth_error ss i = Some s /\ nth_error vs i = Some v).
  { intros D' s v I. unfold items in I. apply in_map_iff in I as ([s1 v1] & Q & I). cbn in Q. inversion Q; subst. split; auto.
    clear - I. clearbody vs. revert vs I. induction ss as [|a l IH]; intros [|b l'] I; try contradiction. destruct I as [I|I].
    - inversion I; subst. now exists 0%nat.
    - destruct (IH _ I) as (i & H). now exists (S i). }
  assert (IV : forall v, In v vs -> exists s c rf log i, In s ss /\ nth_error ps i = Some (c, rf, log) /\ built_from fuel D s (c, rf, log) /\ v_refs v = rf /\ v_root v = c).
  { intros v I. apply In_nth_error in I as [i I]. assert (L : (i < List.length ss)%nat) by (rewrite <- LV; apply nth_error_Some; congruence).
    destruct (nth_error ss i) as [s|] eqn:S1; [|apply nth_error_None in S1; lia].
    destruct (NT i s S1) as ([[c rf] log] & P & BF & V). rewrite I in V. injection V as ->. exists s, c, rf, log, i. splits; auto. eapply nth_error_In; eauto. }
  destruct (schemas_to_code E G bytes items) with (wg := ch_gen ch) as (code & wg' & st & P & R & K).
  - intros D' s v I. apply IN in I as (-> & i & H1 & H2). destruct (NT i s H1) as ([[c rf] log] & P & (w & BF) & V). rewrite H2 in V. injection V as ->.
    destruct (HS s (nth_error_In _ _ H1)) as (A1 & A2 & A3 & A4). splits; auto. exists fuel, w, log. exact BF.
  - rewrite SN. now apply validators_names_ok.
  - rewrite SN. apply validators_same_roots. intros c rf log I x Hx NX. apply In_nth_error in I as [i I]. specialize (FN i). rewrite I in FN.
    destruct (nth_error ss i) as [s|]; [|contradiction]. destruct FN as [w FN]. eapply hash_root; eauto.
  - rewrite SN. intros v v' k x x' Iv Iv' H H'. destruct (IV v Iv) as (s & c & rf & log & i & Is & Pi & BF & <- & _). destruct (IV v' Iv') as (s' & c' & rf' & log' & i' & Is' & Pi' & BF' & <- & _).
    apply (built_consistent D [(s, (c, v_refs v, log)); (s', (c', v_refs v', log'))]) with (s := s) (c := c) (rf := v_refs v) (log := log) (s' := s') (c' := c') (rf' := v_refs v') (log' := log') (m := k); auto.
    + intros t c0 rf0 log0 [Q|[Q|[]]]; inversion Q; subst; (split; [now apply HS|]); [destruct BF as [w0 BF0]|destruct BF' as [w0 BF0]]; exists fuel, w0; exact BF0.
    + intros t p t' p' [Q|[Q|[]]] [Q'|[Q'|[]]]; inversion Q; inversion Q'; subst; auto.
    + now left.
    + right. now left.
  - rewrite SN in P. unfold finish in C. rewrite P in C.
    assert (W : (if match o_outfile o with EmptyString => true | f => h_create h f end then true else false) = true).
    { destruct WO as [-> | WO]; [reflexivity|]. destruct (o_outfile o); [reflexivity|]. now rewrite WO. }
    assert (Q : e = Exit 0 /\ delivered h o code wd wd').
    { unfold delivered. destruct (o_outfile o) as [|a f]; [inversion C; auto|]. destruct (h_create h (String a f)); [inversion C; auto|discriminate]. }
    destruct Q as [-> DV]. split; [reflexivity|]. exists code, st. splits; auto.
    intros i s H. destruct (NT i s H) as (p & Pi & BF & V). destruct (K i D s _ (NI i s _ H V)) as (j & J1 & J2 & J3).
    rewrite named_validator in J1, J2. exists j. rewrite J2 in *. auto.
Qed.

(** building ends when there are finitely many references *)
Theorem cli_ends h G o ch wd m ss U : readable h o wd m ss ->
  let D := h_names h m in
  (forall k s, BuildSpec.lookup D k = Some s -> BuildSpec.Sorted s) ->
  (forall s, In s ss -> BuildSpec.Sorted s /\ forall k, Referred D s k -> In k U) ->
  fst (cli h G (2 * List.length U + 3) (Some o) ch wd) <> Loops.
Proof.
  intros RD D SD HS. rewrite (cli_readable _ _ _ _ _ _ _ _ RD). fold D.
  pose proof (build_each_spec (2 * List.length U + 3) D (ch_build ch) ss 0) as B.
  destruct (build_each _ D (ch_build ch) 0 ss) as [ps|e0].
  - unfold finish. destruct (match o_outfile o with EmptyString => true | f => h_create h f end); [|discriminate].
    destruct (process G _ _) as [[t w]| |]; discriminate.
  - destruct B as (s & w & I & B). destruct (HS s I) as (S0 & F). pose proof (build_terminates D s U S0 SD F w) as T.
    cbn [fst]. destruct (build_with _ D s w); subst; try discriminate; [contradiction|congruence].
Qed.

(** ** What a failing run leaves behind *)
Theorem cli_failure h G fuel opts ch wd e wd' : cli h G fuel opts ch wd = (e, wd') -> e <> Exit 0 ->
  wd' = wd \/
  exists o m ss ps, opts = Some o /\ o_outfile o <> "" /\ readable h o wd m ss /\ Forall2 (built_from fuel (h_names h m)) ss ps /\
    (forall code w, process G (validators (o_prefix o) ps) (ch_gen ch) <> GOk (code, w)) /\
    wd' = {| w_files := sset (o_outfile o) "" (w_files wd); w_stdout := w_stdout wd |}.
Proof.
  unfold cli. destruct opts as [o|]; [|intros [= <- <-]; auto].
  destruct (h_open h (o_schema o)) eqn:OP; [|intros [= <- <-]; auto]. destruct (sget (o_schema o) (w_files wd)) as [text|] eqn:RD; [|intros [= <- <-]; auto].
  destruct (h_decode h text) as [m|] eqn:DC; [|intros [= <- <-]; auto].
  destruct (schemas h o text m) as [ss|] eqn:SC; [|intros [= <- <-]; auto].
  pose proof (build_each_spec fuel (h_names h m) (ch_build ch) ss 0) as B.
  destruct (build_each _ _ _ _ _) as [ps|e0]; [|intros [= <- <-]; auto].
  unfold finish.
  destruct (match o_outfile o with EmptyString => true | f => h_create h f end); [|intros [= <- <-]; auto].
  assert (RR : readable h o wd m ss) by (exists text; auto).
  destruct (process G _ (ch_gen ch)) as [[t w]|msg|msg] eqn:P; [intros [= <- <-] N; congruence| |];
    intros [= <- <-] _; (destruct (o_outfile o) as [|a f] eqn:Q; [now left|right; exists o, m, ss, ps; rewrite ?Q; splits; auto; try discriminate; intros; rewrite P; discriminate]).
Qed.

(** ** What a successful run leaves behind *)
Theorem cli_success h G fuel opts ch wd wd' : cli h G fuel opts ch wd = (Exit 0, wd') ->
  exists o m ss ps code w, opts = Some o /\ readable h o wd m ss /\ Forall2 (built_from fuel (h_names h m)) ss ps /\
    process G (validators (o_prefix o) ps) (ch_gen ch) = GOk (code, w) /\ delivered h o code wd wd'.
Proof.
  unfold cli. destruct opts as [o|]; [|discriminate].
  destruct (h_open h (o_schema o)) eqn:OP; [|discriminate]. destruct (sget (o_schema o) (w_files wd)) as [text|] eqn:RD; [|discriminate].
  destruct (h_decode h text) as [m|] eqn:DC; [|discriminate]. destruct (schemas h o text m) as [ss|] eqn:SC; [|discriminate].
  pose proof (build_each_spec fuel (h_names h m) (ch_build ch) ss 0) as B.
  destruct (build_each _ _ _ _ _) as [ps|e0].
  2: { intros [= -> <-]. destruct B as (s & w & _ & B). destruct (build_with _ _ s w); [contradiction|discriminate..]. }
  unfold finish. destruct (match o_outfile o with EmptyString => true | f => h_create h f end); [|discriminate].
  destruct (process G _ (ch_gen ch)) as [[t w]| |] eqn:P; try discriminate. intros [= <-].
  exists o, m, ss, ps, t, w. splits; auto; [exists text; auto|]. unfold delivered. destruct (o_outfile o); reflexivity.
Qed.
