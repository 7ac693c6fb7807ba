(** A schema taken through the builder, the generator and the generated code (C65), and what
    goes wrong for schemas the generator cannot express. *)
From Verif Require Import Base GoFloat FloatSpec FloatProofs GoValue Maybe Formats HostSpec Constraint StructInfo Validate Fuel Reach Terminate ConstrInd Local
  Refuted Builder BuildSpec BuildProofs BuildRefs BuildErr Spec SpecSound SpecMain Scalars DocSpec Height SchemaSpec SchemaForm SchemaRegular SchemaMeans SchemaMain BuildCases
  GoText GoLang GoEval Generator GenLex GenParse GenCode GenLike GenSpec GenFaith GenRound GenObj GenMain GenProcess GenTheorems GenCases EndToEnd.
Open Scope Z_scope.
Open Scope string_scope.
Open Scope list_scope.
Local Ltac splits := repeat match goal with |- _ /\ _ => split end.

(** ** The tree of BuildCases.v *)
Example tree_codable : codable names_t (Sch tree).
Proof.
  intros c Hs. pose proof (tree_sub _ Hs) as (c' & Q & I). injection Q as <-. split.
  - intros R. cbn in I. repeat destruct I as [<-|I]; try contradiction; try (now destruct R); apply np; reflexivity.
  - intros R. constructor.
    + cbn in I. repeat destruct I as [<-|I]; try contradiction; reflexivity.
    + cbn in I. repeat destruct I as [<-|I]; try contradiction; first [reflexivity|discriminate].
    + intros T. cbn in I. repeat destruct I as [<-|I]; try contradiction; cbn in T; try (repeat destruct T as [T|T]; discriminate || contradiction);
        (splits; [left; reflexivity|intros z; try discriminate|intros z; try discriminate|apply np; reflexivity|intros rx; try discriminate|intros e; try (intros []; fail)]).
      * intros [= <-]. apply np. reflexivity.
      * intros [= <-]. reflexivity.
      * intros [<-|[<-|[]]]; (eexists; split; [reflexivity|apply np; reflexivity]).
    + intros T. cbn in I. repeat destruct I as [<-|I]; try contradiction; cbn in T; try (repeat destruct T as [T|T]; discriminate || contradiction).
      splits; auto. intros f [H|H]; discriminate.
    + intros T. cbn in I. repeat destruct I as [<-|I]; try contradiction; cbn in T; try (repeat destruct T as [T|T]; discriminate || contradiction).
      splits; auto. intros f [H|H]; [injection H as <-; reflexivity|discriminate].
    + intros T. cbn in I. repeat destruct I as [<-|I]; try contradiction; cbn in T; try (repeat destruct T as [T|T]; discriminate || contradiction).
      splits; [discriminate|intros z [= <-]; reflexivity|discriminate].
    + intros T. cbn in I. repeat destruct I as [<-|I]; try contradiction; cbn in T; try (repeat destruct T as [T|T]; discriminate || contradiction).
      splits; try reflexivity; try discriminate.
      * intros k H. cbn in H. repeat destruct H as [<-|H]; try contradiction; apply np; reflexivity.
      * intros p x H. cbn in H. destruct H as [H|[]]. injection H as <- <-. apply np. reflexivity.
      * repeat constructor. intros [].
      * intros k [<-|[]]. apply np. reflexivity.
      * intros k l [H|[]]. injection H as <- <-. split; [apply np; reflexivity|]. intros d [<-|[]]. apply np. reflexivity.
Qed.

(** the code generated for it, in every order: V0 always decides, accepts oak and rejects elm *)
Example tree_code : forall wg, exists code wg' st j,
  process G0 [unnamed tree_c tree_refs ["#"]] wg = GOk (code, wg') /\ run_go code = Some st /\
  sget "V0" (e_vars st) = Some (VJ j) /\
  (forall addr, exists k, forall r x', outcomes env_t (run_refs st) (j_name j) addr (j_root j) k oak r x' -> r = Pass) /\
  (forall addr, exists k, forall r x', outcomes env_t (run_refs st) (j_name j) addr (j_root j) k elm r x' -> exists m, r = Fail m).
Proof.
  intros wg. destruct tree_sorted as [S1 S2]. destruct tree_steady as [T1 T2]. destruct trees_json as [J1 J2]. destruct tree_verdicts as [V1 V2].
  destruct (schema_to_code env_t G0 names_t (Sch tree) true 10 [] tree_c tree_refs ["#/definitions/pos"] ["#"] S1 S2 tree_builds (tree_plain env_t eq_refl) tree_codable)
    with (wg := wg) as (code & wg' & st & j & P & R & S & _ & M & T).
  { intros r x [<-|[]] H. cbn in H. now injection H as <-. }
  assert (O : forall x addr, SchemaSpec.json x -> SchemaSpec.one_byte x -> exists k, forall r x',
    outcomes env_t (run_refs st) (j_name j) addr (j_root j) k x r x' ->
    (r = Pass /\ ~ Invalid env_t names_t (Sch tree) (Sch tree) x) \/ ((exists m, r = Fail m) /\ ~ Valid env_t names_t (Sch tree) (Sch tree) x)).
  { intros x addr J B. destruct (T T1 T2 x addr J (fun _ => B)) as [k K]. exists k. intros r x' H.
    destruct (M x addr k r x' J (fun _ => B) H (K r x' H)) as [(? & _ & ?)|(? & _ & ?)]; auto. }
  exists code, wg', st, j. splits; auto.
  - intros addr. destruct (O oak addr J1 (one_byte_texts oak eq_refl)) as [k K]. exists k. intros r x' H.
    destruct (K r x' H) as [(? & _)|(_ & N)]; [assumption|now destruct N].
  - intros addr. destruct (O elm addr J2 (one_byte_texts elm eq_refl)) as [k K]. exists k. intros r x' H.
    destruct (K r x' H) as [(_ & N)|(? & _)]; [now destruct N|assumption].
Qed.

(** ** The property as first stated *)
(** whatever the code generated for a plain schema accepts is valid against the schema, and
    whatever it rejects is not *)
Definition schema_to_code_full : Prop := forall E G D s bytes n w c rf log wg code wg' st j,
  BuildSpec.Sorted s -> (forall m s', BuildSpec.lookup D m = Some s' -> BuildSpec.Sorted s') ->
  build_with n D s w = Built c rf log -> all_plain E D s bytes s ->
  process G [unnamed c rf []] wg = GOk (code, wg') -> run_go code = Some st -> sget "V0" (e_vars st) = Some (VJ j) ->
  forall x addr k r x', SchemaSpec.json x -> (bytes = true -> SchemaSpec.one_byte x) ->
    outcomes E (run_refs st) (j_name j) addr (j_root j) k x r x' -> r <> OOF ->
    (r = Pass <-> Valid E D s s x).

(** {"type": "number", "multipleOf": 2} *)
Definition evens : scfg := with_mult (Some (f64_of_Z 2)) (with_type [TNumber] blank).

Lemma evens_sub x : Sub no_names (Sch evens) (Sch evens) x -> x = Sch evens.
Proof.
  induction 1 as [|c x H IH R K|c x H IH R K]; auto.
  - injection IH as ->. exfalso. inversion K; cbn in *; try discriminate; try contradiction;
      repeat match goal with H : _ \/ _ |- _ => destruct H | H : exists _, _ |- _ => destruct H | H : _ /\ _ |- _ => destruct H end; try discriminate; try contradiction.
  - injection IH as ->. now destruct R.
Qed.
Lemma evens_plain E : all_plain E no_names (Sch evens) false (Sch evens).
Proof.
  intros c H _. apply evens_sub in H. injection H as ->.
  constructor; cbn; try discriminate; try (intros; contradiction); auto; try (intros; discriminate).
  - left. discriminate.
  - intros H. lia.
  - constructor.
  - intros f [= <-]. split; [reflexivity|]. split; [eexists; vm_compute; reflexivity|]. vm_compute. discriminate.
  - repeat split; discriminate.
  - intros k s1 s2 [H|(p & [] & _)]. discriminate.
Qed.
Theorem schema_to_code_refuted : ~ schema_to_code_full.
Proof.
  intros F.
  assert (J3 : SchemaSpec.json (num 3)) by json_tac.
  assert (So : BuildSpec.Sorted (Sch evens)).
  { constructor; cbn; try constructor; intros; contradiction. }
  assert (R : exists m v' o', Runs (with_refs env_t []) (bc (Sch evens)) (num 3) [] (Fail m, v', o')) by (do 3 eexists; run 10%nat).
  destruct R as (m & v' & o' & R).
  assert (NV : ~ Valid env_t no_names (Sch evens) (Sch evens) (num 3)).
  { destruct (built_means env_t no_names (Sch evens) false 10%nat [] (bc (Sch evens)) [] [] So ltac:(intros; discriminate) eq_refl (evens_plain env_t)
      (num 3) [] _ _ _ J3 ltac:(discriminate) R) as [(Q & _)|(_ & _ & N)]; [discriminate|exact N]. }
  assert (P : exists code wg' st j, process G0 [unnamed (bc (Sch evens)) [] []] [] = GOk (code, wg') /\ run_go code = Some st /\
    sget "V0" (e_vars st) = Some (VJ j) /\ exists x', outcomes env_t (run_refs st) (j_name j) "" (j_root j) 10 (num 3) Pass x').
  { do 4 eexists. split; [vm_compute; reflexivity|]. split; [vm_compute; reflexivity|]. split; [vm_compute; reflexivity|].
    eexists. exists []. eexists. vm_compute. reflexivity. }
  destruct P as (code & wg' & st & j & P1 & P2 & P3 & x' & P4).
  apply NV. apply (F env_t G0 no_names (Sch evens) false 10%nat [] (bc (Sch evens)) [] [] [] code wg' st j So ltac:(intros; discriminate) eq_refl (evens_plain env_t)
    P1 P2 P3 (num 3) "" 10%nat Pass x' J3 ltac:(discriminate) P4 ltac:(discriminate)). reflexivity.
Qed.




(** ** Two schemas in one file: the tree, and a list sharing one of its definitions *)
Definition pile : scfg := with_maxItems (Some 2) (with_items (Some (false, [Sch ref_pos])) (with_type [TArray] blank)).
Definition pile_c : constr := bc (Sch pile).
Definition pile_refs : refs := [("#/definitions/pos", bc (Sch pos_s))].
Example pile_builds : build_with 10 names_t (Sch pile) [] = Built pile_c pile_refs ["#/definitions/pos"].
Proof. vm_compute. reflexivity. Qed.
Lemma pile_sub x : Sub names_t (Sch pile) (Sch pile) x -> exists c, x = Sch c /\ In c [pile; ref_pos; pos_s].
Proof.
  induction 1 as [|c x _ (c' & Q & I) R K|c x _ (c' & Q & I) R Ds].
  - exists pile. split; [reflexivity|now left].
  - injection Q as <-. cbn in I. repeat destruct I as [<-|I]; try contradiction; destruct K as [x I|x _ I|x _ I]; cbn in I; try contradiction.
    destruct I as [<-|[]]. eexists. split; [reflexivity|]. right. now left.
  - injection Q as <-. cbn in I. repeat destruct I as [<-|I]; try contradiction; try (exfalso; now apply R).
    inversion Ds as [|n s' N L]; subst. vm_compute in L. injection L as <-. exists pos_s. split; [reflexivity|right; right; now left].
Qed.
Lemma pile_plain E bytes : all_plain E names_t (Sch pile) bytes (Sch pile).
Proof.
  intros c H R. pose proof H as H0. apply pile_sub in H0 as (c' & Q & I). injection Q as <-.
  assert (KC : forall x, Kid c x -> clean names_t (Sch pile) x).
  { intros x K c' H' _. assert (S' : Sub names_t (Sch pile) (Sch pile) (Sch c')) by (eapply Sub_trans; [|exact H']; eapply sub_kid; eauto).
    apply pile_sub in S' as (c2 & Q & I2). injection Q as <-. cbn in I2. repeat destruct I2 as [<-|I2]; try contradiction; reflexivity. }
  cbn in I. destruct I as [<-|[<-|[<-|[]]]]; [|discriminate|].
  - constructor; cbn; try discriminate; try (intros; contradiction); auto; try (intros; discriminate); try (left; discriminate); try (repeat split; discriminate).
    + constructor.
    + intros n [= <-]. lia.
    + intros k s1 s2 [H1|(p & [] & _)]. discriminate.
  - constructor; cbn; try discriminate; try (intros; contradiction); auto; try (intros; discriminate); try (left; discriminate); try (repeat split; discriminate).
    + constructor.
    + intros f [= <-]. split; [reflexivity|]. eexists. vm_compute. reflexivity.
    + intros k s1 s2 [H1|(p & [] & _)]. discriminate.
Qed.
Lemma pile_codable : codable names_t (Sch pile).
Proof.
  intros c H. apply pile_sub in H as (c' & Q & I). injection Q as <-. cbn in I. destruct I as [<-|[<-|[<-|[]]]].
  - split; [intros N; now destruct N|]. intros _. constructor; cbn; try reflexivity; try discriminate; try (intros [H|[]]; discriminate).
    intros _. splits; try discriminate. intros z [= <-]. reflexivity.
  - split; [intros _; apply np; reflexivity|discriminate].
  - split; [intros N; now destruct N|]. intros _. constructor; cbn; try reflexivity; try discriminate; try (intros [H|[]]; discriminate).
    intros _. splits; auto. intros f [[= <-]|H]; [reflexivity|discriminate].
Qed.
Definition tree_v : validator := {| v_name := "Tree"; v_root := tree_c; v_refs := tree_refs; v_same := ["#"] |}.
Definition pile_v : validator := unnamed pile_c pile_refs [].
Definition both : list (resolver * schema * validator) := [(names_t, Sch tree, tree_v); (names_t, Sch pile, pile_v)].
Lemma both_merge : merge_refs (map snd both) = tree_refs.
Proof. vm_compute. reflexivity. Qed.
Lemma pile_sorted : BuildSpec.Sorted (Sch pile).
Proof.
  assert (Z : forall c, sc_props c = [] -> sc_pats c = [] -> sc_depNames c = [] -> sc_depSchemas c = [] ->
    (forall x, In x (comb_kids c ++ array_kids c ++ object_kids c) -> BuildSpec.Sorted x) -> BuildSpec.Sorted (Sch c)).
  { intros c P1 P2 P3 P4 K. constructor; rewrite ?P1, ?P2, ?P3, ?P4; auto; constructor. }
  apply Z; try reflexivity. intros x I. cbn in I. destruct I as [<-|[]].
  apply Z; try reflexivity. intros x [].
Qed.
Example both_generated : forall wg, exists code wg' st, process G0 (map snd both) wg = GOk (code, wg') /\ run_go code = Some st /\
  (exists j, sget "Tree" (e_vars st) = Some (VJ j) /\ speaks_for env_t names_t (Sch tree) true (run_refs st) "Tree" (j_root j)) /\
  (exists j, sget "V1" (e_vars st) = Some (VJ j) /\ speaks_for env_t names_t (Sch pile) true (run_refs st) "V1" (j_root j)).
Proof.
  intros wg. destruct tree_sorted as [S1 S2].
  destruct (schemas_to_code env_t G0 true both) with (wg := wg) as (code & wg' & st & P & R & K).
  - intros D s v [Q|[Q|[]]]; injection Q as <- <- <-; splits; auto.
    + exists 10%nat, [], ["#/definitions/pos"]. exact tree_builds.
    + apply tree_plain. reflexivity.
    + exact tree_codable.
    + exact pile_sorted.
    + exists 10%nat, [], ["#/definitions/pos"]. exact pile_builds.
    + apply pile_plain.
    + exact pile_codable.
  - split; [vm_compute; repeat constructor; cbn; intuition discriminate|].
    intros n [<-|[<-|[]]]; (split; [reflexivity|]; split; [reflexivity|]; intros _; split; [discriminate|]); intros i _; discriminate.
  - intros v r c [<-|[<-|[]]] I H; [|destruct I]. destruct I as [<-|[]]. rewrite both_merge in H. cbn in H. now injection H as <-.
  - assert (A : forall v, In v (map snd both) -> forall m x, sget m (v_refs v) = Some x -> sget m tree_refs = Some x).
    { intros v [<-|[<-|[]]] m x H; cbn [v_refs tree_v] in H; [exact H|]. cbn in H. destruct (String.eqb m "#/definitions/pos") eqn:Q; [|discriminate].
      injection H as <-. apply String.eqb_eq in Q. subst. reflexivity. }
    intros v v' m x x' I I' H H'. apply (A v I) in H. apply (A v' I') in H'. congruence.
  - exists code, wg', st. splits; auto.
    + destruct (K 0%nat _ _ _ eq_refl) as (j & J1 & J2 & J3). exists j. rewrite J2 in J3. auto.
    + destruct (K 1%nat _ _ _ eq_refl) as (j & J1 & J2 & J3). exists j. rewrite J2 in J3. auto.
Qed.

(** ** Reference names that clash *)
(** generating validators together preserves each of them *)
Definition together_full : Prop := forall E G vs wg code wg' st i v j,
  names_ok vs -> contents_ok vs -> (forall u, In u vs -> faithful (v_root u) /\ forall m x, sget m (v_refs u) = Some x -> faithful x) ->
  process G vs wg = GOk (code, wg') -> run_go code = Some st -> nth_error vs i = Some v ->
  sget (v_name (Generator.named i v)) (e_vars st) = Some (VJ j) ->
  forall addr k x r x', outcomes E (own_refs v) (j_name j) addr (v_root v) k x r x' -> outcomes E (run_refs st) (j_name j) addr (j_root j) k x r x'.

(** {"type": "object", "properties": {"next": {"$ref": "#"}}} and {"type": "array", "items": {"$ref": "#"}} *)
Definition chain_s : scfg := with_props [("next", Sch ref_root)] (with_type [TObject] blank).
Definition nest_s : scfg := with_items (Some (false, [Sch ref_root])) (with_type [TArray] blank).
Definition chain_v : validator := unnamed (bc (Sch chain_s)) [("#", bc (Sch chain_s))] ["#"].
Definition nest_v : validator := unnamed (bc (Sch nest_s)) [("#", bc (Sch nest_s))] [].
Example clash_built : build_with 10 no_names (Sch chain_s) [] = Built (v_root chain_v) (v_refs chain_v) [] /\
  build_with 10 no_names (Sch nest_s) [] = Built (v_root nest_v) (v_refs nest_v) [].
Proof. split; vm_compute; reflexivity. Qed.
Lemma clash_emittable : emittable true (v_root chain_v) /\ emittable true (v_root nest_v).
Proof.
  split; cbn.
  - splits; auto; try exact Logic.I; try (apply np; reflexivity); try constructor; try (repeat constructor).
  - splits; auto. right. split; [reflexivity|apply np; reflexivity].
Qed.
Lemma clash_faithful : faithful (v_root chain_v) /\ faithful (v_root nest_v).
Proof. split; cbn; splits; auto; try lia; try exact Logic.I. Qed.
Theorem together_refuted : ~ together_full.
Proof.
  intros F. destruct clash_emittable as [E1 E2]. destruct clash_faithful as [F1 F2].
  assert (P : exists code wg' st j, process G0 [chain_v; nest_v] [] = GOk (code, wg') /\ run_go code = Some st /\
    sget "V1" (e_vars st) = Some (VJ j) /\ j_name j = "V1" /\
    (forall w, exists m w', jsval_validate 10 (set_refs env_t (run_refs st)) (j_name j) "" (j_root j) (jarr [jarr []]) w = (Fail m, jarr [jarr []], w'))).
  { do 4 eexists. split; [vm_compute; reflexivity|]. split; [vm_compute; reflexivity|]. split; [vm_compute; reflexivity|]. split; [reflexivity|].
    intros w. do 2 eexists. vm_compute. reflexivity. }
  destruct P as (code & wg' & st & j & P1 & P2 & P3 & P4 & P5).
  destruct (F env_t G0 [chain_v; nest_v] [] code wg' st 1%nat nest_v j) with (addr := "") (k := 10%nat) (x := jarr [jarr []]) (r := Pass) (x' := jarr [jarr []]) as (w & w' & H); auto.
  - split; [vm_compute; repeat constructor; cbn; intuition discriminate|].
    intros n [<-|[<-|[]]]; (split; [reflexivity|]; split; [reflexivity|]; intros _; split; [discriminate|]); intros i _; discriminate.
  - assert (M : merge_refs [chain_v; nest_v] = [("#", v_root chain_v)]) by (vm_compute; reflexivity). split.
    + unfold has_refs. rewrite M. intros v [<-|[<-|[]]]; (split; [assumption|]); intros r c; [intros [<-|[]] H; cbn in H; now injection H as <-|intros []].
    + rewrite M. intros n c H. cbn [sget] in H. destruct (String.eqb n "#"); [now injection H as <-|discriminate].
  - intros u [<-|[<-|[]]]; (split; [assumption|]); intros m x H; cbn [v_refs chain_v nest_v unnamed sget] in H; (destruct (String.eqb m "#"); [now injection H as <-|discriminate]).
  - exists []. eexists. vm_compute. reflexivity.
  - destruct (P5 w) as (m & w2 & Q). rewrite Q in H. discriminate.
Qed.
