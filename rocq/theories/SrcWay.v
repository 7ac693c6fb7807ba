(** From the text of the builder through the text of the generator and the file it writes to the
    text of Validate. *)
From Verif Require Import Base GoFloat GoValue Maybe Formats Constraint StructInfo Validate Fuel Reach Local Spec SpecMain DocSpec Terminate Builder BuildSpec BuildRefs BuildErr
  Height SchemaSpec SchemaMeans SchemaForm SchemaRegular SchemaMain BuildCases SrcSyntax SrcText SrcTextB SrcExec SrcProg SrcSorted SrcAccess SrcMain SrcCases
  SrcStore SrcProgB SrcStepB SrcSetters SrcRep SrcLoop SrcBuildW SrcRepFun SrcEnd SrcTidy.
From Verif Require GoEval Generator GenProcess GenTheorems EndToEnd EndCases SrcGen SrcGenRun.
Open Scope string_scope.
Open Scope list_scope.
Open Scope nat_scope.

(** JSVal.Validate as written, with fuel n for the constraints' methods *)
Definition src_jsval (E : env) (hit : string -> bool) (n : nat) (name addr : string) (root : constr) (v : gval) (w u : orc) : srcout :=
  error_res (call_in funcs (cx_of E hit orders (src_validate E hit orders n) (src_default E hit orders n)) 1
    "JSVal.Validate" [VJSVal name addr root; VIf LRoot] (start v w u)).

(** the text of Validate on a validator with the given meaning: its verdicts are the schema's *)
Definition src_speaks_for (E : env) (hit : string -> bool) (D : resolver) (s : schema) (bytes : bool) (f : string -> option constr) (name : string) (root : constr) : Prop :=
  (forall v addr n o u r v' o' u', json v -> (bytes = true -> SchemaSpec.one_byte v) ->
     src_jsval (set_refs E f) hit n name addr root v o u = Some (r, v', o', u') -> r <> OOF ->
     (r = Pass /\ Valid E D s s v /\ ~ Invalid E D s s v) \/ ((exists m, r = Fail m) /\ Invalid E D s s v /\ ~ Valid E D s s v)) /\
  (steady D s -> scalar_defaults D s -> forall v addr, json v -> (bytes = true -> SchemaSpec.one_byte v) ->
     exists n, forall o u, exists r v' o' u', src_jsval (set_refs E f) hit n name addr root v o u = Some (r, v', o', u') /\ r <> OOF).

Lemma speaks_source E hit D s bytes f name root : Deep (set_refs E f) canonical root ->
  EndToEnd.speaks_for E D s bytes f name root -> src_speaks_for E hit D s bytes f name root.
Proof.
  intros Hc [H1 H2]. split.
  - intros v addr n o u r v' o' u' J B Hr N.
    pose proof (source_agrees_jsval (set_refs E f) hit n name addr root v o u Hc (json_in_order v J)) as A. fold (src_jsval (set_refs E f) hit n name addr root v o u) in A.
    rewrite Hr in A. unfold agrees in A. destruct (jsval_validate n (set_refs E f) name addr root v o) as [[r1 v1] o1] eqn:V.
    destruct A as (r2 & u2 & A & Hs). injection A as -> -> -> ->.
    assert (N1 : r1 <> OOF) by (intros ->; destruct r2; cbn in Hs; congruence).
    destruct (H1 v addr n r1 v1 J B (ex_intro _ o (ex_intro _ o1 V)) N1) as [(-> & X)|([m ->] & X)].
    + left. split; [destruct r2; cbn in Hs; congruence|exact X].
    + right. split; [exists m; destruct r2; cbn in Hs; congruence|exact X].
  - intros ST SD v addr J B. destruct (H2 ST SD v addr J B) as [n Hn]. exists n. intros o u.
    pose proof (source_agrees_jsval (set_refs E f) hit n name addr root v o u Hc (json_in_order v J)) as A. fold (src_jsval (set_refs E f) hit n name addr root v o u) in A.
    unfold agrees in A. destruct (jsval_validate n (set_refs E f) name addr root v o) as [[r1 v1] o1] eqn:V.
    destruct A as (r2 & u2 & A & Hs). exists r2, v1, o1, u2. split; [exact A|].
    intros ->. apply (Hn r1 v1 (ex_intro _ o (ex_intro _ o1 V))). destruct r1; cbn in Hs; congruence.
Qed.

Section Way.
  Context (E : env) (G : Generator.genv) (hit : string -> bool) (tn : nat -> string) (D : bv -> resolver) (s : schema) (bytes : bool) (U : list string) (a : nat) (h : list bv) (w : orc).
  Notation Ds := (D (of_schema s)).
  Hypothesis sorted0 : Sorted s.
  Hypothesis sortedD : forall m s', lookup Ds m = Some s' -> Sorted s'.
  Hypothesis finite : forall m, Referred Ds s m -> In m U.
  Hypothesis builder : cell a h = Some (BStruct "Builder" []).

  (** the generator's text on what the builder's text made of a schema *)
  Lemma generated_way n0 c rf log same : build_with n0 Ds s w = Built c rf log -> all_plain E Ds s bytes s -> EndToEnd.codable Ds s ->
    (forall r x, In r same -> sget r rf = Some x -> x = c) ->
    exists K, forall k, K <= k -> forall wg, exists code wg' st j,
      SrcGenRun.source_process G k [EndToEnd.unnamed c rf same] wg =
        SrcGen.QOk [SrcGen.QNil] {| SrcGen.qvars := []; SrcGen.qbufs := [code]; SrcGen.qvals := Generator.name_all [EndToEnd.unnamed c rf same]; SrcGen.qord := wg' |} /\
      GoEval.run_go code = Some st /\ sget "V0" (GoEval.e_vars st) = Some (GoEval.VJ j) /\ GoEval.j_name j = "V0" /\
      src_speaks_for E hit Ds s bytes (GenTheorems.run_refs st) "V0" (GoEval.j_root j).
  Proof.
    intros B HP HC HQ. set (v := EndToEnd.unnamed c rf same).
    destruct (EndToEnd.compiled_parts Ds s n0 w c rf log sorted0 sortedD B HC) as (P1 & P2 & P3 & P4).
    assert (SR : Forall (fun v => ssorted (Generator.v_refs v)) [v]) by (constructor; [exact P4|constructor]).
    assert (MR : Generator.merge_refs [v] = rf) by (apply GenTheorems.merge_single; exact P4).
    assert (CO : GenProcess.contents_ok [v]).
    { split.
      - intros u [<-|[]]. split.
        + apply P1. intro NE. unfold GenProcess.has_refs. rewrite MR. destruct rf; [congruence|reflexivity].
        + intros r x Hr. rewrite MR. apply HQ. exact Hr.
      - rewrite MR. intros m x Hx. apply (P3 m x Hx). }
    destruct (SrcGenRun.contents_tame G [v] CO) as [T1 T2].
    destruct (SrcGenRun.process_source G [v] SR T1 T2) as [K HK]. exists K. intros k Hk wg.
    destruct (EndToEnd.schema_to_code E G Ds s bytes n0 w c rf log same sorted0 sortedD B HP HC HQ (SrcGenRun.model_order [v] wg)) as (code & wg' & st & j & Hp & Hr & Hj & Hn & Hm & Ht).
    exists code, wg', st, j. specialize (HK k Hk wg _ (SrcGenRun.model_order_rest [v] wg)). fold v in Hp. rewrite Hp in HK.
    split; [exact HK|]. split; [exact Hr|]. split; [exact Hj|]. split; [exact Hn|]. rewrite Hn in Hm, Ht.
    apply speaks_source; [eapply run_canonical; eauto|]. split; assumption.
  Qed.

  (** Build, Process, the file it writes, and Validate on what the file leaves: all four as
      written.  The verdicts are those of the schema. *)
  Theorem source_whole_way : all_plain E Ds s bytes s -> sound Ds s -> EndToEnd.codable Ds s ->
    exists K, forall k, K <= k -> forall e, exists va h' w' c rf,
      bcall (prog D tn) k "Builder.Build" [BPtr a []; of_schema s] (st e h w) = BOk [BPtr va []; BNil] (st e h' w') /\
      validator h' va c rf /\ (forall c1 rf1, validator h' va c1 rf1 -> c1 = c /\ rf1 = rf) /\
      forall same, (forall r x, In r same -> sget r rf = Some x -> x = c) ->
      exists K2, forall k2, K2 <= k2 -> forall wg, exists code wg' st j,
        SrcGenRun.source_process G k2 [EndToEnd.unnamed c rf same] wg =
          SrcGen.QOk [SrcGen.QNil] {| SrcGen.qvars := []; SrcGen.qbufs := [code]; SrcGen.qvals := Generator.name_all [EndToEnd.unnamed c rf same]; SrcGen.qord := wg' |} /\
        GoEval.run_go code = Some st /\ sget "V0" (GoEval.e_vars st) = Some (GoEval.VJ j) /\ GoEval.j_name j = "V0" /\
        src_speaks_for E hit Ds s bytes (GenTheorems.run_refs st) "V0" (GoEval.j_root j).
  Proof.
    intros HP So HC. destruct (sound_builds Ds s sorted0 sortedD U finite w So) as (c & rf & log & B).
    destruct (src_buildSchema D tn a _ s w h builder (build_ends D s U w sorted0 sortedD finite)) as [K HK]. exists K. intros k Hk e. specialize (HK k Hk e).
    assert (Q : build_schema (2 * List.length U + 3) Ds s w = Built c rf log).
    { unfold build_schema. destruct s as [|c0]; [|exact B]. unfold build_with in B. discriminate B. }
    rewrite Q in HK. destruct HK as (va & h' & w' & H1 & H2). exists va, h', w', c, rf.
    split; [exact H1|]. split; [exact H2|]. split; [intros c1 rf1 H3; destruct (validator_one _ _ _ _ _ _ H2 H3); now split|].
    intros same HQ. eapply generated_way; eauto.
  Qed.
End Way.

(** The tree of BuildCases.v, all the way: the text of Validate on the validator that the generated
    file builds accepts oak and rejects elm. *)
Example tree_whole_way w : exists K, forall k, K <= k -> exists va h' w' c rf,
  bcall (prog names_b (fun _ => "")) k "Builder.Build" [BPtr 0 []; BSch tree] (st [] [BStruct "Builder" []] w) = BOk [BPtr va []; BNil] (st [] h' w') /\
  validator h' va c rf /\
  exists K2, forall k2, K2 <= k2 -> forall wg, exists code wg' st j,
    SrcGenRun.source_process GenCases.G0 k2 [EndToEnd.unnamed c rf []] wg =
      SrcGen.QOk [SrcGen.QNil] {| SrcGen.qvars := []; SrcGen.qbufs := [code]; SrcGen.qvals := Generator.name_all [EndToEnd.unnamed c rf []]; SrcGen.qord := wg' |} /\
    GoEval.run_go code = Some st /\ sget "V0" (GoEval.e_vars st) = Some (GoEval.VJ j) /\
    (exists n, forall o u, exists v' o' u', src_jsval (set_refs env_t (GenTheorems.run_refs st)) never n "V0" "" (GoEval.j_root j) oak o u = Some (Pass, v', o', u')) /\
    (exists n, forall o u, exists m v' o' u', src_jsval (set_refs env_t (GenTheorems.run_refs st)) never n "V0" "" (GoEval.j_root j) elm o u = Some (Fail m, v', o', u')).
Proof.
  destruct tree_sorted as [S1 S2]. destruct trees_json as [J1 J2]. destruct tree_steady as [T1 T2]. destruct tree_verdicts as [V1 V2].
  assert (F : forall m s', lookup names_t m = Some s' -> In s' [Sch pos_s]).
  { intros m s'. unfold lookup, names_t. destruct (String.eqb m "#/definitions/pos"); [|discriminate]. intros [= <-]. now left. }
  destruct (finite_names names_t (Sch tree) _ F) as [U HU].
  assert (So : sound names_t (Sch tree)) by exact (built_sound names_t (Sch tree) S1 S2 _ _ _ _ _ tree_builds).
  destruct (source_whole_way env_t GenCases.G0 never (fun _ => "") names_b (Sch tree) true U 0 [BStruct "Builder" []] w S1 S2 HU eq_refl (tree_plain env_t eq_refl) So EndCases.tree_codable) as [K HK].
  exists K. intros k Hk. destruct (HK k Hk []) as (va & h' & w' & c & rf & H1 & H2 & _ & H3). exists va, h', w', c, rf.
  split; [exact H1|]. split; [exact H2|]. destruct (H3 [] (fun r x (i : In r []) => match i with end)) as [K2 HK2]. exists K2. intros k2 Hk2 wg.
  destruct (HK2 k2 Hk2 wg) as (code & wg' & st & j & P & R & Hj & _ & M & T). exists code, wg', st, j.
  split; [exact P|]. split; [exact R|]. split; [exact Hj|].
  assert (O1 : true = true -> SchemaSpec.one_byte oak) by (intros _; exact (one_byte_texts oak eq_refl)).
  assert (O2 : true = true -> SchemaSpec.one_byte elm) by (intros _; exact (one_byte_texts elm eq_refl)). split.
  - destruct (T T1 T2 oak "" J1 O1) as [n Hn]. exists n. intros o u. destruct (Hn o u) as (r & v' & o' & u' & X & N).
    destruct (M oak "" n o u r v' o' u' J1 O1 X N) as [[-> _]|(_ & _ & Y)]; [eauto|now destruct Y].
  - destruct (T T1 T2 elm "" J2 O2) as [n Hn]. exists n. intros o u. destruct (Hn o u) as (r & v' & o' & u' & X & N).
    destruct (M elm "" n o u r v' o' u' J2 O2 X N) as [(_ & _ & Y)|[[m ->] _]]; [now destruct Y|eauto].
Qed.
