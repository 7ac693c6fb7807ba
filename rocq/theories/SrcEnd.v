(** From the text of the builder and of the validators to the meaning of schemas. *)
From Verif Require Import Base GoFloat GoValue Maybe Formats Constraint StructInfo Validate Fuel Reach Spec SpecMain DocSpec Terminate Builder BuildSpec BuildRefs BuildErr
  Height SchemaSpec SchemaMeans SchemaForm SchemaRegular SchemaMain BuildCases SrcSyntax SrcText SrcTextB SrcExec SrcProg SrcSorted SrcMain SrcCases
  SrcStore SrcProgB SrcStepB SrcSetters SrcRep SrcLoop SrcBuildW SrcRepFun.
Open Scope string_scope.
Open Scope list_scope.
Open Scope nat_scope.

Lemma json_in_order v : json v -> in_order v.
Proof. intro J. apply jdoc_in_order. apply doc_jdoc. now apply json_doc. Qed.

Lemma sorted_keys {A} (l : list (string * A)) : ssorted l -> StronglySorted (fun a b => slt (fst a) (fst b)) l.
Proof.
  induction l as [|[k x] l IH]; intro H; [constructor|]. inversion H as [|? ? H1 H2]; subst. constructor; [now apply IH|].
  clear - H2. induction l as [|[k' x'] l IH]; [constructor|]. inversion H2; subst. constructor; [assumption|now apply IH].
Qed.

Section Canonical.
  Context (E : env) (D : resolver) (s : schema) (bytes : bool) (n : nat) (w : orc) (c : constr) (rf : refs) (log : list string).
  Hypothesis sorted0 : Sorted s.
  Hypothesis sortedD : forall m s', lookup D m = Some s' -> Sorted s'.
  Hypothesis B : build_with n D s w = Built c rf log.
  Hypothesis HP : all_plain E D s bytes s.
  Lemma built_canonical : Deep (with_refs E rf) canonical c.
  Proof.
    destruct (built_facts D s n w c rf log sorted0 sortedD B) as (Q & HD & HK & HG & HS).
    pose proof (built_regular E D s rf bytes HD HG HS HP s (sub_here _ _ _)) as [_ RG]. rewrite <- Q in RG.
    intros x R. pose proof (RG x R) as N.
    pose proof R as F. rewrite Q in F. apply (form_reach E D s rf HD s) in F; [|apply fo_bc; constructor].
    assert (K : forall d, Default (with_refs E rf) x d -> in_order d).
    { intros d Dx. destruct (form_default E D s rf HD s x d Dx F) as (c' & Hs & Rc & <- & _). apply json_in_order. exact (pl_default _ _ _ _ _ (HP c' Hs Rc)). }
    destruct x as [| | |[d|]|[d|] ?|[d|] ?|[d|] ?|a|o|l|l|l|l|y|y]; cbn [canonical]; try exact I; try (apply K; constructor).
    destruct N as [N|N]; [discriminate|]. apply sorted_keys. exact (proj1 N).
  Qed.
End Canonical.

(** ** Build, then Validate, both as written *)
Section EndToEnd.
  Context (E : env) (hit : string -> bool) (tn : nat -> string) (D : bv -> resolver) (s : schema) (bytes : bool) (U : list string) (a : nat) (h : list bv) (w : orc).
  Notation Ds := (D (of_schema s)).
  Hypothesis sorted0 : Sorted s.
  Hypothesis sortedD : forall m s', lookup Ds m = Some s' -> Sorted s'.
  Hypothesis finite : forall m, Referred Ds s m -> In m U.
  Hypothesis builder : cell a h = Some (BStruct "Builder" []).

  Lemma build_ends : build_schema (2 * List.length U + 3) Ds s w <> BOOF.
  Proof. unfold build_schema. destruct s as [|c] eqn:Es; [discriminate|]. rewrite <- Es in *. apply build_terminates; assumption. Qed.

  (** the builder's text returns a validator for every sound schema, and the validators' text
      then accepts the documents that are valid against the schema and no others *)
  Theorem source_end_to_end : all_plain E Ds s bytes s -> sound Ds s ->
    exists K, forall k, K <= k -> forall e, exists va h' w' c rf,
      bcall (prog D tn) k "Builder.Build" [BPtr a []; of_schema s] (st e h w) = BOk [BPtr va []; BNil] (st e h' w') /\
      validator h' va c rf /\ (forall c1 rf1, validator h' va c1 rf1 -> c1 = c /\ rf1 = rf) /\
      (forall v o u r v', json v -> (bytes = true -> SchemaSpec.one_byte v) -> SrcRuns (with_refs E rf) hit c v o u r v' ->
        (r = Pass /\ Valid E Ds s s v /\ ~ Invalid E Ds s s v) \/ ((exists m, r = Fail m) /\ Invalid E Ds s s v /\ ~ Valid E Ds s s v)) /\
      (steady Ds s -> scalar_defaults Ds s -> forall v o u, json v -> (bytes = true -> SchemaSpec.one_byte v) -> exists r v', SrcRuns (with_refs E rf) hit c v o u r v').
  Proof.
    intros HP So. destruct (sound_builds Ds s sorted0 sortedD U finite w So) as (c & rf & log & B).
    destruct (src_buildSchema D tn a _ s w h builder build_ends) as [K HK]. exists K. intros k Hk e. specialize (HK k Hk e).
    assert (Q : build_schema (2 * List.length U + 3) Ds s w = Built c rf log).
    { unfold build_schema. destruct s as [|c0]; [|exact B]. unfold build_with in B. discriminate B. }
    rewrite Q in HK. destruct HK as (va & h' & w' & H1 & H2). exists va, h', w', c, rf.
    split; [exact H1|]. split; [exact H2|]. split; [intros c1 rf1 H3; destruct (validator_one _ _ _ _ _ _ H2 H3); now split|].
    pose proof (built_canonical E Ds s bytes _ w c rf log sorted0 sortedD B HP) as Hc. split.
    - intros v o u r v' J OB R. destruct (source_runs _ hit c v o u r v' Hc (json_in_order v J) R) as (r1 & o' & R1 & Hs).
      destruct (built_means E Ds s bytes _ w c rf log sorted0 sortedD B HP v o r1 v' o' J OB R1) as [[-> X]|[[m ->] X]].
      + left. split; [destruct r; cbn in Hs; congruence|exact X].
      + right. split; [exists m; destruct r; cbn in Hs; congruence|exact X].
    - intros ST SC v o u J OB.
      destruct (built_decides E Ds s bytes _ w c rf log sorted0 sortedD B HP v o ST SC J OB) as (r & v' & o' & (N & V & NO) & _).
      pose proof (source_agrees (with_refs E rf) hit N c v o u Hc (json_in_order v J)) as A. rewrite V in A. destruct A as (r' & u' & A & Hs).
      exists r', v'. split; [|exists N, o', u'; exact A]. intros ->. apply NO. cbn. destruct r; cbn in Hs; congruence.
  Qed.
  (** unknown types, references that do not resolve: an error, and no validator *)
  Theorem source_reports : erroneous Ds s -> ~ hollow Ds s ->
    exists K, forall k, K <= k -> forall e, exists m h' w',
      bcall (prog D tn) k "Builder.Build" [BPtr a []; of_schema s] (st e h w) = BOk [BNil; BMsg m] (st e h' w').
  Proof.
    intros F H. destruct (errors_reported Ds s sorted0 sortedD U finite w F H) as (m & B).
    destruct (src_buildSchema D tn a _ s w h builder build_ends) as [K HK]. exists K. intros k Hk e. specialize (HK k Hk e).
    assert (Q : exists m, build_schema (2 * List.length U + 3) Ds s w = BErr m).
    { unfold build_schema. destruct s as [|c0]; [eauto|]. exists m. exact B. }
    destruct Q as [m1 Q]. rewrite Q in HK. destruct HK as (m' & h' & w' & H1 & _). eauto.
  Qed.
  (** every schema is answered: no run of the builder's text goes on for ever, and none meets
      a construct without a meaning *)
  Theorem source_answers : exists K, forall k, K <= k -> forall e,
    (exists vs h' w', bcall (prog D tn) k "Builder.Build" [BPtr a []; of_schema s] (st e h w) = BOk vs (st e h' w')) \/
    (exists m, bcall (prog D tn) k "Builder.Build" [BPtr a []; of_schema s] (st e h w) = BPn m).
  Proof.
    destruct (src_buildSchema D tn a _ s w h builder build_ends) as [K HK]. exists K. intros k Hk e. specialize (HK k Hk e). pose proof build_ends as T.
    destruct (build_schema (2 * List.length U + 3) Ds s w) as [c rf log|m|m|]; [| | |congruence].
    - destruct HK as (va & h' & w' & H1 & _). eauto 6.
    - destruct HK as (m' & h' & w' & H1 & _). eauto 6.
    - destruct HK as (m' & H1). eauto.
  Qed.
End EndToEnd.

(** ** The tree of BuildCases.v: two definitions, the root among them *)
Definition names_b (_ : bv) : resolver := names_t.
Example tree_source : exists h' w',
  bcall (prog names_b (fun _ => "")) 40 "Builder.Build" [BPtr 0 []; BSch tree] (st [] [BStruct "Builder" []] []) = BOk [BPtr 2 []; BNil] (st [] h' w') /\
  List.length h' = 37.
Proof. do 2 eexists. split; [vm_compute; reflexivity|]. reflexivity. Qed.
Lemma finite_names D s docs : (forall m s', lookup D m = Some s' -> In s' docs) -> exists U, forall m, Referred D s m -> In m U.
Proof.
  intros F. destruct (finite_union Used (s :: docs) (fun x _ => used_finite x)) as [U HU]. exists U.
  intros m R. destruct R as [m H|k s' m _ Dk H]; [eapply HU; [|eauto]; now left|].
  eapply HU; [|eauto]. destruct Dk; [now left|]. right. eauto.
Qed.
(** oak is accepted and elm rejected, whatever the orders of the loops over maps *)
Example tree_end_to_end w : exists K, forall k, K <= k -> exists va h' w' c rf,
  bcall (prog names_b (fun _ => "")) k "Builder.Build" [BPtr 0 []; BSch tree] (st [] [BStruct "Builder" []] w) = BOk [BPtr va []; BNil] (st [] h' w') /\
  validator h' va c rf /\ forall o u, (exists v', SrcRuns (with_refs env_t rf) never c oak o u Pass v') /\ (exists m v', SrcRuns (with_refs env_t rf) never c elm o u (Fail m) v').
Proof.
  destruct tree_sorted as [S1 S2]. destruct trees_json as [J1 J2]. destruct tree_steady as [T1 T2]. destruct tree_verdicts as [V1 V2].
  assert (F : forall m s', lookup names_t m = Some s' -> In s' [Sch pos_s]).
  { intros m s'. unfold lookup, names_t. destruct (String.eqb m "#/definitions/pos"); [|discriminate]. intros [= <-]. now left. }
  destruct (finite_names names_t (Sch tree) _ F) as [U HU].
  assert (So : sound names_t (Sch tree)) by exact (built_sound names_t (Sch tree) S1 S2 _ _ _ _ _ tree_builds).
  destruct (source_end_to_end env_t never (fun _ => "") names_b (Sch tree) true U 0 [BStruct "Builder" []] w S1 S2 HU eq_refl (tree_plain env_t eq_refl) So) as [K HK].
  exists K. intros k Hk. destruct (HK k Hk []) as (va & h' & w' & c & rf & H1 & H2 & _ & H3 & H4). exists va, h', w', c, rf.
  split; [exact H1|]. split; [exact H2|]. intros o u.
  assert (O1 : true = true -> SchemaSpec.one_byte oak) by (intros _; exact (one_byte_texts oak eq_refl)).
  assert (O2 : true = true -> SchemaSpec.one_byte elm) by (intros _; exact (one_byte_texts elm eq_refl)). split.
  - destruct (H4 T1 T2 oak o u J1 O1) as (r & v' & R). destruct (H3 oak o u r v' J1 O1 R) as [[-> _]|(_ & _ & N)]; [eauto|now destruct N].
  - destruct (H4 T1 T2 elm o u J2 O2) as (r & v' & R). destruct (H3 elm o u r v' J2 O2 R) as [(_ & _ & N)|[[m ->] _]]; [now destruct N|eauto].
Qed.
