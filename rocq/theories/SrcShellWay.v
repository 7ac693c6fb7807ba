(** The command and the playground, from their text to the verdicts of the text of Validate on
    what the code they deliver leaves behind when it is run. *)
From Verif Require Import Base GoFloat FloatSpec FloatProofs GoValue Maybe Formats HostSpec Constraint StructInfo Validate Fuel Reach Terminate ConstrInd Local
  Refuted Builder BuildSpec BuildProofs BuildRefs BuildErr Spec SpecSound SpecMain Scalars DocSpec Height SchemaSpec SchemaForm SchemaRegular SchemaMeans SchemaMain BuildCases
  GoText GoLang GoEval Generator GenLex GenParse GenCode GenLike GenSpec GenFaith GenRound GenObj GenMain GenProcess GenTheorems GenCases EndToEnd EndCases Cli CliProofs CliCases SrcShell.
From Verif Require Import Server SrcServer SrcServerRun.
From Verif Require Import SrcCli SrcCliRun SrcCliCases SrcServerCases SrcTidy SrcWay.
Open Scope Z_scope.
Open Scope string_scope.
Open Scope list_scope.
Local Ltac splits := repeat match goal with |- _ /\ _ => split end.

(** the validator [name] of a file of generated code that has run *)
Definition verdicts_of (E : env) (hit : string -> bool) (D : resolver) (s : Builder.schema) (bytes : bool) (st : estate) (name : string) : Prop :=
  exists j, sget name (e_vars st) = Some (VJ j) /\ j_name j = name /\
    src_speaks_for E hit D s bytes (run_refs st) name (j_root j).

Theorem command_verdicts h G fuel ch pn serve argv srv_opts E hit bytes o wd m ss :
  (forall q m, pn q = false -> h_get h q m = None) -> serving argv = false ->
  readable h o wd m ss -> writable_out h o -> good_prefix (o_prefix o) ->
  let D := h_names h m in
  (forall k s, BuildSpec.lookup D k = Some s -> BuildSpec.Sorted s) ->
  (forall s, In s ss -> BuildSpec.Sorted s /\ sound D s /\ all_plain E D s bytes s /\ codable D s) ->
  (forall s s', In s ss -> In s' ss -> Referred D s "#" -> Referred D s' "#" -> s = s') ->
  exists e wd', src_main h G fuel ch pn serve argv (Some o) srv_opts wd = Some (e, wd') /\ (e <> Loops ->
    e = Exit 0 /\ exists code st, delivered h o code wd wd' /\ run_go code = Some st /\
      forall i s, nth_error ss i = Some s -> verdicts_of E hit D s bytes st (member_name (o_prefix o) i)).
Proof.
  intros Hpn Hs A B C D S1 S2 S3.
  destruct (source_generates h G fuel ch pn serve argv srv_opts Hpn Hs E bytes o wd m ss A B C S1 S2 S3) as (e & wd' & R & K).
  exists e, wd'. split; [exact R|]. intros N. destruct (K N) as (-> & code & st & DV & RG & F). split; [reflexivity|].
  exists code, st. splits; auto. intros i s I. destruct (F i s I) as (j & J1 & J2 & J3). exists j. splits; auto.
  rewrite J2 in J3. apply speaks_source; [eapply run_canonical; eauto|exact J3].
Qed.

Theorem playground_verdicts {tmpl} (read : string -> outcome Builder.schema) (decode : string -> outcome (list (string * gval))) names E hit G bytes fuel w wg (gt : outcome tmpl) execute input s m :
  read input = Done_ s -> decode input = Done_ m ->
  let D := names m in
  BuildSpec.Sorted s -> (forall k s', BuildSpec.lookup D k = Some s' -> BuildSpec.Sorted s') ->
  sound D s -> all_plain E D s bytes s -> codable D s ->
  build_with fuel D s w <> BOOF ->
  exists code st,
    src_serve read decode (build_o fuel names w) (process_o G wg) gt execute "/generate.json" input =
      Some (Some {| status := 200; ctype := Some "application/json; charset=utf-8"; payload := Json true "code" code |}) /\
    run_go code = Some st /\ verdicts_of E hit D s bytes st "V0".
Proof.
  intros HR HD D S0 SD SO HP HC NB.
  destruct (playground read decode names E G bytes fuel w wg gt execute input s m HR HD S0 SD SO HP HC NB) as (code & st & j & A & R & J1 & J2 & J3).
  exists code, st. splits; auto. exists j. splits; auto. apply speaks_source; [eapply run_canonical; eauto|exact J3].
Qed.

(** the run of [source_doc]: both validators of the file it leaves *)
Example doc_verdicts ch serve so hit : exists code st,
  src_main host0 G0 7 ch pn0 serve argv0 (Some (run0 ["/tree"; "/pile"] "Doc" "code.go")) so wd0 =
    Some (Exit 0, {| w_files := [("code.go", code); ("schema.json", "doc")]; w_stdout := "" |}) /\
  run_go code = Some st /\ verdicts_of env_t hit names_t (Sch tree) true st "Doc0" /\ verdicts_of env_t hit names_t (Sch pile) true st "Doc1".
Proof.
  destruct (doc_ends ch) as [code C]. destruct tree_sorted as [S1 S2].
  destruct (command_verdicts host0 G0 7 ch pn0 serve argv0 so env_t hit true (run0 ["/tree"; "/pile"] "Doc" "code.go") wd0 doc_m [Sch tree; Sch pile]) as (e & wd' & M & K).
  - exact pn0_ok.
  - reflexivity.
  - exists "doc". repeat split.
  - now right.
  - split; [reflexivity|]. split; [reflexivity|]. intros ds _. discriminate.
  - exact S2.
  - intros s [<-|[<-|[]]]; splits; auto.
    + exact (built_sound names_t (Sch tree) S1 S2 _ _ _ _ _ tree_builds).
    + apply tree_plain. reflexivity.
    + exact tree_codable.
    + exact pile_sorted.
    + exact (built_sound names_t (Sch pile) pile_sorted S2 _ _ _ _ _ pile_builds).
    + apply pile_plain.
    + exact pile_codable.
  - intros s s' [<-|[<-|[]]] [<-|[<-|[]]] A B; auto; exfalso; [exact (pile_no_hash B)|exact (pile_no_hash A)].
  - assert (M2 := M). rewrite main_is_cli in M2 by (exact pn0_ok || reflexivity). rewrite C in M2. injection M2 as <- <-.
    destruct K as (_ & code' & st & DV & R & K); [discriminate|]. cbn in DV. injection DV as ->.
    exists code', st. splits; auto; [exact (K 0%nat _ eq_refl)|exact (K 1%nat _ eq_refl)].
Qed.
