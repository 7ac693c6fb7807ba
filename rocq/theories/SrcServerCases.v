(** What was proved of the model of the playground (C53) holds of the text of its handlers; and
    with the builder and the generator in place the code it answers with validates by the schema
    it was sent. *)
From Verif Require Import Base GoFloat FloatSpec FloatProofs GoValue Maybe Formats HostSpec Constraint StructInfo Validate Fuel Reach Terminate ConstrInd Local
  Refuted Builder BuildSpec BuildProofs BuildRefs BuildErr Spec SpecSound SpecMain Scalars DocSpec Height SchemaSpec SchemaForm SchemaRegular SchemaMeans SchemaMain BuildCases
  GoText GoLang GoEval Generator GenLex GenParse GenCode GenLike GenSpec GenFaith GenRound GenObj GenMain GenProcess GenTheorems GenCases EndToEnd EndCases Cli CliProofs CliCases SrcShell.
From Verif Require Import Server SrcServer SrcServerRun.
Open Scope Z_scope.
Open Scope string_scope.
Open Scope list_scope.
Local Ltac splits := repeat match goal with |- _ /\ _ => split end.

Section Transfer.
  Context {schema ctx validator tmpl : Type} (read : string -> outcome schema) (decode : string -> outcome ctx)
    (build : schema -> ctx -> outcome validator) (process : validator -> outcome string) (gt : outcome tmpl) (execute : tmpl -> outcome string).
  Notation answers path input r := (src_serve read decode build process gt execute path input = Some r).

  Theorem source_generate_success input code :
    (exists r, answers "/generate.json" input (Some r) /\ payload r = Json true "code" code) <->
    (exists sc c v, read input = Done_ sc /\ decode input = Done_ c /\ build sc c = Done_ v /\ process v = Done_ code).
  Proof.
    rewrite <- (generate_success read decode build process gt execute). rewrite serve_source.
    split; intros (r & H & P); exists r; (split; [congruence|assumption]).
  Qed.
  Theorem source_generate_shape input r : answers "/generate.json" input (Some r) ->
    status r = 200%nat /\
    ((exists code, payload r = Json true "code" code /\ ctype r = Some "application/json; charset=utf-8") \/
     (exists m, payload r = Json false "message" m /\ ctype r = None)).
  Proof. rewrite serve_source. intros [= H]. eapply generate_shape; eauto. Qed.
  Theorem source_other_paths path input : path <> "/generate.json" ->
    (path <> "/" -> exists r, answers path input (Some r) /\ status r = 404%nat) /\
    (path = "/" -> forall r, answers path input (Some r) -> status r = 200%nat \/ status r = 500%nat).
  Proof.
    intros N. rewrite serve_source. destruct (other_paths read decode build process gt execute path input N) as [A B]. split.
    - intros N1. destruct (A N1) as (r & H & S). exists r. split; [congruence|assumption].
    - intros -> r [= H]. apply (B eq_refl r H).
  Qed.
End Transfer.

(** ** With the builder and the generator of the model *)
Definition product := (constr * refs * list string)%type.
Definition build_o (fuel : nat) (names : list (string * gval) -> resolver) (w : orc) (s : Builder.schema) (m : list (string * gval)) : outcome product :=
  match build_with fuel (names m) s w with
  | Built c rf log => Done_ (c, rf, log)
  | BErr e => Failed e
  | BPanic _ | BOOF => Panicked
  end.
Definition process_o (G : genv) (w : orc) (p : product) : outcome string :=
  match Generator.process G (validators "" [p]) w with
  | GOk (text, _) => Done_ text
  | GErr e => Failed e
  | GPanic _ => Panicked
  end.
Theorem playground {tmpl} (read : string -> outcome Builder.schema) (decode : string -> outcome (list (string * gval))) names E G bytes fuel w wg (gt : outcome tmpl) execute input s m :
  read input = Done_ s -> decode input = Done_ m ->
  let D := names m in
  BuildSpec.Sorted s -> (forall k s', BuildSpec.lookup D k = Some s' -> BuildSpec.Sorted s') ->
  sound D s -> all_plain E D s bytes s -> codable D s ->
  build_with fuel D s w <> BOOF ->
  exists code st j,
    src_serve read decode (build_o fuel names w) (process_o G wg) gt execute "/generate.json" input =
      Some (Some {| status := 200; ctype := Some "application/json; charset=utf-8"; payload := Json true "code" code |}) /\
    run_go code = Some st /\ sget "V0" (e_vars st) = Some (VJ j) /\ j_name j = "V0" /\
    speaks_for E D s bytes (run_refs st) "V0" (j_root j).
Proof.
  intros HR HD D S0 SD SO HP HC NB.
  set (h := {| h_open := fun _ => true; h_create := fun _ => true; h_write := fun _ t => t; h_decode := fun _ => Some m;
               h_readfile := fun _ => Some s; h_get := fun _ _ => None; h_extract := fun _ => None; h_names := names |}).
  set (o := {| o_schema := "f"; o_outfile := ""; o_ptrs := []; o_prefix := "" |}).
  set (ch := {| ch_build := fun _ => w; ch_gen := wg |}).
  set (wd := {| w_files := [("f", input)]; w_stdout := "" |}).
  destruct (cli h G fuel (Some o) ch wd) as [e wd'] eqn:C.
  destruct (cli_generates h G E bytes fuel o ch wd m [s]) with (e := e) (wd' := wd') as (-> & code & st & DV & R & K); auto.
  - exists input. repeat split.
  - now left.
  - exact I.
  - intros s1 [<-|[]]. splits; auto.
  - intros s1 s2 [<-|[]] [<-|[]] _ _. reflexivity.
  - intros ->. unfold cli, h, o, wd, ch in C. cbn -[build_with Generator.process validators] in C. fold D in C.
    destruct (build_with fuel D s w) as [c rf log| | |]; try discriminate; try congruence.
    unfold finish in C. cbn -[Generator.process validators] in C. destruct (Generator.process G _ wg) as [[t w1]| |]; discriminate.
  - unfold cli, h, o, wd, ch in C. cbn -[build_with Generator.process validators] in C. fold D in C. cbn in DV. subst wd'.
    destruct (build_with fuel D s w) as [c rf log| | |] eqn:B; try discriminate.
    unfold finish in C. cbn -[Generator.process validators] in C. destruct (Generator.process G _ wg) as [[t w1]| |] eqn:P; try discriminate.
    cbn in C. injection C as ->. destruct (K 0%nat s eq_refl) as (j & J1 & J2 & J3). cbn in J1, J2.
    exists code, st, j. splits; auto.
    + rewrite serve_source. unfold serve. cbn [String.eqb Ascii.eqb Bool.eqb]. unfold generate, build_o, process_o. rewrite HR, HD.
      fold D. rewrite B. cbv beta iota. match goal with |- context [Generator.process G ?v wg] => assert (P' : Generator.process G v wg = GOk (code, w1)) by exact P; rewrite P' end. reflexivity.
    + rewrite J2 in J3. exact J3.
Qed.
(** the schema [tree] of EndCases.v *)
Example playground_tree {tmpl} (gt : outcome tmpl) execute w wg : build_with 10 names_t (Sch tree) w <> BOOF -> exists code st j,
    src_serve (fun _ => Done_ (Sch tree)) (fun _ => Done_ doc_m) (build_o 10 (fun _ => names_t) w) (process_o G0 wg) gt execute "/generate.json" "{}" =
      Some (Some {| status := 200; ctype := Some "application/json; charset=utf-8"; payload := Json true "code" code |}) /\
    run_go code = Some st /\ sget "V0" (e_vars st) = Some (VJ j) /\ j_name j = "V0" /\
    speaks_for env_t names_t (Sch tree) true (run_refs st) "V0" (j_root j).
Proof.
  intros NB. destruct tree_sorted as [S1 S2].
  apply (playground (fun _ => Done_ (Sch tree)) (fun _ => Done_ doc_m) (fun _ => names_t) env_t G0 true 10 w wg gt execute "{}" (Sch tree) doc_m); auto.
  - exact (built_sound names_t (Sch tree) S1 S2 _ _ _ _ _ tree_builds).
  - apply tree_plain. reflexivity.
  - exact tree_codable.
Qed.
Example tree_in_time : build_with 10 names_t (Sch tree) [] <> BOOF.
Proof. rewrite tree_builds. discriminate. Qed.
(** a schema that is none, a path that is none *)
Example playground_refuses : 
  src_serve (fun _ => @Failed unit "no schema") (fun _ => Done_ tt) (fun _ _ => Done_ tt) (fun _ => Done_ "") (Done_ tt) (fun _ => Done_ "") "/generate.json" "{" =
    Some (Some {| status := 200; ctype := None; payload := Json false "message" "no schema" |}) /\
  src_serve (fun _ => @Failed unit "no schema") (fun _ => Done_ tt) (fun _ _ => Done_ tt) (fun _ => Done_ "") (Done_ tt) (fun _ => Done_ "") "/generate" "{" =
    Some (Some {| status := 404; ctype := None; payload := NotFound |}).
Proof. split; vm_compute; reflexivity. Qed.
