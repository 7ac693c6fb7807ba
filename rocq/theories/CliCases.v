(** The jsval command: concrete runs and what goes wrong (C67-C69). *)
From Verif Require Import Base GoFloat FloatSpec FloatProofs GoValue Maybe Formats HostSpec Constraint StructInfo Validate Fuel Reach Terminate ConstrInd Local
  Refuted Builder BuildSpec BuildProofs BuildRefs BuildErr Spec SpecSound SpecMain Scalars DocSpec Height SchemaSpec SchemaForm SchemaRegular SchemaMeans SchemaMain BuildCases
  GoText GoLang GoEval Generator GenLex GenParse GenCode GenLike GenSpec GenFaith GenRound GenObj GenMain GenProcess GenTheorems GenCases EndToEnd EndCases Cli CliProofs.
Open Scope Z_scope.
Open Scope string_scope.
Open Scope list_scope.
Local Ltac splits := repeat match goal with |- _ /\ _ => split end.

(** a host where everything works; the document has the schemas under the keys "tree" and
    "pile", and "rest" with a schema the generator cannot write *)
Definition rest_s : scfg := with_not (Sch null_s) blank.
Definition doc_m : list (string * gval) := [("pile", gmap [("pile", GNil)]); ("rest", gmap [("rest", GNil)]); ("tree", gmap [("tree", GNil)])].
Definition extract0 (m : list (string * gval)) : option schema :=
  match keys m with
  | ["tree"] => Some (Sch tree) | ["pile"] => Some (Sch pile) | ["rest"] => Some (Sch rest_s) | _ => None
  end.
Definition host0 : host := {|
  h_open := fun _ => true; h_create := fun _ => true; h_write := fun _ t => t;
  h_decode := fun t => if t =? "doc" then Some doc_m else None;
  h_readfile := fun _ => None;
  h_get := fun p m => match p with String "/" k => sget k m | _ => None end;
  h_extract := extract0;
  h_names := fun _ => names_t |}.
Definition wd0 : world := {| w_files := [("code.go", "old"); ("schema.json", "doc")]; w_stdout := "" |}.
Definition run0 (ptrs : list string) (prefix out : string) : copts := {| o_schema := "schema.json"; o_outfile := out; o_ptrs := ptrs; o_prefix := prefix |}.

Lemma pile_no_hash : ~ Referred names_t (Sch pile) "#".
Proof.
  intros R. destruct tree_sorted as [_ S2]. pose proof (build_outcome 10 names_t (Sch pile) [] pile_sorted S2) as O. rewrite pile_builds in O.
  destruct O as (_ & _ & _ & _ & K & _). apply K in R. cbn in R. destruct R as [R|[]]. discriminate.
Qed.
Example doc_case : forall ch fuel e wd',
  cli host0 G0 fuel (Some (run0 ["/tree"; "/pile"] "Doc" "code.go")) ch wd0 = (e, wd') -> e <> Loops ->
  e = Exit 0 /\ exists code st, w_files wd' = [("code.go", code); ("schema.json", "doc")] /\ w_stdout wd' = "" /\ run_go code = Some st /\
    (exists j, sget "Doc0" (e_vars st) = Some (VJ j) /\ speaks_for env_t names_t (Sch tree) true (run_refs st) "Doc0" (j_root j)) /\
    (exists j, sget "Doc1" (e_vars st) = Some (VJ j) /\ speaks_for env_t names_t (Sch pile) true (run_refs st) "Doc1" (j_root j)).
Proof.
  intros ch fuel e wd' C N. destruct tree_sorted as [S1 S2].
  destruct (cli_generates host0 G0 env_t true fuel (run0 ["/tree"; "/pile"] "Doc" "code.go") ch wd0 doc_m [Sch tree; Sch pile]) with (e := e) (wd' := wd') as (-> & code & st & DV & R & K); auto.
  - exists "doc". repeat split.
  - now right.
  - split; [reflexivity|]. split; [reflexivity|]. intros ds _. discriminate.
  - intros s [<-|[<-|[]]]; splits; auto.
    + exact (built_sound names_t (Sch tree) S1 S2 _ _ _ _ _ tree_builds).
    + apply tree_plain. reflexivity.
    + exact tree_codable.
    + exact pile_sorted.
    + exact (built_sound names_t (Sch pile) pile_sorted S2 _ _ _ _ _ pile_builds).
    + apply pile_plain.
    + exact pile_codable.
  - intros s s' [<-|[<-|[]]] [<-|[<-|[]]] A B; auto; exfalso; [exact (pile_no_hash B)|exact (pile_no_hash A)].
  - split; [reflexivity|]. exists code, st. cbn in DV. subst wd'. splits; auto.
    + destruct (K 0%nat _ eq_refl) as (j & J1 & J2 & J3). exists j. rewrite J2 in J3. auto.
    + destruct (K 1%nat _ eq_refl) as (j & J1 & J2 & J3). exists j. rewrite J2 in J3. auto.
Qed.
(** with enough fuel it does end *)
Example doc_ends ch : exists code, cli host0 G0 7 (Some (run0 ["/tree"; "/pile"] "Doc" "code.go")) ch wd0 =
  (Exit 0, {| w_files := [("code.go", code); ("schema.json", "doc")]; w_stdout := "" |}).
Proof.
  destruct tree_sorted as [S1 S2].
  assert (RD : readable host0 (run0 ["/tree"; "/pile"] "Doc" "code.go") wd0 doc_m [Sch tree; Sch pile]) by (exists "doc"; repeat split).
  pose proof (cli_ends host0 G0 (run0 ["/tree"; "/pile"] "Doc" "code.go") ch wd0 doc_m _ ["#"; "#/definitions/pos"] RD S2) as E. cbn [List.length Nat.mul Nat.add] in E.
  destruct (cli host0 G0 7 _ ch wd0) as [e wd'] eqn:C. cbn [fst] in E.
  destruct (doc_case ch 7 e wd' C) as (-> & code & st & A & B & _).
  - apply E. intros s [<-|[<-|[]]]; (split; [assumption || exact pile_sorted|]); intros k R.
    + pose proof (build_outcome 10 names_t (Sch tree) [] S1 S2) as O. rewrite tree_builds in O. destruct O as (_ & _ & _ & _ & K & _). apply K in R. cbn in R. decompose [or] R; subst; cbn; auto; contradiction.
    + pose proof (build_outcome 10 names_t (Sch pile) [] pile_sorted S2) as O. rewrite pile_builds in O. destruct O as (_ & _ & _ & _ & K & _). apply K in R. cbn in R. destruct R as [R|[]]. cbn. auto.
  - exists code. destruct wd' as [f t]. cbn in A, B. now subst.
Qed.

(** ** C67 without the restriction on the prefix *)
Definition cli_generates_full : Prop := forall h G E bytes fuel o ch wd m ss e wd',
  readable h o wd m ss -> writable_out h o -> o_prefix o = "" \/ ident (o_prefix o) = true ->
  (forall k s, BuildSpec.lookup (h_names h m) k = Some s -> BuildSpec.Sorted s) ->
  (forall s, In s ss -> BuildSpec.Sorted s /\ sound (h_names h m) s /\ all_plain E (h_names h m) s bytes s /\ codable (h_names h m) s) ->
  (forall s s', In s ss -> In s' ss -> Referred (h_names h m) s "#" -> Referred (h_names h m) s' "#" -> s = s') ->
  cli h G fuel (Some o) ch wd = (e, wd') -> e <> Loops ->
  exists code st, delivered h o code wd wd' /\ run_go code = Some st.
(** with "R" for a prefix the validators' names are those of the reference variables *)
Theorem cli_generates_refuted : ~ cli_generates_full.
Proof.
  intros F. destruct tree_sorted as [S1 S2].
  set (o := run0 ["/pile"] "R" ""). set (ch := {| ch_build := fun _ => []; ch_gen := [] |}).
  assert (C : exists code, cli host0 G0 10 (Some o) ch wd0 = (Exit 0, {| w_files := w_files wd0; w_stdout := code |}) /\ run_go code = None).
  { eexists. split; [vm_compute; reflexivity|vm_compute; reflexivity]. }
  destruct C as (code & C & N).
  assert (X : exists code' st, delivered host0 o code' wd0 {| w_files := w_files wd0; w_stdout := code |} /\ run_go code' = Some st).
  { apply (F host0 G0 env_t true 10%nat o ch wd0 doc_m [Sch pile] (Exit 0)); auto.
    - exists "doc". repeat split.
    - now left.
    - intros s [<-|[]]. splits; [exact pile_sorted|exact (built_sound names_t (Sch pile) pile_sorted S2 _ _ _ _ _ pile_builds)|apply pile_plain|exact pile_codable].
    - intros s s' [<-|[]] [<-|[]] _ _. reflexivity.
    - discriminate. }
  destruct X as (code' & st & DV & R). cbn in DV. injection DV as ->. congruence.
Qed.

(** ** C68: a failing run changes nothing *)
Definition failure_clean_full : Prop := forall h G fuel opts ch wd e wd',
  cli h G fuel opts ch wd = (e, wd') -> e <> Exit 0 -> wd' = wd.
(** the previous output is gone although no code could be generated *)
Theorem failure_clean_refuted : ~ failure_clean_full.
Proof.
  intros F. specialize (F host0 G0 10%nat (Some (run0 ["/rest"] "" "code.go")) {| ch_build := fun _ => []; ch_gen := [] |} wd0 _ _ eq_refl).
  vm_compute in F. assert (N : Exit 1 <> Exit 0) by discriminate. specialize (F N). discriminate.
Qed.
(** so is the schema itself when it is named as the output *)
Example schema_lost : cli host0 G0 10 (Some (run0 ["/rest"] "" "schema.json")) {| ch_build := fun _ => []; ch_gen := [] |} wd0 =
  (Exit 1, {| w_files := [("code.go", "old"); ("schema.json", "")]; w_stdout := "" |}).
Proof. vm_compute. reflexivity. Qed.
(** failing earlier leaves everything *)
Example early_failure : cli host0 G0 10 (Some (run0 ["/tree"; "/nothing"] "" "code.go")) {| ch_build := fun _ => []; ch_gen := [] |} wd0 = (Exit 1, wd0).
Proof. vm_compute. reflexivity. Qed.

(** ** C69: status 0 means the code was written *)
Definition written (o : copts) (code : string) (wd wd' : world) : Prop :=
  match o_outfile o with
  | EmptyString => w_stdout wd' = w_stdout wd +++ code
  | f => sget f (w_files wd') = Some code
  end.
Definition status_full : Prop := forall h G fuel o ch wd wd',
  cli h G fuel (Some o) ch wd = (Exit 0, wd') ->
  exists vs code w, process G vs (ch_gen ch) = GOk (code, w) /\ written o code wd wd'.
(** a device that is full *)
Definition host_full : host := {| h_open := h_open host0; h_create := h_create host0; h_write := fun _ _ => "";
  h_decode := h_decode host0; h_readfile := h_readfile host0; h_get := h_get host0; h_extract := h_extract host0; h_names := h_names host0 |}.
Lemma process_not_empty G vs w code w' : process G vs w = GOk (code, w') -> code <> "".
Proof.
  unfold process. unfold gbind, gret, gfail. destruct (process_text G vs w) as [[s w1]| |]; try discriminate.
  destruct (parse_go s) eqn:P; [|discriminate]. intros [= <- <-] ->. vm_compute in P. discriminate.
Qed.
Theorem status_refuted : ~ status_full.
Proof.
  intros F. destruct (F host_full G0 10%nat (run0 ["/pile"] "" "code.go") {| ch_build := fun _ => []; ch_gen := [] |} wd0 _ eq_refl) as (vs & code & w & P & W).
  vm_compute in W. injection W as <-. now apply process_not_empty in P.
Qed.
(** exact when writing works *)
Theorem status_exact h G fuel o ch wd wd' : (forall f t, h_write h f t = t) -> cli h G fuel (Some o) ch wd = (Exit 0, wd') ->
  exists m ss ps code w, readable h o wd m ss /\ Forall2 (built_from fuel (h_names h m)) ss ps /\
    process G (validators (o_prefix o) ps) (ch_gen ch) = GOk (code, w) /\ written o code wd wd' /\
    forall f, f <> o_outfile o -> sget f (w_files wd') = sget f (w_files wd).
Proof.
  intros HW C. apply cli_success in C as (o' & m & ss & ps & code & w & Q & A & B & P & D). injection Q as <-.
  exists m, ss, ps, code, w. splits; auto; unfold delivered, written in *; destruct (o_outfile o) as [|a f]; subst; cbn [w_stdout w_files]; rewrite ?HW; auto.
  - now rewrite sget_sset_same.
  - intros f' N. now apply sget_sset_other.
Qed.
