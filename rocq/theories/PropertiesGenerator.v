(** The code generator

    Only statements: each theorem is proved in the file named above it. *)

From Coq Require Import List String ZArith Bool SpecFloat QArith.
From Verif Require Import Base GoFloat FloatSpec FloatProofs GoValue Formats Maybe HostSpec
  Constraint StructInfo Validate Fuel Reach ReadOnly Frame Preserve
  Spec SpecSound SpecObj SpecMain ConstrInd Terminate Scalars Structure
  Composite Refuted DocSpec Linear RefConc RegConc Server Fluent
  MaybeProofs Simulate StructProofs DefaultProofs StructCases NoPanic Repeat Cases
  DocDeviates Builder BuildSpec BuildProofs Local BuildRefs BuildErr Height
  SchemaSpec SchemaForm SchemaRegular SchemaMeans SchemaMain BuildCases Extras GoText
  GoLang GoEval Generator GenLex GenParse GenCode GenLike GenSpec
  GenFaith GenRound GenObj GenMain GenProcess GenTheorems GenLoss GenDet
  GenCases EndToEnd EndCases Cli CliProofs CliCases Heap HeapProofs
  HeapCases Custom CustomProofs CustomCases Witness WitnessBuild.
Import ListNotations.
Open Scope nat_scope.
Open Scope string_scope.
Open Scope list_scope.

(** ** C47. Generated code rebuilds the validator

    The Go code printed by Generator.Process, when run, rebuilds a validator that gives the same verdicts as the original, for constraints without the aspects the generator drops.
    Status: proved. The generated text is lexed, parsed and run by a model of the Go subset it uses (GoLang, GoEval); format.Source's layout changes, unicode.IsPrint above 0x7f and %-verb error texts are parameters or omitted. generated_code_runs covers every constraint for which usable code is written; generated_code_equivalent the ones with nothing dropped. *)

(* GenTheorems.v *)
Theorem C47_generated_code_equivalent :
  forall (E : env) (G : genv) (vs : list validator),
  names_ok vs ->
  contents_ok vs ->
  (forall v : validator, In v vs -> GenSpec.faithful (v_root v)) ->
  (forall (n : string) (c : constr), sget n (merge_refs vs) = Some c -> GenSpec.faithful c) ->
  forall w : orc,
  exists (s : string) (w' : orc) (st : estate),
    process G vs w = GOk (s, w') /\
    run_go s = Some st /\
    (forall (i : nat) (v : validator),
     nth_error vs i = Some v ->
     agree E (own_refs v) (fun n : string => sget n (merge_refs vs)) (v_root v) ->
     exists j : jsv,
       sget (v_name (named i v)) (e_vars st) = Some (VJ j) /\
       j_name j = v_name (named i v) /\
       Same E (own_refs v) (v_root v) (run_refs st) (j_root j) /\
       (forall (addr addr' : string) (n : nat) (x : gval) (r : res) (x' : gval),
        outcomes E (own_refs v) (v_name (named i v)) addr (v_root v) n x r x' <->
        outcomes E (run_refs st) (j_name j) addr' (j_root j) n x r x')).
Proof. exact (@GenTheorems.generated_code_equivalent). Qed.
Print Assumptions C47_generated_code_equivalent.

(* GenTheorems.v *)
Theorem C47_generated_single :
  forall (E : env) (G : genv) (v : validator),
  ssorted (v_refs v) ->
  names_ok [v] ->
  contents_ok [v] ->
  GenSpec.faithful (v_root v) ->
  (forall (n : string) (c : constr), sget n (v_refs v) = Some c -> GenSpec.faithful c) ->
  forall w : orc,
  exists (s : string) (w' : orc) (st : estate) (j : jsv),
    process G [v] w = GOk (s, w') /\
    run_go s = Some st /\
    sget (v_name (named 0 v)) (e_vars st) = Some (VJ j) /\
    j_name j = v_name (named 0 v) /\
    (forall (addr addr' : string) (n : nat) (x : gval) (r : res) (x' : gval),
     outcomes E (own_refs v) (j_name j) addr (v_root v) n x r x' <->
     outcomes E (run_refs st) (j_name j) addr' (j_root j) n x r x').
Proof. exact (@GenTheorems.generated_single). Qed.
Print Assumptions C47_generated_single.

(* GenTheorems.v *)
Theorem C47_generated_code_runs :
  forall (E : env) (G : genv) (vs : list validator),
  names_ok vs ->
  contents_ok vs ->
  forall w : orc,
  exists (s : string) (w' : orc) (st : estate),
    process G vs w = GOk (s, w') /\
    run_go s = Some st /\
    (forall (i : nat) (v : validator),
     nth_error vs i = Some v ->
     exists j : jsv,
       sget (v_name (named i v)) (e_vars st) = Some (VJ j) /\
       j_name j = v_name (named i v) /\
       Same E (regen_refs vs) (regen (v_root v)) (run_refs st) (j_root j)).
Proof. exact (@GenTheorems.generated_code_runs). Qed.
Print Assumptions C47_generated_code_runs.

(* GenCases.v *)
Theorem C47_case_names :
  names_ok [v1; v2].
Proof. exact (@GenCases.case_names). Qed.
Print Assumptions C47_case_names.

(* GenCases.v *)
Theorem C47_case_contents :
  contents_ok [v1; v2].
Proof. exact (@GenCases.case_contents). Qed.
Print Assumptions C47_case_contents.

(* GenCases.v *)
Theorem C47_case_faithful :
  (forall v : validator, In v [v1; v2] -> GenSpec.faithful (v_root v)) /\
  (forall (n : string) (c : constr),
   sget n (merge_refs [v1; v2]) = Some c -> GenSpec.faithful c).
Proof. exact (@GenCases.case_faithful). Qed.
Print Assumptions C47_case_faithful.

(* GenCases.v *)
Theorem C47_case_equivalent :
  forall w : orc,
  exists (s : string) (w' : orc) (st : estate) (j1 j2 : jsv),
    process G0 [v1; v2] w = GOk (s, w') /\
    run_go s = Some st /\
    sget "V0" (e_vars st) = Some (VJ j1) /\
    sget "Other" (e_vars st) = Some (VJ j2) /\
    Same E0 (own_refs v1) o1 (run_refs st) (j_root j1) /\
    Same E0 (own_refs v2) (v_root v2) (run_refs st) (j_root j2).
Proof. exact (@GenCases.case_equivalent). Qed.
Print Assumptions C47_case_equivalent.

(** ** C48. Generation is lossless

    The generated validator is equivalent to the original for every constraint. (False of the code: multipleOf, number enums, min/maxProperties, schema dependencies, forbidden additional items, fractional integer bounds are dropped, Not cannot be generated, and '%' in strings is mangled.)
    Status: partial. REFUTED as stated; exact guard proved. Sixteen refuting constraints; the dropped aspects leave the text unchanged for every constraint; the guard is faithful in generated_code_equivalent. *)

(* GenCases.v *)
Theorem C48_lossless_refuted :
  ~ (forall (E : env) (G : genv) (v : validator), ssorted (v_refs v) -> names_ok [v] -> lossless E G v).
Proof. exact (@GenCases.lossless_refuted). Qed.
Print Assumptions C48_lossless_refuted.

(* GenCases.v *)
Theorem C48_losses_partial :
  Forall (fun p : constr * gval => flipped (fst p) (snd p))
    [(c_multiple, num 3); (c_num_enum, num 4);
     (c_small, gfloat (num_lit 4503599627370496 (-82))); (c_int_bound, num 1);
     (c_max_props, jobj [("a", num 1)]); (c_min_props, jobj [("a", num 1)]);
     (c_sdep, jobj [("a", num 1)]); (c_fixed, jarr [num 1; num 2]); (
     c_none, num 1); (c_none1, num 1); (c_percent, gstr "5%d")] /\
  Forall no_code [c_not; c_enum; c_str_noenum; c_bool_enum] /\ Forall no_run [c_undefined].
Proof. exact (@GenCases.losses). Qed.
Print Assumptions C48_losses_partial.

(* GenCases.v *)
Theorem C48_losses_are_losses_partial :
  Forall (fun c : constr => ~ lossless E0 G0 (val c))
    [c_multiple; c_num_enum; c_small; c_int_bound; c_max_props; c_min_props; c_sdep; c_fixed;
     c_none; c_none1; c_percent; c_not; c_enum; c_str_noenum; c_bool_enum; c_undefined].
Proof. exact (@GenCases.losses_are_losses). Qed.
Print Assumptions C48_losses_are_losses_partial.

(* GenLoss.v *)
Theorem C48_number_aspects_dropped_partial :
  forall (G : genv) (cm : string) (d : option gval) (m : numcfg) (b : bool) 
    (mul : f64) (en : option (list gval)),
  emit G cm
    (CNum d
       {|
         n_amin := n_amin m;
         n_amax := n_amax m;
         n_amul := b;
         n_min := n_min m;
         n_max := n_max m;
         n_mul := mul;
         n_xmin := n_xmin m;
         n_xmax := n_xmax m;
         n_enum := en
       |}) = emit G cm (CNum d m).
Proof. exact (@GenLoss.number_aspects_dropped). Qed.
Print Assumptions C48_number_aspects_dropped_partial.

(* GenLoss.v *)
Theorem C48_integer_aspects_dropped_partial :
  forall (G : genv) (cm : string) (d : option gval) (m : numcfg) (b : bool) 
    (mul : f64) (en : option (list gval)) (lo hi : f64),
  f64_to_int64 lo = f64_to_int64 (n_min m) ->
  f64_to_int64 hi = f64_to_int64 (n_max m) ->
  emit G cm
    (CInt d
       {|
         n_amin := n_amin m;
         n_amax := n_amax m;
         n_amul := b;
         n_min := lo;
         n_max := hi;
         n_mul := mul;
         n_xmin := n_xmin m;
         n_xmax := n_xmax m;
         n_enum := en
       |}) = emit G cm (CInt d m).
Proof. exact (@GenLoss.integer_aspects_dropped). Qed.
Print Assumptions C48_integer_aspects_dropped_partial.

(* GenLoss.v *)
Theorem C48_object_aspects_dropped_partial :
  forall (G : genv) (cm : string) (o : objcfg) (lo hi : Z) (sd : list (string * constr)),
  emit G cm
    (CObj
       {|
         o_add := o_add o;
         o_pats := o_pats o;
         o_props := o_props o;
         o_propdeps := o_propdeps o;
         o_req := o_req o;
         o_min := lo;
         o_max := hi;
         o_sdeps := sd
       |}) = emit G cm (CObj o).
Proof. exact (@GenLoss.object_aspects_dropped). Qed.
Print Assumptions C48_object_aspects_dropped_partial.

(* GenLoss.v *)
Theorem C48_not_never_generates_partial :
  forall (G : genv) (v : validator) (x : constr),
  names_ok [v] ->
  v_refs v = [] ->
  v_root v = CNot x ->
  emittable false x -> forall w : orc, exists m : string, process G [v] w = GErr m.
Proof. exact (@GenLoss.not_never_generates). Qed.
Print Assumptions C48_not_never_generates_partial.

(* GenTheorems.v *)
Theorem C48_generated_code_equivalent_partial :
  forall (E : env) (G : genv) (vs : list validator),
  names_ok vs ->
  contents_ok vs ->
  (forall v : validator, In v vs -> GenSpec.faithful (v_root v)) ->
  (forall (n : string) (c : constr), sget n (merge_refs vs) = Some c -> GenSpec.faithful c) ->
  forall w : orc,
  exists (s : string) (w' : orc) (st : estate),
    process G vs w = GOk (s, w') /\
    run_go s = Some st /\
    (forall (i : nat) (v : validator),
     nth_error vs i = Some v ->
     agree E (own_refs v) (fun n : string => sget n (merge_refs vs)) (v_root v) ->
     exists j : jsv,
       sget (v_name (named i v)) (e_vars st) = Some (VJ j) /\
       j_name j = v_name (named i v) /\
       Same E (own_refs v) (v_root v) (run_refs st) (j_root j) /\
       (forall (addr addr' : string) (n : nat) (x : gval) (r : res) (x' : gval),
        outcomes E (own_refs v) (v_name (named i v)) addr (v_root v) n x r x' <->
        outcomes E (run_refs st) (j_name j) addr' (j_root j) n x r x')).
Proof. exact (@GenTheorems.generated_code_equivalent). Qed.
Print Assumptions C48_generated_code_equivalent_partial.

(** ** C49. Generated code is deterministic

    The text printed by the generator for a constraint does not depend on map iteration order when pattern sources are distinct.
    Status: proved. The refuted statements show that both conditions (distinct pattern sources, one name per root) are needed. *)

(* GenDet.v *)
Theorem C49_emit_steady :
  forall (G : genv) (cm : string) (c : constr), distinct_sources c -> steady (emit G cm c).
Proof. exact (@GenDet.emit_steady). Qed.
Print Assumptions C49_emit_steady.

(* GenDet.v *)
Theorem C49_process_steady :
  forall (G : genv) (vs : list validator),
  one_same vs ->
  (forall v : validator, In v vs -> distinct_sources (v_root v)) ->
  (forall (n : string) (c : constr), sget n (merge_refs vs) = Some c -> distinct_sources c) ->
  steady (process G vs).
Proof. exact (@GenDet.process_steady). Qed.
Print Assumptions C49_process_steady.

(* GenCases.v *)
Theorem C49_order_free_refuted :
  ~ (forall (G : genv) (c : constr) (w w' : orc), GenDet.same_out (emit G "" c w) (emit G "" c w')).
Proof. exact (@GenCases.order_free_refuted). Qed.
Print Assumptions C49_order_free_refuted.

(* GenCases.v *)
Theorem C49_process_order_free_refuted :
  ~ (forall (G : genv) (vs : list validator) (w w' : orc),
   (forall v : validator, In v vs -> distinct_sources (v_root v)) ->
   (forall (n : string) (c : constr), sget n (merge_refs vs) = Some c -> distinct_sources c) ->
   GenDet.same_out (process G vs w) (process G vs w')).
Proof. exact (@GenCases.process_order_free_refuted). Qed.
Print Assumptions C49_process_order_free_refuted.

(* GenCases.v *)
Theorem C49_case_steady :
  one_same [v1; v2] /\
  (forall v : validator, In v [v1; v2] -> distinct_sources (v_root v)) /\
  (forall (n : string) (c : constr),
   sget n (merge_refs [v1; v2]) = Some c -> distinct_sources c).
Proof. exact (@GenCases.case_steady). Qed.
Print Assumptions C49_case_steady.

(** ** C65. Code generated from a schema means what the schema says

    Build a validator from a schema, generate code for it, compile and run that code: the resulting validator accepts exactly the documents valid against the schema. (False of the code in general: the generator drops keywords, e.g. multipleOf.) Exact for all schemas every part of which is plain (C43) and writable: such schemas always generate, and the generated validator's verdict is the schema's, whatever the iteration orders in building, generating and validating.
    Status: partial. REFUTED as stated; exact guard proved. codable excludes what the generator drops or cannot write (C48); the generated text is run by the model of Go in GoLang/GoEval. *)

(* EndCases.v *)
Theorem C65_schema_to_code_refuted :
  ~ (forall (E : env) (G : genv) (D : resolver) (s : schema) (bytes : bool) 
     (n : nat) (w : orc) (c : constr) (rf : refs) (log : list string) (wg : orc) 
     (code : string) (wg' : orc) (st : estate) (j : jsv),
   Sorted s ->
   (forall (m : string) (s' : schema), BuildSpec.lookup D m = Some s' -> Sorted s') ->
   build_with n D s w = Built c rf log ->
   all_plain E D s bytes s ->
   process G [unnamed c rf []] wg = GOk (code, wg') ->
   run_go code = Some st ->
   sget "V0" (e_vars st) = Some (VJ j) ->
   forall (x : gval) (addr : string) (k : nat) (r : res) (x' : gval),
   json x ->
   (bytes = true -> SchemaSpec.one_byte x) ->
   outcomes E (run_refs st) (j_name j) addr (j_root j) k x r x' ->
   r <> OOF -> r = Pass <-> Valid E D s s x).
Proof. exact (@EndCases.schema_to_code_refuted). Qed.
Print Assumptions C65_schema_to_code_refuted.

(* EndToEnd.v *)
Theorem C65_schema_to_code_partial :
  forall (E : env) (G : genv) (D : resolver) (s : schema) (bytes : bool) 
    (n : nat) (w : orc) (c : constr) (rf : refs) (log same : list string),
  Sorted s ->
  (forall (m : string) (s' : schema), BuildSpec.lookup D m = Some s' -> Sorted s') ->
  build_with n D s w = Built c rf log ->
  all_plain E D s bytes s ->
  codable D s ->
  (forall (r : string) (x : constr), In r same -> sget r rf = Some x -> x = c) ->
  forall wg : orc,
  exists (code : string) (wg' : orc) (st : estate) (j : jsv),
    process G [unnamed c rf same] wg = GOk (code, wg') /\
    run_go code = Some st /\
    sget "V0" (e_vars st) = Some (VJ j) /\
    j_name j = "V0" /\
    (forall (x : gval) (addr : string) (k : nat) (r : res) (x' : gval),
     json x ->
     (bytes = true -> SchemaSpec.one_byte x) ->
     outcomes E (run_refs st) (j_name j) addr (j_root j) k x r x' ->
     r <> OOF ->
     r = Pass /\ Valid E D s s x /\ ~ Invalid E D s s x \/
     (exists m : string, r = Fail m) /\ Invalid E D s s x /\ ~ Valid E D s s x) /\
    (SchemaMain.steady D s ->
     scalar_defaults D s ->
     forall (x : gval) (addr : string),
     json x ->
     (bytes = true -> SchemaSpec.one_byte x) ->
     exists k : nat,
       forall (r : res) (x' : gval),
       outcomes E (run_refs st) (j_name j) addr (j_root j) k x r x' -> r <> OOF).
Proof. exact (@EndToEnd.schema_to_code). Qed.
Print Assumptions C65_schema_to_code_partial.

(* EndCases.v *)
Example C65_tree_codable :
  codable names_t (Sch tree).
Proof. exact (@EndCases.tree_codable). Qed.

(* EndCases.v *)
Example C65_tree_code :
  forall wg : orc,
  exists (code : string) (wg' : orc) (st : estate) (j : jsv),
    process G0 [unnamed tree_c tree_refs ["#"]] wg = GOk (code, wg') /\
    run_go code = Some st /\
    sget "V0" (e_vars st) = Some (VJ j) /\
    (forall addr : string,
     exists k : nat,
       forall (r : res) (x' : gval),
       outcomes env_t (run_refs st) (j_name j) addr (j_root j) k oak r x' -> r = Pass) /\
    (forall addr : string,
     exists k : nat,
       forall (r : res) (x' : gval),
       outcomes env_t (run_refs st) (j_name j) addr (j_root j) k elm r x' ->
       exists m : string, r = Fail m).
Proof. exact (@EndCases.tree_code). Qed.

(** ** C66. Validators generated together keep their meaning

    Process called with several validators writes code in which each behaves as it does alone. (False of the code: the references of all validators go to one map where the first definition of a name wins, so a second validator using '#' for itself gets the first one's root.) Exact when no two validators mean different constraints by one name.
    Status: partial. REFUTED as stated; exact guard proved. The guard is consistent: references with one name are one constraint. *)

(* EndCases.v *)
Theorem C66_together_refuted :
  ~ (forall (E : env) (G : genv) (vs : list validator) (wg : orc) (code : string) 
     (wg' : orc) (st : estate) (i : nat) (v : validator) (j : jsv),
   names_ok vs ->
   contents_ok vs ->
   (forall u : validator,
    In u vs ->
    GenSpec.faithful (v_root u) /\
    (forall (m : string) (x : constr), sget m (v_refs u) = Some x -> GenSpec.faithful x)) ->
   process G vs wg = GOk (code, wg') ->
   run_go code = Some st ->
   nth_error vs i = Some v ->
   sget (v_name (named i v)) (e_vars st) = Some (VJ j) ->
   forall (addr : string) (k : nat) (x : gval) (r : res) (x' : gval),
   outcomes E (own_refs v) (j_name j) addr (v_root v) k x r x' ->
   outcomes E (run_refs st) (j_name j) addr (j_root j) k x r x').
Proof. exact (@EndCases.together_refuted). Qed.
Print Assumptions C66_together_refuted.

(* EndToEnd.v *)
Theorem C66_schemas_to_code_partial :
  forall (E : env) (G : genv) (bytes : bool) (items : list (resolver * schema * validator)),
  let vs := map snd items in
  (forall (D : resolver) (s : schema) (v : validator),
   In (D, s, v) items ->
   Sorted s /\
   (forall (m : string) (s' : schema), BuildSpec.lookup D m = Some s' -> Sorted s') /\
   (exists (n : nat) (w : orc) (log : list string),
      build_with n D s w = Built (v_root v) (v_refs v) log) /\
   all_plain E D s bytes s /\ codable D s) ->
  names_ok vs ->
  same_roots vs ->
  consistent vs ->
  forall wg : orc,
  exists (code : string) (wg' : orc) (st : estate),
    process G vs wg = GOk (code, wg') /\
    run_go code = Some st /\
    (forall (i : nat) (D : resolver) (s : schema) (v : validator),
     nth_error items i = Some (D, s, v) ->
     exists j : jsv,
       sget (v_name (named i v)) (e_vars st) = Some (VJ j) /\
       j_name j = v_name (named i v) /\
       speaks_for E D s bytes (run_refs st) (j_name j) (j_root j)).
Proof. exact (@EndToEnd.schemas_to_code). Qed.
Print Assumptions C66_schemas_to_code_partial.

(* GenTheorems.v *)
Theorem C66_generated_code_equivalent_partial :
  forall (E : env) (G : genv) (vs : list validator),
  names_ok vs ->
  contents_ok vs ->
  (forall v : validator, In v vs -> GenSpec.faithful (v_root v)) ->
  (forall (n : string) (c : constr), sget n (merge_refs vs) = Some c -> GenSpec.faithful c) ->
  forall w : orc,
  exists (s : string) (w' : orc) (st : estate),
    process G vs w = GOk (s, w') /\
    run_go s = Some st /\
    (forall (i : nat) (v : validator),
     nth_error vs i = Some v ->
     agree E (own_refs v) (fun n : string => sget n (merge_refs vs)) (v_root v) ->
     exists j : jsv,
       sget (v_name (named i v)) (e_vars st) = Some (VJ j) /\
       j_name j = v_name (named i v) /\
       Same E (own_refs v) (v_root v) (run_refs st) (j_root j) /\
       (forall (addr addr' : string) (n : nat) (x : gval) (r : res) (x' : gval),
        outcomes E (own_refs v) (v_name (named i v)) addr (v_root v) n x r x' <->
        outcomes E (run_refs st) (j_name j) addr' (j_root j) n x r x')).
Proof. exact (@GenTheorems.generated_code_equivalent). Qed.
Print Assumptions C66_generated_code_equivalent_partial.

(* EndCases.v *)
Example C66_both_generated :
  forall wg : orc,
  exists (code : string) (wg' : orc) (st : estate),
    process G0 (map snd both) wg = GOk (code, wg') /\
    run_go code = Some st /\
    (exists j : jsv,
       sget "Tree" (e_vars st) = Some (VJ j) /\
       speaks_for env_t names_t (Sch tree) true (run_refs st) "Tree" (j_root j)) /\
    (exists j : jsv,
       sget "V1" (e_vars st) = Some (VJ j) /\
       speaks_for env_t names_t (Sch pile) true (run_refs st) "V1" (j_root j)).
Proof. exact (@EndCases.both_generated). Qed.

(* EndCases.v *)
Example C66_clash_built :
  build_with 10 no_names (Sch chain_s) [] = Built (v_root chain_v) (v_refs chain_v) [] /\
  build_with 10 no_names (Sch nest_s) [] = Built (v_root nest_v) (v_refs nest_v) [].
Proof. exact (@EndCases.clash_built). Qed.

(** ** C67. The jsval command generates validators for the schemas it is pointed at

    A run of jsval on a readable schema document ends with status 0 and code that runs, in which the validator named prefix+i accepts exactly the documents valid against the schema at the i-th pointer. (False of the code: with prefix 'R' the names collide with those of the reference variables and the code does not compile; two schemas referring to '#' get one root.) Exact with the guards of C65 and C66 on the schemas, a prefix not among the names the generator uses, and a working file system; and then every run ends.
    Status: partial. REFUTED as stated; exact guard proved. The guards: readable, writable_out, good_prefix, plain and codable schemas, at most one schema referring to '#'. jsschema, jspointer and jsref are parameters. *)

(* CliCases.v *)
Theorem C67_cli_generates_refuted :
  ~ (forall (h : host) (G : genv) (E : env) (bytes : bool) (fuel : nat) (o : copts) 
     (ch : choices) (wd : world) (m : list (string * gval)) (ss : list schema) 
     (e : ended) (wd' : world),
   readable h o wd m ss ->
   writable_out h o ->
   o_prefix o = "" \/ ident (o_prefix o) = true ->
   (forall (k : string) (s : schema), BuildSpec.lookup (h_names h m) k = Some s -> Sorted s) ->
   (forall s : schema,
    In s ss ->
    Sorted s /\
    sound (h_names h m) s /\ all_plain E (h_names h m) s bytes s /\ codable (h_names h m) s) ->
   (forall s s' : schema,
    In s ss -> In s' ss -> Referred (h_names h m) s "#" -> Referred (h_names h m) s' "#" -> s = s') ->
   cli h G fuel (Some o) ch wd = (e, wd') ->
   e <> Loops ->
   exists (code : string) (st : estate), delivered h o code wd wd' /\ run_go code = Some st).
Proof. exact (@CliCases.cli_generates_refuted). Qed.
Print Assumptions C67_cli_generates_refuted.

(* CliProofs.v *)
Theorem C67_cli_generates_partial :
  forall (h : host) (G : genv) (E : env) (bytes : bool) (fuel : nat) 
    (o : copts) (ch : choices) (wd : world) (m : list (string * gval)) 
    (ss : list schema),
  readable h o wd m ss ->
  writable_out h o ->
  good_prefix (o_prefix o) ->
  let D := h_names h m in
  (forall (k : string) (s : schema), BuildSpec.lookup D k = Some s -> Sorted s) ->
  (forall s : schema,
   In s ss -> Sorted s /\ sound D s /\ all_plain E D s bytes s /\ codable D s) ->
  (forall s s' : schema,
   In s ss -> In s' ss -> Referred D s "#" -> Referred D s' "#" -> s = s') ->
  forall (e : ended) (wd' : world),
  cli h G fuel (Some o) ch wd = (e, wd') ->
  e <> Loops ->
  e = Exit 0 /\
  (exists (code : string) (st : estate),
     delivered h o code wd wd' /\
     run_go code = Some st /\
     (forall (i : nat) (s : schema),
      nth_error ss i = Some s ->
      exists j : jsv,
        sget (member_name (o_prefix o) i) (e_vars st) = Some (VJ j) /\
        j_name j = member_name (o_prefix o) i /\
        speaks_for E D s bytes (run_refs st) (j_name j) (j_root j))).
Proof. exact (@CliProofs.cli_generates). Qed.
Print Assumptions C67_cli_generates_partial.

(* CliProofs.v *)
Theorem C67_cli_ends_partial :
  forall (h : host) (G : genv) (o : copts) (ch : choices) (wd : world)
    (m : list (string * gval)) (ss : list schema) (U : list string),
  readable h o wd m ss ->
  let D := h_names h m in
  (forall (k : string) (s : schema), BuildSpec.lookup D k = Some s -> Sorted s) ->
  (forall s : schema, In s ss -> Sorted s /\ (forall k : string, Referred D s k -> In k U)) ->
  fst (cli h G (2 * Datatypes.length U + 3) (Some o) ch wd) <> Loops.
Proof. exact (@CliProofs.cli_ends). Qed.
Print Assumptions C67_cli_ends_partial.

(* CliCases.v *)
Example C67_doc_case :
  forall (ch : choices) (fuel : nat) (e : ended) (wd' : world),
  cli host0 G0 fuel (Some (run0 ["/tree"; "/pile"] "Doc" "code.go")) ch wd0 = (e, wd') ->
  e <> Loops ->
  e = Exit 0 /\
  (exists (code : string) (st : estate),
     w_files wd' = [("code.go", code); ("schema.json", "doc")] /\
     w_stdout wd' = "" /\
     run_go code = Some st /\
     (exists j : jsv,
        sget "Doc0" (e_vars st) = Some (VJ j) /\
        speaks_for env_t names_t (Sch tree) true (run_refs st) "Doc0" (j_root j)) /\
     (exists j : jsv,
        sget "Doc1" (e_vars st) = Some (VJ j) /\
        speaks_for env_t names_t (Sch pile) true (run_refs st) "Doc1" (j_root j))).
Proof. exact (@CliCases.doc_case). Qed.

(* CliCases.v *)
Example C67_doc_ends :
  forall ch : choices,
  exists code : string,
    cli host0 G0 7 (Some (run0 ["/tree"; "/pile"] "Doc" "code.go")) ch wd0 =
    (Exit 0, {| w_files := [("code.go", code); ("schema.json", "doc")]; w_stdout := "" |}).
Proof. exact (@CliCases.doc_ends). Qed.

(** ** C68. A failing run leaves files as they were

    When jsval exits with a non-zero status no file has changed. (False of the code: the output file is created, and so emptied, before the generator runs; if that fails an existing file is lost, even the schema when named as output.) Exactly: a failing run changes nothing, or it empties the output file and the generator failed on the validators built.
    Status: partial. REFUTED as stated; exact guard proved. cli_failure is exact and has no guard. *)

(* CliCases.v *)
Theorem C68_failure_clean_refuted :
  ~ (forall (h : host) (G : genv) (fuel : nat) (opts : option copts) (ch : choices) 
     (wd : world) (e : ended) (wd' : world),
   cli h G fuel opts ch wd = (e, wd') -> e <> Exit 0 -> wd' = wd).
Proof. exact (@CliCases.failure_clean_refuted). Qed.
Print Assumptions C68_failure_clean_refuted.

(* CliProofs.v *)
Theorem C68_cli_failure_partial :
  forall (h : host) (G : genv) (fuel : nat) (opts : option copts) 
    (ch : choices) (wd : world) (e : ended) (wd' : world),
  cli h G fuel opts ch wd = (e, wd') ->
  e <> Exit 0 ->
  wd' = wd \/
  (exists (o : copts) (m : list (string * gval)) (ss : list schema) 
   (ps : list product),
     opts = Some o /\
     o_outfile o <> "" /\
     readable h o wd m ss /\
     Forall2 (built_from fuel (h_names h m)) ss ps /\
     (forall (code : string) (w : orc),
      process G (validators (o_prefix o) ps) (ch_gen ch) <> GOk (code, w)) /\
     wd' = {| w_files := sset (o_outfile o) "" (w_files wd); w_stdout := w_stdout wd |}).
Proof. exact (@CliProofs.cli_failure). Qed.
Print Assumptions C68_cli_failure_partial.

(* CliCases.v *)
Example C68_schema_lost :
  cli host0 G0 10 (Some (run0 ["/rest"] "" "schema.json"))
    {| ch_build := fun _ : nat => []; ch_gen := [] |} wd0 =
  (Exit 1, {| w_files := [("code.go", "old"); ("schema.json", "")]; w_stdout := "" |}).
Proof. exact (@CliCases.schema_lost). Qed.

(* CliCases.v *)
Example C68_early_failure :
  cli host0 G0 10 (Some (run0 ["/tree"; "/nothing"] "" "code.go"))
    {| ch_build := fun _ : nat => []; ch_gen := [] |} wd0 = (Exit 1, wd0).
Proof. exact (@CliCases.early_failure). Qed.

(** ** C69. Exit status 0 means the code was written

    When jsval exits with status 0 the generated code is in the output file, or on standard output. (False of the code: the error of the final write is ignored.) Exact when writing works; no other file changes.
    Status: partial. REFUTED as stated; exact guard proved. cli_success says what status 0 means with no guard; status_exact assumes writing works. *)

(* CliCases.v *)
Theorem C69_status_refuted :
  ~ (forall (h : host) (G : genv) (fuel : nat) (o : copts) (ch : choices) (wd wd' : world),
   cli h G fuel (Some o) ch wd = (Exit 0, wd') ->
   exists (vs : list validator) (code : string) (w : orc),
     process G vs (ch_gen ch) = GOk (code, w) /\ written o code wd wd').
Proof. exact (@CliCases.status_refuted). Qed.
Print Assumptions C69_status_refuted.

(* CliProofs.v *)
Theorem C69_cli_success_partial :
  forall (h : host) (G : genv) (fuel : nat) (opts : option copts) 
    (ch : choices) (wd wd' : world),
  cli h G fuel opts ch wd = (Exit 0, wd') ->
  exists
    (o : copts) (m : list (string * gval)) (ss : list schema) (ps : list product) 
  (code : string) (w : orc),
    opts = Some o /\
    readable h o wd m ss /\
    Forall2 (built_from fuel (h_names h m)) ss ps /\
    process G (validators (o_prefix o) ps) (ch_gen ch) = GOk (code, w) /\
    delivered h o code wd wd'.
Proof. exact (@CliProofs.cli_success). Qed.
Print Assumptions C69_cli_success_partial.

(* CliCases.v *)
Theorem C69_status_exact_partial :
  forall (h : host) (G : genv) (fuel : nat) (o : copts) (ch : choices) (wd wd' : world),
  (forall f t : string, h_write h f t = t) ->
  cli h G fuel (Some o) ch wd = (Exit 0, wd') ->
  exists
    (m : list (string * gval)) (ss : list schema) (ps : list product) 
  (code : string) (w : orc),
    readable h o wd m ss /\
    Forall2 (built_from fuel (h_names h m)) ss ps /\
    process G (validators (o_prefix o) ps) (ch_gen ch) = GOk (code, w) /\
    written o code wd wd' /\
    (forall f : string, f <> o_outfile o -> sget f (w_files wd') = sget f (w_files wd)).
Proof. exact (@CliCases.status_exact). Qed.
Print Assumptions C69_status_exact_partial.

