"""Which theorems support which property (input of gen_properties.py)."""
CLAIMS = []
def c(p, status, theorems, note, partial=None):
    th = theorems.split()
    CLAIMS.append(dict(property=p, status=status, theorems=th, note=note.strip(),
                       partial=th if partial is None else partial.split()))
R = "REFUTED as stated; exact guard proved. "
c('C01','partial','documented_refuted documented_lax documented_strict validate_documented documented_run documented_exact Satisfies_not_Violates person_regular ann_satisfies',"Proved for constraints meeting `regular`, which excludes the features where the code deviates from its documentation: documented_refuted refutes the unguarded statement, documented_lax and documented_strict give, for ten excluded constraints, a document on which the code and the documented meaning disagree. person_regular shows a recursive validator meeting it.")
c('C02','proved','order_independent ann_all_orders person_wf','wf/single are the guards named in the statement plus no nil children and comparable enum values.')
c('C03','partial','every_pattern_refuted pattern_order_matters matched_checked full_run full_rejects',R+'matched_checked: a passing object satisfies some matching pattern for each unlisted matching name.')
c('C04','partial','failure_leaves_no_trace_refuted any_complete_refuted any_order_matters validate_readonly tags_readonly',R+'Without reachable defaults nothing is ever changed (validate_readonly).')
c('C05','partial','validate_ext no_data_lost_refuted nil_default_removes_entry ann_ext',R+'validate_ext: holds for every run when no nil default is declared.')
c('C06','proved','validate_readonly tags_readonly','')
c('C07','proved','object_result full_run full_consequences','')
c('C08','partial','required_refuted required_enforced required_unlisted_ignored obj_run full_run full_rejects unlisted_case',R)
c('C09','partial','propdeps_refuted propdeps_complete_refuted propdeps_enforced obj_run dep_case',R)
c('C10','proved','schemadeps_enforced obj_run full_run full_rejects full_consequences','')
c('C11','proved','additional_checked listed_checked matched_checked additional_irrelevant obj_run full_run full_rejects full_consequences unlisted_case','')
c('C12','proved','count_pass count_fail obj_run full_run full_rejects','')
c('C13','proved','array_only_slices array_items arr_run items_case','')
c('C14','partial','positional_refuted array_positional array_positional_fail arr_run pair_case',R)
c('C15','proved','unique_rejects unique_strings unique_exact_refuted unique_case','Both stated halves, for every slice; unique_exact_refuted shows the remark in brackets: distinct elements that print alike are rejected.')
c('C16','proved','any_decides all_decides oneof_decides not_decides not_unset combinators_order combinators_case','')
c('C17','proved','reduce_same reduce_same_back reduce_case','')
c('C18','proved','number_exact number_rejects num_case','')
c('C19','proved','number_exact number_rejects num_case','')
c('C20','proved','integer_float_exact integer_int_exact integer_rejects integer_bounds_complete int_case','')
c('C21','proved','enum_exact enum_no_panic enum_case','')
c('C22','proved','string_exact string_rejects str_case','')
c('C23','proved','hostname_exact host_case','')
c('C24','proved','ipv4_exact ipv4_no_colon ip_case','net.ParseIP is a parameter of the environment.')
c('C25','partial','ipv6_refuted ipv6_exact ipv6_hex_rejected ip_case',R)
c('C26','proved','null_exact bool_exact empty_accepts null_case','')
c('C27','proved','validate_no_panic run_no_panic ann_calm','')
c('C28','proved','validate_terminates validate_terminates_wf descending_terminates_refuted person_terminates','descending_terminates_refuted shows the condition on defaults is needed.')
c('C29','partial','cyclic_reported_refuted cycle_diverges cycle_mutual',"REFUTED as stated: every cyclic reference runs out of any fuel.")
c('C30','proved','ref_runs ref_missing ref_default ref_case','')
c('C31','proved','linearizable resolved_stable resolve_run','')
c('C32','proved','linearizable get_latest len_counts resolve_run','')
c('C33','proved','no_deadlock work_shrinks all_calls_return no_data_race resolve_run','')
c('C34','proved','struct_property_last struct_property struct_no_property struct_names person_names','')
c('C35','partial','struct_as_map struct_as_map_refuted person_as_map',R)
c('C36','proved','set_exact set_fails maybe_history outcome_unique history_example','')
c('C37','partial','maybe_json_refuted maybe_json time_json_stays null_json string_json_needs_utf8 json_case',R)
c('C38','proved','default_reaches_field by_value_never_passes default_into_person','')
c('C39','proved','registry_linearizable registry_results registry_race_free registry_no_deadlock registry_work_shrinks register_twice','')
c('C40','proved','str_chain_exact num_chain_exact arr_chain_exact obj_chain_exact setters_commute chain_example','')
c('C50','proved','jsval_verdict jsval_no_root jsval_case','')
c('C51','partial','pointer_to_map pointer_to_struct pointers_transparent_refuted struct_pointer_refuted pointer_case',R)
c('C52','partial','validate_repeatable stable_again repeatable_refuted repeatable_refuted_count person_wf ann_passes',R)
c('C53','proved','generate_success generate_failure generate_shape other_paths handler_run','')
c('C54','proved','template_once template_no_deadlock template_run','')
c('C41','proved','built_registered built_closed tree_case','built_closed: registering further references changes nothing, so no missing name is ever looked up.')
c('C42','proved','build_terminates finite_document_builds build_once tree_case','')
c('C46','proved','build_spec build_outcome faults_rejected sound_builds errors_reported hollow_panics build_nil tree_case faults_case','A nil sub-schema (or items without schema) panics instead of returning an error: hollow_panics.')
c('C43','partial','build_means_refuted built_means built_decides Valid_not_Invalid holds_means built_regular tree_builds tree_plain tree_verdicts tree_decided',R+"Proved for all schemas meeting all_plain (every exclusion is a refuted feature: C44, C45, C61-C64, C03, C08, C14, C15), all documents and iteration orders, against a JSON Schema meaning stated on schemas only.")
c('C44','partial','number_enum_refuted number_enum_rejects keyword_case',R+'number_enum_rejects: every value is rejected.')
c('C45','partial','all_combinators_refuted later_combinators_ignored keyword_case',R+'later_combinators_ignored: exactly the first of not/allOf/anyOf/oneOf counts; with one combinator built_means (C43) applies.')
c('C55','partial','integer_chain_refuted integer_chain_exact integer_chain_guarded chain_case',R)
c('C56','partial','integer_bound_refuted integer_int_exact integer_bounds_complete int_case',R)
c('C57','partial','extra_items_refuted extra_items_free extra_items_nil extra_items_case',R)
c('C58','partial','race_free_refuted no_data_race',R)
c('C59','proved','validate_local local_case','')
c('C60','proved','built_order_free tree_case','')
c('C61','partial','other_enum_refuted other_enum_ignored number_enum_rejects keyword_case',R)
c('C62','partial','guess_refuted type_guessed keyword_case',R)
c('C63','partial','date_time_refuted date_time_ignored keyword_case',R)
c('C64','partial','length_refuted string_exact str_case',R)
c('C47','proved','generated_code_equivalent generated_single generated_code_runs case_names case_contents case_faithful case_equivalent',"The generated text is lexed, parsed and run by a model of the Go subset it uses (GoLang, GoEval); format.Source's layout changes, unicode.IsPrint above 0x7f and %-verb error texts are parameters or omitted. generated_code_runs covers every constraint for which usable code is written; generated_code_equivalent the ones with nothing dropped.")
c('C48','partial','lossless_refuted losses losses_are_losses number_aspects_dropped integer_aspects_dropped object_aspects_dropped not_never_generates generated_code_equivalent',R+'Sixteen refuting constraints; the dropped aspects leave the text unchanged for every constraint; the guard is faithful in generated_code_equivalent.')
c('C49','proved','emit_steady process_steady order_free_refuted process_order_free_refuted case_steady','The refuted statements show that both conditions (distinct pattern sources, one name per root) are needed.')
c('C65','partial','schema_to_code_refuted schema_to_code tree_codable tree_code',R+"codable excludes what the generator drops or cannot write (C48); the generated text is run by the model of Go in GoLang/GoEval.")
c('C66','partial','together_refuted schemas_to_code generated_code_equivalent both_generated clash_built',R+'The guard is consistent: references with one name are one constraint.')
c('C67','partial','cli_generates_refuted cli_generates cli_ends doc_case doc_ends',R+"The guards: readable, writable_out, good_prefix, plain and codable schemas, at most one schema referring to '#'. jsschema, jspointer and jsref are parameters.")
c('C68','partial','failure_clean_refuted cli_failure schema_lost early_failure',R+'cli_failure is exact and has no guard.')
c('C69','partial','status_refuted cli_success status_exact',R+'cli_success says what status 0 means with no guard; status_exact assumes writing works.')
c('C70','partial','again_refuted heap_unshared hruns_alone point_run point_apart joined',R+'The guard: default values contain no maps, documents share none. Heap.v covers values as encoding/json makes them.')
c('C71','partial','content_refuted content_exact heap_readonly heap_unshared shared_run',R+'The guard: no sharing and defaults without maps, or no defaults.')
c('C72','partial','outside_refuted heap_frame outside_exact again_frame',R+'heap_frame needs no condition on sharing or defaults.')
c('C73','partial','described_refuted custom_verdict custom_calm crate_agrees null_property null_default maybe_member map_enum',R+'Properties\' values are ordinary values, not themselves objects with methods.')
c('C74','proved','mute_verdict person_refusing half_panics','half_panics: one working method is enough to be caught between two descriptions.')
c('C75','proved','source_agrees source_exact source_panics source_not_stuck src_default_model source_agrees_jsval all_parse all_functions person_canonical ann_source struct_source struct_canonical','The interpreter (SrcExec.v) and parser (SrcSyntax.v) are the trusted meaning of the Go subset; canonical/in_order are representation invariants of maps (keys listed in order).')
c('C76','proved','source_documented source_no_panic source_order_independent source_other_loops source_terminates loop_orders person_canonical ann_source_runs','regular, wf, single and small are the guards of C01, C27, C02 and C28.')
c('C77','proved','source_extract outer_source','')
c('C78','proved','src_buildSchema src_buildWith src_build src_compile rep_one validator_one all_parse_b all_functions_b names_once all_structs tree_source','The interpreter (SrcStore.v) is the trusted meaning of the Go subset the builder uses. Messages agree except that the text says which type is unknown (relation said). build_with/build_schema <> BOOF says the model needs no more fuel; source_answers (C79) discharges it for schemas with finitely many referenced names.')
c('C79','proved','source_end_to_end source_reports source_answers tree_end_to_end','all_plain is the guard of C43 (every exclusion a refuted feature); sound, erroneous, hollow are those of C41.')
c('C80','proved','fluent_source fluent_end_to_end fluent_canonical person_said person_run person_tidy person_end_to_end','tidy: the maps inside default values list their keys in order, as a Go map has no order of its own. Setters are called on the value the previous call returned, as the Go chain does; two variables holding one constraint are outside the syntax fl.')
c('C81','proved','generate_source parses_g all_functions_g names_once_g sample_tame sample_source','The interpreter (SrcGen.v) is the trusted meaning of the Go subset of generator.go. tame: no positional item of an array makes the generator report an error (generateArrayCode drops that error, and the model then forgets the map orders the failed item used).')
c('C82','proved','process_source model_order_rest case_sorted case_source_process case_source_fails','The interpreter (SrcGen.v) is the trusted meaning of the Go subset of generator.go. format.Source is modelled as: accepted files are returned as they are, others are an error. tame as in C81. The source goes through the references of each validator, the model once through all: the orders left over have to agree, and model_order gives such an order for any orders of the source.')
c('C83','proved','source_generated_equivalent contents_tame emittable_tame case_source_equivalent','C82 joined with C47; the writer is the text of generator.go, the reader the model of the Go front end (GoLang, GoEval).')
c('C84','proved','source_whole_way generated_way run_canonical run_neat tree_whole_way','The three interpreters are the trusted meaning of the Go text; the generated file is run by the model of the Go front end and of the API (GoLang, GoEval). same: which references are the very object that is the root (pointer identity, a parameter; the root is written once more where it is left out).')
c('C85','proved','set_source unmarshal_source marshal_source valid_source value_source reset_source error_source layout_source maybe_source_answers maybe_source_laws ex_set ex_set_time ex_set_named ex_time_flag','The interpreter (SrcMaybe.v) is the trusted meaning of the Go subset of maybe.go; time.Parse, Format, json.Marshal and json.Unmarshal of one basic value are parameters or as in the model. A value receiver keeps its changes to itself, a pointer receiver passes them on (read off the text).')
c('C86','proved','cli_source main_source source_generates source_failure source_success source_doc source_lost source_early source_server','The interpreter (SrcShell.v) and what the packages called do (SrcCli.v) are the trusted meaning. flags.Parse fills the option record or fails; log.Printf has no effect; a deferred Close has none. jspointer.New and Get are one parameter of the model: where New rejects a text Get must give nothing (the hypothesis, met by every host with a New that only says no to what Get cannot use). server.Run is a parameter here (the handlers: C53, C54).')
c('C87','proved','serve_source source_generate_success source_generate_shape source_other_paths playground handlers_all playground_tree tree_in_time playground_refuses','The interpreter (SrcShell.v) and what the packages called do (SrcServer.v) are the trusted meaning; http.NotFound is one step, getTemplates a parameter (its cache: C54), writing to the client always succeeds. In playground: schema.Read and the JSON decoder are parameters; the guards are those of C84 (sorted, sound, plain, codable) and that the build does not run out of fuel.')
c('C88','proved','command_verdicts playground_verdicts doc_verdicts','Guards as in C67 and C84: readable document, writable output, good prefix, sorted, sound, plain and codable schemas, at most one of them referring to #; the build does not run out of fuel (never for finitely many references: cli_ends). The command and the handlers, and Validate, are run from their text; the builder and the generator between them are those of the model, which agree with their text by C78, C81 and C82; generated files are run by GoEval.v.')
def span(*xs):
    out = []
    for x in xs:
        if isinstance(x, tuple): out += ['C%02d' % i for i in range(x[0], x[1] + 1)]
        else: out.append('C%02d' % x)
    return out
GROUPS = {
  'PropertiesValidate': ('Validation: meaning, order, documents, objects, arrays, combinators', span((1, 17), 59, (70, 72))),
  'PropertiesScalars': ('Scalar constraints and the host name / address checks', span((18, 26), 56, 64)),
  'PropertiesRuns': ('Panics, termination, references, repeated runs, wrappers', span((27, 30), (50, 52))),
  'PropertiesConc': ('Concurrency: reference map, registry, server', span((31, 33), 39, 53, 54, 58)),
  'PropertiesGo': ('Structs, Maybe values and the fluent API', span((34, 38), 40, 55, 57, 73, 74)),
  'PropertiesGenerator': ('The code generator', span((47, 49), (65, 69))),
  'PropertiesSource': ('The Go source text, interpreted', span((75, 88))),
  'PropertiesBuilder': ('The builder', span((41, 46), (60, 63))),
}
