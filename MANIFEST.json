{
 "claims": [
  {
   "property": "C01",
   "status": "partial",
   "theorems": [
    "C01_documented_refuted",
    "C01_documented_lax_partial",
    "C01_documented_strict_partial",
    "C01_validate_documented_partial",
    "C01_documented_run_partial",
    "C01_documented_exact_partial",
    "C01_Satisfies_not_Violates_partial"
   ],
   "note": "Proved for constraints meeting `regular`, which excludes the features where the code deviates from its documentation: documented_refuted refutes the unguarded statement, documented_lax and documented_strict give, for ten excluded constraints, a document on which the code and the documented meaning disagree. person_regular shows a recursive validator meeting it. Concrete cases: C01_person_regular, C01_ann_satisfies."
  },
  {
   "property": "C02",
   "status": "proved",
   "theorems": [
    "C02_order_independent"
   ],
   "note": "wf/single are the guards named in the statement plus no nil children and comparable enum values. Concrete cases: C02_ann_all_orders, C02_person_wf."
  },
  {
   "property": "C03",
   "status": "partial",
   "theorems": [
    "C03_every_pattern_refuted",
    "C03_pattern_order_matters_partial",
    "C03_matched_checked_partial"
   ],
   "note": "REFUTED as stated; exact guard proved. matched_checked: a passing object satisfies some matching pattern for each unlisted matching name. Concrete cases: C03_full_run, C03_full_rejects."
  },
  {
   "property": "C04",
   "status": "partial",
   "theorems": [
    "C04_failure_leaves_no_trace_refuted",
    "C04_any_complete_refuted",
    "C04_any_order_matters_partial",
    "C04_validate_readonly_partial"
   ],
   "note": "REFUTED as stated; exact guard proved. Without reachable defaults nothing is ever changed (validate_readonly). Concrete cases: C04_tags_readonly."
  },
  {
   "property": "C05",
   "status": "partial",
   "theorems": [
    "C05_validate_ext_partial",
    "C05_no_data_lost_refuted",
    "C05_nil_default_removes_entry_partial"
   ],
   "note": "REFUTED as stated; exact guard proved. validate_ext: holds for every run when no nil default is declared. Concrete cases: C05_ann_ext."
  },
  {
   "property": "C06",
   "status": "proved",
   "theorems": [
    "C06_validate_readonly"
   ],
   "note": "Concrete cases: C06_tags_readonly."
  },
  {
   "property": "C07",
   "status": "proved",
   "theorems": [
    "C07_object_result"
   ],
   "note": "Concrete cases: C07_full_run, C07_full_consequences."
  },
  {
   "property": "C08",
   "status": "partial",
   "theorems": [
    "C08_required_refuted",
    "C08_required_enforced_partial",
    "C08_required_unlisted_ignored_partial",
    "C08_obj_run_partial"
   ],
   "note": "REFUTED as stated; exact guard proved. Concrete cases: C08_full_run, C08_full_rejects, C08_unlisted_case."
  },
  {
   "property": "C09",
   "status": "partial",
   "theorems": [
    "C09_propdeps_refuted",
    "C09_propdeps_complete_refuted",
    "C09_propdeps_enforced_partial",
    "C09_obj_run_partial"
   ],
   "note": "REFUTED as stated; exact guard proved. Concrete cases: C09_dep_case."
  },
  {
   "property": "C10",
   "status": "proved",
   "theorems": [
    "C10_schemadeps_enforced",
    "C10_obj_run"
   ],
   "note": "Concrete cases: C10_full_run, C10_full_rejects, C10_full_consequences."
  },
  {
   "property": "C11",
   "status": "proved",
   "theorems": [
    "C11_additional_checked",
    "C11_listed_checked",
    "C11_matched_checked",
    "C11_additional_irrelevant",
    "C11_obj_run"
   ],
   "note": "Concrete cases: C11_full_run, C11_full_rejects, C11_full_consequences, C11_unlisted_case."
  },
  {
   "property": "C12",
   "status": "proved",
   "theorems": [
    "C12_count_pass",
    "C12_count_fail",
    "C12_obj_run"
   ],
   "note": "Concrete cases: C12_full_run, C12_full_rejects."
  },
  {
   "property": "C13",
   "status": "proved",
   "theorems": [
    "C13_array_only_slices",
    "C13_array_items",
    "C13_arr_run"
   ],
   "note": "Concrete cases: C13_items_case."
  },
  {
   "property": "C14",
   "status": "partial",
   "theorems": [
    "C14_positional_refuted",
    "C14_array_positional_partial",
    "C14_array_positional_fail_partial",
    "C14_arr_run_partial"
   ],
   "note": "REFUTED as stated; exact guard proved. Concrete cases: C14_pair_case."
  },
  {
   "property": "C15",
   "status": "proved",
   "theorems": [
    "C15_unique_rejects",
    "C15_unique_strings",
    "C15_unique_exact_refuted"
   ],
   "note": "Both stated halves, for every slice; unique_exact_refuted shows the remark in brackets: distinct elements that print alike are rejected. Concrete cases: C15_unique_case."
  },
  {
   "property": "C16",
   "status": "proved",
   "theorems": [
    "C16_any_decides",
    "C16_all_decides",
    "C16_oneof_decides",
    "C16_not_decides",
    "C16_not_unset",
    "C16_combinators_order"
   ],
   "note": "Concrete cases: C16_combinators_case."
  },
  {
   "property": "C17",
   "status": "proved",
   "theorems": [
    "C17_reduce_same",
    "C17_reduce_same_back"
   ],
   "note": "Concrete cases: C17_reduce_case."
  },
  {
   "property": "C18",
   "status": "proved",
   "theorems": [
    "C18_number_exact",
    "C18_number_rejects"
   ],
   "note": "Concrete cases: C18_num_case."
  },
  {
   "property": "C19",
   "status": "proved",
   "theorems": [
    "C19_number_exact",
    "C19_number_rejects"
   ],
   "note": "Concrete cases: C19_num_case."
  },
  {
   "property": "C20",
   "status": "proved",
   "theorems": [
    "C20_integer_float_exact",
    "C20_integer_int_exact",
    "C20_integer_rejects",
    "C20_integer_bounds_complete"
   ],
   "note": "Concrete cases: C20_int_case."
  },
  {
   "property": "C21",
   "status": "proved",
   "theorems": [
    "C21_enum_exact",
    "C21_enum_no_panic"
   ],
   "note": "Concrete cases: C21_enum_case."
  },
  {
   "property": "C22",
   "status": "proved",
   "theorems": [
    "C22_string_exact",
    "C22_string_rejects"
   ],
   "note": "Concrete cases: C22_str_case."
  },
  {
   "property": "C23",
   "status": "proved",
   "theorems": [
    "C23_hostname_exact"
   ],
   "note": "Concrete cases: C23_host_case."
  },
  {
   "property": "C24",
   "status": "proved",
   "theorems": [
    "C24_ipv4_exact",
    "C24_ipv4_no_colon"
   ],
   "note": "net.ParseIP is a parameter of the environment. Concrete cases: C24_ip_case."
  },
  {
   "property": "C25",
   "status": "partial",
   "theorems": [
    "C25_ipv6_refuted",
    "C25_ipv6_exact_partial",
    "C25_ipv6_hex_rejected_partial"
   ],
   "note": "REFUTED as stated; exact guard proved. Concrete cases: C25_ip_case."
  },
  {
   "property": "C26",
   "status": "proved",
   "theorems": [
    "C26_null_exact",
    "C26_bool_exact",
    "C26_empty_accepts"
   ],
   "note": "Concrete cases: C26_null_case."
  },
  {
   "property": "C27",
   "status": "proved",
   "theorems": [
    "C27_validate_no_panic",
    "C27_run_no_panic"
   ],
   "note": "Concrete cases: C27_ann_calm."
  },
  {
   "property": "C28",
   "status": "proved",
   "theorems": [
    "C28_validate_terminates",
    "C28_validate_terminates_wf",
    "C28_descending_terminates_refuted"
   ],
   "note": "descending_terminates_refuted shows the condition on defaults is needed. Concrete cases: C28_person_terminates."
  },
  {
   "property": "C29",
   "status": "partial",
   "theorems": [
    "C29_cyclic_reported_refuted",
    "C29_cycle_diverges_partial"
   ],
   "note": "REFUTED as stated: every cyclic reference runs out of any fuel. Concrete cases: C29_cycle_mutual."
  },
  {
   "property": "C30",
   "status": "proved",
   "theorems": [
    "C30_ref_runs",
    "C30_ref_missing",
    "C30_ref_default"
   ],
   "note": "Concrete cases: C30_ref_case."
  },
  {
   "property": "C31",
   "status": "proved",
   "theorems": [
    "C31_linearizable",
    "C31_resolved_stable"
   ],
   "note": "Concrete cases: C31_resolve_run."
  },
  {
   "property": "C32",
   "status": "proved",
   "theorems": [
    "C32_linearizable",
    "C32_get_latest",
    "C32_len_counts"
   ],
   "note": "Concrete cases: C32_resolve_run."
  },
  {
   "property": "C33",
   "status": "proved",
   "theorems": [
    "C33_no_deadlock",
    "C33_work_shrinks",
    "C33_all_calls_return",
    "C33_no_data_race"
   ],
   "note": "Concrete cases: C33_resolve_run."
  },
  {
   "property": "C34",
   "status": "proved",
   "theorems": [
    "C34_struct_property_last",
    "C34_struct_property",
    "C34_struct_no_property",
    "C34_struct_names"
   ],
   "note": "Concrete cases: C34_person_names."
  },
  {
   "property": "C35",
   "status": "partial",
   "theorems": [
    "C35_struct_as_map_partial",
    "C35_struct_as_map_refuted"
   ],
   "note": "REFUTED as stated; exact guard proved. Concrete cases: C35_person_as_map."
  },
  {
   "property": "C36",
   "status": "proved",
   "theorems": [
    "C36_set_exact",
    "C36_set_fails",
    "C36_maybe_history",
    "C36_outcome_unique"
   ],
   "note": "Concrete cases: C36_history_example."
  },
  {
   "property": "C37",
   "status": "partial",
   "theorems": [
    "C37_maybe_json_refuted",
    "C37_maybe_json_partial",
    "C37_time_json_stays_partial",
    "C37_null_json_partial",
    "C37_string_json_needs_utf8_partial"
   ],
   "note": "REFUTED as stated; exact guard proved. Concrete cases: C37_json_case."
  },
  {
   "property": "C38",
   "status": "proved",
   "theorems": [
    "C38_default_reaches_field",
    "C38_by_value_never_passes"
   ],
   "note": "Concrete cases: C38_default_into_person."
  },
  {
   "property": "C39",
   "status": "proved",
   "theorems": [
    "C39_registry_linearizable",
    "C39_registry_results",
    "C39_registry_race_free",
    "C39_registry_no_deadlock",
    "C39_registry_work_shrinks"
   ],
   "note": "Concrete cases: C39_register_twice."
  },
  {
   "property": "C40",
   "status": "proved",
   "theorems": [
    "C40_str_chain_exact",
    "C40_num_chain_exact",
    "C40_arr_chain_exact",
    "C40_obj_chain_exact",
    "C40_setters_commute"
   ],
   "note": "Concrete cases: C40_chain_example."
  },
  {
   "property": "C41",
   "status": "proved",
   "theorems": [
    "C41_built_registered",
    "C41_built_closed"
   ],
   "note": "built_closed: registering further references changes nothing, so no missing name is ever looked up. Concrete cases: C41_tree_case."
  },
  {
   "property": "C42",
   "status": "proved",
   "theorems": [
    "C42_build_terminates",
    "C42_finite_document_builds",
    "C42_build_once"
   ],
   "note": "Concrete cases: C42_tree_case."
  },
  {
   "property": "C43",
   "status": "partial",
   "theorems": [
    "C43_build_means_refuted",
    "C43_built_means_partial",
    "C43_built_decides_partial",
    "C43_Valid_not_Invalid_partial",
    "C43_holds_means_partial",
    "C43_built_regular_partial",
    "C43_tree_plain_partial"
   ],
   "note": "REFUTED as stated; exact guard proved. Proved for all schemas meeting all_plain (every exclusion is a refuted feature: C44, C45, C61-C64, C03, C08, C14, C15), all documents and iteration orders, against a JSON Schema meaning stated on schemas only. Concrete cases: C43_tree_builds, C43_tree_verdicts, C43_tree_decided."
  },
  {
   "property": "C44",
   "status": "partial",
   "theorems": [
    "C44_number_enum_refuted",
    "C44_number_enum_rejects_partial"
   ],
   "note": "REFUTED as stated; exact guard proved. number_enum_rejects: every value is rejected. Concrete cases: C44_keyword_case."
  },
  {
   "property": "C45",
   "status": "partial",
   "theorems": [
    "C45_all_combinators_refuted",
    "C45_later_combinators_ignored_partial"
   ],
   "note": "REFUTED as stated; exact guard proved. later_combinators_ignored: exactly the first of not/allOf/anyOf/oneOf counts; with one combinator built_means (C43) applies. Concrete cases: C45_keyword_case."
  },
  {
   "property": "C46",
   "status": "proved",
   "theorems": [
    "C46_build_spec",
    "C46_build_outcome",
    "C46_faults_rejected",
    "C46_sound_builds",
    "C46_errors_reported",
    "C46_hollow_panics",
    "C46_build_nil"
   ],
   "note": "A nil sub-schema (or items without schema) panics instead of returning an error: hollow_panics. Concrete cases: C46_tree_case, C46_faults_case."
  },
  {
   "property": "C47",
   "status": "proved",
   "theorems": [
    "C47_generated_code_equivalent",
    "C47_generated_single",
    "C47_generated_code_runs",
    "C47_case_names",
    "C47_case_contents",
    "C47_case_faithful",
    "C47_case_equivalent"
   ],
   "note": "The generated text is lexed, parsed and run by a model of the Go subset it uses (GoLang, GoEval); format.Source's layout changes, unicode.IsPrint above 0x7f and %-verb error texts are parameters or omitted. generated_code_runs covers every constraint for which usable code is written; generated_code_equivalent the ones with nothing dropped."
  },
  {
   "property": "C48",
   "status": "partial",
   "theorems": [
    "C48_lossless_refuted",
    "C48_losses_partial",
    "C48_losses_are_losses_partial",
    "C48_number_aspects_dropped_partial",
    "C48_integer_aspects_dropped_partial",
    "C48_object_aspects_dropped_partial",
    "C48_not_never_generates_partial",
    "C48_generated_code_equivalent_partial"
   ],
   "note": "REFUTED as stated; exact guard proved. Sixteen refuting constraints; the dropped aspects leave the text unchanged for every constraint; the guard is faithful in generated_code_equivalent."
  },
  {
   "property": "C49",
   "status": "proved",
   "theorems": [
    "C49_emit_steady",
    "C49_process_steady",
    "C49_order_free_refuted",
    "C49_process_order_free_refuted",
    "C49_case_steady"
   ],
   "note": "The refuted statements show that both conditions (distinct pattern sources, one name per root) are needed."
  },
  {
   "property": "C50",
   "status": "proved",
   "theorems": [
    "C50_jsval_verdict",
    "C50_jsval_no_root"
   ],
   "note": "Concrete cases: C50_jsval_case."
  },
  {
   "property": "C51",
   "status": "partial",
   "theorems": [
    "C51_pointer_to_map_partial",
    "C51_pointer_to_struct_partial",
    "C51_pointers_transparent_refuted",
    "C51_struct_pointer_refuted"
   ],
   "note": "REFUTED as stated; exact guard proved. Concrete cases: C51_pointer_case."
  },
  {
   "property": "C52",
   "status": "partial",
   "theorems": [
    "C52_validate_repeatable_partial",
    "C52_stable_again_partial",
    "C52_repeatable_refuted",
    "C52_repeatable_refuted_count"
   ],
   "note": "REFUTED as stated; exact guard proved. Concrete cases: C52_person_wf, C52_ann_passes."
  },
  {
   "property": "C53",
   "status": "proved",
   "theorems": [
    "C53_generate_success",
    "C53_generate_failure",
    "C53_generate_shape",
    "C53_other_paths"
   ],
   "note": "Concrete cases: C53_handler_run."
  },
  {
   "property": "C54",
   "status": "proved",
   "theorems": [
    "C54_template_once",
    "C54_template_no_deadlock"
   ],
   "note": "Concrete cases: C54_template_run."
  },
  {
   "property": "C55",
   "status": "partial",
   "theorems": [
    "C55_integer_chain_refuted",
    "C55_integer_chain_exact_partial",
    "C55_integer_chain_guarded_partial"
   ],
   "note": "REFUTED as stated; exact guard proved. Concrete cases: C55_chain_case."
  },
  {
   "property": "C56",
   "status": "partial",
   "theorems": [
    "C56_integer_bound_refuted",
    "C56_integer_int_exact_partial",
    "C56_integer_bounds_complete_partial"
   ],
   "note": "REFUTED as stated; exact guard proved. Concrete cases: C56_int_case."
  },
  {
   "property": "C57",
   "status": "partial",
   "theorems": [
    "C57_extra_items_refuted",
    "C57_extra_items_free_partial",
    "C57_extra_items_nil_partial"
   ],
   "note": "REFUTED as stated; exact guard proved. Concrete cases: C57_extra_items_case."
  },
  {
   "property": "C58",
   "status": "partial",
   "theorems": [
    "C58_race_free_refuted",
    "C58_no_data_race_partial"
   ],
   "note": "REFUTED as stated; exact guard proved."
  },
  {
   "property": "C59",
   "status": "proved",
   "theorems": [
    "C59_validate_local"
   ],
   "note": "Concrete cases: C59_local_case."
  },
  {
   "property": "C60",
   "status": "proved",
   "theorems": [
    "C60_built_order_free"
   ],
   "note": "Concrete cases: C60_tree_case."
  },
  {
   "property": "C61",
   "status": "partial",
   "theorems": [
    "C61_other_enum_refuted",
    "C61_other_enum_ignored_partial",
    "C61_number_enum_rejects_partial"
   ],
   "note": "REFUTED as stated; exact guard proved. Concrete cases: C61_keyword_case."
  },
  {
   "property": "C62",
   "status": "partial",
   "theorems": [
    "C62_guess_refuted",
    "C62_type_guessed_partial"
   ],
   "note": "REFUTED as stated; exact guard proved. Concrete cases: C62_keyword_case."
  },
  {
   "property": "C63",
   "status": "partial",
   "theorems": [
    "C63_date_time_refuted",
    "C63_date_time_ignored_partial"
   ],
   "note": "REFUTED as stated; exact guard proved. Concrete cases: C63_keyword_case."
  },
  {
   "property": "C64",
   "status": "partial",
   "theorems": [
    "C64_length_refuted",
    "C64_string_exact_partial"
   ],
   "note": "REFUTED as stated; exact guard proved. Concrete cases: C64_str_case."
  },
  {
   "property": "C65",
   "status": "partial",
   "theorems": [
    "C65_schema_to_code_refuted",
    "C65_schema_to_code_partial"
   ],
   "note": "REFUTED as stated; exact guard proved. codable excludes what the generator drops or cannot write (C48); the generated text is run by the model of Go in GoLang/GoEval. Concrete cases: C65_tree_codable, C65_tree_code."
  },
  {
   "property": "C66",
   "status": "partial",
   "theorems": [
    "C66_together_refuted",
    "C66_schemas_to_code_partial",
    "C66_generated_code_equivalent_partial"
   ],
   "note": "REFUTED as stated; exact guard proved. The guard is consistent: references with one name are one constraint. Concrete cases: C66_both_generated, C66_clash_built."
  },
  {
   "property": "C67",
   "status": "partial",
   "theorems": [
    "C67_cli_generates_refuted",
    "C67_cli_generates_partial",
    "C67_cli_ends_partial"
   ],
   "note": "REFUTED as stated; exact guard proved. The guards: readable, writable_out, good_prefix, plain and codable schemas, at most one schema referring to '#'. jsschema, jspointer and jsref are parameters. Concrete cases: C67_doc_case, C67_doc_ends."
  },
  {
   "property": "C68",
   "status": "partial",
   "theorems": [
    "C68_failure_clean_refuted",
    "C68_cli_failure_partial"
   ],
   "note": "REFUTED as stated; exact guard proved. cli_failure is exact and has no guard. Concrete cases: C68_schema_lost, C68_early_failure."
  },
  {
   "property": "C69",
   "status": "partial",
   "theorems": [
    "C69_status_refuted",
    "C69_cli_success_partial",
    "C69_status_exact_partial"
   ],
   "note": "REFUTED as stated; exact guard proved. cli_success says what status 0 means with no guard; status_exact assumes writing works."
  },
  {
   "property": "C70",
   "status": "partial",
   "theorems": [
    "C70_again_refuted",
    "C70_heap_unshared_partial",
    "C70_hruns_alone_partial"
   ],
   "note": "REFUTED as stated; exact guard proved. The guard: default values contain no maps, documents share none. Heap.v covers values as encoding/json makes them. Concrete cases: C70_point_run, C70_point_apart, C70_joined."
  },
  {
   "property": "C71",
   "status": "partial",
   "theorems": [
    "C71_content_refuted",
    "C71_content_exact_partial",
    "C71_heap_readonly_partial",
    "C71_heap_unshared_partial"
   ],
   "note": "REFUTED as stated; exact guard proved. The guard: no sharing and defaults without maps, or no defaults. Concrete cases: C71_shared_run."
  },
  {
   "property": "C72",
   "status": "partial",
   "theorems": [
    "C72_outside_refuted",
    "C72_heap_frame_partial",
    "C72_outside_exact_partial"
   ],
   "note": "REFUTED as stated; exact guard proved. heap_frame needs no condition on sharing or defaults. Concrete cases: C72_again_frame."
  },
  {
   "property": "C73",
   "status": "partial",
   "theorems": [
    "C73_described_refuted",
    "C73_custom_verdict_partial",
    "C73_custom_calm_partial",
    "C73_crate_agrees_partial"
   ],
   "note": "REFUTED as stated; exact guard proved. Properties' values are ordinary values, not themselves objects with methods. Concrete cases: C73_null_property, C73_null_default, C73_maybe_member, C73_map_enum."
  },
  {
   "property": "C74",
   "status": "proved",
   "theorems": [
    "C74_mute_verdict"
   ],
   "note": "half_panics: one working method is enough to be caught between two descriptions. Concrete cases: C74_person_refusing, C74_half_panics."
  },
  {
   "property": "C75",
   "status": "proved",
   "theorems": [
    "C75_source_agrees",
    "C75_source_exact",
    "C75_source_panics",
    "C75_source_not_stuck",
    "C75_src_default_model",
    "C75_source_agrees_jsval"
   ],
   "note": "The interpreter (SrcExec.v) and parser (SrcSyntax.v) are the trusted meaning of the Go subset; canonical/in_order are representation invariants of maps (keys listed in order). Concrete cases: C75_all_parse, C75_all_functions, C75_person_canonical, C75_ann_source, C75_struct_source, C75_struct_canonical."
  },
  {
   "property": "C76",
   "status": "proved",
   "theorems": [
    "C76_source_documented",
    "C76_source_no_panic",
    "C76_source_order_independent",
    "C76_source_other_loops",
    "C76_source_terminates",
    "C76_loop_orders"
   ],
   "note": "regular, wf, single and small are the guards of C01, C27, C02 and C28. Concrete cases: C76_person_canonical, C76_ann_source_runs."
  },
  {
   "property": "C77",
   "status": "proved",
   "theorems": [
    "C77_source_extract"
   ],
   "note": "Concrete cases: C77_outer_source."
  },
  {
   "property": "C78",
   "status": "proved",
   "theorems": [
    "C78_src_buildSchema",
    "C78_src_buildWith",
    "C78_src_build",
    "C78_src_compile",
    "C78_rep_one",
    "C78_validator_one"
   ],
   "note": "The interpreter (SrcStore.v) is the trusted meaning of the Go subset the builder uses. Messages agree except that the text says which type is unknown (relation said). build_with/build_schema <> BOOF says the model needs no more fuel; source_answers (C79) discharges it for schemas with finitely many referenced names. Concrete cases: C78_all_parse_b, C78_all_functions_b, C78_names_once, C78_all_structs, C78_tree_source."
  },
  {
   "property": "C79",
   "status": "proved",
   "theorems": [
    "C79_source_end_to_end",
    "C79_source_reports",
    "C79_source_answers"
   ],
   "note": "all_plain is the guard of C43 (every exclusion a refuted feature); sound, erroneous, hollow are those of C41. Concrete cases: C79_tree_end_to_end."
  },
  {
   "property": "C80",
   "status": "proved",
   "theorems": [
    "C80_fluent_source",
    "C80_fluent_end_to_end",
    "C80_fluent_canonical"
   ],
   "note": "tidy: the maps inside default values list their keys in order, as a Go map has no order of its own. Setters are called on the value the previous call returned, as the Go chain does; two variables holding one constraint are outside the syntax fl. Concrete cases: C80_person_said, C80_person_run, C80_person_tidy, C80_person_end_to_end."
  },
  {
   "property": "C81",
   "status": "proved",
   "theorems": [
    "C81_generate_source"
   ],
   "note": "The interpreter (SrcGen.v) is the trusted meaning of the Go subset of generator.go. tame: no positional item of an array makes the generator report an error (generateArrayCode drops that error, and the model then forgets the map orders the failed item used). Concrete cases: C81_parses_g, C81_all_functions_g, C81_names_once_g, C81_sample_tame, C81_sample_source."
  },
  {
   "property": "C82",
   "status": "proved",
   "theorems": [
    "C82_process_source",
    "C82_model_order_rest"
   ],
   "note": "The interpreter (SrcGen.v) is the trusted meaning of the Go subset of generator.go. format.Source is modelled as: accepted files are returned as they are, others are an error. tame as in C81. The source goes through the references of each validator, the model once through all: the orders left over have to agree, and model_order gives such an order for any orders of the source. Concrete cases: C82_case_sorted, C82_case_source_process, C82_case_source_fails."
  },
  {
   "property": "C83",
   "status": "proved",
   "theorems": [
    "C83_source_generated_equivalent",
    "C83_contents_tame",
    "C83_emittable_tame"
   ],
   "note": "C82 joined with C47; the writer is the text of generator.go, the reader the model of the Go front end (GoLang, GoEval). Concrete cases: C83_case_source_equivalent."
  },
  {
   "property": "C84",
   "status": "proved",
   "theorems": [
    "C84_source_whole_way",
    "C84_generated_way",
    "C84_run_canonical",
    "C84_run_neat"
   ],
   "note": "The three interpreters are the trusted meaning of the Go text; the generated file is run by the model of the Go front end and of the API (GoLang, GoEval). same: which references are the very object that is the root (pointer identity, a parameter; the root is written once more where it is left out). Concrete cases: C84_tree_whole_way."
  },
  {
   "property": "C85",
   "status": "proved",
   "theorems": [
    "C85_set_source",
    "C85_unmarshal_source",
    "C85_marshal_source",
    "C85_valid_source",
    "C85_value_source",
    "C85_reset_source",
    "C85_error_source",
    "C85_layout_source",
    "C85_maybe_source_answers",
    "C85_maybe_source_laws"
   ],
   "note": "The interpreter (SrcMaybe.v) is the trusted meaning of the Go subset of maybe.go; time.Parse, Format, json.Marshal and json.Unmarshal of one basic value are parameters or as in the model. A value receiver keeps its changes to itself, a pointer receiver passes them on (read off the text). Concrete cases: C85_ex_set, C85_ex_set_time, C85_ex_set_named, C85_ex_time_flag."
  },
  {
   "property": "C86",
   "status": "proved",
   "theorems": [
    "C86_cli_source",
    "C86_main_source",
    "C86_source_generates",
    "C86_source_failure",
    "C86_source_success"
   ],
   "note": "The interpreter (SrcShell.v) and what the packages called do (SrcCli.v) are the trusted meaning. flags.Parse fills the option record or fails; log.Printf has no effect; a deferred Close has none. jspointer.New and Get are one parameter of the model: where New rejects a text Get must give nothing (the hypothesis, met by every host with a New that only says no to what Get cannot use). server.Run is a parameter here (the handlers: C53, C54). Concrete cases: C86_source_doc, C86_source_lost, C86_source_early, C86_source_server."
  },
  {
   "property": "C87",
   "status": "proved",
   "theorems": [
    "C87_serve_source",
    "C87_source_generate_success",
    "C87_source_generate_shape",
    "C87_source_other_paths",
    "C87_playground"
   ],
   "note": "The interpreter (SrcShell.v) and what the packages called do (SrcServer.v) are the trusted meaning; http.NotFound is one step, getTemplates a parameter (its cache: C54), writing to the client always succeeds. In playground: schema.Read and the JSON decoder are parameters; the guards are those of C84 (sorted, sound, plain, codable) and that the build does not run out of fuel. Concrete cases: C87_handlers_all, C87_playground_tree, C87_tree_in_time, C87_playground_refuses."
  },
  {
   "property": "C88",
   "status": "proved",
   "theorems": [
    "C88_command_verdicts",
    "C88_playground_verdicts"
   ],
   "note": "Guards as in C67 and C84: readable document, writable output, good prefix, sorted, sound, plain and codable schemas, at most one of them referring to #; the build does not run out of fuel (never for finitely many references: cli_ends). The command and the handlers, and Validate, are run from their text; the builder and the generator between them are those of the model, which agree with their text by C78, C81 and C82; generated files are run by GoEval.v. Concrete cases: C88_doc_verdicts."
  }
 ]
}