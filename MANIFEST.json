{
 "claims": [
  {
   "property": "C01",
   "status": "proved",
   "theorems": [
    "C01_and_rec"
   ],
   "note": ""
  },
  {
   "property": "C02",
   "status": "proved",
   "theorems": [
    "C02_or_after_xor_refuted",
    "C02_or_rec"
   ],
   "note": "The statement has a positive and a negative half; both are theorems (the negative ones end in _refuted: the usual claim is stated in full and disproved, by a concrete program run in the model or in general)."
  },
  {
   "property": "C03",
   "status": "proved",
   "theorems": [
    "C03_negate",
    "C03_negate_twice"
   ],
   "note": ""
  },
  {
   "property": "C04",
   "status": "proved",
   "theorems": [
    "C04_ite_clash_never_returns",
    "C04_ite_rec",
    "C04_ite_rec_last",
    "C04_ite_refuted"
   ],
   "note": "C04_ite_rec and C04_ite_clash_never_returns cover the two exclusive cases for every ordered history; C04_ite_rec_last is the part for unordered ones; C04_ite_refuted disproves the unrestricted claim."
  },
  {
   "property": "C05",
   "status": "proved",
   "theorems": [
    "C05_xor_after_or_refuted",
    "C05_xor_range",
    "C05_xor_rec",
    "C05_xor_variadic"
   ],
   "note": "The statement has a positive and a negative half; both are theorems (the negative ones end in _refuted: the usual claim is stated in full and disproved, by a concrete program run in the model or in general)."
  },
  {
   "property": "C06",
   "status": "proved",
   "theorems": [
    "C06_add_variable",
    "C06_constants",
    "C06_neg_projection",
    "C06_projection",
    "C06_projection_vars",
    "C06_unique_find"
   ],
   "note": ""
  },
  {
   "property": "C07",
   "status": "proved",
   "theorems": [
    "C07_after_xor_refuted",
    "C07_canonical",
    "C07_constants"
   ],
   "note": "The statement has a positive and a negative half; both are theorems (the negative ones end in _refuted: the usual claim is stated in full and disproved, by a concrete program run in the model or in general)."
  },
  {
   "property": "C08",
   "status": "proved",
   "theorems": [
    "C08_and_range",
    "C08_and_variadic",
    "C08_or_range",
    "C08_or_variadic"
   ],
   "note": ""
  },
  {
   "property": "C09",
   "status": "proved",
   "theorems": [
    "C09_all_false",
    "C09_at_least_one",
    "C09_at_most_one",
    "C09_simplex"
   ],
   "note": ""
  },
  {
   "property": "C10",
   "status": "proved",
   "theorems": [
    "C10_at_least"
   ],
   "note": ""
  },
  {
   "property": "C11",
   "status": "proved",
   "theorems": [
    "C11_at_most",
    "C11_at_most_large_refuted"
   ],
   "note": "The statement has a positive and a negative half; both are theorems (the negative ones end in _refuted: the usual claim is stated in full and disproved, by a concrete program run in the model or in general)."
  },
  {
   "property": "C12",
   "status": "proved",
   "theorems": [
    "C12_cardinality"
   ],
   "note": ""
  },
  {
   "property": "C13",
   "status": "proved",
   "theorems": [
    "C13_and_rec_limited",
    "C13_large_limit",
    "C13_limit_refuted",
    "C13_monotone",
    "C13_number",
    "C13_same_as_and_rec"
   ],
   "note": "Conjunction, agreement with and_rec, monotonicity in the limit, the bounds on the returned number and a limit that always suffices are proved; the three readings of the limit contract are disproved in C13_limit_refuted."
  },
  {
   "property": "C14",
   "status": "proved",
   "theorems": [
    "C14_rebase_map",
    "C14_rebase_vector"
   ],
   "note": ""
  },
  {
   "property": "C15",
   "status": "proved",
   "theorems": [
    "C15_evaluate"
   ],
   "note": ""
  },
  {
   "property": "C16",
   "status": "proved",
   "theorems": [
    "C16_nr_nodes"
   ],
   "note": ""
  },
  {
   "property": "C17",
   "status": "proved",
   "theorems": [
    "C17_postorder"
   ],
   "note": ""
  },
  {
   "property": "C18",
   "status": "proved",
   "theorems": [
    "C18_bfs"
   ],
   "note": ""
  },
  {
   "property": "C19",
   "status": "proved",
   "theorems": [
    "C19_variables",
    "C19_variables_sup"
   ],
   "note": ""
  },
  {
   "property": "C20",
   "status": "proved",
   "theorems": [
    "C20_exactly_one_solution"
   ],
   "note": ""
  },
  {
   "property": "C21",
   "status": "proved",
   "theorems": [
    "C21_count_range",
    "C21_refcount",
    "C21_refcount_all"
   ],
   "note": ""
  },
  {
   "property": "C22",
   "status": "proved",
   "theorems": [
    "C22_node_count",
    "C22_nodes",
    "C22_persistent",
    "C22_total"
   ],
   "note": ""
  },
  {
   "property": "C23",
   "status": "proved",
   "theorems": [
    "C23_doubling",
    "C23_lookup",
    "C23_no_duplicates",
    "C23_no_redundant",
    "C23_unique_find_existing"
   ],
   "note": ""
  },
  {
   "property": "C24",
   "status": "proved",
   "theorems": [
    "C24_manager_nr_nodes",
    "C24_nodes_in_pages",
    "C24_reserve_fresh"
   ],
   "note": ""
  },
  {
   "property": "C25",
   "status": "proved",
   "theorems": [
    "C25_free_cell",
    "C25_no_page_lost",
    "C25_page_large_enough",
    "C25_pages_private"
   ],
   "note": ""
  },
  {
   "property": "C26",
   "status": "proved",
   "theorems": [
    "C26_after_throw_refuted",
    "C26_capacity",
    "C26_handles_survive",
    "C26_references",
    "C26_throw_reachable",
    "C26_throws_only_full",
    "C26_transparent"
   ],
   "note": "C26_throw_reachable exhibits a history (built by induction, not run) in which the exception is thrown. C26_transparent covers all later programs that create no nodes (the excluded queries are reference_count and the manager's nr_nodes; C26_references says what the former returns)."
  },
  {
   "property": "C27",
   "status": "proved",
   "theorems": [
    "C27_entries",
    "C27_transparent"
   ],
   "note": ""
  },
  {
   "property": "C28",
   "status": "proved",
   "theorems": [
    "C28_gc_keeps",
    "C28_gc_structure",
    "C28_gc_transparent",
    "C28_no_garbage"
   ],
   "note": "One collection after a GC-free ordered history; whether it returns is not promised (see C30), nor that later node-creating operations are correct (C29); C28_gc_transparent covers all later programs that create no nodes (the excluded queries are reference_count and the manager's nr_nodes, which do change)."
  },
  {
   "property": "C29",
   "status": "proved",
   "theorems": [
    "C29_stale_memo_refuted"
   ],
   "note": "Refutation; the case in which nothing is garbage is C28_no_garbage."
  },
  {
   "property": "C30",
   "status": "proved",
   "theorems": [
    "C30_nontermination_refuted"
   ],
   "note": "Refutation for every fuel; the case in which nothing is garbage is C28_no_garbage."
  },
  {
   "property": "C31",
   "status": "proved",
   "theorems": [
    "C31_leak_refuted"
   ],
   "note": "Refutation."
  },
  {
   "property": "C32",
   "status": "proved",
   "theorems": [
    "C32_shrink_refuted"
   ],
   "note": "Refutation, for NDEBUG defined and not."
  },
  {
   "property": "C33",
   "status": "proved",
   "theorems": [
    "C33_after_xor_refuted",
    "C33_destruction"
   ],
   "note": "The statement has a positive and a negative half; both are theorems (the negative ones end in _refuted: the usual claim is stated in full and disproved, by a concrete program run in the model or in general)."
  },
  {
   "property": "C34",
   "status": "proved",
   "theorems": [
    "C34_functions",
    "C34_functions_unordered",
    "C34_mixed_refuted",
    "C34_queries"
   ],
   "note": "The statement has a positive and a negative half; both are theorems (the negative ones end in _refuted: the usual claim is stated in full and disproved, by a concrete program run in the model or in general)."
  },
  {
   "property": "C35",
   "status": "proved",
   "theorems": [
    "C35_minimal"
   ],
   "note": ""
  },
  {
   "property": "C36",
   "status": "proved",
   "theorems": [
    "C36_cofactors"
   ],
   "note": ""
  },
  {
   "property": "C40",
   "status": "proved",
   "theorems": [
    "C40_add_bdd",
    "C40_constant_refuted"
   ],
   "note": "The statement has a positive and a negative half; both are theorems (the negative ones end in _refuted: the usual claim is stated in full and disproved, by a concrete program run in the model or in general)."
  },
  {
   "property": "C41",
   "status": "proved",
   "theorems": [
    "C41_and2"
   ],
   "note": ""
  },
  {
   "property": "C42",
   "status": "proved",
   "theorems": [
    "C42_and_range",
    "C42_one_operand",
    "C42_other_sizes"
   ],
   "note": ""
  },
  {
   "property": "C43",
   "status": "proved",
   "theorems": [
    "C43_limit"
   ],
   "note": ""
  },
  {
   "property": "C44",
   "status": "proved",
   "theorems": [
    "C44_contradiction_refuted"
   ],
   "note": "Holds for every contradictory operand list, not only for an example."
  },
  {
   "property": "C45",
   "status": "proved",
   "theorems": [
    "C45_ordered",
    "C45_reachable",
    "C45_wellformed"
   ],
   "note": ""
  },
  {
   "property": "C46",
   "status": "proved",
   "theorems": [
    "C46_export",
    "C46_export_canonical",
    "C46_roundtrip"
   ],
   "note": ""
  },
  {
   "property": "C47",
   "status": "proved",
   "theorems": [
    "C47_import",
    "C47_offset_refuted"
   ],
   "note": "The statement has a positive and a negative half; both are theorems (the negative ones end in _refuted: the usual claim is stated in full and disproved, by a concrete program run in the model or in general)."
  },
  {
   "property": "C48",
   "status": "proved",
   "theorems": [
    "C48_rebase",
    "C48_rebase_built",
    "C48_rebase_range",
    "C48_rebase_varmap"
   ],
   "note": ""
  },
  {
   "property": "C49",
   "status": "proved",
   "theorems": [
    "C49_remove",
    "C49_remove_refuted"
   ],
   "note": "Both halves are general."
  },
  {
   "property": "C50",
   "status": "proved",
   "theorems": [
    "C50_all_dropped_refuted",
    "C50_any_number_refuted",
    "C50_merge_refuted",
    "C50_or_var",
    "C50_or_var_disjunction",
    "C50_or_var_drops",
    "C50_or_var_ordered",
    "C50_or_var_refuted",
    "C50_or_var_returns",
    "C50_or_var_root",
    "C50_or_var_root_refuted",
    "C50_or_var_usable",
    "C50_redundant_child_refuted",
    "C50_root_dropped_refuted",
    "C50_tautology_refuted",
    "C50_unreachable_refuted"
   ],
   "note": "The general failures (absent variable, redundant child, tautology on the root) are proved for every case; overflow at 128 removals (signed 8-bit char, as on x86) and merged duplicates by concrete runs in both build modes."
  },
  {
   "property": "C51",
   "status": "proved",
   "theorems": [
    "C51_builder_assert_refuted",
    "C51_builder_ndebug_refuted"
   ],
   "note": "Holds for every collection."
  },
  {
   "property": "C52",
   "status": "proved",
   "theorems": [
    "C52_queries"
   ],
   "note": ""
  },
  {
   "property": "C53",
   "status": "proved",
   "theorems": [
    "C53_node_eval",
    "C53_traversal"
   ],
   "note": ""
  },
  {
   "property": "C54",
   "status": "proved",
   "theorems": [
    "C54_add_terminals",
    "C54_and_terminals_refuted"
   ],
   "note": "Both halves are general."
  },
  {
   "property": "C55",
   "status": "proved",
   "theorems": [
    "C55_evaluate",
    "C55_never_loops"
   ],
   "note": ""
  },
  {
   "property": "C56",
   "status": "proved",
   "theorems": [
    "C56_below",
    "C56_last_index_refuted"
   ],
   "note": "The statement has a positive and a negative half; both are theorems (the negative ones end in _refuted: the usual claim is stated in full and disproved, by a concrete program run in the model or in general)."
  },
  {
   "property": "C57",
   "status": "proved",
   "theorems": [
    "C57_depths",
    "C57_depths_postorder"
   ],
   "note": ""
  },
  {
   "property": "C58",
   "status": "proved",
   "theorems": [
    "C58_operators"
   ],
   "note": ""
  },
  {
   "property": "C59",
   "status": "proved",
   "theorems": [
    "C59_print"
   ],
   "note": ""
  },
  {
   "property": "C60",
   "status": "proved",
   "theorems": [
    "C60_constants_refuted"
   ],
   "note": "Refutations."
  },
  {
   "property": "C61",
   "status": "proved",
   "theorems": [
    "C61_destruction_after_gc_refuted"
   ],
   "note": "Refutation, for NDEBUG defined and not."
  },
  {
   "property": "C62",
   "status": "proved",
   "theorems": [
    "C62_mark",
    "C62_marked_nr_nodes",
    "C62_none_marked",
    "C62_ref_mark"
   ],
   "note": ""
  },
  {
   "property": "C63",
   "status": "proved",
   "theorems": [
    "C63_and",
    "C63_and_rec",
    "C63_ite",
    "C63_negate",
    "C63_negate_rec",
    "C63_or",
    "C63_or_rec"
   ],
   "note": ""
  },
  {
   "property": "C64",
   "status": "proved",
   "theorems": [
    "C64_all_false",
    "C64_at_least",
    "C64_at_least_one",
    "C64_at_most",
    "C64_at_most_one",
    "C64_cardinality",
    "C64_lower",
    "C64_projection",
    "C64_simplex",
    "C64_symmetric",
    "C64_symmetric_lower"
   ],
   "note": ""
  },
  {
   "property": "C65",
   "status": "proved",
   "theorems": [
    "C65_and_terminal_refuted",
    "C65_conjunction_refuted",
    "C65_cycle_refuted",
    "C65_is_bdd",
    "C65_set_hi_arc",
    "C65_set_lo_arc",
    "C65_to_terminal"
   ],
   "note": "The statement has a positive and a negative half; both are theorems (the negative ones end in _refuted: the usual claim is stated in full and disproved, by a concrete program run in the model or in general)."
  },
  {
   "property": "C66",
   "status": "proved",
   "theorems": [
    "C66_contradiction_refuted",
    "C66_denotes",
    "C66_export_graphviz"
   ],
   "note": "The statement has a positive and a negative half; both are theorems (the negative ones end in _refuted: the usual claim is stated in full and disproved, by a concrete program run in the model or in general)."
  },
  {
   "property": "C67",
   "status": "proved",
   "theorems": [
    "C67_contradiction_refuted",
    "C67_entry_and",
    "C67_nodes"
   ],
   "note": "The statement has a positive and a negative half; both are theorems (the negative ones end in _refuted: the usual claim is stated in full and disproved, by a concrete program run in the model or in general)."
  },
  {
   "property": "C68",
   "status": "proved",
   "theorems": [
    "C68_instructions",
    "C68_reverse_refuted"
   ],
   "note": "Both halves are general."
  },
  {
   "property": "C69",
   "status": "proved",
   "theorems": [
    "C69_built",
    "C69_is_bdd"
   ],
   "note": ""
  },
  {
   "property": "C70",
   "status": "proved",
   "theorems": [
    "C70_contents",
    "C70_free",
    "C70_nr_pages",
    "C70_reserve"
   ],
   "note": ""
  },
  {
   "property": "C71",
   "status": "proved",
   "theorems": [
    "C71_contents",
    "C71_free",
    "C71_nr_nodes",
    "C71_pages",
    "C71_references",
    "C71_reserve"
   ],
   "note": ""
  },
  {
   "property": "C72",
   "status": "proved",
   "theorems": [
    "C72_deref",
    "C72_hash_code",
    "C72_kill_revive"
   ],
   "note": ""
  },
  {
   "property": "C73",
   "status": "proved",
   "theorems": [
    "C73_and",
    "C73_growth",
    "C73_ite",
    "C73_limited",
    "C73_negate",
    "C73_no_garbage",
    "C73_or",
    "C73_projection",
    "C73_unique"
   ],
   "note": ""
  },
  {
   "property": "C74",
   "status": "proved",
   "theorems": [
    "C74_and",
    "C74_and_limited",
    "C74_and_limited_nodes",
    "C74_and_nodes",
    "C74_ite",
    "C74_ite_nodes",
    "C74_negate",
    "C74_negate_nodes",
    "C74_or",
    "C74_or_nodes",
    "C74_queries",
    "C74_queries_nodes",
    "C74_xor_nodes"
   ],
   "note": ""
  },
  {
   "property": "C75",
   "status": "proved",
   "theorems": [
    "C75_negate_bound",
    "C75_negate_counted",
    "C75_negate_exponential",
    "C75_negate_paths",
    "C75_nodes_bfs",
    "C75_nodes_bfs_counted",
    "C75_nodes_postorder",
    "C75_nodes_postorder_counted",
    "C75_nr_nodes",
    "C75_nr_nodes_counted",
    "C75_print",
    "C75_print_counted",
    "C75_variables",
    "C75_variables_counted"
   ],
   "note": ""
  },
  {
   "property": "C76",
   "status": "proved",
   "theorems": [
    "C76_and",
    "C76_and2",
    "C76_like_manager",
    "C76_minimal",
    "C76_same_size"
   ],
   "note": ""
  },
  {
   "property": "C77",
   "status": "proved",
   "theorems": [
    "C77_and_at_most",
    "C77_and_counted",
    "C77_and_depth",
    "C77_and_exponential"
   ],
   "note": ""
  },
  {
   "property": "C78",
   "status": "proved",
   "theorems": [
    "C78_and_bound",
    "C78_and_counted",
    "C78_and_nodes",
    "C78_and_repeat",
    "C78_ite_bound",
    "C78_ite_counted",
    "C78_ite_nodes",
    "C78_or_bound",
    "C78_or_counted",
    "C78_or_nodes",
    "C78_or_repeat"
   ],
   "note": ""
  },
  {
   "property": "C79",
   "status": "proved",
   "theorems": [
    "C79_and_product",
    "C79_enlarge",
    "C79_found",
    "C79_or_product",
    "C79_slots"
   ],
   "note": ""
  },
  {
   "property": "C80",
   "status": "proved",
   "theorems": [
    "C80_memo_cache",
    "C80_node_pages",
    "C80_table",
    "C80_tables"
   ],
   "note": ""
  },
  {
   "property": "C81",
   "status": "proved",
   "theorems": [
    "C81_xor_bound",
    "C81_xor_counted",
    "C81_xor_product",
    "C81_xor_repeat"
   ],
   "note": ""
  }
 ]
}