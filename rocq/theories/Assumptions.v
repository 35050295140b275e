(** * Assumptions.v -- what the theorems rest on (generated by tools/assumptions.py)

    Compiling this file prints the axioms used by the proofs of all property theorems together. *)
From Verif Require Import Witness6 Witness7 Witness8 Witness9 Witness10 Witness11 Witness12 Witness13 Witness14 Witness15 Witness16 Witness17.
Definition all_theorems : True :=
  let _ := @C01_and_rec in
  let _ := @C02_or_after_xor_refuted in
  let _ := @C02_or_rec in
  let _ := @C03_negate in
  let _ := @C03_negate_twice in
  let _ := @C04_ite_clash_never_returns in
  let _ := @C04_ite_rec in
  let _ := @C04_ite_rec_last in
  let _ := @C04_ite_refuted in
  let _ := @C05_xor_after_or_refuted in
  let _ := @C05_xor_range in
  let _ := @C05_xor_rec in
  let _ := @C05_xor_variadic in
  let _ := @C06_add_variable in
  let _ := @C06_constants in
  let _ := @C06_neg_projection in
  let _ := @C06_projection in
  let _ := @C06_projection_vars in
  let _ := @C06_unique_find in
  let _ := @C07_after_xor_refuted in
  let _ := @C07_canonical in
  let _ := @C07_constants in
  let _ := @C08_and_range in
  let _ := @C08_and_variadic in
  let _ := @C08_or_range in
  let _ := @C08_or_variadic in
  let _ := @C09_all_false in
  let _ := @C09_at_least_one in
  let _ := @C09_at_most_one in
  let _ := @C09_simplex in
  let _ := @C10_at_least in
  let _ := @C11_at_most in
  let _ := @C11_at_most_large_refuted in
  let _ := @C12_cardinality in
  let _ := @C13_and_rec_limited in
  let _ := @C13_large_limit in
  let _ := @C13_limit_refuted in
  let _ := @C13_monotone in
  let _ := @C13_number in
  let _ := @C13_same_as_and_rec in
  let _ := @C14_rebase_map in
  let _ := @C14_rebase_vector in
  let _ := @C15_evaluate in
  let _ := @C16_nr_nodes in
  let _ := @C17_postorder in
  let _ := @C18_bfs in
  let _ := @C19_variables in
  let _ := @C19_variables_sup in
  let _ := @C20_exactly_one_solution in
  let _ := @C21_count_range in
  let _ := @C21_refcount in
  let _ := @C21_refcount_all in
  let _ := @C22_node_count in
  let _ := @C22_nodes in
  let _ := @C22_persistent in
  let _ := @C22_total in
  let _ := @C23_doubling in
  let _ := @C23_lookup in
  let _ := @C23_no_duplicates in
  let _ := @C23_no_redundant in
  let _ := @C23_unique_find_existing in
  let _ := @C24_manager_nr_nodes in
  let _ := @C24_nodes_in_pages in
  let _ := @C24_reserve_fresh in
  let _ := @C25_free_cell in
  let _ := @C25_no_page_lost in
  let _ := @C25_page_large_enough in
  let _ := @C25_pages_private in
  let _ := @C26_after_throw_refuted in
  let _ := @C26_capacity in
  let _ := @C26_handles_survive in
  let _ := @C26_references in
  let _ := @C26_throw_reachable in
  let _ := @C26_throws_only_full in
  let _ := @C26_transparent in
  let _ := @C27_entries in
  let _ := @C27_transparent in
  let _ := @C28_gc_keeps in
  let _ := @C28_gc_structure in
  let _ := @C28_gc_transparent in
  let _ := @C28_no_garbage in
  let _ := @C29_stale_memo_refuted in
  let _ := @C30_nontermination_refuted in
  let _ := @C31_leak_refuted in
  let _ := @C32_shrink_refuted in
  let _ := @C33_after_xor_refuted in
  let _ := @C33_destruction in
  let _ := @C34_functions in
  let _ := @C34_functions_unordered in
  let _ := @C34_mixed_refuted in
  let _ := @C34_queries in
  let _ := @C35_minimal in
  let _ := @C36_cofactors in
  let _ := @C40_add_bdd in
  let _ := @C40_constant_refuted in
  let _ := @C41_and2 in
  let _ := @C42_and_range in
  let _ := @C42_one_operand in
  let _ := @C42_other_sizes in
  let _ := @C43_limit in
  let _ := @C44_contradiction_refuted in
  let _ := @C45_ordered in
  let _ := @C45_reachable in
  let _ := @C45_wellformed in
  let _ := @C46_export in
  let _ := @C46_export_canonical in
  let _ := @C46_roundtrip in
  let _ := @C47_import in
  let _ := @C47_offset_refuted in
  let _ := @C48_rebase in
  let _ := @C48_rebase_built in
  let _ := @C48_rebase_range in
  let _ := @C48_rebase_varmap in
  let _ := @C49_remove in
  let _ := @C49_remove_refuted in
  let _ := @C50_all_dropped_refuted in
  let _ := @C50_any_number_refuted in
  let _ := @C50_merge_refuted in
  let _ := @C50_or_var in
  let _ := @C50_or_var_disjunction in
  let _ := @C50_or_var_drops in
  let _ := @C50_or_var_ordered in
  let _ := @C50_or_var_refuted in
  let _ := @C50_or_var_returns in
  let _ := @C50_or_var_root in
  let _ := @C50_or_var_root_refuted in
  let _ := @C50_or_var_usable in
  let _ := @C50_redundant_child_refuted in
  let _ := @C50_root_dropped_refuted in
  let _ := @C50_tautology_refuted in
  let _ := @C50_unreachable_refuted in
  let _ := @C51_builder_assert_refuted in
  let _ := @C51_builder_ndebug_refuted in
  let _ := @C52_queries in
  let _ := @C53_node_eval in
  let _ := @C53_traversal in
  let _ := @C54_add_terminals in
  let _ := @C54_and_terminals_refuted in
  let _ := @C55_evaluate in
  let _ := @C55_never_loops in
  let _ := @C56_below in
  let _ := @C56_last_index_refuted in
  let _ := @C57_depths in
  let _ := @C57_depths_postorder in
  let _ := @C58_operators in
  let _ := @C59_print in
  let _ := @C60_constants_refuted in
  let _ := @C61_destruction_after_gc_refuted in
  let _ := @C62_mark in
  let _ := @C62_marked_nr_nodes in
  let _ := @C62_none_marked in
  let _ := @C62_ref_mark in
  let _ := @C63_and in
  let _ := @C63_and_rec in
  let _ := @C63_ite in
  let _ := @C63_negate in
  let _ := @C63_negate_rec in
  let _ := @C63_or in
  let _ := @C63_or_rec in
  let _ := @C64_all_false in
  let _ := @C64_at_least in
  let _ := @C64_at_least_one in
  let _ := @C64_at_most in
  let _ := @C64_at_most_one in
  let _ := @C64_cardinality in
  let _ := @C64_lower in
  let _ := @C64_projection in
  let _ := @C64_simplex in
  let _ := @C64_symmetric in
  let _ := @C64_symmetric_lower in
  let _ := @C65_and_terminal_refuted in
  let _ := @C65_conjunction_refuted in
  let _ := @C65_cycle_refuted in
  let _ := @C65_is_bdd in
  let _ := @C65_set_hi_arc in
  let _ := @C65_set_lo_arc in
  let _ := @C65_to_terminal in
  let _ := @C66_contradiction_refuted in
  let _ := @C66_denotes in
  let _ := @C66_export_graphviz in
  let _ := @C67_contradiction_refuted in
  let _ := @C67_entry_and in
  let _ := @C67_nodes in
  let _ := @C68_instructions in
  let _ := @C68_reverse_refuted in
  let _ := @C69_built in
  let _ := @C69_is_bdd in
  let _ := @C70_contents in
  let _ := @C70_free in
  let _ := @C70_nr_pages in
  let _ := @C70_reserve in
  let _ := @C71_contents in
  let _ := @C71_free in
  let _ := @C71_nr_nodes in
  let _ := @C71_pages in
  let _ := @C71_references in
  let _ := @C71_reserve in
  let _ := @C72_deref in
  let _ := @C72_hash_code in
  let _ := @C72_kill_revive in
  let _ := @C73_and in
  let _ := @C73_growth in
  let _ := @C73_ite in
  let _ := @C73_limited in
  let _ := @C73_negate in
  let _ := @C73_no_garbage in
  let _ := @C73_or in
  let _ := @C73_projection in
  let _ := @C73_unique in
  let _ := @C74_and in
  let _ := @C74_and_limited in
  let _ := @C74_and_limited_nodes in
  let _ := @C74_and_nodes in
  let _ := @C74_ite in
  let _ := @C74_ite_nodes in
  let _ := @C74_negate in
  let _ := @C74_negate_nodes in
  let _ := @C74_or in
  let _ := @C74_or_nodes in
  let _ := @C74_queries in
  let _ := @C74_queries_nodes in
  let _ := @C74_xor_nodes in
  let _ := @C75_negate_bound in
  let _ := @C75_negate_counted in
  let _ := @C75_negate_exponential in
  let _ := @C75_negate_paths in
  let _ := @C75_nodes_bfs in
  let _ := @C75_nodes_bfs_counted in
  let _ := @C75_nodes_postorder in
  let _ := @C75_nodes_postorder_counted in
  let _ := @C75_nr_nodes in
  let _ := @C75_nr_nodes_counted in
  let _ := @C75_print in
  let _ := @C75_print_counted in
  let _ := @C75_variables in
  let _ := @C75_variables_counted in
  let _ := @C76_and in
  let _ := @C76_and2 in
  let _ := @C76_like_manager in
  let _ := @C76_minimal in
  let _ := @C76_same_size in
  let _ := @C77_and_at_most in
  let _ := @C77_and_counted in
  let _ := @C77_and_depth in
  let _ := @C77_and_exponential in
  let _ := @C78_and_bound in
  let _ := @C78_and_counted in
  let _ := @C78_and_nodes in
  let _ := @C78_and_repeat in
  let _ := @C78_ite_bound in
  let _ := @C78_ite_counted in
  let _ := @C78_ite_nodes in
  let _ := @C78_or_bound in
  let _ := @C78_or_counted in
  let _ := @C78_or_nodes in
  let _ := @C78_or_repeat in
  let _ := @C79_and_product in
  let _ := @C79_enlarge in
  let _ := @C79_found in
  let _ := @C79_or_product in
  let _ := @C79_slots in
  let _ := @C80_memo_cache in
  let _ := @C80_node_pages in
  let _ := @C80_table in
  let _ := @C80_tables in
  let _ := @C81_xor_bound in
  let _ := @C81_xor_counted in
  let _ := @C81_xor_product in
  let _ := @C81_xor_repeat in
  I.
Print Assumptions all_theorems.
