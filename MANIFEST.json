{
 "claims": [
  {
   "property": "C01",
   "status": "proved",
   "theorems": [
    "C01_solve_optimum"
   ],
   "note": "exact arithmetic on Data; Example C01_example"
  },
  {
   "property": "C02",
   "status": "proved",
   "theorems": [
    "C02_solve_nullopt"
   ],
   "note": "exact arithmetic on Data"
  },
  {
   "property": "C03",
   "status": "proved",
   "theorems": [
    "C03_solve_terminates"
   ],
   "note": "explicit bound solver_fuel on the iterations of every loop"
  },
  {
   "property": "C04",
   "status": "proved",
   "theorems": [
    "C04_solve_no_ub"
   ],
   "note": "every error outcome of the model is excluded"
  },
  {
   "property": "C05",
   "status": "proved",
   "theorems": [
    "C05_documented_capacity",
    "C05_capacity",
    "C05_documented_capacity_refuted"
   ],
   "note": "the documented number suffices when every range contains 0; refuted otherwise; C05_capacity gives a bound that always suffices"
  },
  {
   "property": "C06",
   "status": "proved",
   "theorems": [
    "C06_malformed_rejected",
    "C06_size_max_refuted"
   ],
   "note": "statement restricted to n < 2^64-1 and |numbers| <= INT_MAX/3; the case n = 2^64-1 is refuted"
  },
  {
   "property": "C07",
   "status": "proved",
   "theorems": [
    "C07_calls_in_range"
   ],
   "note": "callbacks that fail outside their range give the same result"
  },
  {
   "property": "C08",
   "status": "proved",
   "theorems": [
    "C08_omega_order"
   ],
   "note": ""
  },
  {
   "property": "C09",
   "status": "proved",
   "theorems": [
    "C09_parallel_limits",
    "C09_not_monotone_refuted",
    "C01_solve_optimum"
   ],
   "note": "nondecreasing costs; refuted without monotonicity"
  },
  {
   "property": "C10",
   "status": "proved",
   "theorems": [
    "C10_add_constant_mu",
    "C10_add_constant_omega"
   ],
   "note": ""
  },
  {
   "property": "C100",
   "status": "proved",
   "theorems": [
    "C100_same",
    "C100_few",
    "C100_reproducible_refuted",
    "C100_first_coin",
    "C100_first_number"
   ],
   "note": ""
  },
  {
   "property": "C101",
   "status": "proved",
   "theorems": [
    "C101_find_solution"
   ],
   "note": "the client program is not part of the repository; it calls the constructor and solve() only"
  },
  {
   "property": "C102",
   "status": "proved",
   "theorems": [
    "C102_any_parameters",
    "C102_slopes_refuted"
   ],
   "note": ""
  },
  {
   "property": "C103",
   "status": "proved",
   "theorems": [
    "C103_real_costs"
   ],
   "note": "real_ops is exact real arithmetic of the Coq standard library, an idealization of double; uses the axioms sig_forall_dec and functional_extensionality_dep of the standard library"
  },
  {
   "property": "C104",
   "status": "proved",
   "theorems": [
    "C104_ordered_group",
    "C104_lexicographic"
   ],
   "note": "of halving only half (x + x) = x is assumed, so integers are an instance; uses the axiom functional_extensionality_dep of the standard library"
  },
  {
   "property": "C105",
   "status": "proved",
   "theorems": [
    "C105_any_forest",
    "C105_min_cost",
    "C105_link_cut_tree",
    "C105_plain"
   ],
   "note": "integer costs; the replacement is modelled as a type with a function that performs a call"
  },
  {
   "property": "C106",
   "status": "proved",
   "theorems": [
    "C106_resets_unneeded"
   ],
   "note": "integer costs"
  },
  {
   "property": "C107",
   "status": "proved",
   "theorems": [
    "C107_any_order",
    "C107_min_cost"
   ],
   "note": "integer costs"
  },
  {
   "property": "C108",
   "status": "proved",
   "theorems": [
    "C108_min_max",
    "C108_values_rise"
   ],
   "note": "integer costs"
  },
  {
   "property": "C109",
   "status": "proved",
   "theorems": [
    "C109_return_refuted",
    "C109_tree_endless"
   ],
   "note": "a counterexample: the refutation is what is proved"
  },
  {
   "property": "C11",
   "status": "proved",
   "theorems": [
    "C11_drop_limit",
    "C11_relax"
   ],
   "note": ""
  },
  {
   "property": "C110",
   "status": "proved",
   "theorems": [
    "C110_infinite_end",
    "C110_no_answer"
   ],
   "note": "doubles"
  },
  {
   "property": "C111",
   "status": "proved",
   "theorems": [
    "C111_release_same",
    "C111_dead_assertions",
    "C111_release_solution"
   ],
   "note": "any Data for the first two, integer costs for the third; the assertions of test/CostScaling.cpp are not part of it"
  },
  {
   "property": "C112",
   "status": "proved",
   "theorems": [
    "C112_same",
    "C112_difference",
    "C112_floor_refuted"
   ],
   "note": "the floor is only substituted in q(); nothing is said about the paper's algorithm as a whole"
  },
  {
   "property": "C113",
   "status": "proved",
   "theorems": [
    "C113_unordered_map",
    "C113_double_refuted"
   ],
   "note": "integer costs; the second theorem shows why doubles are left out"
  },
  {
   "property": "C114",
   "status": "proved",
   "theorems": [
    "C114_no_merge"
   ],
   "note": "integer costs"
  },
  {
   "property": "C115",
   "status": "proved",
   "theorems": [
    "C115_concave"
   ],
   "note": "integer costs"
  },
  {
   "property": "C116",
   "status": "proved",
   "theorems": [
    "C116_commented_assertion",
    "C116_copy",
    "C116_double_refuted"
   ],
   "note": "with doubles the assertion can fail"
  },
  {
   "property": "C117",
   "status": "proved",
   "theorems": [
    "C117_self_loop_refuted"
   ],
   "note": "a failure of MinCost"
  },
  {
   "property": "C118",
   "status": "proved",
   "theorems": [
    "C118_merging_lowers"
   ],
   "note": "exact numbers"
  },
  {
   "property": "C119",
   "status": "proved",
   "theorems": [
    "C119_iterations",
    "C119_splaying"
   ],
   "note": "exact numbers"
  },
  {
   "property": "C12",
   "status": "proved",
   "theorems": [
    "C12_agrees_with_exhaustive_search"
   ],
   "note": "bf_solve of test/test.cpp is modelled in Oracles.v"
  },
  {
   "property": "C13",
   "status": "proved",
   "theorems": [
    "C13_limit_min"
   ],
   "note": "exact arithmetic on Data"
  },
  {
   "property": "C14",
   "status": "proved",
   "theorems": [
    "C14_pre_processing"
   ],
   "note": ""
  },
  {
   "property": "C15",
   "status": "proved",
   "theorems": [
    "C15_reverse",
    "C15_merge"
   ],
   "note": ""
  },
  {
   "property": "C16",
   "status": "proved",
   "theorems": [
    "C16_threshold_separates"
   ],
   "note": ""
  },
  {
   "property": "C17",
   "status": "proved",
   "theorems": [
    "C17_flow_decides",
    "C17_single_values_refuted"
   ],
   "note": "for consistent networks (limits with a single value agree); refuted without that"
  },
  {
   "property": "C18",
   "status": "proved",
   "theorems": [
    "C18_phase_circulation",
    "C18_run_states"
   ],
   "note": ""
  },
  {
   "property": "C19",
   "status": "proved",
   "theorems": [
    "C19_phase_halves"
   ],
   "note": ""
  },
  {
   "property": "C20",
   "status": "proved",
   "theorems": [
    "C20_phase_contract"
   ],
   "note": ""
  },
  {
   "property": "C21",
   "status": "proved",
   "theorems": [
    "C21_phase_work"
   ],
   "note": ""
  },
  {
   "property": "C22",
   "status": "proved",
   "theorems": [
    "C22_lct_refines_forest"
   ],
   "note": "exact arithmetic on Data"
  },
  {
   "property": "C23",
   "status": "proved",
   "theorems": [
    "C23_path_min"
   ],
   "note": "exact arithmetic on Data"
  },
  {
   "property": "C24",
   "status": "proved",
   "theorems": [
    "C24_unique_queue"
   ],
   "note": ""
  },
  {
   "property": "C25",
   "status": "proved",
   "theorems": [
    "C25_single_use"
   ],
   "note": "existence statement"
  },
  {
   "property": "C26",
   "status": "proved",
   "theorems": [
    "C26_consistent",
    "C26_not_transitive",
    "C26_consistent_refuted"
   ],
   "note": "laws over exact numbers; over doubles they fail"
  },
  {
   "property": "C27",
   "status": "proved",
   "theorems": [
    "C27_infeasible_double_refuted"
   ],
   "note": "the statement is the refutation; costs of 2^54"
  },
  {
   "property": "C28",
   "status": "proved",
   "theorems": [
    "C28_network_preserves_problem"
   ],
   "note": ""
  },
  {
   "property": "C29",
   "status": "proved",
   "theorems": [
    "C29_translation"
   ],
   "note": ""
  },
  {
   "property": "C30",
   "status": "proved",
   "theorems": [
    "C30_ternary"
   ],
   "note": ""
  },
  {
   "property": "C31",
   "status": "proved",
   "theorems": [
    "C31_mus0_ignored"
   ],
   "note": ""
  },
  {
   "property": "C32",
   "status": "proved",
   "theorems": [
    "C32_scaling"
   ],
   "note": ""
  },
  {
   "property": "C33",
   "status": "proved",
   "theorems": [
    "C33_mirror"
   ],
   "note": ""
  },
  {
   "property": "C34",
   "status": "proved",
   "theorems": [
    "C34_renaming"
   ],
   "note": ""
  },
  {
   "property": "C35",
   "status": "proved",
   "theorems": [
    "C35_redundant_limit"
   ],
   "note": ""
  },
  {
   "property": "C36",
   "status": "proved",
   "theorems": [
    "C36_independent_parts"
   ],
   "note": ""
  },
  {
   "property": "C37",
   "status": "proved",
   "theorems": [
    "C37_double_ints_refuted"
   ],
   "note": "the statement is the refutation"
  },
  {
   "property": "C38",
   "status": "proved",
   "theorems": [
    "C38_phase_sizes",
    "C18_run_states"
   ],
   "note": "exact arithmetic; the sum at the end of min_cost() is not included"
  },
  {
   "property": "C39",
   "status": "proved",
   "theorems": [
    "C39_run_sizes"
   ],
   "note": "exact arithmetic"
  },
  {
   "property": "C40",
   "status": "proved",
   "theorems": [
    "C40_doubles_exact"
   ],
   "note": "IEEE binary64 as in Coq's SpecFloat"
  },
  {
   "property": "C41",
   "status": "proved",
   "theorems": [
    "C41_tolerance_exact",
    "C41_tolerance_refuted"
   ],
   "note": "exact numbers compared with a tolerance; refuted for a tolerance equal to the grid"
  },
  {
   "property": "C42",
   "status": "proved",
   "theorems": [
    "C42_wrapped_double_exact",
    "C42_wrapped_double_refuted"
   ],
   "note": "IEEE binary64 as in Coq's SpecFloat; refuted for the next finer grid"
  },
  {
   "property": "C43",
   "status": "proved",
   "theorems": [
    "C43_wrapped_comparisons"
   ],
   "note": ""
  },
  {
   "property": "C44",
   "status": "proved",
   "theorems": [
    "C44_min_cost_circulation",
    "C44_always_succeeds_refuted"
   ],
   "note": "exact arithmetic; success needs the condition on negative costs, refuted without it"
  },
  {
   "property": "C45",
   "status": "proved",
   "theorems": [
    "C45_simple_solver",
    "C45_large_spread_refuted"
   ],
   "note": "exact arithmetic; refuted for large spreads"
  },
  {
   "property": "C46",
   "status": "proved",
   "theorems": [
    "C46_three_solvers_agree"
   ],
   "note": "exact arithmetic"
  },
  {
   "property": "C47",
   "status": "proved",
   "theorems": [
    "C47_next_in_range",
    "C47_next_between",
    "C47_full_period",
    "C47_uniform",
    "C47_double",
    "C47_double_uniform"
   ],
   "note": "equally frequent: injections between the states in both directions"
  },
  {
   "property": "C48",
   "status": "proved",
   "theorems": [
    "C48_graph",
    "C48_ends",
    "C48_always_ends_refuted"
   ],
   "note": "drawable is checked for the sizes of the tests in C48_example; the general termination claim is refuted"
  },
  {
   "property": "C49",
   "status": "proved",
   "theorems": [
    "C49_tiny_gen",
    "C49_admissible",
    "C49_connected_refuted"
   ],
   "note": "the text is modelled by the data it shows, not its characters"
  },
  {
   "property": "C50",
   "status": "proved",
   "theorems": [
    "C50_random_tests_pass"
   ],
   "note": "exact arithmetic; the framework testa is not in the repository, its macros are read as described in TestSuite.v"
  },
  {
   "property": "C51",
   "status": "proved",
   "theorems": [
    "C51_min_cost_doubles",
    "C51_any_capacity_refuted"
   ],
   "note": "IEEE binary64 as in Coq's SpecFloat; refuted for large capacities"
  },
  {
   "property": "C52",
   "status": "proved",
   "theorems": [
    "C52_bf_doubles",
    "C52_simple_doubles",
    "C52_any_costs_refuted"
   ],
   "note": "IEEE binary64 as in Coq's SpecFloat; refuted for costs off the grid"
  },
  {
   "property": "C53",
   "status": "proved",
   "theorems": [
    "C53_random_tests_pass_doubles"
   ],
   "note": "the framework testa is not in the repository, its macros are read as described in TestSuite.v"
  },
  {
   "property": "C54",
   "status": "proved",
   "theorems": [
    "C54_solver",
    "C54_oracles",
    "C54_tests"
   ],
   "note": ""
  },
  {
   "property": "C55",
   "status": "proved",
   "theorems": [
    "C55_doubles_return_refuted",
    "C55_doubles_overflow"
   ],
   "note": "the first theorem refutes 'solve() returns for every convex problem with double costs', the second says how that run ends"
  },
  {
   "property": "C56",
   "status": "proved",
   "theorems": [
    "C56_fixed_tests_pass",
    "C56_fixed_answers"
   ],
   "note": ""
  },
  {
   "property": "C57",
   "status": "proved",
   "theorems": [
    "C57_nullopt_iff_negative_cycle"
   ],
   "note": ""
  },
  {
   "property": "C58",
   "status": "proved",
   "theorems": [
    "C58_nearby_problems"
   ],
   "note": ""
  },
  {
   "property": "C59",
   "status": "proved",
   "theorems": [
    "C59_lookup_linear",
    "C59_recursion_depth"
   ],
   "note": "lower bounds: the iteration count or depth is the least fuel with which the model's loop or recursion ends"
  },
  {
   "property": "C60",
   "status": "proved",
   "theorems": [
    "C60_total_work",
    "C60_total_work_far",
    "C60_solve_work",
    "C60_total_steps",
    "C60_steps_are_runs",
    "C60_solve_steps"
   ],
   "note": "counts rounds, iterations of refine() and the iterations of the loops below it; the rotations inside one link-cut-tree call are not counted (their depth: C59)"
  },
  {
   "property": "C61",
   "status": "proved",
   "theorems": [
    "C61_print_appends",
    "C61_print_determines"
   ],
   "note": "strings as lists of characters, classic locale"
  },
  {
   "property": "C62",
   "status": "proved",
   "theorems": [
    "C62_convexity_dropped_refuted"
   ],
   "note": "the statement is a refutation"
  },
  {
   "property": "C63",
   "status": "proved",
   "theorems": [
    "C63_far_ranges_slow"
   ],
   "note": "exact arithmetic; the least fuel of the model's loop is the number of iterations"
  },
  {
   "property": "C64",
   "status": "proved",
   "theorems": [
    "C64_feasible_doubles_refuted"
   ],
   "note": "the statement is a refutation; IEEE binary64 as in Coq's SpecFloat"
  },
  {
   "property": "C65",
   "status": "proved",
   "theorems": [
    "C65_infinite_cost_refuted"
   ],
   "note": "the statement is a refutation; IEEE binary64 as in Coq's SpecFloat"
  },
  {
   "property": "C66",
   "status": "proved",
   "theorems": [
    "C66_potentials_optimal",
    "C66_solution_read"
   ],
   "note": "with U = 0 no phase runs and the potentials stay 0"
  },
  {
   "property": "C67",
   "status": "proved",
   "theorems": [
    "C67_flow_optimal"
   ],
   "note": ""
  },
  {
   "property": "C68",
   "status": "proved",
   "theorems": [
    "C68_solve_capacity",
    "C68_solve_documented",
    "C68_solve_documented_refuted"
   ],
   "note": "exact costs; the refuted part is the documented capacity without the condition on the ranges"
  },
  {
   "property": "C69",
   "status": "proved",
   "theorems": [
    "C69_root_tree"
   ],
   "note": ""
  },
  {
   "property": "C70",
   "status": "proved",
   "theorems": [
    "C70_cycle",
    "C70_wheel",
    "C70_small_cases"
   ],
   "note": "the second part is about fewer nodes"
  },
  {
   "property": "C71",
   "status": "proved",
   "theorems": [
    "C71_pseudo_tree",
    "C71_pseudo_in_tree",
    "C71_pseudo_out_tree"
   ],
   "note": ""
  },
  {
   "property": "C72",
   "status": "proved",
   "theorems": [
    "C72_dag",
    "C72_overflow"
   ],
   "note": "C72_overflow is about 46342 or more nodes; drawable is proved for 4, 5, 50 and 100 nodes (C48_example)"
  },
  {
   "property": "C73",
   "status": "proved",
   "theorems": [
    "C73_bipartite",
    "C73_other_cases"
   ],
   "note": "safety and result; that the drawing loop ends is not claimed; C73_other_cases is about settings outside the stated conditions"
  },
  {
   "property": "C74",
   "status": "proved",
   "theorems": [
    "C74_cactus",
    "C74_node_left_out",
    "C74_one_node"
   ],
   "note": "the last two are about m < n and one node"
  },
  {
   "property": "C75",
   "status": "proved",
   "theorems": [
    "C75_grid",
    "C75_side_refuted",
    "C75_pairs_refuted",
    "C75_one_node",
    "C75_directed_refuted"
   ],
   "note": "safety and result; that the drawing loop ends is not claimed, and refuted for directed grids"
  },
  {
   "property": "C76",
   "status": "proved",
   "theorems": [
    "C76_tree_program",
    "C76_tree_call",
    "C76_min_cost_turns",
    "C76_solve_turns",
    "C76_run_turns"
   ],
   "note": "turns of loops are counted, in copies of the functions that are proved to give the same results; a call of a user function is not counted"
  },
  {
   "property": "C77",
   "status": "proved",
   "theorems": [
    "C77_info_text",
    "C77_coefficients",
    "C77_info_determines"
   ],
   "note": "printf is modelled as rounding the exact value of the double, ties to even"
  },
  {
   "property": "C78",
   "status": "proved",
   "theorems": [
    "C78_comparisons",
    "C78_strict_order",
    "C78_infinity",
    "C78_below_infinity",
    "C78_nan",
    "C78_exclusive_refuted",
    "C78_total_refuted",
    "C78_transitive_refuted"
   ],
   "note": "IEEE binary64 with round to nearest even"
  },
  {
   "property": "C79",
   "status": "proved",
   "theorems": [
    "C79_same_text",
    "C79_rounded",
    "C79_equal_text_refuted",
    "C79_append_refuted"
   ],
   "note": "std::to_string(double) is modelled as printf with six decimals"
  },
  {
   "property": "C80",
   "status": "proved",
   "theorems": [
    "C80_throwing",
    "C80_answers"
   ],
   "note": "an exception of a cost function is the outcome Err BadCall; the code has no try block"
  },
  {
   "property": "C81",
   "status": "proved",
   "theorems": [
    "C81_machine_integers",
    "C81_wrap",
    "C81_costs_fit_refuted"
   ],
   "note": "the bound is that of the double results; the refuted statement is that fitting costs and a fitting optimum suffice"
  },
  {
   "property": "C82",
   "status": "proved",
   "theorems": [
    "C82_fractional"
   ],
   "note": "values in units of 1/q"
  },
  {
   "property": "C83",
   "status": "proved",
   "theorems": [
    "C83_halfway"
   ],
   "note": ""
  },
  {
   "property": "C84",
   "status": "proved",
   "theorems": [
    "C84_lattice",
    "C84_extremes",
    "C84_narrowed"
   ],
   "note": ""
  },
  {
   "property": "C85",
   "status": "proved",
   "theorems": [
    "C85_unrooted",
    "C85_rooted"
   ],
   "note": "std::pow is an argument with the accuracy pow_good; it is not modelled"
  },
  {
   "property": "C86",
   "status": "proved",
   "theorems": [
    "C86_chain",
    "C86_flower",
    "C86_star_refuted",
    "C86_root_at_end_refuted"
   ],
   "note": "for up to 2701 nodes; the stronger statements are refuted"
  },
  {
   "property": "C87",
   "status": "proved",
   "theorems": [
    "C87_any_pow"
   ],
   "note": ""
  },
  {
   "property": "C88",
   "status": "proved",
   "theorems": [
    "C88_stream_rounded",
    "C88_same_text",
    "C88_integers",
    "C88_unequal_refuted",
    "C88_equal_refuted"
   ],
   "note": "a stream with the default format, modelled as printf(\"%.6g\") with correct rounding"
  },
  {
   "property": "C89",
   "status": "proved",
   "theorems": [
    "C89_int",
    "C89_int_order",
    "C89_size",
    "C89_size_refuted"
   ],
   "note": "IEEE binary64 with round to nearest even"
  },
  {
   "property": "C90",
   "status": "proved",
   "theorems": [
    "C90_one_step",
    "C90_steps",
    "C90_two_limits_refuted"
   ],
   "note": "exact data"
  },
  {
   "property": "C91",
   "status": "proved",
   "theorems": [
    "C91_formats_exact",
    "C91_double",
    "C91_costs_refuted"
   ],
   "note": "any precision above 1 and any exponent range that holds every int"
  },
  {
   "property": "C92",
   "status": "proved",
   "theorems": [
    "C92_amortised",
    "C92_one_call"
   ],
   "note": "the walks down the left spine after an access are not counted (C59)"
  },
  {
   "property": "C93",
   "status": "proved",
   "theorems": [
    "C93_min_cost_calls",
    "C93_solve_calls"
   ],
   "note": "the walks down the left spine after an access are not counted among the turns (C59)"
  },
  {
   "property": "C94",
   "status": "proved",
   "theorems": [
    "C94_cost_calls",
    "C94_same_run"
   ],
   "note": ""
  },
  {
   "property": "C95",
   "status": "proved",
   "theorems": [
    "C95_settings",
    "C95_past",
    "C95_cactus_past",
    "C95_cycle",
    "C95_dag",
    "C95_pseudo_by_graph",
    "C95_by_graph_refuted",
    "C95_cactus_refuted"
   ],
   "note": ""
  },
  {
   "property": "C96",
   "status": "proved",
   "theorems": [
    "C96_tree_object",
    "C96_gen_tree",
    "C96_past",
    "C96_calls_refuted"
   ],
   "note": "std::pow is a parameter, as in C85"
  },
  {
   "property": "C97",
   "status": "proved",
   "theorems": [
    "C97_memory",
    "C97_any_data",
    "C97_fickle_refuted"
   ],
   "note": "the state is shared, as with captures by reference; state inside a function object, which is copied with it, is not modelled"
  },
  {
   "property": "C98",
   "status": "proved",
   "theorems": [
    "C98_nesting",
    "C98_attained"
   ],
   "note": "counts function objects; how many machine stack frames a std::function call takes is up to the library"
  },
  {
   "property": "C99",
   "status": "proved",
   "theorems": [
    "C99_missing_orders",
    "C99_not_every_order"
   ],
   "note": "by counting; no particular order is named"
  }
 ]
}