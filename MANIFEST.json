{
 "claims": [
  {
   "property": "C01",
   "status": "proved",
   "theorems": [
    "c01_sequence",
    "c01_not_executed"
   ],
   "note": ""
  },
  {
   "property": "C02",
   "status": "proved",
   "theorems": [
    "c02_priority",
    "c01_not_executed"
   ],
   "note": ""
  },
  {
   "property": "C03",
   "status": "proved",
   "theorems": [
    "c03_ornode"
   ],
   "note": ""
  },
  {
   "property": "C04",
   "status": "proved",
   "theorems": [
    "c04_inverter",
    "c04_inverter_twice",
    "c04_childless"
   ],
   "note": ""
  },
  {
   "property": "C05",
   "status": "proved",
   "theorems": [
    "c05_repeat_until_success",
    "c05_resumed",
    "c05_unbounded",
    "c05_zero_crashes"
   ],
   "note": "m=0 crash is part of the statement and proved"
  },
  {
   "property": "C06",
   "status": "proved",
   "theorems": [
    "c06_repeat_until_failure",
    "c06_repeater",
    "c06_repeater_zero"
   ],
   "note": ""
  },
  {
   "property": "C07",
   "status": "proved",
   "theorems": [
    "c07_limiter_refuted",
    "c07_limiter_never_limits"
   ],
   "note": "the intended claim is FALSE of the code (refuted by witness): close() on a non-RUNNING child re-opens the limiter and resets its counter; proved instead that it never limits in any reachable state"
  },
  {
   "property": "C08",
   "status": "proved",
   "theorems": [
    "c08_frame",
    "c01_not_executed"
   ],
   "note": ""
  },
  {
   "property": "C09",
   "status": "proved",
   "theorems": [
    "c09_is_open"
   ],
   "note": ""
  },
  {
   "property": "C10",
   "status": "proved",
   "theorems": [
    "c10_never_pops_empty",
    "c10_open_nodes_count",
    "c10_stack_below_untouched",
    "c10_open_nodes_exact_refuted"
   ],
   "note": "the parenthesised intended exactness is refuted (OrNode over a Runner)"
  },
  {
   "property": "C11",
   "status": "proved",
   "theorems": [
    "c11_statistics",
    "c11_success_le_ticks",
    "c10_open_nodes_count"
   ],
   "note": ""
  },
  {
   "property": "C12",
   "status": "proved",
   "theorems": [
    "c12_prob_refuted",
    "c12_prob_constant"
   ],
   "note": "claim is FALSE of the code: N_ticks is never incremented; proved that prob() is 1/10 in every reachable state"
  },
  {
   "property": "C13",
   "status": "proved",
   "theorems": [
    "c13_total_cost",
    "c13_leaf_once_refuted",
    "c01_sequence",
    "c02_priority",
    "c03_ornode"
   ],
   "note": "the intended leaf-counted-once reading is refuted"
  },
  {
   "property": "C14",
   "status": "proved",
   "theorems": [
    "c14_log",
    "c11_statistics"
   ],
   "note": ""
  },
  {
   "property": "C15",
   "status": "proved",
   "theorems": [
    "c15_tick_terminates_within_bound",
    "c15_fuel_independent",
    "c15_no_crash",
    "c15_ik_tree_bound"
   ],
   "note": "wall-clock time of sympy calls inside leaves is outside the model"
  },
  {
   "property": "C16",
   "status": "proved",
   "theorems": [
    "c16_blackboard_refines_flat_store",
    "c16_any_blackboard",
    "c16_last_write_wins"
   ],
   "note": ""
  },
  {
   "property": "C17",
   "status": "proved",
   "theorems": [
    "c17_load_dump_is_mirror",
    "c17_twice_is_identity",
    "c17_roundtrip_refuted",
    "c17_decorators_do_not_load",
    "c17_custom_nodes"
   ],
   "note": "the round trip as claimed is FALSE of the code (refuted by witness): load(dump(t)) is t with every child list reversed, and every decorator except Inverter fails to load; proved exactly what it does on every tree"
  },
  {
   "property": "C18",
   "status": "proved",
   "theorems": [
    "c18_wait",
    "c18_maxtime"
   ],
   "note": "the clock is an arbitrary stream of readings"
  },
  {
   "property": "C19",
   "status": "proved",
   "theorems": [
    "c19_resume_refuted",
    "c19_mem_nodes_crash",
    "c19_intended_algorithm_resumes"
   ],
   "note": "FALSE of the code under Python 3 (xrange); the algorithm with xrange restored is proved to resume"
  },
  {
   "property": "C20",
   "status": "proved",
   "theorems": [
    "C20_assigner_succeeds",
    "C20_assigner_empty",
    "C20_assigner_fair",
    "C20_solved_only_on_wrap",
    "C20_hands_out_solved_refuted"
   ],
   "note": "the intended \"never hands out a solved unknown while an unsolved one exists\" is FALSE of the code (refuted by witness); it happens exactly at wrap-around"
  },
  {
   "property": "C21",
   "status": "proved",
   "theorems": [
    "C21_completion_detect",
    "C21_completion_detect_inverted"
   ],
   "note": ""
  },
  {
   "property": "C22",
   "status": "proved",
   "theorems": [
    "C22_kept_is_better",
    "C22_no_candidate",
    "C22_both_candidates"
   ],
   "note": ""
  },
  {
   "property": "C23",
   "status": "proved",
   "theorems": [
    "C23_solved_once_in_order",
    "C23_edges",
    "C23_once_iff",
    "C23_shipped_tree",
    "C23_solved_twice_refuted",
    "C23_self_dependency_refuted"
   ],
   "note": "without the proviso the property is FALSE of the shipped tree: a complete run that solves th_1 twice is the witness"
  },
  {
   "property": "C24",
   "status": "proved",
   "theorems": [
    "C24_solved_forever",
    "C24_recorded",
    "C24_names_distinct",
    "C24_frozen",
    "C24_one_or_two",
    "C24_solutions_change_refuted"
   ],
   "note": "\"solved for ever\" holds of all histories, the rest under the proviso of C23"
  },
  {
   "property": "C25",
   "status": "proved",
   "theorems": [
    "C25_get_deps_fails",
    "C25_get_deps_exact",
    "C25_no_unsolved_in_solutions"
   ],
   "note": ""
  },
  {
   "property": "C26",
   "status": "proved",
   "theorems": [
    "C26_classified",
    "C26_no_repeats",
    "C26_aux_with_three_dropped",
    "C26_scan_total",
    "C26_scan_Mequation",
    "C26_distinct_unknowns_refuted"
   ],
   "note": "counting is per side, not of distinct unknowns: the intended count is refuted by witness"
  },
  {
   "property": "C27",
   "status": "proved",
   "theorems": [
    "C27_erank_stable_sort"
   ],
   "note": ""
  },
  {
   "property": "C28",
   "status": "proved",
   "theorems": [
    "C28_meaning",
    "C28_definitions_hold",
    "C28_sums_exist",
    "C28_registered",
    "C28_once",
    "C28_no_sums",
    "C28_once_on_left_refuted",
    "C28_double_count_refuted",
    "C28_renamed_to_nothing_refuted",
    "C28_sum_id"
   ],
   "note": "meaning kept for every assignment satisfying the added definitions (and one exists for all joint values); each new angle is registered once when found on a right hand side; found first on a left hand side it is registered twice (refuted); joint variables not named th_i are renamed to an undefined symbol after a sum (refuted)"
  },
  {
   "property": "C29",
   "status": "proved",
   "theorems": [
    "C29_only_lowers",
    "C29_loses_nothing",
    "C29_equivalent",
    "C29_self_use_refuted"
   ],
   "note": "equivalence holds unless an element is rewritten with the equation its own rewriting produced; without that proviso it is FALSE of the code (witness: the system loses the equation for th_2)"
  },
  {
   "property": "C30",
   "status": "proved",
   "theorems": [
    "C30_algebra_exact"
   ],
   "note": ""
  },
  {
   "property": "C31",
   "status": "proved",
   "theorems": [
    "C31_sincos_exact"
   ],
   "note": ""
  },
  {
   "property": "C32",
   "status": "proved",
   "theorems": [
    "C32_tan_exact",
    "C32_tan_known"
   ],
   "note": ""
  },
  {
   "property": "C33",
   "status": "proved",
   "theorems": [
    "C33_sinandcos_exact",
    "C33_self_free_refuted"
   ],
   "note": "a stored solution can mention its own unknown (refuted by witness)"
  },
  {
   "property": "C34",
   "status": "proved",
   "theorems": [
    "C34_simultaneous_exact"
   ],
   "note": ""
  },
  {
   "property": "C35",
   "status": "proved",
   "theorems": [
    "C35_sum_of_squares",
    "C35_extraneous"
   ],
   "note": ""
  },
  {
   "property": "C36",
   "status": "proved",
   "theorems": [
    "c36_link_rigid",
    "c36_link_is_craig",
    "c36_chain_rigid",
    "c36_symbolic_link"
   ],
   "note": "floats modelled as exact reals"
  },
  {
   "property": "C37",
   "status": "proved",
   "theorems": [
    "c37_inverse",
    "c37_inverse_of_product",
    "c37_numerical_inverse_refuted"
   ],
   "note": "the numerical version H_inv_N raises on every input"
  },
  {
   "property": "C38",
   "status": "proved",
   "theorems": [
    "c38_T06",
    "c38_matrix_equations",
    "c38_eight",
    "C38_every_pose",
    "C38_reached"
   ],
   "note": "trigsimp is an arbitrary value preserving function"
  },
  {
   "property": "C39",
   "status": "proved",
   "theorems": [
    "c39_elementary",
    "c39_additive",
    "c39_inverse_is_negative_angle",
    "c39_axes",
    "c39_rpy",
    "c39_homogeneous",
    "c39_numerical_rpy4_refuted",
    "C39_rpy_entries"
   ],
   "note": "RPY4_N raises on every input"
  },
  {
   "property": "C40",
   "status": "proved",
   "theorems": [
    "c40_jacobian",
    "c40_body_velocity"
   ],
   "note": ""
  },
  {
   "property": "C41",
   "status": "proved",
   "theorems": [
    "c41_congruent",
    "c41_range_exactly",
    "c41_identity_in_range",
    "c41_all_angles_refuted"
   ],
   "note": "the intended range for every angle is FALSE of the code; the exact domain on which it holds is proved"
  },
  {
   "property": "C42",
   "status": "proved",
   "theorems": [
    "C42_reachable",
    "C42_rectangular",
    "C42_row_count",
    "C42_row_count_general",
    "C42_rows_distinct",
    "C42_consistent",
    "C42_restrict",
    "C42_row_count_refuted"
   ],
   "note": "the product formula is FALSE in general (three solutions after the first unknown); it holds for everything the solver hands over (C42_reachable)"
  },
  {
   "property": "C43",
   "status": "proved",
   "theorems": [
    "C43_raises",
    "C43_equations",
    "C43_rows_are_solutions",
    "C43_every_combination",
    "C43_nothing_lost",
    "C43_program_runs",
    "C43_last_single_loses",
    "C43_lost_branch_refuted",
    "C43_exception_refuted",
    "C43_exception_reachable_refuted"
   ],
   "note": "the intended claim for mixed solution counts is FALSE of the code (witnesses, one of them a state the solver reaches); exactly when it raises, and what the rows mean otherwise, is proved"
  },
  {
   "property": "C44",
   "status": "proved",
   "theorems": [
    "C44_same_order",
    "C44_generated",
    "C44_generated_cpp",
    "C44_alphabetical",
    "C44_joint_order_refuted",
    "C44_names_refuted"
   ],
   "note": "the order is the same in every row but it is the string order, not the joint order (refuted), and for names extending one another it may differ between rows (refuted)"
  },
  {
   "property": "C45",
   "status": "proved",
   "theorems": [
    "C45_balanced",
    "C45_writes",
    "C45_only_writes",
    "C45_bounds",
    "C45_six_unknowns",
    "C45_overflow_refuted"
   ],
   "note": "the array bound holds for at most six unknowns and 64 rows; with seven unknowns the generated program writes out of bounds (refuted)"
  },
  {
   "property": "C46",
   "status": "proved",
   "theorems": [
    "C46_py_version",
    "C46_python",
    "C46_cpp",
    "C46_cpp_nothing",
    "C46_cpp_trig_same",
    "C46_python_refuted",
    "C46_cpp_reachable_refuted"
   ],
   "note": "exactly which versions are emitted is proved; the intended claim is FALSE of the code (a state the solver reaches is the witness)"
  },
  {
   "property": "C47",
   "status": "proved",
   "theorems": [
    "C47_served",
    "C47_correct",
    "C47_exact",
    "C47_rejected",
    "C47_repeat",
    "C47_killed_blocks",
    "C47_stale_refuted",
    "C47_parameters_lost_refuted",
    "C47_unchecked_refuted"
   ],
   "note": "the intended claim is FALSE of the code: three general refutations; what does hold is proved for all histories with kills. Concurrent processes: C65"
  },
  {
   "property": "C48",
   "status": "proved",
   "theorems": [
    "C48_set",
    "C48_edge_equal",
    "C48_edge_hash",
    "C48_edge_reversed",
    "C48_edge_set",
    "C48_solver_edges",
    "C48_keq_sound",
    "C48_keq_equivalence",
    "C48_keq_hash_refuted"
   ],
   "note": "equal equations need not hash equally (refuted)"
  },
  {
   "property": "C49",
   "status": "proved",
   "theorems": [
    "c49_approx",
    "c49_reflexive_symmetric",
    "c49_transitive_refuted"
   ],
   "note": ""
  },
  {
   "property": "C50",
   "status": "proved",
   "theorems": [
    "C50_no_solution_lost",
    "C50_tree",
    "C50_success_solves_all"
   ],
   "note": ""
  },
  {
   "property": "C51",
   "status": "proved",
   "theorems": [
    "C51_pipeline_complete",
    "C51_success"
   ],
   "note": "the sympy contract is the hypothesis sympy_ok; C51_example runs the whole pipeline for a robot with joints d_1, th_2 and all joint vectors"
  },
  {
   "property": "C52",
   "status": "proved",
   "theorems": [
    "C52_first_names_undefined",
    "C52_later_names_defined",
    "C52_python_refuted"
   ],
   "note": ""
  },
  {
   "property": "C53",
   "status": "proved",
   "theorems": [
    "C53_no_power",
    "C53_symbol_square",
    "C53_call_square",
    "C53_refuted"
   ],
   "note": "the intended claim for all texts is FALSE of the code (witnesses)"
  },
  {
   "property": "C54",
   "status": "proved",
   "theorems": [
    "C54_first",
    "C54_later",
    "C54_declaration",
    "C54_inputs",
    "C54_parameters",
    "C54_never_compiles_refuted"
   ],
   "note": "exactly which names are declared; the intended claim is FALSE of the code, as C54_first shows"
  },
  {
   "property": "C55",
   "status": "proved",
   "theorems": [
    "C55_no_parameters",
    "C55_parameters_refuted",
    "C55_forward_kinematics",
    "C55_example_good",
    "C55_example_bad"
   ],
   "note": "the intended claim is FALSE of the code for every robot with a named parameter (C55_parameters_refuted)"
  },
  {
   "property": "C56",
   "status": "proved",
   "theorems": [
    "C56_python3_refuted",
    "C55_forward_kinematics",
    "C56_example",
    "C56_function_part"
   ],
   "note": "FALSE of the code for every inverse kinematics program; true of every forward kinematics program"
  },
  {
   "property": "C57",
   "status": "proved",
   "theorems": [
    "C57_identifier",
    "C57_definition",
    "C57_test_calls",
    "C57_underscore_refuted"
   ],
   "note": "FALSE of the code for every robot name with an underscore"
  },
  {
   "property": "C58",
   "status": "proved",
   "theorems": [
    "C58_sums",
    "C58_example_program"
   ],
   "note": ""
  },
  {
   "property": "C59",
   "status": "proved",
   "theorems": [
    "C59_solution_report",
    "C59_forward_report",
    "C59_table",
    "C59_solution_file",
    "C59_forward_file",
    "C59_file_names"
   ],
   "note": "the LaTeX of expressions and matrices is arbitrary balanced math; table: one column per unknown"
  },
  {
   "property": "C60",
   "status": "proved",
   "theorems": [
    "C60_outputs",
    "C60_state",
    "C60_table_again",
    "C60_same_file",
    "C60_needs_table",
    "C60_no_report_refuted",
    "C60_report_again_refuted"
   ],
   "note": "exact outputs for every history; refuted: independence of the report calls"
  },
  {
   "property": "C61",
   "status": "proved",
   "theorems": [
    "C61_tan",
    "C61_algebra",
    "C61_simultaneous",
    "C61_sinandcos",
    "C61_reachable",
    "C61_sincos_gives_up_refuted"
   ],
   "note": "FALSE of the code for the arcsin/arccos solver (C61_sincos_gives_up_refuted)"
  },
  {
   "property": "C62",
   "status": "proved",
   "theorems": [
    "C62_causes",
    "C62_never",
    "C62_tree"
   ],
   "note": "assumes in addition to sympy_ok that e.coeff(t) has only symbols of e"
  },
  {
   "property": "C63",
   "status": "proved",
   "theorems": [
    "C63_groups",
    "C63_empty",
    "C63_at_most_once",
    "C63_candidates",
    "C63_poses",
    "C63_early_pose",
    "C63_same_for_every_hash_seed",
    "C63_first_node_conflict_refuted",
    "C63_stale_conflict_refuted",
    "C63_hash_seed_refuted",
    "C63_poses_missed_refuted",
    "C63_early_return_refuted"
   ],
   "note": "what holds is proved for all inputs; one notation per unknown, independence of the hash seed and completeness are FALSE of the code without the stated condition (witnesses)"
  },
  {
   "property": "C64",
   "status": "proved",
   "theorems": [
    "C64_answers",
    "C64_sound",
    "C64_reachable",
    "C64_closed",
    "C64_closed_refuted",
    "C64_kinds",
    "C64_kinds_refuted",
    "C64_unreachable_refuted",
    "C64_robot_starts",
    "C64_no_joint_vector_lost",
    "C64_every_joint_vector"
   ],
   "note": "FALSE of the code for the names Chair6DOF, Issue4DZhang, DZhang, Mackler13, MiniDD (exactly)"
  },
  {
   "property": "C65",
   "status": "proved",
   "theorems": [
    "C65_file_complete",
    "C65_one_definition",
    "C65_served",
    "C65_warm",
    "C65_after",
    "C65_no_file",
    "C65_removed_refuted",
    "C65_mkdir_refuted",
    "C65_half_written_refuted",
    "C65_mixed_refuted",
    "C65_mixed_example_refuted"
   ],
   "note": "FALSE of the code for first runs at the same time (three kinds of failure exhibited); proved for every schedule for one definition per robot, for schedules where no file is opened for writing while open elsewhere, and once the file is complete"
  },
  {
   "property": "C66",
   "status": "proved",
   "theorems": [
    "C66_numbers",
    "C66_table",
    "C66_algebra_exact",
    "C66_history",
    "C66_pipeline",
    "C66_example_two",
    "C66_example_pipeline"
   ],
   "note": "rows as wholes; where the unknowns after the first have different numbers of solutions, or more than the first, the table loses combinations or raises: C66_numbers is an equivalence"
  },
  {
   "property": "C67",
   "status": "proved",
   "theorems": [
    "C67_reported_equations",
    "C67_no_attempt",
    "C67_reported_hold",
    "C67_report_refuted"
   ],
   "note": "exact for histories without re-solving; the intended claim without the overwritten case is refuted by a run of the shipped tree"
  },
  {
   "property": "C68",
   "status": "proved",
   "theorems": [
    "C68_tick_is_program",
    "C68_shipped_tree",
    "C68_custom_tree",
    "C68_shipped_is_wired",
    "C68_hypotheses_met",
    "C68_success_end_to_end"
   ],
   "note": "user leaves return SUCCESS or FAILURE or raise, and leave TotalCost alone (all leaves of the repository do)"
  },
  {
   "property": "C69",
   "status": "proved",
   "theorems": [
    "C69_row_answers",
    "C69_row_satisfies",
    "C69_every_row_refuted"
   ],
   "note": "soundness of rows against the reported equations for all histories; the intended claim (every row reaches the pose) is refuted on a run of the shipped tree"
  },
  {
   "property": "C70",
   "status": "proved",
   "theorems": [
    "C70_text",
    "C70_lines",
    "C70_never_returns",
    "C70_every_pose_raises",
    "C70_returns",
    "C70_computes",
    "C70_unreachable_raises",
    "C70_returned_vectors",
    "C70_contains",
    "C70_example",
    "C70_example_raises",
    "C70_example_contains",
    "C70_head",
    "C70_call_raises"
   ],
   "note": "the intended claim is refuted for every generated program; what the program computes is proved under the hypothesis that the missing names are defined beforehand; floats are reals"
  },
  {
   "property": "C71",
   "status": "proved",
   "theorems": [
    "C71_value",
    "C71_quits",
    "C71_returns",
    "C71_degree_refuted",
    "C71_half_turn_refuted",
    "C71_degree_error",
    "C71_example"
   ],
   "note": "sympy.subs of numbers and N enter by the contract num_ok (met: num0_ok); floats are reals; deg is refuted as a degree"
  },
  {
   "property": "C72",
   "status": "proved",
   "theorems": [
    "C72_meaning",
    "C72_T06",
    "C72_J66",
    "C72_legend",
    "C72_faithful",
    "C72_clash_refuted",
    "C72_complete",
    "C72_example"
   ],
   "note": "the condition on names is needed (C72_clash_refuted)"
  },
  {
   "property": "C73",
   "status": "proved",
   "theorems": [
    "C73_rows",
    "C73_T06",
    "C73_no_clash",
    "C73_numeric",
    "C73_velocity",
    "C73_example"
   ],
   "note": "exceptions Mackler13 (numeric) and MiniDD (velocities) as in C64"
  },
  {
   "property": "C74",
   "status": "proved",
   "theorems": [
    "C74_text",
    "C74_value",
    "C74_raises",
    "C74_missing_raises",
    "C74_runs",
    "C74_depends",
    "C74_catalogue",
    "C74_wrist_refuted",
    "C74_mackler_refuted",
    "C74_second_run_refuted",
    "C74_example"
   ],
   "note": "floats are reals; runs for every shipped robot but Wrist and Mackler13 on a first run (both refuted), and raises on a second run of a robot with an inclined axis (refuted)"
  },
  {
   "property": "C75",
   "status": "proved",
   "theorems": [
    "C75_only_grows",
    "C75_text",
    "C75_names_the_formula",
    "C75_never_empty",
    "C75_printable",
    "C75_python_emits",
    "C75_python_writes",
    "C75_python_computes",
    "C75_cpp_writes",
    "C75_misnamed_refuted"
   ],
   "note": "text and growth for every history; formulas and never-empty for histories without re-solving. Refuted: the text can end in the name of a failed arcsin attempt although the solution is an atan2"
  },
  {
   "property": "C76",
   "status": "proved",
   "theorems": [
    "C76_names",
    "C76_solutions",
    "C76_versions",
    "C76_dependencies",
    "C76_unknowns",
    "C76_poses",
    "C76_matrices"
   ],
   "note": "histories without re-solving; hypothesis on an equation: its text does not contain the literal text that output_latex.py:215-216 replaces; sympy contract as in C75"
  },
  {
   "property": "C77",
   "status": "proved",
   "theorems": [
    "C77_arguments",
    "C77_frame",
    "C77_separate",
    "C77_three_files",
    "C77_catalogue",
    "C77_first_run",
    "C77_reproducible",
    "C77_available",
    "C77_torn",
    "C77_report",
    "C77_changed_robot",
    "C77_six_joints",
    "C77_minidd",
    "C77_second_run_refuted"
   ],
   "note": "the iteration orders of Python sets and the printers are functions (one hash seed); pickling is an exact copy; one process at a time (C65 has concurrent ones for the cache)"
  },
  {
   "property": "C78",
   "status": "proved",
   "theorems": [
    "C78_files",
    "C78_nothing_solved",
    "C78_python_never_returns",
    "C78_python_returns",
    "C78_every_joint_vector",
    "C78_catalogue",
    "C78_python_writes",
    "C78_cpp_writes",
    "C78_report",
    "C78_example"
   ],
   "note": "end to end: from the command line to the values the generated function returns; for runs that solve no unknown twice (C23); first_defined: the caller defines the names the program forgets (C52)"
  },
  {
   "property": "C79",
   "status": "proved",
   "theorems": [
    "C79_arguments",
    "C79_as_events",
    "C79_frame",
    "C79_separate",
    "C79_jobs",
    "C79_ikSolver",
    "C79_first_run",
    "C79_reproducible",
    "C79_torn",
    "C79_changed_robot",
    "C79_report",
    "C79_minidd",
    "variables_named",
    "C79_sums_ignored",
    "C79_catalogue",
    "C79_second_run",
    "C79_second_run_refuted"
   ],
   "note": "as C77 for the shared directory; floats are reals; C79_catalogue: simplifiers that keep values and add no symbols"
  },
  {
   "property": "C80",
   "status": "proved",
   "theorems": [
    "C80_default_robot",
    "C80_first_time",
    "C80_any_time"
   ],
   "note": "for one simplifier within the contract (sympyP, which expands products of numbers and drops zero terms); as in C78, the caller defines the names the program forgets; the number of solutions of the last unknown is the general condition of C43"
  },
  {
   "property": "C81",
   "status": "proved",
   "theorems": [
    "C81_killed",
    "C81_unvalued",
    "C81_fk_killed",
    "C81_fk_unvalued",
    "C81_example_unvalued",
    "C81_example_killed"
   ],
   "note": "ikSolver.py and fkOnly.py; a file that is cut off is one state (Torn), whatever part of it was flushed"
  }
 ]
}