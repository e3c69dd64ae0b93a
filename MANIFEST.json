{
 "claims": [
  {
   "property": "C01",
   "status": "proved",
   "theorems": [
    "C01_sitemap_is_layout",
    "C01_inverse_sitemap",
    "C01_lines_are_all_used",
    "C01_no_two_addresses_share_a_line",
    "C01_dimensions",
    "C01_register_indexing",
    "C01_constructor",
    "C01_duplicate_label_refuted",
    "C01_dimension_mismatch_refuted",
    "C01_register_constructor",
    "C01_dims_constructor",
    "C01_empty_constructor",
    "C01_one_number_refuted"
   ],
   "note": "Proved for every history of operations with fresh, well formed registers. The two ways the code lets a caller break it (repeated label, dimension list longer or shorter than the size) are the _refuted theorems. QuantumCircuit(n) without dimensions is C01_one_number_refuted."
  },
  {
   "property": "C02",
   "status": "proved",
   "theorems": [
    "C02_instructions_and_count",
    "C02_rejected_insertion_changes_nothing",
    "C02_replace_consistent_iff",
    "C02_replace_last_refuted"
   ],
   "note": "Proved for all histories; replace_gate is characterised by an iff, the failing indices (in particular -1) are witnessed by C02_replace_last_refuted."
  },
  {
   "property": "C03",
   "status": "proved",
   "theorems": [
    "C03_reset_fresh_iff_no_mapping",
    "C03_reset_is_fresh_start",
    "C03_reset_fresh_except_mapping",
    "C03_mappings_survive_reset_refuted"
   ],
   "note": "Reset is fresh iff no mapping was stored; the pinned code keeps mappings (C03_mappings_survive_reset_refuted)."
  },
  {
   "property": "C04",
   "status": "proved",
   "theorems": [
    "C04_rejected_leaves_gate_unchanged",
    "C04_accepted_effect",
    "C04_empty_is_noop",
    "C04_constructor",
    "C04_accepted_iff",
    "C04_uniform_accepts_exactly_legal",
    "C04_legal_rejected_refuted",
    "C04_illegal_accepted_refuted",
    "C04_malformed_accepted_refuted"
   ],
   "note": "Acceptance is characterised by an iff; level k is compared with the dimension of line k instead of the control line, witnessed by a _refuted theorem."
  },
  {
   "property": "C05",
   "status": "proved",
   "theorems": [
    "C05_flag_at_construction",
    "C05_check_long_range",
    "C05_flag_stale_refuted"
   ],
   "note": "The long-range flag is right at construction; control() computes it and drops the result (witnessed)."
  },
  {
   "property": "C06",
   "status": "proved",
   "theorems": [
    "C06_dag_is_adjoint",
    "C06_dag_is_adjoint_bare",
    "C06_dag_undoes",
    "C06_repeated_dag_is_one_dag",
    "C06_dag_twice_is_original_refuted"
   ],
   "note": "dag gives the conjugate transpose, fails exactly when the gate fails, undoes unitary gates; the involution half is false of the pinned code (flag only) and refuted with a witness."
  },
  {
   "property": "C07",
   "status": "proved",
   "theorems": [
    "C07_shift",
    "C07_unitary",
    "C07_order"
   ],
   "note": "All dimensions."
  },
  {
   "property": "C08",
   "status": "proved",
   "theorems": [
    "C08_diagonal",
    "C08_unitary",
    "C08_order",
    "C08_weyl",
    "C08_primitive"
   ],
   "note": "All dimensions."
  },
  {
   "property": "C09",
   "status": "proved",
   "theorems": [
    "C09_unitary",
    "C09_diagonalises_shift",
    "C09_entries"
   ],
   "note": "All dimensions."
  },
  {
   "property": "C10",
   "status": "proved",
   "theorems": [
    "C10_prime_test",
    "C10_accepted_iff_prime",
    "C10_unitary",
    "C10_diagonal",
    "C10_diagonal_qubit",
    "C10_clifford"
   ],
   "note": "is_prime is proved to decide primality for all naturals."
  },
  {
   "property": "C11",
   "status": "proved",
   "theorems": [
    "C11_csum_entries",
    "C11_csum_unitary",
    "C11_csum_in_register"
   ],
   "note": "entries for both line orders, unitarity and the whole-register action."
  },
  {
   "property": "C12",
   "status": "proved",
   "theorems": [
    "C12_accepted_iff",
    "C12_unitary",
    "C12_amplitudes",
    "C12_other_levels_untouched",
    "C12_angles_add",
    "C12_inverse",
    "C12_phase_flip",
    "C12_period_4pi",
    "C12_level_order_ignored"
   ],
   "note": "Stated on the constructor: parameter list in, matrix out, with the angle regulation in between."
  },
  {
   "property": "C13",
   "status": "proved",
   "theorems": [
    "C13_rz_accepted_iff",
    "C13_rz_phases",
    "C13_rz_unitary",
    "C13_virtrz_phase",
    "C13_virtrz_unitary",
    "C13_virtrz_bad_level_dropped",
    "C13_virtrz_integer_angle_refuted",
    "C13_rh_value"
   ],
   "note": "Ill-formed VirtRz parameters are dropped silently (witnessed)."
  },
  {
   "property": "C14",
   "status": "proved",
   "theorems": [
    "C14_cex_in_register",
    "C14_rotation_exchanges",
    "C14_cex_unitary",
    "C14_parameters_accepted",
    "C14_parameters_checked",
    "C14_array_returns",
    "C14_bad_level_raises_late"
   ],
   "note": "CEx in a register is the controlled rotation by pi; levels outside the target raise only when the matrix is built."
  },
  {
   "property": "C15",
   "status": "proved",
   "theorems": [
    "C15_accepted_unitary_iff",
    "C15_maps_levels",
    "C15_repeated_level_refuted",
    "C15_method"
   ],
   "note": "An accepted list gives a unitary gate iff it has no repetition; [0,0] is accepted (witnessed)."
  },
  {
   "property": "C16",
   "status": "proved",
   "theorems": [
    "C16_kth_state_has_value_k",
    "C16_every_state_once",
    "C16_dirac_to_basis_index",
    "C16_dirac_rejects_bad_levels",
    "C16_q0_q1"
   ],
   "note": "product enumeration, from_dirac_to_basis and calculate_q0_q1 agree with mixed radix indexing."
  },
  {
   "property": "C17",
   "status": "proved",
   "theorems": [
    "C17_uncontrolled_returns",
    "C17_acts_on_targets_only",
    "C17_single_is_kron",
    "C17_disjoint_commute",
    "C17_same_lines_multiply",
    "C17_unitary",
    "C17_slice_form"
   ],
   "note": "full-register and slice form for any number of targets, Kronecker form for one line, commutation, multiplication, unitarity."
  },
  {
   "property": "C18",
   "status": "proved",
   "theorems": [
    "C18_controlled_matrix_right",
    "C18_acts_on_determines",
    "C18_unitary",
    "C18_returns_from_line_0",
    "C18_raises_away_from_line_0_refuted",
    "C18_key_error_refuted"
   ],
   "note": "every matrix returned is the right controlled matrix and one is returned whenever line 0 is used; away from line 0 the pinned code can raise IndexError or KeyError (refuted witnesses)."
  },
  {
   "property": "C19",
   "status": "proved",
   "theorems": [
    "C19_round_trip_exact",
    "C19_round_trip_general",
    "C19_daggers_parameters_noise_refuted",
    "C19_controls_refuted",
    "C19_custom_gates_refuted",
    "C19_second_round_trip_refuted",
    "C19_classical_registers_refuted",
    "C19_exported_line"
   ],
   "note": "Exact round trip proved for all circuits of parameter-free, uncontrolled, undaggered gates and all register layouts; for all uncontrolled gates the imported gate is characterised exactly (gate_back). The violations (daggers, parameters, noise gates, controls, matrix gates, classical registers, second round trip) are universal _refuted theorems."
  },
  {
   "property": "C20",
   "status": "proved",
   "theorems": [
    "C20_every_line_is_accounted_for",
    "C20_every_statement_becomes_a_gate",
    "C20_unterminated_statement_is_rejected",
    "C20_block_comment",
    "C20_parsed_gates_reach_the_circuit",
    "C20_controls_kept",
    "C20_control_clause_refuted",
    "C20_classical_bits",
    "C20_bracketed_parameters",
    "C20_one_line_block_comment_refuted",
    "C20_unknown_names_refuted",
    "C20_gellmann_refuted",
    "C20_unknown_program_refuted",
    "C20_conditional_refuted",
    "C20_second_gate_on_a_line_refuted",
    "C20_register_with_dimensions",
    "C20_register_of_qubits",
    "C20_classical_registers"
   ],
   "note": "Every accepted line outside a block comment is accounted for, and every statement of a program without block comments becomes one gate. The ways the code drops text (block comments not closed at the start of a line, unknown names, gellmann, conditionals, second gate on a line) are the _refuted theorems."
  },
  {
   "property": "C21",
   "status": "proved",
   "theorems": [
    "C21_reassembly",
    "C21_same_program",
    "C21_any_meaning",
    "C21_same_unitary",
    "C21_lane",
    "C21_controlled_refuted"
   ],
   "note": "Proved for circuits of distinct, uncontrolled gate objects. The code rejects circuits with controlled gates (TypeError): C21_controlled_refuted."
  },
  {
   "property": "C22",
   "status": "proved",
   "theorems": [
    "C22_each_object_once",
    "C22_no_object_lost",
    "C22_repeated_objects_refuted"
   ],
   "note": "The code violates the property: every object survives exactly once, so any repeated object is lost (C22_repeated_objects_refuted, for all circuits)."
  },
  {
   "property": "C23",
   "status": "proved",
   "theorems": [
    "C23_groups_partition_lines",
    "C23_next_is_local",
    "C23_next_of_unknown_gate",
    "C23_next_is_local_refuted"
   ],
   "note": "next_is_local is exact for local gates; for entangling gates it always answers no (C23_next_is_local_refuted)."
  },
  {
   "property": "C24",
   "status": "proved",
   "theorems": [
    "C24_local_resynthesis"
   ],
   "note": "For circuits of distinct, uncontrolled gates. Repeated objects: see C22."
  },
  {
   "property": "C25",
   "status": "proved",
   "theorems": [
    "C25_constructor",
    "C25_couplings",
    "C25_log_phy_map",
    "C25_swap_effect",
    "C25_swap_twice",
    "C25_unknown_node"
   ],
   "note": ""
  },
  {
   "property": "C26",
   "status": "proved",
   "theorems": [
    "C26_routing",
    "C26_contract",
    "C26_devices",
    "C26_phase_storing",
    "C26_backends"
   ],
   "note": "networkx.shortest_path is an oracle with the contract finds_shortest, proved satisfiable (C26_contract)."
  },
  {
   "property": "C27",
   "status": "proved",
   "theorems": [
    "C27_diagonalises",
    "C27_exact",
    "C27_thresholds",
    "C27_transpile_inverse",
    "C27_refuted"
   ],
   "note": "C27_transpile_inverse is what holds for every circuit; C27_refuted shows the list is not the gate, not even nearly up to a factor."
  },
  {
   "property": "C28",
   "status": "proved",
   "theorems": [
    "C28_diagonalises",
    "C28_transpile_gate",
    "C28_transpile_reversed",
    "C28_refuted"
   ],
   "note": "C28_transpile_reversed is what transpile emits for every circuit; C28_refuted is the violation."
  },
  {
   "property": "C29",
   "status": "proved",
   "theorems": [
    "C29_sound",
    "C29_not_found",
    "C29_thresholds"
   ],
   "note": "For the logical search."
  },
  {
   "property": "C30",
   "status": "proved",
   "theorems": [
    "C30_lookup",
    "C30_lookup_missing",
    "C30_add",
    "C30_add_missing",
    "C30_size",
    "C30_total_size",
    "C30_total_size_damages_size_refuted",
    "C30_is_empty_refuted",
    "C30_depth",
    "C30_depth_missing",
    "C30_histories",
    "C30_retrieve",
    "C30_retrieve_nothing",
    "C30_retrieve_flags",
    "C30_unsupported_mark_refuted"
   ],
   "note": "The retrieval theorems assume that every finished mark is supported by a finished leaf; C30_histories shows this for every history that marks leaves only and adds nothing below a finished leaf. The violations are the _refuted theorems."
  },
  {
   "property": "C31",
   "status": "proved",
   "theorems": [
    "C31_intervals_are_runs",
    "C31_propagation_preserves_unitary",
    "C31_remove_z_one_line",
    "C31_remove_z_separates",
    "C31_remove_z_no_neighbours",
    "C31_two_runs_refuted",
    "C31_flags_ignored",
    "C31_daggered_refuted",
    "C31_other_gates_refuted"
   ],
   "note": "Proved for all runs on one line (any length, angles, dimension, direction) and for circuits with no two neighbours on the same lines; the three violations are proved as C31_*_refuted."
  },
  {
   "property": "C32",
   "status": "proved",
   "theorems": [
    "C32_only_phases_deleted",
    "C32_initial_exactly",
    "C32_trailing_exactly",
    "C32_complete",
    "C32_same_statistics",
    "C32_same_statistics_each",
    "C32_phase_gates",
    "C32_controlled_refuted"
   ],
   "note": "Statistics proved for circuits of uncontrolled gates of any class and width; the violation for controlled phase gates is C32_controlled_refuted. C32_phase_gates: the entries of the phase gates."
  },
  {
   "property": "C33",
   "status": "proved",
   "theorems": [
    "C33_pi_mod",
    "C33_pi_mod_fixpoint",
    "C33_new_mod",
    "C33_regulate_theta",
    "C33_regulate_theta_fixpoint",
    "C33_costs"
   ],
   "note": "Angles are exact reals."
  },
  {
   "property": "C34",
   "status": "proved",
   "theorems": [
    "C34_path_product",
    "C34_normalised",
    "C34_count"
   ],
   "note": ""
  },
  {
   "property": "C35",
   "status": "proved",
   "theorems": [
    "C35_contributions",
    "C35_cut",
    "C35_renormalised",
    "C35_fidelity"
   ],
   "note": "The renormalisation theorems take all dimensions above one."
  },
  {
   "property": "C36",
   "status": "proved",
   "theorems": [
    "C36_prepares",
    "C36_prepares_approx",
    "C36_returns",
    "C36_support",
    "C36_full_support",
    "C36_appended",
    "C36_zero_vector",
    "C36_zero_branch_refuted",
    "C36_dimensions_refuted"
   ],
   "note": "C36_prepares and C36_prepares_approx carry the hypothesis merges_well, met by all states without zero amplitudes (C36_full_support); C36_zero_branch_refuted and C36_dimensions_refuted are the violations. C36_returns covers registers with nonincreasing dimensions."
  },
  {
   "property": "C37",
   "status": "proved",
   "theorems": [
    "C37_combinations",
    "C37_ghz_entries",
    "C37_w_entries",
    "C37_embedded_entries",
    "C37_ghz",
    "C37_w",
    "C37_embedded",
    "C37_w_none",
    "C37_other_names",
    "C37_embedded_refuted",
    "C37_random",
    "C37_prepared"
   ],
   "note": "Proved for all registers; C37_embedded_refuted gives the norm for registers with a qudit of dimension 1. Samples of the random generator are an argument."
  },
  {
   "property": "C38",
   "status": "proved",
   "theorems": [
    "C38_accepted",
    "C38_history",
    "C38_bulk",
    "C38_bulk_atomic_refuted",
    "C38_mixed_sign_refuted",
    "C38_new_pair",
    "C38_new_dynamic",
    "C38_new_list"
   ],
   "note": "C38_history is conditional on pairs that are not of mixed sign; the two violations are C38_mixed_sign_refuted and C38_bulk_atomic_refuted."
  },
  {
   "property": "C39",
   "status": "proved",
   "theorems": [
    "C39_first",
    "C39_math_twice",
    "C39_history",
    "C39_call",
    "C39_basis_gates",
    "C39_shared_refuted",
    "C39_changed_later_refuted"
   ],
   "note": "Refinement to a model without sharing, for every history in which a SubspaceNoise object is added once, to one gate, and not changed afterwards; C39_shared_refuted and C39_changed_later_refuted show that the condition is needed."
  },
  {
   "property": "C40",
   "status": "proved",
   "theorems": [
    "C40_originals",
    "C40_inserted",
    "C40_modes",
    "C40_no_noise",
    "C40_zero_noise",
    "C40_returns",
    "C40_probabilities",
    "C40_exactly_the_drawn_errors",
    "C40_math_dephasing_refuted",
    "C40_control_mode_refuted",
    "C40_target_mode_refuted",
    "C40_dynamic_other_gates"
   ],
   "note": "The random generator is an argument of the model, universally quantified; theorems that need it assume that it returns an index of positive probability. C40_probabilities says which probability vectors matter, C40_exactly_the_drawn_errors which gate each outcome stands for. Violations: C40_math_dephasing_refuted, C40_control_mode_refuted, C40_target_mode_refuted."
  },
  {
   "property": "C41",
   "status": "proved",
   "theorems": [
    "C41_one_outcome_per_shot",
    "C41_run_counts",
    "C41_possible_outcomes",
    "C41_possible_outcomes_misim",
    "C41_flags",
    "C41_born_rule",
    "C41_returns",
    "C41_saved",
    "C41_not_saved"
   ],
   "note": "Chunks and pickling of multiprocessing.Pool.map are modelled; process ids, times and the generator are arguments. Executions of noisy circuits are arguments too (their content is C40 and C67)."
  },
  {
   "property": "C42",
   "status": "proved",
   "theorems": [
    "C42_returned_exactly_when",
    "C42_no_match",
    "C42_ambiguous",
    "C42_list",
    "C42_list_all",
    "C42_agrees_with_the_list",
    "C42_names",
    "C42_listed_names_resolve",
    "C42_result_contains_the_request",
    "C42_name_attribute_refuted"
   ],
   "note": "Regular expression search is an argument of the model, assumed only to find literal text where the theorem says so. Violation: C42_name_attribute_refuted."
  },
  {
   "property": "C43",
   "status": "proved",
   "theorems": [
    "C43_ends_at_the_first_final_status",
    "C43_returns_exactly_when",
    "C43_times_out_exactly_when",
    "C43_limit_bounds_the_wait",
    "C43_cancelled_jobs_refuted",
    "C43_cancelled_jobs_time_out_refuted",
    "C43_is_final_and_non_final",
    "C43_in_final_state_disagrees_refuted",
    "C43_returned_jobs_have_no_status_refuted",
    "C43_queries_of_returned_jobs_refuted",
    "C43_queries"
   ],
   "note": "Status stream and clock are functions of the number of polls. Violations: C43_cancelled_jobs_refuted, C43_cancelled_jobs_time_out_refuted, C43_in_final_state_disagrees_refuted, and the jobs the backends return do not implement status at all (C43_returned_jobs_have_no_status_refuted)."
  },
  {
   "property": "C44",
   "status": "proved",
   "theorems": [
    "C44_constructor_options",
    "C44_defaults",
    "C44_noise_model_ignored_refuted",
    "C44_run_options",
    "C44_run_uses_the_options",
    "C44_documented_options_refuted",
    "C44_set_options_has_no_effect_refuted",
    "C44_rejected_without_change",
    "C44_unknown_rejected",
    "C44_method_names_accepted_refuted"
   ],
   "note": "Violations: C44_documented_options_refuted, C44_set_options_has_no_effect_refuted, C44_method_names_accepted_refuted, C44_noise_model_ignored_refuted."
  },
  {
   "property": "C45",
   "status": "proved",
   "theorems": [
    "C45_compiled_program",
    "C45_returns_when_the_passes_do",
    "C45_unknown_name",
    "C45_one_pass_per_type",
    "C45_nobody_excludes",
    "C45_meaning",
    "C45_level_O0",
    "C45_level_O1",
    "C45_level_O2",
    "C45_levels_meaning",
    "C45_optimisations_ignored_refuted",
    "C45_resynthesis_refuted",
    "C45_controlled_O1_refuted",
    "C45_controlled_O2_refuted"
   ],
   "note": "What each pass makes of one gate is an argument. Object sharing: kept gates are the same values. Violations are the _refuted theorems."
  },
  {
   "property": "C46",
   "status": "proved",
   "theorems": [
    "C46_least_layers",
    "C46_returned_is_good_enough",
    "C46_ends",
    "C46_gives_up_only_if",
    "C46_negative",
    "C46_failure_refuted",
    "C46_compiler"
   ],
   "note": "Least layers, soundness, termination, negative maxima are proved for every optimiser behaviour; the silent failure is C46_failure_refuted."
  },
  {
   "property": "C47",
   "status": "proved",
   "theorems": [
    "C47_split_without_loss",
    "C47_split_accepts",
    "C47_split_rejects",
    "C47_split_two_qudits_only",
    "C47_bounds_length",
    "C47_bounds_first_qudit",
    "C47_bounds_second_qudit",
    "C47_bounds_fit"
   ],
   "note": "All lengths and dimensions."
  },
  {
   "property": "C48",
   "status": "proved",
   "theorems": [
    "C48_reversed_order",
    "C48_reversed_order_of_gate",
    "C48_order_refuted",
    "C48_dagger_refuted",
    "C48_lines_refuted",
    "C48_lines_accepted"
   ],
   "note": "C48_reversed_order is the guarantee for the reversed list; the three violations are the _refuted theorems."
  },
  {
   "property": "C49",
   "status": "proved",
   "theorems": [
    "C49_controlled_rotation",
    "C49_partial_swap",
    "C49_phase_rotation",
    "C49_undone",
    "C49_undone_refuted"
   ],
   "note": "Proved for all dimensions, states and angles with exact reals. C49_undone is for qubits; C49_undone_refuted is the counterexample for dimensions 2 and 3."
  },
  {
   "property": "C50",
   "status": "proved",
   "theorems": [
    "C50_simulates",
    "C50_normalised",
    "C50_agrees",
    "C50_controls_ignored_refuted",
    "C50_controlled_gate_refuted",
    "C50_descending_refuted",
    "C50_other_gates_refuted",
    "C50_large_qudits_refuted"
   ],
   "note": "proved for uncontrolled gates of the ten supported tags on qudits with 2 to 7 levels, exact reals and tolerance 0; the controls, descending levels, other tags and larger qudits are refuted by theorems"
  },
  {
   "property": "C51",
   "status": "proved",
   "theorems": [
    "C51_density",
    "C51_density_refuted",
    "C51_empty",
    "C51_partial_trace",
    "C51_partial_trace_rejects"
   ],
   "note": "Floats are exact reals. C51_density, C51_partial_trace, C51_partial_trace_rejects and C51_empty hold for all inputs in their domain; C51_density_refuted shows that single qudits and qudits with more than 10 levels are always refused."
  },
  {
   "property": "C52",
   "status": "proved",
   "theorems": [
    "C52_permutation",
    "C52_identity",
    "C52_direction_refuted",
    "C52_plots"
   ],
   "note": "np.linalg.inv is an argument assumed to invert invertible matrices (inverts_exists shows that such a function exists). C52_direction_refuted is an equivalence."
  },
  {
   "property": "C53",
   "status": "proved",
   "theorems": [
    "C53_angle_accepted",
    "C53_ls_entries",
    "C53_ls_exists",
    "C53_ls_unitary",
    "C53_ls_in_register",
    "C53_ls_decreasing_targets_refuted"
   ],
   "note": "expm is the limit of its power series; increasing order or equal dimensions proved, the decreasing mixed-dimension case is refuted with a witness."
  },
  {
   "property": "C54",
   "status": "proved",
   "theorems": [
    "C54_ms_entries",
    "C54_ms_exists",
    "C54_ms_unitary",
    "C54_ms_in_register"
   ],
   "note": "expm is the limit of its power series; closed form, existence, unitarity, register action for increasing order or equal dimensions (same restriction as C53)."
  },
  {
   "property": "C55",
   "status": "proved",
   "theorems": [
    "C55_replace_in_lane"
   ],
   "note": ""
  },
  {
   "property": "C56",
   "status": "proved",
   "theorems": [
    "C56_exchange_phases",
    "C56_node_order_refuted"
   ],
   "note": "Holds for graphs whose nodes are 0..n-1 in order; C56_node_order_refuted is a witness that the pinned code violates it otherwise."
  },
  {
   "property": "C57",
   "status": "proved",
   "theorems": [
    "C57_gates",
    "C57_after_swap_refuted"
   ],
   "note": "Holds for graphs built with a circuit; C57_after_swap_refuted shows the violation for every graph returned by swap_nodes."
  },
  {
   "property": "C58",
   "status": "proved",
   "theorems": [
    "C58_ongate",
    "C58_update",
    "C58_update_azimuth_refuted"
   ],
   "note": "First clause for all rotations; second clause for azimuth pi/2 or -pi/2, with C58_update_azimuth_refuted for all others."
  },
  {
   "property": "C59",
   "status": "proved",
   "theorems": [
    "C59_classic_layout",
    "C59_classic_inverse",
    "C59_classic_count",
    "C59_classic_positions_used",
    "C59_classic_register_indexing"
   ],
   "note": "Invariant over all histories with fresh labels."
  },
  {
   "property": "C60",
   "status": "proved",
   "theorems": [
    "C60_cost_sign",
    "C60_cost_zero",
    "C60_cost_increasing",
    "C60_cost_value",
    "C60_phase_cost",
    "C60_phase_gate_cost",
    "C60_gate_cost_increasing",
    "C60_zero_rotation_cost_refuted"
   ],
   "note": "Proved for the cost functions at every real angle and for R gates with 0.2 pi <= |theta| < 4 pi; C60_zero_rotation_cost_refuted is the violation below 0.2 pi."
  },
  {
   "property": "C61",
   "status": "proved",
   "theorems": [
    "C61_noisex_accepted",
    "C61_noisey_accepted",
    "C61_noisex_flips",
    "C61_noisey_flips"
   ],
   "note": "All dimensions and levels."
  },
  {
   "property": "C62",
   "status": "proved",
   "theorems": [
    "C62_distance",
    "C62_pulse_count",
    "C62_first_levels",
    "C62_level_kinds",
    "C62_direct_cost",
    "C62_far_cost",
    "C62_routing_cost",
    "C62_total_cost",
    "C62_total_returns",
    "C62_edge_sensitivity",
    "C62_edge_symmetric",
    "C62_node_sensitivity"
   ],
   "note": "networkx.shortest_path is an argument with the contract finds_shortest."
  },
  {
   "property": "C63",
   "status": "proved",
   "theorems": [
    "C63_depolarizing",
    "C63_subspace",
    "C63_dephasing"
   ],
   "note": "One qudit and one choice at a time; exact real arithmetic; the physical case for density matrices in the span of the pair."
  },
  {
   "property": "C64",
   "status": "proved",
   "theorems": [
    "C64_result_is_the_last_set",
    "C64_identity_is_kept",
    "C64_ids_are_not_unique_refuted",
    "C64_status_from_string",
    "C64_status_from_other_strings",
    "C64_values_are_different",
    "C64_printed_status_refuted"
   ],
   "note": "Violations: C64_ids_are_not_unique_refuted, C64_printed_status_refuted."
  },
  {
   "property": "C65",
   "status": "proved",
   "theorems": [
    "C65_ideal_run",
    "C65_noisy_run",
    "C65_few_shots",
    "C65_innsbruck_refuted",
    "C65_options_stay_refuted",
    "C65_refused_options_stay_refuted"
   ],
   "note": "Violations: C65_innsbruck_refuted, C65_options_stay_refuted, C65_refused_options_stay_refuted."
  },
  {
   "property": "C66",
   "status": "proved",
   "theorems": [
    "C66_same_noise_refuted",
    "C66_periodic_noise_refuted",
    "C66_same_outcome_refuted"
   ],
   "note": "Universal negative theorems: C66_same_noise_refuted, C66_periodic_noise_refuted, C66_same_outcome_refuted."
  },
  {
   "property": "C67",
   "status": "proved",
   "theorems": [
    "C67_final_state",
    "C67_determined",
    "C67_normalised",
    "C67_returns_exactly_when",
    "C67_uncontrolled_returns",
    "C67_new_gates_fit",
    "C67_control_keeps_the_flag_refuted",
    "C67_distant_control_refuted"
   ],
   "note": "The result of a contraction is taken to be independent of the contraction order; floats are reals. Violation: C67_control_keeps_the_flag_refuted with C67_distant_control_refuted. Controlled gates that have no matrix at all are the subject of C33."
  },
  {
   "property": "C68",
   "status": "proved",
   "theorems": [
    "C68_amplitudes",
    "C68_invertible"
   ],
   "note": "The decision diagram package is C++ and outside this property; what is proved is the reordering of its result."
  },
  {
   "property": "C69",
   "status": "proved",
   "theorems": [
    "C69_mapping_is_a_permutation",
    "C69_mapping_of_a_fitting_graph",
    "C69_mapped_qudits",
    "C69_larger_graph_refuted"
   ],
   "note": "C69_larger_graph_refuted shows the violation."
  },
  {
   "property": "C70",
   "status": "proved",
   "theorems": [
    "C70_flag_stays_refuted",
    "C70_later_compilations_refuted",
    "C70_stale_solution_refuted"
   ],
   "note": "The violation is proved for every process in which a run was timed out (universal negative theorem), plus the stale solution witness; see DESIGN.md section 4."
  },
  {
   "property": "C71",
   "status": "proved",
   "theorems": [
    "C71_closed_form",
    "C71_unitary",
    "C71_too_few",
    "C71_ansatz_unitary"
   ],
   "note": "The matrix exponential is assumed exact wherever the series converges."
  },
  {
   "property": "C72",
   "status": "proved",
   "theorems": [
    "C72_unitaries_range",
    "C72_unitaries_one",
    "C72_operators_range",
    "C72_operators_one",
    "C72_density_range",
    "C72_density_one",
    "C72_states_range",
    "C72_states_one",
    "C72_symmetric",
    "C72_states_symmetric",
    "C72_shapes",
    "C72_state_lengths",
    "C72_error_range",
    "C72_error_zero"
   ],
   "note": "Exact real arithmetic; zero operators (division by zero) are outside."
  },
  {
   "property": "C73",
   "status": "proved",
   "theorems": [
    "C73_reversed_order",
    "C73_order_refuted"
   ],
   "note": "C73_reversed_order and C73_order_refuted."
  },
  {
   "property": "C74",
   "status": "proved",
   "theorems": [
    "C74_expand",
    "C74_expand_returns",
    "C74_expand_rejects",
    "C74_one_line",
    "C74_all_lines_refuted",
    "C74_other_dims_refuted"
   ],
   "note": "Violations: C74_all_lines_refuted, C74_other_dims_refuted."
  },
  {
   "property": "C75",
   "status": "proved",
   "theorems": [
    "C75_physical",
    "C75_logical",
    "C75_restored",
    "C75_refuted"
   ],
   "note": "C75_physical and C75_logical describe what happens for every input, C75_restored the kept case, C75_refuted the violation."
  },
  {
   "property": "C76",
   "status": "proved",
   "theorems": [
    "C76_logical",
    "C76_physical"
   ],
   "note": "Gates on lines given by negative positions included."
  },
  {
   "property": "C77",
   "status": "proved",
   "theorems": [
    "C77_total_size",
    "C77_add",
    "C77_depth",
    "C77_retrieve",
    "C77_retrieve_none",
    "C77_is_empty_refuted",
    "C77_finished_inner_refuted"
   ],
   "note": "C77_is_empty_refuted and C77_finished_inner_refuted are the violations."
  },
  {
   "property": "C78",
   "status": "proved",
   "theorems": [
    "C78_ends",
    "C78_found",
    "C78_refuted"
   ],
   "note": "C78_found carries the hypothesis on tiny entries; C78_refuted shows it is needed."
  },
  {
   "property": "C79",
   "status": "proved",
   "theorems": [
    "C79_transpile_gate",
    "C79_inverse_refuted",
    "C79_second_gate_refuted"
   ],
   "note": "C79_transpile_gate says what is returned for every gate; C79_inverse_refuted and C79_second_gate_refuted are the violations."
  },
  {
   "property": "C80",
   "status": "proved",
   "theorems": [
    "C80_short",
    "C80_refuted"
   ],
   "note": "C80_refuted is a statement about all such vectors."
  },
  {
   "property": "C81",
   "status": "proved",
   "theorems": [
    "C81_accepts",
    "C81_refuted"
   ],
   "note": "C81_accepts states the boundary of the code, C81_refuted that the declared one does not hold, for every length. Floats are exact reals."
  },
  {
   "property": "C82",
   "status": "proved",
   "theorems": [
    "C82_decomposes",
    "C82_thresholds",
    "C82_reversed_refuted"
   ],
   "note": "Proved for lines in increasing order; C82_reversed_refuted for decreasing order. det, solve and round are arguments with the assumptions exact_det, exact_solve, rounds6; C82_case shows they can be met. Floats are exact reals."
  },
  {
   "property": "C83",
   "status": "proved",
   "theorems": [
    "C83_qubits",
    "C83_daggers_refuted",
    "C83_circuits",
    "C83_order_refuted"
   ],
   "note": "C83_qubits: the list of transpile_gate is right between qubits. C83_circuits: what transpile does put out. C83_daggers_refuted and C83_order_refuted are the violations."
  },
  {
   "property": "C84",
   "status": "proved",
   "theorems": [
    "C84_cex",
    "C84_dagger_refuted",
    "C84_other_gates",
    "C84_mapping_refuted",
    "C84_circuits"
   ],
   "note": "C84_cex says exactly when a CEx is placed correctly; C84_dagger_refuted, C84_other_gates and C84_mapping_refuted are the violations. C84_circuits lifts both to whole circuits and says what happens to every graph."
  },
  {
   "property": "C86",
   "status": "proved",
   "theorems": [
    "C86_labels",
    "C86_labels_refuted"
   ],
   "note": "C86_labels for at most 10 levels per qudit; C86_labels_refuted for every pair of dimensions with at least 12 and 11 levels."
  },
  {
   "property": "C88",
   "status": "proved",
   "theorems": [
    "C88_noisy_circuit",
    "C88_tags",
    "C88_no_noise",
    "C88_zero_noise",
    "C88_noisy_run",
    "C88_physical_refuted",
    "C88_controls_spared_refuted",
    "C88_control_mode_refuted",
    "C88_flip_refuted"
   ],
   "note": "for uncontrolled gates; the violations are theorems"
  },
  {
   "property": "C89",
   "status": "proved",
   "theorems": [
    "C89_addition",
    "C89_matrix_vector",
    "C89_matrix_matrix",
    "C89_adjoint",
    "C89_identity",
    "C89_gate",
    "C89_amplitudes"
   ],
   "note": "exact reals, tolerance 0; the compute and unique tables are modelled as recomputation (a cache that returns what was stored)"
  },
  {
   "property": "C85",
   "status": "proved",
   "theorems": [
    "C85_unitary_simulation",
    "C85_state_simulation",
    "C85_returns",
    "C85_placed_simulation",
    "C85_many_qudits_refuted",
    "C85_sound",
    "C85_sound_unitary",
    "C85_complete",
    "C85_maps_ignored_refuted",
    "C85_two_qudits_refuted"
   ],
   "note": "C85_unitary_simulation, C85_state_simulation, C85_returns and C85_placed_simulation for the simulators; C85_sound, C85_sound_unitary and C85_complete for the verifier, whatever the placements; the three violations are C85_many_qudits_refuted, C85_maps_ignored_refuted and C85_two_qudits_refuted. np.linalg.inv is any function that inverts invertible matrices."
  },
  {
   "property": "C92",
   "status": "proved",
   "theorems": [
    "C92_range",
    "C92_defined",
    "C92_sparsest",
    "C92_densest",
    "C92_invariant",
    "C92_density",
    "C92_objective_range",
    "C92_objective_returns",
    "C92_phase_refuted"
   ],
   "note": "C92_range, C92_defined, C92_sparsest, C92_densest and C92_invariant for the measure; C92_density; C92_objective_range and C92_objective_returns for the objective; the dependence on the global phase is C92_phase_refuted. Floats are exact reals, expm any function that is right where the series converges."
  },
  {
   "property": "C91",
   "status": "proved",
   "theorems": [
    "C91_circuits",
    "C91_coupled",
    "C91_search",
    "C91_ends",
    "C91_direction_refuted",
    "C91_dropped_refuted"
   ],
   "note": "C91_circuits covers all connected graphs and states what each gate becomes; C91_coupled is the guarantee where it holds; C91_direction_refuted and C91_dropped_refuted are the violations. Option vrz_prop at its default False."
  },
  {
   "property": "C87",
   "status": "proved",
   "theorems": [
    "C87_rows",
    "C87_readable",
    "C87_lines_refuted",
    "C87_idle_refuted",
    "C87_dagger_refuted",
    "C87_levels_refuted",
    "C87_incomplete_refuted"
   ],
   "note": "C87_rows and C87_readable characterise the drawing for every circuit; C87_lines_refuted, C87_idle_refuted, C87_dagger_refuted, C87_levels_refuted and C87_incomplete_refuted are the violations."
  },
  {
   "property": "C90",
   "status": "proved",
   "theorems": [
    "C90_custom",
    "C90_proper",
    "C90_improper_refuted",
    "C90_nothing_refuted",
    "C90_random",
    "C90_fresh_refuted",
    "C90_inverse_refuted"
   ],
   "note": "C90_custom, C90_proper and C90_random hold after every history; C90_improper_refuted, C90_nothing_refuted, C90_fresh_refuted and C90_inverse_refuted are the violations. The sampler is an argument."
  },
  {
   "property": "C93",
   "status": "proved",
   "theorems": [
    "C93_O0",
    "C93_O1",
    "C93_O2",
    "C93_O2_refuted",
    "C93_dagger_refuted",
    "C93_elementary"
   ],
   "note": "C93_O0 and C93_O1 hold for every device and every circuit of the gates listed in WholeSpec.implementable; C93_O2 further asks for coupled levels and a two-qudit gate between local gates on a qudit. C93_dagger_refuted and C93_O2_refuted show that the pinned code violates the property outside of these conditions."
  },
  {
   "property": "C94",
   "status": "proved",
   "theorems": [
    "C94_ls",
    "C94_ls_limit",
    "C94_ls_five_refuted",
    "C94_ms_levels",
    "C94_ms",
    "C94_ms_refuted"
   ],
   "note": "Angles are exact reals and expm is any function that returns the matrix exponential. C94_ls_five_refuted and C94_ms_refuted show where the primitives are not maximal entanglers (LS on two qudits with five or more levels, MS on two qutrits)."
  },
  {
   "property": "C95",
   "status": "proved",
   "theorems": [
    "C95_approximation",
    "C95_loss",
    "C95_one_level_refuted"
   ],
   "note": "C95_one_level_refuted exhibits the one-level case: the kept amplitude 399/401 is squared. Floats are exact reals."
  },
  {
   "property": "C96",
   "status": "proved",
   "theorems": [
    "C96_count",
    "C96_count_refuted",
    "C96_weights",
    "C96_weights_refuted"
   ],
   "note": "C96_count_refuted and C96_weights_refuted exhibit the two deviations."
  },
  {
   "property": "C97",
   "status": "proved",
   "theorems": [
    "C97_hermitian_traceless",
    "C97_orthogonal",
    "C97_basis",
    "C97_range_refuted",
    "C97_unitary_refuted"
   ],
   "note": "C97_range_refuted and C97_unitary_refuted show where the pinned code departs from what a user expects of a gate."
  },
  {
   "property": "C98",
   "status": "proved",
   "theorems": [
    "C98_close",
    "C98_separate",
    "C98_again",
    "C98_collection",
    "C98_nearest",
    "C98_nearest_across",
    "C98_references",
    "C98_limit",
    "C98_complex",
    "C98_signs",
    "C98_arithmetic",
    "C98_history_refuted",
    "C98_border_refuted",
    "C98_negative_zero_refuted"
   ],
   "note": "All parts are proved for every reachable table by an invariant (sorted buckets, right bucket, tail pointers, stored numbers apart, free cells disjoint). The three last claims are refuted for the pinned code (C98_history_refuted, C98_border_refuted, C98_negative_zero_refuted). Numbers are exact reals."
  },
  {
   "property": "C99",
   "status": "proved",
   "theorems": [
    "C99_recomputed",
    "C99_simulates",
    "C99_hashes"
   ],
   "note": "Refinement of the memory model to the diagrams of DdModel for all hash functions. Weights are exact and the tolerance is 0; C98 treats the table of numbers."
  },
  {
   "property": "C100",
   "status": "proved",
   "theorems": [
    "C100_shared",
    "C100_pointers",
    "C100_no_dangling",
    "C100_handed_out",
    "C100_identity_flag",
    "C100_symmetric_flag",
    "C100_reached",
    "C100_transpose_refuted"
   ],
   "note": "Invariant over all reached states. The throwing transpose is refuted with a witness; C99_simulates shows that circuits in scope never reach it."
  },
  {
   "property": "C101",
   "status": "proved",
   "theorems": [
    "C101_same_costs",
    "C101_physical_cost",
    "C101_logical_cost",
    "C101_exact_cost",
    "C101_free"
   ],
   "note": "Equality with the cost of the physical gates can fail (the total is then larger): a routed rotation with a small angle may be replaced by a cheaper one of the opposite sign, and levels that are only reachable are charged by their distance."
  },
  {
   "property": "C102",
   "status": "proved",
   "theorems": [
    "C102_program",
    "C102_step",
    "C102_basis_refused"
   ],
   "note": "With exact numbers (tolerance 0). Inner products are right up to a phase here (C103); single entries of a matrix are left to C105."
  },
  {
   "property": "C103",
   "status": "proved",
   "theorems": [
    "C103_inner",
    "C103_inner_real",
    "C103_fidelity",
    "C103_refuted"
   ],
   "note": "The pinned code conjugates the weights inside the diagram of the second state and not the weight of its root (C103_refuted); C103_inner says what it returns for all states."
  },
  {
   "property": "C104",
   "status": "proved",
   "theorems": [
    "C104_equal",
    "C104_count",
    "C104_history"
   ],
   "note": "With exact numbers (tolerance 0)."
  },
  {
   "property": "C105",
   "status": "proved",
   "theorems": [
    "C105_matrix",
    "C105_entry_first_row",
    "C105_entry_other_rows",
    "C105_entry_refuted"
   ],
   "note": "The pinned code multiplies the row by the number of edges instead of the dimension (C105_entry_refuted)."
  },
  {
   "property": "C106",
   "status": "proved",
   "theorems": [
    "C106_compile",
    "C106_right",
    "C106_inverse_refuted",
    "C106_kept_refuted"
   ],
   "note": "The adaptive pass needs a device whose levels are all coupled and gates without tiny entries, as in C93. The violations are C106_inverse_refuted and C106_kept_refuted."
  },
  {
   "property": "C107",
   "status": "proved",
   "theorems": [
    "C107_devices",
    "C107_models",
    "C107_after_local",
    "C107_after_entangling",
    "C107_after_csum",
    "C107_combined",
    "C107_compiled_O0",
    "C107_compiled_O1",
    "C107_compiled_O2",
    "C107_read",
    "C107_levels",
    "C107_unlisted_refuted",
    "C107_hadamard_refuted",
    "C107_controlled_refuted",
    "C107_dephasing_refuted"
   ],
   "note": "Compiled circuits are those of C93; level O1 for the programs of C93_O1. The violations are C107_unlisted_refuted, C107_hadamard_refuted, C107_controlled_refuted and C107_dephasing_refuted."
  },
  {
   "property": "C108",
   "status": "proved",
   "theorems": [
    "C108_tensor",
    "C108_exact",
    "C108_returns",
    "C108_gates",
    "C108_extend",
    "C108_factor_refuted",
    "C108_gate_refuted",
    "C108_throws_refuted",
    "C108_mixed_refuted"
   ],
   "note": "Diagrams with exact numbers (tolerance 0), as in C50. The violations are C108_factor_refuted, C108_gate_refuted, C108_throws_refuted and C108_mixed_refuted."
  },
  {
   "property": "C109",
   "status": "proved",
   "theorems": [
    "C109_recorded",
    "C109_levels",
    "C109_outside",
    "C109_inside",
    "C109_tuple_refuted",
    "C109_cx_refuted",
    "C109_virtrz_refuted"
   ],
   "note": "The violations are C109_tuple_refuted, C109_cx_refuted and C109_virtrz_refuted. gellmann returns its gate but does not add it, on purpose (circuit.py:220)."
  },
  {
   "property": "C110",
   "status": "proved",
   "theorems": [
    "C110_shares",
    "C110_other_sizes_refuted",
    "C110_too_few"
   ],
   "note": "The violation is C110_other_sizes_refuted."
  },
  {
   "property": "C111",
   "status": "proved",
   "theorems": [
    "C111_zero",
    "C111_basis",
    "C111_too_many",
    "C111_bad_levels",
    "C111_list_of_n_refuted"
   ],
   "note": "The violation is C111_list_of_n_refuted; C111_basis states what the call does with a list indexed by register numbers."
  },
  {
   "property": "C112",
   "status": "proved",
   "theorems": [
    "C112_sound",
    "C112_gates",
    "C112_asymmetric_refuted"
   ],
   "note": "The violation is C112_asymmetric_refuted. conjugateTranspose is covered by C89."
  },
  {
   "property": "C113",
   "status": "proved",
   "theorems": [
    "C113_slice",
    "C113_classic_slice",
    "C113_open_refuted",
    "C113_step_refuted",
    "C113_negative_refuted",
    "C113_outside"
   ],
   "note": "The violations are C113_open_refuted, C113_step_refuted and C113_negative_refuted."
  },
  {
   "property": "C114",
   "status": "proved",
   "theorems": [
    "C114_carrier",
    "C114_initial",
    "C114_no_level",
    "C114_no_graph"
   ],
   "note": "C114_carrier for every history of swap_nodes calls on the machine's graphs; C114_initial, C114_no_level and C114_no_graph for the start and the errors. C114_case shows the answer for physical levels after an exchange. Negative line numbers are not modelled."
  },
  {
   "property": "C115",
   "status": "proved",
   "theorems": [
    "C115_states",
    "C115_shots",
    "C115_others",
    "C115_rejected",
    "C115_states_lost_refuted",
    "C115_shots_lost_refuted"
   ],
   "note": "C115_states, C115_shots, C115_others and C115_rejected for every history of calls; the violated part as C115_states_lost_refuted and C115_shots_lost_refuted. What numpy stores for one value is an argument with a stated contract; the encoding of HDF5 is not modelled."
  },
  {
   "property": "C116",
   "status": "proved",
   "theorems": [
    "C116_saved",
    "C116_text",
    "C116_read",
    "C116_collision_refuted",
    "C116_empty_path_refuted",
    "C116_failed_save_refuted"
   ],
   "note": "C116_saved when the random letters give different files, C116_text; the violations as C116_collision_refuted, C116_empty_path_refuted and C116_failed_save_refuted. The text of a line around the array is an argument here; it is modelled for C19. C116_read: a line that names such a file is read as the custom gate with the loaded array."
  }
 ]
}
