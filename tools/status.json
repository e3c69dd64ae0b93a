{
 "C01": {
  "status": "proved",
  "note": "Proved for every history of operations with fresh, well formed registers. The two ways the code lets a caller break it (repeated label, dimension list longer or shorter than the size) are the _refuted theorems. QuantumCircuit(n) without dimensions is C01_one_number_refuted."
 },
 "C02": {
  "status": "proved",
  "note": "Proved for all histories; replace_gate is characterised by an iff, the failing indices (in particular -1) are witnessed by C02_replace_last_refuted."
 },
 "C03": {
  "status": "proved",
  "note": "Reset is fresh iff no mapping was stored; the pinned code keeps mappings (C03_mappings_survive_reset_refuted)."
 },
 "C04": {
  "status": "proved",
  "note": "Acceptance is characterised by an iff; level k is compared with the dimension of line k instead of the control line, witnessed by a _refuted theorem."
 },
 "C05": {
  "status": "proved",
  "note": "The long-range flag is right at construction; control() computes it and drops the result (witnessed)."
 },
 "C07": {
  "status": "proved",
  "note": "All dimensions."
 },
 "C08": {
  "status": "proved",
  "note": "All dimensions."
 },
 "C09": {
  "status": "proved",
  "note": "All dimensions."
 },
 "C10": {
  "status": "proved",
  "note": "is_prime is proved to decide primality for all naturals."
 },
 "C12": {
  "status": "proved",
  "note": "Stated on the constructor: parameter list in, matrix out, with the angle regulation in between."
 },
 "C13": {
  "status": "proved",
  "note": "Ill-formed VirtRz parameters are dropped silently (witnessed)."
 },
 "C15": {
  "status": "proved",
  "note": "An accepted list gives a unitary gate iff it has no repetition; [0,0] is accepted (witnessed)."
 },
 "C33": {
  "status": "proved",
  "note": "Angles are exact reals."
 },
 "C06": {
  "status": "proved",
  "note": "dag gives the conjugate transpose, fails exactly when the gate fails, undoes unitary gates; the involution half is false of the pinned code (flag only) and refuted with a witness."
 },
 "C16": {
  "status": "proved",
  "note": "product enumeration, from_dirac_to_basis and calculate_q0_q1 agree with mixed radix indexing."
 },
 "C17": {
  "status": "proved",
  "note": "full-register and slice form for any number of targets, Kronecker form for one line, commutation, multiplication, unitarity."
 },
 "C18": {
  "status": "proved",
  "note": "every matrix returned is the right controlled matrix and one is returned whenever line 0 is used; away from line 0 the pinned code can raise IndexError or KeyError (refuted witnesses)."
 },
 "C11": {
  "status": "proved",
  "note": "entries for both line orders, unitarity and the whole-register action."
 },
 "C14": {
  "status": "proved",
  "note": "CEx in a register is the controlled rotation by pi; levels outside the target raise only when the matrix is built."
 },
 "C53": {
  "status": "proved",
  "note": "expm is the limit of its power series; increasing order or equal dimensions proved, the decreasing mixed-dimension case is refuted with a witness."
 },
 "C54": {
  "status": "proved",
  "note": "expm is the limit of its power series; closed form, existence, unitarity, register action for increasing order or equal dimensions (same restriction as C53)."
 },
 "C19": {
  "status": "proved",
  "note": "Exact round trip proved for all circuits of parameter-free, uncontrolled, undaggered gates and all register layouts; for all uncontrolled gates the imported gate is characterised exactly (gate_back). The violations (daggers, parameters, noise gates, controls, matrix gates, classical registers, second round trip) are universal _refuted theorems."
 },
 "C20": {
  "status": "proved",
  "note": "Every accepted line outside a block comment is accounted for, and every statement of a program without block comments becomes one gate. The ways the code drops text (block comments not closed at the start of a line, unknown names, gellmann, conditionals, second gate on a line) are the _refuted theorems."
 },
 "C21": {
  "status": "proved",
  "note": "Proved for circuits of distinct, uncontrolled gate objects. The code rejects circuits with controlled gates (TypeError): C21_controlled_refuted."
 },
 "C22": {
  "status": "proved",
  "note": "The code violates the property: every object survives exactly once, so any repeated object is lost (C22_repeated_objects_refuted, for all circuits)."
 },
 "C23": {
  "status": "proved",
  "note": "next_is_local is exact for local gates; for entangling gates it always answers no (C23_next_is_local_refuted)."
 },
 "C24": {
  "status": "proved",
  "note": "For circuits of distinct, uncontrolled gates. Repeated objects: see C22."
 },
 "C55": {
  "status": "proved",
  "note": ""
 },
 "C25": {
  "status": "proved",
  "note": ""
 },
 "C26": {
  "status": "proved",
  "note": "networkx.shortest_path is an oracle with the contract finds_shortest, proved satisfiable (C26_contract)."
 },
 "C56": {
  "status": "proved",
  "note": "Holds for graphs whose nodes are 0..n-1 in order; C56_node_order_refuted is a witness that the pinned code violates it otherwise."
 },
 "C57": {
  "status": "proved",
  "note": "Holds for graphs built with a circuit; C57_after_swap_refuted shows the violation for every graph returned by swap_nodes."
 },
 "C58": {
  "status": "proved",
  "note": "First clause for all rotations; second clause for azimuth pi/2 or -pi/2, with C58_update_azimuth_refuted for all others."
 },
 "C59": {
  "status": "proved",
  "note": "Invariant over all histories with fresh labels."
 },
 "C60": {
  "status": "proved",
  "note": "Proved for the cost functions at every real angle and for R gates with 0.2 pi <= |theta| < 4 pi; C60_zero_rotation_cost_refuted is the violation below 0.2 pi."
 },
 "C61": {
  "status": "proved",
  "note": "All dimensions and levels."
 },
 "C31": {
  "status": "proved",
  "note": "Proved for all runs on one line (any length, angles, dimension, direction) and for circuits with no two neighbours on the same lines; the three violations are proved as C31_*_refuted."
 },
 "C32": {
  "status": "proved",
  "note": "Statistics proved for circuits of uncontrolled gates of any class and width; the violation for controlled phase gates is C32_controlled_refuted. C32_phase_gates: the entries of the phase gates."
 },
 "C62": {
  "status": "proved",
  "note": "networkx.shortest_path is an argument with the contract finds_shortest."
 },
 "C30": {
  "status": "proved",
  "note": "The retrieval theorems assume that every finished mark is supported by a finished leaf; C30_histories shows this for every history that marks leaves only and adds nothing below a finished leaf. The violations are the _refuted theorems."
 },
 "C38": {
  "status": "proved",
  "note": "C38_history is conditional on pairs that are not of mixed sign; the two violations are C38_mixed_sign_refuted and C38_bulk_atomic_refuted."
 },
 "C39": {
  "status": "proved",
  "note": "Refinement to a model without sharing, for every history in which a SubspaceNoise object is added once, to one gate, and not changed afterwards; C39_shared_refuted and C39_changed_later_refuted show that the condition is needed."
 },
 "C40": {
  "status": "proved",
  "note": "The random generator is an argument of the model, universally quantified; theorems that need it assume that it returns an index of positive probability. C40_probabilities says which probability vectors matter, C40_exactly_the_drawn_errors which gate each outcome stands for. Violations: C40_math_dephasing_refuted, C40_control_mode_refuted, C40_target_mode_refuted."
 },
 "C63": {
  "status": "proved",
  "note": "One qudit and one choice at a time; exact real arithmetic; the physical case for density matrices in the span of the pair."
 },
 "C41": {
  "status": "proved",
  "note": "Chunks and pickling of multiprocessing.Pool.map are modelled; process ids, times and the generator are arguments. Executions of noisy circuits are arguments too (their content is C40 and C67)."
 },
 "C42": {
  "status": "proved",
  "note": "Regular expression search is an argument of the model, assumed only to find literal text where the theorem says so. Violation: C42_name_attribute_refuted."
 },
 "C43": {
  "status": "proved",
  "note": "Status stream and clock are functions of the number of polls. Violations: C43_cancelled_jobs_refuted, C43_cancelled_jobs_time_out_refuted, C43_in_final_state_disagrees_refuted, and the jobs the backends return do not implement status at all (C43_returned_jobs_have_no_status_refuted)."
 },
 "C44": {
  "status": "proved",
  "note": "Violations: C44_documented_options_refuted, C44_set_options_has_no_effect_refuted, C44_method_names_accepted_refuted, C44_noise_model_ignored_refuted."
 },
 "C64": {
  "status": "proved",
  "note": "Violations: C64_ids_are_not_unique_refuted, C64_printed_status_refuted."
 },
 "C65": {
  "status": "proved",
  "note": "Violations: C65_innsbruck_refuted, C65_options_stay_refuted, C65_refused_options_stay_refuted."
 },
 "C66": {
  "status": "proved",
  "note": "Universal negative theorems: C66_same_noise_refuted, C66_periodic_noise_refuted, C66_same_outcome_refuted."
 },
 "C67": {
  "status": "proved",
  "note": "The result of a contraction is taken to be independent of the contraction order; floats are reals. Violation: C67_control_keeps_the_flag_refuted with C67_distant_control_refuted. Controlled gates that have no matrix at all are the subject of C33."
 },
 "C68": {
  "status": "proved",
  "note": "The decision diagram package is C++ and outside this property; what is proved is the reordering of its result."
 },
 "C45": {
  "status": "proved",
  "note": "What each pass makes of one gate is an argument. Object sharing: kept gates are the same values. Violations are the _refuted theorems."
 },
 "C69": {
  "status": "proved",
  "note": "C69_larger_graph_refuted shows the violation."
 },
 "C46": {
  "status": "proved",
  "note": "Least layers, soundness, termination, negative maxima are proved for every optimiser behaviour; the silent failure is C46_failure_refuted."
 },
 "C70": {
  "status": "proved",
  "note": "The violation is proved for every process in which a run was timed out (universal negative theorem), plus the stale solution witness; see DESIGN.md section 4."
 },
 "C47": {
  "status": "proved",
  "note": "All lengths and dimensions."
 },
 "C48": {
  "status": "proved",
  "note": "C48_reversed_order is the guarantee for the reversed list; the three violations are the _refuted theorems."
 },
 "C71": {
  "status": "proved",
  "note": "The matrix exponential is assumed exact wherever the series converges."
 },
 "C72": {
  "status": "proved",
  "note": "Exact real arithmetic; zero operators (division by zero) are outside."
 },
 "C73": {
  "status": "proved",
  "note": "C73_reversed_order and C73_order_refuted."
 },
 "C74": {
  "status": "proved",
  "note": "Violations: C74_all_lines_refuted, C74_other_dims_refuted."
 },
 "C27": {
  "status": "proved",
  "note": "C27_transpile_inverse is what holds for every circuit; C27_refuted shows the list is not the gate, not even nearly up to a factor."
 },
 "C28": {
  "status": "proved",
  "note": "C28_transpile_reversed is what transpile emits for every circuit; C28_refuted is the violation."
 },
 "C75": {
  "status": "proved",
  "note": "C75_physical and C75_logical describe what happens for every input, C75_restored the kept case, C75_refuted the violation."
 },
 "C76": {
  "status": "proved",
  "note": "Gates on lines given by negative positions included."
 },
 "C29": {
  "status": "proved",
  "note": "For the logical search."
 },
 "C77": {
  "status": "proved",
  "note": "C77_is_empty_refuted and C77_finished_inner_refuted are the violations."
 },
 "C78": {
  "status": "proved",
  "note": "C78_found carries the hypothesis on tiny entries; C78_refuted shows it is needed."
 },
 "C79": {
  "status": "proved",
  "note": "C79_transpile_gate says what is returned for every gate; C79_inverse_refuted and C79_second_gate_refuted are the violations."
 },
 "C34": {
  "status": "proved",
  "note": ""
 },
 "C35": {
  "status": "proved",
  "note": "The renormalisation theorems take all dimensions above one."
 },
 "C36": {
  "status": "proved",
  "note": "C36_prepares and C36_prepares_approx carry the hypothesis merges_well, met by all states without zero amplitudes (C36_full_support); C36_zero_branch_refuted and C36_dimensions_refuted are the violations. C36_returns covers registers with nonincreasing dimensions."
 },
 "C80": {
  "status": "proved",
  "note": "C80_refuted is a statement about all such vectors."
 },
 "C37": {
  "status": "proved",
  "note": "Proved for all registers; C37_embedded_refuted gives the norm for registers with a qudit of dimension 1. Samples of the random generator are an argument."
 },
 "C81": {
  "status": "proved",
  "note": "C81_accepts states the boundary of the code, C81_refuted that the declared one does not hold, for every length. Floats are exact reals."
 },
 "C49": {
  "status": "proved",
  "note": "Proved for all dimensions, states and angles with exact reals. C49_undone is for qubits; C49_undone_refuted is the counterexample for dimensions 2 and 3."
 },
 "C82": {
  "status": "proved",
  "note": "Proved for lines in increasing order; C82_reversed_refuted for decreasing order. det, solve and round are arguments with the assumptions exact_det, exact_solve, rounds6; C82_case shows they can be met. Floats are exact reals."
 },
 "C83": {
  "status": "proved",
  "note": "C83_qubits: the list of transpile_gate is right between qubits. C83_circuits: what transpile does put out. C83_daggers_refuted and C83_order_refuted are the violations."
 },
 "C84": {
  "status": "proved",
  "note": "C84_cex says exactly when a CEx is placed correctly; C84_dagger_refuted, C84_other_gates and C84_mapping_refuted are the violations. C84_circuits lifts both to whole circuits and says what happens to every graph."
 },
 "C51": {
  "status": "proved",
  "note": "Floats are exact reals. C51_density, C51_partial_trace, C51_partial_trace_rejects and C51_empty hold for all inputs in their domain; C51_density_refuted shows that single qudits and qudits with more than 10 levels are always refused."
 },
 "C52": {
  "status": "proved",
  "note": "np.linalg.inv is an argument assumed to invert invertible matrices (inverts_exists shows that such a function exists). C52_direction_refuted is an equivalence."
 },
 "C86": {
  "status": "proved",
  "note": "C86_labels for at most 10 levels per qudit; C86_labels_refuted for every pair of dimensions with at least 12 and 11 levels."
 },
 "C50": {
  "status": "proved",
  "note": "proved for uncontrolled gates of the ten supported tags on qudits with 2 to 7 levels, exact reals and tolerance 0; the controls, descending levels, other tags and larger qudits are refuted by theorems"
 },
 "C88": {
  "status": "proved",
  "note": "for uncontrolled gates; the violations are theorems"
 },
 "C89": {
  "status": "proved",
  "note": "exact reals, tolerance 0; the compute and unique tables are modelled as recomputation (a cache that returns what was stored)"
 },
 "C85": {
  "status": "proved",
  "note": "C85_unitary_simulation, C85_state_simulation, C85_returns and C85_placed_simulation for the simulators; C85_sound, C85_sound_unitary and C85_complete for the verifier, whatever the placements; the three violations are C85_many_qudits_refuted, C85_maps_ignored_refuted and C85_two_qudits_refuted. np.linalg.inv is any function that inverts invertible matrices."
 },
 "C92": {
  "status": "proved",
  "note": "C92_range, C92_defined, C92_sparsest, C92_densest and C92_invariant for the measure; C92_density; C92_objective_range and C92_objective_returns for the objective; the dependence on the global phase is C92_phase_refuted. Floats are exact reals, expm any function that is right where the series converges."
 },
 "C91": {
  "status": "proved",
  "note": "C91_circuits covers all connected graphs and states what each gate becomes; C91_coupled is the guarantee where it holds; C91_direction_refuted and C91_dropped_refuted are the violations. Option vrz_prop at its default False."
 },
 "C87": {
  "status": "proved",
  "note": "C87_rows and C87_readable characterise the drawing for every circuit; C87_lines_refuted, C87_idle_refuted, C87_dagger_refuted, C87_levels_refuted and C87_incomplete_refuted are the violations."
 },
 "C90": {
  "status": "proved",
  "note": "C90_custom, C90_proper and C90_random hold after every history; C90_improper_refuted, C90_nothing_refuted, C90_fresh_refuted and C90_inverse_refuted are the violations. The sampler is an argument."
 },
 "C93": {
  "status": "proved",
  "note": "C93_O0 and C93_O1 hold for every device and every circuit of the gates listed in WholeSpec.implementable; C93_O2 further asks for coupled levels and a two-qudit gate between local gates on a qudit. C93_dagger_refuted and C93_O2_refuted show that the pinned code violates the property outside of these conditions."
 },
 "C94": {
  "status": "proved",
  "note": "Angles are exact reals and expm is any function that returns the matrix exponential. C94_ls_five_refuted and C94_ms_refuted show where the primitives are not maximal entanglers (LS on two qudits with five or more levels, MS on two qutrits)."
 },
 "C95": {
  "status": "proved",
  "note": "C95_one_level_refuted exhibits the one-level case: the kept amplitude 399/401 is squared. Floats are exact reals."
 },
 "C96": {
  "status": "proved",
  "note": "C96_count_refuted and C96_weights_refuted exhibit the two deviations."
 },
 "C97": {
  "status": "proved",
  "note": "C97_range_refuted and C97_unitary_refuted show where the pinned code departs from what a user expects of a gate."
 },
 "C98": {
  "status": "proved",
  "note": "All parts are proved for every reachable table by an invariant (sorted buckets, right bucket, tail pointers, stored numbers apart, free cells disjoint). The three last claims are refuted for the pinned code (C98_history_refuted, C98_border_refuted, C98_negative_zero_refuted). Numbers are exact reals."
 },
 "C99": {
  "status": "proved",
  "note": "Refinement of the memory model to the diagrams of DdModel for all hash functions. Weights are exact and the tolerance is 0; C98 treats the table of numbers."
 },
 "C100": {
  "status": "proved",
  "note": "Invariant over all reached states. The throwing transpose is refuted with a witness; C99_simulates shows that circuits in scope never reach it."
 },
 "C101": {
  "status": "proved",
  "note": "Equality with the cost of the physical gates can fail (the total is then larger): a routed rotation with a small angle may be replaced by a cheaper one of the opposite sign, and levels that are only reachable are charged by their distance."
 },
 "C102": {
  "status": "proved",
  "note": "With exact numbers (tolerance 0). Inner products are right up to a phase here (C103); single entries of a matrix are left to C105."
 },
 "C103": {
  "status": "proved",
  "note": "The pinned code conjugates the weights inside the diagram of the second state and not the weight of its root (C103_refuted); C103_inner says what it returns for all states."
 },
 "C104": {
  "status": "proved",
  "note": "With exact numbers (tolerance 0)."
 },
 "C105": {
  "status": "proved",
  "note": "The pinned code multiplies the row by the number of edges instead of the dimension (C105_entry_refuted)."
 },
 "C106": {
  "status": "proved",
  "note": "The adaptive pass needs a device whose levels are all coupled and gates without tiny entries, as in C93. The violations are C106_inverse_refuted and C106_kept_refuted."
 },
 "C107": {
  "status": "proved",
  "note": "Compiled circuits are those of C93; level O1 for the programs of C93_O1. The violations are C107_unlisted_refuted, C107_hadamard_refuted, C107_controlled_refuted and C107_dephasing_refuted."
 },
 "C108": {
  "status": "proved",
  "note": "Diagrams with exact numbers (tolerance 0), as in C50. The violations are C108_factor_refuted, C108_gate_refuted, C108_throws_refuted and C108_mixed_refuted."
 },
 "C109": {
  "status": "proved",
  "note": "The violations are C109_tuple_refuted, C109_cx_refuted and C109_virtrz_refuted. gellmann returns its gate but does not add it, on purpose (circuit.py:220)."
 },
 "C110": {
  "status": "proved",
  "note": "The violation is C110_other_sizes_refuted."
 },
 "C111": {
  "status": "proved",
  "note": "The violation is C111_list_of_n_refuted; C111_basis states what the call does with a list indexed by register numbers."
 },
 "C112": {
  "status": "proved",
  "note": "The violation is C112_asymmetric_refuted. conjugateTranspose is covered by C89."
 },
 "C113": {
  "status": "proved",
  "note": "The violations are C113_open_refuted, C113_step_refuted and C113_negative_refuted."
 },
 "C114": {
  "status": "proved",
  "note": "C114_carrier for every history of swap_nodes calls on the machine's graphs; C114_initial, C114_no_level and C114_no_graph for the start and the errors. C114_case shows the answer for physical levels after an exchange. Negative line numbers are not modelled."
 },
 "C115": {
  "status": "proved",
  "note": "C115_states, C115_shots, C115_others and C115_rejected for every history of calls; the violated part as C115_states_lost_refuted and C115_shots_lost_refuted. What numpy stores for one value is an argument with a stated contract; the encoding of HDF5 is not modelled."
 },
 "C116": {
  "status": "proved",
  "note": "C116_saved when the random letters give different files, C116_text; the violations as C116_collision_refuted, C116_empty_path_refuted and C116_failed_save_refuted. The text of a line around the array is an argument here; it is modelled for C19. C116_read: a line that names such a file is read as the custom gate with the loaded array."
 }
}