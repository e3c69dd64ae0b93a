{"id": "C01", "title": "Register indexing is a bijection", "statement": "After any sequence of register appends with pairwise distinct labels (each with as many dimensions as its size), every pair (register label, local index) is mapped to exactly one global qudit line, the lines used are exactly 0..num_qudits-1 in order of append, the line's dimension is the one declared in the register, and the inverse map sends each line back to its pair. Appending a second register with an already used label breaks this (two lines, one address). The constructor with sizes and dimensions makes one register \"q\" with exactly those dimensions. The constructor with a register has exactly the lines of that register. The constructor with a number alone, QuantumCircuit(n), should give n qubits, but the pinned code silently gives a circuit without qudits.", "quantifier": "all finite sequences of appends, any labels, sizes and dimensions", "why_tests_cant": "unbounded number, sizes and labels of registers and any append order", "anchors": ["src/mqt/qudits/quantum_circuit/circuit.py:QuantumCircuit.append", "src/mqt/qudits/quantum_circuit/components/quantum_register.py:QuantumRegister", "src/mqt/qudits/quantum_circuit/circuit.py:QuantumCircuit.__init__"]}
{"id": "C02", "title": "Gate count always equals the number of stored instructions", "statement": "In every history of gate insertions (successful or rejected by the gate constructor), set_instructions, resets and in-range replace_gate calls, number_gates equals len(instructions) and instructions is the insertion order list; a rejected insertion leaves the circuit exactly as it was. With an index outside 0..len-1 replace_gate breaks the equality.", "quantifier": "all finite histories of circuit operations", "why_tests_cant": "histories are unbounded; rejected operations can occur at any point", "anchors": ["src/mqt/qudits/quantum_circuit/circuit.py:add_gate_decorator,replace_gate,set_instructions,reset"]}
{"id": "C03", "title": "reset returns the circuit to its freshly created state", "statement": "After any history, reset() leaves a circuit indistinguishable from QuantumCircuit(), so nothing of the old program leaks into the next one. The pinned code violates it: compiled mappings survive reset.", "quantifier": "all histories before the reset", "why_tests_cant": "needs every reachable circuit state", "anchors": ["src/mqt/qudits/quantum_circuit/circuit.py:reset,__init__,set_mapping"]}
{"id": "C04", "title": "control() accepts exactly legal control specifications", "statement": "If gate.control(indices, states) is accepted then the gate becomes TWO (one control) or MULTI (several), the controls are disjoint from the target and inside the circuit, and each control level is a level of the qudit it controls; if rejected the gate is unchanged. The pinned code checks level k against the dimension of qudit k of the circuit instead of the k-th controlled qudit, so legal controls are rejected and illegal ones accepted. Controls given to the constructor are kept as given.", "quantifier": "all circuits, targets, control index lists and level lists", "why_tests_cant": "arbitrary many qudits of mixed dimensions", "anchors": ["src/mqt/qudits/quantum_circuit/gate.py:Gate.control"]}
{"id": "C05", "title": "is_long_range tells whether the gate spans non-neighbouring lines", "statement": "For a gate on lines L (controls and targets), is_long_range is true iff there is an unused line strictly between two lines of L. It holds at construction; it is stale after a later control() call.", "quantifier": "all line sets and gate histories", "why_tests_cant": "any number of lines, any order of control calls", "anchors": ["src/mqt/qudits/quantum_circuit/gate.py:check_long_range,control,__init__"]}
{"id": "C06", "title": "dag is the inverse, and twice dag is the original gate", "statement": "to_matrix of a daggered gate is the conjugate transpose, so gate followed by its dag is the identity for every unitary gate, and dagging twice gives back the original gate. The second half is violated: dag() only sets a flag.", "quantifier": "all gates and all numbers of dag calls", "why_tests_cant": "all matrices and dag counts", "anchors": ["src/mqt/qudits/quantum_circuit/gate.py:dag", "src/mqt/qudits/quantum_circuit/components/extensions/matrix_factory.py:generate_matrix"]}
{"id": "C07", "title": "Shift gate X is the cyclic shift and unitary in every dimension", "statement": "For every d the X gate maps basis state i to i+1 mod d; X is unitary and X^d = I.", "quantifier": "all dimensions d and all levels", "why_tests_cant": "unbounded dimension", "anchors": ["src/mqt/qudits/quantum_circuit/gates/x.py:X.__array__"]}
{"id": "C08", "title": "Clock gate Z is diagonal with the d-th roots of unity and satisfies the Weyl relation with X", "statement": "For every d, Z is diag(w^0,...,w^(d-1)), unitary, Z^d = I and Z X = w X Z.", "quantifier": "all dimensions", "why_tests_cant": "unbounded dimension", "anchors": ["src/mqt/qudits/quantum_circuit/gates/z.py:Z.__array__", "src/mqt/qudits/quantum_circuit/gates/x.py"]}
{"id": "C09", "title": "H is the normalised Fourier transform and unitary in every dimension", "statement": "For every d>=1, H is unitary and diagonalises X: Z H = H X (with the code's sign convention).", "quantifier": "all dimensions", "why_tests_cant": "unbounded dimension; cancellation of root of unity sums", "anchors": ["src/mqt/qudits/quantum_circuit/gates/h.py:H.__array__"]}
{"id": "C10", "title": "S is unitary and only constructible in prime dimension", "statement": "is_prime decides primality for every natural number; S is accepted iff the dimension is prime and its matrix is diagonal unitary.", "quantifier": "all natural numbers", "why_tests_cant": "unbounded numbers", "anchors": ["src/mqt/qudits/quantum_circuit/gates/s.py"]}
{"id": "C11", "title": "CSum adds the control level to the target level", "statement": "For any two qudits with dimensions dc and dt, in either line order, the CSum matrix maps |i,j> to |i, i+j mod dt>; it is a permutation matrix hence unitary.", "quantifier": "all pairs of dimensions and both target orders", "why_tests_cant": "unbounded dimensions", "anchors": ["src/mqt/qudits/quantum_circuit/gates/csum.py:CSum.__array__"]}
{"id": "C12", "title": "R rotations form a unitary one-parameter group on the chosen two levels", "statement": "For all dimensions, all pairs of distinct levels and all real angles: R(theta,phi) is unitary, R(t1,phi)R(t2,phi)=R(t1+t2,phi), R(-theta,phi) is its inverse, levels outside the pair are untouched, R(theta,phi+pi)=R(-theta,phi).", "quantifier": "all dimensions, level pairs and real angles", "why_tests_cant": "real angles and unbounded dimension", "anchors": ["src/mqt/qudits/quantum_circuit/gates/r.py:R.__array__"]}
{"id": "C13", "title": "Rz and VirtRz are diagonal phase gates with the documented phases", "statement": "The matrix of Rz(a,b,phi), built as a product of three R rotations, is diagonal with phases e^{-i phi/2}, e^{+i phi/2} on levels a,b and 1 elsewhere (up to the code's sign convention); VirtRz(l,phi) multiplies level l by e^{-i phi}; both unitary for all inputs.", "quantifier": "all dimensions, levels and angles", "why_tests_cant": "real angles and unbounded dimension", "anchors": ["src/mqt/qudits/quantum_circuit/gates/rz.py", "src/mqt/qudits/quantum_circuit/gates/virt_rz.py"]}
{"id": "C14", "title": "CEx is a controlled two-level rotation", "statement": "For all dimensions, control level c, target levels a,b, angle phi: CEx acts on the target only when the control is at level c, there swaps a and b with phases, is unitary, and is identity elsewhere.", "quantifier": "all dimensions, levels and angles", "why_tests_cant": "unbounded dimensions", "anchors": ["src/mqt/qudits/quantum_circuit/gates/cex.py:CEx.__array__"]}
{"id": "C15", "title": "Perm gates accepted by the constructor are unitary permutations", "statement": "Every parameter list accepted by pm is a permutation of the levels and the gate maps level i to the i-th entry. The pinned code only checks the range of the entries, so repeated entries give a non-unitary gate. The method pm of a circuit takes exactly the lists the constructor of the gate takes, on every line.", "quantifier": "all dimensions and parameter lists", "why_tests_cant": "all lists", "anchors": ["src/mqt/qudits/quantum_circuit/gates/perm.py"]}
{"id": "C16", "title": "Mixed radix indexing of basis states is a bijection", "statement": "State labels, combinations enumeration and the dirac-to-basis conversion all use the same order: the k-th product basis state (last qudit fastest) is the one whose mixed radix value is k; every k below the product of the dimensions is hit exactly once.", "quantifier": "all dimension lists and all levels", "why_tests_cant": "unbounded number of qudits and dimensions", "anchors": ["src/mqt/qudits/quantum_circuit/components/extensions/matrix_factory.py:from_dirac_to_basis", "src/mqt/qudits/compiler/state_compilation/retrieve_state.py:generate_all_combinations", "src/mqt/qudits/visualisation/plot_information.py:state_labels"]}
{"id": "C17", "title": "Embedding a gate in the whole circuit acts only on its line", "statement": "to_matrix with full identities of a single-qudit gate on line k is I (x) M (x) I: it changes only digit k of a basis state, embeddings on different lines commute, embeddings on the same line multiply, unitarity is preserved.", "quantifier": "all circuits, lines and matrices", "why_tests_cant": "unbounded number of qudits and arbitrary matrices", "anchors": ["src/mqt/qudits/quantum_circuit/components/extensions/matrix_factory.py:wrap_in_identities"]}
{"id": "C18", "title": "Controlled matrices act exactly on the selected control levels", "statement": "The matrix built for a controlled gate applies the gate on the target digit when every control digit equals its control level and is the identity on all other basis states; it is unitary when the gate is.", "quantifier": "all dimension lists, control sets and matrices", "why_tests_cant": "unbounded number of controls and dimensions", "anchors": ["src/mqt/qudits/quantum_circuit/components/extensions/matrix_factory.py:apply_identities_and_controls"]}
{"id": "C19", "title": "QASM export then import reproduces the circuit", "statement": "For every circuit over the exportable gate set, from_qasm(to_qasm(c)) has the same registers and the same gates (name, parameters, targets, controls, daggers) in the same order. True for registers and parameter-free uncontrolled gates; violated for parameters (lists become tuples and are dropped by the constructors), controls (the last target is printed instead of the control) and daggers.", "quantifier": "all circuits", "why_tests_cant": "all register names, sizes, gate sequences and parameters", "anchors": ["src/mqt/qudits/quantum_circuit/qasm.py", "src/mqt/qudits/quantum_circuit/circuit.py:to_qasm,from_qasm", "src/mqt/qudits/quantum_circuit/gate.py:__qasm__"]}
{"id": "C20", "title": "The QASM parser never drops program text silently", "statement": "Every non-comment line is either turned into a register or gate, explicitly ignored (header, measure, barrier, blank) or rejected with an error; a comment never swallows lines after its end. Violated by one-line block comments and by unknown gate names. The control clause of a gate is kept as well; violated for a gate that needs parameters but is written without them, whose controls are dropped. A register declaration puts its qudits on the next free lines with the dimensions written there, qubits if none are written, and the imported circuit has a classical register of the declared size for every declared label.", "quantifier": "all input texts", "why_tests_cant": "all texts", "anchors": ["src/mqt/qudits/quantum_circuit/qasm.py:parse_nonspecial_lines,parse_ditqasm2_str", "src/mqt/qudits/quantum_circuit/circuit.py:from_qasm"]}
{"id": "C21", "title": "Splitting a circuit into lanes and reassembling it preserves the program", "statement": "For every circuit whose instruction objects are distinct, extract_instructions of the lanes is a permutation of the instructions keeping, on every qudit line, the original order; hence the circuits are equal up to commuting gates on disjoint lines and have the same unitary.", "quantifier": "all circuits, any interpretation of gates in which gates on disjoint lines commute", "why_tests_cant": "unbounded circuits; all interleavings of local and entangling gates", "anchors": ["src/mqt/qudits/core/lanes.py:Lanes.pre_process_ops,create_lanes,extract_instructions"]}
{"id": "C22", "title": "Lanes lose repeated gate objects", "statement": "Reassembly keeps every occurrence of every instruction. Violated when one gate object occurs more than once (the control-rotation and swap blocks of the two-qudit compiler produce such sequences): later occurrences are dropped.", "quantifier": "all circuits", "why_tests_cant": "aliasing patterns are unbounded", "anchors": ["src/mqt/qudits/core/lanes.py:extract_instructions", "src/mqt/qudits/compiler/twodit/blocks/crot.py", "src/mqt/qudits/compiler/twodit/blocks/pswap.py"]}
{"id": "C23", "title": "Consecutive single-qudit groups partition each line", "statement": "For every circuit and line the groups are non-empty, their concatenation is the line's instruction sequence, each non-single gate is a group of its own and each single-qudit group is maximal; next_is_local(g) is true exactly when the next instruction on g's line is a single-qudit gate.", "quantifier": "all circuits, lines and gates", "why_tests_cant": "unbounded circuits", "anchors": ["src/mqt/qudits/core/lanes.py:find_consecutive_singles,next_is_local"]}
{"id": "C24", "title": "Local resynthesis preserves the action on every line", "statement": "Merging each run of consecutive single-qudit gates on a line into one gate whose matrix is the product preserves the circuit unitary, leaves entangling gates untouched and in order, and leaves no two consecutive single-qudit gates on a line.", "quantifier": "all circuits and all gate matrices", "why_tests_cant": "unbounded circuits", "anchors": ["src/mqt/qudits/compiler/naive_local_resynth/local_resynth.py"]}
{"id": "C25", "title": "Swapping logical levels never changes the physical couplings", "statement": "For every level graph and every sequence of swap_nodes calls, the set of physically coupled level pairs (edge ends seen through the logical-to-physical map) and its sensitivities are unchanged and the map remains a bijection onto the same physical levels.", "quantifier": "all graphs, maps and swap sequences", "why_tests_cant": "unbounded graphs and histories", "anchors": ["src/mqt/qudits/core/level_graph.py:swap_nodes,swap_node_attributes,update_list,log_phy_map"]}
{"id": "C26", "title": "Routing produces only physically allowed pulses and makes the two states adjacent", "statement": "For every connected level graph and every pair of logical levels, every pi pulse emitted by the routing acts on two physically coupled levels, after routing the two logical levels are coupled, and the couplings of the graph are unchanged. The graphs of the three built-in backends are of this kind: a star, two levels linked with all others, and a line.", "quantifier": "all graphs and level pairs", "why_tests_cant": "unbounded graphs and paths", "anchors": ["src/mqt/qudits/compiler/onedit/local_operation_swap/swap_routine.py:route_states2rotate_basic"]}
{"id": "C27", "title": "QR compilation reproduces the target unitary", "statement": "For every dimension and every unitary U, the logical QR pass succeeds and its gate list, run as a circuit, is U up to the rounding thresholds. Proved: the decomposition brings U to the identity within an explicit error bound (exactly for zero thresholds), using rotations between neighbouring levels only and at most d(d-1)/2+2d gates. The pinned code violates the circuit reading: the list returned by LogLocQRPass implements the inverse of U.", "quantifier": "all dimensions, unitary matrices and level graphs", "why_tests_cant": "continuous inputs, unbounded dimension", "anchors": ["src/mqt/qudits/compiler/onedit/mapping_un_aware_transpilation/log_local_qr_decomp.py: LogLocQRPass.transpile_gate, transpile, QrDecomp.execute"]}
{"id": "C28", "title": "Physical QR compilation implements the target with native gates", "statement": "For every dimension, unitary U and usable level graph without stored phases, the physical QR pass succeeds; every emitted rotation is between coupled physical levels; the list of transpile_gate, run as a circuit, is U written on the physical levels, within an explicit error bound, and has at most d(d-1)(2d-3)/2+2d gates. The whole-circuit transpile must put the same operator in place. The pinned code violates the last part: transpile reverses the list a second time while the daggers stay on.", "quantifier": "all dimensions, unitary matrices, level graphs and circuits", "why_tests_cant": "continuous inputs, any graph and any circuit", "anchors": ["src/mqt/qudits/compiler/onedit/mapping_aware_transpilation/phy_local_qr_decomp.py: PhyLocQRPass.transpile_gate, transpile, PhyQrDecomp.execute"]}
{"id": "C29", "title": "Adaptive decomposition search is sound and cost bounded", "statement": "Every sequence of finite cost the logical adaptive search returns removes entries of the target one after the other until the matrix is diagonal up to the threshold; the gates and the target compose to the identity within an explicit error; the cost reported is the sum of the costs of the rotations and stays within the limit plus its slack. A result of infinite cost is empty, and then no sequence within the limit leads to a diagonal matrix.", "quantifier": "all dimensions, unitaries, graphs, cost limits and thresholds", "why_tests_cant": "search trees of unbounded depth, continuous inputs", "anchors": ["src/mqt/qudits/compiler/onedit/mapping_un_aware_transpilation/log_local_adaptive_decomp.py: LogAdaptiveDecomposition.execute, z_extraction, dfs", "src/mqt/qudits/core/dfs_tree.py: NAryTree.retrieve_decomposition"]}
{"id": "C30", "title": "The search tree returns a cheapest finished node", "statement": "retrieve_decomposition returns the path from the root to the first finished leaf of least current_cost whenever there is one, and an empty list at infinite cost otherwise; retrieval changes finished flags only. Additions go behind the children of the first node with the parent key and change nothing else; sizes, depths and lookups agree with the tree. Violated: reading total_size overwrites size with one less than the number of nodes (a one-node tree then reports is_empty), and a finished mark on an inner node without a finished leaf makes retrieval raise ValueError.", "quantifier": "all trees built by any sequence of additions, marks and retrievals", "why_tests_cant": "unbounded trees", "anchors": ["src/mqt/qudits/core/dfs_tree.py"]}
{"id": "C31", "title": "Virtual Z propagation preserves the unitary", "statement": "Moving all virtual phase gates of a line of R and VirtRz gates to the back (or front) gives the same number of rotations and one phase gate per level, with the same unitary; find_intervals cuts a circuit into its maximal runs of equal target lines; the pass applied to a circuit keeps its unitary. Violated by the pinned code for circuits with more than one run, for daggered gates and for runs containing other gate classes.", "quantifier": "all sequences and real angles, all dimensions, both directions", "why_tests_cant": "real angles and unbounded sequences", "anchors": ["src/mqt/qudits/compiler/onedit/local_phases_transpilation/propagate_virtrz.py: propagate_z, find_intervals_with_same_target_qudits, remove_z"]}
{"id": "C32", "title": "Removing initial and final phase rotations only deletes phase gates that cannot be observed", "statement": "The optimised circuit is the circuit with some phase gates left out: exactly those before the first or after the last other gate of their line; none is left over; the probabilities of all measurement outcomes stay the same. Violated for controlled phase gates.", "quantifier": "all circuits on all registers", "why_tests_cant": "unbounded circuits, real angles", "anchors": ["src/mqt/qudits/compiler/onedit/local_phases_transpilation/remove_phase_rotations.py: remove_initial_rz, remove_trailing_rz, remove_rz_gates"]}
{"id": "C33", "title": "Angle normalisations preserve the angle up to the gate's period", "statement": "pi_mod(x) = x mod 2pi within [-pi,pi]; new_mod keeps the sign and the angle mod 2pi; regulate_theta keeps theta mod 4pi and never returns an angle smaller than 0.2 pi in absolute value.", "quantifier": "all real angles", "why_tests_cant": "real inputs", "anchors": ["src/mqt/qudits/compiler/compilation_minitools/local_compilation_minitools.py"]}
{"id": "C34", "title": "State decision trees represent the state exactly", "statement": "For every dimension list and amplitude list, create_decision_tree returns a tree in which the product of the edge weights along the path of a basis state is the amplitude of this state; every inner node has one child per level with weights that form a unit vector, the weight of the root is the norm of the state, and the count reported is that of the full tree.", "quantifier": "all dimension lists and all amplitudes", "why_tests_cant": "unbounded sizes, arbitrary amplitudes", "anchors": ["src/mqt/qudits/core/micro_dd.py: create_decision_tree, build_decision_tree, normalize, reweight"]}
{"id": "C35", "title": "Approximation cuts at most the tolerated weight", "statement": "The contributions listed for a tree are the probabilities of its branches, level by level and sorted; cutting keeps each amplitude or makes it zero and the total probability lost never reaches the tolerance; the renormalised tree is well formed and has the same amplitudes, so that the fidelity with the requested state exceeds one minus the tolerance.", "quantifier": "all dimension lists, states and tolerances", "why_tests_cant": "unbounded trees, continuous inputs", "anchors": ["src/mqt/qudits/core/micro_dd.py: get_node_contributions, cut_branches, normalize_all"]}
{"id": "C36", "title": "State preparation prepares the requested state", "statement": "Running the gates that set_initial_state appends on |0..0> gives the requested state, divided by its norm, up to an error bounded by the number of tree nodes times half the threshold below which angles are dropped; with approximation the fidelity exceeds 0.99 up to the same error. The pinned code violates it twice: a node whose non-zero children agree is merged, but the synthesis continues in the first child even when it is the zero branch, so that the remaining qudits stay in |0>; and on registers whose dimensions grow a control on a level that the qudit has is rejected with IndexError because it is compared with the dimension of another qudit.", "quantifier": "all registers, all states, all hash functions without clashes among siblings", "why_tests_cant": "continuous inputs, unbounded qudits", "anchors": ["src/mqt/qudits/compiler/state_compilation/state_preparation.py: StatePrep.compile_state, synthesis, retrieve_local_sequence, get_angles, find_complex_number", "src/mqt/qudits/core/micro_dd.py: dd_reduction_hashing, dd_reduction_aggregation", "src/mqt/qudits/quantum_circuit/circuit.py: set_initial_state"]}
{"id": "C37", "title": "Predefined states have unit norm and the documented support", "statement": "generate_ghz_entries, generate_qudit_w_entries and generate_embedded_w_entries return exactly the documented basis states without duplicates (all qudits in the same level; one qudit in one of its upper levels; one qudit in level 1), generate_uniform_state returns the unit vector that is uniform on them, other names are rejected, random states have norm 1, and state preparation is right for the predefined states. Violation in the pinned code: with a qudit of dimension 1 the embedded W state has norm below 1.", "quantifier": "all dimension lists, names and random samples", "why_tests_cant": "unbounded number of qudits and levels", "anchors": ["src/mqt/qudits/compiler/state_compilation/retrieve_state.py:generate_uniform_state", "src/mqt/qudits/compiler/state_compilation/retrieve_state.py:find_entries_indices"]}
{"id": "C38", "title": "Subspace noise tables stay well formed", "statement": "An addition to a subspace noise table is accepted exactly when its two levels differ, the pair is new, negative levels come only first and no dynamic entry is present; it then appends the ordered pair. Whatever sequence of single and bulk additions is made, accepted or rejected, the keys are pairwise distinct ordered level pairs and a dynamic (negative) entry excludes explicit ones, and a rejected call changes nothing. Violated: pairs of mixed sign are accepted and explicit pairs after them, and a rejected bulk addition keeps the entries before the rejected one.", "quantifier": "all call histories, level pairs and tables", "why_tests_cant": "unbounded histories", "anchors": ["src/mqt/qudits/simulation/noise_tools/noise.py:SubspaceNoise"]}
{"id": "C39", "title": "Noise models record exactly what was added", "statement": "After any history of additions, each (gate, mode) holds the noise that was added for it, every call raises exactly when the noise for a gate and mode cannot be combined, the basis gates are those holding some noise, and adding noise to one gate does not change another gate. The last part is violated when one SubspaceNoise object is added to several gates or changed after it was added.", "quantifier": "all histories of creating, changing and adding noise objects", "why_tests_cant": "aliasing patterns are unbounded", "anchors": ["src/mqt/qudits/simulation/noise_tools/noise.py:NoiseModel"]}
{"id": "C40", "title": "Noisy circuits keep the original program", "statement": "For every circuit, noise model and random choices, the noisy circuit contains the original instructions in order, every inserted gate directly follows an instruction whose tag has noise, acts only on the qudits selected by the noise mode and on levels that exist, is drawn with the probabilities of that noise, and every drawn error is inserted; without noise for the tags of the circuit, or with probabilities zero, the circuit is unchanged; a model that fits the circuit never raises. Violated: the dephasing probability of a mathematical noise is ignored, control noise on a controlled single-qudit gate raises, and target noise of a gate with several controls also reaches its controls.", "quantifier": "all circuits, models and random outcomes", "why_tests_cant": "random outcomes and circuits unbounded", "anchors": ["src/mqt/qudits/simulation/noise_tools/noisy_circuit_factory.py"]}
{"id": "C41", "title": "Stochastic simulation returns the requested number of shots", "statement": "For every number of shots and every number of worker processes, whatever the schedule, the result list has exactly one outcome per shot; each outcome is the index of a basis state with non-zero amplitude (or the state itself if asked for), chosen by the Born rule; it is written to the file, one row per shot in order, exactly if a file and path are given.", "quantifier": "all shot counts, worker counts, schedules, random numbers, circuits", "why_tests_cant": "unbounded shots and schedules", "anchors": ["src/mqt/qudits/simulation/backends/stochastic_sim.py", "src/mqt/qudits/simulation/save_info.py"]}
{"id": "C42", "title": "Provider lookup is unambiguous", "statement": "get_backend returns a backend exactly if one registered name matches the request, and then the one of this name with the given options; it fails when none or several match; every listed backend name resolves to itself. Violated: the name a backend object carries is not a name the provider knows.", "quantifier": "all strings and option dictionaries", "why_tests_cant": "all strings", "anchors": ["src/mqt/qudits/simulation/qudit_provider.py"]}
{"id": "C43", "title": "wait_for_final_state returns as soon as the job is in a final state", "statement": "For every status stream, waiting ends at the first final status (done, error or cancelled) or at the timeout. Violated for cancelled jobs: the wait never ends.", "quantifier": "all status streams, clocks and timeouts", "why_tests_cant": "infinite status streams", "anchors": ["src/mqt/qudits/simulation/jobs/job.py", "src/mqt/qudits/simulation/jobs/jobstatus.py"]}
{"id": "C44", "title": "Backend options can be set and are used", "statement": "Setting an option the backend documents succeeds and is visible afterwards; unknown options are rejected without change; options given to the constructor or to run() are the ones used. Violated: every documented option name is rejected by set_options, names of dictionary methods are accepted, and the fake backends ignore a noise_model given to the constructor.", "quantifier": "all option dictionaries and histories", "why_tests_cant": "all option sets and histories", "anchors": ["src/mqt/qudits/simulation/backends/backendv2.py:set_options", "src/mqt/qudits/simulation/backends/tnsim.py:run"]}
{"id": "C45", "title": "Compilation dispatch applies the right pass to each gate and keeps the program order", "statement": "compile() replaces each instruction, in order, by the output of the last requested pass made for its gate type, leaves the other instructions untouched, keeps the registers, refuses unknown pass names before touching anything, and therefore keeps the meaning of the program if each pass does. The optimisation levels do the same with their fixed passes. Violated: requesting one of the two phase optimisation passes makes no difference, requesting the local resynthesis makes compilation fail, and levels O1 and O2 fail on controlled gates.", "quantifier": "all circuits, backends, pass lists and behaviours of the passes on single gates", "why_tests_cant": "the claim is about every list of passes and every program; tests run a few", "anchors": ["src/mqt/qudits/compiler/dit_compiler.py:QuditCompiler"]}
{"id": "C46", "title": "Layer search returns the least sufficient number of layers", "statement": "binary_search_compile with a maximum number of layers returns the least number of layers for which the optimiser reaches the tolerance, together with the error and parameters found for that number, provided success is monotone in the number of layers; in every case a reported solution is one the optimiser found within the tolerance for the reported layers. When no number of layers works the failure is visible to the caller. The pinned code violates the last part: it silently returns half the maximum with no parameters, and the variational compiler then emits an empty circuit.", "quantifier": "all maxima, all optimiser outcomes", "why_tests_cant": "the search has to be right for every pattern of success and failure of the numerical optimiser", "anchors": ["src/mqt/qudits/compiler/twodit/variational_twodit_compilation/ansatz/ansatz_solve_n_search.py: binary_search_compile, run", "src/mqt/qudits/compiler/twodit/variational_twodit_compilation/layered_compilation.py: variational_compile"]}
{"id": "C47", "title": "Ansatz parameter vectors are split without loss", "statement": "params_splitter cuts the parameter vector into consecutive blocks, alternately of d0^2-1 and d1^2-1 entries, whose concatenation is the input; it accepts exactly the lengths that are multiples of the block pair and raises ValueError otherwise or when not given two dimensions. The bounds vector handed to the optimiser has one interval per parameter, chosen by the place of the parameter in its block.", "quantifier": "all dimensions, numbers of layers and parameter vectors", "why_tests_cant": "sizes, dimensions and numbers of layers are unbounded", "anchors": ["src/mqt/qudits/compiler/twodit/variational_twodit_compilation/parametrize.py: params_splitter", "src/mqt/qudits/compiler/twodit/variational_twodit_compilation/opt/optimizer.py: bounds_assigner, return_bounds"]}
{"id": "C48", "title": "Emitted ansatz circuit equals the optimised ansatz", "statement": "The circuit emitted for the optimised parameters has the unitary of the ansatz matrix that was optimised, on the lines of the gate being compiled. The pinned code violates this in three ways: the gates are emitted in matrix-multiplication order, so only the reversed list is the optimised matrix; a gate on other lines than 0 and 1 is still emitted on lines 0 and 1; a custom primitive with its dagger flag set is emitted daggered but optimised undaggered.", "quantifier": "all parameters, dimensions, numbers of layers, registers and entangling primitives", "why_tests_cant": "continuous parameters and any register around the two lines", "anchors": ["src/mqt/qudits/compiler/twodit/variational_twodit_compilation/ansatz/ansatz_gen.py: prepare_ansatz, cu_ansatz, ms_ansatz, ls_ansatz", "src/mqt/qudits/compiler/twodit/variational_twodit_compilation/ansatz/instantiate.py: ansatz_decompose, create_cu_instance, create_ms_instance, create_ls_instance", "src/mqt/qudits/compiler/twodit/variational_twodit_compilation/layered_compilation.py: variational_compile"]}
{"id": "C49", "title": "Two-qudit blocks are exact rotations and are undone by their dag sequences", "statement": "For every pair of neighbouring basis states of two qudits the control rotation block or the partial swap block, composed as a circuit, is exactly the rotation between these two states by the given angles and leaves every other basis state alone; the phase blocks are exactly the phase rotations. The blocks use 2, 16, 6 and 48 CEx and only existing levels. A block followed by its reversed, daggered gates is the identity. Violation in the pinned code: the last part fails beyond qubits, because some gates of a block are daggered already and dag() does not take that back.", "quantifier": "all dimensions of two or more, all neighbouring states, all angles", "why_tests_cant": "continuous parameters, unbounded dimensions", "anchors": ["src/mqt/qudits/compiler/twodit/blocks/crot.py: CRotGen", "src/mqt/qudits/compiler/twodit/blocks/pswap.py: PSwapGen", "src/mqt/qudits/compiler/twodit/blocks/czrot.py: CZRotGen"]}
{"id": "C50", "title": "Decision diagram simulation honours every part of an instruction", "statement": "For every register and every circuit, simulating on the decision diagram backend returns the state |0...0> after every gate in turn, with its controls and its dagger, a unit vector, the same state the tensor network backend returns. Violated: the binding reads the controls and then ignores them, so controlled gates run as uncontrolled ones; rotations between descending levels of a qudit with three or more levels raise; gates the binding has no matrix for (other classes, more than 7 levels) end the process.", "quantifier": "all registers, circuits, diagrams and pointer identities", "why_tests_cant": "all circuits, dimensions and angles", "anchors": ["src/python/bindings.cpp:getGate,readCircuit,ddsimulator,stateVectorSimulation", "include/dd/GateMatrixDefinitions.hpp", "include/dd/MDDPackage.hpp:makeGateDD,multiply2,cex,csum,getVectorFromDD", "src/mqt/qudits/simulation/backends/misim.py"]}
{"id": "C51", "title": "Reducing counts to a density matrix and tracing out qudits preserves probability", "statement": "The density matrix built from counts is diagonal, carries the fraction of each outcome, and has unit trace exactly when every outcome is a valid index of the register. partial_trace is the textbook partial trace over the qudits that are not kept, in whatever order they are listed; it preserves the trace and Hermitian matrices; lists with repeated or negative entries raise ValueError. Violated: registers with a single qudit raise AttributeError, and registers with a qudit of more than 10 levels raise IndexError.", "quantifier": "all outcome lists, dimension lists, matrices and kept sets", "why_tests_cant": "unbounded sizes and all matrices", "anchors": ["src/mqt/qudits/visualisation/mini_quantum_information.py:get_density_matrix_from_counts,partial_trace"]}
{"id": "C52", "title": "Remapping results by the compiled mappings permutes the outcomes", "statement": "remap_result is a permutation of the result vector whenever the mappings are permutations of the levels: entry x moves to the mapped levels of x. It is the identity without mappings. The histograms show the remapped counts and magnitudes. Violated: a user expects results on the mapped levels to be brought back to the levels of the circuit; this happens exactly when every mapping is its own inverse.", "quantifier": "all dimension lists, mappings and result vectors", "why_tests_cant": "unbounded sizes", "anchors": ["src/mqt/qudits/visualisation/plot_information.py:remap_result,plot_state,plot_counts"]}
{"id": "C53", "title": "LS puts a phase on equal levels", "statement": "For all dimensions and angles, in a register of any size, the LS gate multiplies the basis states whose two target digits are equal by e^{-i theta} and leaves all others alone, whatever the order in which the two targets are given. The last clause is violated for targets given in decreasing line order with different dimensions.", "quantifier": "all dimensions, angles, registers and both target orders", "why_tests_cant": "the matrix is a matrix exponential for every pair of dimensions; tests compare a few numbers", "anchors": ["src/mqt/qudits/quantum_circuit/gates/ls.py: LS.__array__", "src/mqt/qudits/quantum_circuit/components/extensions/matrix_factory.py: generate_matrix"]}
{"id": "C54", "title": "MS is the Molmer-Sorensen interaction on levels 0 and 1", "statement": "For all dimensions >= 2 and angles the MS matrix is exp(-i theta (1 + X(x)X)/2) on levels 0,1 of both qudits, the phase e^{-i theta/4} on states with exactly one qudit in those levels, identity elsewhere; it is unitary and embeds on the two target digits.", "quantifier": "all dimensions, angles, registers", "why_tests_cant": "matrix exponential over all dimensions", "anchors": ["src/mqt/qudits/quantum_circuit/gates/ms.py: MS.__array__", "src/mqt/qudits/quantum_circuit/gates/gellmann.py: GellMann"]}
{"id": "C55", "title": "Replacing part of a lane", "statement": "replace_gates_in_lane(line, start, end, gate) replaces exactly the gates of the lane at positions start..end by the new gate, which takes the ordering number of the first of them; every other lane and every other gate of the lane stays as it was.", "quantifier": "all lanes with distinct gate objects, all positions start <= end with start inside the lane, all new gates", "why_tests_cant": "unbounded lanes; removal is by value, so it depends on all other entries", "anchors": ["src/mqt/qudits/core/lanes.py:replace_gates_in_lane"]}
{"id": "C56", "title": "Exchanging the stored phases of two levels", "statement": "swap_node_attr_simple(a, b) exchanges the stored phases of nodes a and b and changes nothing else. Violated by the pinned code when the nodes are not listed as 0, 1, 2, ...: positions in the node list are used as node names, so phases of other nodes move.", "quantifier": "all graphs, nodes and stored phases", "why_tests_cant": "unbounded graphs; tests use graphs whose nodes are 0..n-1 in order", "anchors": ["src/mqt/qudits/core/level_graph.py:swap_node_attr_simple"]}
{"id": "C57", "title": "Stored phases can be recovered as virtual Z gates", "statement": "get_vrz_gates returns exactly one VirtRz for every stored phase that is not a full turn, on the physical level of its node and with that phase. Violated by the pinned code on every graph returned by swap_nodes (the circuit is forgotten and all phases are dropped).", "quantifier": "all graphs, placements, stored phases and swap histories", "why_tests_cant": "ranges over real phases, graphs and histories", "anchors": ["src/mqt/qudits/core/level_graph.py:get_vrz_gates,swap_nodes"]}
{"id": "C58", "title": "Stored phases commute correctly through rotations and pulses", "statement": "With diagonal phases Z stored in the graph, the rotation R' returned by graph_rule_ongate satisfies Z R' = R Z, and after graph_rule_update for a half-turn pulse P the stored phases Z' satisfy P Z' = Z X, X being the exchange of the two levels. The second clause is violated by the pinned code for every pulse whose azimuth is not pi/2 or -pi/2, which routing emits once phases are stored.", "quantifier": "all graphs, stored phases, rotations and half-turn pulses", "why_tests_cant": "identity of matrices for all real phases and dimensions", "anchors": ["src/mqt/qudits/compiler/onedit/local_operation_swap/swap_routine.py:graph_rule_update,graph_rule_ongate"]}
{"id": "C59", "title": "Classical registers are laid out contiguously", "statement": "After any history of operations, bit i of a declared classical register is stored at the position following all bits declared before it, the inverse map sends each position back to its bit, num_cl is the total number of declared bits, the positions in use are exactly 0..num_cl-1, and register[i] is that position.", "quantifier": "all histories of circuit operations whose appended classical registers are new", "why_tests_cant": "unbounded histories of appends, resets and gate insertions", "anchors": ["src/mqt/qudits/quantum_circuit/circuit.py: QuantumCircuit.append_classic", "src/mqt/qudits/quantum_circuit/components/classic_register.py: ClassicRegister"]}
{"id": "C60", "title": "Gate costs order rotations by their size", "statement": "The cost of a rotation angle is non-negative, even, zero only for angle zero and strictly increasing in the absolute angle; the cost property of two R gates orders them by the size of the requested rotation. Violated below 0.2 pi, where the constructor adds a period of 4 pi: R with angle 0 costs more than R with angle pi.", "quantifier": "all real angles", "why_tests_cant": "real angles", "anchors": ["src/mqt/qudits/compiler/compilation_minitools/local_compilation_minitools.py: theta_cost, phi_cost", "src/mqt/qudits/quantum_circuit/gates/r.py: R.cost"]}
{"id": "C61", "title": "The noise gates flip exactly the two chosen levels", "statement": "NoiseX(a,b) and NoiseY(a,b) are accepted exactly for two different levels of the qudit; NoiseX exchanges the levels, NoiseY exchanges them with phases i and -i, every other level is left alone, and both are unitary.", "quantifier": "all dimensions and pairs of levels", "why_tests_cant": "unbounded dimensions", "anchors": ["src/mqt/qudits/quantum_circuit/gates/noise_x.py: NoiseX", "src/mqt/qudits/quantum_circuit/gates/noise_y.py: NoiseY"]}
{"id": "C62", "title": "Distances, costs and sensitivities of the level graph", "statement": "The distance of two levels is the smallest number of transitions between them, and the number of routing pulses it predicts is the number route_states2rotate_basic emits. A rotation costs theta_cost of its angle, times one more than the transitions from the first initial level to the nearer of its two levels when one of them is marked reachable; cost_calculator returns (rotation cost on the routed graph + routing cost) * non_zeros, and routing costs at least one half turn per pulse. The sensitivity of a transition is the stored number, the same from both ends, and a level's sensitivity is the sum over its transitions.", "quantifier": "all level graphs, pairs of levels, rotations and path searches that return shortest paths", "why_tests_cant": "unbounded graphs", "anchors": ["src/mqt/qudits/core/level_graph.py: distance_nodes, distance_nodes_pi_pulses_fixed_ancilla, get_node_sensitivity_cost, get_edge_sensitivity", "src/mqt/qudits/compiler/compilation_minitools/local_compilation_minitools.py: rotation_cost_calc", "src/mqt/qudits/compiler/onedit/local_operation_swap/swap_routine.py: cost_calculator"]}
{"id": "C63", "title": "Random noise gates realise the documented channels", "statement": "Averaged over the random choices with the probabilities handed to the generator, the gates inserted for a mathematical noise act on a qudit as the depolarizing channel (1-p) rho + p tr(rho) I/d, those of a physical noise as the same channel on the span of its two levels, and physical dephasing of a level multiplies its coherences by 1-2p.", "quantifier": "all dimensions, probabilities, level pairs and density matrices", "why_tests_cant": "a statement about expectations for all dimensions and states; sampling only approximates it", "anchors": ["src/mqt/qudits/simulation/noise_tools/noisy_circuit_factory.py:_apply_depolarizing_noise", "src/mqt/qudits/simulation/noise_tools/noisy_circuit_factory.py:_apply_dephasing_noise"]}
{"id": "C64", "title": "Jobs keep their identity and report their result and status", "statement": "result() gives the last result that was set, the id and the backend never change, every status can be written as a string and read back, ids are different for different jobs. Violated: jobs created in the same millisecond by one process share their id, and the printed form of a status is not accepted back.", "quantifier": "all jobs, results, strings, statuses", "why_tests_cant": "all histories and strings", "anchors": ["src/mqt/qudits/simulation/jobs/job.py", "src/mqt/qudits/simulation/jobs/jobstatus.py"]}
{"id": "C65", "title": "run() gives the final state, and the counts if there is noise", "statement": "Without a noise model run() returns the final state of the circuit and no counts; with one it returns the ideal state and the outcomes of the shots, at least 50 of which must be asked for; options of one run do not affect the next. Violated: options stay for all later runs, even those of a refused run, and Innsbruck01 always gives an empty result.", "quantifier": "all circuits, options and histories of runs", "why_tests_cant": "all histories of options", "anchors": ["src/mqt/qudits/simulation/backends/tnsim.py:run", "src/mqt/qudits/simulation/backends/misim.py:run", "src/mqt/qudits/simulation/backends/innsbruck_01.py:run"]}
{"id": "C66", "title": "Every shot of a noisy simulation has its own noise", "statement": "The noise of different shots is drawn independently. Violated: the random generator is copied into every chunk of shots that goes to a worker, so with at most four shots per processor all shots see the same noise, and with more it repeats with the period of the chunks; and shots that one worker measures in the same millisecond give the same outcome.", "quantifier": "all circuits, noise models, shot and worker counts, schedules", "why_tests_cant": "statistical property over all schedules", "anchors": ["src/mqt/qudits/simulation/backends/stochastic_sim.py", "src/mqt/qudits/simulation/noise_tools/noisy_circuit_factory.py"]}
{"id": "C67", "title": "Simulation computes the action of the circuit on |0...0>", "statement": "For every register and every circuit of well-placed gates, the state vector of the tensor network simulator is |0...0> after the matrices of all gates in order, embedded on their lines, under their controls; it is a unit vector if the gates are unitary, and the simulation returns exactly when every gate has a matrix. Violated: a gate that is controlled after its creation from a qudit that is not a neighbour cannot be simulated.", "quantifier": "all registers, circuits, gates, matrices", "why_tests_cant": "unbounded circuits and continuous parameters", "anchors": ["src/mqt/qudits/simulation/backends/tnsim.py:execute", "src/mqt/qudits/simulation/backends/tnsim.py:__contract_circuit", "src/mqt/qudits/quantum_circuit/gate.py:control"]}
{"id": "C68", "title": "Both simulators order amplitudes in the same way", "statement": "The vector the decision diagram simulator returns has, for every basis state, the amplitude the decision diagram package computed for it: the reversal of its digit order loses nothing.", "quantifier": "all registers and vectors", "why_tests_cant": "unbounded registers", "anchors": ["src/mqt/qudits/simulation/backends/misim.py:execute"]}
{"id": "C69", "title": "Compilation records, for each qudit, a permutation of its levels", "statement": "The mapping compile() records for a qudit is a permutation of the levels of the qudit, and is the placement of the level graph when the graph has exactly these levels. Violated for larger graphs: the recorded mapping can name a physical level the logical level does not sit on.", "quantifier": "all circuits, level graphs and placements", "why_tests_cant": "quantifies over all placements and dimensions", "anchors": ["src/mqt/qudits/compiler/dit_compiler.py:QuditCompiler.compile", "src/mqt/qudits/core/level_graph.py:log_phy_map"]}
{"id": "C70", "title": "A timed-out optimiser run stays confined to itself", "statement": "A run of the optimiser that is stopped by the time limit counts as a failure of that number of layers and does not change what later runs or later compilations in the same process report. The pinned code violates this: the time-out flag is never cleared, so every later run stops at once, and a solution left over from an earlier run can be reported for a different number of layers.", "quantifier": "all histories of optimiser runs in a process, all time-out points", "why_tests_cant": "depends on when the clock strikes relative to the history of earlier runs in the same process", "anchors": ["src/mqt/qudits/compiler/twodit/variational_twodit_compilation/ansatz/ansatz_solve_n_search.py: run, interrupt_function", "src/mqt/qudits/compiler/twodit/variational_twodit_compilation/opt/optimizer.py: Optimizer"]}
{"id": "C71", "title": "Local rotations of the ansatz are the documented unitaries", "statement": "generic_sud turns d^2-1 real parameters into the unitary that is the product of phase rotations against the last level and, for every pair of levels, a phase and a real rotation; fewer parameters are rejected. The whole ansatz matrix is unitary.", "quantifier": "all dimensions and real parameters", "why_tests_cant": "continuous parameters, every dimension", "anchors": ["src/mqt/qudits/compiler/twodit/variational_twodit_compilation/parametrize.py: generic_sud", "src/mqt/qudits/compiler/twodit/variational_twodit_compilation/ansatz/ansatz_gen.py: prepare_ansatz"]}
{"id": "C72", "title": "Fidelities are between 0 and 1 and are 1 only for equal objects", "statement": "The fidelities of unitaries, operators, density operators and states are symmetric, lie between 0 and 1, and are 1 exactly if the objects agree (unitaries and states up to a global phase, operators up to a factor, density operators exactly). Mismatching or non-square shapes are rejected. The error the variational compiler minimises is zero exactly if the emitted gates, read backwards, are the target up to a global phase.", "quantifier": "all sizes and all matrices or states", "why_tests_cant": "continuous inputs; needs the equality case of Cauchy-Schwarz", "anchors": ["src/mqt/qudits/compiler/twodit/variational_twodit_compilation/opt/distance_measures.py: fidelity_on_unitares, fidelity_on_operator, fidelity_on_density_operator, naive_state_fidelity", "src/mqt/qudits/compiler/twodit/variational_twodit_compilation/opt/optimizer.py: obj_fun_core"]}
{"id": "C73", "title": "Sparsified circuit equals the optimised matrix", "statement": "The circuit emitted by the sparsifier has the matrix that was optimised: the original gate between the local rotations. The pinned code violates this: the gates are emitted in matrix-multiplication order, so only the reversed list is the optimised matrix.", "quantifier": "all parameters, dimensions, registers and two-qudit gates", "why_tests_cant": "continuous parameters", "anchors": ["src/mqt/qudits/compiler/twodit/variational_twodit_compilation/sparsifier.py: apply_rotations, instantiate_rotations, sparsify"]}
{"id": "C74", "title": "Extending a gate to a register acts on its line only", "statement": "gate_expand_to_circuit returns the matrix that acts as the gate on its line and as the identity on all others, for every register, and rejects lines outside the register. apply_gate_to_tlines applies the gate to each listed line. The pinned code violates the latter: for several lines it adds the matrices instead of multiplying them, and it rejects every register whose size is not that of qubits.", "quantifier": "all registers, lines and gates", "why_tests_cant": "every register and line", "anchors": ["src/mqt/qudits/compiler/compilation_minitools/numerical_ansatz_utils.py: gate_expand_to_circuit, apply_gate_to_tlines"]}
{"id": "C75", "title": "Phases stored in the level graph survive compilation", "statement": "Phases stored in the level graph are either realised by the emitted gates or still in the graph after a gate is compiled. The pinned code violates this: the physical pass emits the inverse of the stored phases and wipes them, the logical pass emits nothing for them and wipes them. Only a decomposition that is part of a larger one puts them back, up to whole turns.", "quantifier": "all graphs, stored phases, dimensions and unitaries", "why_tests_cant": "continuous phases and unitaries", "anchors": ["src/mqt/qudits/compiler/onedit/mapping_aware_transpilation/phy_local_qr_decomp.py: PhyQrDecomp.execute", "src/mqt/qudits/compiler/onedit/mapping_un_aware_transpilation/log_local_qr_decomp.py: QrDecomp.execute"]}
{"id": "C76", "title": "QR passes replace single-qudit gates in place", "statement": "For every circuit the QR passes keep every gate that is not a single-qudit gate, at its place, and replace each single-qudit gate by gates on the same line; the backend keeps its number of level graphs.", "quantifier": "all circuits whose gates can be compiled", "why_tests_cant": "circuits of any length", "anchors": ["src/mqt/qudits/compiler/onedit/mapping_un_aware_transpilation/log_local_qr_decomp.py: LogLocQRPass.transpile", "src/mqt/qudits/compiler/onedit/mapping_aware_transpilation/phy_local_qr_decomp.py: PhyLocQRPass.transpile"]}
{"id": "C77", "title": "The search tree keeps its books", "statement": "After any history of add and total_size, total_size is the number of nodes added since the last root, add succeeds exactly when the parent is in the tree, depth is the length of the longest way down from the node, and retrieve_decomposition returns a root path to a finished leaf with the smallest cost of all finished leaves, or the empty path with infinite cost if there is none. The pinned code violates two neighbouring expectations: a tree with one node reports that it is empty after total_size was read, and a finished node with unfinished children makes the retrieval fail with ValueError.", "quantifier": "all histories of calls and all trees", "why_tests_cant": "trees of any size and shape", "anchors": ["src/mqt/qudits/core/dfs_tree.py: NAryTree.add, find_node, depth, max_depth, size_refresh, found_checker, min_cost_decomp, retrieve_decomposition, total_size, is_empty"]}
{"id": "C78", "title": "The adaptive search ends and finds a decomposition", "statement": "For every unitary and limit the logical adaptive search ends, and with the cost of the QR decomposition as limit it finds a decomposition. The pinned code violates the second part for matrices in which the elimination meets a nonzero entry of at most 1e-18: then nothing is found and the gate is replaced by no gate at all.", "quantifier": "all dimensions, unitaries, graphs and thresholds", "why_tests_cant": "unbounded search, continuous inputs", "anchors": ["src/mqt/qudits/compiler/onedit/mapping_un_aware_transpilation/log_local_adaptive_decomp.py: LogLocAdaPass.transpile_gate, LogAdaptiveDecomposition.execute, dfs"]}
{"id": "C79", "title": "The adaptive pass compiles every gate of a circuit", "statement": "For every circuit LogLocAdaPass replaces each gate by gates that implement it. The pinned code violates this twice: the gates make up the inverse of the gate, and compiling a gate that is not diagonal replaces the level graph of its line by None, so that the next gate on the line fails with AttributeError, whatever it is.", "quantifier": "all dimensions up to 1000, unitaries, graphs and following gates", "why_tests_cant": "continuous inputs, circuits of any length", "anchors": ["src/mqt/qudits/compiler/onedit/mapping_un_aware_transpilation/log_local_adaptive_decomp.py: LogLocAdaPass.transpile_gate, transpile"]}
{"id": "C80", "title": "State vectors of the wrong length are rejected", "statement": "Preparing a state from a vector whose length is not the dimension of the register fails. Vectors that are too short fail with IndexError. The pinned code violates the rest: a vector that is longer by less than the first dimension is compiled as if the surplus were not there.", "quantifier": "all registers and vectors", "why_tests_cant": "all lengths and contents", "anchors": ["src/mqt/qudits/core/micro_dd.py: build_decision_tree", "src/mqt/qudits/compiler/state_compilation/state_preparation.py: StatePrep.compile_state"]}
{"id": "C81", "title": "The test of normalisation keeps its tolerance", "statement": "verify_normalized_state accepts a vector exactly if its squared norm is within the tolerance of 1. Violation in the pinned code: the tolerance is meant to be 1e-6, but np.isclose adds its default relative tolerance, so that 1.1e-5 is accepted.", "quantifier": "all complex vectors", "why_tests_cant": "uncountably many vectors around the boundary", "anchors": ["src/mqt/qudits/compiler/state_compilation/retrieve_state.py:verify_normalized_state"]}
{"id": "C82", "title": "The QR decomposition of a two-qudit gate reproduces the gate", "statement": "For every unitary on two qudits EntangledQRCEX.execute ends and returns CEx and single-qudit gates whose product with the gate is the identity up to a global phase and the error of the thresholds, and its counters give the number of CEx. Violation in the pinned code: for a gate on lines in decreasing order the matrix is read with the lines exchanged.", "quantifier": "all dimensions of two or more, all unitaries and thresholds", "why_tests_cant": "continuous inputs, unbounded dimensions", "anchors": ["src/mqt/qudits/compiler/twodit/entanglement_qr/log_ent_qr_cex_decomp.py: EntangledQRCEX.execute"]}
{"id": "C83", "title": "The logical two-qudit pass replaces gates by gates that implement them", "statement": "For every circuit LogEntQRCEXPass replaces every two-qudit gate by gates on the same lines that implement it up to a global phase, and leaves the other gates alone. Violations in the pinned code: beyond qubits the daggered gates of the decomposition are not inverted, and transpile reverses every list again.", "quantifier": "all circuits, dimensions and unitaries", "why_tests_cant": "continuous inputs, circuits of any length", "anchors": ["src/mqt/qudits/compiler/twodit/entanglement_qr/log_ent_qr_cex_decomp.py: LogEntQRCEXPass.transpile_gate, transpile"]}
{"id": "C84", "title": "The physical two-qudit pass puts gates on the physical levels", "statement": "For every level graph PhyEntQRCEXPass replaces a two-qudit gate by gates that implement it on the physical levels of both qudits. Violations in the pinned code: a CEx whose target levels change their order keeps its angle, which is wrong unless sin phi = 0; the dagger flag of a CEx is dropped; for any other gate the gates act on the logical levels, because the permutations that are compiled are thrown away, and the phases stored in the graphs are lost.", "quantifier": "all dimensions, graphs, placements, CEx parameters and unitaries", "why_tests_cant": "continuous inputs, all placements of all dimensions", "anchors": ["src/mqt/qudits/compiler/twodit/entanglement_qr/phy_ent_qr_cex_decomp.py: PhyEntQRCEXPass.transpile_gate"]}
{"id": "C86", "title": "The labels of a histogram identify the basis states", "statement": "state_labels lists one label for each basis state in index order, made of the decimal levels of the qudits, and different states have different labels. Violated once qudits have more than 10 levels: labels are joined without separators and two states can carry the same label.", "quantifier": "all dimension lists", "why_tests_cant": "unbounded registers", "anchors": ["src/mqt/qudits/visualisation/plot_information.py:state_labels"]}
{"id": "C88", "title": "Noise on the decision diagram backend", "statement": "For every circuit, noise model and random numbers, the circuit the decision diagram backend simulates in a noisy shot is the original one with, directly behind each gate, the errors that were drawn: per noise mode a flip and a phase with the given probabilities, on exactly the lines the mode selects, between the levels the gate works on; without noise for the tags or with probability zero the circuit is unchanged; a noise that fits the circuit never raises and every shot is a unit vector. Violated: physical noise is refused, local noise does not reach the controls of a controlled gate, its control noise goes to the target, and the flip behind a rotation is not the flip of the other backend.", "quantifier": "all circuits, noise models and random numbers", "why_tests_cant": "random outcomes and circuits unbounded", "anchors": ["src/python/bindings.cpp:parse_noise_model,generateCircuit", "src/mqt/qudits/simulation/backends/misim.py"]}
{"id": "C89", "title": "Decision diagrams are exact", "statement": "The operations on decision diagrams are those on the vectors and matrices the diagrams stand for: sum, matrix times vector, matrix times matrix, conjugate transpose, identity, gate on one register with or without a control, reading the amplitudes; sharing nodes or failing to share them changes nothing.", "quantifier": "all registers, diagrams and pointer identities", "why_tests_cant": "all diagrams of all depths", "anchors": ["include/dd/MDDPackage.hpp:normalize,makeDDNode,add2,multiply2,conjugateTranspose,makeGateDD,makeIdent,makeZeroState,getVectorFromDD"]}
{"id": "C85", "title": "Reference simulation and verification of compiled sequences", "statement": "For every register and every gate list, the small simulators shipped with the compiler return the matrix of the circuit and its final state, the latter equal to what the tensor network simulator returns, and with a placement of levels the single-qudit version starts in the physical level of |0>. The verifier of a gate sequence against a target answers for every sequence of arrays of the register's size; it says yes only if target, initial placement and sequence take every basis state to itself placed by the final placement, up to one common nonzero factor (a phase if the matrices are unitary) and an error of 1e-4 of it, and it says yes whenever they do so within 1/20001 of the factor. Violated at the pinned commit in three ways: the placed simulation never returns for a second qudit, the placements are silently ignored unless node list, initial and final map are all given, and a two-qudit sequence that contains the array of a single-qudit gate raises ValueError instead of an answer.", "quantifier": "all registers, gate lists, targets, sequences of matrices and level placements", "why_tests_cant": "A test checks a few sequences; soundness of the answer has to hold for every matrix, every permutation of levels and every near miss around the tolerance.", "anchors": ["src/mqt/qudits/compiler/compilation_minitools/naive_unitary_verifier.py: mini_unitary_sim, mini_sim, phy_sdit_sim, UnitaryVerifier.__init__, get_perm_matrix, verify"]}
{"id": "C92", "title": "The sparsity objective measures sparsity", "statement": "For every array of at least two entries that are not all zero, the sparsity measure of the two-qudit sparsifier lies between 0 and 1, is 0 exactly if one entry is nonzero, is 1 exactly if all entries have the same magnitude, and depends neither on a common nonzero factor nor on the order of the entries; all other arrays are rejected with a ValueError. The density is the share of entries above 1e-8. The objective that is minimised is defined and between 0 and 1 for every unitary and all angles. Violated at the pinned commit for the objective as a whole: it changes with the global phase of the matrix, because it is computed from |re|+|im| instead of the modulus.", "quantifier": "all arrays of entries, unitary matrices, pairs of dimensions and parameter lists", "why_tests_cant": "Bounds and the cases of equality of a norm inequality hold for uncountably many arrays; a test only evaluates a few.", "anchors": ["src/mqt/qudits/compiler/twodit/variational_twodit_compilation/sparsifier.py: density, manhattan_norm, frobenius_norm, compute_f, objective_function"]}
{"id": "C91", "title": "The physical adaptive pass compiles every gate onto the device", "statement": "For every circuit PhyLocAdaPass ends and replaces each single-qudit gate by rotations between coupled levels and virtual rotations that implement it on the physical levels, and the placement of the levels it records in the backend is the one in force after the gates. It does so if all levels of the line are coupled. The pinned code violates it otherwise: the recorded placement and the old one are exchanged (the gates implement the unitary from the recorded placement to the old one), and a gate with a nonzero entry of at most 1e-18 can be dropped.", "quantifier": "all circuits, dimensions up to 1000, unitaries and connected level graphs", "why_tests_cant": "unbounded search over continuous inputs, circuits of any length on any device graph", "anchors": ["src/mqt/qudits/compiler/onedit/mapping_aware_transpilation/phy_local_adaptive_decomp.py: PhyLocAdaPass.transpile_gate, transpile, PhyAdaptiveDecomposition.execute, z_extraction, dfs", "src/mqt/qudits/compiler/onedit/local_operation_swap/swap_routine.py: cost_calculator, graph_rule_update, graph_rule_ongate, gate_chain_condition"]}
{"id": "C87", "title": "The text drawing shows the circuit", "statement": "draw_qudit_local prints one row per qudit, in order, with one cell per instruction in circuit order; a single-qudit gate is shown on its own line by class, levels and angles, the picture can be read back, and each gate is shown on the lines it acts on. Violations in the pinned code: all gates on several qudits are drawn alike on every line, and a line that a gate does not act on carries the same sign as a line of an entangling gate; daggers are not shown; the two levels of a rotation are not separated (levels 1, 234 and 12, 34 look alike); a VirtRz with an integer angle ends the drawing with AttributeError.", "quantifier": "all circuits, numbers of qudits, parameters and number formats", "why_tests_cant": "injectivity of a text format over all gate lists", "anchors": ["src/mqt/qudits/visualisation/drawing_routines.py: draw_qudit_local"]}
{"id": "C90", "title": "Custom and random gates are one fixed unitary", "statement": "A custom gate is accepted only with a unitary matrix of the size of its lines; whatever was read or daggered before, reading a custom or random gate gives the same matrix every time, and after dag() its inverse. Violations in the pinned code: every number array is accepted whatever its size and entries; None and objects that are not arrays are accepted, the gate then reads as None and raises AttributeError once daggered; a random gate is sampled anew at every read, so two reads differ and the dagger is not the inverse.", "quantifier": "all matrices, dimensions, programs with any number of gates and histories of reads and daggers, all sample sequences", "why_tests_cant": "histories of unbounded length, continuous samples", "anchors": ["src/mqt/qudits/quantum_circuit/gates/custom_one.py: CustomOne", "src/mqt/qudits/quantum_circuit/gates/custom_two.py: CustomTwo", "src/mqt/qudits/quantum_circuit/gates/custom_multi.py: CustomMulti", "src/mqt/qudits/quantum_circuit/gates/randu.py: RandU.__array__"]}
{"id": "C93", "title": "Compilation from end to end", "statement": "compile_O0, compile_O1 and compile_O2 turn a circuit of local, CEx and two-qubit gates into one that, run on the physical levels named by the recorded mapping, does to every state what the given circuit does on the logical levels, up to one global phase and an error bounded by the sum of the thresholds of the code; the compiled circuit consists of R, Rz, Rh, VirtRz and CEx gates (at level O0 gates on three or more qudits are left as they are); the registers are kept, the mapping is recorded per qudit, and the device is left ready for the next program. (Violated by the pinned code for daggered CEx gates, and at level O2 for two local gates in a row on a qudit, whose phases are put on the wrong side of the rotations.)", "quantifier": "all devices with connected level graphs, all placements of the levels, all circuits (any length) of the supported gates, all input states, all answers of the shortest path and linear algebra libraries that meet their contracts, all sufficiently large search depths", "why_tests_cant": "Tests compile a few circuits on one backend; the claim composes pass dispatch, merging, look-ahead, search, routing and stored phases over unbounded circuits, arbitrary unitaries and all states.", "anchors": ["src/mqt/qudits/compiler/dit_compiler.py:QuditCompiler.compile_O0", "src/mqt/qudits/compiler/dit_compiler.py:QuditCompiler.compile_O1", "src/mqt/qudits/compiler/dit_compiler.py:QuditCompiler.compile_O2", "src/mqt/qudits/compiler/onedit/mapping_aware_transpilation/phy_local_qr_decomp.py:PhyLocQRPass.transpile_gate", "src/mqt/qudits/compiler/onedit/mapping_aware_transpilation/phy_local_adaptive_decomp.py:PhyLocAdaPass.transpile_gate", "src/mqt/qudits/compiler/twodit/entanglement_qr/phy_ent_qr_cex_decomp.py:PhyEntQRCEXPass.transpile_gate", "src/mqt/qudits/compiler/onedit/local_operation_swap/swap_routine.py"]}
{"id": "C94", "title": "The built-in primitives of variational compilation entangle as much as their dimensions allow", "statement": "The entangling gate that variational compilation places between the rows of local gates is a maximal entangler where it can be: with ansatz LS, for two qudits whose smaller one has two, three or four levels, some pair of unentangled states is taken to a maximally entangled state (the smaller qudit alone is fully mixed). For two equal qudits with five or more levels LS reaches maximal entanglement at no angle at all. With ansatz MS, both qudits at level 0 are taken to a state in which each qudit alone is an even mixture of levels 0 and 1; this is maximal exactly if one of the two is a qubit, and on two qudits with three or more levels no pair of states becomes maximally entangled.", "quantifier": "all dimensions of the two qudits, all angles of LS (for the limit), all pairs of input states, all dimensions of the circuit the gate is put into", "why_tests_cant": "that no pair of states becomes maximally entangled ranges over a continuum of states and angles, and the positive claim over all dimensions of the larger qudit", "anchors": ["src/mqt/qudits/compiler/twodit/variational_twodit_compilation/ansatz/ansatz_gen.py:ms_ansatz,ls_ansatz", "src/mqt/qudits/compiler/twodit/variational_twodit_compilation/ansatz/instantiate.py:create_ms_instance,create_ls_instance", "src/mqt/qudits/quantum_circuit/gates/ls.py:LS", "src/mqt/qudits/quantum_circuit/gates/ms.py:MS"]}
{"id": "C95", "title": "Branch-wise approximation of a decision tree removes exactly the improbable branches", "statement": "dd_approximation with a tolerance makes exactly those amplitudes of the represented state zero whose path contains a branch that is taken with a conditional probability below the tolerance; all other amplitudes, including the norm kept in the root, stay as they were, and every inner node is normalised again. The squared norm of what is lost is at most the tolerance times the sum of the dimensions times the squared norm of the state. All qudits must have at least two levels: with a one-level qudit in the register the weights are not renormalised and amplitudes that should be kept are changed.", "quantifier": "all registers of qudits with two or more levels, all states (normalised or not), all tolerances", "why_tests_cant": "a recursion over trees of any depth and branching with renormalisation on the way back; the loss bound ranges over all states and tolerances", "anchors": ["src/mqt/qudits/core/micro_dd.py:dd_approximation", "src/mqt/qudits/core/micro_dd.py:normalize", "src/mqt/qudits/core/micro_dd.py:create_decision_tree"]}
{"id": "C96", "title": "Statistics of a decision tree", "statement": "After the reduction of the tree of any state, count_nodes_after returns a number between 1 and the number of nodes reported when the tree was created. unique_weights returns exactly the set of the weights of the nodes of the tree together with 1, for every state that is not zero everywhere. The count is no lower bound for the nodes in use: a node whose first branch is zero and whose other branches coincide is counted as if it ended there; and for the zero state the set of weights depends on which trees were built before.", "quantifier": "all registers, all states, all hash functions (with or without collisions)", "why_tests_cant": "the bound must hold for trees of any depth and whatever values Python's hash returns", "anchors": ["src/mqt/qudits/core/micro_dd.py:count_nodes_after", "src/mqt/qudits/core/micro_dd.py:unique_weights", "src/mqt/qudits/core/micro_dd.py:dd_reduction"]}
{"id": "C97", "title": "Gell-Mann gates form an orthogonal basis", "statement": "For every dimension d the generalised Gell-Mann gates (symmetric and antisymmetric for each pair of levels, diagonal for each level but 0) have Hermitian, traceless matrices, the trace of the product of two of them is 2 if they are the same and 0 otherwise, and every d x d matrix M equals tr(M)/d times the identity plus half the sum of tr(G M) G over the family. A level outside the qudit should be refused when the gate is created (the pinned code accepts it, and reading the matrix raises IndexError), and a gate of a circuit should be unitary (on three or more levels the symmetric one is not).", "quantifier": "all dimensions, all members of the family, all matrices", "why_tests_cant": "orthogonality and completeness are statements about all pairs in all dimensions and about all matrices", "anchors": ["src/mqt/qudits/quantum_circuit/gates/gellmann.py:GellMann"]}
{"id": "C98", "title": "Numbers of the misim simulator stay within the tolerance", "statement": "The misim simulator replaces every number that occurs in a simulation by one from a table. Whatever was stored, released and collected before, the replacement differs from the number by at most the tolerance in the real and in the imaginary part, two different numbers of the table are more than the tolerance apart, a number that was once stored is found again unchanged after any further lookups, a number that is in use survives every garbage collection, and products and quotients of numbers differ from the exact ones by at most twice the tolerance times the size of the operands. Away from the border of a bucket the replacement is the nearest number of the table. The replacement should depend only on the number: it does not (a number can get another replacement after further numbers were stored; at the border of a bucket it need not be the nearest one; -tolerance becomes a zero with a sign that is not recognised as zero).", "quantifier": "all sequences of lookups, reference changes and garbage collections, all numbers, all tolerances and table sizes with 2 * tolerance * size < 1 (the settings of the source satisfy it)", "why_tests_cant": "the table is a mutable structure whose answers depend on the whole history; a collision or a border case needs numbers within 1e-13 of each other", "anchors": ["include/dd/ComplexTable.hpp:lookup", "include/dd/ComplexTable.hpp:findOrInsert", "include/dd/ComplexTable.hpp:garbageCollect", "include/dd/ComplexNumbers.hpp:lookup", "include/dd/ComplexNumbers.hpp:mul", "include/dd/ComplexNumbers.hpp:div"]}
{"id": "C99", "title": "Sharing and caching do not change what the misim simulator computes", "statement": "The misim simulator keeps one copy of equal parts of a state or gate and remembers results of additions, products and adjoints in tables with fixed places, overwriting older entries. For every circuit, noise and sequence of random numbers, what it returns (the state vector or the exception) is what it would return if nothing was shared and nothing was remembered; in particular it is the state the circuit produces, and it does not depend on the hash functions, that is, on which results happen to be remembered, found or overwritten.", "quantifier": "all registers, circuits, noise models and random draws; all hash functions of all tables; weights as exact complex numbers, tolerance 0", "why_tests_cant": "a wrong cache hit needs a particular history of collisions, and the number of histories is unbounded", "anchors": ["include/dd/UniqueTable.hpp:lookup", "include/dd/ComputeTable.hpp:lookup", "include/dd/UnaryComputeTable.hpp:lookup", "include/dd/MDDPackage.hpp:makeDDNode", "include/dd/MDDPackage.hpp:add2", "include/dd/MDDPackage.hpp:multiply2", "include/dd/MDDPackage.hpp:conjugateTranspose", "src/python/bindings.cpp:ddsimulator"]}
{"id": "C100", "title": "The memory of the misim simulator stays consistent", "statement": "After every gate of every circuit: no two nodes in memory have the same register and the same edges, so two pointers are equal exactly if the parts of the state or gate behind them are equal; every edge leads to the terminal or to a node in memory one register below; a node that is handed out for reuse is not in use and is listed for reuse only once; a node marked as identity is the identity matrix and a node marked as symmetric is a symmetric matrix. Checking a new matrix should never fail: a matrix with a part off the diagonal that is not symmetric makes it throw, because the transposed matrix is written into an empty vector; no circuit of the binding builds one.", "quantifier": "all registers, circuits and hash functions; every state of the memory reached in a simulation", "why_tests_cant": "an invariant of a mutable, shared structure over all histories of insertions", "anchors": ["include/dd/UniqueTable.hpp:lookup", "include/dd/UniqueTable.hpp:getNode", "include/dd/UniqueTable.hpp:returnNode", "include/dd/MDDPackage.hpp:checkSpecialMatrices", "include/dd/MDDPackage.hpp:transpose", "include/dd/MDDPackage.hpp:makeDDNode"]}
{"id": "C101", "title": "The costs a QR decomposition reports are those of its gates", "statement": "QrDecomp.execute and PhyQrDecomp.execute return two costs beside the gates. For every unitary and every usable level graph, the logical and the physical decomposition report the same two costs; the total cost is at least the cost of the rotations emitted (pulses for routing and their way back included) and at most the algorithmic cost; it equals the cost of the rotations when neighbouring levels are coupled and every level can be driven; both are zero exactly if no rotation is emitted.", "quantifier": "all dimensions (below 10^8 for the comparison of the two costs), unitary matrices, thresholds, level graphs and shortest-path choices", "why_tests_cant": "continuous inputs, unbounded dimension and graphs", "anchors": ["src/mqt/qudits/compiler/onedit/mapping_un_aware_transpilation/log_local_qr_decomp.py: QrDecomp.execute", "src/mqt/qudits/compiler/onedit/mapping_aware_transpilation/phy_local_qr_decomp.py: PhyQrDecomp.execute", "src/mqt/qudits/compiler/onedit/local_operation_swap/swap_routine.py: cost_calculator, route_states2rotate_basic"]}
{"id": "C102", "title": "A program that uses the decision diagram package directly gets what it means", "statement": "A program holds any number of states in one package and, in any order, makes basis states, applies (multiply) gates with any controls built by makeGateDD, adds states, and reads single amplitudes by string or by levels, the vector, printed amplitudes, fidelities, node counts and matrices. Whatever was shared, cached or overwritten in the tables before, for all hash functions, every operation succeeds and every value read is that of the state as a function from levels to amplitudes; makeBasisState throws when a level is missing or too large.", "quantifier": "all programs (lists of operations), register dimensions, gate matrices and hash functions", "why_tests_cant": "unbounded histories of shared memory, collisions in the compute tables, continuous matrices", "anchors": ["include/dd/MDDPackage.hpp: makeBasisState, makeGateDD, multiply, add, getValueByPath, getVector, printVector, nodeCount, getVectorizedMatrix", "include/dd/ComputeTable.hpp: insert, lookup", "include/dd/UniqueTable.hpp: lookup"]}
{"id": "C103", "title": "innerProduct and fidelity", "statement": "innerProduct(x, y) should be the inner product of the two states (up to which argument is conjugated) and fidelity its modulus squared. The fidelity is right for all states; the inner product is the sum of x conj(y) turned by twice the phase of an amplitude of y, so it is right if y has real amplitudes, and wrong otherwise: for |0> and i|0> both orders give i although they have to be conjugates.", "quantifier": "all sessions, pairs of states in them and hash functions", "why_tests_cant": "all states and all histories of operations on the same package; a few states with real amplitudes would not show the wrong phase", "anchors": ["include/dd/MDDPackage.hpp: innerProduct, fidelity"]}
{"id": "C104", "title": "Diagrams are canonical", "statement": "In one package two states are equal edges (operator==) exactly if they are the same state, however they were made. nodeCount is one plus the number of different non-zero states, up to a factor, that the levels of the top registers leave below, so it is the same for proportional states in all packages, programs and hash functions.", "quantifier": "all sessions, states in them and hash functions", "why_tests_cant": "equality of diagrams has to hold for all pairs of histories that lead to the same state", "anchors": ["include/dd/MDDPackage.hpp: nodeCount, makeDDNode, normalize", "include/dd/Edge.hpp: operator==", "include/dd/UniqueTable.hpp: lookup"]}
{"id": "C105", "title": "Reading the matrix of a gate", "statement": "getVectorizedMatrix lists the matrix of a gate with controls in the order of the diagram, and getValueByPath for a matrix should return a single entry. The former is right for all gates; the latter is right only in the first row: in every other row it throws std::out_of_range or returns 0, and it always throws when the top register is not in level 0 and the matrix is not zero.", "quantifier": "all sessions, dimensions, gate matrices, controls, rows and columns", "why_tests_cant": "all matrices and positions", "anchors": ["include/dd/MDDPackage.hpp: getVectorizedMatrix, getValueByPath"]}
{"id": "C106", "title": "Compilation with a list of passes chosen by the user", "statement": "compile(backend, circuit, names) with any list of known pass names should return a circuit that, run on the physical levels told by its recorded mappings, does what the program does, up to one phase and the errors of the decompositions, with the registers kept and the device ready for the next program. This holds for programs whose gates the responsible passes can take (any unitary on one qudit for the QR and adaptive passes, any gate on two qubits, daggers included, for LogEntQRCEXPass, those of C93 for PhyEntQRCEXPass; gates nobody is responsible for and the logical passes need levels placed on themselves), except that LogLocQRPass puts out the inverses of the local gates. A gate that no chosen pass takes is left on its logical levels although the recorded mapping says they sit elsewhere.", "quantifier": "all lists of pass names, devices, placements of levels, register dimensions and programs", "why_tests_cant": "lists of names and programs are unbounded, gates and states continuous", "anchors": ["src/mqt/qudits/compiler/dit_compiler.py: compile", "src/mqt/qudits/compiler/onedit/mapping_un_aware_transpilation/log_local_qr_decomp.py: LogLocQRPass", "src/mqt/qudits/compiler/twodit/entanglement_qr/log_ent_qr_cex_decomp.py: LogEntQRCEXPass", "src/mqt/qudits/compiler/onedit/mapping_aware_transpilation/phy_local_adaptive_decomp.py: PhyLocAdaPass"]}
{"id": "C107", "title": "The noise that comes with the fake devices", "statement": "Each of the three fake ion traps should come with a noise model that covers the circuits compiled for it. Building the device never fails and its model holds exactly the listed rates; after a gate on one qudit with a listed tag one random draw decides a generalised Pauli error at 0.001 (0.03 for phase rotations), after a cx, ls or ms four draws give depolarising noise of 0.109 on the first and 0.19 on the second qudit, after a csum every qudit of the circuit is touched; and inserting the noise into a circuit compiled at level O0, O1 or O2 always succeeds. The pinned code falls short: two-level Hadamard gates, which the two-qudit compilation itself puts out, and all other unlisted tags are noiseless, a csum, cx, ls or ms with added controls makes the insertion fail, and the dephasing rates of the models have no effect.", "quantifier": "all fake devices, tags, modes, gates, dimensions, programs, compilations and outcomes of the random draws", "why_tests_cant": "programs and random outcomes are unbounded; a sampled run cannot show which errors are impossible", "anchors": ["src/mqt/qudits/simulation/backends/fake_backends/fake_traps2three.py: __noise_model", "src/mqt/qudits/simulation/backends/fake_backends/fake_traps2six.py: __noise_model", "src/mqt/qudits/simulation/backends/fake_backends/fake_traps3six.py: __noise_model", "src/mqt/qudits/simulation/noise_tools/noisy_circuit_factory.py: generate_circuit"]}
{"id": "C108", "title": "Tensor products and extensions of matrices in the decision diagram package", "statement": "The tensor product of two matrix diagrams should be the diagram of the tensor product of their matrices, and extending a gate by h registers on top and l at the bottom should give the gate with identities there. On registers of one size this holds whenever a result is returned and no identity inside the upper matrix has a factor in front of it, for diagrams of any size; for every other upper matrix the result is exactly the product with those factors replaced by one. A result is returned for every gate of the package if the lower matrix is marked symmetric, for every lower matrix if the upper one is zero off its diagonals, and for every extension on top. The pinned code falls short: the product of X and a matrix that is not symmetric, such as Y, throws std::out_of_range, a factor in front of an identity is lost, so that Z on the upper of two qubits extended by a qubit below becomes the identity, and on registers of different sizes the identities put on top have the wrong size or are refused.", "quantifier": "all register sizes, numbers of registers, matrix diagrams, rows and columns", "why_tests_cant": "diagrams and registers are unbounded, and no test of the project calls these functions", "anchors": ["include/dd/MDDPackage.hpp: kronecker, kronecker2, extend, makeIdent"]}
{"id": "C109", "title": "A call of a gate method adds one gate that records the call", "statement": "Calling a gate method of a circuit either raises and leaves the circuit as it was, or adds exactly one gate at its end. That gate has the lines of the call in their order, the dimensions of those lines, the controls of the call, the parameters of the call, and is not inverted. The two levels given to r, rz, rh, noisex or noisey are accepted exactly when they are two different levels of the qudit; otherwise the call raises an AssertionError. The pinned code falls short for the parameters: given as a tuple they are dropped without an error (and replaced by defaults for cx), and a level of virtrz that the qudit does not have is dropped without an error.", "quantifier": "all circuits, methods, lines, parameters and controls", "why_tests_cant": "tests call each method with a few literals on a few circuits; the claim is about every method, dimension and argument", "anchors": ["src/mqt/qudits/quantum_circuit/circuit.py: add_gate_decorator, x, z, h, s, r, rz, rh, virtrz, noisex, noisey, pm, cu_one, cu_two, cu_multi, csum, randu, cx, ls, ms, gellmann", "src/mqt/qudits/quantum_circuit/gates: validate_parameter"]}
{"id": "C110", "title": "Spreading an excitation shares it equally among the registers", "statement": "spread2, spread3 and spread5 of the decision diagram package take a state in which the first of the given registers is at level 0 or 1 and the others are at level 0. They leave the amplitudes with all of them at level 0 as they are. They share the amplitude with the first at level 1 equally: each basis state with exactly one of the k registers at level 1 gets it times 1/sqrt(k). No other basis state gets an amplitude. The registers may lie anywhere, and the state of the other registers is arbitrary. With too few registers the call does not return a state. The pinned code falls short when the first register has a number of levels other than 2, 3 or 5: nothing is rejected and every amplitude becomes zero.", "quantifier": "all registers, all positions and orders of the lines, all states of the other registers, first register of 2, 3 or 5 levels (and any other number for the violation)", "why_tests_cant": "tests build one W state on a few registers; the claim is about every position of the lines and every entangled state of the rest", "anchors": ["include/dd/MDDPackage.hpp: spread2, spread3, spread5, csum", "include/dd/GateMatrixDefinitions.hpp: X3dag, X5dag, H3, H5"]}
{"id": "C111", "title": "States of some of the registers", "statement": "makeZeroState(n, start) and makeBasisState(n, state, start) of the decision diagram package return a state of the n registers from start on: its nodes belong to these registers, its amplitude is one for the requested levels and zero for all others. If there are not that many registers, both calls throw std::runtime_error. If a level is missing or too high, makeBasisState throws std::out_of_range. The pinned code falls short for start > 0: the levels are looked up at the number of the register instead of its place in the state, so a list with one level for each of the n registers is always rejected.", "quantifier": "all registers, all n and start, all lists of levels", "why_tests_cant": "tests only use start = 0; the claim is about every first register and every list of levels", "anchors": ["include/dd/MDDPackage.hpp: makeZeroState, makeBasisState"]}
{"id": "C112", "title": "Transposing a matrix in the decision diagram package", "statement": "transpose(e) should return the diagram of the transposed matrix. Whatever it returns is the transpose, for matrices on any registers, and it returns for every symmetric gate on the lowest register with any controls. The pinned code falls short: for every matrix that differs from its transpose the call throws std::out_of_range, because the new edges are written into an empty vector.", "quantifier": "all register sizes, all matrix diagrams; for the calls that return also all gates on the lowest register and all controls", "why_tests_cant": "the mark that makes the call return is computed from the whole diagram when its nodes are made; tests look at a few gates", "anchors": ["include/dd/MDDPackage.hpp: transpose, checkSpecialMatrices"]}
{"id": "C113", "title": "Slices of registers", "statement": "register[a:b] of a quantum or classical register gives the lines the circuit uses for the positions a to b-1 of the register, in order, after any history of operations on the circuit. A slice that leaves the register raises KeyError. The pinned code falls short of what Python users expect of slices: register[:b], register[a:] and register[:] raise TypeError, a step is ignored without an error, and negative ends do not count from the end, so register[0:-1] is empty.", "quantifier": "all histories of circuit operations with fresh register labels, all registers of the circuit, all slices", "why_tests_cant": "the lines depend on all registers appended before and on everything done with the circuit since; tests slice one register", "anchors": ["src/mqt/qudits/quantum_circuit/components/quantum_register.py:QuantumRegister.__getitem__", "src/mqt/qudits/quantum_circuit/components/classic_register.py:ClassicRegister.__getitem__"]}
{"id": "C114", "title": "Carriers of the Innsbruck machine", "statement": "The Innsbruck machine names, for two logical levels of one of its two qutrits, the carrier of the transition between the physical levels they sit on: 0 between the physical levels 0 and 1, 1 between 1 and 2, whatever levels were exchanged before on either line. It raises TypeError when there is no transition between the two or one of them is no level, and IndexError for a line it does not have. The numbers are read as logical levels: asked with the physical levels that compiled gates carry, the answer is wrong once levels were exchanged.", "quantifier": "all histories of exchanges of levels on both lines, all pairs of levels, all line numbers that are not negative", "why_tests_cant": "the answer depends on the whole history of exchanges the compiler made; there is no test of it", "anchors": ["src/mqt/qudits/simulation/backends/innsbruck_01.py:Innsbruck01.edge_to_carrier,energy_level_graphs", "src/mqt/qudits/core/level_graph.py:LevelGraph.swap_nodes"]}
{"id": "C115", "title": "Files with saved results", "statement": "Saving states or shots to a file leaves the file with exactly these results, one row per state or shot in order (shots numbered from 0), whatever was in it before and whatever is saved to other files later, successfully or not. Saving no states raises IndexError, a file that cannot be opened FileNotFoundError, and no file changes. A save that raises should leave earlier results alone. Violated: the file is emptied before the rows are converted, so a state of another shape or a shot that is no integer costs everything saved there before.", "quantifier": "all histories of saves, files, vectors, shots and failures", "why_tests_cant": "all histories and points of failure; tests save once to one file", "anchors": ["src/mqt/qudits/simulation/save_info.py:save_full_states,save_shots"]}
{"id": "C116", "title": "Saved circuits with custom gates", "statement": "Saving a circuit writes its text to the named file, and for every custom gate a file with the matrix of this gate, whose name is in the line of the gate; no other file changes, and asking for the text of a circuit that is not being saved writes no file. Violated in three ways: the files are told apart by four random letters, so two custom gates of one name can share a file and then both name the matrix of the second; with the empty path no matrix is saved and nothing is said; a save that fails leaves the path in the circuit, so that from then on asking for its text saves files or raises.", "quantifier": "all circuits, matrices, paths, random letters and contents of the directory", "why_tests_cant": "all circuits and all random letters; a collision is rare and silent", "anchors": ["src/mqt/qudits/quantum_circuit/circuit.py:QuantumCircuit.save_to_file,to_qasm", "src/mqt/qudits/quantum_circuit/gate.py:Gate.return_custom_data,__qasm__"]}
