# A Rocq model of mqt-qudits

Source modelled: cda-tum/mqt-qudits at the pinned commit in /repo (Python package
`src/mqt/qudits`, plus the C++ binding `src/python/bindings.cpp` where noted).
Nothing was executed: the model was written by reading the source.

## 1. Method

* Every modelled function is a total Gallina function that mirrors its branches; a
  Python exception is a value (`Err …`), never a default.
* Every area has four kinds of files under `rocq/theories/<Area>/`:
  `*Model.v` (definitions only, each with a comment citing file and lines),
  `*Spec.v` (the small independent specification used in the statements),
  `*Proofs.v` (lemmas), `*Props.v` (property theorems only, closed by `exact`,
  with `Print Assumptions`, and `Example`s showing the hypotheses are met).
* If the code violates a property, the violation is a theorem `…_refuted`
  (a concrete witness), next to the strongest theorem that does hold.
* A theorem that covers only part of a property is called `…_partial`.

## 2. Trusted base

* Coq 8.16.1's kernel (and `vm_compute`), re-checked by `coqchk`.
* Axioms: only those of Coq's standard library real numbers
  (`ClassicalDedekindReals.sig_forall_dec`, `ClassicalDedekindReals.sig_not_dec`,
  `FunctionalExtensionality.functional_extensionality_dep`, and
  `Classical_Prop.classic` where it shows up),
  and only for theorems about gate matrices and real angles. Theorems about lists,
  circuits, lanes, graphs, noise and parsers are axiom free. The exact list
  printed for each theorem is in section 5.
* The reading of the source: section 4 says what is modelled and what is not.
* Idealisations that apply everywhere: floats are exact real numbers (IEEE rounding
  is not modelled; numeric tolerances such as 1e-8 are either parameters of the model
  or replaced by an exact test, as stated in the definition's comment); Python ints are
  `Z`/`nat`; numpy arrays are functions or lists; random choices, regex matching inside
  networkx/scipy/numpy, wall clock and optimisers are arguments (oracles).

## 3. Properties: plan

| id | model | method |
|----|-------|--------|
| C01, C59 | `Circuit/CircuitModel` sitemap as association list | invariant by induction over appends, bijection |
| C02 | `Circuit/CircuitModel` op histories | invariant by induction; witness for out-of-range `replace_gate` |
| C03 | `Circuit/CircuitModel` | equality with the fresh circuit up to mappings; witness |
| C04 | `Circuit/GateModel` control with error values | case analysis; iff characterisation; witnesses |
| C05 | `Circuit/GateModel` | sorted-list argument, iff with a gap specification; witness |
| C06 | `Gates` dag flag + conjugate transpose | algebra; witness |
| C07-C15 | `Gates/*` matrices over own complex numbers on stdlib R | matrix algebra, sums over the basis, roots of unity |
| C16 | `Base/Radix`, `State/RetrieveModel`, `Gates/FactoryModel` | induction on the dimension list |
| C17, C18 | `Gates/FactoryModel` | entrywise characterisation through the mixed radix digits |
| C19, C20 | `Qasm/*` string level printer and line parser | round trip by induction; witnesses |
| C21-C24, C55 | `Lanes/*` | trace equivalence (commuting disjoint gates) + permutations |
| C25, C26, C56-C58, C62 | `Levels/*` | invariants on the coupling relation; induction over the path; diagonal matrices commuted through rotations |
| C27, C28, C75, C76 | `Local/Qr*` | elimination invariant over the columns of a complex matrix; the list of pulses as a product of two-level matrices |
| C29, C78, C79 | `Local/Ada*` (search over `Local/Tree*`) | induction over the depth of the search; cost ledger; termination measure |
| C91 | `Local/Phy*` (model in `Local/AdaModel`) | pulses and stored phases as one change of frame per search step; induction over the path and over the circuit; witnesses |
| C30 | `Compiler/Tree*` | structural induction over rose trees, histories of add/mark |
| C77 | `Local/Tree*` | structural induction over rose trees |
| C31, C32 | `Passes/PhasesModel` | propagation: matrix identities and induction over the line; removal: structural reading of the index scan, exchange of disjoint gates, phase gates are diagonal |
| C33, C60, C61 | `Gates/AnglesModel`, `Gates/SingleModel` | real arithmetic, distance to a lattice; two-level matrices; witness |
| C34, C35 | `State/Dd*` | induction over the decision tree |
| C36, C80 | `State/Prep*` | induction over the tree, product of controlled rotations applied to the zero state; witnesses |
| C37, C81 | `State/Retrieve*` | list induction, sums over the support |
| C38, C39 | `Noise/NoiseModel` (heap of objects for aliasing) | invariant by induction over call histories; witnesses |
| C40, C63 | `Noise/InsertModel` | subsequence with provenance; random choices as an oracle; density matrices |
| C41, C66 | `Sim/ShotsModel` | arithmetic of the chunks; seeds as functions of time and process id |
| C42-C44, C64, C65 | `Sim/BackendModel`, `Sim/JobModel` | decision logic; streams of statuses |
| C45, C69 | `Compiler/DispatchModel` | fold over passes and instructions |
| C111 | `Misim/Part*` | makeZeroState and makeBasisState with a first register; every layer has one edge that is not zero, induction over the layers |
| C112 | `Misim/Trans*` | transpose returns marked nodes and throws for others; a marked node is a symmetric matrix by induction over the registers, and for gates on register 0 the converse |
| C113 | `Circuit/New*` | slices of registers, constructor calls with any number of arguments (C01); from the invariant of the local maps of registers (C01, C59) |
| C114 | `Levels/Carrier*` | carriers of the Innsbruck machine after any history of exchanged levels; from the invariance of the couplings of physical levels (C25) |
| C115 | `Sim/Save*` | files after any history of saves, also failing ones; a file changes only by calls about it, by induction over the history |
| C116 | `Qasm/Files*`, `Qasm/ReadFileProofs` | files written when a circuit with custom gates is saved, and how a line with a file name is read; by induction over the gates, and from the line theorem of C19 |
| C110 | `Misim/Spread*` | spread2, spread3, spread5 on the diagrams of `DdModel`; the gates as maps of states, then every amplitude followed back through the gates: it only depends on the levels of the lines, which are finitely many |
| C109 | `Qasm/Method*` | the gate methods of the circuit over the constructors of C20; case analysis over the methods |
| C108 | `Misim/Kron*` | kronecker and extend on the diagrams of C50; induction over the upper diagram, one case for the nodes marked as identities; the check of new nodes (which may throw) is part of the model; witnesses |
| C107 | `Compiler/DeviceNoise*` | the noise models run through the model of C39; the insertion of C40 per tag; every compiled gate stays on the lines of the gate it comes from; witnesses |
| C106 | `Compiler/Chosen*` | the lemmas of C93 pass by pass, with the dispatch of C45, for an arbitrary list of names; witnesses |
| C93 | `Compiler/Whole*` | composition of the passes: operators on the register, invariants over the device, norm bounds that add up; witnesses |
| C94 | `Variational/Prim*` | explicit entries of the two gates; uniform superpositions and their reduced density matrices; impossibility from the weights of the second qudit |
| C95 | `State/Stat*` | the approximation is trimming followed by renormalisation; weights on a path against conditional probabilities; loss by induction on the tree |
| C96 | `State/Stat*` | induction on the tree; witnesses |
| C97 | `Gates/Gell*` | explicit entries; finite sums by induction on the dimension; witnesses |
| C98 | `Misim/Table*` | the table of numbers as a state machine; invariant over all histories; numbers just above the tolerance apart as witnesses |
| C99, C100 | `Misim/Node*` | the package as a state machine over node tables, compute tables, flags and a free list; refinement to the diagrams of `DdModel` with an invariant kept by every operation; the throwing transpose as a witness |
| C101 | `Local/QrCost*` | the two costs of `QrModel.execute`; the two decompositions step in lockstep (simulation), and an invariant of the loop relates the costs to the gates emitted |
| C102-C105 | `Misim/Session*`, `Misim/Canon*`, `Misim/Controls*` | programs over the memory of `NodeModel`; every state is represented by a normalised diagram (invariant over all operations); normalised diagrams are canonical (induction on the registers); the walk of nodeCount visits each sub-diagram once; witnesses |
| C46, C70 | `Variational/SearchModel` | binary search invariant; explicit process-wide flag |
| C47, C48, C71, C73, C74 | `Variational/AnsatzModel` | list splitting, products of matrices; witnesses |
| C72 | `Variational/FidelityModel` | Cauchy-Schwarz over own complex numbers |
| C49, C82-C84 | `Ent/*` | matrix algebra on the joint space of two qudits; elimination invariant; witnesses |
| C85 | `Verify/*` | product of the sequence, Gaussian-free use of an inverse oracle, soundness and completeness around the tolerance; witnesses |
| C92 | `Variational/Sparse*` | norm inequalities over lists of complex entries with their cases of equality; witness |
| C50, C88 | `Misim/Misim*` | gate matrices of the binding against the specification of C67; refinement of the loop to the evolution of the register |
| C89 | `Misim/Dd*` | induction over decision diagrams with arbitrary edge weights |
| C87 | `Visual/Draw*` | prefix code: unique reading by induction over the cells; congruence |
| C90 | `Gates/Source*` | induction over histories of reads and daggers; the sampler is an argument |
| C51, C52, C86 | `Visual/*` | sums over the basis; permutation matrices; digit strings |
| C53, C54 | `Gates/TwoModel` expm as the limit of its power series (`Base/Expm`) | two-projector closed form; witness |
| C67, C68 | `Sim/Tn*` | each network node acts on its fibres; reversal of axes |

No property of `properties.jsonl` is left without theorems.

## 4. What is modelled and what is not

### 4.1 Coverage

| source (under `src/mqt/qudits` unless noted) | modelled in | not modelled |
|---|---|---|
| `quantum_circuit/circuit.py`, `components/*register.py` | `Circuit/CircuitModel`, `Circuit/NewModel` (constructor, slices), `Qasm/MethodModel` (gate methods), `Qasm/QasmModel` (export, import), `Sim/*` (simulate) | file names and file system (text is the value read or written) |
| `quantum_circuit/gate.py`, `components/extensions/*` | `Circuit/GateModel`, `Gates/FactoryModel`, `Gates/ActsOn` | `from_qasm`-style stubs that return nothing |
| `quantum_circuit/gates/*.py` | `Gates/SingleModel`, `Gates/TwoModel`, `Gates/GellModel`, `Gates/SourceModel` (`custom_*.py`, `randu.py`) | the sampler of `randu.py` (an argument) |
| `quantum_circuit/qasm.py` | `Qasm/QasmModel` | Python's `eval` of parameter text (an argument); decimal printing of floats (an argument) |
| `core/lanes.py`, `compiler/naive_local_resynth` | `Lanes/LanesModel` | |
| `core/level_graph.py`, `onedit/local_operation_swap/*` | `Levels/LevelsModel` | `deep_copy_func` (values are immutable in the model); networkx internals (shortest path is an argument) |
| `core/dfs_tree.py` | `Compiler/TreeModel`, `Local/TreeModel` | printing |
| `core/micro_dd.py` | `State/DdModel`, `State/StatModel` | node numbering used for display, printing |
| `onedit/mapping_un_aware_transpilation/*`, `onedit/mapping_aware_transpilation/*` | `Local/QrModel`, `Local/AdaModel` | floating point rounding |
| `onedit/local_phases_transpilation/*` | `Passes/PhasesModel` | |
| `compiler/dit_compiler.py`, `compiler_pass.py` | `Compiler/DispatchModel`, `Compiler/WholeModel` | in the first what a pass does to one gate is an argument; the second puts in the passes of the other areas, without the swap passes and the variational pass, and with an exception for gates on three lines or more handed to a two-qudit pass |
| `compiler/state_compilation/*` | `State/PrepModel`, `State/RetrieveModel` | numpy's generator (an argument) |
| `twodit/blocks/*`, `twodit/entanglement_qr/*` | `Ent/BlockModel`, `Ent/PassModel` | `numpy.linalg.det`/`solve` (arguments with stated contracts) |
| `twodit/variational_twodit_compilation/*` | `Variational/*Model` | scipy's `dual_annealing`/`minimize` (arguments) |
| `compilation_minitools/*` | `Gates/AnglesModel`, `Ent/BlockModel`, `Variational/AnsatzModel`, `Local/*`, `Verify/VerifyModel` | `numpy.linalg.inv` (an argument with a stated contract) |
| `simulation/backends/*`, `jobs/*`, `qudit_provider.py`, `save_info.py` | `Sim/BackendModel`, `Compiler/DeviceNoiseModel`, `Sim/JobModel`, `Sim/ShotsModel`, `Sim/SaveModel`, `Levels/CarrierModel`, `Sim/TnModel` | HDF5 encoding, what numpy stores for one value (an argument); process scheduling (chunks and seeds are modelled); tensornetwork's contraction order |
| `simulation/noise_tools/*` | `Noise/NoiseModel`, `Noise/InsertModel` | |
| `src/python/bindings.cpp` | `Misim/MisimModel` | pybind11's conversions beyond the fields that are read |
| the C++ decision diagram package called by the binding | `Misim/DdModel` (add, multiply, adjoint, gate construction, amplitudes over edge-weighted diagrams), `Misim/TableModel` (the table of real numbers with its tolerance, buckets, reference counts and garbage collection, C98), `Misim/NodeModel` (node tables, compute tables, flags, free list; C99, C100), `Misim/SessionModel` (programs that use the package directly: basis states, gates with several controls, sums, inner products, fidelity, single amplitudes, node counts, matrices; C102-C105), `Misim/KronModel` (kronecker, extend; C108), `Misim/SpreadModel` (spread2, spread3, spread5; C110), `Misim/PartModel` (states of some of the registers; C111), `Misim/TransModel` (transpose; C112) | printing, node reference counts (no node is ever collected), the tolerance inside the diagram operations (0 in the theorems on `DdModel` and `NodeModel`; C98 treats the table by itself), 8-bit register sizes, dimensions above the fixed radix |
| `visualisation/mini_quantum_information.py`, `plot_information.py` | `Visual/VisModel` | matplotlib |
| `visualisation/drawing_routines.py` | `Visual/DrawModel` | `f"{x:.2f}"` (an argument) |

### 4.2 Violations of the stated properties found in the pinned code

Each line names the theorem that proves the violation of the model.

* Circuits: a repeated register label and a dimension list of the wrong length break the
  indexing, `QuantumCircuit(n)` has no qudits (`C01_*_refuted`); slices of registers need both ends and ignore the step
  (`C113_*_refuted`); a save that raises empties the file it was for (`C115_*_refuted`);
  saved matrices of custom gates can collide, are dropped for the empty path, and a failed save leaves the path set (`C116_*_refuted`); `replace_gate(-1, …)` breaks the count (`C02_replace_last_refuted`);
  `reset` keeps mappings (`C03_mappings_survive_reset_refuted`).
* Controls: level k is compared with the dimension of line k instead of the control's line
  (`C04_legal_rejected_refuted`, `C04_illegal_accepted_refuted`); the long-range flag is not
  updated by `control` (`C05_flag_stale_refuted`, `C67_control_keeps_the_flag_refuted`).
* Gates: `dag` twice stays daggered (`C06_dag_twice_is_original_refuted`); `Perm([0,0])` is accepted
  (`C15_repeated_level_refuted`); VirtRz drops integer angles (`C13_virtrz_integer_angle_refuted`);
  controlled matrices away from line 0 raise (`C18_*_refuted`); LS on decreasing mixed-dimension lines
  is wrong (`C53_ls_decreasing_targets_refuted`); zero rotations have a positive cost (`C60_zero_rotation_cost_refuted`);
  custom matrices are not checked and random gates change at every read (`C90_*_refuted`).
* QASM: daggers, parameters, noise gates, controls, custom gates, classical registers and a second
  round trip are lost (`C19_*_refuted`); text is dropped silently, also the controls of a gate that needs parameters and is written without them (`C20_*_refuted`).
* Lanes: controlled gates raise TypeError (`C21_controlled_refuted`), repeated objects are dropped
  (`C22_repeated_objects_refuted`), `next_is_local` is always false for entangling gates (`C23_next_is_local_refuted`).
* Level graphs: phases swapped by position instead of by node (`C56_node_order_refuted`), phases of a
  swapped graph cannot be read back (`C57_after_swap_refuted`), pulses with azimuth other than ±pi/2
  (`C58_update_azimuth_refuted`).
* QR compilation: `transpile` of the logical pass emits the inverse (`C27_refuted`), the physical pass undoes its own
  reversal (`C28_refuted`), stored phases are lost (`C75_refuted`).
* Adaptive compilation: entries just above the tolerance make the search fail (`C78_refuted`); the emitted list is the inverse
  and the second gate of a circuit meets a missing graph (`C79_*_refuted`). The physical search exchanges the old and the
  recorded placement and drops gates (`C91_direction_refuted`, `C91_dropped_refuted`).
* Search trees: `total_size` damages `size`, unsupported marks, `is_empty` (`C30_*_refuted`, `C77_*_refuted`).
* Phase passes: two runs, daggered gates and other classes (`C31_*_refuted`), controlled phase gates (`C32_controlled_refuted`).
* State preparation: states with zero branches and growing dimensions (`C36_*_refuted`), surplus entries ignored
  (`C80_refuted`), embedded W states with qudits of dimension 1 (`C37_embedded_refuted`), tolerance 1.1e-5 instead of 1e-6 (`C81_refuted`).
* Noise: negative/positive pairs and non-atomic bulk updates (`C38_*_refuted`), shared objects (`C39_*_refuted`), dephasing ignored,
  control and target modes (`C40_*_refuted`), the same noise in different processes (`C66_*_refuted`).
* Backends and jobs: name attribute (`C42_name_attribute_refuted`), cancelled jobs and base status (`C43_*_refuted`), options without
  effect (`C44_*_refuted`), ids and printed status (`C64_*_refuted`), sticky options, empty Innsbruck run (`C65_*_refuted`),
  distant controls (`C67_distant_control_refuted`).
* Compiler: ignored passes, resynthesis, controlled gates at O1/O2 (`C45_*_refuted`), larger graphs (`C69_larger_graph_refuted`);
  from end to end, daggered CEx gates and, at O2, the phases of a local gate followed by another (`C93_dagger_refuted`, `C93_O2_refuted`);
  with chosen passes, LogLocQRPass gives the inverse (`C106_inverse_refuted`) and gates without a pass stay on the logical levels (`C106_kept_refuted`).
* Fake devices: compiled two-level Hadamards have no noise, controlled entangling gates make the insertion fail, dephasing rates do nothing
  (`C107_hadamard_refuted`, `C107_unlisted_refuted`, `C107_controlled_refuted`, `C107_dephasing_refuted`).
* Tensor products of diagrams: a factor in front of an identity is lost, identities have the wrong size on mixed registers
  (`C108_factor_refuted`, `C108_gate_refuted`, `C108_mixed_refuted`).  The product of X and a matrix that is not marked
  symmetric, such as Y, throws, because the check of the new node transposes Y into an empty vector (`C108_throws_refuted`).
* Gate methods: parameters given as a tuple, and levels of virtrz outside the qudit, are dropped without an error
  (`C109_tuple_refuted`, `C109_cx_refuted`, `C109_virtrz_refuted`).
* spread2, spread3, spread5: a first register of other than 2, 3 or 5 levels makes the state zero
  (`C110_other_sizes_refuted`).
* makeBasisState with a first register other than 0 rejects every list of as many levels as the state has registers
  (`C111_list_of_n_refuted`).
* transpose throws for every matrix that is not symmetric (`C112_asymmetric_refuted`).
* Gell-Mann gates: levels outside the qudit, not unitary (`C97_*_refuted`).
* misim number table: the replacement of a number depends on what was stored before, is not always the nearest, and -tolerance becomes a signed zero (`C98_*_refuted`).
* misim matrices: checking a matrix with a node off the diagonal that is not symmetric throws std::out_of_range; no circuit of the binding builds one (`C100_transpose_refuted`).
* misim package used directly: the inner product does not conjugate the weight of the second state (`C103_refuted`), single matrix entries below the first row throw (`C105_entry_refuted`).
* Decision trees: one-level qudits and branch-wise approximation (`C95_one_level_refuted`), counted nodes and the shared zero node (`C96_*_refuted`).
* Variational compilation: primitives that are not maximal entanglers (`C94_ls_five_refuted`, `C94_ms_refuted`), silent failure (`C46_failure_refuted`), emitted order, lines, daggered primitive (`C48_*_refuted`),
  timer flag (`C70_*_refuted`), order after sparsification (`C73_order_refuted`), sum instead of product and qubit-only
  extension (`C74_*_refuted`), sparsity objective that depends on the global phase (`C92_phase_refuted`).
* Verifier: placed simulation of a second qudit never returns, placements ignored unless all are given, two-qudit
  sequences with single-qudit arrays raise (`C85_*_refuted`).
* Two-qudit compilation: dag sequences beyond qubits (`C49_undone_refuted`), reversed lines (`C82_reversed_refuted`), daggers
  and order (`C83_*_refuted`), dagger, permutation and phases of CEx (`C84_*_refuted`).
* Decision diagram backend: controls discarded, descending levels rejected, other gates and large qudits crash (`C50_*_refuted`),
  noise modes, spared controls, physical noise refused, flips (`C88_*_refuted`).
* Visualisation: single qudits and more than 10 levels are refused (`C51_density_refuted`), remapping goes the wrong way
  (`C52_direction_refuted`), ambiguous labels (`C86_labels_refuted`), lines, daggers and levels missing from the text drawing (`C87_*_refuted`).

### 4.3 Testing the theorems

`tools/mutate.py` applies one realistic edit to a copy of the model, rebuilds and reports the theorems that fail.
The results are in `seeded/LOG.jsonl`; lines that name tightened theorems show where a statement had been too weak.
`failed` lists the theorems whose own proof, or a lemma it uses, no longer goes through: a theorem in it need not have become
false, since a proof script can break on an equivalent edit. Survivors were examined by hand; most lines with failures were not.
`claim` names the property an edit was aimed at. In lines with `claim_as_seeded` the number first written there named a property none
of whose theorems failed, and `claim` carries the number of the property most of the failed theorems belong to, put in afterwards
by a script (by hand in the last batch). Up to two renumbered lines could not be matched and lack the field.

## 5. Axioms per theorem

Generated by `tools/project.py --axioms` from `Print Assumptions`.

**Closed under the global context (no axioms)** — 223 theorems:

`C01_sitemap_is_layout`, `C01_inverse_sitemap`, `C01_lines_are_all_used`, `C01_no_two_addresses_share_a_line`, `C01_dimensions`, `C01_register_indexing`, `C01_constructor`, `C01_duplicate_label_refuted`, `C01_dimension_mismatch_refuted`, `C02_instructions_and_count`, `C02_rejected_insertion_changes_nothing`, `C02_replace_consistent_iff`, `C02_replace_last_refuted`, `C03_reset_fresh_iff_no_mapping`, `C03_reset_is_fresh_start`, `C03_reset_fresh_except_mapping`, `C03_mappings_survive_reset_refuted`, `C59_classic_layout`, `C59_classic_inverse`, `C59_classic_count`, `C59_classic_positions_used`, `C59_classic_register_indexing`, `C04_rejected_leaves_gate_unchanged`, `C04_accepted_effect`, `C04_empty_is_noop`, `C04_constructor`, `C04_accepted_iff`, `C04_uniform_accepts_exactly_legal`, `C04_legal_rejected_refuted`, `C04_illegal_accepted_refuted`, `C04_malformed_accepted_refuted`, `C05_flag_at_construction`, `C05_check_long_range`, `C05_flag_stale_refuted`, `C01_register_constructor`, `C01_dims_constructor`, `C01_empty_constructor`, `C01_one_number_refuted`, `C113_slice`, `C113_classic_slice`, `C113_open_refuted`, `C113_step_refuted`, `C113_negative_refuted`, `C113_outside`, `C45_compiled_program`, `C45_returns_when_the_passes_do`, `C45_unknown_name`, `C45_one_pass_per_type`, `C45_nobody_excludes`, `C45_meaning`, `C45_level_O0`, `C45_level_O1`, `C45_level_O2`, `C45_levels_meaning`, `C45_optimisations_ignored_refuted`, `C45_resynthesis_refuted`, `C45_controlled_O2_refuted`, `C69_mapping_is_a_permutation`, `C69_mapping_of_a_fitting_graph`, `C69_mapped_qudits`, `C69_larger_graph_refuted`, `C30_lookup`, `C30_lookup_missing`, `C30_add`, `C30_add_missing`, `C30_total_size`, `C30_total_size_damages_size_refuted`, `C30_is_empty_refuted`, `C30_depth`, `C30_depth_missing`, `C30_retrieve_flags`, `C16_kth_state_has_value_k`, `C16_every_state_once`, `C16_dirac_to_basis_index`, `C16_dirac_rejects_bad_levels`, `C16_q0_q1`, `C10_prime_test`, `C10_accepted_iff_prime`, `C21_reassembly`, `C21_same_program`, `C21_any_meaning`, `C21_lane`, `C21_controlled_refuted`, `C22_each_object_once`, `C22_no_object_lost`, `C22_repeated_objects_refuted`, `C23_groups_partition_lines`, `C23_next_is_local`, `C23_next_of_unknown_gate`, `C23_next_is_local_refuted`, `C55_replace_in_lane`, `C114_initial`, `C114_no_level`, `C114_no_graph`, `C62_distance`, `C62_first_levels`, `C62_level_kinds`, `C25_constructor`, `C25_couplings`, `C25_log_phy_map`, `C25_swap_effect`, `C25_swap_twice`, `C25_unknown_node`, `C77_total_size`, `C77_depth`, `C77_is_empty_refuted`, `C88_tags`, `C88_controls_spared_refuted`, `C88_control_mode_refuted`, `C40_modes`, `C40_target_mode_refuted`, `C38_accepted`, `C38_history`, `C38_bulk`, `C38_bulk_atomic_refuted`, `C38_mixed_sign_refuted`, `C38_new_pair`, `C38_new_dynamic`, `C38_new_list`, `C39_first`, `C39_math_twice`, `C39_history`, `C39_call`, `C39_basis_gates`, `C39_shared_refuted`, `C39_changed_later_refuted`, `C31_intervals_are_runs`, `C32_only_phases_deleted`, `C32_initial_exactly`, `C32_trailing_exactly`, `C32_complete`, `C116_saved`, `C116_text`, `C116_read`, `C116_collision_refuted`, `C116_empty_path_refuted`, `C116_failed_save_refuted`, `C20_every_line_is_accounted_for`, `C20_every_statement_becomes_a_gate`, `C20_unterminated_statement_is_rejected`, `C20_block_comment`, `C20_classical_bits`, `C20_bracketed_parameters`, `C20_one_line_block_comment_refuted`, `C20_conditional_refuted`, `C20_second_gate_on_a_line_refuted`, `C19_exported_line`, `C20_register_with_dimensions`, `C20_register_of_qubits`, `C42_returned_exactly_when`, `C42_no_match`, `C42_ambiguous`, `C42_list`, `C42_list_all`, `C42_agrees_with_the_list`, `C42_names`, `C42_listed_names_resolve`, `C42_result_contains_the_request`, `C42_name_attribute_refuted`, `C44_constructor_options`, `C44_defaults`, `C44_noise_model_ignored_refuted`, `C44_run_options`, `C44_run_uses_the_options`, `C44_documented_options_refuted`, `C44_set_options_has_no_effect_refuted`, `C44_rejected_without_change`, `C44_unknown_rejected`, `C44_method_names_accepted_refuted`, `C65_ideal_run`, `C65_noisy_run`, `C65_few_shots`, `C65_innsbruck_refuted`, `C65_options_stay_refuted`, `C65_refused_options_stay_refuted`, `C43_ends_at_the_first_final_status`, `C43_returns_exactly_when`, `C43_times_out_exactly_when`, `C43_limit_bounds_the_wait`, `C43_cancelled_jobs_refuted`, `C43_cancelled_jobs_time_out_refuted`, `C43_is_final_and_non_final`, `C43_in_final_state_disagrees_refuted`, `C43_returned_jobs_have_no_status_refuted`, `C43_queries_of_returned_jobs_refuted`, `C43_queries`, `C64_result_is_the_last_set`, `C64_identity_is_kept`, `C64_ids_are_not_unique_refuted`, `C64_status_from_string`, `C64_status_from_other_strings`, `C64_values_are_different`, `C64_printed_status_refuted`, `C115_states`, `C115_shots`, `C115_others`, `C115_rejected`, `C115_states_lost_refuted`, `C115_shots_lost_refuted`, `C41_flags`, `C41_saved`, `C41_not_saved`, `C67_new_gates_fit`, `C67_control_keeps_the_flag_refuted`, `C68_amplitudes`, `C68_invertible`, `C37_combinations`, `C37_ghz_entries`, `C37_w_entries`, `C37_embedded_entries`, `C47_split_without_loss`, `C47_split_accepts`, `C47_split_rejects`, `C47_split_two_qudits_only`, `C87_rows`, `C87_readable`, `C87_lines_refuted`, `C87_idle_refuted`, `C87_dagger_refuted`, `C87_levels_refuted`, `C87_incomplete_refuted`, `C86_labels`, `C86_labels_refuted`

**`ClassicalDedekindReals.sig_forall_dec`** — 32 theorems:

`C45_controlled_O1_refuted`, `C61_noisex_accepted`, `C61_noisey_accepted`, `C17_uncontrolled_returns`, `C17_slice_form`, `C18_acts_on_determines`, `C18_returns_from_line_0`, `C18_raises_away_from_line_0_refuted`, `C18_key_error_refuted`, `C06_dag_is_adjoint_bare`, `C06_repeated_dag_is_one_dag`, `C90_custom`, `C90_nothing_refuted`, `C90_fresh_refuted`, `C114_carrier`, `C62_edge_sensitivity`, `C62_edge_symmetric`, `C26_devices`, `C26_backends`, `C56_exchange_phases`, `C77_add`, `C67_determined`, `C67_returns_exactly_when`, `C67_uncontrolled_returns`, `C67_distant_control_refuted`, `C71_too_few`, `C74_expand_rejects`, `C85_returns`, `C85_many_qudits_refuted`, `C85_maps_ignored_refuted`, `C51_partial_trace_rejects`, `C52_identity`

**`Classical_Prop.classic`** — 1 theorems:

`C26_contract`

**`ClassicalDedekindReals.sig_forall_dec`, `FunctionalExtensionality.functional_extensionality_dep`** — 111 theorems:

`C107_devices`, `C107_models`, `C107_after_local`, `C107_after_entangling`, `C107_after_csum`, `C107_combined`, `C107_unlisted_refuted`, `C107_controlled_refuted`, `C107_dephasing_refuted`, `C30_size`, `C30_histories`, `C30_retrieve`, `C30_retrieve_nothing`, `C30_unsupported_mark_refuted`, `C82_thresholds`, `C33_new_mod`, `C61_noisex_flips`, `C61_noisey_flips`, `C17_acts_on_targets_only`, `C17_single_is_kron`, `C17_disjoint_commute`, `C17_same_lines_multiply`, `C17_unitary`, `C18_controlled_matrix_right`, `C18_unitary`, `C06_dag_is_adjoint`, `C06_dag_undoes`, `C07_shift`, `C07_unitary`, `C07_order`, `C15_accepted_unitary_iff`, `C15_maps_levels`, `C15_repeated_level_refuted`, `C90_proper`, `C90_improper_refuted`, `C90_random`, `C90_inverse_refuted`, `C11_csum_entries`, `C11_csum_unitary`, `C11_csum_in_register`, `C21_same_unitary`, `C24_local_resynthesis`, `C62_node_sensitivity`, `C29_thresholds`, `C27_thresholds`, `C77_retrieve`, `C77_retrieve_none`, `C77_finished_inner_refuted`, `C89_amplitudes`, `C100_transpose_refuted`, `C98_close`, `C98_separate`, `C98_again`, `C98_collection`, `C98_nearest`, `C98_nearest_across`, `C98_references`, `C98_limit`, `C98_complex`, `C98_signs`, `C98_history_refuted`, `C98_border_refuted`, `C98_negative_zero_refuted`, `C40_originals`, `C40_inserted`, `C40_no_noise`, `C40_zero_noise`, `C40_returns`, `C40_probabilities`, `C40_exactly_the_drawn_errors`, `C40_math_dephasing_refuted`, `C40_control_mode_refuted`, `C40_dynamic_other_gates`, `C41_one_outcome_per_shot`, `C41_run_counts`, `C41_possible_outcomes`, `C41_possible_outcomes_misim`, `C41_born_rule`, `C41_returns`, `C66_same_noise_refuted`, `C66_periodic_noise_refuted`, `C66_same_outcome_refuted`, `C67_final_state`, `C67_normalised`, `C81_accepts`, `C73_reversed_order`, `C74_expand`, `C74_expand_returns`, `C74_one_line`, `C74_all_lines_refuted`, `C74_other_dims_refuted`, `C46_least_layers`, `C46_returned_is_good_enough`, `C46_ends`, `C46_gives_up_only_if`, `C46_negative`, `C46_failure_refuted`, `C46_compiler`, `C70_flag_stays_refuted`, `C70_later_compilations_refuted`, `C70_stale_solution_refuted`, `C92_density`, `C85_unitary_simulation`, `C85_state_simulation`, `C85_placed_simulation`, `C51_density`, `C51_density_refuted`, `C51_empty`, `C51_partial_trace`, `C52_permutation`, `C52_direction_refuted`

**`ClassicalDedekindReals.sig_forall_dec`, `Classical_Prop.classic`** — 2 theorems:

`C26_phase_storing`, `C56_node_order_refuted`

**`ClassicalDedekindReals.sig_forall_dec`, `ClassicalDedekindReals.sig_not_dec`, `FunctionalExtensionality.functional_extensionality_dep`** — 255 theorems:

`C107_read`, `C107_levels`, `C49_controlled_rotation`, `C49_partial_swap`, `C49_phase_rotation`, `C49_undone`, `C49_undone_refuted`, `C33_pi_mod`, `C33_pi_mod_fixpoint`, `C33_regulate_theta`, `C33_regulate_theta_fixpoint`, `C33_costs`, `C60_cost_sign`, `C60_cost_zero`, `C60_cost_increasing`, `C60_cost_value`, `C60_phase_cost`, `C60_phase_gate_cost`, `C60_gate_cost_increasing`, `C60_zero_rotation_cost_refuted`, `C06_dag_twice_is_original_refuted`, `C97_hermitian_traceless`, `C97_orthogonal`, `C97_basis`, `C97_range_refuted`, `C97_unitary_refuted`, `C08_diagonal`, `C08_unitary`, `C08_order`, `C08_weyl`, `C08_primitive`, `C09_unitary`, `C09_diagonalises_shift`, `C09_entries`, `C10_unitary`, `C10_diagonal`, `C10_diagonal_qubit`, `C10_clifford`, `C12_accepted_iff`, `C12_unitary`, `C12_amplitudes`, `C12_other_levels_untouched`, `C12_angles_add`, `C12_inverse`, `C12_phase_flip`, `C12_period_4pi`, `C12_level_order_ignored`, `C13_rz_accepted_iff`, `C13_rz_phases`, `C13_rz_unitary`, `C13_virtrz_phase`, `C13_virtrz_unitary`, `C13_virtrz_bad_level_dropped`, `C13_virtrz_integer_angle_refuted`, `C13_rh_value`, `C14_cex_in_register`, `C14_rotation_exchanges`, `C14_cex_unitary`, `C14_parameters_accepted`, `C14_parameters_checked`, `C14_array_returns`, `C14_bad_level_raises_late`, `C53_angle_accepted`, `C53_ls_entries`, `C53_ls_exists`, `C53_ls_unitary`, `C53_ls_in_register`, `C53_ls_decreasing_targets_refuted`, `C54_ms_entries`, `C54_ms_exists`, `C54_ms_unitary`, `C54_ms_in_register`, `C62_pulse_count`, `C62_direct_cost`, `C62_far_cost`, `C62_routing_cost`, `C62_total_cost`, `C62_total_returns`, `C26_routing`, `C57_gates`, `C57_after_swap_refuted`, `C58_ongate`, `C58_update`, `C58_update_azimuth_refuted`, `C108_tensor`, `C108_exact`, `C108_returns`, `C108_gates`, `C108_extend`, `C108_factor_refuted`, `C108_gate_refuted`, `C108_throws_refuted`, `C108_mixed_refuted`, `C50_simulates`, `C50_normalised`, `C50_agrees`, `C50_controls_ignored_refuted`, `C50_controlled_gate_refuted`, `C50_descending_refuted`, `C50_other_gates_refuted`, `C50_large_qudits_refuted`, `C88_no_noise`, `C88_zero_noise`, `C88_physical_refuted`, `C88_flip_refuted`, `C89_addition`, `C89_matrix_vector`, `C89_matrix_matrix`, `C89_adjoint`, `C89_identity`, `C89_gate`, `C99_recomputed`, `C99_simulates`, `C99_hashes`, `C100_shared`, `C100_pointers`, `C100_no_dangling`, `C100_handed_out`, `C100_identity_flag`, `C100_symmetric_flag`, `C100_reached`, `C111_zero`, `C111_basis`, `C111_too_many`, `C111_bad_levels`, `C111_list_of_n_refuted`, `C102_program`, `C102_step`, `C102_basis_refused`, `C103_inner`, `C103_inner_real`, `C103_fidelity`, `C104_equal`, `C104_count`, `C104_history`, `C105_matrix`, `C105_entry_first_row`, `C105_entry_other_rows`, `C105_entry_refuted`, `C103_refuted`, `C110_shares`, `C110_other_sizes_refuted`, `C110_too_few`, `C98_arithmetic`, `C112_sound`, `C112_gates`, `C112_asymmetric_refuted`, `C63_depolarizing`, `C63_subspace`, `C63_dephasing`, `C31_propagation_preserves_unitary`, `C31_remove_z_one_line`, `C31_remove_z_separates`, `C31_remove_z_no_neighbours`, `C31_two_runs_refuted`, `C31_flags_ignored`, `C31_daggered_refuted`, `C31_other_gates_refuted`, `C32_same_statistics`, `C32_same_statistics_each`, `C32_phase_gates`, `C32_controlled_refuted`, `C109_recorded`, `C109_levels`, `C109_outside`, `C109_inside`, `C109_tuple_refuted`, `C109_cx_refuted`, `C109_virtrz_refuted`, `C19_round_trip_exact`, `C19_round_trip_general`, `C19_daggers_parameters_noise_refuted`, `C19_controls_refuted`, `C19_custom_gates_refuted`, `C19_second_round_trip_refuted`, `C19_classical_registers_refuted`, `C20_parsed_gates_reach_the_circuit`, `C20_controls_kept`, `C20_control_clause_refuted`, `C20_unknown_names_refuted`, `C20_gellmann_refuted`, `C20_unknown_program_refuted`, `C15_method`, `C20_classical_registers`, `C34_path_product`, `C34_normalised`, `C34_count`, `C35_contributions`, `C35_cut`, `C35_renormalised`, `C35_fidelity`, `C36_support`, `C36_full_support`, `C37_ghz`, `C37_w`, `C37_embedded`, `C37_w_none`, `C37_other_names`, `C37_embedded_refuted`, `C37_random`, `C81_refuted`, `C95_approximation`, `C95_loss`, `C95_one_level_refuted`, `C96_count`, `C96_count_refuted`, `C96_weights`, `C96_weights_refuted`, `C47_bounds_length`, `C47_bounds_first_qudit`, `C47_bounds_second_qudit`, `C47_bounds_fit`, `C71_closed_form`, `C71_unitary`, `C71_ansatz_unitary`, `C48_reversed_order`, `C48_reversed_order_of_gate`, `C48_order_refuted`, `C48_dagger_refuted`, `C48_lines_refuted`, `C48_lines_accepted`, `C73_order_refuted`, `C72_unitaries_range`, `C72_unitaries_one`, `C72_operators_range`, `C72_operators_one`, `C72_density_range`, `C72_density_one`, `C72_states_range`, `C72_states_one`, `C72_symmetric`, `C72_states_symmetric`, `C72_shapes`, `C72_state_lengths`, `C72_error_range`, `C72_error_zero`, `C94_ls`, `C94_ls_limit`, `C94_ls_five_refuted`, `C94_ms_levels`, `C94_ms`, `C94_ms_refuted`, `C92_range`, `C92_defined`, `C92_sparsest`, `C92_densest`, `C92_invariant`, `C92_objective_range`, `C92_objective_returns`, `C92_phase_refuted`, `C85_sound`, `C85_sound_unitary`, `C85_complete`, `C85_two_qudits_refuted`, `C52_plots`

**`ClassicalDedekindReals.sig_forall_dec`, `ClassicalDedekindReals.sig_not_dec`, `Classical_Prop.classic`, `FunctionalExtensionality.functional_extensionality_dep`** — 70 theorems:

`C106_compile`, `C106_right`, `C106_inverse_refuted`, `C106_kept_refuted`, `C107_compiled_O0`, `C107_compiled_O1`, `C107_compiled_O2`, `C107_hadamard_refuted`, `C93_O0`, `C93_O1`, `C93_O2`, `C93_O2_refuted`, `C93_dagger_refuted`, `C93_elementary`, `C82_decomposes`, `C82_reversed_refuted`, `C83_qubits`, `C83_daggers_refuted`, `C83_circuits`, `C83_order_refuted`, `C84_cex`, `C84_dagger_refuted`, `C84_other_gates`, `C84_mapping_refuted`, `C84_circuits`, `C29_sound`, `C29_not_found`, `C78_ends`, `C78_found`, `C78_refuted`, `C79_transpile_gate`, `C79_inverse_refuted`, `C79_second_gate_refuted`, `C91_circuits`, `C91_coupled`, `C91_search`, `C91_ends`, `C91_direction_refuted`, `C91_dropped_refuted`, `C101_same_costs`, `C101_physical_cost`, `C101_logical_cost`, `C101_exact_cost`, `C101_free`, `C27_diagonalises`, `C27_exact`, `C27_transpile_inverse`, `C27_refuted`, `C28_diagonalises`, `C28_transpile_gate`, `C28_transpile_reversed`, `C28_refuted`, `C75_physical`, `C75_logical`, `C75_restored`, `C75_refuted`, `C76_logical`, `C76_physical`, `C88_noisy_circuit`, `C88_noisy_run`, `C36_prepares`, `C36_prepares_approx`, `C36_returns`, `C36_appended`, `C36_zero_vector`, `C36_zero_branch_refuted`, `C36_dimensions_refuted`, `C80_short`, `C80_refuted`, `C37_prepared`

