(** C93: compilation from end to end.  Specification: WholeSpec.

    [whole_O0 sp round6 det solve fuel gs c] is QuditCompiler.compile_O0 on a backend with the energy level graphs [gs]:
    it gives the graphs afterwards and the compiled circuit or the exception; [whole_O1] is compile_O1, [whole_O2] compile_O2.  [sp] is the
    shortest path search of networkx; [round6], [det], [solve] are round, numpy.linalg.det and numpy.linalg.solve. *)
From Coq Require Import Reals List Arith ZArith Lia Lra.
From Verif.Base Require Import Py Cplx Matrix.
From Verif.Circuit Require Import CircuitModel GateModel.
From Verif.Gates Require Import TwoModel.
From Verif.Sim Require Import TnSpec.
From Verif.Levels Require Import LevelsModel LevelsSpec RouteProofs.
From Verif.Local Require Import QrModel QrSpec.
From Verif.Ent Require Import BlockModel BlockSpec PassModel PassSpec LibProofs.
From Verif.Compiler Require Import DispatchModel DispatchSpec WholeModel WholeSpec WholeProofs WholeMerge WholeCases WholeAda WholeTwice ElementarySpec WholeElementary.
Import ListNotations.
Local Open Scope nat_scope.

(** Level O0.  Every program of the listed gates compiles on every device; the registers are kept, the recorded mapping
    tells where the levels sit, the device is ready for the next program, and the compiled circuit does on the physical
    levels what the program does on the logical ones.  The other conjuncts say that there is something to compare: every
    state can be placed, and both circuits act on every state. *)
Theorem C93_O0 sp round6 det solve fuel gs p c : finds_shortest sp -> rounds6 round6 -> exact_det det -> exact_solve det solve ->
  num_qudits c = List.length (dimensions c) -> device (dimensions c) gs p -> (forall g, In g (instructions c) -> implementable (dimensions c) p g) ->
  exists gs' out, whole_O0 sp round6 det solve fuel gs c = (gs', Ok out) /\ device (dimensions c) gs' p /\ same_registers out c /\
    mappings out = Some (map (fun i => map (p i) (seq 0 (nth i (dimensions c) 0))) (seq 0 (List.length (dimensions c)))) /\
    (forall psi, exists psi', placed_state (dimensions c) p psi psi') /\
    (forall psi, exists phi, evolves (dimensions c) psi (map as_gate (instructions c)) phi) /\
    (forall psi, exists phi, evolves (dimensions c) psi (map as_gate (instructions out)) phi) /\
    implements (dimensions c) p (total_error (instructions c)) (map as_gate (instructions out)) (map as_gate (instructions c)).
Proof. exact (o0_ok sp round6 det solve fuel gs p c). Qed.
Print Assumptions C93_O0.

(** Level O1, where neighbouring local gates are merged first: the same, for programs of gates on one or two qudits. *)
Theorem C93_O1 sp round6 det solve fuel gs p c : finds_shortest sp -> rounds6 round6 -> exact_det det -> exact_solve det solve ->
  num_qudits c = List.length (dimensions c) -> device (dimensions c) gs p ->
  (forall g, In g (instructions c) -> implementable (dimensions c) p g /\ type_of g <> MULTI) ->
  exists gs' out, whole_O1 sp round6 det solve fuel gs c = (gs', Ok out) /\ device (dimensions c) gs' p /\ same_registers out c /\
    mappings out = Some (map (fun i => map (p i) (seq 0 (nth i (dimensions c) 0))) (seq 0 (List.length (dimensions c)))) /\
    (forall psi, exists psi', placed_state (dimensions c) p psi psi') /\
    (forall psi, exists phi, evolves (dimensions c) psi (map as_gate (instructions c)) phi) /\
    (forall psi, exists phi, evolves (dimensions c) psi (map as_gate (instructions out)) phi) /\
    implements (dimensions c) p (total_error (instructions c)) (map as_gate (instructions out)) (map as_gate (instructions c)).
Proof. exact (o1_ok sp round6 det solve fuel gs p c). Qed.
Print Assumptions C93_O1.

(** Level O2, where the local gates are compiled adaptively: the same for devices whose levels are all coupled and
    programs in which two local gates on a qudit have a gate on two qudits in between.  [fuel] bounds the depth of the
    search, which ends. *)
Theorem C93_O2 sp round6 det solve gs p c : finds_shortest sp -> rounds6 round6 -> exact_det det -> exact_solve det solve ->
  num_qudits c = List.length (dimensions c) -> device (dimensions c) gs p -> coupled_device (dimensions c) gs ->
  (forall g, In g (instructions c) -> implementable (dimensions c) p g /\ type_of g <> MULTI /\ adaptable_gate g) -> separated (instructions c) ->
  exists gs' out enough, (forall fuel, enough <= fuel -> whole_O2 sp round6 det solve fuel gs c = (gs', Ok out)) /\
    device (dimensions c) gs' p /\ coupled_device (dimensions c) gs' /\ same_registers out c /\
    mappings out = Some (map (fun i => map (p i) (seq 0 (nth i (dimensions c) 0))) (seq 0 (List.length (dimensions c)))) /\
    (forall psi, exists psi', placed_state (dimensions c) p psi psi') /\
    (forall psi, exists phi, evolves (dimensions c) psi (map as_gate (instructions c)) phi) /\
    (forall psi, exists phi, evolves (dimensions c) psi (map as_gate (instructions out)) phi) /\
    implements (dimensions c) p (total_adaptive (instructions c)) (map as_gate (instructions out)) (map as_gate (instructions c)).
Proof. exact (o2_ok sp round6 det solve gs p c). Qed.
Print Assumptions C93_O2.

(** Two local gates in a row are not implemented at level O2: the phases of the first one are put after its rotations. *)
Theorem C93_O2_refuted sp round6 det solve : finds_shortest sp -> exists gs c p, num_qudits c = List.length (dimensions c) /\ device (dimensions c) gs p /\
  coupled_device (dimensions c) gs /\ (forall g, In g (instructions c) -> implementable (dimensions c) p g /\ type_of g <> MULTI /\ adaptable_gate g) /\
  List.length (instructions c) = 2 /\
  exists enough, forall fuel, enough <= fuel -> exists gs' out, whole_O2 sp round6 det solve fuel gs c = (gs', Ok out) /\
    ~ implements (dimensions c) p (1 / 2) (map as_gate (instructions out)) (map as_gate (instructions c)).
Proof.
  intros SP. exists [pair_graph], twice, same_levels. split; [reflexivity|]. split; [exact one_device|]. split; [exact one_coupled|]. split; [exact twice_fits|].
  split; [reflexivity|]. exact (twice_wrong sp round6 det solve SP).
Qed.
Print Assumptions C93_O2_refuted.

(** A daggered CEx is not implemented, on two qubits whose levels are where they are called. *)
Theorem C93_dagger_refuted sp round6 det solve fuel : exists gs c gs' out, device [2; 2] gs (fun _ n => n) /\
  num_qudits c = List.length (dimensions c) /\ dimensions c = [2; 2] /\
  instructions c = [CUser2 (Two 0 1 2 2 (TCex (Cex 0 1 1 0) true))] /\
  whole_O0 sp round6 det solve fuel gs c = (gs', Ok out) /\
  ~ implements [2; 2] (fun _ n => n) (1 / 2) (map as_gate (instructions out)) (map as_gate (instructions c)).
Proof.
  destruct (dagger_lost sp round6 det solve fuel) as (c & gs' & out & H). exists [pair_graph; pair_graph], c, gs', out. split; [exact two_device|exact H].
Qed.
Print Assumptions C93_dagger_refuted.

(** Programs that meet the hypotheses: six gates on two qubits, and four on two qubits of which the second has its levels
    exchanged, and for level O2 five on two qubits. *)
Example C93_case_same_levels : num_qudits a_program = 2 /\ dimensions a_program = [2; 2] /\ List.length (instructions a_program) = 6 /\
  device (dimensions a_program) [pair_graph; pair_graph] same_levels /\
  forall g, In g (instructions a_program) -> implementable (dimensions a_program) same_levels g /\ type_of g <> MULTI.
Proof. split; [reflexivity|]. split; [reflexivity|]. split; [reflexivity|]. split; [exact two_device|exact a_program_fits]. Qed.
Example C93_case_other_levels : num_qudits another_program = 2 /\ dimensions another_program = [2; 2] /\ List.length (instructions another_program) = 4 /\
  device (dimensions another_program) [pair_graph; swapped_pair] half_swapped /\
  forall g, In g (instructions another_program) -> implementable (dimensions another_program) half_swapped g.
Proof. split; [reflexivity|]. split; [reflexivity|]. split; [reflexivity|]. split; [exact half_device|exact another_program_fits]. Qed.
Example C93_case_apart : num_qudits third_program = 2 /\ dimensions third_program = [2; 2] /\ List.length (instructions third_program) = 5 /\
  device (dimensions third_program) [pair_graph; pair_graph] same_levels /\ coupled_device (dimensions third_program) [pair_graph; pair_graph] /\
  (forall g, In g (instructions third_program) -> implementable (dimensions third_program) same_levels g /\ type_of g <> MULTI /\ adaptable_gate g) /\
  separated (instructions third_program).
Proof.
  split; [reflexivity|]. split; [reflexivity|]. split; [reflexivity|]. split; [exact two_device|]. split; [exact pairs_coupled|].
  split; [exact third_program_fits|exact third_program_apart].
Qed.
Example C93_case_library : finds_shortest search_shortest /\ exists round6 det solve, rounds6 round6 /\ exact_det det /\ exact_solve det solve.
Proof. split; [exact search_contract|exact library_exists]. Qed.

(** Whatever the device and the program: if compilation succeeds, the circuit consists of R, Rz, Rh, VirtRz and CEx
    gates, on one line or two, and their types say so (the dispatch goes by the type).  Level O0 leaves the gates on three
    lines or more as they are. *)
Theorem C93_elementary : forall sp round6 det solve fuel gs c gs' out,
  (whole_O0 sp round6 det solve fuel gs c = (gs', Ok out) -> forall h, In h (instructions out) ->
     elementary h \/ (In h (instructions c) /\ type_of h = MULTI)) /\
  (whole_O1 sp round6 det solve fuel gs c = (gs', Ok out) -> forall h, In h (instructions out) -> elementary h) /\
  (whole_O2 sp round6 det solve fuel gs c = (gs', Ok out) -> forall h, In h (instructions out) -> elementary h).
Proof. intros. split; [apply O0_made|split; [apply O1_made|apply O2_made]]. Qed.
Print Assumptions C93_elementary.
