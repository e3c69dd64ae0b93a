(** C106: compilation with a list of passes chosen by the user, from end to end.  Specification: ChosenSpec, WholeSpec
    (device, implements) and DispatchSpec (named, responsible).

    [whole_compile sp round6 det solve fuel names gs c] is QuditCompiler.compile(backend, circuit, names) on a backend with
    the energy level graphs [gs]; the other arguments as in WholeProps. *)
From Coq Require Import Reals List Arith ZArith Lia Lra String.
From Verif.Base Require Import Py Cplx Matrix.
From Verif.Circuit Require Import CircuitModel GateModel.
From Verif.Gates Require Import TwoModel.
From Verif.Sim Require Import TnSpec.
From Verif.Levels Require Import LevelsModel LevelsSpec RouteProofs.
From Verif.Local Require Import QrModel QrSpec AdaPasses.
From Verif.Ent Require Import BlockModel BlockSpec PassModel PassSpec PassProofs.
From Verif.Compiler Require Import DispatchModel DispatchSpec WholeModel WholeSpec WholeCases WholeTwice ChosenModel ChosenSpec ChosenProofs ChosenCases.
From Verif.Compiler Require DispatchProofs.
Import ListNotations.
Local Open Scope nat_scope.

(** Whatever the list of names: a program whose gates the responsible passes can take compiles; the registers are kept,
    the recorded mapping tells where the levels sit, the device is ready for the next program, and the compiled circuit
    does on the physical levels what the gates [hs] do on the logical ones.  With every pass but LogLocQRPass [hs] is the
    program itself; LogLocQRPass gives the inverses of the local gates. *)
Theorem C106_compile sp round6 det solve names gs p c hs e : finds_shortest sp -> rounds6 round6 -> exact_det det -> exact_solve det solve ->
  num_qudits c = List.length (dimensions c) -> (forall n, In n names -> exists k, named n k) -> device (dimensions c) gs p ->
  (responsible names SINGLE PhyLocAda -> coupled_device (dimensions c) gs) ->
  program_becomes (dimensions c) p names (instructions c) hs e ->
  exists gs' out enough, (forall fuel, enough <= fuel -> whole_compile sp round6 det solve fuel names gs c = (gs', Ok out)) /\
    device (dimensions c) gs' p /\ same_registers out c /\
    mappings out = Some (map (fun i => map (p i) (seq 0 (nth i (dimensions c) 0))) (seq 0 (List.length (dimensions c)))) /\
    (forall psi, exists psi', placed_state (dimensions c) p psi psi') /\
    (forall psi, exists phi, evolves (dimensions c) psi (map as_gate hs) phi) /\
    (forall psi, exists phi, evolves (dimensions c) psi (map as_gate (instructions out)) phi) /\
    implements (dimensions c) p e (map as_gate (instructions out)) (map as_gate hs).
Proof. exact (chosen_ok sp round6 det solve names gs p c hs e). Qed.
Print Assumptions C106_compile.

Theorem C106_right dims p names l hs e : program_becomes dims p names l hs e -> ~ responsible names SINGLE LogLocQR -> hs = l.
Proof.
  intros H NR. induction H as [|g h e l m f B PB IH]; [reflexivity|]. rewrite IH. f_equal. destruct B; try reflexivity. contradiction.
Qed.
Print Assumptions C106_right.

(** LogLocQRPass, named in compile, does not give the program: the gate S on one qubit comes out as its inverse. *)
Theorem C106_inverse_refuted sp round6 det solve : finds_shortest sp -> rounds6 round6 -> exact_det det -> exact_solve det solve ->
  exists gs c, num_qudits c = List.length (dimensions c) /\ dimensions c = [2] /\ instructions c = [CUser1 0 2 s_gate] /\
  device [2] gs (fun _ n => n) /\
  exists gs' out enough, (forall fuel, enough <= fuel -> whole_compile sp round6 det solve fuel ["LogLocQRPass"%string] gs c = (gs', Ok out)) /\
  ~ implements [2] (fun _ n => n) (1 / 2) (map as_gate (instructions out)) (map as_gate (instructions c)).
Proof.
  intros SP HR HD HS. exists [pair_graph], (one_qubit [CUser1 0 2 s_gate]). split; [reflexivity|]. split; [reflexivity|]. split; [reflexivity|]. split; [exact one_device|].
  exact (log_inverts sp round6 det solve SP HR HD HS).
Qed.
Print Assumptions C106_inverse_refuted.

(** A gate that no chosen pass takes is left on its logical levels, although the recorded mapping of the circuit says that
    they sit elsewhere. *)
Theorem C106_kept_refuted sp round6 det solve fuel : exists gs c out, num_qudits c = List.length (dimensions c) /\ dimensions c = [2] /\
  instructions c = [CUser1 0 2 s_gate] /\ device [2] gs (fun _ n => 1 - n) /\
  whole_compile sp round6 det solve fuel ["LogEntQRCEXPass"%string] gs c = (gs, Ok out) /\ mappings out = Some [[1; 0]] /\
  ~ implements [2] (fun _ n => 1 - n) (1 / 2) (map as_gate (instructions out)) (map as_gate (instructions c)).
Proof.
  destruct (kept_wrong sp round6 det solve fuel) as (out & H). exists [swapped_pair], (one_qubit [CUser1 0 2 s_gate]), out.
  split; [reflexivity|]. split; [reflexivity|]. split; [reflexivity|]. split; [exact exchanged_device|exact H].
Qed.
Print Assumptions C106_kept_refuted.

(** A program of six gates, with a daggered CEx, and a list of four names that meet the hypotheses. *)
Example C106_case : num_qudits fourth_program = 2 /\ dimensions fourth_program = [2; 2] /\ List.length (instructions fourth_program) = 6 /\
  (forall n, In n mixed -> exists k, named n k) /\ device (dimensions fourth_program) [pair_graph; pair_graph] same_levels /\
  coupled_device (dimensions fourth_program) [pair_graph; pair_graph] /\ ~ responsible mixed SINGLE LogLocQR /\
  exists e, program_becomes (dimensions fourth_program) same_levels mixed (instructions fourth_program) (instructions fourth_program) e.
Proof.
  split; [reflexivity|]. split; [reflexivity|]. split; [reflexivity|]. split; [exact mixed_known|]. split; [exact two_device|]. split; [exact pairs_coupled|].
  split; [|exact fourth_fits]. intros R. discriminate (DispatchProofs.responsible_fun _ _ _ _ mixed_known R mixed_one).
Qed.
