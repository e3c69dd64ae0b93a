(** C83, C84: the passes that compile two-qudit gates.
    Specification: BlockSpec, PassSpec, CircuitSpec. *)
From Coq Require Import Reals Lra Lia List Arith ZArith.
From Verif.Base Require Import Py PyFacts Cplx Matrix.
From Verif.Gates Require Import AnglesModel SingleSpec TwoModel TwoSpec.
From Verif.Levels Require Import LevelsModel LevelsSpec.
From Verif.Local Require Import QrModel QrSpec.
From Verif.Ent Require Import BlockModel BlockSpec PassModel PassSpec CircuitSpec ExecProofs EmitProofs PassProofs CircuitProofs LibProofs.
Import ListNotations.
Local Open Scope nat_scope.

(** C83: between qubits the list of transpile_gate implements the gate up to a global phase and the error the
    thresholds allow. *)
Theorem C83_qubits round6 det solve U : rounds6 round6 -> exact_det det -> exact_solve det solve -> unitary 4 U ->
  exists l gamma, log_ent_gate round6 det solve code_eps code_delta 2 2 true U = Ok l /\ Forall (valid_gate 2 2) l /\
    close 4 (4 * ent_error code_eps code_delta 4) (circuit_op 2 2 l) (with_phase gamma U).
Proof.
  intros HR HD HS HU. destruct (emitted_ok round6 det solve HD HS HR 2 2 U ltac:(lia) ltac:(lia) HU) as (l & E & G & C).
  destruct (C (proj2 (proj2 G) eq_refl eq_refl)) as (g & Cl). exists (map set_dag (rev l)), g. split; [exact E|]. split.
  - assert (F := good_valid 2 2 l ltac:(lia) ltac:(lia) G). apply Forall_forall. intros y Hy. apply in_map_iff in Hy. destruct Hy as (z & <- & Hz).
    rewrite Forall_forall in F. apply in_rev in Hz. specialize (F z Hz). destruct z as [s k d|d]; exact F.
  - change (2 * 2) with 4 in Cl. replace 4%R with (INR 4) by (cbn; ring). exact Cl.
Qed.
Print Assumptions C83_qubits.
(** In other dimensions it need not: the gates that are daggered in the decomposition already stay daggered. *)
Theorem C83_daggers_refuted round6 det solve : rounds6 round6 -> exact_det det -> exact_solve det solve ->
  exists U, unitary 6 U /\ exists l, log_ent_gate round6 det solve code_eps code_delta 2 3 true U = Ok l /\
    forall gamma, ~ close 6 (1 / 2) (circuit_op 2 3 l) (with_phase gamma U).
Proof. intros HR HD HS. exists (turn 2). exact (flagged_wrong round6 det solve HD HS HR). Qed.
Print Assumptions C83_daggers_refuted.
(** On circuits: every other gate stays, every two-qudit gate is replaced by existing gates on its lines, but in
    reverse order: between qubits it is the reversed list that implements the gate. *)
Theorem C83_circuits round6 det solve c : rounds6 round6 -> exact_det det -> exact_solve det solve -> (forall g, In (ETwo g) c -> two_ok g) ->
  exists out, log_ent_transpile round6 det solve c = Ok out /\
    two_replaced (fun g l => forall U, two_matrix g = Ok U -> Forall (valid_gate (tw_dc g) (tw_dt g)) l /\
      (tw_dc g = 2 -> tw_dt g = 2 ->
       exists gamma, close 4 (4 * ent_error code_eps code_delta 4) (circuit_op 2 2 (rev l)) (with_phase gamma U))) c out.
Proof. intros HR HD HS. exact (transpile_reversed round6 det solve HD HS HR c). Qed.
Print Assumptions C83_circuits.
(** So a circuit with a single gate is compiled wrongly. *)
Theorem C83_order_refuted round6 det solve : rounds6 round6 -> exact_det det -> exact_solve det solve ->
  exists U, unitary 4 U /\ exists l, log_ent_transpile round6 det solve [ETwo (Two 0 1 2 2 (TMat U))] = Ok (map (EGate 0 1) l) /\
    forall gamma, ~ close 4 (1 / 2) (circuit_op 2 2 l) (with_phase gamma U).
Proof. intros HR HD HS. exists (turn 1). exact (transpile_wrong round6 det solve HD HS HR). Qed.
Print Assumptions C83_order_refuted.
Example C83_case : exists round6 det solve, rounds6 round6 /\ exact_det det /\ exact_solve det solve /\
  forall g, In (ETwo g) [EOther 3; ETwo (Two 1 4 2 3 (TMat mid)); ETwo (Two 0 2 4 2 (TCex (Cex 0 1 3 0) true))] -> two_ok g.
Proof.
  destruct library_exists as (r & d & s & H1 & H2 & H3). exists r, d, s. split; [exact H1|]. split; [exact H2|]. split; [exact H3|]. exact two_ok_case.
Qed.

(** C84: a CEx on the physical levels.  It is always put out as one CEx on the same lines with existing levels; it
    is the gate on the physical levels exactly if the target levels keep their order or sin phi = 0. *)
Theorem C84_cex sp round6 det solve gs q0 q1 dc dt g0 g1 p0 p1 x dag :
  pyindex gs (Z.of_nat q0) = Ok g0 -> pyindex gs (Z.of_nat q1) = Ok g1 -> laid_out dc g0 p0 -> laid_out dt g1 p1 -> cex_fits dc dt x ->
  exists y M M', phy_ent_gate sp round6 det solve gs (Two q0 q1 dc dt (TCex x dag)) = Ok ([ENewCex q0 q1 y], gs) /\ cex_fits dc dt y /\
    cex_array dc dt (q0 <? q1) x = Ok M /\ cex_array dc dt (q0 <? q1) y = Ok M' /\
    (relabelled dc dt (q0 <? q1) p0 p1 M M' <-> p1 (cx_a x) < p1 (cx_b x) \/ sin (cx_phi x) = 0%R) /\
    (relabelled dc dt (q0 <? q1) p0 p1 (madj M) M' -> p1 (cx_b x) < p1 (cx_a x) /\ cos (cx_phi x) = 0%R).
Proof. intros G0 G1 L0 L1. exact (phy_cex_ok sp round6 det solve gs q0 q1 dc dt g0 g1 p0 p1 G0 G1 L0 L1 x dag). Qed.
Print Assumptions C84_cex.
(** So a CEx with the dagger flag on levels in their own order is never compiled into its inverse. *)
Theorem C84_dagger_refuted sp round6 det solve gs q0 q1 dc dt g0 g1 p0 p1 x :
  pyindex gs (Z.of_nat q0) = Ok g0 -> pyindex gs (Z.of_nat q1) = Ok g1 -> laid_out dc g0 p0 -> laid_out dt g1 p1 -> cex_fits dc dt x ->
  p1 (cx_a x) < p1 (cx_b x) ->
  exists y M M', phy_ent_gate sp round6 det solve gs (Two q0 q1 dc dt (TCex x true)) = Ok ([ENewCex q0 q1 y], gs) /\
    cex_array dc dt (q0 <? q1) x = Ok M /\ cex_array dc dt (q0 <? q1) y = Ok M' /\ ~ relabelled dc dt (q0 <? q1) p0 p1 (madj M) M'.
Proof.
  intros G0 G1 L0 L1 F L. destruct (phy_cex_ok sp round6 det solve gs q0 q1 dc dt g0 g1 p0 p1 G0 G1 L0 L1 x true F) as (y & M & M' & E & _ & A & B & _ & C).
  exists y, M, M'. split; [exact E|]. split; [exact A|]. split; [exact B|]. intros H. destruct (C H) as [C1 _]. lia.
Qed.
Print Assumptions C84_dagger_refuted.
(** Any other gate: the gates are those of the pass that knows nothing of the device, whatever the graphs, so they act
    on the logical levels.  The graphs keep their placement, and whatever phases they stored are gone. *)
Theorem C84_other_gates sp round6 det solve gs q0 q1 dc dt g0 g1 p0 p1 U :
  finds_shortest sp -> rounds6 round6 -> exact_det det -> exact_solve det solve ->
  pyindex gs (Z.of_nat q0) = Ok g0 -> pyindex gs (Z.of_nat q1) = Ok g1 -> laid_out dc g0 p0 -> laid_out dt g1 p1 ->
  q0 < q1 -> 2 <= dc -> 2 <= dt -> unitary (dc * dt) U ->
  exists l gs' h0 h1, phy_ent_gate sp round6 det solve gs (Two q0 q1 dc dt (TMat U)) = Ok (map (EGate q0 q1) l, gs') /\
    log_ent_gate round6 det solve code_eps code_delta dc dt true U = Ok l /\
    pyindex gs' (Z.of_nat q0) = Ok h0 /\ no_phases h0 /\ (forall n p, placed h0 n p <-> placed g0 n p) /\
    pyindex gs' (Z.of_nat q1) = Ok h1 /\ no_phases h1 /\ (forall n p, placed h1 n p <-> placed g1 n p).
Proof. intros SP HR HD HS G0 G1 L0 L1. exact (phy_list sp round6 det solve gs q0 q1 dc dt g0 g1 p0 p1 G0 G1 L0 L1 SP HD HS HR U). Qed.
Print Assumptions C84_other_gates.
(** So with two levels of a qubit exchanged the gates are not the gate on the physical levels, whatever the phase. *)
Theorem C84_mapping_refuted sp round6 det solve : finds_shortest sp -> rounds6 round6 -> exact_det det -> exact_solve det solve ->
  exists U, unitary 4 U /\ exists l gs', phy_ent_gate sp round6 det solve [pair_graph; swapped_pair] (Two 0 1 2 2 (TMat U)) = Ok (map (EGate 0 1) l, gs') /\
    forall V gamma, relabelled 2 2 true (fun n => n) (fun n => 1 - n) U V -> ~ close 4 (1 / 2) (circuit_op 2 2 l) (with_phase gamma V).
Proof. intros SP HR HD HS. exists flip1. split; [exact flip1_unitary|]. exact (mapping_ignored sp round6 det solve SP HD HS HR). Qed.
Print Assumptions C84_mapping_refuted.
(** Both graphs are laid out, and a CEx fits. *)
Example C84_case : laid_out 2 pair_graph (fun n => n) /\ laid_out 2 swapped_pair (fun n => 1 - n) /\ cex_fits 2 2 (Cex 0 1 1 0).
Proof. split; [exact pair_laid|]. split; [exact swapped_laid|]. unfold cex_fits. cbn. assert (P := PI_RGT_0). repeat split; try lia; lra. Qed.
(** Whole circuits, from any graphs: every two-qudit gate becomes what it becomes on its own, in order, everything else
    stays in place; every graph keeps its placement, loses its stored phases if a gate that is not a CEx acted on its
    line, and is otherwise the graph it was. *)
Theorem C84_circuits sp round6 det solve gs c : finds_shortest sp -> rounds6 round6 -> exact_det det -> exact_solve det solve ->
  (forall g, In (ETwo g) c -> exists p0 p1, on_lines gs g p0 p1) ->
  exists out gs', phy_ent_transpile sp round6 det solve gs c = Ok (out, gs') /\
    each_two (put_out (fun dc dt U => log_ent_gate round6 det solve code_eps code_delta dc dt true U) gs) c out /\
    forall i g, nth_error gs i = Some g -> exists h, nth_error gs' i = Some h /\ (forall n p, placed h n p <-> placed g n p) /\
      (touched c i -> no_phases h) /\ (~ touched c i -> h = g).
Proof.
  intros SP HR HD HS H. destruct (phy_ent_circuit sp round6 det solve SP HD HS HR c gs H) as (out & gs' & E & T & K).
  exists out, gs'. split; [exact E|]. split; [exact T|]. intros i g Hi. destruct (K i g Hi) as (h & A & B & _ & C & D). exists h. auto.
Qed.
Print Assumptions C84_circuits.
(** A circuit of a CEx, another gate and one that is not a two-qudit gate meets the hypotheses. *)
Example C84_case_circuits : forall g, In (ETwo g) [ETwo (Two 0 1 2 2 (TCex (Cex 0 1 1 0) false)); EOther 0; ETwo (Two 0 1 2 2 (TMat flip1))] ->
  exists p0 p1, on_lines [pair_graph; swapped_pair] g p0 p1.
Proof.
  intros g [E|[E|[E|[]]]]; try discriminate; injection E as <-; exists (fun n => n), (fun n => 1 - n); constructor; cbn [tw_q0 tw_q1 tw_dc tw_dt tw_op].
  1, 6: lia. 1, 5: split; lia.
  1, 4: exists pair_graph; split; [reflexivity|exact pair_laid].
  1, 3: exists swapped_pair; split; [reflexivity|exact swapped_laid].
  - exact (proj2 (proj2 C84_case)).
  - exact flip1_unitary.
Qed.
