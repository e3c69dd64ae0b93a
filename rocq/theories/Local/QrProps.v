(** C27, C28, C75, C76: the QR compilation of single-qudit gates.
    Specification: QrSpec. *)
From Coq Require Import Reals Lra Lia List Arith ZArith.
From Verif.Base Require Import Py PyFacts Cplx Matrix.
From Verif.Gates Require Import AnglesModel AnglesSpec AnglesProofs SingleModel SingleSpec SingleProofs.
From Verif.Levels Require Import LevelsModel LevelsSpec GraphProofs LevelsProofs RouteProofs PhaseProofs DistanceProofs.
From Verif.Local Require Import QrModel QrSpec QrMath QrCore QrProofs QrPhysical QrPasses QrCases.
Import ListNotations.
Local Open Scope list_scope.
Local Open Scope nat_scope.

(** C27: for every unitary and every dimension the logical decomposition succeeds, and its rotations and
    phases, composed in the order of the list, bring U to the identity up to the error the thresholds allow.
    Every rotation is between neighbouring levels, and there are at most d(d-1)/2 + 2d gates. *)
Theorem C27_diagonalises sp eps delta z nsa d U g :
  finds_shortest sp -> routable d g -> covers d g -> unitary d U -> (0 <= eps)%R -> (0 <= delta)%R ->
  exists ops alg tot g', log_execute sp eps delta z nsa d U g = Ok (ops, alg, tot, g') /\
    close d (qr_error eps delta d) (mmul d (ops_matrix d ops) U) mid /\
    (forall r, In (OR r) ops -> lev_b r = lev_a r + 1) /\
    2 * List.length ops <= d * (d - 1) + 4 * d /\
    (no_phases g -> 2 * List.length ops <= d * (d - 1) + 2 * d).
Proof.
  intros SP RT CV HU E0 D0. destruct (log_execute_ok sp eps delta z nsa d U g SP RT CV HU E0 D0) as (ops & alg & tot & g' & E & C & _ & N & L & L' & _).
  exists ops, alg, tot, g'. auto 10.
Qed.
Print Assumptions C27_diagonalises.
(** With both thresholds at zero the decomposition is exact. *)
Theorem C27_exact sp z nsa d U g :
  finds_shortest sp -> routable d g -> covers d g -> unitary d U ->
  exists ops alg tot g', log_execute sp 0 0 z nsa d U g = Ok (ops, alg, tot, g') /\
    meq d (mmul d (ops_matrix d ops) U) mid.
Proof.
  intros SP RT CV HU. destruct (log_execute_ok sp 0 0 z nsa d U g SP RT CV HU (Rle_refl 0) (Rle_refl 0)) as (ops & alg & tot & g' & E & C & _).
  exists ops, alg, tot, g'. split; [exact E|]. exact (close_exact d _ C).
Qed.
Print Assumptions C27_exact.
(** The thresholds of the code keep every entry within 2 * 10^-4, up to dimension 1000. *)
Theorem C27_thresholds d : d <= 1000 -> (qr_error code_eps code_delta d <= 2 / 10000)%R.
Proof. exact (error_small d). Qed.
Print Assumptions C27_thresholds.
(** The pass: the gates put in place of a gate make up the inverse of the gate. *)
Theorem C27_transpile_inverse sp gs c : finds_shortest sp -> compilable gs c ->
  exists out gs', log_transpile sp gs c = Ok (out, gs') /\
    replaced (fun line d U l => close d (INR d * qr_error code_eps code_delta d) (circuit_matrix d l) (madj U)) c out.
Proof. intros SP. exact (log_transpile_ok sp SP c gs). Qed.
Print Assumptions C27_transpile_inverse.
(** So the claim that the pass implements the gate fails: not even up to a factor, and not even nearly. *)
Theorem C27_refuted : exists U, unitary 2 U /\ forall sp, finds_shortest sp ->
  exists l gs', log_transpile_gate sp [pair_graph] 0 2 U = Ok (l, gs') /\
    forall c, ~ close 2 (1 / 10) (circuit_matrix 2 l) (mscal c U).
Proof. exact log_inverse_wrong. Qed.
Print Assumptions C27_refuted.

(** C28: for every unitary and every usable graph the physical decomposition succeeds; every rotation is
    between coupled levels, and the gates bring U, written on the physical levels, to the identity. *)
Theorem C28_diagonalises sp eps delta nsa d U g :
  finds_shortest sp -> routable d g -> covers d g -> no_phases g -> unitary d U -> (0 <= eps)%R -> (0 <= delta)%R ->
  exists ops alg tot g', phy_execute sp eps delta false nsa d U g = Ok (ops, alg, tot, g') /\
    (forall V, on_device d g U V -> close d (qr_error eps delta d) (mmul d (ops_matrix d ops) V) mid) /\
    Forall (native g) ops /\ 2 * List.length ops <= d * (d - 1) * (2 * d - 3) + 2 * d.
Proof.
  intros SP RT CV NP HU E0 D0. destruct (phy_execute_ok sp eps delta false nsa d U g SP RT CV HU E0 D0 (or_introl eq_refl))
    as (ops0 & new & alg & tot & g' & E & _ & C & _ & Z & _ & N & L & _). rewrite Z in * by exact NP. cbn [app] in *.
  exists new, alg, tot, g'. auto.
Qed.
Print Assumptions C28_diagonalises.
(** transpile_gate: the list, run as a circuit, is U on the physical levels, made of native gates. *)
Theorem C28_transpile_gate sp gs line d U g :
  finds_shortest sp -> pyindex gs line = Ok g -> routable d g -> covers d g -> no_phases g -> unitary d U ->
  exists l gs', phy_transpile_gate sp gs line d U = Ok (l, gs') /\
    (forall V, on_device d g U V -> close d (INR d * qr_error code_eps code_delta d) (circuit_matrix d l) V) /\
    Forall (fun o => native g (fst o) /\ snd o = true) l /\ 2 * List.length l <= d * (d - 1) * (2 * d - 3) + 4 * d.
Proof.
  intros SP EG RT CV NP HU. destruct (phy_transpile_gate_ok sp gs line d U g SP EG RT CV HU) as (l & ops & g' & E & EL & C & _ & N & L & _).
  exists l, (put_graph gs line g'). split; [exact E|]. split; [exact (C NP)|]. split; [|exact L].
  rewrite Forall_forall in *. intros o H. split; [exact (N o H)|]. subst l. apply in_map_iff in H. destruct H as (o' & <- & _). reflexivity.
Qed.
Print Assumptions C28_transpile_gate.
(** transpile puts the same gates in the opposite order: the reversed block is U, all daggers are on. *)
Theorem C28_transpile_reversed sp gs c : finds_shortest sp -> compilable gs c ->
  exists out gs', phy_transpile sp gs c = Ok (out, gs') /\
    replaced (fun line d U l => Forall (fun o => snd o = true) l /\
      forall g, pyindex gs line = Ok g -> Forall (fun o => native g (fst o)) l /\
        (no_phases g -> forall V, on_device d g U V ->
           close d (INR d * qr_error code_eps code_delta d) (circuit_matrix d (rev l)) V)) c out.
Proof. intros SP CP. exact (phy_transpile_ok sp SP gs c gs CP CP (follows_refl gs)). Qed.
Print Assumptions C28_transpile_reversed.
(** So transpile is wrong where transpile_gate is right. *)
Theorem C28_refuted : exists U, unitary 2 U /\ on_device 2 pair_graph U U /\
  (exists l gs', phy_transpile_gate search_shortest [pair_graph] 0 2 U = Ok (l, gs') /\
     close 2 (INR 2 * qr_error code_eps code_delta 2) (circuit_matrix 2 l) U) /\
  (exists l gs', phy_transpile search_shortest [pair_graph] [ISingle 0 2 U] = Ok (map (OGate 0 2) l, gs') /\
    forall c, ~ close 2 (1 / 10) (circuit_matrix 2 l) (mscal c U)).
Proof. exact phy_transpile_wrong. Qed.
Print Assumptions C28_refuted.

(** C75: what becomes of the phases stored in the graph. The physical pass puts the stored phases, inverted,
    after the gate; the graph is left without phases, its levels where they were. *)
Theorem C75_physical sp gs line d U g f :
  finds_shortest sp -> pyindex gs line = Ok g -> routable d g -> covers d g -> unitary d U -> pending g f ->
  exists l g', phy_transpile_gate sp gs line d U = Ok (l, put_graph gs line g') /\ no_phases g' /\
    (forall n p, placed g' n p <-> placed g n p) /\
    (forall V, on_device d g U V -> close d (INR d * qr_error code_eps code_delta d + code_delta)
       (circuit_matrix d l) (mmul d (madj (phases f)) V)).
Proof.
  intros SP EG RT CV HU PF. destruct (phy_transpile_gate_ok sp gs line d U g SP EG RT CV HU) as (l & ops & g' & E & _ & _ & C & _ & _ & _ & _ & NP & P & _).
  exists l, g'. split; [exact E|]. split; [exact NP|]. split; [exact P|]. intros V HV. exact (C f V PF HV).
Qed.
Print Assumptions C75_physical.
(** The logical decomposition emits nothing for them and leaves the graph without phases. *)
Theorem C75_logical sp eps delta d U g :
  finds_shortest sp -> routable d g -> covers d g -> unitary d U -> (0 <= eps)%R -> (0 <= delta)%R ->
  exists ops alg tot g', log_execute sp eps delta false false d U g = Ok (ops, alg, tot, g') /\ no_phases g' /\
    close d (qr_error eps delta d) (mmul d (ops_matrix d ops) U) mid.
Proof.
  intros SP RT CV HU E0 D0. destruct (log_execute_ok sp eps delta false false d U g SP RT CV HU E0 D0) as (ops & alg & tot & g' & E & C & _ & _ & _ & _ & _ & _ & N).
  exists ops, alg, tot, g'. auto.
Qed.
Print Assumptions C75_logical.
(** A decomposition that is part of a larger one puts the phases back, up to whole turns. *)
Theorem C75_restored sp eps delta d U g :
  finds_shortest sp -> routable d g -> covers d g -> unitary d U -> (0 <= eps)%R -> (0 <= delta)%R ->
  exists ops alg tot g', phy_execute sp eps delta false true d U g = Ok (ops, alg, tot, g') /\
    forall n v x, has_attr g n "phase_storage" v -> num v = Ok x ->
      exists y, has_attr g' n "phase_storage" (AFlt y) /\ same_mod (2 * PI) y x.
Proof. exact (phases_restored sp eps delta d U g). Qed.
Print Assumptions C75_restored.
(** So the stored phases are neither kept nor realised. *)
Theorem C75_refuted : exists U g f, unitary 2 U /\ routable 2 g /\ covers 2 g /\ pending g f /\ on_device 2 g U U /\
  forall sp, finds_shortest sp -> exists l g', phy_transpile_gate sp [g] 0 2 U = Ok (l, [g']) /\ no_phases g' /\
    (forall c, ~ close 2 (1 / 10) (circuit_matrix 2 l) (mscal c (mmul 2 (phases f) U))) /\
    (forall c, ~ close 2 (1 / 10) (circuit_matrix 2 l) (mscal c (mmul 2 U (phases f)))).
Proof. exact stored_phases_wrong. Qed.
Print Assumptions C75_refuted.

(** C76: the passes leave the other gates and their order alone, and the gates that replace a single-qudit
    gate are on its line. *)
Theorem C76_logical sp gs c : finds_shortest sp -> compilable gs c ->
  exists out gs', log_transpile sp gs c = Ok (out, gs') /\ replaced (fun _ _ _ _ => True) c out /\
    List.length gs' = List.length gs.
Proof. exact (log_structure sp gs c). Qed.
Print Assumptions C76_logical.
Theorem C76_physical sp gs c : finds_shortest sp -> compilable gs c ->
  exists out gs', phy_transpile sp gs c = Ok (out, gs') /\ replaced (fun _ _ _ _ => True) c out /\
    List.length gs' = List.length gs.
Proof. exact (phy_structure sp gs c). Qed.
Print Assumptions C76_physical.

(** Cases: the three-level ion, a rotation between levels the ion does not couple directly. *)
Example C27_case : finds_shortest search_shortest /\ routable 3 traps_three /\ covers 3 traps_three /\ no_phases traps_three /\
  unitary 3 (rotation 0 2 1 1).
Proof. exact three_case. Qed.
Example C27_case_exact : exists ops alg tot g', log_execute search_shortest 0 0 false false 3 (rotation 0 2 1 1) traps_three = Ok (ops, alg, tot, g') /\
  meq 3 (mmul 3 (ops_matrix 3 ops) (rotation 0 2 1 1)) mid.
Proof. destruct three_case as (A & B & C & _ & D). exact (C27_exact search_shortest false false 3 _ _ A B C D). Qed.
Example C28_case : exists V, on_device 3 traps_three (rotation 0 2 1 1) V.
Proof. exact three_device. Qed.
Example C28_case_circuit : compilable [traps_three; pair_graph]
  [IOther 7; ISingle 0 3 (rotation 0 2 1 1); ISingle 1 2 swapped_phase; ISingle (-1) 2 swapped_phase].
Proof. exact three_circuit. Qed.
Example C75_case : exists g, routable 2 g /\ covers 2 g /\ pending g (fun l => if Nat.eqb l 1 then (PI / 2)%R else 0%R) /\
  (forall V, on_device 2 g V V) /\ ~ no_phases g.
Proof. exact phased_pair. Qed.
