(** C94: how much the built-in entangling primitives of the variational compilation entangle. *)
From Coq Require Import Reals List Arith Lia.
From Verif.Base Require Import Py Cplx Matrix Expm.
From Verif.Circuit Require Import GateModel.
From Verif.Gates Require Import TwoModel TwoSpec EntProofs.
From Verif.Variational Require Import AnsatzModel AnsatzSpec EmitProofs EmitCases PrimSpec PrimProofs.
Import ListNotations.
Local Open Scope nat_scope.

(** [ms_gate expm cdims d0 d1], [ls_gate expm cdims d0 d1]: the gate that ms_ansatz / ls_ansatz put between two rows of local
    gates, for qudits with d0 and d1 levels; [ls_array d0 d1 theta E]: E is the array of LS(theta). *)

(** The angle picked for LS makes it a maximal entangler as long as the smaller qudit has at most four levels. *)
Theorem C94_ls : forall expm, exact_expm expm -> forall cdims d0 d1 g, 2 <= Nat.min d0 d1 <= 4 -> ls_gate expm cdims d0 d1 = Ok g -> entangles_fully d0 d1 (g_data g).
Proof. intros expm EX cdims d0 d1 g H Hg. exact (ls_gate_entangles expm EX cdims d0 d1 g H Hg). Qed.
Print Assumptions C94_ls.
(** From five levels on, two equal qudits are not entangled fully by LS, whatever the angle. *)
Theorem C94_ls_limit : forall d theta E, 5 <= d -> ls_array d d theta E -> ~ entangles_fully d d E.
Proof. intros d theta E H HE. apply (ls_never d theta E); [|exact H]. intros. apply (ls_entries d d); assumption. Qed.
Print Assumptions C94_ls_limit.
Theorem C94_ls_five_refuted : forall expm, exact_expm expm -> forall cdims d g, 5 <= d -> ls_gate expm cdims d d = Ok g -> ~ entangles_fully d d (g_data g).
Proof. intros expm EX cdims d g H Hg. exact (ls_gate_never expm EX cdims d g H Hg). Qed.
Print Assumptions C94_ls_five_refuted.
(** MS takes both qudits from level 0 to an even superposition of 00 and 11 ... *)
Theorem C94_ms_levels : forall expm, exact_expm expm -> forall cdims d0 d1 g, 2 <= d0 -> 2 <= d1 -> ms_gate expm cdims d0 d1 = Ok g ->
  two_levels_entangled d0 d1 (mapply (d0 * d1) (g_data g) (product_state d1 (ket 0) (ket 0))).
Proof. intros expm EX cdims d0 d1 g H0 H1 Hg. exact (ms_gate_two_levels expm EX cdims d0 d1 g H0 H1 Hg). Qed.
Print Assumptions C94_ms_levels.
(** ... which is maximal if one of them is a qubit, and only then. *)
Theorem C94_ms : forall expm, exact_expm expm -> forall cdims d0 d1 g, 2 <= d0 -> 2 <= d1 -> ms_gate expm cdims d0 d1 = Ok g ->
  (entangles_fully d0 d1 (g_data g) <-> Nat.min d0 d1 = 2).
Proof.
  intros expm EX cdims d0 d1 g H0 H1 Hg. split; [|exact (ms_gate_entangles expm EX cdims d0 d1 g H0 H1 Hg)].
  intros F. destruct (Nat.eq_dec (Nat.min d0 d1) 2) as [E|E]; [exact E|]. exfalso. apply (ms_gate_never expm EX cdims d0 d1 g H0 H1 Hg); [lia|exact F].
Qed.
Print Assumptions C94_ms.
Theorem C94_ms_refuted : forall expm, exact_expm expm -> forall g, ms_gate expm [3; 3] 3 3 = Ok g -> ~ entangles_fully 3 3 (g_data g).
Proof. intros expm EX g Hg. apply (ms_gate_never expm EX [3; 3] 3 3 g); [lia|lia|exact Hg|cbn; lia]. Qed.
Print Assumptions C94_ms_refuted.

(** The exponential exists and the gates are accepted for all dimensions. *)
Example C94_case_expm : exists expm, exact_expm expm.
Proof. exact exact_expm_exists. Qed.
Example C94_case_gates : forall expm cdims d0 d1, (exists g, ls_gate expm cdims d0 d1 = Ok g) /\ (exists g, ms_gate expm cdims d0 d1 = Ok g).
Proof. intros expm cdims d0 d1. split; [apply ls_gate_ok|apply ms_gate_ok]. Qed.
Example C94_case_array : exists E, ls_array 5 5 PI E.
Proof. apply ls_exists. lia. Qed.
(** Being entangled fully is not for free: the gate that does nothing does not do it. *)
Example C94_case_identity : ~ entangles_fully 2 2 mid.
Proof. exact identity_never. Qed.
