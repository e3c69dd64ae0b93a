(** C49, C82: the two-qudit blocks and the decomposition of two-qudit gates.
    Specification: BlockSpec. *)
From Coq Require Import Reals Lra Lia List Arith ZArith.
From Verif.Base Require Import Py PyFacts Cplx Matrix.
From Verif.Gates Require Import SingleSpec.
From Verif.Local Require Import QrModel QrSpec.
From Verif.Ent Require Import BlockModel BlockSpec PermProofs ExecProofs EmitProofs LibProofs.
Import ListNotations.
Local Open Scope nat_scope.

(** C49: the state of the pair with levels (c, t) has index c*dt+t.  For a pair of states i, i+1 with the same level
    of the first qudit, permute_crot_101_as_list returns existing gates, two of them CEx, that make up exactly the
    rotation between these states and leave every other state alone. *)
Theorem C49_controlled_rotation dc dt i theta phi : 2 <= dc -> 2 <= dt -> i < dc * dt -> (i + 1) mod dt <> 0 ->
  exists l, permute_crot dc dt i theta phi = Ok l /\ meq (dc * dt) (circuit_op dc dt l) (rotation i (i + 1) theta phi) /\
    Forall (valid_gate dc dt) l /\ cex_gates l = 2.
Proof.
  intros Hc Ht Hi Hm. destruct (crot_block dc dt Hc Ht i theta phi Hi Hm) as (l & E & G & M). exists l. split; [exact E|].
  split; [eapply meq_trans; [apply circuit_bmat; trivial|exact M]|]. split; [apply good_valid; trivial|exact (crot_cex _ _ _ _ _ _ E)].
Qed.
Print Assumptions C49_controlled_rotation.
(** For states i, i+1 on different levels of the first qudit, permute_pswap_101_as_list does it with 16 CEx. *)
Theorem C49_partial_swap dc dt i theta phi : 2 <= dc -> 2 <= dt -> i + 1 < dc * dt -> (i + 1) mod dt = 0 ->
  exists l, permute_pswap dc dt i theta phi false = Ok l /\ meq (dc * dt) (circuit_op dc dt l) (rotation i (i + 1) theta phi) /\
    Forall (valid_gate dc dt) l /\ cex_gates l = 16.
Proof.
  intros Hc Ht Hi Hm. destruct (pswap_block dc dt Hc Ht i theta phi Hi Hm) as (l & E & G & M). exists l. split; [exact E|].
  split; [eapply meq_trans; [apply circuit_bmat; trivial|exact M]|]. split; [apply good_valid; trivial|exact (pswap_cex _ _ _ _ _ _ E)].
Qed.
Print Assumptions C49_partial_swap.
(** The phase rotations built from them. *)
Theorem C49_phase_rotation dc dt i phi : 2 <= dc -> 2 <= dt -> i + 1 < dc * dt ->
  exists l, (if Nat.eqb ((i + 1) mod dt) 0 then z_pswap dc dt i phi else z_from_crot dc dt i phi) = Ok l /\
    meq (dc * dt) (circuit_op dc dt l) (zrot i (i + 1) phi) /\
    Forall (valid_gate dc dt) l /\ cex_gates l = (if Nat.eqb ((i + 1) mod dt) 0 then 48 else 6).
Proof.
  intros Hc Ht Hi. destruct (Nat.eqb_spec ((i + 1) mod dt) 0) as [Hm|Hm].
  - destruct (zpswap_block dc dt Hc Ht i phi Hi Hm) as (l & E & G & M & N). exists l. split; [exact E|].
    split; [eapply meq_trans; [apply circuit_bmat; trivial|exact M]|]. split; [apply good_valid; trivial|exact N].
  - destruct (zcrot_block dc dt Hc Ht i phi Hi Hm) as (l & E & G & M & N). exists l. split; [exact E|].
    split; [eapply meq_trans; [apply circuit_bmat; trivial|exact M]|]. split; [apply good_valid; trivial|exact N].
Qed.
Print Assumptions C49_phase_rotation.
(** Between qubits every block is undone by its gates in reverse order, each daggered with dag(). *)
Theorem C49_undone i theta phi : i < 3 ->
  exists l, (if Nat.eqb ((i + 1) mod 2) 0 then permute_pswap 2 2 i theta phi false else permute_crot 2 2 i theta phi) = Ok l /\
    meq 4 (circuit_op 2 2 (l ++ map set_dag (rev l))) mid.
Proof.
  intros Hi. destruct (Nat.eqb_spec ((i + 1) mod 2) 0) as [Hm|Hm].
  - destruct (pswap_block 2 2 ltac:(lia) ltac:(lia) i theta phi ltac:(lia) Hm) as (l & E & G & _). exists l. split; [exact E|].
    apply (undone 2 2); [lia|lia|exact G|]. apply G; reflexivity.
  - destruct (crot_block 2 2 ltac:(lia) ltac:(lia) i theta phi ltac:(lia) Hm) as (l & E & G & _). exists l. split; [exact E|].
    apply (undone 2 2); [lia|lia|exact G|]. apply G; reflexivity.
Qed.
Print Assumptions C49_undone.
(** In other dimensions this fails: some gates of the block are daggered already, and dag() leaves them so. *)
Theorem C49_undone_refuted : exists l, permute_crot 2 3 1 PI (- PI / 2) = Ok l /\ ~ meq 6 (circuit_op 2 3 (l ++ map set_dag (rev l))) mid.
Proof. exact not_undone. Qed.
Print Assumptions C49_undone_refuted.
(** The states 7 and 8 of qudits of dimensions 4 and 5 have the same level of the first qudit, those of qudits of
    dimensions 3 and 4 have different ones. *)
Example C49_case_1 : 2 <= 4 /\ 2 <= 5 /\ 7 < 4 * 5 /\ (7 + 1) mod 5 <> 0.
Proof. repeat split; try lia. discriminate. Qed.
Example C49_case_2 : 2 <= 3 /\ 2 <= 4 /\ 7 + 1 < 3 * 4 /\ (7 + 1) mod 4 = 0.
Proof. repeat split; lia. Qed.

(** C82: for every unitary on two qudits, given in the order (first line, second line), the decomposition ends with
    gates that bring it to the identity up to a global phase and the error the thresholds allow; the gates exist, and
    the two counters give the number of CEx. *)
Theorem C82_decomposes round6 det solve eps delta dc dt U :
  rounds6 round6 -> exact_det det -> exact_solve det solve -> 2 <= dc -> 2 <= dt -> (0 <= eps)%R -> (0 <= delta)%R -> unitary (dc * dt) U ->
  exists l crot pswap gamma, ent_execute round6 det solve eps delta dc dt true U = Ok (l, crot, pswap) /\
    close (dc * dt) (ent_error eps delta (dc * dt)) (mmul (dc * dt) (circuit_op dc dt l) U) (with_phase gamma mid) /\
    Forall (valid_gate dc dt) l /\ cex_gates l = 2 * crot + 4 * pswap /\
    4 * (2 * crot + pswap) <= 8 * (dc * dt * (dc * dt - 1) + 6 * (dc * dt - 1)).
Proof.
  intros HR HD HS Hc Ht E0 D0 HU. destruct (execute_ok round6 det solve eps delta dc dt Hc Ht HD HS HR U E0 D0 HU) as (l & c & p & g & E & G & C & N & B).
  exists l, c, (4 * p), g. split; [exact E|]. split; [exact C|]. split; [apply good_valid; trivial|]. split; [lia|]. lia.
Qed.
Print Assumptions C82_decomposes.
(** With the thresholds of the code every entry is within 3 * 10^-4, up to 1000 states. *)
Theorem C82_thresholds n : n <= 1000 -> (ent_error code_eps code_delta n <= 3 / 10000)%R.
Proof. exact (ent_error_small n). Qed.
Print Assumptions C82_thresholds.
(** A gate on lines in decreasing order comes with its matrix in the order of the lines, (second, first); the
    decomposition reads it as (first, second): the gates put out for it do not bring it to the identity, whatever the
    phase. *)
Theorem C82_reversed_refuted round6 det solve : rounds6 round6 -> exact_det det -> exact_solve det solve ->
  exists U, unitary 4 U /\ exists l c p, ent_execute round6 det solve code_eps code_delta 2 2 false U = Ok (l, c, p) /\
    forall gamma, ~ close 4 (1 / 2) (mmul 4 (circuit_op 2 2 l) (exchanged 2 2 U)) (with_phase gamma mid).
Proof. intros HR HD HS. exists flip1. exact (reversed_wrong round6 det solve HD HS HR). Qed.
Print Assumptions C82_reversed_refuted.
(** The assumptions on round, det and solve can be met. *)
Example C82_case : exists round6 det solve, rounds6 round6 /\ exact_det det /\ exact_solve det solve.
Proof. exact library_exists. Qed.
Print Assumptions C82_case.
