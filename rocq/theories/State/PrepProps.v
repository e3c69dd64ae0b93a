(** C36: the circuit prepares the state.  C80: the length of the vector is not checked. *)
From Coq Require Import Reals List Arith ZArith Lia Lra.
From Verif.Base Require Import Py Cplx Matrix Radix.
From Verif.Circuit Require Import GateModel.
From Verif.Sim Require Import TnSpec.
From Verif.State Require Import DdModel DdSpec PrepModel PrepSpec PrepOk PrepCases.
Import ListNotations.
Local Open Scope nat_scope.

(** Without approximation: the gates returned take |0...0> to the vector divided by its norm, up to the rotations by at most eps that are left
    out (1e-5 in the code; with eps = 0 the state is exact).  [no_clash]: the hash tells different siblings apart; [merges_well]: merged nodes do not begin
    with a zero branch, see below. *)
Theorem C36_prepares hash eps tol dims data t gs : (forall d, In d dims -> 1 < d) -> dims <> [] -> List.length data = prodl dims -> norm2 (prodl dims) (vec_of data) <> 0%R -> (0 <= eps)%R ->
  state_tree tol dims data false = Ok t -> no_clash hash t -> merges_well t -> compile_state hash eps tol dims data false = Ok gs ->
  prepares (INR (full_nodes dims) * (eps / 2)) dims gs (unit_of (prodl dims) (vec_of data)).
Proof. exact (prepare_exact hash eps tol dims data t gs). Qed.
Print Assumptions C36_prepares.

(** With approximation: the same for the normalised state of the cut tree, whose fidelity with the state asked for is above 1 - tol. *)
Theorem C36_prepares_approx hash eps tol dims data t gs : (forall d, In d dims -> 1 < d) -> dims <> [] -> List.length data = prodl dims -> norm2 (prodl dims) (vec_of data) = 1%R -> (0 <= eps)%R -> (0 < tol <= 1)%R ->
  state_tree tol dims data true = Ok t -> no_clash hash t -> merges_well t -> compile_state hash eps tol dims data true = Ok gs ->
  prepares (INR (full_nodes dims) * (eps / 2)) dims gs (unit_of (prodl dims) (tree_state dims t)) /\ (1 - tol < Cnorm2 (overlap (prodl dims) (vec_of data) (unit_of (prodl dims) (tree_state dims t))))%R.
Proof. exact (prepare_approx hash eps tol dims data t gs). Qed.
Print Assumptions C36_prepares_approx.

(** The gates are returned when no dimension is above one before it. *)
Theorem C36_returns hash eps tol dims data approx t : (forall d, In d dims -> 1 < d) -> dims <> [] -> List.length data = prodl dims -> (0 < tol)%R -> nonincreasing dims ->
  state_tree tol dims data approx = Ok t -> no_clash hash t -> merges_well t -> exists gs, compile_state hash eps tol dims data approx = Ok gs.
Proof. exact (prepare_returns hash eps tol dims data approx t). Qed.
Print Assumptions C36_returns.

(** It is enough that whenever branches are compared the first one is used. *)
Theorem C36_support tol dims data t : (forall d, In d dims -> 0 < d) -> List.length data = prodl dims -> first_branch_used dims data -> state_tree tol dims data false = Ok t -> merges_well t.
Proof. exact (support_enough tol dims data t). Qed.
Print Assumptions C36_support.

(** States without a zero amplitude have trees that merge well. *)
Theorem C36_full_support tol dims data t : (forall d, In d dims -> 0 < d) -> List.length data = prodl dims -> (forall k, k < prodl dims -> nth k data C0 <> C0) ->
  state_tree tol dims data false = Ok t -> merges_well t.
Proof. exact (full_support tol dims data t). Qed.
Print Assumptions C36_full_support.

(** The gates come after the instructions the circuit already has. *)
Theorem C36_appended hash eps tol dims instructions data approx l : set_initial_state hash eps tol dims instructions data approx = Ok l ->
  exists gs, compile_state hash eps tol dims data approx = Ok gs /\ l = instructions ++ gs.
Proof. unfold set_initial_state. destruct (compile_state _ _ _ _ _ _) as [gs|e]; cbn; [|discriminate]. intros E. injection E as <-. eauto. Qed.
Print Assumptions C36_appended.

(** A vector of zeros, which is no state, gives no gate instead of an exception. *)
Theorem C36_zero_vector hash eps tol dims data : (forall d, In d dims -> 0 < d) -> dims <> [] -> List.length data = prodl dims -> norm2 (prodl dims) (vec_of data) = 0%R -> compile_state hash eps tol dims data false = Ok [].
Proof. exact (prepare_zero hash eps tol dims data). Qed.
Print Assumptions C36_zero_vector.

(** The unrestricted property fails, whatever the hash: (3/5 |1> + 4/5 |2>) (3/5 |0> + 4/5 |1>) on a qutrit and a qubit is not
    prepared, the qubit stays in |0>. *)
Theorem C36_zero_branch_refuted hash eps tol : exists data, List.length data = prodl [3; 2] /\ norm2 (prodl [3; 2]) (vec_of data) = 1%R /\
  exists gs, compile_state hash eps tol [3; 2] data false = Ok gs /\ (forall phi, evolves [3; 2] (ket 0) gs phi -> forall x, x < 3 -> phi (2 * x + 1) = C0) /\ ~ prepares (1 / 2) [3; 2] gs (vec_of data).
Proof.
  exists lost_state. split; [reflexivity|]. split; [apply (lost_not_prepared hash eps tol)|]. destruct (lost_first_branch hash eps tol) as (gs & E & H). exists gs. split; [exact E|]. split; [exact H|].
  destruct (lost_not_prepared hash eps tol) as (_ & gs' & E' & N). rewrite E in E'. injection E' as <-. exact N.
Qed.
Print Assumptions C36_zero_branch_refuted.

(** Nor are the gates always returned: on dimensions 2, 3, 2 a state with merged branches needs a control on level 2 of the second
    qudit alone, and the level is compared with the dimension of the first. *)
Theorem C36_dimensions_refuted hash eps tol : no_clash hash far_tree -> (0 <= eps < 3)%R -> state_tree tol [2; 3; 2] far_state false = Ok far_tree /\ merges_well far_tree /\ norm2 (prodl [2; 3; 2]) (vec_of far_state) = 1%R /\
  compile_state hash eps tol [2; 3; 2] far_state false = Err IndexError.
Proof.
  intros NC E. destruct (far_index hash eps tol NC E) as [N I]. split; [destruct far_build as (c & B); unfold state_tree; rewrite B; reflexivity|]. split; [exact far_merges|]. split; [exact N|exact I].
Qed.
Print Assumptions C36_dimensions_refuted.

(** 3/5 |00> + 4/5 |11> meets the hypotheses of C36_prepares and C36_returns, the state on dimensions 2, 3, 2 that of C36_dimensions_refuted. *)
Example C36_case tol : state_tree tol [2; 2] bell_state false = Ok bell_tree /\ no_clash some_hash bell_tree /\ merges_well bell_tree /\ nonincreasing [2; 2] /\ norm2 4 (vec_of bell_state) = 1%R.
Proof. exact (bell_case tol). Qed.
Example C36_far_case : no_clash some_hash far_tree.
Proof. exact far_clash. Qed.

(** Vectors that are too short are rejected. *)
Theorem C80_short hash eps tol dims data approx : (forall d, In d dims -> 0 < d) -> List.length data < prodl dims -> compile_state hash eps tol dims data approx = Err IndexError.
Proof. exact (too_short hash eps tol dims data approx). Qed.
Print Assumptions C80_short.
(** A vector that is longer than the register needs, by less than the first dimension, is compiled as if it had the right length. *)
Theorem C80_refuted hash eps tol d r data junk approx : List.length data = prodl (d :: r) -> List.length junk < d -> compile_state hash eps tol (d :: r) (data ++ junk) approx = compile_state hash eps tol (d :: r) data approx.
Proof. exact (too_long hash eps tol d r data junk approx). Qed.
Print Assumptions C80_refuted.
Example C80_case : List.length bell_state = prodl [2; 2] /\ List.length [C1] < 2.
Proof. split; [reflexivity|cbn; lia]. Qed.
