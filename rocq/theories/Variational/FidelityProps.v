(** Properties of the fidelities and of the number the variational compiler minimises (C72).  The vocabulary is
    in AnsatzSpec.v ([same_up_to_phase], [zero_op], [hermitian]) and ChannelSpec.v/TnSpec.v ([trace], [norm2]). *)
From Coq Require Import List ZArith Arith Lia Permutation Reals Lra String.
From Verif Require Import Base.Py Base.Cplx Base.Matrix Base.Radix Base.Expm Circuit.GateModel Noise.ChannelSpec Sim.TnSpec.
From Verif Require Import Variational.AnsatzModel Variational.AnsatzSpec Variational.FidelityModel Variational.FidelityProofs Variational.AnsatzUnitary.
Import ListNotations.
Local Open Scope nat_scope.

(** ** C72: fidelities *)

Theorem C72_unitaries_range : forall n a b, 0 < n -> unitary n a -> unitary n b ->
  exists f, fidelity_on_unitares (Arr n n a) (Arr n n b) = Ok f /\ (0 <= f <= 1)%R.
Proof. exact unitares_range. Qed.
Print Assumptions C72_unitaries_range.
Theorem C72_unitaries_one : forall n a b, 0 < n -> unitary n a -> unitary n b ->
  (fidelity_on_unitares (Arr n n a) (Arr n n b) = Ok 1%R <-> same_up_to_phase n b a).
Proof. exact unitares_one. Qed.
Print Assumptions C72_unitaries_one.
Theorem C72_operators_range : forall n a b, 0 < n -> ~ zero_op n a -> ~ zero_op n b ->
  exists f, fidelity_on_operator (Arr n n a) (Arr n n b) = Ok f /\ (0 <= f <= 1)%R.
Proof. exact operator_range. Qed.
Print Assumptions C72_operators_range.
Theorem C72_operators_one : forall n a b, 0 < n -> ~ zero_op n a -> ~ zero_op n b ->
  (fidelity_on_operator (Arr n n a) (Arr n n b) = Ok 1%R <-> exists c, meq n b (mscal c a)).
Proof. exact operator_one. Qed.
Print Assumptions C72_operators_one.
Theorem C72_density_range : forall n a b, 0 < n -> hermitian n a -> hermitian n b -> trace n a = C1 -> trace n b = C1 ->
  exists f, fidelity_on_density_operator (Arr n n a) (Arr n n b) = Ok f /\ (0 <= f <= 1)%R.
Proof. exact density_range. Qed.
Print Assumptions C72_density_range.
Theorem C72_density_one : forall n a b, 0 < n -> hermitian n a -> hermitian n b -> trace n a = C1 -> trace n b = C1 ->
  (fidelity_on_density_operator (Arr n n a) (Arr n n b) = Ok 1%R <-> meq n a b).
Proof. exact density_one. Qed.
Print Assumptions C72_density_one.
Theorem C72_states_range : forall n v w, norm2 n v = 1%R -> norm2 n w = 1%R ->
  exists f, naive_state_fidelity n n v w = Ok f /\ (0 <= f <= 1)%R.
Proof. exact states_range. Qed.
Print Assumptions C72_states_range.
Theorem C72_states_one : forall n v w, norm2 n v = 1%R -> norm2 n w = 1%R ->
  (naive_state_fidelity n n v w = Ok 1%R <-> exists c, Cnorm2 c = 1%R /\ veq n w (fun k => Cmul c (v k))).
Proof. exact states_one. Qed.
Print Assumptions C72_states_one.
(** All are symmetric. *)
Theorem C72_symmetric : forall a b, fidelity_on_unitares a b = fidelity_on_unitares b a /\
  fidelity_on_operator a b = fidelity_on_operator b a /\ fidelity_on_density_operator a b = fidelity_on_density_operator b a.
Proof. exact symmetric. Qed.
Print Assumptions C72_symmetric.
Theorem C72_states_symmetric : forall n m v w, naive_state_fidelity n m v w = naive_state_fidelity m n w v.
Proof. exact states_symmetric. Qed.
Print Assumptions C72_states_symmetric.
(** Arrays of different or non-square shapes are rejected, and states of different lengths. *)
Theorem C72_shapes : forall a b, ~ (rows a = rows b /\ cols a = cols b /\ rows a = cols a) ->
  fidelity_on_unitares a b = Err ValueError /\ fidelity_on_operator a b = Err ValueError /\ fidelity_on_density_operator a b = Err ValueError.
Proof. exact shapes. Qed.
Print Assumptions C72_shapes.
Theorem C72_state_lengths : forall n m v w, n <> m -> naive_state_fidelity n m v w = Err ValueError.
Proof. exact state_lengths. Qed.
Print Assumptions C72_state_lengths.

(** The number that is minimised is never negative, and it is zero exactly if the emitted gates, read
    backwards, are the target up to a global phase. *)
Theorem C72_error_range : forall n a t, 0 < n -> unitary n a -> unitary n t ->
  exists e, objective (Arr n n a) (Arr n n t) = Ok e /\ (0 <= e <= 1)%R.
Proof. exact objective_range. Qed.
Print Assumptions C72_error_range.
Theorem C72_error_zero : forall expm, exact_expm expm -> forall d0 d1, 2 <= d0 -> 2 <= d1 ->
  forall a p gs T, proper_primitive a -> match a with CU (Some g) => unitary (d0 * d1) (g_data g) | _ => True end ->
  unitary (d0 * d1) T -> create_instance expm a [d0; d1] p d0 d1 = Ok gs ->
  exists U A, ansatz_matrix expm a p d0 d1 = Ok U /\ implements [d0; d1] (rev gs) A /\
    (objective (Arr (d0 * d1) (d0 * d1) U) (Arr (d0 * d1) (d0 * d1) T) = Ok 0%R <-> same_up_to_phase (d0 * d1) T A).
Proof. exact reached. Qed.
Print Assumptions C72_error_zero.

Example C72_case : fidelity_on_unitares (Arr 2 2 mid) (Arr 2 2 (two_level 0 1 C0 C1 C1 C0)) = Ok 0%R /\
  fidelity_on_unitares (Arr 2 2 mid) (Arr 2 2 (mscal Ci mid)) = Ok 1%R.
Proof. exact unitares_case. Qed.
Example C72_case_density : hermitian 2 (mdiag (fun _ => RtoC (1 / 2))) /\ trace 2 (mdiag (fun _ => RtoC (1 / 2))) = C1.
Proof. split; [intros i j _ _; unfold madj, mdiag; rewrite Nat.eqb_sym; destruct (i =? j) eqn:E; [apply Nat.eqb_eq in E; subst; apply Ceq; cbn; ring|apply Ceq; cbn; ring]|]. apply Ceq; cbn; lra. Qed.
