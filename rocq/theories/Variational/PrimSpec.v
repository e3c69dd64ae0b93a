(** Vocabulary for C94: how much a gate can entangle. *)
From Coq Require Import Reals Arith.
From Verif.Base Require Import Cplx Matrix.
From Verif.Sim Require Import TnSpec.
Local Open Scope nat_scope.

(** The state of two qudits, of dimensions d0 and d1, that are in the states a and b. *)
Definition product_state (d1 : nat) (a b : vec) : vec := fun k => (a (k / d1) * b (k mod d1))%C.
(** Entry (i, i') of the density matrix of one of two qudits in the joint state v, the other one being disregarded. *)
Definition first_alone (d1 : nat) (v : vec) (i i' : nat) : C := csum d1 (fun j => (v (i * d1 + j)%nat * Cconj (v (i' * d1 + j)%nat))%C).
Definition second_alone (d0 d1 : nat) (v : vec) (j j' : nat) : C := csum d0 (fun i => (v (i * d1 + j)%nat * Cconj (v (i * d1 + j')%nat))%C).
(** All levels equally likely, without coherence. *)
Definition fully_mixed (d : nat) (rho : nat -> nat -> C) : Prop :=
  forall i i', i < d -> i' < d -> rho i i' = if Nat.eqb i i' then RtoC (/ INR d) else C0.
(** Two qudits are maximally entangled if the smaller one, looked at alone, is fully mixed. *)
Definition maximally_entangled (d0 d1 : nat) (v : vec) : Prop :=
  (d0 <= d1 -> fully_mixed d0 (first_alone d1 v)) /\ (d1 <= d0 -> fully_mixed d1 (second_alone d0 d1 v)).
(** The gate G on two qudits takes some pair of unentangled states to a maximally entangled one. *)
Definition entangles_fully (d0 d1 : nat) (G : mat) : Prop :=
  exists a b, norm2 d0 a = 1%R /\ norm2 d1 b = 1%R /\ maximally_entangled d0 d1 (mapply (d0 * d1) G (product_state d1 a b)).
(** Each qudit alone is in an even mixture of its levels 0 and 1: the pair is as entangled as two qubits can be. *)
Definition half_mixed (d : nat) (rho : nat -> nat -> C) : Prop :=
  forall i i', i < d -> i' < d -> rho i i' = if (Nat.eqb i i' && (i <? 2))%bool then RtoC (/ 2) else C0.
Definition two_levels_entangled (d0 d1 : nat) (v : vec) : Prop := half_mixed d0 (first_alone d1 v) /\ half_mixed d1 (second_alone d0 d1 v).
