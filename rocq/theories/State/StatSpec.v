(** When a branch of a decision tree is small. *)
From Coq Require Import Reals List Arith.
From Verif.Base Require Import Py Cplx Matrix Radix.
From Verif.State Require Import DdModel DdSpec.
Import ListNotations.
Local Open Scope nat_scope.

(** Given that a measurement of the first qudits of [psi] gave [p], the next one gives [i] with a probability below [tol]. *)
Definition small (dims : list nat) (psi : vec) (tol : R) (p : list nat) (i : nat) : Prop :=
  (prob_below dims psi (p ++ [i]) < tol * prob_below dims psi p)%R.
(** On the way to the basis state with digits [q] there is a small branch. *)
Definition cut_off (dims : list nat) (psi : vec) (tol : R) (q : list nat) : Prop := exists p i, prefix (p ++ [i]) q /\ small dims psi tol p i.
Definition sum_dims (dims : list nat) : nat := fold_right Nat.add 0 dims.
