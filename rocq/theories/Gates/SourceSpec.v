(** What a user expects of a gate's matrix. *)
From Coq Require Import Reals List.
From Verif.Base Require Import Py Cplx Matrix Radix.
From Verif.Gates Require Import SourceModel.
Import ListNotations.
Local Open Scope nat_scope.

(** A matrix that is a gate of the given dimensions. *)
Definition proper (dims : list nat) (a : array) : Prop := a_rows a = prodl dims /\ a_cols a = prodl dims /\ unitary (prodl dims) (a_ent a).
(** The gate was daggered in the history. *)
Definition dagged (i : nat) (h : list action) : Prop := In (Dag i) h.
(** The generator draws unitaries. *)
Definition draws_unitaries (rvs : nat -> nat -> mat) : Prop := forall d k, unitary d (rvs d k).
(** No two samples are the same. *)
Definition never_repeats (rvs : nat -> nat -> mat) : Prop := forall d j k, 0 < d -> j <> k -> ~ meq d (rvs d j) (rvs d k).
