(** What is asked of the table of real numbers. *)
From Coq Require Import List Reals.
From Verif Require Import Misim.TableModel.
Local Open Scope nat_scope.

(** the table stores the cell *)
Definition stored (t : table) (a : nat) : Prop := exists k, In a (bucket t k).
(** what the tolerance and the size of the table must satisfy: a bucket is wider than the window of a lookup *)
Definition sound_settings (tol : R) (mask : nat) : Prop := (0 < tol /\ 2 * tol * INR mask < 1)%R.
(** a table in use: created, and then used in any way *)
Definition reachable (tol : R) (mask : nat) (root : R) (limit0 : nat) (t : table) : Prop :=
  exists os, (forall v, In (Lookup v) os -> (0 <= v)%R) /\ run tol mask root limit0 (init tol mask root limit0) os = Some t.
(** how often a cell is taken and released *)
Definition taken (a : nat) (os : list op) : nat := length (filter (fun o => match o with IncRef (Cell b) => Nat.eqb a b | _ => false end) os).
Definition released (a : nat) (os : list op) : nat := length (filter (fun o => match o with DecRef (Cell b) => Nat.eqb a b | _ => false end) os).
