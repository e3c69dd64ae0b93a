(** The generalised Gell-Mann matrices as a family. *)
From Coq Require Import Arith ZArith String.
From Verif.Base Require Import Py Cplx Matrix.
From Verif.Gates Require Import GellModel.
Local Open Scope nat_scope.

(** the members of the family in dimension d: symmetric and antisymmetric ones for each pair of levels, diagonal ones for each level but 0 *)
Inductive member := Sym (a b : nat) | Anti (a b : nat) | Diag (b : nat).
Definition belongs (d : nat) (m : member) : Prop := match m with Sym a b | Anti a b => a < b < d | Diag b => 1 <= b < d end.
(** the gate that is asked for: its levels and its type *)
Definition gate_of (d : nat) (m : member) : res mat :=
  match m with
  | Sym a b => gellmann_matrix d (Z.of_nat a) (Z.of_nat b) "s"
  | Anti a b => gellmann_matrix d (Z.of_nat a) (Z.of_nat b) "a"
  | Diag b => gellmann_matrix d 0 (Z.of_nat b) "d"
  end.
Definition trace (d : nat) (M : mat) : C := csum d (fun i => M i i).
(** the sum of f over the family *)
Definition over_family (d : nat) (f : member -> C) : C :=
  (csum d (fun b => csum b (fun a => f (Sym a b))) + csum d (fun b => csum b (fun a => f (Anti a b))) + csum (d - 1) (fun b => f (Diag (S b))))%C.
