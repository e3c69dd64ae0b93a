(** States of some of the registers only.
    Source: include/dd/MDDPackage.hpp:276-322 (makeZeroState, makeBasisState with a first register).

    Simplifications: as in DdModel.v; the casts of register numbers do not wrap around. *)
From Coq Require Import Arith Reals Bool List.
From Verif Require Import Base.Cplx Misim.DdModel.
Import ListNotations.
Local Open Scope nat_scope.

(** the state, std::runtime_error (lines 278-287, 306-313), std::out_of_range of a vector (line 317) *)
Inductive made := Made (e : edge) | TooMany | BadLevels.

Section Part.
Variable tol : R.
(** registersSizes, register 0 first *)
Variable dims : list nat.

(** lines 289-300 *)
Fixpoint zero_layers (vs : list nat) (f : edge) : edge :=
  match vs with [] => f | v :: r => zero_layers r (make tol false false v (f :: repeat zero_edge (nth v dims 0 - 1))) end.
(** lines 277-302 (makeZeroState) *)
Definition make_zero_state (n start : nat) : made :=
  if Nat.ltb (length dims) (n + start) then TooMany else Made (zero_layers (seq start n) one_edge).

(** lines 315-320: state.at(pos), and edges.at(...) with as many edges as the register has levels *)
Fixpoint basis_layers (levels vs : list nat) (f : edge) : option edge :=
  match vs with
  | [] => Some f
  | v :: r =>
      match nth_error levels v with
      | None => None
      | Some l =>
          if Nat.ltb l (nth v dims 0) then
            basis_layers levels r (make tol false false v (tab (nth v dims 0) (fun i => if Nat.eqb i l then f else zero_edge)))
          else None
      end
  end.
(** lines 304-322 (makeBasisState) *)
Definition make_basis_state (n : nat) (levels : list nat) (start : nat) : made :=
  if Nat.ltb (length dims) (n + start) then TooMany
  else match basis_layers levels (seq start n) one_edge with Some e => Made e | None => BadLevels end.
End Part.
