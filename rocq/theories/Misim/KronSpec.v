(** What a tensor product of decision diagrams has to be. *)
From Coq Require Import List Arith.
From Verif Require Import Base.Cplx Base.Matrix Base.Radix Misim.DdModel Misim.DdSpec Misim.KronModel.
Import ListNotations.
Local Open Scope nat_scope.

(** the entry of the matrix of a diagram over m registers of size d, row p and column q, top register first *)
Definition entry_of (d m : nat) (e : edge) (p q : list nat) : C := ev e (entry true (repeat d m) p q).
Definition matrix_diagram (d m : nat) (e : edge) : Prop := ewf (arity true (repeat d m)) e.
Definition levels (d m : nat) (p : list nat) : Prop := valid (repeat d m) p.
(** e is the tensor product of x (m registers, on top) and y (k registers) *)
Definition tensor (d m k : nat) (x y e : edge) : Prop := matrix_diagram d (m + k) e /\
  forall p p' q q', levels d m p -> levels d m p' -> levels d k q -> levels d k q' ->
  entry_of d (m + k) e (p ++ q) (p' ++ q') = Cmul (entry_of d m x p p') (entry_of d k y q q').

(** The diagram x with every factor in front of an identity replaced by one.  [m] registers. *)
Fixpoint without_factors (d m : nat) (x : edge) : edge :=
  if is_zero (fst x) then zero_edge
  else match m, snd x with
  | S m', Node v es => if is_ident (repeat d m) (snd x) then (C1, snd x) else (fst x, Node v (map (without_factors d m') es))
  | _, _ => x
  end.
(** no identity on at least one register has a factor in front *)
Fixpoint plain (d m : nat) (x : edge) : Prop :=
  fst x = C0 \/
  match m, snd x with
  | S m', Node v es => if is_ident (repeat d m) (snd x) then fst x = C1 else Forall (plain d m') es
  | _, _ => True
  end.
(** The check of the nodes of a product of x cannot throw: x has nothing but zeros off its diagonals, or else what is off the
    diagonals is marked symmetric, and so is the other factor ([sym]). *)
Fixpoint safe (dims : list nat) (sym : bool) (d m : nat) (x : edge) : Prop :=
  fst x = C0 \/
  match m, snd x with
  | S m', Node v es => is_ident (repeat d m) (snd x) = true \/
      forall i, i < d * d ->
        if Nat.eqb (i / d) (i mod d) then safe dims sym d m' (edge_at es i)
        else fst (edge_at es i) = C0 \/ (sym = true /\ marked 0 dims (snd (edge_at es i)) = true)
  | _, _ => True
  end.
