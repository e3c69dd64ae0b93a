(** What the decision tree of a state should say about the state.
    A basis state of the register with dimensions [dims] has one digit per qudit, the first qudit first; a path in the
    tree is such a list of digits, or an initial part of one. *)
From Coq Require Import Reals List Arith.
From Verif.Base Require Import Py Cplx Matrix Radix.
From Verif.State Require Import DdModel.
From Verif.Sim Require Import TnSpec.
Import ListNotations.
Local Open Scope nat_scope.

(** the product of the weights met on the way; a terminal node ends it *)
Fixpoint path_amp (t : dd) (p : list nat) : C :=
  match p, t with
  | i :: p', Inner w ch => Cmul w (path_amp (nth i ch (Term C0 false)) p')
  | _, _ => weight t
  end.
(** the vector a tree stands for *)
Definition tree_state (dims : list nat) (t : dd) : vec := fun k => path_amp t (digits dims k).
Definition vec_of (data : list C) : vec := fun k => nth k data C0.

(** the node a path leads to *)
Fixpoint node_at (t : dd) (p : list nat) : option dd :=
  match p, t with
  | [], _ => Some t
  | i :: p', Inner _ ch => match nth_error ch i with Some c => node_at c p' | None => None end
  | _ :: _, Term _ _ => None
  end.
Fixpoint sumR (l : list R) : R := match l with [] => 0%R | x :: r => (x + sumR r)%R end.
(** every inner node has one child per level of its qudit, and their weights form a unit vector *)
Definition well_formed (dims : list nat) (t : dd) : Prop :=
  forall p w ch, node_at t p = Some (Inner w ch) ->
    nth_error dims (List.length p) = Some (List.length ch) /\ sumR (map (fun c => Cnorm2 (weight c)) ch) = 1%R.

(** the nodes of the full tree *)
Fixpoint full_nodes (dims : list nat) : nat := match dims with [] => 1 | d :: r => 1 + d * full_nodes r end.

(** p is an initial part of q *)
Definition prefix (p q : list nat) : Prop := exists s, q = p ++ s.
Definition prefixb (p q : list nat) : bool := if list_eq_dec Nat.eq_dec (firstn (List.length p) q) p then true else false.
(** the probability of the basis states whose digits begin with p *)
Definition prob_below (dims : list nat) (psi : vec) (p : list nat) : R :=
  rsum (prodl dims) (fun k => if prefixb p (digits dims k) then Cnorm2 (psi k) else 0%R).
(** the inner product of two vectors *)
Definition overlap (n : nat) (v w : vec) : C := csum n (fun k => Cmul (Cconj (v k)) (w k)).
