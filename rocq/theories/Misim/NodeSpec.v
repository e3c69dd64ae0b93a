(** What the memory of the decision diagram simulator stands for. *)
From Coq Require Import List Arith Reals Bool.
From Verif Require Import Base.Cplx Sim.TnModel Misim.MisimModel Misim.DdModel Misim.DdSpec Misim.NodeModel.
Import ListNotations.
Local Open Scope nat_scope.

(** equality of diagrams *)
Fixpoint node_eqb (x y : node) : bool :=
  match x, y with
  | Term, Term => true
  | Node v es, Node u fs => Nat.eqb v u &&
      (fix go (es fs : list edge) : bool :=
         match es, fs with
         | [], [] => true
         | e :: es', f :: fs' => is_eq (fst e) (fst f) && node_eqb (snd e) (snd f) && go es' fs'
         | _, _ => false
         end) es fs
  | _, _ => false
  end.

(** the unique table holds the node *)
Definition in_table (h : heap) (a : nat) : Prop := exists v k, In a (bucket h v k).

(** The diagram behind a pointer: the tree that is read by following pointers to nodes in the unique table. *)
Inductive den (h : heap) : ref -> node -> Prop :=
  | den_term : den h None Term
  | den_node a fs : in_table h a -> Forall2 (fun e f => fst e = fst f /\ den h (snd e) (snd f)) (snd (cell h a)) fs ->
      den h (Some a) (Node (fst (cell h a)) fs).
Definition dene (h : heap) (e : aedge) (f : edge) : Prop := fst e = fst f /\ den h (snd e) (snd f).

(** the states of the memory a simulation leads to, and the edge of the state vector there; a circuit is arbitrary, so these
    are the states after every gate of every circuit *)
Definition reached (dims : list nat) (uhash : bool -> list aedge -> nat) (ahash : bool -> aedge -> aedge -> nat) (mhash : bool -> ref -> ref -> nat)
  (chash : aedge -> nat) (psi : aedge) (s : store) : Prop := exists is, circuit_m 0 dims uhash ahash mhash chash is init_store = Done (psi, s).
