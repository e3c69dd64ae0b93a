(** What state preparation should do, and for which trees the merging of equal branches is harmless. *)
From Coq Require Import Reals List Arith ZArith Sorted.
From Verif.Base Require Import Py Cplx Matrix Radix.
From Verif.Circuit Require Import GateModel.
From Verif.Sim Require Import TnSpec.
From Verif.State Require Import DdModel DdSpec.
Import ListNotations.
Local Open Scope nat_scope.

(** the vector divided by its norm *)
Definition unit_of (n : nat) (v : vec) : vec := fun k => Cmul (RtoC (/ sqrt (norm2 n v))) (v k).
Definition distance (n : nat) (v w : vec) : R := sqrt (norm2 n (fun k => Csub (v k) (w k))).

(** The gates take |0...0> to a vector at most [e] away from [v]. *)
Definition prepares (e : R) (dims : list nat) (gs : list (gate mat)) (v : vec) : Prop :=
  exists phi, evolves dims (ket 0) gs phi /\ (distance (prodl dims) phi v <= e)%R.

(** two nodes are the same but for the weight that leads to them *)
Definition alike (t s : dd) : Prop := set_weight t C1 = set_weight s C1.
(** The hash tells the children of a node apart unless they are alike. *)
Definition no_clash (hash : list (Z * C) -> Z) (t : dd) : Prop :=
  forall p w ch c c', node_at t p = Some (Inner w ch) -> In c ch -> In c' ch -> hash_of hash c = hash_of hash c' -> alike c c'.
(** Whenever at least two children have a weight and all those are alike, inner nodes, the first child is like them too. *)
Definition merges_well (t : dd) : Prop :=
  forall p w ch i j ci cj c0, node_at t p = Some (Inner w ch) ->
    i <> j -> nth_error ch i = Some ci -> nth_error ch j = Some cj -> weight ci <> C0 -> weight cj <> C0 -> alike ci cj ->
    (forall c c', In c ch -> In c' ch -> weight c <> C0 -> weight c' <> C0 -> alike c c') ->
    (exists v l, ci = Inner v l) -> nth_error ch 0 = Some c0 -> alike c0 ci.
(** a sufficient condition: the weight of the first child is never zero *)
Definition first_weights (t : dd) : Prop := forall p w ch c, node_at t p = Some (Inner w ch) -> nth_error ch 0 = Some c -> weight c <> C0.

Definition nonincreasing (dims : list nat) : Prop := StronglySorted (fun a b => b <= a) dims.

(** If two basis states of the state begin alike and differ in a digit before the last, then there is one that begins alike and has the digit 0 there. *)
Definition first_branch_used (dims : list nat) (data : list C) : Prop :=
  forall p i j s s', S (List.length p) < List.length dims -> i <> j -> valid dims (p ++ i :: s) -> valid dims (p ++ j :: s') ->
    nth (undigits dims (p ++ i :: s)) data C0 <> C0 -> nth (undigits dims (p ++ j :: s')) data C0 <> C0 ->
    exists s'', valid dims (p ++ 0 :: s'') /\ nth (undigits dims (p ++ 0 :: s'')) data C0 <> C0.
