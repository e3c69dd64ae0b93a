(** The documented basis states of the predefined states. *)
From Coq Require Import Reals List Arith.
From Verif.Base Require Import Py Cplx Radix.
Import ListNotations.
Local Open Scope nat_scope.

(** all digits are the same level *)
Definition ghz_basis (dims e : list nat) : Prop := List.length e = List.length dims /\ exists i, (forall d, In d dims -> i < d) /\ forall x, In x e -> x = i.
(** one qudit is in level [i] and all others are in level 0 *)
Definition excited (dims e : list nat) (j i : nat) : Prop := List.length e = List.length dims /\ j < List.length dims /\ forall k, k < List.length dims -> nth k e 0 = if Nat.eqb k j then i else 0.
(** one qudit is in one of its upper levels *)
Definition w_basis (dims e : list nat) : Prop := exists j i, excited dims e j i /\ 1 <= i < nth j dims 0.
(** one qudit is in level 1 *)
Definition embedded_basis (dims e : list nat) : Prop := exists j, excited dims e j 1.

(** The vector has the same positive amplitude at the basis states of [basis] and no other. *)
Definition uniform_on (dims : list nat) (basis : list nat -> Prop) (v : list C) : Prop :=
  List.length v = prodl dims /\
  (exists x, (0 < x)%R /\ forall e, valid dims e -> (basis e -> nth (undigits dims e) v C0 = RtoC x) /\ (~ basis e -> nth (undigits dims e) v C0 = C0)).
