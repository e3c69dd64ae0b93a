(** Vocabulary for the objective of the sparsifier (C92). *)
From Coq Require Import Reals List.
From Verif.Base Require Import Cplx.
Import ListNotations.
Local Open Scope R_scope.

(** Exactly one entry is not zero. *)
Definition one_nonzero (l : list C) : Prop := exists a z b, l = a ++ z :: b /\ z <> C0 /\ forall y, In y (a ++ b) -> y = C0.
(** All entries have the same modulus. *)
Definition all_alike (l : list C) : Prop := forall x y, In x l -> In y l -> Cmod x = Cmod y.
(** The measure makes sense: at least two entries, not all zero. *)
Definition measurable (l : list C) : Prop := (2 <= length l)%nat /\ exists z, In z l /\ z <> C0.
(** The entries above the threshold of the density. *)
Inductive large : list R -> nat -> Prop :=
| large_nil : large [] 0
| large_yes : forall x l n, 1 / 100000000 < x -> large l n -> large (x :: l) (S n)
| large_no : forall x l n, x <= 1 / 100000000 -> large l n -> large (x :: l) n.
