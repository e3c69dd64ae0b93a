(** Transposed matrices. *)
From Coq Require Import List Arith.
From Verif Require Import Base.Cplx Base.Radix Misim.DdModel Misim.DdSpec.
Import ListNotations.
Local Open Scope nat_scope.

(** e is a diagram of a matrix over the registers with the sizes ds, top register first *)
Definition matrix_over (ds : list nat) (e : edge) : Prop := ewf (arity true ds) e.
(** its entry in row p and column q, top register first *)
Definition entry_at (ds : list nat) (e : edge) (p q : list nat) : C := ev e (entry true ds p q).
(** e' is the transpose of e *)
Definition transposed (ds : list nat) (e e' : edge) : Prop := matrix_over ds e' /\
  forall p q, valid ds p -> valid ds q -> entry_at ds e' p q = entry_at ds e q p.
Definition symmetric_matrix (ds : list nat) (e : edge) : Prop := transposed ds e e.
