(** Vocabulary for results (C51, C52, C86). *)
From Coq Require Import Reals List ZArith Permutation.
From Verif.Base Require Import Py Cplx Matrix Radix.
Import ListNotations.
Local Open Scope nat_scope.

(** The state of a register with the levels x0, x1, ... has the index undigits dims [x0; x1; ...] (Base/Radix). *)

(** The fraction of outcomes equal to i. *)
Definition fraction (results : list Z) (i : nat) : R :=
  (INR (count_occ Z.eq_dec results (Z.of_nat i)) / INR (List.length results))%R.

(** Parts of a list: where the flag is set, where it is not set, and the two put together again. *)
Fixpoint chosen {A} (f : list bool) (l : list A) : list A :=
  match f, l with true :: f, x :: l => x :: chosen f l | false :: f, _ :: l => chosen f l | _, _ => [] end.
Fixpoint merged (f : list bool) (a t : list nat) : list nat :=
  match f with
  | [] => []
  | true :: f => hd 0 a :: merged f (tl a) t
  | false :: f => hd 0 t :: merged f a (tl t)
  end.
(** [r] is the partial trace of [rho] over the qudits without a flag: between the levels a and b of the others, the
    sum over all levels t of those. *)
Definition traced_out (dims : list nat) (f : list bool) (rho r : mat) : Prop :=
  let kd := chosen f dims in
  let od := chosen (map negb f) dims in
  forall a b, valid kd a -> valid kd b ->
    r (undigits kd a) (undigits kd b) =
    csum (prodl od) (fun k => rho (undigits dims (merged f a (digits od k))) (undigits dims (merged f b (digits od k)))).
(** The flags of the qudits in the list. *)
Definition keeps (keep : list Z) (n : nat) : list bool := map (fun i => if in_dec Z.eq_dec (Z.of_nat i) keep then true else false) (seq 0 n).
Definition trace (n : nat) (M : mat) : C := csum n (fun i => M i i).

(** A mapping of the levels of every qudit: the levels 0, ..., d-1 in some order. *)
Definition good_mappings (dims : list nat) (ms : list (list Z)) : Prop :=
  Forall2 (fun d m => Permutation m (map Z.of_nat (seq 0 d))) dims ms.
(** Where the mappings put the levels x: level i of a qudit goes to entry i of its mapping. *)
Definition mapped (ms : list (list Z)) (x : list nat) : list nat :=
  map (fun mi => Z.to_nat (nth (snd mi) (fst mi) 0%Z)) (combine ms x).
(** [w] are the results [v] after the mapping of the levels. *)
Definition on_physical (dims : list nat) (ms : list (list Z)) (v w : list C) : Prop :=
  List.length v = prodl dims /\ List.length w = prodl dims /\
  forall x, valid dims x -> nth (undigits dims (mapped ms x)) w C0 = nth (undigits dims x) v C0.
(** A mapping that is its own inverse. *)
Definition self_inverse (m : list Z) : Prop := forall i, i < List.length m -> nth (Z.to_nat (nth i m 0%Z)) m 0%Z = Z.of_nat i.

(** What is assumed of the library: an invertible matrix is inverted. *)
Definition inverts (inv : nat -> mat -> res mat) : Prop :=
  forall n A B, meq n (mmul n A B) mid -> meq n (mmul n B A) mid -> exists Q, inv n A = Ok Q /\ meq n Q B.
