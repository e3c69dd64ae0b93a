(** Vocabulary for the verifier (C85). *)
From Coq Require Import Reals List ZArith Permutation.
From Verif.Base Require Import Py Cplx Matrix Radix.
Import ListNotations.
Local Open Scope nat_scope.

(** The numbers 0, ..., n-1, in some order and in order. *)
Definition in_order (n : nat) : list Z := map Z.of_nat (seq 0 n).
Definition placement (n : nat) (m : list Z) : Prop := Permutation m (in_order n).
Definition entry (m : list Z) (i : nat) : nat := Z.to_nat (nth i m 0%Z).
(** [w] is the state [v] with the levels [nodes] put where the placement [m] says, one by one. *)
Definition put_at (n : nat) (nodes m : list Z) (v w : vec) : Prop := forall i, i < n -> w (entry m i) = v (entry nodes i).

(** The matrices one after the other, first one first. *)
Fixpoint runs (n : nat) (ms : list mat) (v : vec) : vec := match ms with [] => v | A :: r => runs n r (mapply n A v) end.

(** For every basis state l: the target, then the placement [im], then the sequence give the basis state l placed by
    [fm], times the factor t, with every amplitude off by less than eps. *)
Definition undone (n : nat) (ms : list mat) (T : mat) (nodes im fm : list Z) (t : C) (eps : R) : Prop :=
  forall l j v, l < n -> j < n -> put_at n nodes im (mapply n T (ket l)) v ->
    (Cmod (Csub (runs n ms v (entry fm j)) (Cmul t (ket l (entry nodes j)))) < eps)%R.

(** The placements a verifier works with: the given ones, which are permutations; if one of the three is missing, none. *)
Definition effective (n : nat) (nodes imap fmap : option (list Z)) (nd im fm : list Z) : Prop :=
  (nodes = Some nd /\ imap = Some im /\ fmap = Some fm /\ placement n nd /\ placement n im /\ placement n fm) \/
  ((nodes = None \/ imap = None \/ fmap = None) /\ nd = in_order n /\ im = in_order n /\ fm = in_order n).
