(** Vocabulary for the adaptive compilation (C29, C78 to C80). *)
From Coq Require Import Reals.
From Verif.Base Require Import Py Cplx Matrix.
From Verif.Gates Require Import SingleModel.
From Verif.Levels Require Import LevelsModel LevelsSpec.
From Verif.Local Require Import QrModel QrSpec QrCore TreeModel AdaModel.
Local Open Scope list_scope.
Local Open Scope nat_scope.

(** All entries off the diagonal are at most e. *)
Definition diagonal_within (e : R) (d : nat) (W : mat) : Prop :=
  forall i j, i < d -> j < d -> i <> j -> (Cmod (W i j) <= e)%R.
(** The error of a decomposition that stops at a matrix diagonal within near and leaves phases up to delta. *)
Definition ada_error (near delta : R) (d : nat) : R := (near + delta + INR d * (near * near))%R.
(** The cost of a list of rotations. *)
Definition costs (l : list rot) : R := fold_right (fun r x => (r_cost r + x)%R) 0%R l.

(** Eliminating along l from u never meets a nonzero entry of at most tiny next to an entry to be removed. *)
Fixpoint dust_free (eps tiny : R) (d : nat) (l : list (nat * nat)) (u : mat) : Prop :=
  match l with
  | [] => True
  | (r, c) :: l' => ((eps < Cmod (u r c))%R -> (tiny < Cmod (u (r - 1)%nat c))%R \/ Cmod (u (r - 1)%nat c) = 0%R) /\
                    dust_free eps tiny d l' (ustep eps d u (r, c))
  end.

Section Paths.
  Variable kid : snode -> nat * nat * nat -> res (option snode).
  Variable d : nat.
  (** b is one of the nodes the search adds below a. *)
  Definition child (a b : snode) : Prop := exists t, In t (triples d) /\ kid a t = Ok (Some b).
  (** p is a path of the search from a down. *)
  Inductive chain : snode -> list snode -> Prop :=
  | chain_one a : chain a [a]
  | chain_cons a b p : child a b -> chain b p -> chain a (a :: p).
End Paths.

(** Every occupied slot of the backend is a usable graph; gates are unitary and sit on occupied slots. *)
Definition slot_ok (d : nat) (o : option lgraph) : Prop := exists g, o = Some g /\ routable d g /\ covers d g.

(** The rotations of the list, applied in turn to u, each remove one entry (r2, c) that was larger than eps, by
    rotating row r2 with a row between c and r2; w is what results. *)
Inductive eliminates (eps : R) (d : nat) : mat -> list rot -> mat -> Prop :=
| el_nil u : eliminates eps d u [] u
| el_cons u q l w c : c <= lev_a q < lev_b q -> lev_b q < d -> (eps < Cmod (u (lev_b q) c))%R ->
    mmul d (op_matrix d (OR q)) u (lev_b q) c = C0 ->
    eliminates eps d (mmul d (op_matrix d (OR q)) u) l w -> eliminates eps d u (q :: l) w.
