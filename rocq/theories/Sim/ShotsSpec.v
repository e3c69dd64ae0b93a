(** What stochastic simulation should deliver. *)
From Coq Require Import Reals.
From Verif.Base Require Import Py Cplx.
From Verif.Sim Require Import BackendModel ShotsModel.
Local Open Scope nat_scope.

Definition unit_interval (uniform : Z -> R) : Prop := forall s, (0 <= uniform s < 1)%R.
Definition sum_upto (ps : list R) (i : nat) : R := fold_right Rplus 0%R (firstn i ps).
(** a unit vector *)
Definition normalised (v : vec) : Prop := fold_right Rplus 0%R (map Cnorm2 v) = 1%R.
(** A possible measurement outcome of a state: a basis index with non-zero amplitude. *)
Definition possible (v : vec) (i : nat) : Prop := i < List.length v /\ nth i v C0 <> C0.
(** The outcome of a shot: the state itself, or one of its possible measurement results. *)
Definition outcome_of (full : bool) (v : vec) (o : outcome) : Prop :=
  if full then o = OState v else exists i, o = OIndex i /\ possible v i.
(** The backends that use the tensor network simulator. *)
Definition tensor_network (k : kind) : Prop := k <> MISim /\ k <> Innsbruck01.
(** The noise the generator gives, one shot after the other. *)
Fixpoint stream {S} (noisy : S -> res (vec * S)) (s : S) (n : nat) : res vec :=
  match noisy s with
  | Err e => Err e
  | Ok (v, s') => match n with O => Ok v | Datatypes.S m => stream noisy s' m end
  end.
