(** Vocabulary for C46 and C70. *)
From Coq Require Import Reals.
From Verif.Base Require Import Py.
From Verif.Variational Require Import SearchModel.

(** An optimiser without memory: for a number of layers it gives an error and parameters. *)
Definition pure {X} (solver : Z -> R * X) : unit -> Z -> unit * (option R * X) :=
  fun _ k => (tt, (Some (fst (solver k)), snd (solver k))).
(** A number of layers is good enough. *)
Definition feasible {X} (solver : Z -> R * X) (tol : R) (k : Z) : Prop := (fst (solver k) <= tol)%R.
(** More layers never hurt, up to the largest number. *)
Definition monotone {X} (solver : Z -> R * X) (tol : R) (most : Z) : Prop :=
  forall j k, (0 <= j <= k)%Z -> (k <= most)%Z -> feasible solver tol j -> feasible solver tol k.
Definition least {X} (solver : Z -> R * X) (tol : R) (k : Z) : Prop :=
  (0 <= k)%Z /\ feasible solver tol k /\ forall j, (0 <= j < k)%Z -> ~ feasible solver tol j.

(** What an uninterrupted run of the optimiser finds: the first point that is good enough, else its optimum. *)
Fixpoint outcome {X} (tol : R) (es : list (R * X)) (best : R * X) : R * X :=
  match es with [] => best | e :: r => if Rlt_dec (fst e) tol then e else outcome tol r best end.
