(** What waiting for a job should do. *)
From Coq Require Import Ascii String.
From Verif.Base Require Import Py.
From Verif.Sim Require Import JobModel.
Local Open Scope nat_scope.

(** The states a job never leaves. *)
Definition final (s : jstatus) : Prop := s = DONE \/ s = CANCELLED \/ s = ERROR.

(** k is the number of the first final status of the stream. *)
Definition first_final (s : nat -> jstatus) (k : nat) : Prop := final (s k) /\ forall i, i < k -> ~ final (s i).

(** The time limit has passed when the k-th status has been read. *)
Definition late (clock : nat -> Z) (timeout : option Z) (k : nat) : Prop :=
  match timeout with Some t => (clock (S k) - clock O >= t)%Z | None => False end.

(** Sleeping takes at least the requested time. *)
Definition sleeps (clock : nat -> Z) (wait : Z) : Prop := forall k, (clock k + wait <= clock (S k))%Z.

(** The letters, large and small. *)
Definition letters : list (ascii * ascii) :=
  combine (list_ascii_of_string "ABCDEFGHIJKLMNOPQRSTUVWXYZ") (list_ascii_of_string "abcdefghijklmnopqrstuvwxyz").
(** x is the word v in some capitalisation. *)
Definition spells (x v : string) : Prop :=
  Forall2 (fun c d => c = d \/ In (c, d) letters) (list_ascii_of_string x) (list_ascii_of_string v).
