(** What provider lookup and options should do. *)
From Coq Require Import Ascii String.
From Verif.Base Require Import Py.
From Verif.Sim Require Import BackendModel.

(** Characters with a special meaning in a regular expression. *)
Definition meta : list ascii :=
  ["."; "^"; "$"; "*"; "+"; "?"; "{"; "}"; "["; "]"; "\"; "|"; "("; ")"]%char.
Definition literal (p : string) : Prop := forall c, In c (list_ascii_of_string p) -> ~ In c meta.
Definition occurs_in (p k : string) : Prop := exists a b, k = (a ++ p ++ b)%string.
(** A search for a pattern without special characters is the search for this text. *)
Definition finds_literals (search : string -> string -> res bool) : Prop :=
  forall p k, literal p -> exists b, search p k = Ok b /\ (b = true <-> occurs_in p k).

(** The options a backend documents (backendv2.py, DefaultOptions). *)
Definition documented : list string :=
  ["shots"; "memory"; "noise_model"; "file_path"; "file_name"; "full_state_memory"]%string.

(** Value of an option: the last one given, else the earlier one. *)
Fixpoint last_given (fields : options) (k : string) (before : option oval) : option oval :=
  match fields with
  | [] => before
  | (k', v) :: r => last_given r k (if String.eqb k k' then Some v else before)
  end.
Definition visible (b : backend) (k : string) : option oval := dget String.eqb (b_options b) k.
