(** Which file goes with which gate of a saved circuit (C116). *)
From Verif.Base Require Import Py.
Local Open Scope string_scope.
Local Open Scope list_scope.

(** the gates of a circuit, those with an array with its file in the directory p: name, underscore, the letters of the k-th
    array, ".npy" *)
Fixpoint with_files {G M} (join : string -> string -> string) (key : nat -> string) (name : G -> string) (array : G -> option M) (p : string)
    (k : nat) (gs : list G) : list (G * option (string * M)) :=
  match gs with
  | [] => []
  | g :: r => match array g with
              | None => (g, None) :: with_files join key name array p k r
              | Some m => (g, Some (join p (name g ++ "_" ++ key k ++ ".npy")%string, m)) :: with_files join key name array p (S k) r
              end
  end.
(** the files of such a list *)
Definition file_names {G M} (l : list (G * option (string * M))) : list string :=
  flat_map (fun x => match snd x with Some (f, _) => [f] | None => [] end) l.
