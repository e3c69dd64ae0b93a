(** Saving the results of noisy runs to files.
    Source: src/mqt/qudits/simulation/save_info.py:15-69. *)
From Verif.Base Require Import Py.
Local Open Scope string_scope.
Local Open Scope list_scope.

Section Save.
(** V: state vectors.  S: the values save_shots is called with. *)
Context {V S : Type}.
(** Path(a) / b of pathlib, as text *)
Variable join : string -> string -> string.
(** getpass.getuser() *)
Variable user : string.
(** numpy: the vector as it is stored in a field with the shape of the first one, or the exception *)
Variable fit : V -> V -> res V.
(** numpy: the value as it is stored in a field of type int *)
Variable as_int : S -> res Z.
(** the directory of the file exists and can be written to; no call makes or removes directories *)
Variable can_open : string -> bool.

(** what is in an HDF5 file: nothing yet, or its one dataset *)
Inductive content := Empty | StateRows (rows : list (string * V)) | ShotRows (rows : list (Z * Z)).
Definition files := string -> option content.
Definition write (fs : files) (p : string) (c : content) : files := fun q => if String.eqb q p then Some c else fs q.

(** save_info.py:15-47.  [names] are the uuids.  h5py.File(full_path, "w") empties the file before the rows are converted. *)
Definition states_path (path name : option string) : string :=
  join (match path with None => "/home/" ++ user ++ "/Documents" | Some p => p end)%string
       (match name with None => "experiment_states.h5" | Some n => n end).
Definition save_full_states (names : nat -> string) (vs : list V) (path name : option string) (fs : files) : res unit * files :=
  let p := states_path path name in
  match vs with
  | [] => (Err IndexError, fs)
  | v0 :: _ =>
      if can_open p then
        match mapr (fit v0) vs with
        | Ok ws => (Ok tt, write fs p (StateRows (combine (map names (seq 0 (List.length vs))) ws)))
        | Err e => (Err e, write fs p Empty)
        end
      else (Err FileNotFoundError, fs)
  end.
(** save_info.py:50-69 *)
Definition save_shots (shots : list S) (path name : string) (fs : files) : res unit * files :=
  let p := join path name in
  if can_open p then
    match mapr as_int shots with
    | Ok zs => (Ok tt, write fs p (ShotRows (combine (map Z.of_nat (seq 0 (List.length shots))) zs)))
    | Err e => (Err e, write fs p Empty)
    end
  else (Err FileNotFoundError, fs).

(** a history of calls; the caller goes on after an exception *)
Inductive call := SaveStates (names : nat -> string) (vs : list V) (path name : option string) | SaveShots (shots : list S) (path name : string).
Definition step (fs : files) (c : call) : files :=
  match c with
  | SaveStates names vs path name => snd (save_full_states names vs path name fs)
  | SaveShots shots path name => snd (save_shots shots path name fs)
  end.
Definition history (fs : files) (h : list call) : files := fold_left step h fs.
End Save.
Arguments content : clear implicits.
Arguments files : clear implicits.
Arguments call : clear implicits.
