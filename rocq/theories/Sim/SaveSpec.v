(** The file a call of save_full_states or save_shots is about (C115). *)
From Verif.Base Require Import Py.
From Verif.Sim Require Import SaveModel.
Local Open Scope string_scope.

(** path / name; for states the Documents directory of the user and experiment_states.h5 where one is not given *)
Definition target {V S} (join : string -> string -> string) (user : string) (c : call V S) : string :=
  match c with
  | SaveStates _ _ path name => join (match path with None => "/home/" ++ user ++ "/Documents" | Some p => p end)
      (match name with None => "experiment_states.h5" | Some n => n end)
  | SaveShots _ path name => join path name
  end.
