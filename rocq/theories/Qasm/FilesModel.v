(** Saving a circuit and the matrices of its custom gates to files.
    Source: src/mqt/qudits/quantum_circuit/circuit.py:361-400, gate.py:158-186, 218-225. *)
From Verif.Base Require Import Py.
Local Open Scope string_scope.
Local Open Scope list_scope.

Section Files.
(** G: gates.  M: arrays. *)
Context {G M : Type}.
(** Path(a) / b of pathlib, as text *)
Variable join : string -> string -> string.
(** the file can be opened for writing: its directory exists; no call makes or removes directories *)
Variable can_open : string -> bool.
(** the four random letters of the k-th array that is saved (gate.py:222) *)
Variable key : nat -> string.
(** gate._name; the array that is the gate's parameter, if it is one *)
Variable name : G -> string.
Variable array : G -> option M.
(** gate.py:158-186: the line of a gate, given the text for its array ([None] if it has none), and the lines before and after
    the gates (circuit.py:362-377); what they are is in QasmModel (C19) *)
Variable line : G -> option string -> res string.
Variables before after : string.

Inductive content := Matrix (m : M) | Text (t : string).
Definition files := string -> option content.
Definition write (fs : files) (p : string) (c : content) : files := fun q => if String.eqb q p then Some c else fs q.

(** gate.py:218-225 (return_custom_data) *)
Definition array_file (path : string) (g : G) (k : nat) : string := join path (name g ++ "_" ++ key k ++ ".npy")%string.
Definition return_custom_data (path_save : option string) (g : G) (m : M) (k : nat) (fs : files) : res string * files * nat :=
  match path_save with
  | None | Some "" => (Ok "(custom_data) ", fs, k)
  | Some p =>
      let f := array_file p g k in
      if can_open f then (Ok ("(" ++ f ++ ") ")%string, write fs f (Matrix m), Datatypes.S k) else (Err FileNotFoundError, fs, Datatypes.S k)
  end.
(** circuit.py:369-370 with gate.py:158-186: the array is saved before the rest of the line is made *)
Fixpoint gate_lines (path_save : option string) (gs : list G) (k : nat) (fs : files) : res string * files :=
  match gs with
  | [] => (Ok "", fs)
  | g :: r =>
      let '(a, fs1, k1) := match array g with
                           | None => (Ok None, fs, k)
                           | Some m => let '(t, fs1, k1) := return_custom_data path_save g m k fs in ((let? t := t in Ok (Some t)), fs1, k1)
                           end in
      match (let? a := a in line g a) with
      | Err e => (Err e, fs1)
      | Ok s => let '(t, fs2) := gate_lines path_save r k1 fs1 in ((let? t := t in Ok (s ++ t)%string), fs2)
      end
  end.
(** circuit.py:361-377 (to_qasm) *)
Definition to_qasm (path_save : option string) (gs : list G) (fs : files) : res string * files :=
  let '(t, fs1) := gate_lines path_save gs 0 fs in ((let? t := t in Ok (before ++ t ++ after)%string), fs1).
(** circuit.py:379-400 (save_to_file): the result, the files and path_save afterwards.  The file of the circuit is emptied when
    it is opened; an exception leaves path_save set. *)
Definition save_to_file (gs : list G) (file_name file_path : string) (fs : files) : res string * files * option string :=
  let q := join file_path (file_name ++ ".qasm")%string in
  if can_open q then
    match to_qasm (Some file_path) gs (write fs q (Text "")) with
    | (Ok t, fs1) => (Ok q, write fs1 q (Text t), None)
    | (Err e, fs1) => (Err e, fs1, Some file_path)
    end
  else (Err FileNotFoundError, fs, Some file_path).
End Files.
Arguments content : clear implicits.
Arguments files : clear implicits.
