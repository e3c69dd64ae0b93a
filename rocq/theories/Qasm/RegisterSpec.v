(** What register declarations of a program stand for, and the line of a gate. *)
From Coq Require Import String List Reals.
From Verif Require Import Base.Py Base.Text Circuit.CircuitModel Gates.SingleModel Qasm.QasmModel.
Import ListNotations.
Local Open Scope nat_scope.

(** the places of a register: one for every dimension, on the lines from [k] on *)
Definition places (label : string) (k : nat) (dims : list nat) : list ((string * nat) * (nat * nat)) :=
  map (fun j => ((label, j), (k + j, nth j dims 0))) (seq 0 (List.length dims)).
(** how many declared bits carry the label *)
Definition bits_of (label : string) (bits : list ((string * nat) * nat)) : nat :=
  List.length (filter (fun b => String.eqb label (fst (fst b))) bits).
(** the parameters of a gate as text, in their order *)
Definition shown {Arr} (show_float : R -> text) (p : @parg Arr) : list text :=
  match p with
  | AList l => map (fun x => match x with PInt z => show_Z z | PFloat r => show_float r | PStr s => tx s end) l
  | ATuple l => map (fun x => match x with Some r => show_float r | None => tx "None" end) l
  | _ => []
  end.
