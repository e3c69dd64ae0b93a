(** What the classical registers of a circuit are expected to satisfy. *)
From Verif Require Import Base.Py.
From Verif Require Import Circuit.CircuitModel Circuit.CircuitSpec.

(** declared classical registers: (label, number of bits) *)
Definition cdecls := list (string * nat).

(** The [i]-th bit of the [k]-th declared register comes after all the bits of the registers declared
    before. *)
Definition bit_of (ds : cdecls) (k i : nat) : nat := list_sum (map snd (firstn k ds)) + i.
Definition caddressed (ds : cdecls) (label : string) (i n : nat) : Prop :=
  exists k size, nth_error ds k = Some (label, size) /\ i < size /\ n = bit_of ds k i.

(** The classical registers declared by a history: those appended since the last reset. *)
Fixpoint cdeclared {G} (ds : cdecls) (ops : list (op G)) : cdecls :=
  match ops with
  | [] => ds
  | OpAppendClassic r :: l => cdeclared (ds ++ [(c_label r, c_size r)]) l
  | OpReset :: l => cdeclared [] l
  | _ :: l => cdeclared ds l
  end.
(** Histories in which each appended classical register is new: fresh label, not attached yet. *)
Fixpoint legal_classic {G} (ds : cdecls) (ops : list (op G)) : Prop :=
  match ops with
  | [] => True
  | OpAppendClassic r :: l =>
      ~ In (c_label r) (map fst ds) /\ c_local r = [] /\ legal_classic (ds ++ [(c_label r, c_size r)]) l
  | OpReset :: l => legal_classic [] l
  | _ :: l => legal_classic ds l
  end.
