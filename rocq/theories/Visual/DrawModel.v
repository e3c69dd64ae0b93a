(** The text drawing of a circuit.  Source: src/mqt/qudits/visualisation/drawing_routines.py.

    What is printed is the value: the text, and the exception that ended the printing if there was one.  The instructions are
    the gate objects of Circuit/GateModel; of a gate class only what the drawing reads is kept. *)
From Coq Require Import Reals.
From Verif.Base Require Import Py Text.
From Verif.Circuit Require Import GateModel.
Local Open Scope list_scope.
Local Open Scope nat_scope.

(** drawing_routines.py:12-19: the class of a gate and the attributes that are read.  They do not exist ([None]) if the
    parameters were refused by validate_parameter (virt_rz.py:36-42, r.py:40-47). *)
Inductive kind :=
| KVirtRz (a : option (nat * R))
| KR (a : option (nat * nat * R * R))
| KCustomOne
| KOther.

(** print(...) one after the other: an exception ends it. *)
Definition printed : Type := text * option exn.
Definition say (t : text) (p : printed) : printed := (t ++ fst p, snd p).

Section Draw.
  (** f"{x:.2f}" *)
  Variable fmt : R -> text.

  (** drawing_routines.py:11: gate.gate_type == GateTypes.SINGLE and line == gate.target_qudits; an int is never equal to
      a list. *)
  Definition is_here (line : nat) (g : gate kind) : bool :=
    is_single (g_type g) && match g_target g with TInt t => Z.eqb (Z.of_nat line) t | TList _ => false end.
  (** drawing_routines.py:11-21: the text for one gate on one line; [None]: AttributeError. *)
  Definition cell (line : nat) (g : gate kind) : option text :=
    if is_here line g then
      match g_data g with
      | KVirtRz (Some (a, phi)) => Some (tx "--[VRz" ++ show_nat a ++ tx "(" ++ fmt phi ++ tx ")]--")
      | KR (Some (a, b, theta, phi)) => Some (tx "--[R" ++ show_nat a ++ show_nat b ++ tx "(" ++ fmt theta ++ tx "," ++ fmt phi ++ tx ")]--")
      | KVirtRz None | KR None => None
      | KCustomOne => Some (tx "--[CuOne]--")
      | KOther => Some (tx "--G--")
      end
    else Some (tx "--MG--").
  (** drawing_routines.py:10-21 followed by what is printed afterwards. *)
  Fixpoint cells (line : nat) (gates : list (gate kind)) (after : printed) : printed :=
    match gates with
    | [] => after
    | g :: r => match cell line g with Some t => say t (cells line r after) | None => ([], Some AttributeError) end
    end.
  (** drawing_routines.py:8-22: the lines from [line] on, [n] of them. *)
  Fixpoint draw_from (line n : nat) (gates : list (gate kind)) : printed :=
    match n with
    | O => ([], None)
    | S m => say (tx "|0>---") (cells line gates (say (tx "---=||" ++ [nl]) (draw_from (S line) m gates)))
    end.
  (** drawing_routines.py:7-22 (draw_qudit_local). *)
  Definition draw (num_qudits : nat) (gates : list (gate kind)) : printed := draw_from 0 num_qudits gates.
End Draw.
