(** The gates compiled circuits are made of. *)
From Coq Require Import List.
From Verif.Circuit Require Import CircuitModel GateModel.
From Verif.Compiler Require Import WholeModel.
Local Open Scope nat_scope.

(** a rotation or virtual rotation of a local pass, a gate of a two-qudit block (R, Rz, Rh, VirtRz or CEx), a CEx *)
Definition made (g : cgate) : Prop := match g with CRot _ _ _ | CBlock _ _ _ _ _ | CCex _ _ _ _ _ => True | _ => False end.
(** and its type is that of its gate object, with as many lines *)
Definition elementary (g : cgate) : Prop :=
  made g /\ g_type (as_gate g) = type_of g /\
  match type_of g with
  | SINGLE => List.length (target_lines (as_gate g)) = 1
  | TWO => List.length (target_lines (as_gate g)) = 2
  | MULTI => False
  end.
