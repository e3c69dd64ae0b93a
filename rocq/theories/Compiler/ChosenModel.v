(** The compiler with a list of passes chosen by the user and the passes themselves: DispatchModel.compile with
    WholeModel.the_pass.  Source: src/mqt/qudits/compiler/dit_compiler.py. *)
From Coq Require Import Reals List ZArith String.
From Verif.Base Require Import Py.
From Verif.Circuit Require Import CircuitModel GateModel.
From Verif.Levels Require Import LevelsModel.
From Verif.Compiler Require Import DispatchModel WholeModel.

(** dit_compiler.py:37-65 (compile); the arguments as in WholeModel. *)
Definition whole_compile (sp : lgraph -> Z -> Z -> res (list Z)) (round6 : R -> R) (det : nat -> (nat -> nat -> R) -> R)
    (solve : nat -> (nat -> nat -> R) -> (nat -> R) -> res (list R)) (fuel : nat)
    (names : list string) (gs : list lgraph) (c : circuit cgate) : list lgraph * res (circuit cgate) :=
  compile type_of level_maps (the_pass sp round6 det solve fuel) gs c names.
