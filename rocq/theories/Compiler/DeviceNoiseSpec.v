(** What the noise of the fake devices should be and do. *)
From Coq Require Import Reals List ZArith String.
From Verif.Base Require Import Py Matrix.
From Verif.Circuit Require Import GateModel.
From Verif.Noise Require Import NoiseModel InsertModel.
From Verif.Compiler Require Import WholeModel.
Import ListNotations.
Local Open Scope string_scope.
Local Open Scope R_scope.

(** [rate tag mode p f]: after a gate with this tag, the qudits the mode stands for are depolarised with probability p and
    dephased with probability f. *)
Inductive rate : string -> string -> R -> R -> Prop :=
| rate_local t : In t ["h"; "rxy"; "s"; "x"; "z"] -> rate t "local" (1 / 1000) (1 / 1000)
| rate_phase t : In t ["rz"; "virtrz"] -> rate t "local" (3 / 100) (3 / 100)
| rate_both t : In t ["cx"; "ls"; "ms"] -> rate t "nonlocal" (1 / 10) (1 / 1000)
| rate_target t : In t ["cx"; "ls"; "ms"] -> rate t "target" (1 / 10) 0
| rate_control t : In t ["csum"; "cx"; "ls"; "ms"] -> rate t "control" (1 / 100) 0
| rate_csum_all : rate "csum" "all" (1 / 1000) (1 / 1000)
| rate_csum_both : rate "csum" "nonlocal" (1 / 10) (1 / 10).

(** None of the calls raises. *)
Fixpoint accepted (s : state) (l : list call) : Prop :=
  match l with [] => True | c :: r => snd (run_call s c) = None /\ accepted (fst (run_call s c)) r end.

(** The i-th of the d^2 errors X^a Z^b of a qudit, in order; and their probabilities, if the qudit is depolarised with
    probability p. *)
Definition weyl (q : Z) (d i : nat) : list inserted := (repeat (IX q) (i / d) ++ repeat (IZ q) (i mod d))%list.
Definition chances (p : R) (d : nat) : list R :=
  (1 - p / (INR d * INR d) * (INR d * INR d - 1)) :: repeat (p / (INR d * INR d)) (d * d - 1).

(** The gate is on lines of the register. *)
Definition in_register (n : nat) (g : cgate) : Prop := forall l, In l (target_lines (as_gate g)) -> (0 <= l < Z.of_nat n)%Z.
(** The errors drawn on all qudits, one draw each. *)
Definition everywhere (draw : nat -> list R -> nat) (dims : list nat) (p : R) (k : nat) : list inserted :=
  flat_map (fun i => weyl (Z.of_nat i) (nth i dims 0%nat) (draw (k + i)%nat (chances p (nth i dims 0%nat)))) (seq 0 (List.length dims)).
