(** What a state of some of the registers is. *)
From Coq Require Import Arith Reals Bool List.
From Verif Require Import Base.Cplx Base.Radix Misim.DdModel Misim.DdSpec.
Import ListNotations.
Local Open Scope nat_scope.

(** the entries from [start] on, [n] of them *)
Definition part {A} (l : list A) (start n : nat) : list A := firstn n (skipn start l).
(** every path leads through nodes of these registers, in this order *)
Fixpoint on_registers (vs : list nat) (x : node) : Prop :=
  match vs, x with
  | [], Term => True
  | v :: r, Node u es => u = v /\ Forall (fun e => fst e = C0 \/ on_registers r (snd e)) es
  | _, _ => False
  end.
(** the state of the registers start, ..., start + n - 1 with these levels *)
Definition is_basis_state (dims : list nat) (start n : nat) (levels : list nat) (e : edge) : Prop :=
  on_registers (rev (seq start n)) (snd e) /\
  forall p, valid (part dims start n) p -> ev e (rev p) = if list_eq_dec Nat.eq_dec p levels then C1 else C0.
(** the list has a level for each of the registers, at the place of the register *)
Definition levels_given (dims levels : list nat) (start n : nat) : Prop :=
  forall v, start <= v < start + n -> exists l, nth_error levels v = Some l /\ l < nth v dims 0.
