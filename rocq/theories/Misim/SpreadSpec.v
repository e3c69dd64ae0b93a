(** What sharing one excitation among registers means. *)
From Coq Require Import Arith Reals Bool List.
From Verif Require Import Base.Cplx Base.Radix Misim.DdModel Misim.DdSpec Misim.MisimModel Misim.SessionSpec Misim.SpreadModel.
Import ListNotations.
Local Open Scope nat_scope.

(** the amplitude of the levels [p], register 0 first *)
Definition amplitude (e : edge) (p : list nat) : C := ev e (rev p).
(** all the registers are at level 0; one of them is at level 1 and the others at level 0 *)
Definition at_rest (lines p : list nat) : Prop := forall l, In l lines -> nth l p 0 = 0.
Definition only_up (u : nat) (lines p : list nat) : Prop := nth u p 0 = 1 /\ forall l, In l lines -> l <> u -> nth l p 0 = 0.
(** the levels with the registers at level 0 *)
Fixpoint rested (lines p : list nat) : list nat := match lines with [] => p | l :: r => change (rested r p) l 0 end.
(** the state has its first register at level 0 or 1 and the others at level 0 *)
Definition unshared (dims lines : list nat) (e : edge) : Prop :=
  forall p, valid dims p -> amplitude e p <> C0 -> at_rest lines p \/ only_up (hd 0 lines) lines p.
(** the excitation of the first register is shared equally by all of them *)
Definition shared (dims lines : list nat) (before after : edge) : Prop :=
  forall p, valid dims p ->
    (at_rest lines p -> amplitude after p = amplitude before p) /\
    (forall u, In u lines -> only_up u lines p ->
       amplitude after p = Cmul (RtoC (1 / sqrt (INR (length lines)))) (amplitude before (change (rested lines p) (hd 0 lines) 1))) /\
    (~ at_rest lines p -> (forall u, In u lines -> ~ only_up u lines p) -> amplitude after p = C0).
(** the registers the functions are meant for: different ones, the first with 2, 3 or 5 levels, the others with as many levels as
    there are registers *)
Definition lines_fit (dims lines : list nat) : Prop :=
  NoDup lines /\ (forall l, In l lines -> l < length dims) /\ In (nth (hd 0 lines) dims 0) [2; 3; 5] /\
  forall l, In l (tl lines) -> nth l dims 0 = length lines.
(** the function for this number of registers *)
Definition spread (tol : R) (same : node -> node -> bool) (dims lines : list nat) (e : edge) : cres edge :=
  match length lines with 2 => spread2 tol same dims lines e | 3 => spread3 tol same dims lines e | _ => spread5 tol same dims lines e end.
