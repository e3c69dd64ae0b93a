(** What a drawing is to show. *)
From Coq Require Import Reals List.
From Verif.Base Require Import Py Text TextFacts.
From Verif.Circuit Require Import GateModel.
From Verif.Visual Require Import DrawModel.
Import ListNotations.
Local Open Scope list_scope.
Local Open Scope nat_scope.

(** What can be seen on a line at the time of a gate. *)
Inductive sign := SPhase (lev : text) (phi : text) | SRot (levs : text) (theta phi : text) | SMatrix | SGate | SNothing.
(** Number formats print neither brackets, commas nor line ends. *)
Definition plain (a : ascii) : bool := negb (existsb (Ascii.eqb a) (nl :: tx "[](),")).
Definition number_format (fmt : R -> text) : Prop := forall x, allb plain (fmt x).
(** The gate has the attributes its constructor sets. *)
Definition complete (g : gate kind) : Prop := match g_data g with KVirtRz None | KR None => False | _ => True end.
(** A single-qudit gate of the line is shown by its class and its parameters; every other gate by the sign for nothing. *)
Definition sign_of (fmt : R -> text) (line : nat) (g : gate kind) (s : sign) : Prop :=
  (g_type g = SINGLE /\ g_target g = TInt (Z.of_nat line) /\
   match g_data g with
   | KVirtRz (Some (a, phi)) => s = SPhase (show_nat a) (fmt phi)
   | KR (Some (a, b, theta, phi)) => s = SRot (show_nat a ++ show_nat b) (fmt theta) (fmt phi)
   | KCustomOne => s = SMatrix
   | KOther => s = SGate
   | _ => False
   end) \/
  (~ (g_type g = SINGLE /\ g_target g = TInt (Z.of_nat line)) /\ s = SNothing).
(** How a sign is written. *)
Definition written (s : sign) : text :=
  match s with
  | SPhase l p => tx "--[VRz" ++ l ++ tx "(" ++ p ++ tx ")]--"
  | SRot l t p => tx "--[R" ++ l ++ tx "(" ++ t ++ tx "," ++ p ++ tx ")]--"
  | SMatrix => tx "--[CuOne]--"
  | SGate => tx "--G--"
  | SNothing => tx "--MG--"
  end.
Definition row (signs : list sign) : text := tx "|0>---" ++ concat (map written signs) ++ tx "---=||".
(** The gate acts on the line. *)
Definition acts_on (g : gate kind) (line : nat) : Prop := In (Z.of_nat line) (control_lines g ++ target_lines g).
