(** Vocabulary for the costs a QR decomposition reports (C101). *)
From Coq Require Import Reals List.
From Verif.Base Require Import Py.
From Verif.Gates Require Import AnglesModel SingleModel.
From Verif.Levels Require Import LevelsModel LevelsSpec DistanceSpec.
From Verif.Local Require Import QrModel.
Import ListNotations.
Local Open Scope list_scope.
Local Open Scope R_scope.

(** The cost of a list of gates: each rotation costs its angle, a virtual rotation costs nothing. *)
Definition gate_cost (o : qop) : R := match o with OR r => theta_cost (r_theta r) | OV _ => 0 end.
Definition gates_cost (l : list qop) : R := fold_right (fun o s => gate_cost o + s) 0 l.
Definition rotation_free (l : list qop) : Prop := forall r, ~ In (OR r) l.

(** The search for a path never answers with no node at all. *)
Definition names_nodes (sp : lgraph -> Z -> Z -> res (list Z)) : Prop := forall g s t p, sp g s t = Ok p -> p <> [].
(** Neighbouring levels are coupled. *)
Definition chain (d : nat) (g : lgraph) : Prop := forall n : nat, (S n < d)%nat -> linked g (Z.of_nat n) (Z.of_nat (S n)).
(** Every level can be driven directly. *)
Definition all_direct (g : lgraph) : Prop := forall n, ~ reachable_level g n.
(** A qudit with two coupled levels, both of which can be driven. *)
Definition driven_pair : lgraph := new_graph [link 0 1 3 []]%Z [0; 1]%Z [0; 1]%Z (Some [0; 1]%Z) None None.
