(** Vocabulary for the two-qudit passes (C83, C84). *)
From Coq Require Import Reals List ZArith.
From Verif.Base Require Import Py Cplx Matrix.
From Verif.Gates Require Import TwoModel TwoSpec.
From Verif.Levels Require Import LevelsModel LevelsSpec.
From Verif.Local Require Import QrModel QrSpec.
From Verif.Ent Require Import BlockModel BlockSpec PassModel.
Import ListNotations.
Local Open Scope nat_scope.

(** The graph of a qudit of dimension d with its logical levels 0, ..., d-1, in this order, on the physical levels
    p 0, ..., p (d-1). *)
Record laid_out (d : nat) (g : lgraph) (p : nat -> nat) : Prop := {
  lo_routable : routable d g;
  lo_order : map fst (nd g) = map Z.of_nat (seq 0 d);
  lo_placed : forall n, n < d -> placed g (Z.of_nat n) (Z.of_nat (p n)) }.

(** [V] is the operator [U] of two qudits with the levels i of the first renamed to p0 i and the levels j of the
    second to p1 j; [lt] says which order of the qudits the rows and columns are in. *)
Definition relabelled (dc dt : nat) (lt : bool) (p0 p1 : nat -> nat) (U V : mat) : Prop :=
  forall i j i' j', i < dc -> j < dt -> i' < dc -> j' < dt ->
    V (pair_index lt dc dt (p0 i) (p1 j)) (pair_index lt dc dt (p0 i') (p1 j')) =
    U (pair_index lt dc dt i j) (pair_index lt dc dt i' j').
(** A CEx on existing levels. *)
Definition cex_fits (dc dt : nat) (x : cex) : Prop :=
  (0 <= cx_ctrl x < Z.of_nat dc)%Z /\ cx_a x < cx_b x < dt /\ (0 <= cx_phi x <= 2 * PI)%R.

(** The gates of the circuit that replace its two-qudit gates: other gates stay where they are, a two-qudit gate
    becomes gates on its two lines, of which [P] holds. *)
Inductive two_replaced (P : twogate -> list egate -> Prop) : list einstr -> list eout -> Prop :=
| tr_nil : two_replaced P [] []
| tr_other n c o : two_replaced P c o -> two_replaced P (EOther n :: c) (EKeep n :: o)
| tr_two g l c o : P g l -> two_replaced P c o -> two_replaced P (ETwo g :: c) (map (EGate (tw_q0 g) (tw_q1 g)) l ++ o).
(** Every two-qudit gate acts on two lines in increasing order, of dimension 2 or more, and is unitary. *)
Definition two_ok (g : twogate) : Prop :=
  tw_q0 g < tw_q1 g /\ 2 <= tw_dc g /\ 2 <= tw_dt g /\ exists U, two_matrix g = Ok U /\ unitary (tw_dc g * tw_dt g) U.

(** The qudit with two levels in exchanged order. *)
Definition swapped_pair : lgraph := new_graph [link 0 1 3 []]%Z [0; 1]%Z [1; 0]%Z (Some [1]%Z) None None.
