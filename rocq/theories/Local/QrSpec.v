(** Vocabulary for the QR compilation (C27, C28). *)
From Coq Require Import Reals.
From Verif.Base Require Import Py Cplx Matrix.
From Verif.Levels Require Import LevelsModel LevelsSpec.
From Verif.Local Require Import QrModel.
Local Open Scope string_scope.
Local Open Scope list_scope.
Local Open Scope nat_scope.

(** The matrix of a gate list run as a circuit on one qudit: the first gate acts first. *)
Definition circuit_matrix (d : nat) (l : list (qop * bool)) : mat :=
  fold_left (fun M o => mmul d (gate_matrix d o) M) l mid.
(** The gates as emitted, without daggers. *)
Definition ops_matrix (d : nat) (l : list qop) : mat := circuit_matrix d (map plain l).

(** A and B differ by at most e in every entry. *)
Definition close (d : nat) (e : R) (A B : mat) : Prop :=
  forall i j, i < d -> j < d -> (Cmod (Csub (A i j) (B i j)) <= e)%R.

(** The error of the decomposition for the thresholds eps (rotations) and delta (phases). *)
Definition qr_error (eps delta : R) (d : nat) : R :=
  (delta + INR d * eps + 2 * (INR d * eps) * (INR d * eps))%R.

(** Every level 0, ..., d-1 is a node of the graph. *)
Definition covers (d : nat) (g : lgraph) : Prop := forall n, n < d -> is_node g (Z.of_nat n).
(** No phase is stored in the graph. *)
Definition no_phases (g : lgraph) : Prop := forall n v x, has_attr g n "phase_storage" v -> num v = Ok x -> x = 0%R.

(** [V] is the operator [U] of the logical levels, written on the physical levels they are placed on. *)
Definition on_device (d : nat) (g : lgraph) (U V : mat) : Prop :=
  forall n m p q, n < d -> m < d -> placed g (Z.of_nat n) (Z.of_nat p) -> placed g (Z.of_nat m) (Z.of_nat q) ->
    V p q = U n m.

(** A gate the device described by g can run: a rotation between two coupled physical levels, or a
    virtual rotation. *)
Definition native (g : lgraph) (o : qop) : Prop :=
  match o with
  | OR r => exists dat, coupled g (Z.of_nat (SingleModel.lev_a r)) (Z.of_nat (SingleModel.lev_b r)) dat
  | OV _ => True
  end.
Definition is_rotation (o : qop) : bool := match o with OR _ => true | OV _ => false end.

(** *** Circuits through the passes *)
(** Every gate to be compiled is unitary and its qudit has a usable level graph. *)
Definition compilable (gs : list lgraph) (c : list instr) : Prop :=
  forall line d U, In (ISingle line d U) c -> unitary d U /\ exists g, pyindex gs line = Ok g /\ routable d g /\ covers d g.
(** The blocks of gates that replace the gates of a circuit: gates of other types stay as they are, a
    single-qudit gate becomes a list of gates on the same line, of which [R] holds. *)
Inductive replaced (R : Z -> nat -> mat -> list (qop * bool) -> Prop) : list instr -> list outstr -> Prop :=
| rp_nil : replaced R [] []
| rp_other n c o : replaced R c o -> replaced R (IOther n :: c) (OOther n :: o)
| rp_single line d U l c o : R line d U l -> replaced R c o -> replaced R (ISingle line d U :: c) (map (OGate line d) l ++ o).

(** A qudit with two coupled levels. *)
Definition pair_graph : lgraph := new_graph [link 0 1 3 []]%Z [0; 1]%Z [0; 1]%Z (Some [1]%Z) None None.
