(** What simulation should compute. *)
From Coq Require Import List ZArith Arith Reals Sorted Permutation.
From Verif Require Import Base.Py Base.Cplx Base.Matrix Base.Radix Circuit.GateModel Gates.FactorySpec.
Import ListNotations.
Local Open Scope nat_scope.

Definition register (dims : list nat) : Prop := dims <> [] /\ forall d, In d dims -> 0 < d.

(** [A] is the matrix of the gate on the whole register: its array, daggered if asked for, on the targets in ascending
    order, under the controls (FactorySpec.acts_on). *)
Definition matrix_of (dims : list nat) (g : gate mat) (A : mat) : Prop :=
  exists ts, Permutation ts (target_nats g) /\ StronglySorted lt ts /\ acts_on dims ts (control_nats g) (control_levels g) (core g) A.

(** [psi] becomes [phi] under the gates, one after the other. *)
Fixpoint evolves (dims : list nat) (psi : vec) (gs : list (gate mat)) (phi : vec) : Prop :=
  match gs with
  | [] => veq (prodl dims) phi psi
  | g :: r => exists A, matrix_of dims g A /\ evolves dims (mapply (prodl dims) A psi) r phi
  end.

(** The type and the long-range flag of a gate fit its lines: one line, two lines, next to each other unless
    marked as long range. *)
Definition all_lines (g : gate mat) : list Z := (control_lines g ++ target_lines g)%list.
Definition fits (g : gate mat) : Prop :=
  match g_type g with
  | SINGLE => exists l, all_lines g = [l]
  | TWO => exists l m, all_lines g = [l; m] /\ (g_long g = false -> (Z.abs (l - m) <= 1)%Z)
  | MULTI => True
  end.

(** total probability *)
Fixpoint rsum (n : nat) (f : nat -> R) : R := match n with O => 0%R | S m => (rsum m f + f m)%R end.
Definition norm2 (n : nat) (v : vec) : R := rsum n (fun k => Cnorm2 (v k)).
Definition unitary_gate (dims : list nat) (g : gate mat) : Prop := unitary (prodl (sub_dims dims (target_nats g))) (g_data g).
