(** Vocabulary for the two-qudit blocks and the QR compilation of two-qudit gates (C49, C82, C83). *)
From Coq Require Import Reals List ZArith.
From Verif.Base Require Import Py Cplx Matrix.
From Verif.Gates Require Import SingleSpec.
From Verif.Local Require Import QrSpec.
From Verif.Ent Require Import BlockModel.
Import ListNotations.
Local Open Scope nat_scope.

(** The operator a single-qudit gate stands for: a rotation, a phase rotation, i times a Hadamard on two levels,
    or a phase on one level. *)
Definition local_op (k : ekind) : mat :=
  match k with
  | KR a b t f => rotation (Z.to_nat (Z.min a b)) (Z.to_nat (Z.max a b)) t f
  | KRz a b f => zrot (Z.to_nat (Z.min a b)) (Z.to_nat (Z.max a b)) f
  | KRh a b => rhad (Z.to_nat (Z.min a b)) (Z.to_nat (Z.max a b))
  | KV a f => mdiag (fun i => if Nat.eqb i (Z.to_nat a) then cis (- f) else C1)
  end.
Definition dagger (dag : bool) (M : mat) : mat := if dag then madj M else M.
(** The operator of a gate on the pair of qudits.  The state with the first line in level c and the second in
    level t has index c*dt+t, whichever of the two lines has the smaller index.  CEx exchanges the levels 0 and 1
    of the second line, with the factor -i, when the first is in level 1. *)
Definition gate_op (dc dt : nat) (g : egate) : mat :=
  match g with
  | ELoc false k dag => mkron dt (dagger dag (local_op k)) mid
  | ELoc true k dag => mkron dt mid (dagger dag (local_op k))
  | ECex dag => dagger dag (two_level (1 * dt + 0) (1 * dt + 1) C0 (- Ci) (- Ci) C0)%C
  end.
(** A list of gates run as a circuit: the first gate acts first. *)
Definition circuit_op (dc dt : nat) (l : list egate) : mat :=
  fold_left (fun M g => mmul (dc * dt) (gate_op dc dt g) M) l mid.

(** A gate on existing levels. *)
Definition valid_gate (dc dt : nat) (g : egate) : Prop :=
  match g with
  | ECex _ => True
  | ELoc second k _ =>
    let d := Z.of_nat (if second then dt else dc) in
    match k with
    | KR a b _ _ | KRz a b _ | KRh a b => (0 <= a < d /\ 0 <= b < d /\ a <> b)%Z
    | KV a _ => (0 <= a < d)%Z
    end
  end.
Definition is_cex (g : egate) : bool := match g with ECex _ => true | _ => false end.
Definition cex_gates (l : list egate) : nat := List.length (filter is_cex l).

(** What is assumed of the library: det is 0 for singular matrices only, solve solves the systems that have a
    solution and a determinant other than 0, round(x, 6) is a nearest multiple of 10^-6. *)
Definition solves (n : nat) (M : nat -> nat -> R) (x b : nat -> R) : Prop :=
  forall i, i < n -> sum_to n (fun j => M i j * x j)%R = b i.
Definition exact_det (det : nat -> (nat -> nat -> R) -> R) : Prop :=
  forall n M, det n M = 0%R <-> exists x, (exists i, i < n /\ x i <> 0%R) /\ solves n M x (fun _ => 0%R).
Definition exact_solve (det : nat -> (nat -> nat -> R) -> R) (solve : nat -> (nat -> nat -> R) -> (nat -> R) -> res (list R)) : Prop :=
  forall n M b x, det n M <> 0%R -> solves n M x b ->
    exists y, solve n M b = Ok y /\ List.length y = n /\ solves n M (fun j => nth j y 0%R) b.
Definition rounds6 (round6 : R -> R) : Prop :=
  forall x, (Rabs (round6 x - x) <= 1 / 2000000)%R /\ exists k, round6 x = (IZR k / 1000000)%R.

(** The operator A, up to the phase gamma. *)
Definition with_phase (gamma : R) (A : mat) : mat := fun i j => (cis gamma * A i j)%C.
(** The error of the decomposition: that of the QR decomposition and of the rounding of angles. *)
Definition ent_error (eps delta : R) (n : nat) : R := (qr_error eps delta n + 1 / 2000000)%R.

(** The operator with the two qudits exchanged: from the order (second line, first line) of the indices to the
    order (first line, second line). *)
Definition exchanged (dc dt : nat) (U : mat) : mat :=
  fun r s => U (r mod dt * dc + r / dt) (s mod dt * dc + s / dt).
