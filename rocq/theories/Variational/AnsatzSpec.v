(** Vocabulary for C47, C48, C71, C73 and C74. *)
From Coq Require Import List ZArith Arith Reals.
From Verif Require Import Base.Py Base.Cplx Base.Matrix Base.Radix Base.Expm Circuit.GateModel Gates.FactorySpec Sim.TnSpec.
From Coq Require Import Permutation.
From Verif Require Import Variational.AnsatzModel.
Import ListNotations.
Local Open Scope nat_scope.

(** [U] is the matrix of the program on the register: the product of the matrices of its gates, the first
    gate rightmost. *)
Fixpoint implements (dims : list nat) (gs : list (gate mat)) (U : mat) : Prop :=
  match gs with
  | [] => meq (prodl dims) U mid
  | g :: r => exists A V, matrix_of dims g A /\ implements dims r V /\ meq (prodl dims) U (mmul (prodl dims) V A)
  end.

(** equal up to a global phase *)
Definition same_up_to_phase (n : nat) (A B : mat) : Prop := exists c, Cnorm2 c = 1%R /\ meq n A (mscal c B).

(** The matrix exponential is computed correctly whenever the series converges. *)
Definition exact_expm (expm : nat -> mat -> mat) : Prop := forall n A E, is_expm n A E -> meq n (expm n A) E.

(** The number of real parameters of a d-level rotation. *)
Definition sud_params (d : nat) : nat := d * d - 1.

(** The elementary rotations: opposite phases on two levels, and a real rotation between two levels. *)
Definition phase_pair (a b : nat) (x : R) : mat := two_level a b (cis x) C0 C0 (cis (- x)).
Definition real_rotation (a b : nat) (x : R) : mat := two_level a b (RtoC (cos x)) (RtoC (sin x)) (RtoC (- sin x)) (RtoC (cos x)).
(** The product of the elementary rotations, leftmost first.  Parameters are arranged in a d x d table
    without its last entry: the diagonal entry l is the phase of l against the last level; below the diagonal
    (row n, column m) is the phase of m against n, above it (row m, column n) the rotation of m against n. *)
Definition entry (p : list R) (d r c : nat) : R := nth (r * d + c) p 0%R.
Fixpoint mprod (n : nat) (l : list mat) : mat := match l with [] => mid | a :: r => mmul n a (mprod n r) end.
Definition rotation_of (p : list R) (d : nat) : mat :=
  mprod d (map (fun l => phase_pair l (d - 1) (entry p d l l)) (seq 0 (d - 1)) ++
           flat_map (fun m => flat_map (fun n => [phase_pair m n (entry p d n m); real_rotation m n (entry p d m n)])
                                       (seq (m + 1) (d - (m + 1)))) (seq 0 (d - 1))).

(** A list made of [k] pairs of blocks, of lengths [n] and [m]. *)
Fixpoint blocks {A} (n m k : nat) (bs : list (list A)) : Prop :=
  match k, bs with
  | O, [] => True
  | S k', a :: b :: r => List.length a = n /\ List.length b = m /\ blocks n m k' r
  | _, _ => False
  end.
(** The interval of a parameter by its place in the table. *)
Definition interval (r c : nat) : R * R := if r =? c then (0%R, (2 * PI)%R) else if c <? r then (0%R, PI) else (0%R, (PI / 2)%R).

(** A custom entangling primitive that the emitted circuit can use as it is: a gate without controls and
    without dagger flag, on lines 0 and 1.  The built-in primitives always are. *)
Definition proper_primitive (a : ansatz) : Prop :=
  match a with CU (Some g) => g_controls g = None /\ g_dagger g = false /\ Permutation (target_nats g) [0; 1] | _ => True end.

(** The zero operator; Hermitian operators; the sum of the diagonal. *)
Definition zero_op (n : nat) (a : mat) : Prop := meq n a (fun _ _ => C0).
Definition hermitian (n : nat) (a : mat) : Prop := meq n (madj a) a.
