(** What the gates should be, independently of how the code builds them. *)
From Verif Require Import Base.Cplx Base.Matrix.
Open Scope R_scope.
Open Scope C_scope.

(** primitive d-th root of unity *)
Definition omega (d : nat) : C := cis (2 * PI / INR d).

(** A maps basis state j to c times basis state i. *)
Definition maps_ket (d : nat) (A : mat) (j : nat) (c : C) (i : nat) : Prop :=
  veq d (mapply d A (ket j)) (fun k => c * ket i k).

(** The rotation by theta about the axis (cos phi, sin phi, 0) on levels a, b:
    cos(theta/2) on both levels, -i sin(theta/2) e^{-+ i phi} between them, identity elsewhere. *)
Definition rotation (a b : nat) (theta phi : R) : mat :=
  two_level a b
    (RtoC (cos (theta / 2))) (- (Ci * RtoC (sin (theta / 2)) * cis (- phi)))
    (- (Ci * RtoC (sin (theta / 2)) * cis phi)) (RtoC (cos (theta / 2))).

Definition prime_nat (n : nat) : Prop :=
  (2 <= n)%nat /\ forall k, (exists q, n = (q * k)%nat) -> k = 1%nat \/ k = n.

(** The Z rotation: phases e^{-i phi/2}, e^{i phi/2} on levels a, b. *)
Definition zrot (a b : nat) (phi : R) : mat := two_level a b (cis (- (phi / 2))) C0 C0 (cis (phi / 2)).

(** i times the qubit Hadamard on levels a, b. *)
Definition rhad (a b : nat) : mat :=
  two_level a b (Ci * RtoC (1 / sqrt 2)) (Ci * RtoC (1 / sqrt 2)) (Ci * RtoC (1 / sqrt 2)) (- (Ci * RtoC (1 / sqrt 2))).
