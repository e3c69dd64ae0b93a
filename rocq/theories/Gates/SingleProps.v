(** Properties of the single-qudit gates (C07-C10, C12, C13, C15). *)
From Coq Require Import Reals List ZArith Lia Lra.
From Verif Require Import Base.Py Base.Cplx Base.Matrix.
From Verif Require Import Gates.AnglesModel Gates.SingleModel Gates.SingleSpec Gates.SingleProofs.
Open Scope R_scope.
Open Scope C_scope.

(** ** C07: X *)
Theorem C07_shift : forall d j, (j < d)%nat -> maps_ket d (x_array d) j C1 ((j + 1) mod d).
Proof. exact x_maps. Qed.
Print Assumptions C07_shift.
Theorem C07_unitary : forall d, unitary d (x_array d).
Proof. exact x_unitary. Qed.
Print Assumptions C07_unitary.
Theorem C07_order : forall d, meq d (mpow d (x_array d) d) mid.
Proof. exact x_pow_d. Qed.
Print Assumptions C07_order.
Example C07_witness : maps_ket 5 (x_array 5) 4 C1 0.
Proof. apply (C07_shift 5 4). lia. Qed.

(** ** C08: Z *)
Theorem C08_diagonal : forall d, meq d (z_array d) (mdiag (fun i => Cpow (omega d) i)).
Proof. exact z_array_diag. Qed.
Print Assumptions C08_diagonal.
Theorem C08_unitary : forall d, unitary d (z_array d).
Proof. exact z_unitary. Qed.
Print Assumptions C08_unitary.
Theorem C08_order : forall d, meq d (mpow d (z_array d) d) mid.
Proof. exact z_pow_d. Qed.
Print Assumptions C08_order.
Theorem C08_weyl : forall d, meq d (mmul d (z_array d) (x_array d)) (mscal (omega d) (mmul d (x_array d) (z_array d))).
Proof. exact zx_weyl. Qed.
Print Assumptions C08_weyl.
(** omega is a primitive root: no smaller positive power is 1. *)
Theorem C08_primitive : forall d k, (0 < k < d)%nat -> Cpow (omega d) k <> C1.
Proof. exact omega_pow_neq. Qed.
Print Assumptions C08_primitive.

(** ** C09: H *)
Theorem C09_unitary : forall d, unitary d (h_array d).
Proof. exact h_unitary. Qed.
Print Assumptions C09_unitary.
Theorem C09_diagonalises_shift : forall d, meq d (mmul d (z_array d) (h_array d)) (mmul d (h_array d) (x_array d)).
Proof. exact zh_hx. Qed.
Print Assumptions C09_diagonalises_shift.
Theorem C09_entries : forall d i j, (i < d)%nat -> (j < d)%nat ->
  h_array d i j = RtoC (1 / sqrt (INR d)) * Cpow (omega d) (i * j).
Proof. exact h_array_entry. Qed.
Print Assumptions C09_entries.

(** ** C10: S *)
Theorem C10_prime_test : forall n, is_prime n = true <-> prime_nat n.
Proof. exact is_prime_spec. Qed.
Print Assumptions C10_prime_test.
Theorem C10_accepted_iff_prime : forall d, s_new d = Ok tt <-> prime_nat d.
Proof. exact s_new_spec. Qed.
Print Assumptions C10_accepted_iff_prime.
Theorem C10_unitary : forall d, unitary d (s_array d).
Proof. exact s_unitary. Qed.
Print Assumptions C10_unitary.
Theorem C10_diagonal : forall d, d <> 2%nat -> meq d (s_array d) (mdiag (fun i => Cpow (omega d) (i * (i + 1) / 2))).
Proof. exact s_array_diag. Qed.
Print Assumptions C10_diagonal.
Theorem C10_diagonal_qubit : meq 2 (s_array 2) (mdiag (fun i => Cpow Ci i)).
Proof. exact s_array_2. Qed.
Print Assumptions C10_diagonal_qubit.
(** The Clifford relation: conjugation by S sends X to Z X in odd dimension. *)
Theorem C10_clifford : forall d, Nat.Odd d ->
  meq d (mmul d (s_array d) (x_array d)) (mmul d (z_array d) (mmul d (x_array d) (s_array d))).
Proof. exact s_x_odd. Qed.
Print Assumptions C10_clifford.
Example C10_witness : s_new 7 = Ok tt /\ s_new 9 = Err InvalidQuditDimensionError.
Proof. split; reflexivity. Qed.

(** ** C12: R *)
Theorem C12_accepted_iff : forall d p, (exists M, r_matrix d p = Ok M) <->
  exists a b t f rest,
    p = PList (PInt a :: PInt b :: PFloat t :: PFloat f :: rest) /\
    (0 <= a < Z.of_nat d)%Z /\ (0 <= b < Z.of_nat d)%Z /\ a <> b.
Proof. exact r_accepts. Qed.
Print Assumptions C12_accepted_iff.
Theorem C12_unitary : forall d p M, r_matrix d p = Ok M -> unitary d M.
Proof. exact r_unitary. Qed.
Print Assumptions C12_unitary.
Theorem C12_amplitudes : forall d a b t f M, (a < b)%nat -> r_matrix d (rp (Z.of_nat a) (Z.of_nat b) t f) = Ok M ->
  M a a = RtoC (cos (t / 2)) /\ M b b = RtoC (cos (t / 2)) /\
  M b a = - (Ci * RtoC (sin (t / 2)) * cis f) /\ M a b = - (Ci * RtoC (sin (t / 2)) * cis (- f)).
Proof. exact r_amplitudes. Qed.
Print Assumptions C12_amplitudes.
Theorem C12_other_levels_untouched : forall d a b t f M l,
  r_matrix d (rp a b t f) = Ok M -> (l < d)%nat -> Z.of_nat l <> a -> Z.of_nat l <> b -> maps_ket d M l C1 l.
Proof. exact r_untouched. Qed.
Print Assumptions C12_other_levels_untouched.
Theorem C12_angles_add : forall d a b t1 t2 f M1 M2 M3,
  r_matrix d (rp a b t1 f) = Ok M1 -> r_matrix d (rp a b t2 f) = Ok M2 -> r_matrix d (rp a b (t1 + t2) f) = Ok M3 ->
  meq d (mmul d M1 M2) M3.
Proof. exact r_group. Qed.
Print Assumptions C12_angles_add.
Theorem C12_inverse : forall d a b t f M1 M2,
  r_matrix d (rp a b (- t) f) = Ok M1 -> r_matrix d (rp a b t f) = Ok M2 -> meq d (mmul d M1 M2) mid /\ meq d M1 (madj M2).
Proof. exact r_inverse. Qed.
Print Assumptions C12_inverse.
Theorem C12_phase_flip : forall d a b t f M1 M2,
  r_matrix d (rp a b t (f + PI)) = Ok M1 -> r_matrix d (rp a b (- t) f) = Ok M2 -> meq d M1 M2.
Proof. exact r_phi_pi. Qed.
Print Assumptions C12_phase_flip.
Theorem C12_period_4pi : forall d a b t f k M1 M2,
  r_matrix d (rp a b t f) = Ok M1 -> r_matrix d (rp a b (t + IZR k * (4 * PI)) f) = Ok M2 -> meq d M1 M2.
Proof. exact r_periodic. Qed.
Print Assumptions C12_period_4pi.
(** The order in which the two levels are given is not part of the gate. *)
Theorem C12_level_order_ignored : forall d a b t f, r_matrix d (rp b a t f) = r_matrix d (rp a b t f).
Proof. exact r_level_order. Qed.
Print Assumptions C12_level_order_ignored.
Example C12_witness : exists M, r_matrix 3 (rp 2 0 (PI / 3) (PI / 7)) = Ok M.
Proof. apply C12_accepted_iff. do 5 eexists. split; [reflexivity|]. lia. Qed.

(** ** C13: Rz, VirtRz, Rh *)
Theorem C13_rz_accepted_iff : forall d p, (exists M, rz_matrix d p = Ok M) <->
  exists a b f rest, p = PList (PInt a :: PInt b :: PFloat f :: rest) /\
    (0 <= a < Z.of_nat d)%Z /\ (0 <= b < Z.of_nat d)%Z /\ a <> b.
Proof. exact rz_accepts. Qed.
Print Assumptions C13_rz_accepted_iff.
Theorem C13_rz_phases : forall d a b f rest M, rz_matrix d (PList (PInt a :: PInt b :: PFloat f :: rest)) = Ok M ->
  meq d M (mdiag (fun l => if (Z.of_nat l =? Z.min a b)%Z then cis (- (f / 2))
                           else if (Z.of_nat l =? Z.max a b)%Z then cis (f / 2) else C1)).
Proof. exact rz_value. Qed.
Print Assumptions C13_rz_phases.
Theorem C13_rz_unitary : forall d p M, rz_matrix d p = Ok M -> unitary d M.
Proof. exact rz_unitary. Qed.
Print Assumptions C13_rz_unitary.
Theorem C13_virtrz_phase : forall d a f, (0 <= a < Z.of_nat d)%Z ->
  meq d (virtrz_matrix d (PList [PInt a; PFloat f])) (mdiag (fun i => if Nat.eqb i (Z.to_nat a) then cis (- f) else C1)).
Proof. exact virtrz_matrix_spec. Qed.
Print Assumptions C13_virtrz_phase.
Theorem C13_virtrz_unitary : forall d p, unitary d (virtrz_matrix d p).
Proof. exact virtrz_unitary. Qed.
Print Assumptions C13_virtrz_unitary.
(** Parameters the constructor does not understand (a level out of range, an integer angle) are
    dropped without an error: the gate is then the identity. *)
Theorem C13_virtrz_bad_level_dropped : forall d l f, ~ (0 <= l < Z.of_nat d)%Z ->
  meq d (virtrz_matrix d (PList [PInt l; PFloat f])) mid.
Proof. exact virtrz_out_of_range. Qed.
Print Assumptions C13_virtrz_bad_level_dropped.
Theorem C13_virtrz_integer_angle_refuted : exists p, p = PList [PInt 1; PInt 1] /\ meq 3 (virtrz_matrix 3 p) mid.
Proof. exact virtrz_int_angle. Qed.
Print Assumptions C13_virtrz_integer_angle_refuted.
Theorem C13_rh_value : forall d a b rest M, rh_matrix d (PList (PInt a :: PInt b :: rest)) = Ok M ->
  meq d M (rhad (Z.to_nat (Z.min a b)) (Z.to_nat (Z.max a b))) /\ unitary d M.
Proof. exact rh_value. Qed.
Print Assumptions C13_rh_value.
Example C13_witness : (exists M, rz_matrix 4 (PList [PInt 3; PInt 1; PFloat 2]) = Ok M) /\
  (exists M, rh_matrix 4 (PList [PInt 3; PInt 1]) = Ok M).
Proof. split; eexists; reflexivity. Qed.

(** ** C15: Perm *)
Theorem C15_accepted_unitary_iff : forall d p M, perm_new d p = Ok M -> List.length p = d -> (unitary d M <-> NoDup p).
Proof. exact perm_accepted_unitary. Qed.
Print Assumptions C15_accepted_unitary_iff.
Theorem C15_maps_levels : forall d p M j n, perm_new d p = Ok M -> List.length p = d -> nth_error p j = Some n ->
  maps_ket d M j C1 (Z.to_nat n).
Proof. exact perm_accepted_maps. Qed.
Print Assumptions C15_maps_levels.
(** The constructor accepts [0,0] for a qubit; the gate is not unitary. *)
Theorem C15_repeated_level_refuted : exists M, perm_new 2 [0; 0]%Z = Ok M /\ ~ unitary 2 M.
Proof. exact perm_00. Qed.
Print Assumptions C15_repeated_level_refuted.
Example C15_witness : exists M, perm_new 3 [2; 0; 1]%Z = Ok M /\ unitary 3 M.
Proof.
  eexists. split; [reflexivity|]. apply (C15_accepted_unitary_iff 3 [2; 0; 1]%Z _ eq_refl eq_refl).
  repeat constructor; cbn; intuition discriminate.
Qed.
