(** Properties of the gate costs (C60) and of the noise gates (C61). *)
From Coq Require Import Reals.
From Verif Require Import Base.Py Base.Cplx Base.Matrix.
From Verif Require Import Gates.AnglesModel Gates.SingleModel Gates.SingleSpec Gates.AnglesProofs Gates.CostProofs.
Local Open Scope R_scope.

(** ** C60: costs *)

(** The cost of an angle is never negative, does not depend on its sign, is zero exactly for the zero
    angle and grows strictly with the size of the angle. *)
Theorem C60_cost_sign : forall t, 0 <= theta_cost t /\ theta_cost (- t) = theta_cost t.
Proof. exact theta_cost_props. Qed.
Print Assumptions C60_cost_sign.
Theorem C60_cost_zero : forall t, theta_cost t = 0 <-> t = 0.
Proof. exact theta_cost_zero. Qed.
Print Assumptions C60_cost_zero.
Theorem C60_cost_increasing : forall t t', Rabs t < Rabs t' -> theta_cost t < theta_cost t'.
Proof. exact theta_cost_increasing. Qed.
Print Assumptions C60_cost_increasing.
(** Per unit of pi: four units plus the distance to the nearest multiple of pi/2, times 1e-4. *)
Theorem C60_cost_value : forall t, exists k : Z,
  theta_cost t = (4 * (Rabs t / PI) + Rabs (Rabs t / PI - IZR k / 2)) * (1 / 10000) /\
  forall j : Z, Rabs (Rabs t / PI - IZR k / 2) <= Rabs (Rabs t / PI - IZR j / 2).
Proof.
  exact (fun t => match dist_attained (Rabs t / PI) with
    | ex_intro _ k E => ex_intro _ k (conj
        (eq_trans (theta_cost_dist t) (f_equal (fun x => (4 * (Rabs t / PI) + x) * (1 / 10000)) E))
        (fun j => eq_ind _ (fun x => x <= _) (dist_least (Rabs t / PI) j) _ E)) end).
Qed.
Print Assumptions C60_cost_value.
Theorem C60_phase_cost : forall t, phi_cost t = Rabs t / PI * (1 / 10000).
Proof. exact phi_cost_linear. Qed.
Print Assumptions C60_phase_cost.
(** A phase gate: its angle is first brought into the range of pulses. *)
Theorem C60_phase_gate_cost : forall phi,
  (2 / 10 * PI <= Rabs phi < 4 * PI -> rz_cost phi = Rabs phi / PI * (1 / 10000)) /\
  2 / 10 * (1 / 10000) <= rz_cost phi < 42 / 10 * (1 / 10000).
Proof. exact rz_cost_spec. Qed.
Print Assumptions C60_phase_gate_cost.
(** So of two R gates with angles between 0.2 pi and 4 pi, the larger rotation costs more. *)
Theorem C60_gate_cost_increasing : forall d a b t f t' f' r r',
  r_new d (PList [PInt a; PInt b; PFloat t; PFloat f]) = Ok (Some r) ->
  r_new d (PList [PInt a; PInt b; PFloat t'; PFloat f']) = Ok (Some r') ->
  2 / 10 * PI <= Rabs t -> Rabs t < Rabs t' -> Rabs t' < 4 * PI -> r_cost r < r_cost r'.
Proof. exact cost_increasing_gates. Qed.
Print Assumptions C60_gate_cost_increasing.
(** Below 0.2 pi this fails: the constructor adds a full period, the rotation by 0 costs more than the
    rotation by pi. *)
Theorem C60_zero_rotation_cost_refuted : exists d r0 r1,
  r_new d (PList [PInt 0; PInt 1; PFloat 0; PFloat 0]) = Ok (Some r0) /\
  r_new d (PList [PInt 0; PInt 1; PFloat PI; PFloat 0]) = Ok (Some r1) /\ r_cost r1 < r_cost r0.
Proof. exact cost_refuted. Qed.
Print Assumptions C60_zero_rotation_cost_refuted.
Example C60_case : theta_cost (regulate_theta PI) = 4 / 10000.
Proof. exact cost_pi_rotation. Qed.

(** ** C61: the noise gates *)
Local Open Scope C_scope.
Theorem C61_noisex_accepted : forall d a b rest,
  (exists M, noisex_matrix d (PList (PInt a :: PInt b :: rest)) = Ok M) <->
  ((0 <= a < Z.of_nat d)%Z /\ (0 <= b < Z.of_nat d)%Z /\ a <> b).
Proof. exact noise_accepted. Qed.
Print Assumptions C61_noisex_accepted.
Theorem C61_noisey_accepted : forall d a b rest,
  (exists M, noisey_matrix d (PList (PInt a :: PInt b :: rest)) = Ok M) <->
  ((0 <= a < Z.of_nat d)%Z /\ (0 <= b < Z.of_nat d)%Z /\ a <> b).
Proof. exact noisey_accepted. Qed.
Print Assumptions C61_noisey_accepted.
(** NoiseX exchanges the two levels, NoiseY exchanges them with the phases i (up) and -i (down); both
    leave the other levels alone and are unitary. *)
Theorem C61_noisex_flips : forall d a b rest M, noisex_matrix d (PList (PInt a :: PInt b :: rest)) = Ok M ->
  maps_ket d M (Z.to_nat a) C1 (Z.to_nat b) /\ maps_ket d M (Z.to_nat b) C1 (Z.to_nat a) /\
  (forall j, (j < d)%nat -> j <> Z.to_nat a -> j <> Z.to_nat b -> maps_ket d M j C1 j) /\ unitary d M.
Proof. exact noisex_maps. Qed.
Print Assumptions C61_noisex_flips.
Theorem C61_noisey_flips : forall d a b rest M, noisey_matrix d (PList (PInt a :: PInt b :: rest)) = Ok M ->
  maps_ket d M (Z.to_nat (Z.min a b)) Ci (Z.to_nat (Z.max a b)) /\
  maps_ket d M (Z.to_nat (Z.max a b)) (- Ci) (Z.to_nat (Z.min a b)) /\
  (forall j, (j < d)%nat -> j <> Z.to_nat a -> j <> Z.to_nat b -> maps_ket d M j C1 j) /\ unitary d M.
Proof. exact noisey_maps. Qed.
Print Assumptions C61_noisey_flips.
Example C61_case : exists M, noisex_matrix 4 (PList [PInt 3; PInt 1]) = Ok M.
Proof. eexists. reflexivity. Qed.
