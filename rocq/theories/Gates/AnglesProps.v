(** Properties of the angle helpers (C33). *)
From Coq Require Import Reals Lra Lia ZArith.
From Verif Require Import Gates.AnglesModel Gates.AnglesSpec Gates.AnglesProofs.
Open Scope R_scope.

(** pi_mod gives the same angle modulo 2 pi, in [-pi, pi]. *)
Theorem C33_pi_mod : forall a, same_mod (2 * PI) (pi_mod a) a /\ - PI <= pi_mod a <= PI.
Proof. exact pi_mod_spec. Qed.
Print Assumptions C33_pi_mod.

(** Angles already in [-pi, pi] are left alone. *)
Theorem C33_pi_mod_fixpoint : forall a, - PI <= a <= PI -> pi_mod a = a.
Proof. exact pi_mod_fix. Qed.
Print Assumptions C33_pi_mod_fixpoint.

(** new_mod keeps the angle modulo the period and the sign. *)
Theorem C33_new_mod : forall a b, 0 < b ->
  same_mod b (new_mod a b) a /\ (0 <= a -> 0 <= new_mod a b < b) /\ (a < 0 -> - b < new_mod a b <= 0).
Proof. exact new_mod_spec. Qed.
Print Assumptions C33_new_mod.

(** regulate_theta keeps the angle modulo 4 pi (the period of a rotation) and returns a pulse
    of at least 0.2 pi and less than 4.2 pi. *)
Theorem C33_regulate_theta : forall t,
  same_mod (4 * PI) (regulate_theta t) t /\
  2 / 10 * PI <= Rabs (regulate_theta t) < 42 / 10 * PI.
Proof. exact (fun t => conj (proj1 (regulate_theta_spec t)) (proj1 (proj2 (regulate_theta_spec t)))). Qed.
Print Assumptions C33_regulate_theta.

(** Angles already in range are left alone, sign included. *)
Theorem C33_regulate_theta_fixpoint : forall t,
  2 / 10 * PI <= Rabs t < 4 * PI -> regulate_theta t = t.
Proof. exact regulate_theta_sign. Qed.
Print Assumptions C33_regulate_theta_fixpoint.

(** Pulse costs are non-negative, do not depend on the direction of rotation, and only a zero
    rotation is free. *)
Theorem C33_costs : forall t,
  0 <= theta_cost t /\ theta_cost (- t) = theta_cost t /\ (theta_cost t = 0 <-> t = 0) /\
  0 <= phi_cost t /\ phi_cost (- t) = phi_cost t.
Proof.
  exact (fun t => conj (proj1 (theta_cost_props t)) (conj (proj2 (theta_cost_props t))
         (conj (theta_cost_zero t) (phi_cost_props t)))).
Qed.
Print Assumptions C33_costs.

Example C33_case : pi_mod (PI + PI / 2) = - (PI / 2).
Proof.
  pose proof PI_RGT_0. apply (same_mod_unique (2 * PI) _ _ (- PI)); try lra.
  - destruct (pi_mod_spec (PI + PI / 2)) as [(k & Hk) _]. exists (k + 1)%Z. rewrite plus_IZR, Hk. field.
  - destruct (pi_mod_spec (PI + PI / 2)) as [(k & Hk) Hb]. split; [lra|].
    destruct (Req_dec (pi_mod (PI + PI / 2)) PI) as [E|E]; [exfalso|lra].
    rewrite E in Hk. assert (Hz : IZR (4 * k) = IZR (-1)).
    { rewrite mult_IZR. apply (Rmult_eq_reg_r (PI / 2)); [|lra]. lra. }
    apply eq_IZR in Hz. lia.
Qed.
