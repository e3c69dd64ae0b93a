(** Proofs about gate costs and the noise gates. *)
From Coq Require Import Reals Lra Lia.
From Verif Require Import Base.Py Base.Cplx Base.Matrix.
From Verif Require Import Gates.AnglesModel Gates.AnglesSpec Gates.AnglesProofs.
From Verif Require Import Gates.SingleModel Gates.SingleSpec Gates.SingleProofs.
Local Open Scope R_scope.

(** |rmod (x + 1/4) (1/2) - 1/4| is the distance of x to the half-integers *)
Definition dist (x : R) : R := Rabs (rmod (x + 1/4) (1/2) - 1/4).
Lemma dist_attained x : exists k : Z, dist x = Rabs (x - IZR k / 2).
Proof.
  destruct (rmod_same (x + 1/4) (1/2)) as [k Hk]. exists (- k)%Z. unfold dist. rewrite Hk. f_equal. rewrite opp_IZR. field.
Qed.
Lemma dist_least x k : dist x <= Rabs (x - IZR k / 2).
Proof.
  destruct (rmod_same (x + 1/4) (1/2)) as [j Hj]. pose proof (rmod_bounds (x + 1/4) (1/2) ltac:(lra)) as B.
  unfold dist. set (m := rmod (x + 1/4) (1/2)) in *.
  replace (x - IZR k / 2) with (m - 1/4 - IZR (j + k) / 2) by (rewrite plus_IZR; lra).
  destruct (Z.eq_dec (j + k) 0) as [E|E].
  - rewrite E. replace (m - 1/4 - 0/2) with (m - 1/4) by field. lra.
  - destruct (Z_lt_le_dec (j + k) 0) as [L|L].
    + assert (IZR (j + k) <= -1) by (apply (IZR_le _ (-1)); lia). unfold Rabs.
      destruct (Rcase_abs (m - 1/4)), (Rcase_abs (m - 1/4 - IZR (j + k) / 2)); lra.
    + assert (1 <= IZR (j + k)) by (apply (IZR_le 1); lia). unfold Rabs.
      destruct (Rcase_abs (m - 1/4)), (Rcase_abs (m - 1/4 - IZR (j + k) / 2)); lra.
Qed.
Lemma dist_lipschitz x y : dist x <= dist y + Rabs (x - y).
Proof.
  destruct (dist_attained y) as [k ->]. eapply Rle_trans; [apply (dist_least x k)|].
  replace (x - IZR k / 2) with ((x - y) + (y - IZR k / 2)) by ring. rewrite (Rplus_comm (Rabs (y - _))). apply Rabs_triang.
Qed.
Lemma PI_pos : 0 < PI. Proof. apply PI_RGT_0. Qed.
Lemma Rabs_div_PI t : Rabs (t / PI) = Rabs t / PI.
Proof. unfold Rdiv. rewrite Rabs_mult. f_equal. apply Rabs_right. left. apply Rinv_0_lt_compat, PI_pos. Qed.
Lemma theta_cost_dist t : theta_cost t = (4 * (Rabs t / PI) + dist (Rabs t / PI)) * (1 / 10000).
Proof. unfold theta_cost. rewrite Rabs_div_PI. reflexivity. Qed.
Lemma theta_cost_increasing t t' : Rabs t < Rabs t' -> theta_cost t < theta_cost t'.
Proof.
  intros H. rewrite !theta_cost_dist. apply Rmult_lt_compat_r; [lra|].
  assert (L : Rabs t / PI < Rabs t' / PI) by (apply Rmult_lt_compat_r; [apply Rinv_0_lt_compat, PI_pos|exact H]).
  pose proof (dist_lipschitz (Rabs t / PI) (Rabs t' / PI)) as D. rewrite Rabs_minus_sym in D.
  rewrite (Rabs_right (Rabs t' / PI - Rabs t / PI)) in D by lra. lra.
Qed.
Lemma phi_cost_linear t : phi_cost t = Rabs t / PI * (1 / 10000).
Proof. unfold phi_cost. now rewrite Rabs_div_PI. Qed.
Lemma cost_of_r d a b t f r : r_new d (PList [PInt a; PInt b; PFloat t; PFloat f]) = Ok (Some r) ->
  r_cost r = theta_cost (regulate_theta t).
Proof.
  cbn. destruct (check_levels d a b); [|discriminate]. destruct (levels_setter a b) as [la lb]. intros H. injection H as <-. reflexivity.
Qed.
Lemma cost_zero_rotation : theta_cost (regulate_theta 0) = 16 / 10000.
Proof.
  assert (E : regulate_theta 0 = 4 * PI).
  { unfold regulate_theta. replace (0 / PI) with 0 by (field; apply Rgt_not_eq, PI_RGT_0).
    rewrite Rabs_R0, (rmod_small 0 4) by lra. destruct (Rlt_dec 0 0); [lra|]. rewrite Rabs_R0.
    destruct (Rlt_dec 0 (2 / 10)); [|lra]. ring. }
  rewrite E, theta_cost_dist. pose proof PI_pos. rewrite (Rabs_right (4 * PI)) by lra.
  replace (4 * PI / PI) with 4 by (field; lra). unfold dist.
  assert (Ed : dist 4 = 0).
  { apply Rle_antisym; [|apply Rabs_pos]. eapply Rle_trans; [apply (dist_least 4 8)|]. replace (4 - 8 / 2) with 0 by field. rewrite Rabs_R0. lra. }
  fold (dist 4). rewrite Ed. field.
Qed.
Lemma cost_pi_rotation : theta_cost (regulate_theta PI) = 4 / 10000.
Proof.
  pose proof PI_pos. rewrite regulate_theta_sign by (rewrite Rabs_right by lra; lra).
  rewrite theta_cost_dist, (Rabs_right PI) by lra. replace (PI / PI) with 1 by (field; lra).
  assert (Ed : dist 1 = 0).
  { apply Rle_antisym; [|apply Rabs_pos]. eapply Rle_trans; [apply (dist_least 1 2)|]. replace (1 - 2 / 2) with 0 by field. rewrite Rabs_R0. lra. }
  rewrite Ed. field.
Qed.
Lemma cost_refuted : exists d r0 r1,
  r_new d (PList [PInt 0; PInt 1; PFloat 0; PFloat 0]) = Ok (Some r0) /\
  r_new d (PList [PInt 0; PInt 1; PFloat PI; PFloat 0]) = Ok (Some r1) /\ r_cost r1 < r_cost r0.
Proof.
  exists 2%nat. do 2 eexists. split; [reflexivity|]. split; [reflexivity|].
  unfold r_cost. cbn [r_theta]. rewrite cost_zero_rotation, cost_pi_rotation. lra.
Qed.
Lemma cost_increasing_gates d a b t f t' f' r r' :
  r_new d (PList [PInt a; PInt b; PFloat t; PFloat f]) = Ok (Some r) ->
  r_new d (PList [PInt a; PInt b; PFloat t'; PFloat f']) = Ok (Some r') ->
  2 / 10 * PI <= Rabs t -> Rabs t < Rabs t' -> Rabs t' < 4 * PI -> r_cost r < r_cost r'.
Proof.
  intros H H' L1 L2 L3. rewrite (cost_of_r _ _ _ _ _ _ H), (cost_of_r _ _ _ _ _ _ H').
  rewrite !regulate_theta_sign by (split; lra). now apply theta_cost_increasing.
Qed.

Local Open Scope C_scope.
Lemma noise_levels_ok d a b rest : check_levels d a b = true ->
  noise_levels d (PList (PInt a :: PInt b :: rest)) = Ok (Z.to_nat (Z.min a b), Z.to_nat (Z.max a b)).
Proof.
  intros H. cbn. rewrite H. unfold levels_setter. destruct (Z.ltb_spec a b).
  - now rewrite Z.min_l, Z.max_r by lia.
  - now rewrite Z.min_r, Z.max_l by lia.
Qed.
Lemma check_levels_spec d a b : check_levels d a b = true <-> (0 <= a < Z.of_nat d)%Z /\ (0 <= b < Z.of_nat d)%Z /\ a <> b.
Proof.
  unfold check_levels. rewrite !andb_true_iff, negb_true_iff, !Z.leb_le, !Z.ltb_lt, Z.eqb_neq. lia.
Qed.
Lemma noise_accepted d a b rest : (exists M, noisex_matrix d (PList (PInt a :: PInt b :: rest)) = Ok M) <->
  ((0 <= a < Z.of_nat d)%Z /\ (0 <= b < Z.of_nat d)%Z /\ a <> b).
Proof.
  rewrite <- check_levels_spec. unfold noisex_matrix. split.
  - intros [M H]. destruct (check_levels d a b) eqn:E; [reflexivity|]. cbn in H. rewrite E in H. discriminate.
  - intros H. rewrite noise_levels_ok by exact H. eexists; reflexivity.
Qed.
Lemma noisey_accepted d a b rest : (exists M, noisey_matrix d (PList (PInt a :: PInt b :: rest)) = Ok M) <->
  ((0 <= a < Z.of_nat d)%Z /\ (0 <= b < Z.of_nat d)%Z /\ a <> b).
Proof.
  rewrite <- check_levels_spec. unfold noisey_matrix. split.
  - intros [M H]. destruct (check_levels d a b) eqn:E; [reflexivity|]. cbn in H. rewrite E in H. discriminate.
  - intros H. rewrite noise_levels_ok by exact H. eexists; reflexivity.
Qed.
Lemma noise_inv d a b rest ab : noise_levels d (PList (PInt a :: PInt b :: rest)) = Ok ab ->
  ab = (Z.to_nat (Z.min a b), Z.to_nat (Z.max a b)) /\
  ((0 <= a < Z.of_nat d)%Z /\ (0 <= b < Z.of_nat d)%Z /\ a <> b).
Proof.
  intros H. destruct (check_levels d a b) eqn:E.
  - rewrite noise_levels_ok in H by exact E. injection H as <-. split; [reflexivity|]. now apply check_levels_spec.
  - cbn in H. rewrite E in H. discriminate.
Qed.
Lemma two_level_maps d a b x y z w : (a < d)%nat -> (b < d)%nat -> a <> b ->
  (forall j, (j < d)%nat -> j <> a -> j <> b -> maps_ket d (two_level a b x y z w) j C1 j).
Proof.
  intros Ha Hb Hab j Hj Na Nb i Hi. rewrite mapply_ket by exact Hj. unfold two_level, ket, mid.
  destruct (Nat.eqb_spec i a), (Nat.eqb_spec i b), (Nat.eqb_spec j a), (Nat.eqb_spec j b), (Nat.eqb_spec i j); subst; try lia; try congruence; ring.
Qed.
Lemma maps_ket_ext d A B j c i : meq d A B -> (j < d)%nat -> maps_ket d B j c i -> maps_ket d A j c i.
Proof. intros E Hj H k Hk. rewrite mapply_ket by exact Hj. rewrite (E k j Hk Hj). rewrite <- (H k Hk). now rewrite mapply_ket. Qed.

Lemma noisex_maps d a b rest M : noisex_matrix d (PList (PInt a :: PInt b :: rest)) = Ok M ->
  maps_ket d M (Z.to_nat a) C1 (Z.to_nat b) /\ maps_ket d M (Z.to_nat b) C1 (Z.to_nat a) /\
  (forall j, (j < d)%nat -> j <> Z.to_nat a -> j <> Z.to_nat b -> maps_ket d M j C1 j) /\ unitary d M.
Proof.
  unfold noisex_matrix. destruct (noise_levels d _) as [ab|] eqn:E; [|discriminate]. intros H. injection H as <-.
  destruct (noise_inv _ _ _ _ _ E) as [-> [Ha [Hb Hab]]]. cbn [fst snd].
  set (lo := Z.to_nat (Z.min a b)). set (hi := Z.to_nat (Z.max a b)).
  assert (Hlo : (lo < d)%nat) by (unfold lo; lia). assert (Hhi : (hi < d)%nat) by (unfold hi; lia).
  assert (Hne : lo <> hi) by (unfold lo, hi; lia).
  assert (K1 : maps_ket d (noisex_array d lo hi) lo C1 hi).
  { eapply maps_ket_ext; [apply noisex_two_level; exact Hne|exact Hlo|].
    intros i Hi. rewrite mapply_ket by exact Hlo. unfold two_level, ket, mid.
    destruct (Nat.eqb_spec i lo), (Nat.eqb_spec i hi), (Nat.eqb_spec lo lo), (Nat.eqb_spec lo hi); subst; try lia; try congruence; ring. }
  assert (K2 : maps_ket d (noisex_array d lo hi) hi C1 lo).
  { eapply maps_ket_ext; [apply noisex_two_level; exact Hne|exact Hhi|].
    intros i Hi. rewrite mapply_ket by exact Hhi. unfold two_level, ket, mid.
    destruct (Nat.eqb_spec i lo), (Nat.eqb_spec i hi), (Nat.eqb_spec hi lo), (Nat.eqb_spec hi hi); subst; try lia; try congruence; ring. }
  assert (Cs : (Z.to_nat a = lo /\ Z.to_nat b = hi) \/ (Z.to_nat a = hi /\ Z.to_nat b = lo)) by (unfold lo, hi; lia).
  split; [|split; [|split]].
  - destruct Cs as [[-> ->]|[-> ->]]; assumption.
  - destruct Cs as [[-> ->]|[-> ->]]; assumption.
  - intros j Hj Na Nb. eapply maps_ket_ext; [apply noisex_two_level; exact Hne|exact Hj|]. apply two_level_maps; try assumption; intros ->; destruct Cs as [[E1 E2]|[E1 E2]]; congruence.
  - apply noisex_unitary; assumption.
Qed.
Lemma noisey_maps d a b rest M : noisey_matrix d (PList (PInt a :: PInt b :: rest)) = Ok M ->
  maps_ket d M (Z.to_nat (Z.min a b)) Ci (Z.to_nat (Z.max a b)) /\
  maps_ket d M (Z.to_nat (Z.max a b)) (- Ci) (Z.to_nat (Z.min a b)) /\
  (forall j, (j < d)%nat -> j <> Z.to_nat a -> j <> Z.to_nat b -> maps_ket d M j C1 j) /\ unitary d M.
Proof.
  unfold noisey_matrix. destruct (noise_levels d _) as [ab|] eqn:E; [|discriminate]. intros H. injection H as <-.
  destruct (noise_inv _ _ _ _ _ E) as [-> [Ha [Hb Hab]]]. cbn [fst snd].
  set (lo := Z.to_nat (Z.min a b)). set (hi := Z.to_nat (Z.max a b)).
  assert (Hlo : (lo < d)%nat) by (unfold lo; lia). assert (Hhi : (hi < d)%nat) by (unfold hi; lia).
  assert (Hne : lo <> hi) by (unfold lo, hi; lia).
  assert (Cs : (Z.to_nat a = lo /\ Z.to_nat b = hi) \/ (Z.to_nat a = hi /\ Z.to_nat b = lo)) by (unfold lo, hi; lia).
  split; [|split; [|split]].
  - eapply maps_ket_ext; [apply noisey_two_level; exact Hne|exact Hlo|].
    intros i Hi. rewrite mapply_ket by exact Hlo. unfold two_level, ket, mid.
    destruct (Nat.eqb_spec i lo), (Nat.eqb_spec i hi), (Nat.eqb_spec lo lo), (Nat.eqb_spec lo hi); subst; try lia; try congruence; ring.
  - eapply maps_ket_ext; [apply noisey_two_level; exact Hne|exact Hhi|].
    intros i Hi. rewrite mapply_ket by exact Hhi. unfold two_level, ket, mid.
    destruct (Nat.eqb_spec i lo), (Nat.eqb_spec i hi), (Nat.eqb_spec hi lo), (Nat.eqb_spec hi hi); subst; try lia; try congruence; ring.
  - intros j Hj Na Nb. eapply maps_ket_ext; [apply noisey_two_level; exact Hne|exact Hj|]. apply two_level_maps; try assumption; intros ->; destruct Cs as [[E1 E2]|[E1 E2]]; congruence.
  - apply noisey_unitary; assumption.
Qed.

(** ** The phase gates *)
Local Open Scope R_scope.
Lemma rz_cost_spec phi :
  (2 / 10 * PI <= Rabs phi < 4 * PI -> rz_cost phi = Rabs phi / PI * (1 / 10000)) /\
  2 / 10 * (1 / 10000) <= rz_cost phi < 42 / 10 * (1 / 10000).
Proof.
  assert (P := PI_RGT_0). split.
  - intros H. unfold rz_cost. rewrite (regulate_theta_sign phi H). apply phi_cost_linear.
  - unfold rz_cost. rewrite phi_cost_linear. destruct (regulate_theta_spec phi) as (_ & (H1 & H2) & _).
    assert (E1 : 2 / 10 <= Rabs (regulate_theta phi) / PI) by (apply (Rmult_le_reg_r PI); [exact P|]; field_simplify; lra).
    assert (E2 : Rabs (regulate_theta phi) / PI < 42 / 10) by (apply (Rmult_lt_reg_r PI); [exact P|]; field_simplify; lra).
    lra.
Qed.
