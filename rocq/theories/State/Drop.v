(** Leaving out rotations by small angles. *)
From Coq Require Import Reals List Arith ZArith Lia Lra.
From Verif.Base Require Import Py Cplx Matrix Radix Angle Fiber.
From Verif.Gates Require Import SingleSpec SingleProofs FactoryModel FactorySpec ActsOn.
From Verif.Sim Require Import TnModel TnSpec TnProofs.
From Verif.Local Require Import QrMath.
From Verif.Variational Require Import FidelityProofs.
From Verif.State Require Import PrepModel PrepSpec OpAct.
Import ListNotations.
Local Open Scope nat_scope.

Definition vsub (v w : vec) : vec := fun k => Csub (v k) (w k).
Definition nrm (n : nat) (v : vec) : R := sqrt (norm2 n v).
Lemma nrm_pos n v : (0 <= nrm n v)%R. Proof. apply sqrt_pos. Qed.
Lemma nrm_sqr n v : (nrm n v * nrm n v)%R = norm2 n v. Proof. apply sqrt_sqrt. apply norm2_nonneg. Qed.
Lemma nrm_ext n v w : veq n v w -> nrm n v = nrm n w. Proof. intros H. unfold nrm. f_equal. apply norm2_ext. exact H. Qed.
Lemma norm2_add n v w : norm2 n (fun k => Cadd (v k) (w k)) = (norm2 n v + norm2 n w + 2 * fst (ip n v w))%R.
Proof.
  assert (E : RtoC (norm2 n (fun k => Cadd (v k) (w k))) = (RtoC (norm2 n v) + RtoC (norm2 n w) + (ip n v w + Cconj (ip n v w)))%C).
  { rewrite ip_conj, !norm2_csum. unfold ip. rewrite <- !csum_add. apply csum_ext. intros k _. rewrite Cconj_add. ring. }
  apply (f_equal fst) in E. cbn in E. rewrite E. destruct (ip n v w) as [a b]. cbn. ring.
Qed.
Lemma re_le z : (fst z <= Cmod z)%R.
Proof.
  destruct (Rle_dec 0 (fst z)) as [P|P]; [|pose proof (Cmod_pos z); lra]. apply Rsqr_incr_0_var; [|apply Cmod_pos]. unfold Rsqr. rewrite Cmod_sqr. unfold Cnorm2. destruct z as [a b]. cbn. nra.
Qed.
Lemma nrm_add n v w : (nrm n (fun k => Cadd (v k) (w k)) <= nrm n v + nrm n w)%R.
Proof.
  pose proof (nrm_pos n v). pose proof (nrm_pos n w). apply Rsqr_incr_0_var; [|lra]. unfold Rsqr. rewrite nrm_sqr, norm2_add.
  assert (K : (fst (ip n v w) <= nrm n v * nrm n w)%R).
  { eapply Rle_trans; [apply re_le|]. apply Rsqr_incr_0_var; [|nra]. unfold Rsqr. rewrite Cmod_sqr. eapply Rle_trans; [apply cauchy_schwarz|]. rewrite <- (nrm_sqr n v), <- (nrm_sqr n w). right. ring. }
  replace ((nrm n v + nrm n w) * (nrm n v + nrm n w))%R with (nrm n v * nrm n v + nrm n w * nrm n w + 2 * (nrm n v * nrm n w))%R by ring. rewrite !nrm_sqr. lra.
Qed.
Lemma dist_triangle n u v w : (nrm n (vsub u w) <= nrm n (vsub u v) + nrm n (vsub v w))%R.
Proof. rewrite (nrm_ext n (vsub u w) (fun k => Cadd (vsub u v k) (vsub v w k))); [apply nrm_add|]. intros k _. unfold vsub. ring. Qed.
Lemma dist_sym n u v : nrm n (vsub u v) = nrm n (vsub v u).
Proof. unfold nrm, norm2. f_equal. apply rsum_ext. intros k _. unfold vsub. destruct (u k), (v k). unfold Cnorm2, Csub, Cadd, Copp. cbn. ring. Qed.
Lemma dist_same n u v : veq n u v -> nrm n (vsub u v) = 0%R.
Proof. intros H. unfold nrm. replace (norm2 n (vsub u v)) with 0%R; [apply sqrt_0|]. symmetry. apply rsum_0. intros k Hk. unfold vsub. rewrite (H k Hk). destruct (v k). unfold Cnorm2, Csub, Cadd, Copp. cbn. ring. Qed.
Lemma dist_veq n u u' v v' : veq n u u' -> veq n v v' -> nrm n (vsub u v) = nrm n (vsub u' v').
Proof. intros H1 H2. apply nrm_ext. intros k Hk. unfold vsub. rewrite (H1 k Hk), (H2 k Hk). reflexivity. Qed.

Lemma Csum_fst n f : fst (csum n f) = rsum n (fun k => fst (f k)).
Proof. induction n as [|n IH]; cbn; [reflexivity|]. rewrite IH. reflexivity. Qed.
(** a unitary whose matrix differs from a real diagonal one by an antihermitian one *)
Lemma near_identity n A b : unitary n A -> (forall r c, r < n -> c < n -> r <> c -> Cadd (A r c) (Cconj (A c r)) = C0) -> (forall r, r < n -> (2 - b <= 2 * fst (A r r))%R) ->
  forall v, (norm2 n (vsub (mapply n A v) v) <= b * norm2 n v)%R.
Proof.
  intros U Off Dg v.
  assert (E1 : norm2 n (vsub (mapply n A v) v) = (2 * norm2 n v - 2 * fst (ip n v (mapply n A v)))%R).
  { transitivity (norm2 n (fun k => Cadd (Copp (v k)) (mapply n A v k))); [apply norm2_ext; intros k _; unfold vsub; ring|].
    rewrite norm2_add, norm2_unitary by exact U. replace (norm2 n (fun k => Copp (v k))) with (norm2 n v) by (apply rsum_ext; intros k _; unfold Cnorm2; destruct (v k); cbn; ring).
    replace (ip n (fun k => Copp (v k)) (mapply n A v)) with (Copp (ip n v (mapply n A v))) by (unfold ip; rewrite <- csum_opp; apply csum_ext; intros k _; rewrite Cconj_opp; ring).
    destruct (ip n v (mapply n A v)). cbn. ring. }
  assert (E2 : (ip n v (mapply n A v) + Cconj (ip n v (mapply n A v)))%C = csum n (fun r => RtoC (2 * fst (A r r) * Cnorm2 (v r)))).
  { assert (S1 : ip n v (mapply n A v) = csum n (fun r => csum n (fun c => Cmul (Cmul (Cconj (v r)) (A r c)) (v c)))).
    { unfold ip, mapply. apply csum_ext. intros r _. rewrite <- csum_mul_l. apply csum_ext. intros c _. ring. }
    assert (S2 : Cconj (ip n v (mapply n A v)) = csum n (fun r => csum n (fun c => Cmul (Cmul (Cconj (v r)) (Cconj (A c r))) (v c)))).
    { rewrite S1, csum_conj. rewrite (csum_ext n _ (fun r => csum n (fun c => Cmul (Cmul (Cconj (v c)) (Cconj (A r c))) (v r)))) by (intros r _; rewrite csum_conj; apply csum_ext; intros c _; rewrite !Cconj_mul, Cconj_inv; ring). apply csum_swap. }
    rewrite S2, S1. rewrite <- csum_add. apply csum_ext. intros r Hr. rewrite <- csum_add. rewrite (csum_single n _ r Hr).
    - rewrite RtoC_mul. rewrite <- (Cmul_conj (v r)). assert (X : RtoC (2 * fst (A r r)) = Cadd (A r r) (Cconj (A r r))) by (destruct (A r r); apply Ceq; cbn; ring). rewrite X. ring.
    - intros c Hc N. replace (Cadd (Cmul (Cmul (Cconj (v r)) (A r c)) (v c)) (Cmul (Cmul (Cconj (v r)) (Cconj (A c r))) (v c))) with (Cmul (Cmul (Cconj (v r)) (Cadd (A r c) (Cconj (A c r)))) (v c)) by ring. rewrite Off by auto. ring. }
  apply (f_equal fst) in E2. rewrite Csum_fst in E2.
  assert (E3 : (2 * fst (ip n v (mapply n A v)) = rsum n (fun r => 2 * fst (A r r) * Cnorm2 (v r)))%R) by (destruct (ip n v (mapply n A v)); cbn in E2 |- *; rewrite <- E2; ring).
  rewrite E1, E3. assert (K : ((2 - b) * norm2 n v <= rsum n (fun r => 2 * fst (A r r) * Cnorm2 (v r)))%R).
  { unfold norm2. rewrite <- rsum_scal. apply rsum_le. intros r Hr. apply Rmult_le_compat_r; [apply Cnorm2_nonneg|apply Dg; exact Hr]. }
  lra.
Qed.

Lemma cos_bound x : (2 - x * x <= 2 * cos x)%R.
Proof.
  pose proof (cis_near x) as H. apply (Rmult_le_compat _ _ _ _ (Cmod_pos _) (Cmod_pos _) H) in H. rewrite Cmod_sqr in H.
  replace (Rabs x * Rabs x)%R with (x * x)%R in H by (rewrite <- Rabs_mult; symmetry; apply Rabs_right; nra).
  unfold Cnorm2, Csub, Cadd, Copp, cis, C1 in H. cbn [fst snd] in H. pose proof (sin2_cos2 x) as S. unfold Rsqr in S. nra.
Qed.
Lemma two_level_off a b x y z w r c : a <> b -> Cadd y (Cconj z) = C0 -> r <> c -> Cadd (two_level a b x y z w r c) (Cconj (two_level a b x y z w c r)) = C0.
Proof.
  intros N E R. assert (E' : Cadd z (Cconj y) = C0) by (apply (f_equal Cconj) in E; rewrite Cconj_add, Cconj_inv, Cconj_C0 in E; rewrite <- E; ring).
  unfold two_level, mid. destruct (Nat.eqb_spec r a), (Nat.eqb_spec c a), (Nat.eqb_spec r b), (Nat.eqb_spec c b), (Nat.eqb_spec r c), (Nat.eqb_spec c r); subst; try congruence; try lia; trivial; apply Ceq; cbn; ring.
Qed.
Lemma op_off o r c : r <> c -> Cadd (op_mat o r c) (Cconj (op_mat o c r)) = C0.
Proof.
  intros N. unfold op_mat, zrot, rotation. destruct (o_z o); apply two_level_off; trivial; try lia.
  - rewrite Cconj_C0. ring.
  - rewrite Cconj_opp, !Cconj_mul, Cconj_i, Cconj_RtoC. replace (Cconj (cis (o_phi o))) with (cis (- o_phi o)) by (unfold cis, Cconj; rewrite cos_neg, sin_neg; reflexivity). ring.
Qed.
Lemma op_diag o r : (2 - o_theta o * o_theta o / 4 <= 2 * fst (op_mat o r r))%R.
Proof.
  pose proof (cos_bound (o_theta o / 2)) as H. unfold op_mat. destruct (o_z o); unfold zrot, rotation, two_level, mid; rewrite Nat.eqb_refl; destruct (Nat.eqb r _); try destruct (Nat.eqb r _); cbn [fst]; unfold cis; cbn; try rewrite cos_neg; try lra; pose proof (Rle_0_sqr (o_theta o)) as Q; unfold Rsqr in Q; lra.
Qed.
Lemma op_near dims o : op_ok dims o -> forall v, (norm2 (prodl dims) (vsub (mapply (prodl dims) (op_big dims o) v) v) <= o_theta o * o_theta o / 4 * norm2 (prodl dims) v)%R.
Proof.
  intros H. destruct (op_lines dims o H) as [L F]. pose proof (op_big_acts dims o H) as A. assert (P4 : (0 <= o_theta o * o_theta o)%R) by (pose proof (Rle_0_sqr (o_theta o)) as Q; unfold Rsqr in Q; lra).
  apply near_identity; [apply op_big_unitary; exact H| |].
  - intros r c Hr Hc N. destruct (agree_dec dims [o_qudit o] r c) as [G|G].
    + pose proof (agree_sym dims _ r c G) as G'. destruct (controls_dec dims (ctl_lines o) (ctl_levels o) r) as [On|On].
      * rewrite (ao_active _ _ _ _ _ _ A r c Hr Hc G On). rewrite (ao_active _ _ _ _ _ _ A c r Hc Hr G'); [|apply (controls_agree dims [o_qudit o] _ _ r c F G); exact On].
        apply op_off. intros E. apply N. apply (fib_inj _ _ _ _ (acts_fibration dims _ L)); trivial. apply agree_masked. exact G.
      * rewrite (ao_idle _ _ _ _ _ _ A r c Hr Hc G On). rewrite (ao_idle _ _ _ _ _ _ A c r Hc Hr G'); [|intros On'; apply On; apply (controls_agree dims [o_qudit o] _ _ c r F G'); exact On'].
        unfold mid. destruct (Nat.eqb_spec r c), (Nat.eqb_spec c r); subst; try congruence. apply Ceq; cbn; ring.
    + rewrite (ao_off _ _ _ _ _ _ A r c Hr Hc G), (ao_off _ _ _ _ _ _ A c r Hc Hr); [apply Ceq; cbn; ring|]. intros G'. apply G. apply agree_sym. exact G'.
  - intros r Hr. destruct (controls_dec dims (ctl_lines o) (ctl_levels o) r) as [On|On].
    + rewrite (ao_active _ _ _ _ _ _ A r r Hr Hr (agree_refl _ _ _) On). apply op_diag.
    + rewrite (ao_idle _ _ _ _ _ _ A r r Hr Hr (agree_refl _ _ _) On). unfold mid. rewrite Nat.eqb_refl. cbn. lra.
Qed.

Lemma op_dist dims o v : op_ok dims o -> (nrm (prodl dims) (vsub (mapply (prodl dims) (op_big dims o) v) v) <= Rabs (o_theta o) / 2 * nrm (prodl dims) v)%R.
Proof.
  intros H. pose proof (Rabs_pos (o_theta o)). pose proof (nrm_pos (prodl dims) v). apply Rsqr_incr_0_var; [|nra]. unfold Rsqr. rewrite nrm_sqr. eapply Rle_trans; [apply op_near; exact H|].
  rewrite <- nrm_sqr. right. replace (o_theta o * o_theta o)%R with (Rabs (o_theta o) * Rabs (o_theta o))%R by (rewrite <- Rabs_mult; apply Rabs_right; nra). field.
Qed.
Lemma vrun_sub dims os : forall v w, veq (prodl dims) (vsub (vrun dims os v) (vrun dims os w)) (vrun dims os (vsub v w)).
Proof.
  induction os as [|o os IH]; intros v w; cbn; [intros k _; reflexivity|]. intros k Hk. etransitivity; [apply (IH _ _ k Hk)|]. apply (vrun_veq dims os); [|exact Hk].
  intros r Hr. unfold vsub, mapply. replace (Csub (csum (prodl dims) (fun k0 => Cmul (op_big dims o r k0) (v k0))) (csum (prodl dims) (fun k0 => Cmul (op_big dims o r k0) (w k0)))) with
    (Cadd (csum (prodl dims) (fun k0 => Cmul (op_big dims o r k0) (v k0))) (Copp (csum (prodl dims) (fun k0 => Cmul (op_big dims o r k0) (w k0))))) by ring.
  rewrite <- csum_opp, <- csum_add. apply csum_ext. intros c _. ring.
Qed.
Lemma vrun_norm dims os : Forall (op_ok dims) os -> forall v, nrm (prodl dims) (vrun dims os v) = nrm (prodl dims) v.
Proof.
  induction 1 as [|o os H F IH]; intros v; cbn; [reflexivity|]. etransitivity; [apply IH|]. unfold nrm. f_equal. apply norm2_unitary. apply op_big_unitary. exact H.
Qed.
(** leaving out the operations with small angles *)
Lemma drop_bound dims eps os : Forall (op_ok dims) os -> (0 <= eps)%R -> forall v,
  (nrm (prodl dims) (vsub (vrun dims (filter (big eps) os) v) (vrun dims os v)) <= INR (List.length os) * (eps / 2) * nrm (prodl dims) v)%R.
Proof.
  intros F E. induction F as [|o os H F IH]; intros v.
  - cbn. rewrite dist_same by (intros k _; reflexivity). lra.
  - cbn [filter List.length]. rewrite S_INR. pose proof (nrm_pos (prodl dims) v) as P. unfold big at 1. destruct (Rlt_dec eps (Rabs (o_theta o))) as [B|B].
    + change (vrun dims (o :: os) v) with (vrun dims os (mapply (prodl dims) (op_big dims o) v)). change (vrun dims (o :: filter (big eps) os) v) with (vrun dims (filter (big eps) os) (mapply (prodl dims) (op_big dims o) v)).
      eapply Rle_trans; [apply IH|]. replace (nrm (prodl dims) (mapply (prodl dims) (op_big dims o) v)) with (nrm (prodl dims) v) by (unfold nrm; f_equal; symmetry; apply norm2_unitary; apply op_big_unitary; exact H). nra.
    + change (vrun dims (o :: os) v) with (vrun dims os (mapply (prodl dims) (op_big dims o) v)). eapply Rle_trans; [apply (dist_triangle _ _ (vrun dims os v))|].
      rewrite (nrm_ext _ (vsub (vrun dims os v) (vrun dims os (mapply (prodl dims) (op_big dims o) v))) _ (vrun_sub dims os _ _)), vrun_norm by exact F. rewrite (dist_sym _ v). pose proof (op_dist dims o v H) as D. specialize (IH v). apply Rnot_lt_le in B.
      assert (Rabs (o_theta o) / 2 * nrm (prodl dims) v <= eps / 2 * nrm (prodl dims) v)%R by (apply Rmult_le_compat_r; lra). replace ((INR (List.length os) + 1) * (eps / 2) * nrm (prodl dims) v)%R with (INR (List.length os) * (eps / 2) * nrm (prodl dims) v + eps / 2 * nrm (prodl dims) v)%R by ring. lra.
Qed.
