(** Distances of operators on a register (C93). *)
From Coq Require Import Reals List Arith ZArith Lia Lra.
From Verif.Base Require Import Py Cplx Matrix Radix Fiber Angle.
From Verif.Gates Require Import FactoryModel FactorySpec ActsOn.
From Verif.Sim Require Import TnModel TnSpec TnProofs.
From Verif.Local Require Import QrSpec QrMath.
From Verif.Variational Require Import FidelityProofs.
From Verif.State Require Import Drop.
Import ListNotations.
Local Open Scope nat_scope.

Definition approx (n : nat) (e : R) (A B : mat) : Prop := forall v, (nrm n (vsub (mapply n A v) (mapply n B v)) <= e * nrm n v)%R.

Lemma mapply_sub n A v w k : vsub (mapply n A v) (mapply n A w) k = mapply n A (vsub v w) k.
Proof. unfold vsub, mapply, Csub. rewrite <- csum_opp, <- csum_add. apply csum_ext. intros j _. ring. Qed.
Lemma mapply_meq n A B v k : meq n A B -> k < n -> mapply n A v k = mapply n B v k.
Proof. intros H Hk. unfold mapply. apply csum_ext. intros j Hj. rewrite H by assumption. reflexivity. Qed.
Lemma nrm_unitary n A v : unitary n A -> nrm n (mapply n A v) = nrm n v.
Proof. intros H. unfold nrm. rewrite norm2_unitary by exact H. reflexivity. Qed.
Lemma approx_ext n e A A' B B' : meq n A A' -> meq n B B' -> approx n e A B -> approx n e A' B'.
Proof.
  intros H1 H2 H v. rewrite <- (dist_veq n (mapply n A v) (mapply n A' v) (mapply n B v) (mapply n B' v)); [apply H| |];
    intros k Hk; apply mapply_meq; assumption.
Qed.
Lemma approx_0 n A B : meq n A B -> approx n 0 A B.
Proof. intros H v. rewrite dist_same; [right; ring|]. intros k Hk. apply mapply_meq; assumption. Qed.
Lemma mapply_mul n A B v k : mapply n (mmul n A B) v k = mapply n A (mapply n B v) k.
Proof.
  unfold mapply, mmul. rewrite (csum_ext n _ (fun j => csum n (fun l => Cmul (Cmul (A k l) (B l j)) (v j)))).
  2:{ intros j _. rewrite csum_mul_r. reflexivity. }
  rewrite csum_swap. apply csum_ext. intros l _. rewrite <- csum_mul_l. apply csum_ext. intros j _. ring.
Qed.
Lemma approx_mul n e1 e2 A1 B1 A2 B2 : unitary n A2 -> unitary n B1 -> approx n e1 A1 B1 -> approx n e2 A2 B2 ->
  approx n (e2 + e1) (mmul n A2 A1) (mmul n B2 B1).
Proof.
  intros U2 U1 H1 H2 v. rewrite (dist_veq n _ (mapply n A2 (mapply n A1 v)) _ (mapply n B2 (mapply n B1 v))); try (intros k _; apply mapply_mul).
  eapply Rle_trans; [apply (dist_triangle n _ (mapply n A2 (mapply n B1 v)))|].
  assert (X : nrm n (vsub (mapply n A2 (mapply n A1 v)) (mapply n A2 (mapply n B1 v))) = nrm n (vsub (mapply n A1 v) (mapply n B1 v))).
  { transitivity (nrm n (mapply n A2 (vsub (mapply n A1 v) (mapply n B1 v)))); [apply nrm_ext; intros k _; apply mapply_sub|apply nrm_unitary; exact U2]. }
  rewrite X. assert (Y := H1 v). assert (Z := H2 (mapply n B1 v)). rewrite (nrm_unitary n B1) in Z by exact U1. lra.
Qed.

(** *** Embedding *)
Lemma rsum_fiber {T} (eqT : T -> T -> bool) (spec : forall a b, eqT a b = true <-> a = b) N m rest sub : fibration N m rest sub ->
  forall r f, r < N -> rsum N (fun c => if eqT (rest r) (rest c) then f (sub c) else 0%R) = rsum m f.
Proof.
  intros Hf r f Hr. apply RtoC_inj. rewrite !RtoC_rsum. rewrite <- (csum_fiber eqT spec N m rest sub Hf r (fun k => RtoC (f k)) Hr).
  apply csum_ext. intros c _. destruct (eqT (rest r) (rest c)); [reflexivity|]. apply RtoC_0.
Qed.
Lemma nrm2_le n v w c : (0 <= c)%R -> (norm2 n v <= c * c * norm2 n w)%R -> (nrm n v <= c * nrm n w)%R.
Proof.
  intros Hc H. apply Rsqr_incr_0_var; [|apply Rmult_le_pos; [exact Hc|apply nrm_pos]]. unfold Rsqr. rewrite nrm_sqr.
  replace (c * nrm n w * (c * nrm n w))%R with (c * c * (nrm n w * nrm n w))%R by ring. rewrite nrm_sqr. exact H.
Qed.
Lemma embed_approx dims ts M M' A A' e : lines_ok dims ts -> (0 <= e)%R ->
  close (prodl (sub_dims dims ts)) e M M' -> acts_on dims ts [] [] M A -> acts_on dims ts [] [] M' A' ->
  approx (prodl dims) (INR (prodl (sub_dims dims ts)) * e) A A'.
Proof.
  intros Hl He HC HA HA' v. assert (Ho : off_targets dims ts []) by (intros c []).
  set (N := prodl dims). set (m := prodl (sub_dims dims ts)) in *. assert (Fb := acts_fibration dims ts Hl). fold N m in Fb.
  set (one := fun r c => eqb_listN (masked dims ts r) (masked dims ts c)).
  assert (Sy : forall r c, one r c = one c r).
  { intros r c. unfold one. apply Bool.eq_iff_eq_true. rewrite !eqb_listN_spec. split; congruence. }
  set (D := fun r c => Csub (A r c) (A' r c)).
  assert (D0 : forall r c, r < N -> c < N -> one r c = false -> D r c = C0).
  { intros r c Hr Hc E. assert (NA : ~ agree_off dims ts r c).
    { intros Ha. apply agree_masked in Ha. unfold one in E. apply eqb_listN_spec in Ha. congruence. }
    unfold D. rewrite (ao_off _ _ _ _ _ _ HA r c Hr Hc NA), (ao_off _ _ _ _ _ _ HA' r c Hr Hc NA). unfold Csub. ring. }
  assert (D1 : forall r c, r < N -> c < N -> (Cnorm2 (D r c) <= if one r c then e * e else 0)%R).
  { intros r c Hr Hc. destruct (one r c) eqn:E.
    - assert (Ha : agree_off dims ts r c) by (apply agree_masked, eqb_listN_spec; exact E).
      unfold D. rewrite (ao_active _ _ _ _ _ _ HA r c Hr Hc Ha eq_refl), (ao_active _ _ _ _ _ _ HA' r c Hr Hc Ha eq_refl).
      assert (X := HC _ _ (fib_lt _ _ _ _ Fb r Hr) (fib_lt _ _ _ _ Fb c Hc)). assert (Y := Cmod_nonneg (Csub (M (sub_index dims ts r) (sub_index dims ts c)) (M' (sub_index dims ts r) (sub_index dims ts c)))).
      rewrite <- Cmod_sqr. nra.
    - rewrite D0 by assumption. unfold Cnorm2, C0. cbn. lra. }
  apply nrm2_le; [apply Rmult_le_pos; [apply pos_INR|exact He]|].
  set (w := fun r c => if one r c then v c else C0).
  assert (E1 : forall r, r < N -> vsub (mapply N A v) (mapply N A' v) r = ip N (fun c => Cconj (D r c)) (w r)).
  { intros r Hr. unfold vsub, ip, mapply, Csub. rewrite <- csum_opp, <- csum_add. apply csum_ext. intros c Hc. rewrite Cconj_inv. unfold w.
    destruct (one r c) eqn:E; [unfold D, Csub; ring|]. assert (X := D0 r c Hr Hc E). unfold D, Csub in X.
    transitivity (Cmul (Cadd (A r c) (Copp (A' r c))) (v c)); [ring|]. rewrite X. unfold D, Csub. rewrite X. ring. }
  assert (E2 : forall r, r < N -> (Cnorm2 (vsub (mapply N A v) (mapply N A' v) r) <= INR m * (e * e) * norm2 N (w r))%R).
  { intros r Hr. rewrite E1 by exact Hr. eapply Rle_trans; [apply cauchy_schwarz|]. apply Rmult_le_compat_r; [apply norm2_nonneg|].
    unfold norm2. eapply Rle_trans; [apply rsum_le; intros c Hc; rewrite Cnorm2_conj; exact (D1 r c Hr Hc)|].
    right. unfold one. rewrite (rsum_fiber eqb_listN eqb_listN_spec N m _ _ Fb r (fun _ => (e * e)%R) Hr). rewrite rsum_const. reflexivity. }
  unfold norm2 at 1. eapply Rle_trans; [apply rsum_le; intros r Hr; exact (E2 r Hr)|].
  rewrite rsum_scal. unfold norm2 at 1. rewrite rsum_swap.
  assert (E3 : forall c, c < N -> rsum N (fun r => Cnorm2 (w r c)) = (INR m * Cnorm2 (v c))%R).
  { intros c Hc. rewrite <- (rsum_const m), <- (rsum_fiber eqb_listN eqb_listN_spec N m _ _ Fb c (fun _ => Cnorm2 (v c)) Hc). apply rsum_ext. intros r _. unfold w. rewrite Sy. unfold one.
    destruct (eqb_listN _ _); [reflexivity|]. unfold Cnorm2, C0. cbn. ring. }
  rewrite (rsum_ext N _ (fun c => (INR m * Cnorm2 (v c))%R)) by exact E3. rewrite rsum_scal. unfold norm2. right. ring.
Qed.
