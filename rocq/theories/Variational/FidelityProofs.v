(** Cauchy-Schwarz and the fidelities (C72). *)
From Coq Require Import List ZArith Arith Lia Reals Lra Bool.
From Verif Require Import Base.Py Base.Cplx Base.Matrix Base.Radix Sim.TnSpec Sim.TnProofs.
From Verif Require Import Variational.AnsatzSpec Variational.FidelityModel.
Local Open Scope nat_scope.

Definition ip (n : nat) (v w : vec) : C := csum n (fun k => Cmul (Cconj (v k)) (w k)).
Lemma norm2_nonneg n v : (0 <= norm2 n v)%R.
Proof. unfold norm2. induction n as [|n IH]; cbn [rsum]; [lra|]. pose proof (Cnorm2_nonneg (v n)). lra. Qed.
Lemma norm2_zero n v : norm2 n v = 0%R -> veq n v (fun _ => C0).
Proof.
  unfold norm2. induction n as [|n IH]; intros H k Hk; [lia|]. cbn [rsum] in H. pose proof (Cnorm2_nonneg (v n)). pose proof (norm2_nonneg n v) as P. unfold norm2 in P.
  destruct (Nat.eq_dec k n) as [->|]; [apply Cnorm2_0; lra|]. apply IH; [lra|lia].
Qed.
Lemma ip_norm n v : ip n v v = RtoC (norm2 n v).
Proof. symmetry. apply norm2_csum. Qed.
Lemma ip_conj n v w : Cconj (ip n v w) = ip n w v.
Proof. unfold ip. rewrite csum_conj. apply csum_ext. intros k _. rewrite Cconj_mul, Cconj_inv. ring. Qed.
Lemma ip_0_l n v w : veq n v (fun _ => C0) -> ip n v w = C0.
Proof. intros H. apply csum_0. intros k Hk. rewrite (H k Hk), Cconj_C0. ring. Qed.
(** |alpha w - z v|^2 = alpha (alpha beta - |z|^2) *)
Lemma cs_identity n v w : norm2 n (fun k => RtoC (norm2 n v) * w k - ip n v w * v k)%C =
  (norm2 n v * (norm2 n v * norm2 n w - Cnorm2 (ip n v w)))%R.
Proof.
  set (a := norm2 n v). set (z := ip n v w). apply RtoC_inj. rewrite norm2_csum.
  rewrite (csum_ext n _ (fun k => RtoC (a * a) * (Cconj (w k) * w k) + (- (RtoC a * z)) * (Cconj (w k) * v k) + ((- (RtoC a * Cconj z)) * (Cconj (v k) * w k) + RtoC (Cnorm2 z) * (Cconj (v k) * v k)))%C).
  - rewrite !csum_add, !csum_mul_l. fold (ip n w w) (ip n w v) (ip n v w) (ip n v v). rewrite !ip_norm, <- (ip_conj n v w). fold z a.
    rewrite <- (Cmul_conj z). replace (RtoC (a * (a * norm2 n w - Cnorm2 z))) with (RtoC a * (RtoC a * RtoC (norm2 n w) - RtoC (Cnorm2 z)))%C by (apply Ceq; cbn; ring).
    rewrite RtoC_mul, <- (Cmul_conj z). ring.
  - intros k _. rewrite Cconj_sub, !Cconj_mul, Cconj_RtoC. rewrite RtoC_mul, <- (Cmul_conj z). ring.
Qed.
Lemma cauchy_schwarz n v w : (Cnorm2 (ip n v w) <= norm2 n v * norm2 n w)%R.
Proof.
  destruct (Req_dec (norm2 n v) 0) as [E|E].
  - rewrite (ip_0_l n v w (norm2_zero n v E)), E. unfold Cnorm2, C0. cbn. lra.
  - pose proof (norm2_nonneg n v). pose proof (cs_identity n v w) as I. pose proof (norm2_nonneg n (fun k => RtoC (norm2 n v) * w k - ip n v w * v k)%C) as P. rewrite I in P.
    apply Rnot_lt_le. intros L. assert (Q : (norm2 n v * (norm2 n v * norm2 n w - Cnorm2 (ip n v w)) < 0)%R); [|lra].
    rewrite <- (Rmult_0_r (norm2 n v)). apply Rmult_lt_compat_l; lra.
Qed.
Lemma cs_equality n v w : norm2 n v <> 0%R -> Cnorm2 (ip n v w) = (norm2 n v * norm2 n w)%R ->
  veq n w (fun k => Cmul (Cmul (RtoC (/ norm2 n v)) (ip n v w)) (v k)).
Proof.
  intros N E. assert (Z : norm2 n (fun k => RtoC (norm2 n v) * w k - ip n v w * v k)%C = 0%R) by (rewrite cs_identity, E; ring).
  pose proof (norm2_zero _ _ Z) as Q. intros k Hk. specialize (Q k Hk). cbn beta in Q.
  replace (w k) with (RtoC (/ norm2 n v) * (RtoC (norm2 n v) * w k - ip n v w * v k) + RtoC (/ norm2 n v) * ip n v w * v k)%C.
  - rewrite Q. ring.
  - replace (RtoC (/ norm2 n v) * (RtoC (norm2 n v) * w k - ip n v w * v k) + RtoC (/ norm2 n v) * ip n v w * v k)%C with ((RtoC (/ norm2 n v) * RtoC (norm2 n v)) * w k)%C by ring.
    rewrite <- RtoC_mul, Rinv_l by exact N. rewrite RtoC_1. ring.
Qed.
Lemma ip_scal n c v w : veq n w (fun k => Cmul c (v k)) -> ip n v w = Cmul c (RtoC (norm2 n v)) /\ norm2 n w = (Cnorm2 c * norm2 n v)%R.
Proof.
  intros H. split.
  - unfold ip. rewrite (csum_ext n _ (fun k => c * (Cconj (v k) * v k))%C) by (intros k Hk; rewrite (H k Hk); ring). rewrite csum_mul_l. f_equal. symmetry. apply norm2_csum.
  - rewrite (norm2_ext n w _ H). unfold norm2. clear H. induction n as [|n IH]; cbn [rsum]; [ring|]. rewrite IH, Cnorm2_mul. ring.
Qed.

(** matrices as vectors *)
Definition flat (n : nat) (a : mat) : vec := fun k => a (k mod n) (k / n).
Lemma flat_sum n f : 0 < n -> csum (n * n) (fun k => f (k mod n) (k / n)) = csum n (fun j => csum n (fun i => f i j)).
Proof.
  intros H. rewrite csum_prod. apply csum_ext. intros j _. apply csum_ext. intros i Hi. rewrite Nat.div_add_l, Nat.div_small, Nat.add_0_r by lia.
  rewrite Nat.add_comm, Nat.mod_add, Nat.mod_small by lia. reflexivity.
Qed.
Lemma tr_ip n a b : 0 < n -> tr n (mmul n (madj a) b) = ip (n * n) (flat n a) (flat n b).
Proof. intros H. unfold ip, flat. rewrite (flat_sum n (fun i j => Cconj (a i j) * b i j)%C H). reflexivity. Qed.
Lemma tr_norm n a : 0 < n -> tr n (mmul n a (madj a)) = RtoC (norm2 (n * n) (flat n a)).
Proof.
  intros H. rewrite <- ip_norm. unfold ip, flat. rewrite (flat_sum n (fun i j => Cconj (a i j) * a i j)%C H). rewrite csum_swap. unfold tr, mmul, madj.
  apply csum_ext. intros i _. apply csum_ext. intros j _. ring.
Qed.
Lemma flat_veq n a b c : 0 < n -> (meq n b (mscal c a) <-> veq (n * n) (flat n b) (fun k => Cmul c (flat n a k))).
Proof.
  intros H. split; intros E.
  - intros k Hk. unfold flat. apply (E (k mod n) (k / n)); [apply Nat.mod_upper_bound; lia|apply Nat.div_lt_upper_bound; lia].
  - intros i j Hi Hj. specialize (E (j * n + i) ltac:(nia)). unfold flat in E. rewrite Nat.div_add_l, Nat.div_small, Nat.add_0_r in E by lia.
    rewrite Nat.add_comm, Nat.mod_add, Nat.mod_small in E by lia. exact E.
Qed.
Lemma unitary_flat n a : 0 < n -> unitary n a -> norm2 (n * n) (flat n a) = INR n.
Proof.
  intros H [_ U]. apply RtoC_inj. rewrite <- tr_norm by exact H. unfold tr. rewrite (csum_ext n _ (fun _ => C1)).
  - rewrite csum_const. ring.
  - intros i Hi. rewrite (U i i Hi Hi). unfold mid. rewrite Nat.eqb_refl. reflexivity.
Qed.
Lemma Cmod_sqr z : (Cmod z * Cmod z)%R = Cnorm2 z.
Proof. unfold Cmod. apply sqrt_sqrt, Cnorm2_nonneg. Qed.
Lemma Cmod_pos z : (0 <= Cmod z)%R. Proof. apply sqrt_pos. Qed.

Lemma check_square n a b : size_check (Arr n n a) (Arr n n b) = true.
Proof. unfold size_check. cbn. now rewrite Nat.eqb_refl. Qed.
Lemma unitares_value n a b : 0 < n -> fidelity_on_unitares (Arr n n a) (Arr n n b) = Ok (Cmod (ip (n * n) (flat n a) (flat n b)) / INR n)%R.
Proof. intros H. unfold fidelity_on_unitares. rewrite check_square. cbn [rows ent]. rewrite tr_ip by exact H. reflexivity. Qed.
Lemma div_le_1 x y : (0 < y)%R -> (x <= y)%R -> (x / y <= 1)%R.
Proof. intros H L. apply (Rmult_le_reg_r y); [exact H|]. unfold Rdiv. rewrite Rmult_assoc, Rinv_l, Rmult_1_r, Rmult_1_l by lra. exact L. Qed.
Lemma div_eq_1 x y : (0 < y)%R -> (x / y = 1)%R -> x = y.
Proof. intros H E. apply (f_equal (fun t => t * y)%R) in E. unfold Rdiv in E. rewrite Rmult_assoc, Rinv_l in E by lra. lra. Qed.
Lemma div_nonneg x y : (0 < y)%R -> (0 <= x)%R -> (0 <= x / y)%R.
Proof. intros H L. apply Rmult_le_pos; [exact L|]. left. apply Rinv_0_lt_compat, H. Qed.

Lemma unitares_range n a b : 0 < n -> unitary n a -> unitary n b -> exists f, fidelity_on_unitares (Arr n n a) (Arr n n b) = Ok f /\ (0 <= f <= 1)%R.
Proof.
  intros H Ua Ub. eexists. split; [apply unitares_value, H|]. pose proof (lt_0_INR n H) as P. split; [apply div_nonneg; [exact P|apply Cmod_pos]|].
  apply div_le_1; [exact P|]. pose proof (cauchy_schwarz (n * n) (flat n a) (flat n b)) as CS. rewrite !unitary_flat in CS by assumption. rewrite <- Cmod_sqr in CS.
  pose proof (Cmod_pos (ip (n * n) (flat n a) (flat n b))). nra.
Qed.
Lemma unitares_one n a b : 0 < n -> unitary n a -> unitary n b ->
  (fidelity_on_unitares (Arr n n a) (Arr n n b) = Ok 1%R <-> same_up_to_phase n b a).
Proof.
  intros H Ua Ub. pose proof (lt_0_INR n H) as P. rewrite unitares_value by exact H. set (z := ip (n * n) (flat n a) (flat n b)). split.
  - intros E. injection E as E. apply div_eq_1 in E; [|exact P].
    assert (EZ : Cnorm2 z = (INR n * INR n)%R) by (rewrite <- Cmod_sqr, E; reflexivity).
    exists (Cmul (RtoC (/ INR n)) z). split.
    + rewrite Cnorm2_mul, EZ. unfold Cnorm2, RtoC. cbn [fst snd]. field. lra.
    + apply flat_veq; [exact H|]. pose proof (cs_equality (n * n) (flat n a) (flat n b)) as Q. rewrite !unitary_flat in Q by assumption. apply Q; [lra|exact EZ].
  - intros (c & Hc & E). apply flat_veq in E; [|exact H]. destruct (ip_scal _ _ _ _ E) as [I _]. fold z in I. rewrite unitary_flat in I by assumption.
    assert (EZ : Cnorm2 z = (INR n * INR n)%R) by (rewrite I, Cnorm2_mul, Hc; unfold Cnorm2, RtoC; cbn [fst snd]; ring).
    f_equal. unfold Cmod. rewrite EZ, sqrt_square by lra. field. lra.
Qed.

Lemma operator_value n a b : 0 < n -> fidelity_on_operator (Arr n n a) (Arr n n b) =
  Ok (Cmod (ip (n * n) (flat n a) (flat n b)) / sqrt (norm2 (n * n) (flat n a) * norm2 (n * n) (flat n b)))%R.
Proof.
  intros H. unfold fidelity_on_operator. rewrite check_square. cbn [rows ent]. rewrite tr_ip, !tr_norm by exact H. do 3 f_equal. cbn. ring.
Qed.
Lemma ratio_range k v w : norm2 k v <> 0%R -> norm2 k w <> 0%R -> (0 < sqrt (norm2 k v * norm2 k w))%R /\ (0 <= Cmod (ip k v w) / sqrt (norm2 k v * norm2 k w) <= 1)%R.
Proof.
  intros Nv Nw. pose proof (norm2_nonneg k v). pose proof (norm2_nonneg k w). assert (Q : (0 < norm2 k v * norm2 k w)%R) by (apply Rmult_lt_0_compat; lra).
  pose proof (sqrt_lt_R0 _ Q) as S. split; [exact S|]. split; [apply div_nonneg; [exact S|apply Cmod_pos]|]. apply div_le_1; [exact S|]. unfold Cmod. apply sqrt_le_1_alt, cauchy_schwarz.
Qed.
Lemma ratio_one k v w : norm2 k v <> 0%R -> norm2 k w <> 0%R -> ((Cmod (ip k v w) / sqrt (norm2 k v * norm2 k w))%R = 1%R <-> exists c, veq k w (fun i => Cmul c (v i))).
Proof.
  intros Nv Nw. destruct (ratio_range k v w Nv Nw) as [S _]. pose proof (norm2_nonneg k v). pose proof (norm2_nonneg k w). split.
  - intros E. apply div_eq_1 in E; [|exact S]. eexists. apply cs_equality; [exact Nv|]. rewrite <- Cmod_sqr, E. apply sqrt_sqrt. apply Rmult_le_pos; assumption.
  - intros (c & E). destruct (ip_scal k c v w E) as [I N]. rewrite I, N. unfold Cmod. rewrite Cnorm2_mul.
    replace (Cnorm2 (RtoC (norm2 k v))) with (norm2 k v * norm2 k v)%R by (unfold Cnorm2, RtoC; cbn; ring).
    replace (norm2 k v * (Cnorm2 c * norm2 k v))%R with (Cnorm2 c * (norm2 k v * norm2 k v))%R by ring. apply Rinv_r. apply Rgt_not_eq. apply sqrt_lt_R0.
    rewrite N in Nw. pose proof (Cnorm2_nonneg c). assert (Cnorm2 c <> 0%R) by (intros Q; apply Nw; rewrite Q; ring). assert (0 < norm2 k v)%R by lra. apply Rmult_lt_0_compat; [lra|apply Rmult_lt_0_compat; lra].
Qed.
Lemma nonzero_flat n a : 0 < n -> ~ zero_op n a -> norm2 (n * n) (flat n a) <> 0%R.
Proof.
  intros H N E. apply N. apply norm2_zero in E. intros i j Hi Hj. specialize (E (j * n + i) ltac:(nia)). unfold flat in E. rewrite Nat.div_add_l, Nat.div_small, Nat.add_0_r in E by lia.
  rewrite Nat.add_comm, Nat.mod_add, Nat.mod_small in E by lia. exact E.
Qed.
Lemma operator_range n a b : 0 < n -> ~ zero_op n a -> ~ zero_op n b -> exists f, fidelity_on_operator (Arr n n a) (Arr n n b) = Ok f /\ (0 <= f <= 1)%R.
Proof. intros H Na Nb. eexists. split; [apply operator_value, H|]. apply ratio_range; apply nonzero_flat; assumption. Qed.
Lemma operator_one n a b : 0 < n -> ~ zero_op n a -> ~ zero_op n b ->
  (fidelity_on_operator (Arr n n a) (Arr n n b) = Ok 1%R <-> exists c, meq n b (mscal c a)).
Proof.
  intros H Na Nb. rewrite operator_value by exact H. pose proof (ratio_one (n * n) (flat n a) (flat n b) (nonzero_flat n a H Na) (nonzero_flat n b H Nb)) as R. split.
  - intros E. injection E as E. apply R in E. destruct E as (c & E). exists c. apply flat_veq; assumption.
  - intros (c & E). f_equal. apply R. exists c. apply flat_veq; assumption.
Qed.

(** Hermitian matrices: the density version agrees with the operator version *)
Lemma density_value n a b : meq n (madj a) a -> meq n (madj b) b -> fidelity_on_density_operator (Arr n n a) (Arr n n b) = fidelity_on_operator (Arr n n a) (Arr n n b).
Proof.
  intros Ha Hb. unfold fidelity_on_density_operator, fidelity_on_operator. rewrite check_square. cbn [rows ent].
  assert (T : forall x x' y y', meq n x x' -> meq n y y' -> tr n (mmul n x y) = tr n (mmul n x' y')).
  { intros x x' y y' Hx Hy. unfold tr. apply csum_ext. intros i Hi. apply (mmul_ext n x x' y y' Hx Hy i i Hi Hi). }
  rewrite (T (madj a) a b b Ha (meq_refl _ _)), (T a a (madj a) a (meq_refl _ _) Ha), (T b b (madj b) b (meq_refl _ _) Hb). reflexivity.
Qed.
Lemma density_one n a b : 0 < n -> meq n (madj a) a -> meq n (madj b) b -> tr n a = C1 -> tr n b = C1 ->
  (fidelity_on_density_operator (Arr n n a) (Arr n n b) = Ok 1%R <-> meq n a b).
Proof.
  intros H Ha Hb Ta Tb. assert (NZ : forall x, tr n x = C1 -> ~ zero_op n x).
  { intros x T Z. unfold tr in T. rewrite csum_0 in T by (intros k Hk; apply Z; assumption). apply C1_neq_C0. congruence. }
  rewrite density_value by assumption. rewrite operator_one by auto. split.
  - intros (c & E). assert (Ec : c = C1).
    { assert (Q : tr n b = Cmul c (tr n a)) by (unfold tr; rewrite <- csum_mul_l; apply csum_ext; intros i Hi; apply E; assumption). rewrite Ta, Tb in Q. rewrite Q. ring. }
    subst c. intros i j Hi Hj. rewrite (E i j Hi Hj). unfold mscal. ring.
  - intros E. exists C1. intros i j Hi Hj. rewrite <- (E i j Hi Hj). unfold mscal. ring.
Qed.
Lemma density_range n a b : 0 < n -> meq n (madj a) a -> meq n (madj b) b -> tr n a = C1 -> tr n b = C1 ->
  exists f, fidelity_on_density_operator (Arr n n a) (Arr n n b) = Ok f /\ (0 <= f <= 1)%R.
Proof.
  intros H Ha Hb Ta Tb. assert (NZ : forall x, tr n x = C1 -> ~ zero_op n x).
  { intros x T Z. unfold tr in T. rewrite csum_0 in T by (intros k Hk; apply Z; assumption). apply C1_neq_C0. congruence. }
  rewrite density_value by assumption. apply operator_range; auto.
Qed.

(** states *)
Lemma states_range n v w : norm2 n v = 1%R -> norm2 n w = 1%R -> exists f, naive_state_fidelity n n v w = Ok f /\ (0 <= f <= 1)%R.
Proof.
  intros Nv Nw. unfold naive_state_fidelity. rewrite Nat.eqb_refl. eexists. split; [reflexivity|]. fold (ip n v w). cbn [pow]. rewrite Rmult_1_r, Cmod_sqr.
  split; [apply Cnorm2_nonneg|]. pose proof (cauchy_schwarz n v w) as CS. rewrite Nv, Nw in CS. lra.
Qed.
Lemma states_one n v w : norm2 n v = 1%R -> norm2 n w = 1%R -> (naive_state_fidelity n n v w = Ok 1%R <-> exists c, Cnorm2 c = 1%R /\ veq n w (fun k => Cmul c (v k))).
Proof.
  intros Nv Nw. unfold naive_state_fidelity. rewrite Nat.eqb_refl. fold (ip n v w). cbn [pow]. rewrite Rmult_1_r, Cmod_sqr. split.
  - intros E. injection E as E. exists (ip n v w). split; [exact E|]. pose proof (cs_equality n v w) as Q. rewrite Nv, Nw in Q.
    intros k Hk. rewrite (Q ltac:(lra) ltac:(lra) k Hk). rewrite Rinv_1, RtoC_1. ring.
  - intros (c & Hc & E). destruct (ip_scal n c v w E) as [I _]. rewrite I, Nv, Cnorm2_mul, Hc. f_equal. unfold Cnorm2, RtoC. cbn. ring.
Qed.

(** shapes *)
Lemma shapes a b : (rows a = rows b /\ cols a = cols b /\ rows a = cols a -> False) ->
  fidelity_on_unitares a b = Err ValueError /\ fidelity_on_operator a b = Err ValueError /\ fidelity_on_density_operator a b = Err ValueError.
Proof.
  intros H. assert (Q : size_check a b = false).
  { unfold size_check. destruct (Nat.eqb_spec (rows a) (rows b)), (Nat.eqb_spec (cols a) (cols b)), (Nat.eqb_spec (rows a) (cols a)); cbn; try reflexivity. exfalso. auto. }
  unfold fidelity_on_unitares, fidelity_on_operator, fidelity_on_density_operator. rewrite Q. auto.
Qed.
Lemma objective_zero n a t : 0 < n -> unitary n a -> unitary n t -> (objective (Arr n n a) (Arr n n t) = Ok 0%R <-> same_up_to_phase n t a).
Proof.
  intros H Ua Ut. rewrite <- unitares_one by assumption. unfold objective. rewrite unitares_value by exact H. cbn [bindr]. split; intros E; injection E as E; f_equal; lra.
Qed.
Lemma objective_range n a t : 0 < n -> unitary n a -> unitary n t -> exists e, objective (Arr n n a) (Arr n n t) = Ok e /\ (0 <= e <= 1)%R.
Proof.
  intros H Ua Ut. destruct (unitares_range n a t H Ua Ut) as (f & E & B). unfold objective. rewrite E. cbn [bindr]. eexists. split; [reflexivity|]. lra.
Qed.
Lemma Cmod_conj z : Cmod (Cconj z) = Cmod z.
Proof. unfold Cmod, Cnorm2, Cconj. cbn. f_equal. ring. Qed.
Lemma tr_adj n a b : tr n (mmul n (madj b) a) = Cconj (tr n (mmul n (madj a) b)).
Proof.
  unfold tr. rewrite csum_conj. apply csum_ext. intros i _. unfold mmul, madj. rewrite csum_conj. apply csum_ext. intros k _. rewrite Cconj_mul, Cconj_inv. ring.
Qed.
Lemma tr_comm n a b : tr n (mmul n a b) = tr n (mmul n b a).
Proof. unfold tr, mmul. rewrite csum_swap. apply csum_ext. intros i _. apply csum_ext. intros j _. ring. Qed.
Lemma Cmul_comm x y : Cmul x y = Cmul y x.
Proof. ring. Qed.
Lemma size_check_sym a b : size_check a b = size_check b a.
Proof.
  unfold size_check. rewrite (Nat.eqb_sym (rows b)), (Nat.eqb_sym (cols b)). destruct (Nat.eqb_spec (rows a) (rows b)) as [E|]; [|reflexivity].
  destruct (Nat.eqb_spec (cols a) (cols b)) as [E'|]; [|reflexivity]. rewrite E, E'. reflexivity.
Qed.
Lemma symmetric a b : fidelity_on_unitares a b = fidelity_on_unitares b a /\
  fidelity_on_operator a b = fidelity_on_operator b a /\ fidelity_on_density_operator a b = fidelity_on_density_operator b a.
Proof.
  unfold fidelity_on_unitares, fidelity_on_operator, fidelity_on_density_operator. rewrite (size_check_sym b a).
  destruct (size_check a b) eqn:S; [|auto]. assert (E : rows b = rows a).
  { unfold size_check in S. destruct (Nat.eqb_spec (rows a) (rows b)); [congruence|discriminate]. }
  rewrite E. set (n := rows a). split; [|split].
  - rewrite (tr_adj n (ent a) (ent b)), Cmod_conj. reflexivity.
  - rewrite (tr_adj n (ent a) (ent b)), Cmod_conj, (Cmul_comm (tr n (mmul n (ent b) _))). reflexivity.
  - rewrite (tr_comm n (ent a) (ent b)), (Cmul_comm (tr n (mmul n (ent b) (ent b)))). reflexivity.
Qed.
Lemma states_symmetric n m v w : naive_state_fidelity n m v w = naive_state_fidelity m n w v.
Proof.
  unfold naive_state_fidelity. rewrite (Nat.eqb_sym m n). destruct (Nat.eqb_spec n m) as [->|]; [|reflexivity].
  fold (ip m v w) (ip m w v). rewrite <- (ip_conj m v w), Cmod_conj. reflexivity.
Qed.
Lemma state_lengths n m v w : n <> m -> naive_state_fidelity n m v w = Err ValueError.
Proof. intros H. unfold naive_state_fidelity. destruct (Nat.eqb_spec n m); [congruence|reflexivity]. Qed.
Lemma unitares_case : fidelity_on_unitares (Arr 2 2 mid) (Arr 2 2 (two_level 0 1 C0 C1 C1 C0)) = Ok 0%R /\
  fidelity_on_unitares (Arr 2 2 mid) (Arr 2 2 (mscal Ci mid)) = Ok 1%R.
Proof.
  split; unfold fidelity_on_unitares; rewrite check_square; cbn [rows ent]; f_equal.
  - replace (tr 2 (mmul 2 (madj mid) (two_level 0 1 C0 C1 C1 C0))) with C0 by (apply Ceq; cbv -[Rplus Rmult Ropp Rminus IZR]; ring).
    unfold Cmod, Cnorm2, C0. cbn [fst snd]. replace (0 * 0 + 0 * 0)%R with 0%R by ring. rewrite sqrt_0. unfold Rdiv. ring.
  - replace (tr 2 (mmul 2 (madj mid) (mscal Ci mid))) with (0%R, 2%R) by (apply Ceq; cbv -[Rplus Rmult Ropp Rminus IZR]; ring).
    unfold Cmod, Cnorm2. cbn [fst snd]. replace (0 * 0 + 2 * 2)%R with (2 * 2)%R by ring. rewrite sqrt_square by lra. cbn. field.
Qed.
