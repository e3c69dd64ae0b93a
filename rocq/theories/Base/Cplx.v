(** Complex numbers as pairs of stdlib reals, with the ring structure and e^{i t}. *)
From Coq Require Export Reals Lra.
From Coq Require Import Ring Setoid.
Open Scope R_scope.

Definition C : Type := (R * R)%type.
Declare Scope C_scope.
Delimit Scope C_scope with C.
Bind Scope C_scope with C.

Definition Re (z : C) : R := fst z.
Definition Im (z : C) : R := snd z.
Definition RtoC (x : R) : C := (x, 0).
Definition C0 : C := (0, 0).
Definition C1 : C := (1, 0).
Definition Ci : C := (0, 1).
Definition Cadd (a b : C) : C := (fst a + fst b, snd a + snd b).
Definition Copp (a : C) : C := (- fst a, - snd a).
Definition Csub (a b : C) : C := Cadd a (Copp b).
Definition Cmul (a b : C) : C := (fst a * fst b - snd a * snd b, fst a * snd b + snd a * fst b).
Definition Cconj (a : C) : C := (fst a, - snd a).
(** squared modulus *)
Definition Cnorm2 (a : C) : R := fst a * fst a + snd a * snd a.
(** modulus *)
Definition Cmod (a : C) : R := sqrt (Cnorm2 a).
(** e^{i t} *)
Definition cis (t : R) : C := (cos t, sin t).

Notation "a + b" := (Cadd a b) : C_scope.
Notation "a - b" := (Csub a b) : C_scope.
Notation "a * b" := (Cmul a b) : C_scope.
Notation "- a" := (Copp a) : C_scope.

Lemma Ceq (a b : C) : fst a = fst b -> snd a = snd b -> a = b.
Proof. destruct a, b; cbn; intros; subst; reflexivity. Qed.

Ltac csolve := apply Ceq; cbn; try ring; try lra.

Lemma C_ring : ring_theory C0 C1 Cadd Cmul Csub Copp (@eq C).
Proof.
  constructor; intros; unfold Csub, Cadd, Cmul, Copp, C0, C1; apply Ceq; cbn; ring.
Qed.
Add Ring Cring : C_ring.

Open Scope C_scope.

Lemma Cconj_add a b : Cconj (a + b) = Cconj a + Cconj b.
Proof. csolve. Qed.
Lemma Cconj_mul a b : Cconj (a * b) = Cconj a * Cconj b.
Proof. csolve. Qed.
Lemma Cconj_opp a : Cconj (- a) = - Cconj a.
Proof. csolve. Qed.
Lemma Cconj_sub a b : Cconj (a - b) = Cconj a - Cconj b.
Proof. csolve. Qed.
Lemma Cconj_inv a : Cconj (Cconj a) = a.
Proof. csolve. Qed.
Lemma Cconj_C0 : Cconj C0 = C0.
Proof. csolve. Qed.
Lemma Cconj_C1 : Cconj C1 = C1.
Proof. csolve. Qed.
Lemma Cconj_RtoC x : Cconj (RtoC x) = RtoC x.
Proof. csolve. Qed.
Lemma Cconj_i : Cconj Ci = - Ci.
Proof. csolve. Qed.
Lemma Cmul_conj a : a * Cconj a = RtoC (Cnorm2 a).
Proof. unfold Cnorm2; csolve. Qed.
Lemma RtoC_add x y : RtoC (x + y) = RtoC x + RtoC y.
Proof. csolve. Qed.
Lemma RtoC_mul x y : RtoC (x * y) = RtoC x * RtoC y.
Proof. csolve. Qed.
Lemma RtoC_opp x : RtoC (- x) = - RtoC x.
Proof. csolve. Qed.
Lemma RtoC_1 : RtoC 1 = C1.
Proof. reflexivity. Qed.
Lemma RtoC_0 : RtoC 0 = C0.
Proof. reflexivity. Qed.
Lemma RtoC_inj x y : RtoC x = RtoC y -> x = y.
Proof. intros H. apply (f_equal fst) in H. exact H. Qed.
Lemma Cii : Ci * Ci = - C1.
Proof. csolve. Qed.
Lemma C1_neq_C0 : C1 <> C0.
Proof. intros H. apply (f_equal fst) in H. cbn in H. lra. Qed.

Lemma Cnorm2_nonneg a : (0 <= Cnorm2 a)%R.
Proof. unfold Cnorm2. nra. Qed.
Lemma Cnorm2_0 a : Cnorm2 a = 0%R -> a = C0.
Proof.
  unfold Cnorm2. intros H.
  assert (fst a = 0 /\ snd a = 0)%R as [H1 H2] by (split; nra).
  apply Ceq; assumption.
Qed.
Lemma Cnorm2_mul a b : Cnorm2 (a * b) = (Cnorm2 a * Cnorm2 b)%R.
Proof. unfold Cnorm2; cbn; ring. Qed.
Lemma Cnorm2_conj a : Cnorm2 (Cconj a) = Cnorm2 a.
Proof. unfold Cnorm2; cbn; ring. Qed.
Lemma Cmul_integral a b : a * b = C0 -> a = C0 \/ b = C0.
Proof.
  intros H. apply (f_equal Cnorm2) in H. rewrite Cnorm2_mul in H.
  replace (Cnorm2 C0) with 0%R in H by (unfold Cnorm2; cbn; ring).
  apply Rmult_integral in H. destruct H as [H|H]; apply Cnorm2_0 in H; auto.
Qed.

Lemma cis_0 : cis 0 = C1.
Proof. unfold cis; rewrite cos_0, sin_0; reflexivity. Qed.
Lemma cis_add s t : cis (s + t) = cis s * cis t.
Proof. unfold cis. rewrite cos_plus, sin_plus. csolve. Qed.
Lemma cis_neg t : cis (- t) = Cconj (cis t).
Proof. unfold cis. rewrite cos_neg, sin_neg. csolve. Qed.
Lemma Cnorm2_cis t : Cnorm2 (cis t) = 1%R.
Proof. unfold Cnorm2, cis; cbn. pose proof (sin2_cos2 t) as H. unfold Rsqr in H. lra. Qed.
Lemma cis_conj_mul t : cis t * Cconj (cis t) = C1.
Proof. rewrite Cmul_conj, Cnorm2_cis. reflexivity. Qed.
Lemma cis_conj_mul' t : Cconj (cis t) * cis t = C1.
Proof. rewrite <- (cis_conj_mul t). ring. Qed.
Lemma cis_2PI : cis (2 * PI) = C1.
Proof. unfold cis. rewrite cos_2PI, sin_2PI. reflexivity. Qed.
Lemma cis_PI : cis PI = - C1.
Proof. unfold cis. rewrite cos_PI, sin_PI. csolve. Qed.
Lemma cis_PI2 : cis (PI / 2) = Ci.
Proof. unfold cis. rewrite cos_PI2, sin_PI2. reflexivity. Qed.

Fixpoint Cpow (z : C) (n : nat) : C :=
  match n with O => C1 | S m => z * Cpow z m end.

Lemma Cpow_add z n m : Cpow z (n + m) = Cpow z n * Cpow z m.
Proof. induction n as [|n IH]; cbn [Cpow Nat.add]; [ring|]. rewrite IH. ring. Qed.
Lemma Cpow_mul z n m : Cpow z (n * m) = Cpow (Cpow z n) m.
Proof.
  induction m as [|m IH].
  - rewrite Nat.mul_0_r. reflexivity.
  - rewrite Nat.mul_succ_r, Nat.add_comm, Cpow_add, IH. reflexivity.
Qed.
Lemma Cpow_1 n : Cpow C1 n = C1.
Proof. induction n as [|n IH]; cbn; [reflexivity|]. rewrite IH. ring. Qed.
Lemma cis_pow t n : Cpow (cis t) n = cis (INR n * t).
Proof.
  induction n as [|n IH].
  - cbn. rewrite Rmult_0_l, cis_0. reflexivity.
  - cbn [Cpow]. rewrite IH, <- cis_add. f_equal. rewrite S_INR. ring.
Qed.
Lemma cis_2PI_nat n : cis (INR n * (2 * PI)) = C1.
Proof. rewrite <- cis_pow, cis_2PI. apply Cpow_1. Qed.
Lemma cis_2PI_Z z : cis (IZR z * (2 * PI)) = C1.
Proof.
  destruct z as [|p|p].
  - rewrite Rmult_0_l. apply cis_0.
  - rewrite <- positive_nat_Z, <- INR_IZR_INZ. apply cis_2PI_nat.
  - change (Z.neg p) with (- Z.pos p)%Z. rewrite opp_IZR.
    replace (- IZR (Z.pos p) * (2 * PI))%R with (- (IZR (Z.pos p) * (2 * PI)))%R by ring.
    rewrite cis_neg. rewrite <- positive_nat_Z, <- INR_IZR_INZ, cis_2PI_nat. apply Cconj_C1.
Qed.
Close Scope C_scope.
