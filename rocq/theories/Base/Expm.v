(** The exponential of a matrix as the limit of its power series, entry by entry. *)
From Coq Require Import Reals Lra Lia Arith Setoid Morphisms.
From Verif Require Import Base.Cplx Base.Matrix.
Open Scope R_scope.
Open Scope C_scope.

Definition Ccv (u : nat -> C) (l : C) : Prop :=
  Un_cv (fun n => fst (u n)) (fst l) /\ Un_cv (fun n => snd (u n)) (snd l).
Definition exp_psum (d : nat) (A : mat) (N : nat) : mat :=
  fun i j => csum (S N) (fun n => RtoC (/ INR (fact n)) * mpow d A n i j).
(** E is exp(A) for d x d matrices: what scipy.linalg.expm computes. *)
Definition is_expm (d : nat) (A E : mat) : Prop :=
  forall i j, (i < d)%nat -> (j < d)%nat -> Ccv (fun N => exp_psum d A N i j) (E i j).

(** *** limits *)
Lemma Un_cv_const c : Un_cv (fun _ => c) c.
Proof. intros eps He. exists 0%nat. intros. unfold R_dist. rewrite Rminus_diag_eq by reflexivity. rewrite Rabs_R0. exact He. Qed.
Lemma Un_cv_ext u v l : (forall n, u n = v n) -> Un_cv u l -> Un_cv v l.
Proof. intros H Hu eps He. destruct (Hu eps He) as [N HN]. exists N. intros n Hn. rewrite <- H. apply HN. exact Hn. Qed.
Lemma Ccv_unique u a b : Ccv u a -> Ccv u b -> a = b.
Proof.
  intros [H1 H2] [H3 H4]. rewrite (surjective_pairing a), (surjective_pairing b). f_equal; eapply UL_sequence; eassumption.
Qed.
Lemma Ccv_ext u v l : (forall n, u n = v n) -> Ccv u l -> Ccv v l.
Proof. intros H [H1 H2]. split; eapply Un_cv_ext; try eassumption; intros n; cbn; rewrite H; reflexivity. Qed.
Lemma Ccv_const c : Ccv (fun _ => c) c.
Proof. split; apply Un_cv_const. Qed.
Lemma Ccv_add u v a b : Ccv u a -> Ccv v b -> Ccv (fun n => u n + v n) (a + b).
Proof. intros [H1 H2] [H3 H4]. split; cbn; apply CV_plus; assumption. Qed.
Lemma Ccv_scal c u a : Ccv u a -> Ccv (fun n => c * u n) (c * a).
Proof.
  intros [H1 H2]. split; cbn.
  - apply CV_minus; apply CV_mult; try assumption; apply Un_cv_const.
  - apply CV_plus; apply CV_mult; try assumption; apply Un_cv_const.
Qed.
Lemma Ccv_sub u v a b : Ccv u a -> Ccv v b -> Ccv (fun n => u n - v n) (a - b).
Proof. intros [H1 H2] [H3 H4]. split; cbn; apply CV_minus; assumption. Qed.
Lemma even_odd_cv u l : Un_cv (fun k => u (2 * k)%nat) l -> Un_cv (fun k => u (S (2 * k))) l -> Un_cv u l.
Proof.
  intros H1 H2 eps He. destruct (H1 eps He) as [N1 HN1]. destruct (H2 eps He) as [N2 HN2]. exists (2 * (N1 + N2))%nat.
  intros n Hn. destruct (Nat.Even_or_Odd n) as [[k ->]|[k ->]].
  - apply HN1. lia.
  - rewrite Nat.add_1_r. apply HN2. lia.
Qed.
Lemma Un_cv_S u l : Un_cv (fun k => u (S k)) l -> Un_cv u l.
Proof.
  intros H eps He. destruct (H eps He) as [N HN]. exists (S N). intros n Hn. destruct n as [|n]; [lia|]. apply HN. lia.
Qed.

(** *** the exponential of an imaginary number *)
Definition iexp_term (y : R) (n : nat) : C := RtoC (/ INR (fact n)) * Cpow (0%R, y) n.
Lemma Cpow_i_even y k : Cpow (0%R, y) (2 * k) = RtoC ((-1) ^ k * (Rsqr y) ^ k).
Proof.
  induction k as [|k IH]; [cbn; unfold RtoC; apply Ceq; cbn; lra|].
  replace (2 * S k)%nat with (S (S (2 * k))) by lia. cbn [Cpow]. rewrite IH. unfold RtoC, Cmul, Rsqr. cbn [fst snd pow]. apply Ceq; cbn; ring.
Qed.
Lemma Cpow_i_odd y k : Cpow (0%R, y) (S (2 * k)) = (0%R, (y * ((-1) ^ k * (Rsqr y) ^ k))%R).
Proof. cbn [Cpow]. rewrite Cpow_i_even. unfold RtoC, Cmul. cbn [fst snd]. apply Ceq; cbn; ring. Qed.
Lemma csum_fst n f : fst (csum n f) = match n with O => 0%R | S m => sum_f_R0 (fun k => fst (f k)) m end.
Proof.
  induction n as [|n IH]; [reflexivity|]. cbn [csum]. cbn [Cadd fst]. rewrite IH. destruct n; [cbn; lra|]. cbn [sum_f_R0]. reflexivity.
Qed.
Lemma csum_fst_S n f : fst (csum (S n) f) = (fst (csum n f) + fst (f n))%R.
Proof. reflexivity. Qed.
Lemma csum_snd_S n f : snd (csum (S n) f) = (snd (csum n f) + snd (f n))%R.
Proof. reflexivity. Qed.
Lemma iexp_even y k : iexp_term y (2 * k) = RtoC (cos_n k * (Rsqr y) ^ k).
Proof.
  unfold iexp_term, cos_n. rewrite Cpow_i_even. unfold RtoC, Cmul. cbn [fst snd]. apply Ceq; cbn [fst snd]; unfold Rdiv; ring.
Qed.
Lemma iexp_odd y k : iexp_term y (S (2 * k)) = (0%R, (y * (sin_n k * (Rsqr y) ^ k))%R).
Proof.
  unfold iexp_term, sin_n. rewrite Cpow_i_odd. replace (2 * k + 1)%nat with (S (2 * k)) by lia. unfold RtoC, Cmul. cbn [fst snd].
  apply Ceq; cbn [fst snd]; unfold Rdiv; ring.
Qed.
Lemma iexp_sum_re y k : fst (csum (S (2 * k)) (iexp_term y)) = sum_f_R0 (fun i => (cos_n i * (Rsqr y) ^ i)%R) k.
Proof.
  induction k as [|k IH].
  - rewrite csum_fst_S. change (2 * 0)%nat with 0%nat. pose proof (iexp_even y 0) as E. change (2 * 0)%nat with 0%nat in E. rewrite E. cbn. ring.
  - replace (S (2 * S k)) with (S (S (S (2 * k)))) by lia. rewrite csum_fst_S, csum_fst_S, IH, iexp_odd.
    replace (S (S (2 * k))) with (2 * S k)%nat by lia. rewrite iexp_even. cbn [sum_f_R0 fst RtoC]. unfold RtoC. cbn [fst]. ring.
Qed.
Lemma iexp_sum_im y k : snd (csum (S (S (2 * k))) (iexp_term y)) = (y * sum_f_R0 (fun i => (sin_n i * (Rsqr y) ^ i)%R) k)%R.
Proof.
  induction k as [|k IH].
  - change (2 * 0)%nat with 0%nat. rewrite !csum_snd_S. pose proof (iexp_even y 0) as E. change (2 * 0)%nat with 0%nat in E. rewrite E.
    pose proof (iexp_odd y 0) as E1. change (2 * 0)%nat with 0%nat in E1. rewrite E1. cbn. ring.
  - replace (S (S (2 * S k))) with (S (S (S (S (2 * k))))) by lia. rewrite csum_snd_S, csum_snd_S, IH.
    replace (S (S (2 * k))) with (2 * S k)%nat by lia. rewrite iexp_even, iexp_odd. cbn [sum_f_R0]. unfold RtoC. cbn [snd]. ring.
Qed.
Lemma iexp_cv y : Ccv (fun N => csum (S N) (iexp_term y)) (cis y).
Proof.
  assert (Hc : Un_cv (fun k => sum_f_R0 (fun i => (cos_n i * (Rsqr y) ^ i)%R) k) (cos y)).
  { unfold cos. destruct (exist_cos (Rsqr y)) as [a Ha]. exact Ha. }
  assert (Hs : Un_cv (fun k => (y * sum_f_R0 (fun i => (sin_n i * (Rsqr y) ^ i)%R) k)%R) (sin y)).
  { unfold sin. destruct (exist_sin (Rsqr y)) as [a Ha]. apply CV_mult; [apply Un_cv_const|exact Ha]. }
  split.
  - apply even_odd_cv.
    + eapply Un_cv_ext; [|exact Hc]. intros k. symmetry. apply iexp_sum_re.
    + eapply Un_cv_ext; [|exact Hc]. intros k. rewrite csum_fst_S, iexp_sum_re, iexp_odd. cbn. ring.
  - apply even_odd_cv.
    + apply Un_cv_S. eapply Un_cv_ext; [|exact Hs]. intros k. replace (2 * S k)%nat with (S (S (2 * k))) by lia.
      rewrite csum_snd_S, iexp_sum_im. replace (S (S (2 * k))) with (2 * S k)%nat by lia. rewrite iexp_even. unfold RtoC. cbn. ring.
    + eapply Un_cv_ext; [|exact Hs]. intros k. symmetry. apply iexp_sum_im.
Qed.

(** *** algebra up to [meq] *)
#[global] Instance meq_equiv d : Equivalence (meq d).
Proof. split; [intros A; apply meq_refl|intros A B; apply meq_sym|intros A B D; apply meq_trans]. Qed.
#[global] Instance mmul_proper d : Proper (meq d ==> meq d ==> meq d) (mmul d).
Proof. intros A B H A' B' H'. apply mmul_ext; assumption. Qed.
#[global] Instance madd_proper d : Proper (meq d ==> meq d ==> meq d) madd.
Proof. intros A B H A' B' H' i j Hi Hj. unfold madd. rewrite H, H' by assumption. reflexivity. Qed.
#[global] Instance msub_proper d : Proper (meq d ==> meq d ==> meq d) msub.
Proof. intros A B H A' B' H' i j Hi Hj. unfold msub. rewrite H, H' by assumption. reflexivity. Qed.
#[global] Instance mscal_proper d c : Proper (meq d ==> meq d) (mscal c).
Proof. intros A B H i j Hi Hj. unfold mscal. rewrite H by assumption. reflexivity. Qed.
#[global] Instance madj_proper d : Proper (meq d ==> meq d) madj.
Proof. intros A B H. apply madj_ext. exact H. Qed.

Lemma mmul_add_l d A B D : meq d (mmul d (madd A B) D) (madd (mmul d A D) (mmul d B D)).
Proof. intros i j _ _. unfold mmul, madd. rewrite <- csum_add. apply csum_ext. intros; ring. Qed.
Lemma mmul_add_r d A B D : meq d (mmul d D (madd A B)) (madd (mmul d D A) (mmul d D B)).
Proof. intros i j _ _. unfold mmul, madd. rewrite <- csum_add. apply csum_ext. intros; ring. Qed.
Lemma mmul_scal_l d c A B : meq d (mmul d (mscal c A) B) (mscal c (mmul d A B)).
Proof. intros i j _ _. unfold mmul, mscal. rewrite <- csum_mul_l. apply csum_ext. intros; ring. Qed.
Lemma mmul_scal_r d c A B : meq d (mmul d A (mscal c B)) (mscal c (mmul d A B)).
Proof. intros i j _ _. unfold mmul, mscal. rewrite <- csum_mul_l. apply csum_ext. intros; ring. Qed.
Definition mzero : mat := fun _ _ => C0.

(** *** exponential of c (l1 P1 + l2 P2) for orthogonal projectors *)
Section TwoProj.
Variables (d : nat) (P1 P2 : mat).
Hypothesis H11 : meq d (mmul d P1 P1) P1.
Hypothesis H22 : meq d (mmul d P2 P2) P2.
Hypothesis H12 : meq d (mmul d P1 P2) mzero.
Hypothesis H21 : meq d (mmul d P2 P1) mzero.
Variables (a b : C).
Let Q := madd (mscal a P1) (mscal b P2).

Lemma proj_pow n : meq d (mpow d Q (S n)) (madd (mscal (Cpow a (S n)) P1) (mscal (Cpow b (S n)) P2)).
Proof.
  induction n as [|n IH].
  - cbn [mpow Cpow]. rewrite mmul_id_r. unfold Q. intros i j Hi Hj. unfold madd, mscal. ring.
  - change (mpow d Q (S (S n))) with (mmul d Q (mpow d Q (S n))). rewrite IH. unfold Q.
    rewrite mmul_add_l, !mmul_add_r, !mmul_scal_l, !mmul_scal_r, H11, H22, H12, H21.
    intros i j Hi Hj. unfold madd, mscal, mzero. cbn [Cpow]. ring.
Qed.
Lemma proj_psum N i j : (i < d)%nat -> (j < d)%nat ->
  exp_psum d Q N i j = mid i j + (csum (S N) (fun n => RtoC (/ INR (fact n)) * Cpow a n) - C1) * P1 i j
                               + (csum (S N) (fun n => RtoC (/ INR (fact n)) * Cpow b n) - C1) * P2 i j.
Proof.
  intros Hi Hj. unfold exp_psum. induction N as [|N IH].
  - cbn [csum]. cbn [fact mpow Cpow]. change (INR 1) with 1%R. rewrite Rinv_1. change (RtoC 1) with C1. ring.
  - set (m := S N) in *. cbn [csum]. cbn [csum] in IH. rewrite IH.
    unfold m. rewrite (proj_pow N i j Hi Hj). unfold madd, mscal. ring.
Qed.
End TwoProj.

Lemma expm_two_proj d P1 P2 y1 y2 A E :
  meq d (mmul d P1 P1) P1 -> meq d (mmul d P2 P2) P2 -> meq d (mmul d P1 P2) mzero -> meq d (mmul d P2 P1) mzero ->
  meq d A (madd (mscal (0%R, y1) P1) (mscal (0%R, y2) P2)) -> is_expm d A E ->
  meq d E (madd mid (madd (mscal (cis y1 - C1) P1) (mscal (cis y2 - C1) P2))).
Proof.
  intros H11 H22 H12 H21 HA HE i j Hi Hj. eapply Ccv_unique; [apply HE; assumption|].
  eapply Ccv_ext.
  - intros N. symmetry. etransitivity; [|apply (proj_psum d P1 P2 H11 H22 H12 H21 (0%R, y1) (0%R, y2) N i j Hi Hj)].
    unfold exp_psum. apply csum_ext. intros n _. rewrite (mpow_ext d _ _ n HA i j Hi Hj). reflexivity.
  - replace (madd mid (madd (mscal (cis y1 - C1) P1) (mscal (cis y2 - C1) P2)) i j)
      with (mid i j + P1 i j * (cis y1 - C1) + P2 i j * (cis y2 - C1)) by (unfold madd, mscal; ring).
    eapply Ccv_ext with (u := fun N => mid i j + P1 i j * (csum (S N) (iexp_term y1) - C1) + P2 i j * (csum (S N) (iexp_term y2) - C1)).
    + intros N. unfold iexp_term. ring.
    + apply Ccv_add; [apply Ccv_add; [apply Ccv_const|]|]; apply Ccv_scal; apply Ccv_sub; try apply Ccv_const; apply iexp_cv.
Qed.
(** and the limit exists: the exponential is defined for these matrices *)
Lemma expm_two_proj_exists d P1 P2 y1 y2 A :
  meq d (mmul d P1 P1) P1 -> meq d (mmul d P2 P2) P2 -> meq d (mmul d P1 P2) mzero -> meq d (mmul d P2 P1) mzero ->
  meq d A (madd (mscal (0%R, y1) P1) (mscal (0%R, y2) P2)) ->
  is_expm d A (madd mid (madd (mscal (cis y1 - C1) P1) (mscal (cis y2 - C1) P2))).
Proof.
  intros H11 H22 H12 H21 HA i j Hi Hj.
  eapply Ccv_ext.
  - intros N. symmetry. etransitivity; [|apply (proj_psum d P1 P2 H11 H22 H12 H21 (0%R, y1) (0%R, y2) N i j Hi Hj)].
    unfold exp_psum. apply csum_ext. intros n _. rewrite (mpow_ext d _ _ n HA i j Hi Hj). reflexivity.
  - replace (madd mid (madd (mscal (cis y1 - C1) P1) (mscal (cis y2 - C1) P2)) i j)
      with (mid i j + P1 i j * (cis y1 - C1) + P2 i j * (cis y2 - C1)) by (unfold madd, mscal; ring).
    eapply Ccv_ext with (u := fun N => mid i j + P1 i j * (csum (S N) (iexp_term y1) - C1) + P2 i j * (csum (S N) (iexp_term y2) - C1)).
    + intros N. unfold iexp_term. ring.
    + apply Ccv_add; [apply Ccv_add; [apply Ccv_const|]|]; apply Ccv_scal; apply Ccv_sub; try apply Ccv_const; apply iexp_cv.
Qed.
