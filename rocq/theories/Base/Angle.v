(** np.arctan2 and np.angle. *)
From Coq Require Import Reals Lra.
From Verif.Base Require Import Cplx.
Local Open Scope R_scope.

(** np.arctan2(y, x), on reals (no signed zeros). *)
Definition atan2 (y x : R) : R :=
  if Rlt_dec 0 x then atan (y / x)
  else if Rlt_dec x 0 then (if Rlt_dec y 0 then atan (y / x) - PI else atan (y / x) + PI)
  else if Rlt_dec 0 y then PI / 2 else if Rlt_dec y 0 then - (PI / 2) else 0.
(** np.angle(z) *)
Definition angle (z : C) : R := atan2 (Im z) (Re z).

Lemma sqrt_quot x y : 0 < x -> x * sqrt (1 + (y / x) ^ 2) = sqrt (x * x + y * y).
Proof.
  intros H. replace (x * x + y * y) with ((x * x) * (1 + (y / x) ^ 2)) by (field; lra).
  rewrite sqrt_mult_alt by nra. rewrite sqrt_square by lra. reflexivity.
Qed.
Lemma atan_cs t : cos (atan t) = 1 / sqrt (1 + t ^ 2) /\ sin (atan t) = t / sqrt (1 + t ^ 2).
Proof.
  split; [rewrite cos_atan|rewrite sin_atan]; unfold Rsqr; replace (t ^ 2) with (t * t) by ring; reflexivity.
Qed.
Lemma pos_norm x y : 0 < x * x + y * y -> 0 < sqrt (x * x + y * y).
Proof. apply sqrt_lt_R0. Qed.

(** atan2 is the polar angle. *)
Lemma atan2_polar y x : x = sqrt (x * x + y * y) * cos (atan2 y x) /\ y = sqrt (x * x + y * y) * sin (atan2 y x).
Proof.
  unfold atan2. destruct (Rlt_dec 0 x) as [Hx|Hx].
  - destruct (atan_cs (y / x)) as [-> ->]. rewrite <- (sqrt_quot x y Hx).
    assert (P : 0 < sqrt (1 + (y / x) ^ 2)) by (apply sqrt_lt_R0; nra). split; field; lra.
  - destruct (Rlt_dec x 0) as [Hx'|Hx'].
    + destruct (atan_cs (y / x)) as [E1 E2].
      assert (P : 0 < sqrt (1 + (y / x) ^ 2)) by (apply sqrt_lt_R0; nra).
      assert (Q : sqrt (x * x + y * y) = - x * sqrt (1 + (y / x) ^ 2)).
      { replace (x * x + y * y) with ((- x) * (- x) + (- y) * (- y)) by ring. rewrite <- (sqrt_quot (- x) (- y)) by lra.
        do 2 f_equal. f_equal. f_equal. field. lra. }
      rewrite Q. assert (N : x <> 0) by lra. destruct (Rlt_dec y 0) as [Hy|Hy].
      * unfold Rminus. rewrite cos_plus, sin_plus, cos_neg, sin_neg, cos_PI, sin_PI, E1, E2. split; field; lra.
      * rewrite neg_cos, neg_sin, E1, E2. split; field; lra.
    + assert (x = 0) by lra. subst x. replace (0 * 0 + y * y) with (Rsqr y) by (unfold Rsqr; ring).
      rewrite sqrt_Rsqr_abs. destruct (Rlt_dec 0 y) as [Hy|Hy].
      * rewrite cos_PI2, sin_PI2, Rabs_right by lra. split; ring.
      * destruct (Rlt_dec y 0) as [Hy'|Hy'].
        -- rewrite cos_neg, sin_neg, cos_PI2, sin_PI2, Rabs_left by lra. split; ring.
        -- assert (y = 0) by lra. subst. rewrite Rabs_R0. split; ring.
Qed.
Lemma angle_polar z : z = (RtoC (Cmod z) * cis (angle z))%C.
Proof.
  destruct z as (x, y). unfold angle, Cmod, Cnorm2, RtoC, cis, Re, Im. cbn [fst snd].
  destruct (atan2_polar y x) as [E1 E2]. apply Ceq; cbn [fst snd Cmul].
  - rewrite E1 at 1. ring.
  - rewrite E2 at 1. ring.
Qed.
Lemma Cmod_nonneg z : 0 <= Cmod z.
Proof. apply sqrt_pos. Qed.
Lemma Cmod_sqr z : Cmod z * Cmod z = Cnorm2 z.
Proof. apply sqrt_sqrt. apply Cnorm2_nonneg. Qed.
Lemma Cmod_0 z : Cmod z = 0 <-> z = C0.
Proof.
  split.
  - intros H. apply Cnorm2_0. rewrite <- Cmod_sqr, H. ring.
  - intros ->. unfold Cmod, Cnorm2, C0. cbn. replace (0 * 0 + 0 * 0) with 0 by ring. apply sqrt_0.
Qed.
Lemma Cmod_RtoC x : 0 <= x -> Cmod (RtoC x) = x.
Proof. intros H. unfold Cmod, Cnorm2, RtoC. cbn. replace (x * x + 0 * 0) with (x * x) by ring. apply sqrt_square. exact H. Qed.
Lemma Cmod_mul a b : Cmod (Cmul a b) = Cmod a * Cmod b.
Proof. unfold Cmod. rewrite Cnorm2_mul. apply sqrt_mult_alt. apply Cnorm2_nonneg. Qed.
Lemma Cmod_cis t : Cmod (cis t) = 1.
Proof. unfold Cmod. rewrite Cnorm2_cis. apply sqrt_1. Qed.
Lemma Cmod_le z x : 0 <= x -> Cnorm2 z <= x * x -> Cmod z <= x.
Proof. intros H E. unfold Cmod. rewrite <- (sqrt_square x H). apply sqrt_le_1_alt. exact E. Qed.
Lemma Cmod_triangle a b : Cmod (Cadd a b) <= Cmod a + Cmod b.
Proof.
  assert (A := Cmod_nonneg a). assert (B := Cmod_nonneg b). apply Cmod_le; [lra|].
  assert (Ea := Cmod_sqr a). assert (Eb := Cmod_sqr b). destruct a as (x, y), b as (u, v).
  unfold Cnorm2, Cadd in *. cbn [fst snd] in *.
  assert (K : x * u + y * v <= Cmod (x, y) * Cmod (u, v)); [|nra].
  destruct (Rle_dec (x * u + y * v) 0) as [H|H]; [nra|].
  apply Rsqr_incr_0_var; [|nra]. unfold Rsqr.
  replace (Cmod (x, y) * Cmod (u, v) * (Cmod (x, y) * Cmod (u, v))) with ((Cmod (x, y) * Cmod (x, y)) * (Cmod (u, v) * Cmod (u, v))) by ring.
  rewrite Ea, Eb. assert (0 <= (x * v - y * u) * (x * v - y * u)) by (apply Rle_0_sqr). nra.
Qed.
(** |e^{ix} - 1| <= |x| *)
Lemma cis_near x : Cmod (Csub (cis x) C1) <= Rabs x.
Proof.
  apply Cmod_le; [apply Rabs_pos|]. replace (Rabs x * Rabs x) with (x * x) by (rewrite <- Rabs_mult; symmetry; apply Rabs_right; nra).
  unfold Cnorm2, Csub, Cadd, Copp, cis, C1. cbn [fst snd].
  assert (E := sin2_cos2 x). unfold Rsqr in E.
  replace ((cos x + - (1)) * (cos x + - (1)) + (sin x + - 0) * (sin x + - 0)) with (2 - 2 * cos x) by nra.
  assert (H2 := cos_2a_sin (x / 2)). replace (2 * (x / 2)) with x in H2 by field. rewrite H2.
  assert (B : (sin (x / 2)) * sin (x / 2) <= (x / 2) * (x / 2)).
  { destruct (Rle_dec 0 (x / 2)) as [P|P].
    - destruct (Req_dec (x / 2) 0) as [Z|Z]; [rewrite Z, sin_0; lra|].
      assert (S1 := sin_lt_x (x / 2)). assert (0 < x / 2) by lra. specialize (S1 H).
      assert (S2 : - (x / 2) <= sin (x / 2)).
      { destruct (Rle_dec (x / 2) PI) as [Q|Q]; [assert (0 <= sin (x / 2)) by (apply sin_ge_0; lra); lra|].
        assert (Bd := SIN_bound (x / 2)). assert (PP := PI2_3_2). lra. }
      nra.
    - assert (N : 0 < - (x / 2)) by lra. assert (S1 := sin_lt_x _ N). rewrite sin_neg in S1.
      assert (S2 : sin (x / 2) <= - (x / 2)).
      { destruct (Rle_dec (- (x / 2)) PI) as [Q|Q].
        - assert (0 <= sin (- (x / 2))) by (apply sin_ge_0; lra). rewrite sin_neg in H. lra.
        - assert (Bd := SIN_bound (x / 2)). assert (PP := PI2_3_2). lra. }
      nra. }
  nra.
Qed.
Lemma atan2_pos y x : 0 <= y -> 0 <= x -> 0 <= atan2 y x <= PI / 2.
Proof.
  intros Hy Hx. assert (P := PI_RGT_0). unfold atan2. destruct (Rlt_dec 0 x) as [H|H].
  - assert (B := atan_bound (y / x)). split; [|lra].
    destruct (Req_dec y 0) as [->|N]; [unfold Rdiv; rewrite Rmult_0_l, atan_0; lra|].
    rewrite <- atan_0. left. apply atan_increasing. apply Rdiv_lt_0_compat; lra.
  - destruct (Rlt_dec x 0); [lra|]. destruct (Rlt_dec 0 y); [lra|]. destruct (Rlt_dec y 0); lra.
Qed.
