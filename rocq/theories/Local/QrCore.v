(** The elimination, apart from the gates it emits. *)
From Coq Require Import Reals Lra Lia List Arith ZArith.
From Verif.Base Require Import Py Cplx Matrix Angle.
From Verif.Gates Require Import AnglesModel AnglesProofs SingleModel SingleSpec SingleProofs.
From Verif.Sim Require Import TnSpec.
From Verif.Local Require Import QrModel QrMath.
Import ListNotations.
Local Open Scope C_scope.

Lemma two_level_rows d a b x y z w u i j : (a < d)%nat -> (b < d)%nat -> a <> b -> (i < d)%nat ->
  mmul d (two_level a b x y z w) u i j =
    if Nat.eqb i a then x * u a j + y * u b j else if Nat.eqb i b then z * u a j + w * u b j else u i j.
Proof.
  intros Ha Hb Hab Hi. unfold mmul. destruct (Nat.eqb_spec i a) as [->|Na]; [|destruct (Nat.eqb_spec i b) as [->|Nb]].
  - rewrite (csum_pair d _ a b Ha Hb Hab).
    + unfold two_level. rewrite !Nat.eqb_refl. replace (Nat.eqb b a) with false by (symmetry; apply Nat.eqb_neq; auto). reflexivity.
    + intros k Hk Ka Kb. unfold two_level. rewrite Nat.eqb_refl. apply Nat.eqb_neq in Ka, Kb. rewrite Ka, Kb. ring.
  - rewrite (csum_pair d _ a b Ha Hb Hab).
    + unfold two_level. rewrite !Nat.eqb_refl. replace (Nat.eqb b a) with false by (symmetry; apply Nat.eqb_neq; auto). reflexivity.
    + intros k Hk Ka Kb. unfold two_level. rewrite Nat.eqb_refl.
      replace (Nat.eqb b a) with false by (symmetry; apply Nat.eqb_neq; auto). apply Nat.eqb_neq in Ka, Kb. rewrite Ka, Kb. ring.
  - rewrite (csum_single d _ i Hi).
    + unfold two_level. apply Nat.eqb_neq in Na, Nb. rewrite Na, Nb. unfold mid. rewrite Nat.eqb_refl. ring.
    + intros k Hk N. unfold two_level. apply Nat.eqb_neq in Na, Nb. rewrite Na, Nb. unfold mid.
      replace (Nat.eqb i k) with false by (symmetry; apply Nat.eqb_neq; auto). ring.
Qed.

(** The matrix the code multiplies with for entry (r, c). *)
Definition turn (d : nat) (u : mat) (r c : nat) : mat := r_array d (r - 1) r (regulate_theta (qr_theta u r c)) (qr_phi u r c).
Lemma turn_rotation d u r c : (0 < r)%nat -> meq d (turn d u r c) (rotation (r - 1) r (qr_theta u r c) (qr_phi u r c)).
Proof.
  intros H. unfold turn. eapply meq_trans; [apply r_array_rotation; lia|]. apply rotation_regulated.
Qed.
Lemma turn_unitary d u r c : (0 < r < d)%nat -> unitary d (turn d u r c).
Proof.
  intros H. eapply unitary_ext; [apply meq_sym, turn_rotation; lia|]. apply rotation_unitary; lia.
Qed.
Lemma turn_rows d u r c i j : (0 < r < d)%nat -> (i < d)%nat -> (j < d)%nat -> i <> (r - 1)%nat -> i <> r ->
  mmul d (turn d u r c) u i j = u i j.
Proof.
  intros H Hi Hj N1 N2. assert (E : meq d (mmul d (turn d u r c) u) (mmul d (rotation (r - 1) r (qr_theta u r c) (qr_phi u r c)) u))
    by (apply mmul_ext; [apply turn_rotation; lia|apply meq_refl]).
  rewrite (E i j Hi Hj). unfold rotation. rewrite two_level_rows by lia. apply Nat.eqb_neq in N1, N2. rewrite N1, N2. reflexivity.
Qed.
Lemma turn_zero d u r c : (0 < r < d)%nat -> (c < d)%nat -> mmul d (turn d u r c) u r c = C0.
Proof.
  intros H Hc. assert (E : meq d (mmul d (turn d u r c) u) (mmul d (rotation (r - 1) r (qr_theta u r c) (qr_phi u r c)) u))
    by (apply mmul_ext; [apply turn_rotation; lia|apply meq_refl]).
  rewrite (E r c) by lia. unfold rotation. rewrite two_level_rows by lia.
  replace (Nat.eqb r (r - 1)) with false by (symmetry; apply Nat.eqb_neq; lia). rewrite Nat.eqb_refl.
  unfold qr_theta, qr_phi. set (v := u (r - 1)%nat c). set (w := u r c).
  replace (2 * atan2 (Cmod w) (Cmod v) / 2)%R with (atan2 (Cmod w) (Cmod v)) by field.
  replace (- (PI / 2 + angle v - angle w))%R with (- (PI / 2) + (- angle v + angle w))%R by ring.
  rewrite !cis_add. rewrite (cis_neg (PI / 2)), cis_PI2, Cconj_i.
  rewrite (angle_polar v) at 3. rewrite (angle_polar w) at 4. rewrite (cis_neg (angle v)).
  destruct (atan2_polar (Cmod w) (Cmod v)) as [P1 P2]. set (t := atan2 (Cmod w) (Cmod v)) in *.
  set (N := sqrt _) in *.
  transitivity (cis (angle w) * ((Ci * Ci) * RtoC (sin t) * RtoC (Cmod v) * (Cconj (cis (angle v)) * cis (angle v)) + RtoC (cos t) * RtoC (Cmod w))); [ring|].
  rewrite cis_conj_mul', Cii.
  transitivity (cis (angle w) * RtoC (- (sin t * Cmod v) + cos t * Cmod w)).
  { rewrite RtoC_add, RtoC_opp, !RtoC_mul. ring. }
  replace (- (sin t * Cmod v) + cos t * Cmod w)%R with 0%R by (rewrite P1, P2; ring). rewrite RtoC_0. ring.
Qed.

Lemma rotation_norms d a b t f u j : (a < d)%nat -> (b < d)%nat -> a <> b -> (j < d)%nat ->
  (Cnorm2 (mmul d (rotation a b t f) u a j) + Cnorm2 (mmul d (rotation a b t f) u b j) = Cnorm2 (u a j) + Cnorm2 (u b j))%R.
Proof.
  intros Ha Hb Hab Hj. unfold rotation. rewrite !two_level_rows by assumption. rewrite !Nat.eqb_refl.
  replace (Nat.eqb b a) with false by (symmetry; apply Nat.eqb_neq; auto).
  assert (S1 := sin2_cos2 (t / 2)). assert (S2 := sin2_cos2 f). unfold Rsqr in *.
  rewrite cis_neg. unfold Cnorm2, Cadd, Cmul, Copp, Ci, RtoC, cis, Cconj. cbn [fst snd].
  set (s := sin (t / 2)) in *. set (k := cos (t / 2)) in *. set (x := sin f) in *. set (y := cos f) in *.
  destruct (u a j) as (p, q), (u b j) as (p', q'). cbn [fst snd].
  transitivity ((k * k + s * s * (x * x + y * y)) * (p * p + q * q + (p' * p' + q' * q')))%R; [ring|].
  rewrite S2. replace (k * k + s * s * 1)%R with (s * s + k * k)%R by ring. rewrite S1. ring.
Qed.
Lemma turn_low d u r c k : (0 < r < d)%nat -> (k < r - 1)%nat -> low d (mmul d (turn d u r c) u) k = low d u k.
Proof.
  intros H Hk. unfold low. apply (rsum_two d _ _ (r - 1) r); try lia.
  - intros i Hi N1 N2. rewrite turn_rows by lia. reflexivity.
  - assert (E : meq d (mmul d (turn d u r c) u) (mmul d (rotation (r - 1) r (qr_theta u r c) (qr_phi u r c)) u))
      by (apply mmul_ext; [apply turn_rotation; lia|apply meq_refl]).
    rewrite (E (r - 1)%nat k), (E r k) by lia.
    destruct (Nat.ltb_spec k (r - 1)); [|lia]. destruct (Nat.ltb_spec k r); [|lia]. cbn [ind]. rewrite !Rmult_1_l.
    apply rotation_norms; lia.
Qed.

Section Reduce.
  Variables (eps : R) (d : nat).
  Hypothesis E0 : (0 <= eps)%R.

  Definition ustep (u : mat) (rc : nat * nat) : mat :=
    let '(r, c) := rc in if Rlt_dec eps (Cmod (u r c)) then mmul d (turn d u r c) u else u.
  Definition column (c n : nat) : list (nat * nat) := map (fun r => (r, c)) (rev (seq (c + 1) n)).

  Record done (c : nat) (u : mat) : Prop := {
    dn_unitary : unitary d u;
    dn_low : forall k, (k < c)%nat -> (low d u k <= INR d * (eps * eps))%R }.

  Lemma column_step c n u : done c u -> (c + n < d)%nat -> (forall r, (c + n < r < d)%nat -> (Cmod (u r c) <= eps)%R) ->
    let u' := fold_left ustep (column c n) u in done c u' /\ forall r, (c < r < d)%nat -> (Cmod (u' r c) <= eps)%R.
  Proof.
    revert u. induction n as [|n IH]; intros u [D1 D2] Hn Hr.
    - cbn. split; [constructor; assumption|]. intros r H. apply Hr. lia.
    - unfold column. rewrite seq_S, rev_app_distr. cbn [rev app map fold_left]. fold (column c n). cbv zeta.
      replace (c + 1 + n)%nat with (c + S n)%nat by lia. set (r0 := (c + S n)%nat) in *.
      apply IH; [|lia|].
      + unfold ustep. destruct (Rlt_dec eps (Cmod (u r0 c))); [|constructor; assumption]. constructor.
        * apply unitary_mmul; [apply turn_unitary; lia|exact D1].
        * intros k Hk. rewrite turn_low by lia. apply D2. exact Hk.
      + intros r H. unfold ustep. destruct (Rlt_dec eps (Cmod (u r0 c))) as [Y|Y].
        * destruct (Nat.eq_dec r r0) as [->|N].
          -- rewrite turn_zero by lia. rewrite (proj2 (Cmod_0 C0)) by reflexivity. exact E0.
          -- rewrite turn_rows by lia. apply Hr. lia.
        * destruct (Nat.eq_dec r r0) as [->|N]; [lra|]. apply Hr. lia.
  Qed.

  Lemma columns_done n c u : done c u -> (c + n <= d)%nat ->
    done (c + n) (fold_left ustep (flat_map (fun k => column k (d - (k + 1))) (seq c n)) u).
  Proof.
    revert c u. induction n as [|n IH]; intros c u D H; [rewrite Nat.add_0_r; exact D|].
    cbn [seq flat_map]. rewrite fold_left_app. replace (c + S n)%nat with (S c + n)%nat by lia. apply IH; [|lia].
    destruct (column_step c (d - (c + 1)) u D) as [[A1 A2] B]; [lia|intros; lia|]. constructor; [exact A1|].
    intros k Hk. destruct (Nat.eq_dec k c) as [->|N]; [|apply A2; lia]. unfold low. rewrite <- rsum_const. apply rsum_le.
    intros r Hr. destruct (Nat.ltb_spec c r) as [L|L]; cbn [ind]; [|nra].
    rewrite <- Cmod_sqr. assert (X := B r (conj L Hr)). assert (Y := Cmod_nonneg (fold_left ustep (column c (d - (c + 1))) u r c)). nra.
  Qed.

  Definition reduced (u : mat) : mat := fold_left ustep (visits d) u.
  Lemma reduced_done u : unitary d u -> done d (reduced u).
  Proof.
    intros U. apply (columns_done d 0 u); [|lia]. constructor; [exact U|]. intros k Hk. lia.
  Qed.
  Lemma reduced_unitary u : unitary d u -> unitary d (reduced u).
  Proof. intros U. apply (reduced_done u U). Qed.
  Lemma reduced_off u i j : unitary d u -> (i < d)%nat -> (j < d)%nat -> i <> j -> (Cmod (reduced u i j) <= INR d * eps)%R.
  Proof. intros U Hi Hj N. destruct (reduced_done u U) as [A B]. apply off_diagonal; trivial. Qed.
  Lemma reduced_on u i : unitary d u -> (i < d)%nat -> (1 - 2 * (INR d * eps * (INR d * eps)) <= Cmod (reduced u i i) <= 1)%R.
  Proof. intros U Hi. destruct (reduced_done u U) as [A B]. apply on_diagonal; trivial. Qed.

  Lemma visits_range rc : In rc (visits d) -> (0 < fst rc < d)%nat /\ (snd rc < d)%nat /\ (snd rc < fst rc)%nat.
  Proof.
    unfold visits. rewrite in_flat_map. intros (c & Hc & H). apply in_map_iff in H. destruct H as (r & <- & H).
    apply in_rev, in_seq in H. apply in_seq in Hc. cbn. lia.
  Qed.

  (** The phases that remain to be removed. *)
  Variable delta : R.
  Definition fix_phase (z : C) : C := if Rlt_dec delta (Rabs (angle z)) then cis (- angle z) else C1.
  Lemma fix_unit z : Cnorm2 (fix_phase z) = 1%R.
  Proof. unfold fix_phase. destruct (Rlt_dec delta (Rabs (angle z))); [apply Cnorm2_cis|]. unfold Cnorm2. cbn. ring. Qed.
  Lemma fix_close z e : (0 <= delta)%R -> (1 - e <= Cmod z <= 1)%R -> (0 <= e)%R -> (Cmod (Csub (fix_phase z * z) C1) <= delta + e)%R.
  Proof.
    intros D0 [H1 H2] He. assert (P := angle_polar z).
    assert (Q : (Cmod (Csub (RtoC (Cmod z)) C1) <= e)%R).
    { apply Cmod_le; [exact He|]. unfold Cnorm2, Csub, Cadd, Copp, RtoC, C1. cbn [fst snd]. nra. }
    unfold fix_phase. destruct (Rlt_dec delta (Rabs (angle z))) as [Y|Y].
    - replace (cis (- angle z) * z) with (RtoC (Cmod z)); [lra|]. rewrite P at 3. rewrite cis_neg.
      transitivity (RtoC (Cmod z) * (Cconj (cis (angle z)) * cis (angle z))); [rewrite cis_conj_mul'; ring|ring].
    - replace (Csub (C1 * z) C1) with (Csub (cis (angle z)) C1 + cis (angle z) * Csub (RtoC (Cmod z)) C1)
        by (rewrite P at 4; unfold Csub; ring).
      refine (Rle_trans _ _ _ (Cmod_triangle _ _) _). rewrite Cmod_mul, Cmod_cis.
      assert (X := cis_near (angle z)). lra.
  Qed.

  Definition finished (u : mat) : mat := mmul d (mdiag (fun i => fix_phase (reduced u i i))) (reduced u).
  Lemma finished_close u i j : (0 <= delta)%R -> unitary d u -> (i < d)%nat -> (j < d)%nat ->
    (Cmod (Csub (finished u i j) (mid i j)) <= delta + INR d * eps + 2 * (INR d * eps) * (INR d * eps))%R.
  Proof.
    intros D0 U Hi Hj. assert (B : (0 <= INR d * eps)%R) by (assert (X := pos_INR d); nra).
    unfold finished. rewrite mdiag_mul_l by assumption. unfold mid. destruct (Nat.eqb_spec i j) as [->|N].
    - assert (F := fix_close (reduced u j j) (2 * (INR d * eps * (INR d * eps))) D0 (reduced_on u j U Hj)).
      assert (0 <= INR d * eps * (INR d * eps))%R by (apply Rle_0_sqr). specialize (F ltac:(lra)). lra.
    - replace (Csub (fix_phase (reduced u i i) * reduced u i j) C0) with (fix_phase (reduced u i i) * reduced u i j) by (unfold Csub; ring).
      rewrite Cmod_mul. replace (Cmod (fix_phase (reduced u i i))) with 1%R by (unfold Cmod; rewrite fix_unit; symmetry; apply sqrt_1).
      assert (X := reduced_off u i j U Hi Hj N). assert (0 <= INR d * eps * (INR d * eps))%R by (apply Rle_0_sqr). lra.
  Qed.
End Reduce.
