(** How much the built-in primitives entangle (C94). *)
From Coq Require Import Reals List Arith ZArith Lia Lra.
From Verif.Base Require Import Py Cplx Matrix Expm.
From Verif.Circuit Require Import GateModel.
From Verif.Gates Require Import TwoModel TwoSpec EntProofs.
From Verif.Sim Require Import TnSpec TnProofs.
From Verif.State Require Import CutProofs.
From Verif.Variational Require Import AnsatzModel AnsatzSpec EmitProofs PrimSpec.
Import ListNotations.
Local Open Scope nat_scope.

Lemma pair_div d1 i j : j < d1 -> (i * d1 + j) / d1 = i /\ (i * d1 + j) mod d1 = j.
Proof.
  intros H. split; symmetry; [apply (Nat.div_unique _ d1 i j H); ring|apply (Nat.mod_unique _ d1 i j H); ring].
Qed.
Lemma pair_lt d0 d1 i j : i < d0 -> j < d1 -> i * d1 + j < d0 * d1.
Proof. nia. Qed.
Lemma csum_prefix n m f : m <= n -> (forall k, m <= k < n -> f k = C0) -> csum n f = csum m f.
Proof.
  intros L H. replace n with (m + (n - m)) by lia. rewrite csum_app. rewrite (csum_0 (n - m)); [ring|]. intros k Hk. apply H. lia.
Qed.

(** *** Light shift *)
Section Light.
  Variables (d0 d1 : nat) (theta : R) (G : mat).
  Hypothesis HG : forall i' j' i j, i' < d0 -> j' < d1 -> i < d0 -> j < d1 ->
    G (i' * d1 + j') (i * d1 + j) = if (Nat.eqb i' i && Nat.eqb j' j)%bool then ls_phase i j theta else C0.
  Lemma ls_image a b i j : i < d0 -> j < d1 -> mapply (d0 * d1) G (product_state d1 a b) (i * d1 + j) = (ls_phase i j theta * (a i * b j))%C.
  Proof.
    intros Hi Hj. unfold mapply. rewrite csum_prod. rewrite (csum_single d0 _ i Hi).
    - rewrite (csum_single d1 _ j Hj).
      + rewrite HG by assumption. rewrite !Nat.eqb_refl. unfold product_state. destruct (pair_div d1 i j Hj) as [-> ->]. reflexivity.
      + intros k Hk N. rewrite HG by assumption. rewrite (proj2 (Nat.eqb_neq j k)) by congruence. rewrite Bool.andb_false_r. ring.
    - intros k Hk N. apply csum_0. intros m Hm. rewrite HG by assumption. rewrite (proj2 (Nat.eqb_neq i k)) by congruence. cbn [andb]. ring.
  Qed.
End Light.

Definition even (m : nat) : vec := fun i => if i <? m then RtoC (/ sqrt (INR m)) else C0.
Lemma even_norm m n : 0 < m -> m <= n -> norm2 n (even m) = 1%R.
Proof.
  intros Hm L. assert (X : RtoC (norm2 n (even m)) = C1).
  { unfold norm2. rewrite rsum_Csum. rewrite (csum_prefix n m) by (trivial; intros k Hk; unfold even; rewrite (proj2 (Nat.ltb_ge k m)) by lia; unfold Cnorm2; cbn; apply Ceq; cbn; ring).
    rewrite (csum_ext m _ (fun _ => RtoC (/ INR m))).
    - rewrite csum_const. apply Ceq; cbn; [|ring]. assert (INR m <> 0%R) by (apply not_0_INR; lia). field. assumption.
    - intros k Hk. unfold even. rewrite (proj2 (Nat.ltb_lt k m) Hk). f_equal. unfold Cnorm2. cbn. assert (P : (0 < INR m)%R) by (apply lt_0_INR; exact Hm).
      assert (Q := sqrt_lt_R0 _ P). rewrite <- (sqrt_sqrt (INR m)) at 3 by lra. field. lra. }
  injection X as X. exact X.
Qed.

Definition right_angle (m : nat) (theta : R) : Prop := (2 * cos theta + INR m = 2)%R.
Lemma phase_sum m theta i i' : 2 <= m -> right_angle m theta -> i < m -> i' < m -> i <> i' ->
  csum m (fun j => (ls_phase i j theta * Cconj (ls_phase i' j theta))%C) = C0.
Proof.
  intros Hm RA Hi Hi' N.
  assert (E : csum m (fun j => (ls_phase i j theta * Cconj (ls_phase i' j theta))%C) =
    (csum m (fun _ => C1) + csum m (fun j => if Nat.eqb j i then (cis (- theta) - C1)%C else C0) + csum m (fun j => if Nat.eqb j i' then (cis theta - C1)%C else C0))%C).
  { rewrite <- !csum_add. apply csum_ext. intros j Hj. unfold ls_phase. rewrite (Nat.eqb_sym i j), (Nat.eqb_sym i' j).
    destruct (Nat.eqb_spec j i) as [E1|]; destruct (Nat.eqb_spec j i') as [E2|]; try congruence.
    - apply Ceq; cbn; rewrite ?cos_neg, ?sin_neg; ring.
    - apply Ceq; cbn; rewrite ?cos_neg, ?sin_neg; ring.
    - apply Ceq; cbn; ring. }
  rewrite E, csum_const, (csum_single m _ i Hi), (csum_single m _ i' Hi'), !Nat.eqb_refl.
  - unfold right_angle in RA. apply Ceq; cbn; rewrite ?cos_neg, ?sin_neg; lra.
  - intros k Hk NE. rewrite (proj2 (Nat.eqb_neq k i') NE). reflexivity.
  - intros k Hk NE. rewrite (proj2 (Nat.eqb_neq k i) NE). reflexivity.
Qed.
Lemma phase_same m theta i : i < m -> csum m (fun j => (ls_phase i j theta * Cconj (ls_phase i j theta))%C) = RtoC (INR m).
Proof.
  intros Hi. rewrite (csum_ext m _ (fun _ => C1)); [rewrite csum_const; ring|]. intros j Hj. unfold ls_phase. destruct (Nat.eqb i j); apply Ceq; cbn; rewrite ?cos_neg, ?sin_neg; try ring.
  assert (X := sin2_cos2 theta). unfold Rsqr in X. lra.
Qed.
Lemma phase_sym i j theta : ls_phase i j theta = ls_phase j i theta.
Proof. unfold ls_phase. rewrite Nat.eqb_sym. reflexivity. Qed.
Lemma inv_sqrt m : 0 < m -> (/ sqrt (INR m) * / sqrt (INR m) = / INR m)%R.
Proof. intros Hm. assert (P : (0 < INR m)%R) by (apply lt_0_INR; exact Hm). assert (Q := sqrt_lt_R0 _ P). rewrite <- (sqrt_sqrt (INR m)) at 3 by lra. field. lra. Qed.

Theorem ls_entangles d0 d1 theta G : (forall i' j' i j, i' < d0 -> j' < d1 -> i < d0 -> j < d1 ->
    G (i' * d1 + j') (i * d1 + j) = if (Nat.eqb i' i && Nat.eqb j' j)%bool then ls_phase i j theta else C0) ->
  2 <= Nat.min d0 d1 -> right_angle (Nat.min d0 d1) theta -> entangles_fully d0 d1 G.
Proof.
  intros HG Hm RA. set (m := Nat.min d0 d1) in *. assert (M0 : m <= d0) by (unfold m; lia). assert (M1 : m <= d1) by (unfold m; lia).
  exists (even m), (even m). split; [apply even_norm; lia|]. split; [apply even_norm; lia|].
  assert (IM := ls_image d0 d1 theta G HG (even m) (even m)).
  assert (MP : (0 < INR m)%R) by (apply lt_0_INR; lia). assert (IS := inv_sqrt m ltac:(lia)). set (s := (/ sqrt (INR m))%R) in *.
  assert (EV : forall i, i < m -> even m i = RtoC s) by (intros i Hi; unfold even; rewrite (proj2 (Nat.ltb_lt i m) Hi); reflexivity).
  assert (OD : forall i, m <= i -> even m i = C0) by (intros i Hi; unfold even; rewrite (proj2 (Nat.ltb_ge i m) Hi); reflexivity).
  assert (FIN : forall i i', i < m -> i' < m -> csum m (fun j => (ls_phase i j theta * (RtoC s * RtoC s) * Cconj (ls_phase i' j theta * (RtoC s * RtoC s)))%C) = if Nat.eqb i i' then RtoC (/ INR m) else C0).
  { intros i i' Hi Hi'. rewrite (csum_ext m _ (fun j => (RtoC (/ INR m * / INR m) * (ls_phase i j theta * Cconj (ls_phase i' j theta)))%C)).
    - rewrite csum_mul_l. destruct (Nat.eqb_spec i i') as [<-|N].
      + rewrite phase_same by exact Hi. apply Ceq; cbn; [field; lra|ring].
      + rewrite phase_sum by assumption. ring.
    - intros j Hj. rewrite <- IS. apply Ceq; cbn; ring. }
  split; intros L i i' Hi Hi'.
  - assert (m = d0) as E by (unfold m; lia). rewrite E in FIN. unfold first_alone. rewrite (csum_prefix d1 d0) by (trivial; intros j Hj; cbv beta; rewrite !IM by lia; rewrite (OD j) by lia; apply Ceq; cbn; ring).
    rewrite <- FIN by assumption. apply csum_ext. intros j Hj. rewrite !IM by lia. rewrite !EV by lia. reflexivity.
  - assert (m = d1) as E by (unfold m; lia). rewrite E in FIN. unfold second_alone. rewrite (csum_prefix d0 d1) by (trivial; intros j Hj; cbv beta; rewrite !IM by lia; rewrite (OD j) by lia; apply Ceq; cbn; ring).
    rewrite <- FIN by assumption. apply csum_ext. intros j Hj. rewrite !IM by lia. rewrite !EV by lia. rewrite (phase_sym j i), (phase_sym j i'). reflexivity.
Qed.

Theorem ls_never d theta G : (forall i' j' i j, i' < d -> j' < d -> i < d -> j < d ->
    G (i' * d + j') (i * d + j) = if (Nat.eqb i' i && Nat.eqb j' j)%bool then ls_phase i j theta else C0) -> 5 <= d -> ~ entangles_fully d d G.
Proof.
  intros HG Hd (a & b & Na & Nb & FM & _). specialize (FM (le_n d)). assert (IM := ls_image d d theta G HG a b).
  assert (DP : (0 < INR d)%R) by (apply lt_0_INR; lia).
  assert (RB : csum d (fun j => (b j * Cconj (b j))%C) = C1).
  { change C1 with (RtoC 1). rewrite <- Nb. unfold norm2. rewrite rsum_Csum. apply csum_ext. intros j Hj. unfold Cnorm2. apply Ceq; cbn; ring. }
  assert (FA : forall i i', i < d -> i' < d -> first_alone d (mapply (d * d) G (product_state d a b)) i i' =
    (a i * Cconj (a i') * csum d (fun j => RtoC (Cnorm2 (b j)) * (ls_phase i j theta * Cconj (ls_phase i' j theta))))%C).
  { intros i i' Hi Hi'. unfold first_alone. rewrite <- csum_mul_l. apply csum_ext. intros j Hj. rewrite !IM by assumption. unfold Cnorm2. apply Ceq; cbn; ring. }
  assert (NZ : forall i, i < d -> a i <> C0).
  { intros i Hi E. assert (X := FM i i Hi Hi). rewrite (FA i i Hi Hi), E, Nat.eqb_refl in X. apply (f_equal fst) in X. cbn in X.
    assert (0 < / INR d)%R by (apply Rinv_0_lt_compat; exact DP). lra. }
  set (p := fun j => Cnorm2 (b j)).
  assert (SUM : csum d (fun j => RtoC (p j)) = C1).
  { rewrite <- RB. apply csum_ext. intros j Hj. unfold p, Cnorm2. apply Ceq; cbn; ring. }
  assert (PN : forall j, (0 <= p j)%R) by (intros j; apply Cnorm2_nonneg).
  assert (KEY : forall i i', i < d -> i' < d -> i <> i' -> (1 / 2 <= p i + p i')%R).
  { intros i i' Hi Hi' N. assert (X := FM i i' Hi Hi'). rewrite (FA i i' Hi Hi'), (proj2 (Nat.eqb_neq i i') N) in X.
    apply Cmul_integral in X. destruct X as [X|X].
    { exfalso. apply Cmul_integral in X. destruct X as [X|X]; [exact (NZ i Hi X)|]. apply (NZ i' Hi'). rewrite <- (Cconj_inv (a i')), X. apply Ceq; cbn; ring. }
    assert (E : csum d (fun j => (RtoC (p j) * (ls_phase i j theta * Cconj (ls_phase i' j theta)))%C) =
      (C1 + RtoC (p i) * (cis (- theta) - C1) + RtoC (p i') * (cis theta - C1))%C).
    { rewrite (csum_ext d _ (fun j => (RtoC (p j) + (if Nat.eqb j i then RtoC (p i) * (cis (- theta) - C1) else C0) + (if Nat.eqb j i' then RtoC (p i') * (cis theta - C1) else C0))%C)).
      - rewrite !csum_add, SUM, (csum_single d _ i Hi), (csum_single d _ i' Hi'), !Nat.eqb_refl; [reflexivity| |].
        + intros k Hk NE. rewrite (proj2 (Nat.eqb_neq k i') NE). reflexivity.
        + intros k Hk NE. rewrite (proj2 (Nat.eqb_neq k i) NE). reflexivity.
      - intros j Hj. unfold ls_phase. rewrite (Nat.eqb_sym i j), (Nat.eqb_sym i' j).
        destruct (Nat.eqb_spec j i) as [E1|]; destruct (Nat.eqb_spec j i') as [E2|]; try congruence.
        + rewrite <- E1. apply Ceq; cbn; rewrite ?cos_neg, ?sin_neg; ring.
        + rewrite <- E2. apply Ceq; cbn; rewrite ?cos_neg, ?sin_neg; ring.
        + apply Ceq; cbn; ring. }
    unfold p in E at 1. rewrite E in X. apply (f_equal fst) in X. cbn in X. rewrite cos_neg in X. assert (CB := COS_bound theta). assert (A := PN i). assert (B := PN i'). nra. }
  assert (FIVE : (p 0%nat + p 1%nat + p 2%nat + p 3%nat + p 4%nat <= 1)%R).
  { assert (X : fst (csum d (fun j => RtoC (p j))) = 1%R) by (rewrite SUM; reflexivity).
    assert (G5 : forall n, 5 <= n -> (p 0%nat + p 1%nat + p 2%nat + p 3%nat + p 4%nat <= fst (csum n (fun j => RtoC (p j))))%R).
    { induction 1 as [|n Hn IH]; [cbn; lra|]. cbn [csum]. cbn [fst Cadd RtoC]. assert (Q := PN n). cbn. lra. }
    specialize (G5 d Hd). lra. }
  assert (A01 := KEY 0 1 ltac:(lia) ltac:(lia) ltac:(lia)). assert (A23 := KEY 2 3 ltac:(lia) ltac:(lia) ltac:(lia)). assert (A04 := KEY 0 4 ltac:(lia) ltac:(lia) ltac:(lia)).
  assert (A14 := KEY 1 4 ltac:(lia) ltac:(lia) ltac:(lia)). assert (A24 := KEY 2 4 ltac:(lia) ltac:(lia) ltac:(lia)).
  assert (P0 := PN 0). assert (P1 := PN 1). assert (P2 := PN 2). assert (P3 := PN 3). assert (P4 := PN 4). lra.
Qed.

(** *** The gates of the ansatz *)
Section Expm.
  Variable expm : nat -> mat -> mat.
  Hypothesis HE : exact_expm expm.
  Lemma ls_gate_entries cds d0 d1 g : 0 < d1 -> ls_gate expm cds d0 d1 = Ok g -> forall i' j' i j, i' < d0 -> j' < d1 -> i < d0 -> j < d1 ->
    g_data g (i' * d1 + j') (i * d1 + j) = if (Nat.eqb i' i && Nat.eqb j' j)%bool then ls_phase i j (ls_theta [d0; d1]) else C0.
  Proof.
    intros H1 Hg i' j' i j Hi' Hj' Hi Hj. destruct (ls_gate_inv d0 d1 expm g cds Hg) as (_ & _ & _ & ->). destruct (ls_exists d0 d1 (ls_theta [d0; d1]) H1) as (E & EE).
    rewrite (HE _ _ _ EE) by (apply pair_lt; assumption). apply (ls_entries d0 d1); assumption.
  Qed.
  Lemma ls_right d0 d1 : 2 <= Nat.min d0 d1 <= 4 -> right_angle (Nat.min d0 d1) (ls_theta [d0; d1]).
  Proof.
    intros H. unfold right_angle, ls_theta. cbn [existsb]. assert (M : Nat.min d0 d1 = 2 \/ Nat.min d0 d1 = 3 \/ Nat.min d0 d1 = 4) by lia.
    destruct M as [M|[M|M]]; rewrite M.
    - replace (Nat.eqb 2 d0 || (Nat.eqb 2 d1 || false))%bool with true.
      + rewrite cos_PI2. cbn. lra.
      + symmetry. destruct (Nat.eqb_spec 2 d0); [reflexivity|]. destruct (Nat.eqb_spec 2 d1); [reflexivity|]. lia.
    - rewrite (proj2 (Nat.eqb_neq 2 d0)), (proj2 (Nat.eqb_neq 2 d1)) by lia. cbn [orb].
      replace (Nat.eqb 3 d0 || (Nat.eqb 3 d1 || false))%bool with true.
      + replace (2 * PI / 3)%R with (2 * (PI / 3))%R by field. rewrite cos_2PI3. cbn. lra.
      + symmetry. destruct (Nat.eqb_spec 3 d0); [reflexivity|]. destruct (Nat.eqb_spec 3 d1); [reflexivity|]. lia.
    - rewrite (proj2 (Nat.eqb_neq 2 d0)), (proj2 (Nat.eqb_neq 2 d1)), (proj2 (Nat.eqb_neq 3 d0)), (proj2 (Nat.eqb_neq 3 d1)) by lia. cbn [orb]. rewrite cos_PI. cbn. lra.
  Qed.
  Theorem ls_gate_entangles cds d0 d1 g : 2 <= Nat.min d0 d1 <= 4 -> ls_gate expm cds d0 d1 = Ok g -> entangles_fully d0 d1 (g_data g).
  Proof.
    intros H Hg. apply (ls_entangles d0 d1 (ls_theta [d0; d1])); [apply (ls_gate_entries cds d0 d1 g ltac:(lia) Hg)|lia|apply ls_right; exact H].
  Qed.
  Theorem ls_gate_never cds d g : 5 <= d -> ls_gate expm cds d d = Ok g -> ~ entangles_fully d d (g_data g).
  Proof. intros H Hg. apply (ls_never d (ls_theta [d; d])); [apply (ls_gate_entries cds d d g ltac:(lia) Hg)|exact H]. Qed.

  Lemma ms_gate_entries cds d0 d1 g : 2 <= d0 -> 2 <= d1 -> ms_gate expm cds d0 d1 = Ok g -> forall i' j' i j, i' < d0 -> j' < d1 -> i < d0 -> j < d1 ->
    g_data g (i' * d1 + j') (i * d1 + j) = ms_entry (PI / 2) i' j' i j.
  Proof.
    intros H0 H1 Hg i' j' i j Hi' Hj' Hi Hj. destruct (ms_gate_inv d0 d1 expm g cds Hg) as (_ & _ & _ & ->). destruct (ms_exists d0 d1 H0 H1 (PI / 2)) as (E & EE).
    rewrite (HE _ _ _ EE) by (apply pair_lt; assumption). apply (ms_entries d0 d1 H0 H1); assumption.
  Qed.
End Expm.

(** The identity does not entangle. *)
Lemma identity_never : ~ entangles_fully 2 2 mid.
Proof.
  intros (a & b & Na & Nb & FM & _). specialize (FM (le_n 2)).
  assert (E : forall i i', i < 2 -> i' < 2 -> first_alone 2 (mapply (2 * 2) mid (product_state 2 a b)) i i' = (a i * Cconj (a i'))%C).
  { intros i i' Hi Hi'. unfold first_alone. rewrite (csum_ext 2 _ (fun j => (a i * Cconj (a i') * RtoC (Cnorm2 (b j)))%C)).
    - rewrite csum_mul_l. rewrite <- rsum_Csum. unfold norm2 in Nb. rewrite Nb. apply Ceq; cbn; ring.
    - intros j Hj. rewrite !(mapply_id (2 * 2)) by (apply (pair_lt 2 2); assumption). unfold product_state. destruct (pair_div 2 i j Hj) as [-> ->]. destruct (pair_div 2 i' j Hj) as [-> ->]. unfold Cnorm2. apply Ceq; cbn; ring. }
  assert (A := FM 0 0 ltac:(lia) ltac:(lia)). assert (B := FM 1 1 ltac:(lia) ltac:(lia)). assert (D := FM 0 1 ltac:(lia) ltac:(lia)).
  rewrite E in A, B, D by lia. cbn [Nat.eqb] in *. apply Cmul_integral in D. destruct D as [D|D].
  - rewrite D in A. apply (f_equal fst) in A. cbn in A. lra.
  - rewrite D in B. apply (f_equal fst) in B. cbn in B. lra.
Qed.

(** *** Molmer-Sorensen *)
Definition mA : C := (RtoC (1 / 2) * (C1 + cis (- (PI / 2))))%C.
Definition mB : C := (RtoC (1 / 2) * (cis (- (PI / 2)) - C1))%C.
Definition mP : C := cis (- (PI / 2 / 4)).
Lemma mA_val : mA = (1 / 2, - (1 / 2))%R.
Proof. unfold mA. apply Ceq; cbn; rewrite ?cos_neg, ?sin_neg, ?cos_PI2, ?sin_PI2; field. Qed.
Lemma mB_val : mB = (- (1 / 2), - (1 / 2))%R.
Proof. unfold mB. apply Ceq; cbn; rewrite ?cos_neg, ?sin_neg, ?cos_PI2, ?sin_PI2; field. Qed.
Definition ms_image_at (a b : vec) (i j : nat) : C :=
  if (i <? 2)%nat then (if (j <? 2)%nat then mA * (a i * b j) + mB * (a (1 - i)%nat * b (1 - j)%nat) else mP * (a i * b j))%C
  else (if (j <? 2)%nat then mP * (a i * b j) else a i * b j)%C.
Lemma ms_image_sym a b i j : ms_image_at a b i j = ms_image_at b a j i.
Proof. unfold ms_image_at. destruct (i <? 2), (j <? 2); ring. Qed.
Lemma csum2_single n m (f : nat -> nat -> C) i j : i < n -> j < m -> (forall i' j', i' < n -> j' < m -> (i', j') <> (i, j) -> f i' j' = C0) ->
  csum n (fun i' => csum m (fun j' => f i' j')) = f i j.
Proof.
  intros Hi Hj H. rewrite (csum_single n _ i Hi).
  - apply csum_single; [exact Hj|]. intros k Hk N. apply H; [exact Hi|exact Hk|congruence].
  - intros k Hk N. apply csum_0. intros l Hl. apply H; [exact Hk|exact Hl|congruence].
Qed.
Lemma in01_lt i : in01 i = (i <? 2).
Proof. destruct i as [|[|i]]; reflexivity. Qed.
Lemma flip_eq i k : i < 2 -> k < 2 -> (Nat.eqb i (1 - k)) = Nat.eqb k (1 - i).
Proof. intros. destruct i as [|[|]], k as [|[|]]; try lia; reflexivity. Qed.
Section Sorensen.
  Variables (d0 d1 : nat) (G : mat).
  Hypothesis H0 : 2 <= d0.
  Hypothesis H1 : 2 <= d1.
  Hypothesis HG : forall i' j' i j, i' < d0 -> j' < d1 -> i < d0 -> j < d1 -> G (i' * d1 + j') (i * d1 + j) = ms_entry (PI / 2) i' j' i j.
  Lemma ms_image a b i j : i < d0 -> j < d1 -> mapply (d0 * d1) G (product_state d1 a b) (i * d1 + j) = ms_image_at a b i j.
  Proof.
    intros Hi Hj. unfold mapply. rewrite csum_prod.
    set (c1 := (if (i <? 2)%nat then (if (j <? 2)%nat then mA else mP) else (if (j <? 2)%nat then mP else C1))).
    set (c2 := (if (i <? 2)%nat then (if (j <? 2)%nat then mB else C0) else C0)).
    transitivity (csum d0 (fun i' => csum d1 (fun j' => (if (Nat.eqb i' i && Nat.eqb j' j)%bool then c1 * (a i' * b j') else C0)%C)) +
      csum d0 (fun i' => csum d1 (fun j' => (if (Nat.eqb i' (1 - i) && Nat.eqb j' (1 - j))%bool then c2 * (a i' * b j') else C0)%C)))%C.
    - rewrite <- csum_add. apply csum_ext. intros i' Hi'. rewrite <- csum_add. apply csum_ext. intros j' Hj'.
      rewrite HG by assumption. unfold product_state. destruct (pair_div d1 i' j' Hj') as [-> ->].
      unfold ms_entry, c1, c2. rewrite !in01_lt. rewrite (Nat.eqb_sym i i'), (Nat.eqb_sym j j').
      destruct (Nat.eqb_spec i' i) as [E|E].
      + rewrite E. destruct (Nat.ltb_spec i 2) as [I|I].
        * rewrite (proj2 (Nat.eqb_neq i (1 - i))) by lia. cbn [andb]. destruct (Nat.eqb_spec j' j) as [F|F].
          -- rewrite F. destruct (Nat.ltb_spec j 2); cbn [andb orb]; unfold mA, mP; ring.
          -- destruct (Nat.ltb_spec j' 2); cbn [andb orb]; ring.
        * cbn [andb orb]. destruct (Nat.eqb_spec j' j) as [F|F].
          -- rewrite F. destruct (Nat.ltb_spec j 2); cbn [andb orb]; unfold mP; destruct (_ && _)%bool; ring.
          -- destruct (Nat.ltb_spec j' 2); cbn [andb orb]; destruct (_ && _)%bool; ring.
      + cbn [andb]. destruct (Nat.ltb_spec i 2) as [I|I].
        * destruct (Nat.ltb_spec j 2) as [J|J].
          -- destruct (Nat.ltb_spec i' 2) as [I'|I'].
             ++ destruct (Nat.ltb_spec j' 2) as [J'|J'].
                ** cbn [andb]. rewrite (flip_eq i i' I I'), (flip_eq j j' J J'). destruct (_ && _)%bool; unfold mB; ring.
                ** cbn [andb orb]. rewrite (proj2 (Nat.eqb_neq j' (1 - j))) by lia. rewrite Bool.andb_false_r. ring.
             ++ cbn [andb orb]. rewrite (proj2 (Nat.eqb_neq i' (1 - i))) by lia. cbn [andb]. destruct (j' <? 2); ring.
          -- destruct (Nat.ltb_spec i' 2), (Nat.ltb_spec j' 2); cbn [andb orb]; rewrite ?(proj2 (Nat.eqb_neq j (1 - j'))) by lia; rewrite ?Bool.andb_false_r; destruct (_ && _)%bool; ring.
        * destruct (Nat.ltb_spec i' 2), (Nat.ltb_spec j' 2); cbn [andb orb]; rewrite ?(proj2 (Nat.eqb_neq i (1 - i'))) by lia; cbn [andb]; destruct (_ && _)%bool; ring.
    - rewrite (csum2_single d0 d1 (fun i' j' => if (Nat.eqb i' i && Nat.eqb j' j)%bool then c1 * (a i' * b j') else C0)%C i j Hi Hj).
      + rewrite !Nat.eqb_refl. cbn [andb]. unfold c1, c2, ms_image_at.
        assert (Z : csum d0 (fun i' => csum d1 (fun j' => (if (Nat.eqb i' (1 - i) && Nat.eqb j' (1 - j))%bool then C0 * (a i' * b j') else C0)%C)) = C0).
        { apply csum_0. intros i' Hi'. apply csum_0. intros j' Hj'. destruct (_ && _)%bool; ring. }
        destruct (Nat.ltb_spec i 2); [destruct (Nat.ltb_spec j 2)|].
        * rewrite (csum2_single d0 d1 (fun i' j' => if (Nat.eqb i' (1 - i) && Nat.eqb j' (1 - j))%bool then mB * (a i' * b j') else C0)%C (1 - i) (1 - j)) ; [rewrite !Nat.eqb_refl; reflexivity|lia|lia|].
          intros i' j' Hi' Hj' N. destruct (Nat.eqb_spec i' (1 - i)) as [->|]; [|reflexivity]. destruct (Nat.eqb_spec j' (1 - j)) as [->|]; [|reflexivity]. congruence.
        * rewrite Z. ring.
        * rewrite Z. destruct (j <? 2); ring.
      + intros i' j' Hi' Hj' N. destruct (Nat.eqb_spec i' i) as [->|]; [|reflexivity]. destruct (Nat.eqb_spec j' j) as [->|]; [|reflexivity]. congruence.
  Qed.
End Sorensen.

(** The first qudit of [ms_image_at a b], alone. *)
Definition ms_alone (db : nat) (a b : vec) (i i' : nat) : C := csum db (fun j => (ms_image_at a b i j * Cconj (ms_image_at a b i' j))%C).
Theorem ms_alone_never da db a b : 3 <= da -> 2 <= db -> norm2 db b = 1%R -> ~ fully_mixed da (ms_alone db a b).
Proof.
  intros Ha Hb Nb FM. replace db with (2 + (db - 2)) in * by lia. set (n := db - 2) in *.
  assert (DP : (0 < / INR da)%R) by (apply Rinv_0_lt_compat; apply lt_0_INR; lia).
  set (T := norm2 n (fun k => b (2 + k)%nat)).
  assert (TS : csum n (fun k => (b (2 + k)%nat * Cconj (b (2 + k)%nat))%C) = RtoC T).
  { unfold T, norm2. rewrite rsum_Csum. apply csum_ext. intros k Hk. unfold Cnorm2. apply Ceq; cbn; ring. }
  assert (ONE : (Cnorm2 (b 0%nat) + Cnorm2 (b 1%nat) + T = 1)%R).
  { assert (X : RtoC (norm2 (2 + n) b) = C1) by (rewrite Nb; reflexivity). unfold norm2 in X. rewrite rsum_Csum, csum_app in X.
    assert (Y : csum n (fun k => RtoC (Cnorm2 (b (2 + k)%nat))) = RtoC T) by (unfold T, norm2; rewrite rsum_Csum; reflexivity). rewrite Y in X.
    apply (f_equal fst) in X. cbn [csum fst snd Cadd RtoC C0 C1] in X. lra. }
  assert (LOW : forall i i', i < 2 -> i' < 2 -> ms_alone (2 + n) a b i i' =
    ((mA * (a i * b 0%nat) + mB * (a (1 - i)%nat * b 1%nat)) * Cconj (mA * (a i' * b 0%nat) + mB * (a (1 - i')%nat * b 1%nat)) +
     (mA * (a i * b 1%nat) + mB * (a (1 - i)%nat * b 0%nat)) * Cconj (mA * (a i' * b 1%nat) + mB * (a (1 - i')%nat * b 0%nat)) + a i * Cconj (a i') * RtoC T)%C).
  { intros i i' Hi Hi'. unfold ms_alone. rewrite csum_app. cbn [csum]. unfold ms_image_at at 1 2 3 4. rewrite (proj2 (Nat.ltb_lt i 2) Hi), (proj2 (Nat.ltb_lt i' 2) Hi'). cbn [Nat.ltb Nat.leb Nat.sub].
    rewrite (csum_ext n _ (fun k => ((a i * Cconj (a i')) * (b (2 + k)%nat * Cconj (b (2 + k)%nat)))%C)); [rewrite csum_mul_l, TS; ring|].
    intros k Hk. unfold ms_image_at. rewrite (proj2 (Nat.ltb_lt i 2) Hi), (proj2 (Nat.ltb_lt i' 2) Hi'), (proj2 (Nat.ltb_ge (2 + k) 2)) by lia.
    transitivity ((mP * Cconj mP) * ((a i * Cconj (a i')) * (b (2 + k)%nat * Cconj (b (2 + k)%nat))))%C; [rewrite !Cconj_mul; ring|]. unfold mP. rewrite cis_conj_mul. ring. }
  assert (HIGH : forall i, i < 2 -> ms_alone (2 + n) a b i 2 =
    ((mA * (a i * b 0%nat) + mB * (a (1 - i)%nat * b 1%nat)) * Cconj (mP * (a 2%nat * b 0%nat)) +
     (mA * (a i * b 1%nat) + mB * (a (1 - i)%nat * b 0%nat)) * Cconj (mP * (a 2%nat * b 1%nat)) + mP * (a i * Cconj (a 2%nat) * RtoC T))%C).
  { intros i Hi. unfold ms_alone. rewrite csum_app. cbn [csum]. unfold ms_image_at at 1 2 3 4. rewrite (proj2 (Nat.ltb_lt i 2) Hi). cbn [Nat.ltb Nat.leb Nat.sub].
    rewrite (csum_ext n _ (fun k => (mP * (a i * Cconj (a 2%nat)) * (b (2 + k)%nat * Cconj (b (2 + k)%nat)))%C)); [rewrite csum_mul_l, TS; ring|].
    intros k Hk. unfold ms_image_at. rewrite (proj2 (Nat.ltb_lt i 2) Hi), (proj2 (Nat.ltb_ge (2 + k) 2)) by lia. cbn [Nat.ltb Nat.leb]. rewrite !Cconj_mul; ring. }
  assert (R00 := FM 0 0 ltac:(lia) ltac:(lia)). assert (R01 := FM 0 1 ltac:(lia) ltac:(lia)). assert (R10 := FM 1 0 ltac:(lia) ltac:(lia)).
  assert (R11 := FM 1 1 ltac:(lia) ltac:(lia)). assert (R02 := FM 0 2 ltac:(lia) ltac:(lia)). assert (R12 := FM 1 2 ltac:(lia) ltac:(lia)). assert (R22 := FM 2 2 ltac:(lia) ltac:(lia)).
  cbn [Nat.eqb] in *. rewrite LOW in R00, R01, R10, R11 by lia. rewrite HIGH in R02, R12 by lia. cbn [Nat.sub] in *.
  assert (S1 : (a 0%nat + a 1%nat)%C <> C0).
  { intros Z. assert (E : a 1%nat = Copp (a 0%nat)) by (transitivity ((a 0%nat + a 1%nat) - a 0%nat)%C; [ring|rewrite Z; ring]). rewrite E in *.
    assert (X := f_equal2 Cadd (f_equal2 Cadd R00 R01) (f_equal2 Cadd R10 R11)). apply (f_equal fst) in X. cbn in X. lra. }
  assert (S2 : (a 0%nat - a 1%nat)%C <> C0).
  { intros Z. assert (E : a 1%nat = a 0%nat) by (transitivity (a 0%nat - (a 0%nat - a 1%nat))%C; [ring|rewrite Z; ring]). rewrite E in *.
    assert (X := f_equal2 Csub (f_equal2 Csub R00 R01) (f_equal2 Csub R10 R11)). apply (f_equal fst) in X. cbn in X. lra. }
  assert (S3 : a 2%nat <> C0).
  { intros Z. assert (X : ms_alone (2 + n) a b 2%nat 2 = C0).
    { unfold ms_alone. apply csum_0. intros j Hj. unfold ms_image_at. cbn. rewrite Z. destruct (j <=? 1); apply Ceq; cbn; ring. }
    rewrite X in R22. apply (f_equal fst) in R22. cbn in R22. lra. }
  set (r := (fst (b 0%nat) * fst (b 1%nat) + snd (b 0%nat) * snd (b 1%nat))%R).
  assert (Q1 : ((a 0%nat + a 1%nat) * (Cconj (a 0%nat - a 1%nat) * (T, - (2 * r))%R))%C = C0).
  { assert (X := f_equal2 Cadd (f_equal2 Csub R00 R01) (f_equal2 Csub R10 R11)). etransitivity; [|etransitivity; [exact X|ring]].
    rewrite mA_val, mB_val. unfold r. apply Ceq; cbn; field. }
  apply Cmul_integral in Q1. destruct Q1 as [Q1|Q1]; [exact (S1 Q1)|]. apply Cmul_integral in Q1. destruct Q1 as [Q1|Q1].
  { apply S2. rewrite <- (Cconj_inv (a 0%nat - a 1%nat)), Q1. apply Ceq; cbn; ring. }
  injection Q1 as QT Qr. assert (r = 0%R) as R0 by lra.
  assert (Q2 : ((a 0%nat + a 1%nat) * (Cconj (mP * a 2%nat) * (mA * RtoC (Cnorm2 (b 0%nat) + Cnorm2 (b 1%nat)) + mB * RtoC (2 * r))))%C = C0).
  { assert (X := f_equal2 Cadd R02 R12). etransitivity; [|etransitivity; [exact X|ring]]. rewrite QT. unfold r. rewrite !Cconj_mul. unfold Cnorm2. apply Ceq; cbn; ring. }
  rewrite R0 in Q2. replace (Cnorm2 (b 0%nat) + Cnorm2 (b 1%nat))%R with 1%R in Q2 by lra.
  apply Cmul_integral in Q2. destruct Q2 as [Q2|Q2]; [exact (S1 Q2)|]. apply Cmul_integral in Q2. destruct Q2 as [Q2|Q2].
  - assert (X : (mP * a 2%nat)%C = C0) by (rewrite <- (Cconj_inv (mP * a 2%nat)), Q2; apply Ceq; cbn; ring). apply Cmul_integral in X. destruct X as [X|X]; [|exact (S3 X)].
    assert (Y := cis_conj_mul (- (PI / 2 / 4))). fold mP in Y. rewrite X in Y. apply (f_equal fst) in Y. cbn in Y. lra.
  - rewrite mA_val, mB_val in Q2. apply (f_equal fst) in Q2. cbn in Q2. lra.
Qed.

(** The image of both qudits at level 0. *)
Lemma ms_ket0 i j : ms_image_at (ket 0) (ket 0) i j = if (Nat.eqb i j && (i <? 2))%bool then (if Nat.eqb i 0 then mA else mB) else C0.
Proof. destruct i as [|[|i]], j as [|[|j]]; unfold ms_image_at, ket; cbn; rewrite ?Bool.andb_false_r; try ring. Qed.
Lemma ms_alone_ket0 db i i' : 2 <= db -> ms_alone db (ket 0) (ket 0) i i' = if (Nat.eqb i i' && (i <? 2))%bool then RtoC (/ 2) else C0.
Proof.
  intros Hb. unfold ms_alone. destruct (Nat.ltb_spec i 2) as [I|I].
  - rewrite (csum_single db _ i ltac:(lia)).
    + rewrite !ms_ket0, Nat.eqb_refl, (proj2 (Nat.ltb_lt i 2) I). destruct (Nat.eqb_spec i i') as [<-|N].
      * rewrite Nat.eqb_refl, (proj2 (Nat.ltb_lt i 2) I). cbn [andb]. destruct (Nat.eqb i 0); rewrite ?mA_val, ?mB_val; apply Ceq; cbn; field.
      * rewrite (proj2 (Nat.eqb_neq i' i)) by congruence. cbn [andb]. apply Ceq; cbn; ring.
    + intros k Hk N. rewrite ms_ket0, (proj2 (Nat.eqb_neq i k)) by congruence. cbn [andb]. ring.
  - rewrite Bool.andb_false_r. apply csum_0. intros k Hk. rewrite ms_ket0, (proj2 (Nat.ltb_ge i 2) I), Bool.andb_false_r. ring.
Qed.
Lemma ket0_norm n : 0 < n -> norm2 n (ket 0) = 1%R.
Proof.
  intros Hn. assert (X : RtoC (norm2 n (ket 0)) = C1); [|injection X as X; exact X].
  unfold norm2. rewrite rsum_Csum, (csum_single n _ 0 Hn); [unfold ket, Cnorm2; apply Ceq; cbn; ring|].
  intros k Hk N. unfold ket. rewrite (proj2 (Nat.eqb_neq k 0) N). unfold Cnorm2. apply Ceq; cbn; ring.
Qed.

Section Expm_ms.
  Variable expm : nat -> mat -> mat.
  Hypothesis HE : exact_expm expm.
  Variables (cds : list nat) (d0 d1 : nat) (g : gate mat).
  Hypothesis H0 : 2 <= d0.
  Hypothesis H1 : 2 <= d1.
  Hypothesis Hg : ms_gate expm cds d0 d1 = Ok g.
  Lemma ms_first a b i i' : i < d0 -> i' < d0 -> first_alone d1 (mapply (d0 * d1) (g_data g) (product_state d1 a b)) i i' = ms_alone d1 a b i i'.
  Proof. intros Hi Hi'. apply csum_ext. intros j Hj. rewrite !(ms_image d0 d1 (g_data g) H0 H1 (ms_gate_entries expm HE cds d0 d1 g H0 H1 Hg)) by assumption. reflexivity. Qed.
  Lemma ms_second a b j j' : j < d1 -> j' < d1 -> second_alone d0 d1 (mapply (d0 * d1) (g_data g) (product_state d1 a b)) j j' = ms_alone d0 b a j j'.
  Proof.
    intros Hj Hj'. apply csum_ext. intros i Hi. rewrite !(ms_image d0 d1 (g_data g) H0 H1 (ms_gate_entries expm HE cds d0 d1 g H0 H1 Hg)) by assumption.
    rewrite (ms_image_sym a b i j), (ms_image_sym a b i j'). reflexivity.
  Qed.
  Theorem ms_gate_two_levels : two_levels_entangled d0 d1 (mapply (d0 * d1) (g_data g) (product_state d1 (ket 0) (ket 0))).
  Proof.
    split; intros i i' Hi Hi'.
    - rewrite ms_first by assumption. apply ms_alone_ket0. exact H1.
    - rewrite ms_second by assumption. apply ms_alone_ket0. exact H0.
  Qed.
  Theorem ms_gate_entangles : Nat.min d0 d1 = 2 -> entangles_fully d0 d1 (g_data g).
  Proof.
    intros M. exists (ket 0), (ket 0). split; [apply ket0_norm; lia|]. split; [apply ket0_norm; lia|]. destruct ms_gate_two_levels as [A B]. split; intros L i i' Hi Hi'.
    - rewrite A by assumption. assert (d0 = 2) by lia. rewrite (proj2 (Nat.ltb_lt i 2)) by lia. rewrite Bool.andb_true_r. replace (INR d0) with 2%R by (rewrite H; reflexivity). reflexivity.
    - rewrite B by assumption. assert (d1 = 2) by lia. rewrite (proj2 (Nat.ltb_lt i 2)) by lia. rewrite Bool.andb_true_r. replace (INR d1) with 2%R by (rewrite H; reflexivity). reflexivity.
  Qed.
  Theorem ms_gate_never : 3 <= Nat.min d0 d1 -> ~ entangles_fully d0 d1 (g_data g).
  Proof.
    intros M (a & b & Na & Nb & F & S). destruct (Nat.le_ge_cases d0 d1) as [L|L].
    - apply (ms_alone_never d0 d1 a b ltac:(lia) H1 Nb). intros i i' Hi Hi'. rewrite <- ms_first by assumption. apply F; assumption.
    - apply (ms_alone_never d1 d0 b a ltac:(lia) H0 Na). intros i i' Hi Hi'. rewrite <- ms_second by assumption. apply S; assumption.
  Qed.
End Expm_ms.
