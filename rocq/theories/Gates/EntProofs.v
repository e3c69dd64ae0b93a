(** The light-shift and Molmer-Sorensen gates. *)
From Coq Require Import List ZArith Arith Lia Sorted Permutation Reals Lra String.
From Verif Require Import Base.Py Base.Cplx Base.Matrix Base.Radix Base.Fiber Base.Expm.
From Verif Require Import Circuit.GateModel Gates.FactoryModel Gates.FactorySpec Gates.ActsOn Gates.FactoryProofs Gates.Embed Gates.FactoryMain.
From Verif Require Import Gates.SingleModel Gates.SingleSpec Gates.SingleProofs Gates.TwoModel Gates.TwoSpec Gates.TwoProofs.
Open Scope R_scope.
Open Scope C_scope.

Lemma madj_madd d A B : meq d (madj (madd A B)) (madd (madj A) (madj B)).
Proof. intros i j _ _. unfold madj, madd. csolve. Qed.
Lemma madj_mscal d c A : meq d (madj (mscal c A)) (mscal (Cconj c) (madj A)).
Proof. intros i j _ _. unfold madj, mscal. csolve. Qed.

Lemma two_proj_unitary d P1 P2 y1 y2 :
  meq d (mmul d P1 P1) P1 -> meq d (mmul d P2 P2) P2 -> meq d (mmul d P1 P2) mzero -> meq d (mmul d P2 P1) mzero ->
  meq d (madj P1) P1 -> meq d (madj P2) P2 ->
  unitary d (madd mid (madd (mscal (cis y1 - C1) P1) (mscal (cis y2 - C1) P2))).
Proof.
  intros H11 H22 H12 H21 A1 A2.
  assert (Hadj : meq d (madj (madd mid (madd (mscal (cis y1 - C1) P1) (mscal (cis y2 - C1) P2))))
    (madd mid (madd (mscal (Cconj (cis y1 - C1)) P1) (mscal (Cconj (cis y2 - C1)) P2)))).
  { rewrite !madj_madd, !madj_mscal, A1, A2, madj_id. reflexivity. }
  assert (Hc : forall y, Cconj (cis y - C1) = cis (- y) - C1) by (intros y; unfold cis; rewrite cos_neg, sin_neg; csolve).
  assert (He : forall y, cis y * cis (- y) = C1) by (intros y; rewrite <- cis_add; replace (y + - y)%R with 0%R by ring; apply cis_0).
  rewrite !Hc in Hadj.
  split; rewrite Hadj; rewrite !mmul_add_l, !mmul_add_r, !mmul_scal_l, !mmul_scal_r, !mmul_id_r, !mmul_id_l, H11, H22, H12, H21;
    intros i j Hi Hj; unfold madd, mscal, mzero; pose proof (He y1) as E1; pose proof (He y2) as E2.
  - replace (mid i j) with (mid i j + (cis y1 * cis (- y1) - C1) * P1 i j + (cis y2 * cis (- y2) - C1) * P2 i j) at 2 by (rewrite E1, E2; ring). ring.
  - replace (mid i j) with (mid i j + (cis y1 * cis (- y1) - C1) * P1 i j + (cis y2 * cis (- y2) - C1) * P2 i j) at 2 by (rewrite E1, E2; ring). ring.
Qed.

(** *** LS *)
Definition ls_proj (d1 : nat) : mat := mdiag (fun r => if Nat.eqb (r / d1) (r mod d1) then C1 else C0).
Lemma ls_gen_diag d0 d1 : (0 < d1)%nat ->
  meq (d0 * d1) (msum (Nat.min d0 d1) (fun i => outer (basis_vec [i; i] [d0; d1]) (basis_vec [i; i] [d0; d1]))) (ls_proj d1).
Proof.
  intros H1 r c Hr Hc. unfold msum, ls_proj, mdiag.
  assert (E : csum (Nat.min d0 d1) (fun k => outer (basis_vec [k; k] [d0; d1]) (basis_vec [k; k] [d0; d1]) r c) =
              csum (Nat.min d0 d1) (fun k => ket (k * d1 + k) r * ket (k * d1 + k) c)).
  { apply csum_ext. intros k Hk. unfold outer. rewrite !basis_vec_2 by lia. reflexivity. }
  rewrite E. clear E. 
  assert (Hq : (r / d1 < d0)%nat) by (apply Nat.div_lt_upper_bound; lia). assert (Hm : (r mod d1 < d1)%nat) by (apply Nat.mod_upper_bound; lia).
  pose proof (Nat.div_mod r d1 ltac:(lia)) as Er.
  assert (Hdm : forall k, (k < d1)%nat -> r = (k * d1 + k)%nat -> (r / d1 = k /\ r mod d1 = k)%nat).
  { intros k Hk ->. split; [rewrite Nat.div_add_l, Nat.div_small by lia; lia|rewrite Nat.add_comm, Nat.mod_add, Nat.mod_small by lia; reflexivity]. }
  destruct (Nat.eqb_spec (r / d1) (r mod d1)) as [Eq|Ne].
  - rewrite (csum_single _ _ (r / d1)); [|lia|].
    + unfold ket. replace (r / d1 * d1 + r / d1)%nat with r by lia. rewrite Nat.eqb_refl, (Nat.eqb_sym c r). destruct (Nat.eqb r c); ring.
    + intros k Hk Hne. unfold ket. destruct (Nat.eqb_spec r (k * d1 + k)) as [E|]; [|ring]. exfalso. apply Hne. symmetry. apply (Hdm k); [lia|exact E].
  - rewrite csum_0; [destruct (Nat.eqb r c); reflexivity|]. intros k Hk. unfold ket. destruct (Nat.eqb_spec r (k * d1 + k)) as [E|]; [|ring].
    exfalso. apply Ne. destruct (Hdm k ltac:(lia) E). congruence.
Qed.
Lemma neg_i_theta t : - (Ci * RtoC t) = (0%R, (- t)%R).
Proof. unfold RtoC, Ci. csolve. Qed.
Lemma mzero_l d A : meq d (mmul d mzero A) mzero.
Proof. intros i j _ _. unfold mmul, mzero. apply csum_0. intros; ring. Qed.
Lemma mzero_r d A : meq d (mmul d A mzero) mzero.
Proof. intros i j _ _. unfold mmul, mzero. apply csum_0. intros; ring. Qed.
Lemma ls_proj_idem d d1 : meq d (mmul d (ls_proj d1) (ls_proj d1)) (ls_proj d1).
Proof.
  unfold ls_proj. rewrite mdiag_mul. intros i j Hi Hj. unfold mdiag. destruct (Nat.eqb i j); [|reflexivity]. destruct (Nat.eqb (i / d1) _); ring.
Qed.
Lemma ls_exponent_form d0 d1 theta : (0 < d1)%nat ->
  meq (d0 * d1) (ls_exponent d0 d1 theta) (madd (mscal (0%R, (- theta)%R) (ls_proj d1)) (mscal (0%R, 0%R) mzero)).
Proof.
  intros H1. unfold ls_exponent. rewrite (ls_gen_diag d0 d1 H1), neg_i_theta. intros i j _ _. unfold madd, mscal, mzero. ring.
Qed.
Lemma ls_closed d0 d1 theta E : (0 < d1)%nat -> ls_array d0 d1 theta E ->
  meq (d0 * d1) E (mdiag (fun r => ls_phase (r / d1) (r mod d1) theta)).
Proof.
  intros H1 HE.
  rewrite (expm_two_proj (d0 * d1) (ls_proj d1) mzero (- theta) 0 _ E (ls_proj_idem _ _) (mzero_l _ _) (mzero_r _ _) (mzero_l _ _) (ls_exponent_form d0 d1 theta H1) HE).
  intros i j _ _. unfold madd, mscal, mzero, ls_proj, mdiag, mid, ls_phase. destruct (Nat.eqb i j); [|ring]. destruct (Nat.eqb (i / d1) _); ring.
Qed.
Lemma ls_exists d0 d1 theta : (0 < d1)%nat -> exists E, ls_array d0 d1 theta E.
Proof.
  intros H1. eexists. eapply expm_two_proj_exists; [apply ls_proj_idem|apply mzero_l|apply mzero_r|apply mzero_l|apply ls_exponent_form; exact H1].
Qed.
Lemma ls_phase_norm i j t : Cnorm2 (ls_phase i j t) = 1%R.
Proof.
  unfold ls_phase, Cnorm2. destruct (Nat.eqb i j); [|unfold C1; cbn; ring]. unfold cis. cbn [fst snd]. pose proof (sin2_cos2 (- t)) as H. unfold Rsqr in H. lra.
Qed.
Lemma ls_unitary d0 d1 theta E : (0 < d1)%nat -> ls_array d0 d1 theta E -> unitary (d0 * d1) E.
Proof.
  intros H1 HE. eapply unitary_ext; [apply meq_sym; exact (ls_closed d0 d1 theta E H1 HE)|]. apply mdiag_unitary. intros i _. apply ls_phase_norm.
Qed.
Lemma pair_div d1 i j : (j < d1)%nat -> ((i * d1 + j) / d1 = i /\ (i * d1 + j) mod d1 = j)%nat.
Proof.
  intros H. split; [rewrite Nat.div_add_l, Nat.div_small by lia; lia|rewrite Nat.add_comm, Nat.mod_add, Nat.mod_small by lia; reflexivity].
Qed.
Lemma pair_inj d1 i j i' j' : (j < d1)%nat -> (j' < d1)%nat -> (i * d1 + j = i' * d1 + j')%nat -> i = i' /\ j = j'.
Proof. intros H H' E. destruct (pair_div d1 i j H) as [A1 A2]. destruct (pair_div d1 i' j' H') as [B1 B2]. rewrite E in A1, A2. split; congruence. Qed.
Lemma ls_entries d0 d1 theta E i' j' i j : ls_array d0 d1 theta E -> (i' < d0)%nat -> (j' < d1)%nat -> (i < d0)%nat -> (j < d1)%nat ->
  E (i' * d1 + j')%nat (i * d1 + j)%nat = if (Nat.eqb i' i && Nat.eqb j' j)%bool then ls_phase i j theta else C0.
Proof.
  intros HE Hi' Hj' Hi Hj. rewrite (ls_closed d0 d1 theta E ltac:(lia) HE) by nia. unfold mdiag.
  destruct (pair_div d1 i' j' Hj') as [-> ->].
  destruct (Nat.eqb_spec (i' * d1 + j') (i * d1 + j)) as [Eq|Ne].
  - apply pair_inj in Eq; try assumption. destruct Eq as [-> ->]. rewrite !Nat.eqb_refl. reflexivity.
  - destruct (Nat.eqb_spec i' i) as [->|]; [|reflexivity]. destruct (Nat.eqb_spec j' j) as [->|]; [|reflexivity]. congruence.
Qed.

(** *** MS *)
Definition gx : mat := fun i j => if (Nat.eqb i 0 && Nat.eqb j 1 || Nat.eqb i 1 && Nat.eqb j 0)%bool then C1 else C0.
Definition p01 : mat := mdiag (fun i => if in01 i then C1 else C0).
Lemma gell_gx d : meq d (gellmann_array d 0 1 "s") gx.
Proof. intros i j _ _. unfold gellmann_array, mset, gx. cbn. destruct i as [|[|i]], j as [|[|j]]; reflexivity. Qed.
Lemma gx_gx d : (2 <= d)%nat -> meq d (mmul d gx gx) p01.
Proof.
  intros Hd i j Hi Hj. unfold mmul.
  destruct i as [|[|i]].
  - rewrite (csum_single d _ 1%nat); [|lia|intros k Hk Hn; unfold gx; cbn; destruct k as [|[|k]]; cbn; try ring; congruence].
    unfold gx, p01, mdiag, in01. destruct j as [|[|j]]; cbn; ring.
  - rewrite (csum_single d _ 0%nat); [|lia|intros k Hk Hn; unfold gx; cbn; destruct k as [|[|k]]; cbn; try ring; congruence].
    unfold gx, p01, mdiag, in01. destruct j as [|[|j]]; cbn; ring.
  - rewrite csum_0; [|intros k Hk; unfold gx; cbn; ring]. unfold p01, mdiag, in01. destruct (Nat.eqb _ j); reflexivity.
Qed.
Lemma gx_p d : meq d (mmul d gx p01) gx.
Proof. unfold p01. rewrite mdiag_mul_r. intros i j _ _. unfold gx, in01. destruct i as [|[|i]], j as [|[|j]]; cbn; ring. Qed.
Lemma p_gx d : meq d (mmul d p01 gx) gx.
Proof. unfold p01. rewrite mdiag_mul_l. intros i j _ _. unfold gx, in01. destruct i as [|[|i]], j as [|[|j]]; cbn; ring. Qed.
Lemma p_p d : meq d (mmul d p01 p01) p01.
Proof. unfold p01. rewrite mdiag_mul. intros i j _ _. unfold mdiag. destruct (Nat.eqb i j); [|reflexivity]. destruct (in01 i); ring. Qed.
Lemma gx_adj d : meq d (madj gx) gx.
Proof. intros i j _ _. unfold madj, gx. destruct i as [|[|i]], j as [|[|j]]; cbn; csolve. Qed.
Lemma p_adj d : meq d (madj p01) p01.
Proof. unfold p01. rewrite mdiag_adj. intros i j _ _. unfold mdiag. destruct (Nat.eqb i j); [|reflexivity]. destruct (in01 i); csolve. Qed.

Section MS.
Variables (d0 d1 : nat).
Hypothesis H0 : (2 <= d0)%nat.
Hypothesis H1 : (2 <= d1)%nat.
Let N := (d0 * d1)%nat.
Let A := mkron d1 p01 p01.
Let B := mkron d1 gx gx.
Let Sa := mkron d1 p01 mid.
Let Sb := mkron d1 mid p01.
Let Ga := mkron d1 gx mid.
Let Gb := mkron d1 mid gx.
Lemma kk X Y X' Y' X2 Y2 : meq d0 (mmul d0 X X') X2 -> meq d1 (mmul d1 Y Y') Y2 ->
  meq N (mmul N (mkron d1 X Y) (mkron d1 X' Y')) (mkron d1 X2 Y2).
Proof. intros HX HY. unfold N. rewrite mkron_mmul. apply mkron_ext; assumption. Qed.
Let id_l d X : meq d (mmul d mid X) X. Proof. apply mmul_id_l. Qed.
Let id_r d X : meq d (mmul d X mid) X. Proof. apply mmul_id_r. Qed.
Lemma e_part : meq N (ms_part d0 d1) (madd Gb Ga).
Proof.
  unfold ms_part. unfold N. rewrite (mkron_ext d0 d1 mid mid _ gx (meq_refl _ _) (gell_gx d1)).
  rewrite (mkron_ext d0 d1 _ gx mid mid (gell_gx d0) (meq_refl _ _)). reflexivity.
Qed.
Lemma e_GG : meq N (mmul N (madd Gb Ga) (madd Gb Ga)) (madd (madd Sa Sb) (mscal (RtoC 2) B)).
Proof.
  rewrite mmul_add_l, !mmul_add_r. unfold Ga, Gb.
  rewrite (kk mid gx mid gx mid p01 (id_l _ _) (gx_gx _ H1)).
  rewrite (kk mid gx gx mid gx gx (id_l _ _) (id_r _ _)).
  rewrite (kk gx mid mid gx gx gx (id_r _ _) (id_l _ _)).
  rewrite (kk gx mid gx mid p01 mid (gx_gx _ H0) (id_l _ _)).
  intros i j _ _. unfold madd, mscal, Sa, Sb, B. replace (RtoC 2) with (C1 + C1) by csolve. ring.
Qed.
Definition msP1 : mat := mscal (RtoC (1 / 2)) (madd A B).
Definition msP2 : mat := madd (madd Sa Sb) (mscal (RtoC (-2)) A).
Lemma ms_exp_form theta : meq N (ms_exponent d0 d1 theta) (madd (mscal (0%R, (- theta)%R) msP1) (mscal (0%R, (- (theta / 4))%R) msP2)).
Proof.
  unfold ms_exponent. fold N. rewrite mmul_scal_l, e_part, e_GG, neg_i_theta.
  intros i j _ _. unfold msP1, msP2, madd, mscal. generalize (A i j) (B i j) (Sa i j) (Sb i j). intros [a a'] [b b'] [s s'] [t t'].
  unfold RtoC. apply Ceq; cbn; field.
Qed.
Let AA : meq N (mmul N A A) A. Proof. apply kk; apply p_p. Qed.
Let AB : meq N (mmul N A B) B. Proof. apply kk; apply p_gx. Qed.
Let BA : meq N (mmul N B A) B. Proof. apply kk; apply gx_p. Qed.
Let BB : meq N (mmul N B B) A. Proof. apply kk; apply gx_gx; assumption. Qed.
Let SaA : meq N (mmul N Sa A) A. Proof. apply kk; [apply p_p|apply id_l]. Qed.
Let SbA : meq N (mmul N Sb A) A. Proof. apply kk; [apply id_l|apply p_p]. Qed.
Let ASa : meq N (mmul N A Sa) A. Proof. apply kk; [apply p_p|apply id_r]. Qed.
Let ASb : meq N (mmul N A Sb) A. Proof. apply kk; [apply id_r|apply p_p]. Qed.
Let SaB : meq N (mmul N Sa B) B. Proof. apply kk; [apply p_gx|apply id_l]. Qed.
Let SbB : meq N (mmul N Sb B) B. Proof. apply kk; [apply id_l|apply p_gx]. Qed.
Let BSa : meq N (mmul N B Sa) B. Proof. apply kk; [apply gx_p|apply id_r]. Qed.
Let BSb : meq N (mmul N B Sb) B. Proof. apply kk; [apply id_r|apply gx_p]. Qed.
Let SaSa : meq N (mmul N Sa Sa) Sa. Proof. apply kk; [apply p_p|apply id_l]. Qed.
Let SbSb : meq N (mmul N Sb Sb) Sb. Proof. apply kk; [apply id_l|apply p_p]. Qed.
Let SaSb : meq N (mmul N Sa Sb) A. Proof. apply kk; [apply id_r|apply id_l]. Qed.
Let SbSa : meq N (mmul N Sb Sa) A. Proof. apply kk; [apply id_l|apply id_r]. Qed.
Ltac expand := unfold msP1, msP2; rewrite ?mmul_scal_l, ?mmul_scal_r; rewrite ?mmul_add_l, ?mmul_add_r, ?mmul_scal_l, ?mmul_scal_r;
  rewrite ?mmul_add_l, ?mmul_add_r, ?mmul_scal_l, ?mmul_scal_r;
  rewrite ?AA, ?AB, ?BA, ?BB, ?SaA, ?SbA, ?ASa, ?ASb, ?SaB, ?SbB, ?BSa, ?BSb, ?SaSa, ?SbSb, ?SaSb, ?SbSa;
  let i := fresh in let j := fresh in intros i j _ _; unfold madd, mscal, mzero;
  generalize (A i j) (B i j) (Sa i j) (Sb i j); intros [? ?] [? ?] [? ?] [? ?]; unfold RtoC; apply Ceq; cbn; field.
Lemma msP11 : meq N (mmul N msP1 msP1) msP1. Proof. expand. Qed.
Lemma msP22 : meq N (mmul N msP2 msP2) msP2. Proof. expand. Qed.
Lemma msP12 : meq N (mmul N msP1 msP2) mzero. Proof. expand. Qed.
Lemma msP21 : meq N (mmul N msP2 msP1) mzero. Proof. expand. Qed.
Lemma kadj X Y : meq d0 (madj X) X -> meq d1 (madj Y) Y -> meq N (madj (mkron d1 X Y)) (mkron d1 X Y).
Proof. intros HX HY. unfold N. intros i j Hi Hj. rewrite (madj_mkron d0 d1 X Y i j) by assumption. apply (mkron_ext d0 d1 _ _ _ _ HX HY i j Hi Hj). Qed.
Lemma msP1_adj : meq N (madj msP1) msP1.
Proof.
  unfold msP1. rewrite madj_mscal, madj_madd. unfold A, B. rewrite (kadj _ _ (p_adj _) (p_adj _)), (kadj _ _ (gx_adj _) (gx_adj _)).
  replace (Cconj (RtoC (1 / 2))) with (RtoC (1 / 2)) by csolve. reflexivity.
Qed.
Lemma msP2_adj : meq N (madj msP2) msP2.
Proof.
  unfold msP2. rewrite !madj_madd, madj_mscal. unfold A, Sa, Sb. rewrite (kadj _ _ (p_adj _) (p_adj _)), (kadj _ _ (p_adj _) (madj_id _)), (kadj _ _ (madj_id _) (p_adj _)).
  replace (Cconj (RtoC (-2))) with (RtoC (-2)) by csolve. reflexivity.
Qed.
Lemma ms_closed theta E : ms_array d0 d1 theta E ->
  meq N E (madd mid (madd (mscal (cis (- theta) - C1) msP1) (mscal (cis (- (theta / 4)) - C1) msP2))).
Proof.
  intros HE. exact (expm_two_proj N msP1 msP2 (- theta) (- (theta / 4)) _ E msP11 msP22 msP12 msP21 (ms_exp_form theta) HE).
Qed.
Lemma ms_exists theta : exists E, ms_array d0 d1 theta E.
Proof. eexists. exact (expm_two_proj_exists N msP1 msP2 (- theta) (- (theta / 4)) _ msP11 msP22 msP12 msP21 (ms_exp_form theta)). Qed.
Lemma ms_unitary theta E : ms_array d0 d1 theta E -> unitary N E.
Proof.
  intros HE. eapply unitary_ext; [apply meq_sym; apply ms_closed; exact HE|].
  apply two_proj_unitary; [apply msP11|apply msP22|apply msP12|apply msP21|apply msP1_adj|apply msP2_adj].
Qed.
Lemma ms_entries theta E i' j' i j : ms_array d0 d1 theta E -> (i' < d0)%nat -> (j' < d1)%nat -> (i < d0)%nat -> (j < d1)%nat ->
  E (i' * d1 + j')%nat (i * d1 + j)%nat = ms_entry theta i' j' i j.
Proof.
  intros HE Hi' Hj' Hi Hj. rewrite (ms_closed theta E HE) by (unfold N; nia).
  assert (Hm : mid (i' * d1 + j')%nat (i * d1 + j)%nat = mid i' i * mid j' j).
  { unfold mid. destruct (Nat.eqb_spec (i' * d1 + j') (i * d1 + j)) as [Eq|Ne].
    - apply pair_inj in Eq; try assumption. destruct Eq as [-> ->]. rewrite !Nat.eqb_refl. ring.
    - destruct (Nat.eqb_spec i' i) as [->|]; [|ring]. destruct (Nat.eqb_spec j' j) as [->|]; [|ring]. congruence. }
  unfold madd at 1. rewrite Hm. unfold msP1, msP2, A, B, Sa, Sb, madd, mscal, mkron.
  destruct (pair_div d1 i' j' Hj') as [-> ->]. destruct (pair_div d1 i j Hj) as [-> ->].
  unfold ms_entry, p01, mdiag, gx, mid.
  assert (Hd : forall k, (k < 2)%nat \/ in01 k = false) by (intros k; unfold in01; destruct (Nat.ltb_spec k 2); [left|right]; auto).
  assert (Hne : forall k x, in01 k = false -> (x < 2)%nat -> Nat.eqb k x = false) by (unfold in01; intros k x Hk Hx; apply Nat.ltb_ge in Hk; apply Nat.eqb_neq; lia).
  destruct (Hd i) as [Ei|Ei]; destruct (Hd j) as [Ej|Ej].
  - destruct i as [|[|?]]; try lia; destruct j as [|[|?]]; try lia; cbn [in01 Nat.ltb Nat.leb andb orb Nat.sub];
    destruct i' as [|[|i']], j' as [|[|j']]; cbn; generalize (cis (- theta)), (cis (- (theta / 4))); intros [? ?] [? ?]; unfold RtoC; apply Ceq; cbn; field.
  - rewrite Ej. rewrite (Nat.eqb_sym j' j). rewrite (Hne j 0%nat), (Hne j 1%nat) by (assumption || lia). rewrite !Bool.andb_false_r.
    destruct (Nat.eqb_spec j j') as [<-|]; [rewrite Ej|];
    destruct i as [|[|?]]; try lia; destruct i' as [|[|i']]; cbn; generalize (cis (- theta)), (cis (- (theta / 4))); intros [? ?] [? ?]; unfold RtoC; apply Ceq; cbn; field.
  - rewrite Ei. rewrite (Nat.eqb_sym i' i). rewrite (Hne i 0%nat), (Hne i 1%nat) by (assumption || lia). rewrite !Bool.andb_false_r.
    destruct (Nat.eqb_spec i i') as [<-|]; [rewrite Ei|];
    destruct j as [|[|?]]; try lia; destruct j' as [|[|j']]; cbn; generalize (cis (- theta)), (cis (- (theta / 4))); intros [? ?] [? ?]; unfold RtoC; apply Ceq; cbn; field.
  - rewrite Ei, Ej. rewrite (Nat.eqb_sym i' i), (Nat.eqb_sym j' j). rewrite (Hne i 0%nat), (Hne i 1%nat), (Hne j 0%nat), (Hne j 1%nat) by (assumption || lia). rewrite !Bool.andb_false_r.
    destruct (Nat.eqb_spec i i') as [<-|]; [rewrite Ei|]; (destruct (Nat.eqb_spec j j') as [<-|]; [rewrite Ej|]);
    cbn; generalize (cis (- theta)), (cis (- (theta / 4))); intros [? ?] [? ?]; unfold RtoC; apply Ceq; cbn; field.
Qed.
End MS.

(** *** LS and MS in a register *)
Lemma ms_entry_swap theta i' j' i j : ms_entry theta j' i' j i = ms_entry theta i' j' i j.
Proof.
  unfold ms_entry. rewrite (Bool.andb_comm (in01 j)), (Bool.orb_comm (in01 j)), (Bool.andb_comm (Nat.eqb j' j)), (Bool.andb_comm (Nat.eqb j' (1 - j))). reflexivity.
Qed.
Lemma ls_phase_swap i j theta : ls_phase j i theta = ls_phase i j theta.
Proof. unfold ls_phase. rewrite Nat.eqb_sym. reflexivity. Qed.

Lemma ms_register dims c t ids g theta A : (forall d, In d dims -> (0 < d)%nat) -> (c < List.length dims)%nat -> (t < List.length dims)%nat -> c <> t ->
  (2 <= nth c dims 0)%nat -> (2 <= nth t dims 0)%nat ->
  (c < t)%nat \/ nth c dims 0%nat = nth t dims 0%nat ->
  g_target g = TList [Z.of_nat c; Z.of_nat t] -> g_controls g = None -> g_dagger g = false ->
  ms_array (nth c dims 0%nat) (nth t dims 0%nat) theta (g_data g) ->
  (2 <= ids)%nat -> generate_matrix dims ids g = Ok A ->
  forall r k, (r < prodl dims)%nat -> (k < prodl dims)%nat ->
  (agree_off dims [c; t] r k -> A r k = ms_entry theta (digit dims r c) (digit dims r t) (digit dims k c) (digit dims k t)) /\
  (~ agree_off dims [c; t] r k -> A r k = C0).
Proof.
  intros Hp Hc Ht Hne H2c H2t Hord Htg Hctl Hd HE Hi HA r k Hr Hk.
  rewrite (two_entry dims g c t ids A Hp Hc Ht Hne Htg Hctl Hi HA r k Hr Hk). unfold core. rewrite Hd.
  assert (D1 : (digit dims r c < nth c dims 0)%nat) by (apply nth_digits_lt; assumption).
  assert (D2 : (digit dims r t < nth t dims 0)%nat) by (apply nth_digits_lt; assumption).
  assert (D3 : (digit dims k c < nth c dims 0)%nat) by (apply nth_digits_lt; assumption).
  assert (D4 : (digit dims k t < nth t dims 0)%nat) by (apply nth_digits_lt; assumption).
  destruct (agree_dec dims [c; t] r k) as [Ha|Ha]; split; intros Hx; try contradiction; [|reflexivity].
  unfold pair_index. destruct (Nat.ltb_spec c t) as [Hlt|Hge].
  - apply (ms_entries _ _ H2c H2t theta); assumption.
  - destruct Hord as [|Heq]; [lia|]. rewrite <- ms_entry_swap. rewrite Heq in *.
    apply (ms_entries _ _ H2t H2t theta); assumption.
Qed.
Lemma ls_register dims c t ids g theta A : (forall d, In d dims -> (0 < d)%nat) -> (c < List.length dims)%nat -> (t < List.length dims)%nat -> c <> t ->
  (c < t)%nat \/ nth c dims 0%nat = nth t dims 0%nat ->
  g_target g = TList [Z.of_nat c; Z.of_nat t] -> g_controls g = None -> g_dagger g = false ->
  ls_array (nth c dims 0%nat) (nth t dims 0%nat) theta (g_data g) ->
  (2 <= ids)%nat -> generate_matrix dims ids g = Ok A ->
  meq (prodl dims) A (mdiag (fun k => ls_phase (digit dims k c) (digit dims k t) theta)).
Proof.
  intros Hp Hc Ht Hne Hord Htg Hctl Hd HE Hi HA r k Hr Hk.
  rewrite (two_entry dims g c t ids A Hp Hc Ht Hne Htg Hctl Hi HA r k Hr Hk). unfold core. rewrite Hd.
  assert (D1 : (digit dims r c < nth c dims 0)%nat) by (apply nth_digits_lt; assumption).
  assert (D2 : (digit dims r t < nth t dims 0)%nat) by (apply nth_digits_lt; assumption).
  assert (D3 : (digit dims k c < nth c dims 0)%nat) by (apply nth_digits_lt; assumption).
  assert (D4 : (digit dims k t < nth t dims 0)%nat) by (apply nth_digits_lt; assumption).
  assert (Hv : agree_off dims [c; t] r k ->
    g_data g (pair_index (Nat.ltb c t) (nth c dims 0%nat) (nth t dims 0%nat) (digit dims r c) (digit dims r t))
             (pair_index (Nat.ltb c t) (nth c dims 0%nat) (nth t dims 0%nat) (digit dims k c) (digit dims k t)) =
    if (Nat.eqb (digit dims r c) (digit dims k c) && Nat.eqb (digit dims r t) (digit dims k t))%bool then ls_phase (digit dims k c) (digit dims k t) theta else C0).
  { intros _. unfold pair_index. destruct (Nat.ltb_spec c t) as [Hlt|Hge].
    - apply (ls_entries _ _ theta _ _ _ _ _ HE); assumption.
    - destruct Hord as [|Heq]; [lia|]. rewrite <- ls_phase_swap, Bool.andb_comm. rewrite Heq in *.
      apply (ls_entries _ _ theta _ _ _ _ _ HE); assumption. }
  unfold mdiag. destruct (agree_dec dims [c; t] r k) as [Ha|Ha].
  - rewrite (Hv Ha). destruct (Nat.eqb_spec r k) as [->|Hrk]; [rewrite !Nat.eqb_refl; reflexivity|].
    destruct (Nat.eqb_spec (digit dims r c) (digit dims k c)) as [E1|]; [|reflexivity].
    destruct (Nat.eqb_spec (digit dims r t) (digit dims k t)) as [E2|]; [|reflexivity].
    exfalso. apply Hrk. apply (digit_ext dims); trivial. intros i Hil.
    destruct (Nat.eq_dec i c) as [->|]; [exact E1|]. destruct (Nat.eq_dec i t) as [->|]; [exact E2|]. apply Ha; [exact Hil|]. intros [|[|[]]]; congruence.
  - destruct (Nat.eqb_spec r k) as [->|]; [|reflexivity]. exfalso. apply Ha. intros i _ _. reflexivity.
Qed.

(** targets in decreasing line order with different dimensions: the phase lands on the wrong state *)
Lemma ls_order_witness : exists dims c t theta (g : gate mat) A,
  (forall d, In d dims -> (0 < d)%nat) /\ (c < List.length dims)%nat /\ (t < List.length dims)%nat /\ c <> t /\
  g_target g = TList [Z.of_nat c; Z.of_nat t] /\ g_controls g = None /\ g_dagger g = false /\
  ls_array (nth c dims 0%nat) (nth t dims 0%nat) theta (g_data g) /\ (0 <= theta <= 2 * PI)%R /\
  generate_matrix dims 2 g = Ok A /\
  ~ meq (prodl dims) A (mdiag (fun k => ls_phase (digit dims k c) (digit dims k t) theta)).
Proof.
  destruct (ls_exists 3 2 PI ltac:(lia)) as (E & HE).
  set (g := Gate "LS" TWO (TList [1%Z; 0%Z]) None false false E).
  assert (Hp : forall d, In d [2; 3]%nat -> (0 < d)%nat) by (intros d Hd; cbn in Hd; lia).
  assert (Hw : well_placed [2; 3]%nat g).
  { split; [discriminate|]. split; [repeat constructor; cbn; intros Hx; intuition discriminate|]. split; [|exact I].
    intros x [<-|[<-|[]]]; cbn; lia. }
  destruct (gen_uncontrolled_returns _ g Hw 2 eq_refl) as (A & HA).
  exists [2; 3]%nat, 1%nat, 0%nat, PI, g, A. pose proof PI_RGT_0.
  split; [exact Hp|]. split; [cbn; lia|]. split; [cbn; lia|]. split; [lia|]. split; [reflexivity|]. split; [reflexivity|]. split; [reflexivity|].
  split; [exact HE|]. split; [lra|]. split; [exact HA|]. intros Hm. specialize (Hm 3%nat 3%nat). cbn in Hm. specialize (Hm ltac:(lia) ltac:(lia)).
  rewrite (two_entry [2;3]%nat g 1 0 2 A Hp ltac:(cbn; lia) ltac:(cbn; lia) ltac:(lia) eq_refl eq_refl (le_n 2) HA 3 3 ltac:(cbn; lia) ltac:(cbn; lia)) in Hm.
  destruct (agree_dec [2;3]%nat [1;0]%nat 3 3) as [_|Hn]; [|exfalso; apply Hn; intros i _ _; reflexivity].
  change (core g) with E in Hm. cbn in Hm.
  pose proof (ls_entries 3 2 PI E 1 1 1 1 HE ltac:(lia) ltac:(lia) ltac:(lia) ltac:(lia)) as HE3. cbn in HE3. rewrite HE3 in Hm. change (digit [2;3]%nat 3 1) with 0%nat in Hm. change (digit [2;3]%nat 3 0) with 1%nat in Hm.
  unfold ls_phase, mdiag, digit in Hm. cbn in Hm. apply (f_equal fst) in Hm. unfold cis in Hm. cbn in Hm. rewrite cos_neg, cos_PI in Hm. unfold C1 in Hm. cbn in Hm. lra.
Qed.
Lemma rotation_pi_entries a b phi : a <> b ->
  rotation a b PI phi a a = C0 /\ rotation a b PI phi b b = C0 /\
  rotation a b PI phi b a = - (Ci * cis phi) /\ rotation a b PI phi a b = - (Ci * cis (- phi)).
Proof.
  intros H. unfold rotation, two_level. rewrite cos_PI2, sin_PI2, !Nat.eqb_refl.
  destruct (Nat.eqb_spec b a); [congruence|]. repeat split; csolve.
Qed.
Lemma cex_case : exists x M, cex_new (PList [PInt 0; PInt 2; PInt 1; PFloat 0]) = Ok x /\ (cx_b x < 3)%nat /\
  cex_array 2 3 true x = Ok M /\ unitary (2 * 3) M.
Proof.
  pose proof PI_RGT_0. exists (Cex 0 2 1 0). destruct (cex_returns 2 3 true (Cex 0 2 1 0) ltac:(cbn; lia)) as (M & HM). exists M.
  split; [apply (cex_new_accepts 0 2 1 0); [lia|lra]|]. split; [cbn; lia|]. split; [exact HM|]. apply (cex_unitary 2 3 true (Cex 0 2 1 0) M); [lia|cbn; lia|exact HM].
Qed.
