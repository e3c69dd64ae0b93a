(** The partial swap block. *)
From Coq Require Import Reals Lra Lia List Arith ZArith.
From Verif.Base Require Import Py Cplx Matrix Fiber.
From Verif.Gates Require Import AnglesModel AnglesSpec AnglesProofs SingleModel SingleSpec SingleProofs TwoModel TwoSpec TwoProofs.
From Verif.Ent Require Import BlockModel PairMath CrotProofs PermProofs QuadMath.
Import ListNotations.
Local Open Scope C_scope.

Definition eta : C := Ci * RtoC (1 / sqrt 2).
Definition m_h : m2 := M2 eta eta eta (- eta).
Lemma eta2 : eta * eta = RtoC (- (1 / 2)).
Proof. assert (Q := half_sqrt2). unfold eta. set (q := (1 / sqrt 2)%R) in *. clearbody q. apply Ceq; cbn; lra. Qed.
Definition om : C := cis (- (PI / 2 / 2)).
Definition om' : C := cis (PI / 2 / 2).
Lemma om_conj : om' = Ci * om.
Proof. unfold om, om'. rewrite <- cis_PI2, <- cis_add. f_equal. field. Qed.
Lemma om_sq : om * om = - Ci.
Proof. unfold om. rewrite <- cis_add. replace (- (PI / 2 / 2) + - (PI / 2 / 2))%R with (- (PI / 2))%R by field. rewrite cis_neg, cis_PI2. apply Cconj_i. Qed.

(** The outer parts: on the four lowest states a permutation of 01 and 11 and a phase. *)
Definition cn (i j : nat) : C :=
  match i, j with
  | 0%nat, 0%nat => C1 | 1%nat, 3%nat => C1 | 2%nat, 2%nat => C1 | 3%nat, 1%nat => C1 | _, _ => C0
  end.
Definition x4 : mat := fun i j => om * cn i j.
Definition m_xc : m2 := m2mul m_h (m2mul (m_z (PI / 2)) m_h).
Definition m_xt : m2 := M2 (- C1) C0 C0 (- C1).

Lemma h_entry i j : (i < 2)%nat -> (j < 2)%nat -> tl 0 1 m_h i j = match i, j with 1%nat, 1%nat => - eta | _, _ => eta end.
Proof. intros Hi Hj. rewrite tl01. destruct i as [|[|i]], j as [|[|j]]; try lia; reflexivity. Qed.
Definition hh (i j : nat) : R :=
  match i, j with
  | 1%nat, 1%nat | 1%nat, 3%nat | 2%nat, 2%nat | 2%nat, 3%nat | 3%nat, 1%nat | 3%nat, 2%nat => (1 / 2)%R
  | _, _ => (- (1 / 2))%R
  end.
Lemma hh_entry : meq 4 (mkron 2 (tl 0 1 m_h) (tl 0 1 m_h)) (fun i j => RtoC (hh i j)).
Proof.
  assert (E := eta2). assert (E' : - (eta * eta) = RtoC (1 / 2)) by (rewrite E; apply Ceq; cbn; lra).
  intros i j Hi Hj. unfold mkron. destruct i as [|[|[|[|i]]]]; try lia; destruct j as [|[|[|[|j]]]]; try lia; cbn [Nat.div Nat.modulo Nat.divmod fst snd Nat.sub];
    rewrite !h_entry by lia; unfold hh; rewrite <- ?E, <- ?E'; ring.
Qed.
Lemma kron_hh : meq 4 (mmul 4 (mkron 2 mid (tl 0 1 m_h)) (mkron 2 (tl 0 1 m_h) mid)) (mkron 2 (tl 0 1 m_h) (tl 0 1 m_h)).
Proof.
  change 4%nat with (2 * 2)%nat. eapply meq_trans; [apply mkron_mmul|]. apply mkron_ext; [apply mmul_id_l|apply mmul_id_r].
Qed.
(** The middle of the outer parts: a controlled not and a phase. *)
Definition cx (i j : nat) : C :=
  match i, j with
  | 0%nat, 0%nat => C1 | 1%nat, 1%nat => C1 | 2%nat, 3%nat => C1 | 3%nat, 2%nat => C1 | _, _ => C0
  end.
Lemma mid_cx : meq 4 (mmul 4 (tl 2 3 (m_rot PI 0)) (mkron 2 (tl 0 1 (m_z (PI / 2))) mid)) (fun i j => om * cx i j).
Proof.
  assert (D : meq 4 (mkron 2 (tl 0 1 (m_z (PI / 2))) mid) (mdiag (fun i => match i with 0%nat => om | 1%nat => om | _ => om' end))).
  { intros i j Hi Hj. unfold mkron. destruct i as [|[|[|[|i]]]]; try lia; destruct j as [|[|[|[|j]]]]; try lia; cbn [Nat.div Nat.modulo Nat.divmod fst snd Nat.sub];
      rewrite tl01; unfold mid, mdiag, om, om', m_z; cbn [Nat.eqb m00 m01 m10 m11]; ring. }
  eapply meq_trans; [apply mmul_ext; [apply meq_refl|exact D]|]. eapply meq_trans; [apply mdiag_mul_r|].
  assert (X : m_rot PI 0 = M2 C0 (- Ci) (- Ci) C0).
  { unfold m_rot. rewrite Ropp_0, cis_0, cos_PI2, sin_PI2. apply m2_eq; cbn [m00 m01 m10 m11]; apply Ceq; cbn; ring. }
  rewrite X, om_conj. assert (J := Cii). intros i j Hi Hj.
  destruct i as [|[|[|[|i]]]]; try lia; destruct j as [|[|[|[|j]]]]; try lia; unfold tl, two_level, mid, cx; cbn [Nat.eqb m00 m01 m10 m11]; try ring;
    transitivity (- (Ci * Ci) * om); try ring; rewrite J; ring.
Qed.
Lemma x4_chain : meq 4 (chain 4 [mkron 2 (tl 0 1 m_h) mid; mkron 2 mid (tl 0 1 m_h); mkron 2 (tl 0 1 (m_z (PI / 2))) mid; tl 2 3 (m_rot PI 0); mkron 2 (tl 0 1 m_h) mid; mkron 2 mid (tl 0 1 m_h)]) x4.
Proof.
  change [mkron 2 (tl 0 1 m_h) mid; mkron 2 mid (tl 0 1 m_h); mkron 2 (tl 0 1 (m_z (PI / 2))) mid; tl 2 3 (m_rot PI 0); mkron 2 (tl 0 1 m_h) mid; mkron 2 mid (tl 0 1 m_h)]
    with ([mkron 2 (tl 0 1 m_h) mid; mkron 2 mid (tl 0 1 m_h)] ++ [mkron 2 (tl 0 1 (m_z (PI / 2))) mid; tl 2 3 (m_rot PI 0)] ++ [mkron 2 (tl 0 1 m_h) mid; mkron 2 mid (tl 0 1 m_h)]).
  assert (P : forall A B, meq 4 (chain 4 [A; B]) (mmul 4 B A)).
  { intros A B. unfold chain. cbn [fold_left]. apply mmul_ext; [apply meq_refl|apply mmul_id_r]. }
  assert (HH : meq 4 (chain 4 [mkron 2 (tl 0 1 m_h) mid; mkron 2 mid (tl 0 1 m_h)]) (fun i j => RtoC (hh i j))).
  { eapply meq_trans; [apply P|]. eapply meq_trans; [apply kron_hh|]. apply hh_entry. }
  eapply meq_trans; [apply chain_app|]. eapply meq_trans; [apply mmul_ext; [apply chain_app|exact HH]|].
  eapply meq_trans; [apply mmul_ext; [apply mmul_ext; [exact HH|]|apply meq_refl]|].
  { eapply meq_trans; [apply P|apply mid_cx]. }
  intros i j Hi Hj. unfold x4. generalize om as w. intros (a, b).
  destruct i as [|[|[|[|i]]]]; try lia; destruct j as [|[|[|[|j]]]]; try lia; unfold mmul, hh, cx, cn; cbn [csum]; apply Ceq; cbn; lra.
Qed.
Lemma xt_chain : m2mul m_h m_h = m_xt.
Proof.
  assert (E := eta2). assert (E2 : eta * eta + eta * eta = - C1) by (rewrite E; apply Ceq; cbn; lra).
  apply m2_eq; cbn [m2mul m_h m_xt m00 m01 m10 m11]; try ring; rewrite <- E2; ring.
Qed.

(** On the four lowest states the block rotates 10 and 01 and changes the sign of the two others. *)
Definition wm (s : C) (m : m2) (i j : nat) : C :=
  match i, j with
  | 0%nat, 0%nat => s | 3%nat, 3%nat => s
  | 2%nat, 2%nat => m00 m | 2%nat, 1%nat => m01 m | 1%nat, 2%nat => m10 m | 1%nat, 1%nat => m11 m
  | _, _ => C0
  end.
Lemma wm_mul s m s' m' : meq 4 (mmul 4 (wm s m) (wm s' m')) (wm (s * s') (m2mul m m')).
Proof.
  intros i j Hi Hj. destruct i as [|[|[|[|i]]]]; try lia; destruct j as [|[|[|[|j]]]]; try lia; unfold mmul, wm; cbn [csum m2mul m00 m01 m10 m11]; ring.
Qed.
Lemma wm_tl m : meq 4 (wm C1 m) (tl 2 1 m).
Proof. intros i j Hi Hj. destruct i as [|[|[|[|i]]]]; try lia; destruct j as [|[|[|[|j]]]]; try lia; reflexivity. Qed.
Definition zp4 : mat := mkron 2 (tl 0 1 (m_z PI)) mid.
Lemma m_z_PI : m_z PI = M2 (- Ci) C0 C0 Ci.
Proof. unfold m_z. rewrite cis_neg, cis_PI2, Cconj_i. reflexivity. Qed.
Lemma w4_chain m : meq 4 (chain 4 [x4; zp4; tl 2 3 m; x4]) (wm (- C1) m).
Proof.
  assert (D : meq 4 zp4 (mdiag (fun i => match i with 0%nat => - Ci | 1%nat => - Ci | _ => Ci end))).
  { intros i j Hi Hj. unfold zp4, mkron. rewrite m_z_PI. destruct i as [|[|[|[|i]]]]; try lia; destruct j as [|[|[|[|j]]]]; try lia; cbn [Nat.div Nat.modulo Nat.divmod fst snd Nat.sub];
      rewrite tl01; unfold mid, mdiag; cbn [Nat.eqb m00 m01 m10 m11]; ring. }
  unfold chain. cbn [fold_left].
  eapply meq_trans; [apply mmul_ext; [apply meq_refl|apply mmul_ext; [apply meq_refl|apply mmul_ext; [exact D|apply mmul_id_r]]]|].
  eapply meq_trans; [apply mmul_ext; [apply meq_refl|apply mmul_ext; [apply meq_refl|apply mdiag_mul_l]]|].
  assert (J := Cii). assert (W := om_sq). unfold x4. revert W. generalize om as w. intros w W.
  intros i j Hi Hj. destruct m as [a b c d].
  destruct i as [|[|[|[|i]]]]; try lia; destruct j as [|[|[|[|j]]]]; try lia; unfold mmul, wm, cn, tl, two_level, mid; cbn [csum Nat.eqb m00 m01 m10 m11]; try ring; ring [W J].
Qed.
Lemma wc_chain : m2chain [m_xc; m_z PI; m_xc] = m_z PI.
Proof.
  unfold m2chain. cbn [fold_left]. rewrite m2mul_id_r, m_z_PI. unfold m_xc.
  assert (Z : m_z (PI / 2) = M2 om C0 C0 (Ci * om)) by (rewrite <- om_conj; reflexivity). rewrite Z. unfold m_h.
  assert (J := Cii). assert (W := om_sq). assert (E := eta2). revert W E. generalize om as w, eta as e. intros w e W E.
  remember (RtoC (- (1 / 2))) as h eqn:Eh.
  assert (H4 : h * h + h * h + h * h + h * h = C1) by (rewrite Eh; apply Ceq; cbn; lra). clear Eh.
  apply m2_eq; cbn [m2mul m00 m01 m10 m11].
  - transitivity ((h * h + h * h + h * h + h * h) * - Ci); [ring [W J E]|rewrite H4; ring].
  - ring [W J E].
  - ring [W J E].
  - transitivity ((h * h + h * h + h * h + h * h) * Ci); [ring [W J E]|rewrite H4; ring].
Qed.
Lemma z_PI_fourth : m2chain [m_z PI; m_z PI; m_z PI; m_z PI] = m2id.
Proof.
  unfold m2chain. cbn [fold_left]. rewrite m2mul_id_r, m_z_PI. assert (J := Cii). apply m2_eq; cbn [m2mul m2id m00 m01 m10 m11]; ring [J].
Qed.
Lemma m_rot_add t1 t2 f : m2mul (m_rot t1 f) (m_rot t2 f) = m_rot (t1 + t2) f.
Proof.
  assert (H := rotation_add 2 0 1 t1 t2 f ltac:(lia) ltac:(lia) ltac:(lia)).
  assert (X : meq 2 (tl 0 1 (m2mul (m_rot t1 f) (m_rot t2 f))) (tl 0 1 (m_rot (t1 + t2) f))).
  { eapply meq_trans; [|exact H]. apply meq_sym. apply two_level_mul; lia. }
  apply m2_eq; [apply (X 0 0)%nat|apply (X 0 1)%nat|apply (X 1 0)%nat|apply (X 1 1)%nat]; lia.
Qed.
Lemma rot_fourth t f : m2chain [m_rot t f; m_rot t f; m_rot t f; m_rot t f] = m_rot (4 * t) f.
Proof. unfold m2chain. cbn [fold_left]. rewrite m2mul_id_r, !m_rot_add. f_equal. ring. Qed.

Section Swap.
Variables (dc dt : nat).
Hypothesis Hdc : (2 <= dc)%nat.
Hypothesis Hdt : (2 <= dt)%nat.
Notation n := (dc * dt)%nat.
Notation B := (bmat dc dt).
Notation quad := (quad dt).

Lemma h_kind d : (2 <= d)%nat -> meq d (kind_matrix d (KRh 0 1)) (tl 0 1 m_h).
Proof. intros H. apply krh_rhad. exact H. Qed.
Lemma z_kind d f : (2 <= d)%nat -> meq d (kind_matrix d (KRz 0 1 f)) (tl 0 1 (m_z f)).
Proof. intros H. apply (krz_zrot d 0 1 f); lia. Qed.
Lemma ctrl_quad k m : meq dc (kind_matrix dc k) (tl 0 1 m) -> meq n (tracked dc dt true (on_ctrl k)) (quad (mkron 2 (tl 0 1 m) mid) (tl 0 1 m) mid).
Proof.
  intros H. cbn [tracked on_ctrl flagged]. eapply meq_trans; [apply mkron_ext; [exact H|apply meq_refl]|]. apply on0_quad; assumption.
Qed.
Lemma targ_quad k m : meq dt (kind_matrix dt k) (tl 0 1 m) -> meq n (tracked dc dt true (on_targ k)) (quad (mkron 2 mid (tl 0 1 m)) mid (tl 0 1 m)).
Proof.
  intros H. cbn [tracked on_targ flagged]. eapply meq_trans; [apply mkron_ext; [apply meq_refl|exact H]|]. apply on1_quad; assumption.
Qed.
Lemma cx_tl m : meq n (tl dt (dt + 1) m) (quad (tl 2 3 m) mid mid).
Proof.
  assert (H := two_quad dc dt Hdc Hdt 1 0 1 1 m ltac:(lia) ltac:(lia) ltac:(lia) ltac:(lia)).
  replace (dt * 1 + 0)%nat with dt in H by lia. replace (dt * 1 + 1)%nat with (dt + 1)%nat in H by lia. exact H.
Qed.
Lemma cex_quad : meq n (tracked dc dt true cex_gate) (quad (tl 2 3 (m_rot PI 0)) mid mid).
Proof.
  cbn [tracked cex_gate flagged]. eapply meq_trans; [apply cex_blk; assumption|]. eapply meq_trans; [|apply cx_tl].
  eapply meq_trans; [apply (blk_two_level dc dt Hdc Hdt 1 0 1); lia|]. rewrite Nat.mul_1_l, Nat.add_0_r. apply meq_refl.
Qed.
Definition x_part : list egate :=
  [on_ctrl (KRh 0 1); on_targ (KRh 0 1); on_ctrl (KRz 0 1 (PI / 2)); cex_gate; on_ctrl (KRh 0 1); on_targ (KRh 0 1)].
Lemma x_quad : meq n (B x_part) (quad x4 (tl 0 1 m_xc) (tl 0 1 m_xt)).
Proof.
  unfold bmat, x_part. cbn [map].
  eapply meq_trans.
  { apply (chain_ext n _ (quads dt
      [(mkron 2 (tl 0 1 m_h) mid, tl 0 1 m_h, mid); (mkron 2 mid (tl 0 1 m_h), mid, tl 0 1 m_h);
       (mkron 2 (tl 0 1 (m_z (PI / 2))) mid, tl 0 1 (m_z (PI / 2)), mid); (tl 2 3 (m_rot PI 0), mid, mid);
       (mkron 2 (tl 0 1 m_h) mid, tl 0 1 m_h, mid); (mkron 2 mid (tl 0 1 m_h), mid, tl 0 1 m_h)])).
    repeat constructor; cbn [fst snd]; try (apply ctrl_quad; (apply h_kind || apply z_kind); assumption); try (apply targ_quad; apply h_kind; assumption). apply cex_quad. }
  eapply meq_trans; [apply quad_chain; assumption|]. cbn [map fst snd]. apply quad_ext; try assumption.
  - apply x4_chain.
  - assert (I : forall A, meq 2 (mmul 2 mid A) A) by (intros; apply mmul_id_l).
    eapply meq_trans with (B := chain 2 (map (tl 0 1) [m_h; m2id; m_z (PI / 2); m2id; m_h; m2id])).
    + apply chain_ext. cbn [map]. repeat constructor; try apply meq_refl; apply meq_sym, two_level_id.
    + eapply meq_trans; [apply tl_chain; lia|]. unfold m2chain. cbn [fold_left]. rewrite !m2mul_id_l, m2mul_id_r. apply meq_refl.
  - eapply meq_trans with (B := chain 2 (map (tl 0 1) [m2id; m_h; m2id; m2id; m2id; m_h])).
    + apply chain_ext. cbn [map]. repeat constructor; try apply meq_refl; apply meq_sym, two_level_id.
    + eapply meq_trans; [apply tl_chain; lia|]. unfold m2chain. cbn [fold_left]. rewrite !m2mul_id_l, m2mul_id_r, xt_chain. apply meq_refl.
Qed.
Definition w_part (t f : R) : list egate := x_part ++ [on_ctrl (KRz 0 1 PI)] ++ crot_101 t (- f) ++ x_part.
Lemma bmat_app4 l1 l2 l3 l4 : meq n (B (l1 ++ l2 ++ l3 ++ l4)) (chain n [B l1; B l2; B l3; B l4]).
Proof.
  unfold chain. cbn [fold_left]. eapply meq_trans; [apply bmat_app|]. eapply meq_trans; [apply mmul_ext; [apply bmat_app|apply meq_refl]|].
  eapply meq_trans; [apply mmul_ext; [apply mmul_ext; [apply bmat_app|apply meq_refl]|apply meq_refl]|].
  eapply meq_trans; [apply mmul_assoc|]. eapply meq_trans; [apply mmul_assoc|]. apply mmul_ext; [apply meq_refl|].
  apply mmul_ext; [apply meq_refl|]. apply mmul_ext; [apply meq_refl|]. apply meq_sym, mmul_id_r.
Qed.
Lemma w_quad t f : meq n (B (w_part t f)) (quad (wm (- C1) (m_rot t (- f))) (tl 0 1 (m_z PI)) mid).
Proof.
  unfold w_part. eapply meq_trans; [apply bmat_app4|].
  eapply meq_trans.
  { apply (chain_ext n _ (quads dt [(x4, tl 0 1 m_xc, tl 0 1 m_xt); (zp4, tl 0 1 (m_z PI), mid); (tl 2 3 (m_rot t (- f)), mid, mid); (x4, tl 0 1 m_xc, tl 0 1 m_xt)])).
    repeat constructor; cbn [fst snd]; try apply x_quad.
    - eapply meq_trans; [apply bmat_one|]. apply ctrl_quad. apply z_kind. assumption.
    - eapply meq_trans; [apply crot_101_matrix; assumption|apply (cx_tl (m_rot t (- f)))]; assumption. }
  eapply meq_trans; [apply quad_chain; assumption|]. cbn [map fst snd]. apply quad_ext; try assumption.
  - apply w4_chain.
  - eapply meq_trans with (B := chain 2 (map (tl 0 1) [m_xc; m_z PI; m2id; m_xc])).
    + apply chain_ext. cbn [map]. repeat constructor; try apply meq_refl; apply meq_sym, two_level_id.
    + eapply meq_trans; [apply tl_chain; lia|]. rewrite <- wc_chain at 2. unfold m2chain. cbn [fold_left]. rewrite !m2mul_id_l. apply meq_refl.
  - eapply meq_trans with (B := chain 2 (map (tl 0 1) [m_xt; m2id; m2id; m_xt])).
    + apply chain_ext. cbn [map]. repeat constructor; try apply meq_refl; apply meq_sym, two_level_id.
    + eapply meq_trans; [apply tl_chain; lia|]. replace (m2chain [m_xt; m2id; m2id; m_xt]) with m2id; [apply two_level_id|].
      unfold m2chain. cbn [fold_left]. rewrite !m2mul_id_l, m2mul_id_r. apply m2_eq; cbn [m2mul m2id m_xt m00 m01 m10 m11]; ring.
Qed.
Lemma w_fourth t f : meq n (B (w_part t f ++ w_part t f ++ w_part t f ++ w_part t f)) (rotation 1 dt (4 * t) f).
Proof.
  eapply meq_trans; [apply bmat_app4|]. set (q := (wm (- C1) (m_rot t (- f)), tl 0 1 (m_z PI), mid) : mat * mat * mat).
  eapply meq_trans.
  { apply (chain_ext n _ (quads dt [q; q; q; q])). repeat constructor; apply w_quad. }
  eapply meq_trans; [apply quad_chain; assumption|]. unfold q. cbn [map fst snd].
  eapply meq_trans with (B := rotation dt 1 (4 * t) (- f)); [|eapply meq_trans; [apply rotation_swap; lia|rewrite Ropp_involutive; apply meq_refl]].
  assert (E := two_quad dc dt Hdc Hdt 1 0 0 1 (m_rot (4 * t) (- f)) ltac:(lia) ltac:(lia) ltac:(lia) ltac:(lia)).
  replace (dt * 1 + 0)%nat with dt in E by lia. replace (dt * 0 + 1)%nat with 1%nat in E by lia.
  eapply meq_trans; [|apply meq_sym; exact E]. apply quad_ext; try assumption.
  - eapply meq_trans; [|apply wm_tl]. rewrite <- rot_fourth. unfold chain. cbn [fold_left].
    assert (M : meq 4 (mmul 4 (wm (- C1) (m_rot t (- f))) mid) (wm (- C1) (m_rot t (- f)))) by apply mmul_id_r.
    eapply meq_trans; [apply mmul_ext; [apply meq_refl|apply mmul_ext; [apply meq_refl|apply mmul_ext; [apply meq_refl|exact M]]]|].
    eapply meq_trans; [apply mmul_ext; [apply meq_refl|apply mmul_ext; [apply meq_refl|apply wm_mul]]|].
    eapply meq_trans; [apply mmul_ext; [apply meq_refl|apply wm_mul]|]. eapply meq_trans; [apply wm_mul|].
    unfold m2chain. cbn [fold_left]. rewrite m2mul_id_r. replace (- C1 * (- C1 * (- C1 * - C1))) with C1 by ring. apply meq_refl.
  - eapply meq_trans; [apply (tl_chain 2 0 1 [m_z PI; m_z PI; m_z PI; m_z PI]); lia|]. rewrite z_PI_fourth. apply two_level_id.
  - unfold chain. cbn [fold_left]. eapply meq_trans; [apply mmul_id_l|]. eapply meq_trans; [apply mmul_id_l|]. eapply meq_trans; [apply mmul_id_l|]. apply mmul_id_l.
Qed.

Lemma swap_list t0 f : pswap_phases dt t0 f =
  (if negb (Nat.eqb dt 2) then [on_targ (KR 1 (Z.of_nat dt - 1) PI (PI / 2))] else []) ++
  w_part (if Nat.eqb dt 2 then (- t0)%R else t0) f ++
  (if negb (Nat.eqb dt 2) then [on_targ (KR 1 (Z.of_nat dt - 1) (- PI) (PI / 2))] else []).
Proof.
  unfold pswap_phases, w_part, x_part, crot_101. rewrite !Ropp_involutive. cbn [app]. rewrite <- ?app_assoc. cbn [app]. reflexivity.
Qed.
(** pswap:153-155. *)
Lemma no_phases_matrix t f : meq n (B (pswap_no_phases dt t f)) (rotation (dt - 1) dt t f).
Proof.
  unfold pswap_no_phases. rewrite swap_list. destruct (Nat.eqb_spec dt 2) as [E|N]; cbn [negb].
  - rewrite app_nil_l, app_nil_r. eapply meq_trans; [apply w_fourth|]. replace (dt - 1)%nat with 1%nat by lia. replace (4 * - (- t / 4))%R with t by field. apply meq_refl.
  - set (a := on_targ (KR 1 (Z.of_nat dt - 1) PI (PI / 2))). set (b := on_targ (KR 1 (Z.of_nat dt - 1) (- PI) (PI / 2))). set (w := w_part (- t / 4) f).
    assert (Ka : meq n (B [a]) (mkron dt mid (rotation 1 (dt - 1) PI (PI / 2)))).
    { eapply meq_trans; [apply bmat_one|]. unfold a. cbn [tracked on_targ flagged]. apply mkron_ext; [apply meq_refl|].
      replace (Z.of_nat dt - 1)%Z with (Z.of_nat (dt - 1)) by lia. apply (kr_rotation dt 1 (dt - 1)); lia. }
    assert (Kb : meq n (B [b]) (madj (B [a]))).
    { eapply meq_trans; [|apply madj_ext, meq_sym; exact Ka]. eapply meq_trans; [|apply meq_sym, madj_mkron]. eapply meq_trans; [apply bmat_one|].
      unfold b. cbn [tracked on_targ flagged]. apply mkron_ext; [apply meq_sym, madj_id|]. eapply meq_trans; [|apply meq_sym, rotation_adj; lia].
      replace (Z.of_nat dt - 1)%Z with (Z.of_nat (dt - 1)) by lia. apply (kr_rotation dt 1 (dt - 1)); lia. }
    assert (Ua : unitary n (B [a])).
    { apply bmat_unitary; try assumption. cbn. rewrite (proj2 (check_levels_spec _ _ _)) by lia. reflexivity. }
    assert (AB : meq n (mmul n (B [a]) (B [b])) mid).
    { eapply meq_trans; [apply mmul_ext; [apply meq_refl|exact Kb]|]. apply Ua. }
    eapply meq_trans with (B := B ([a] ++ (w ++ w ++ w ++ w) ++ [b])).
    + eapply meq_trans; [apply bmat_app4|]. 
      assert (R : meq n (B ([a] ++ w ++ [b])) (mmul n (B [b]) (mmul n (B w) (B [a])))).
      { eapply meq_trans; [apply bmat_app|]. eapply meq_trans; [apply mmul_ext; [apply bmat_app|apply meq_refl]|]. apply mmul_assoc. }
      set (A := B [a]) in *. set (W := B w) in *. set (A' := B [b]) in *. set (Q := B ([a] ++ w ++ [b])) in *.
      assert (QQ : forall X, meq n (mmul n Q (mmul n A' (mmul n X A))) (mmul n A' (mmul n (mmul n W X) A))).
      { intros X. eapply meq_trans; [apply mmul_ext; [exact R|apply meq_refl]|]. eapply meq_trans; [apply mmul_assoc|]. apply mmul_ext; [apply meq_refl|].
        eapply meq_trans; [apply mmul_assoc|]. eapply meq_trans; [|apply meq_sym, mmul_assoc]. apply mmul_ext; [apply meq_refl|].
        eapply meq_trans; [apply meq_sym, mmul_assoc|]. eapply meq_trans; [apply mmul_ext; [exact AB|apply meq_refl]|]. apply mmul_id_l. }
      unfold chain. cbn [fold_left].
      eapply meq_trans; [apply mmul_ext; [apply meq_refl|apply mmul_ext; [apply meq_refl|apply mmul_ext; [apply meq_refl|eapply meq_trans; [apply mmul_id_r|exact R]]]]|].
      eapply meq_trans; [apply mmul_ext; [apply meq_refl|apply mmul_ext; [apply meq_refl|apply QQ]]|].
      eapply meq_trans; [apply mmul_ext; [apply meq_refl|apply QQ]|]. eapply meq_trans; [apply QQ|].
      apply meq_sym. eapply meq_trans; [apply bmat_app|]. eapply meq_trans; [apply mmul_ext; [apply bmat_app|apply meq_refl]|].
      eapply meq_trans; [apply mmul_assoc|]. apply mmul_ext; [apply meq_refl|]. apply mmul_ext; [|apply meq_refl].
      eapply meq_trans; [apply bmat_app4|]. unfold chain. cbn [fold_left]. fold W. apply mmul_ext; [apply meq_refl|]. apply mmul_ext; [apply meq_refl|].
      apply mmul_ext; [apply meq_refl|]. apply mmul_id_r.
    + apply (conj_block dc dt [a] (w ++ w ++ w ++ w) [b] 1 dt (dt - 1) dt (- C1) C1 (4 * (- t / 4))%R); try nia; trivial.
      * apply w_fourth.
      * eapply (maps_ext n (B [a]) _ _ _ _); [nia|exact Ka|]. 
        assert (X := on1_maps dc dt Hdc Hdt (rotation 1 (dt - 1) PI (PI / 2)) 0%nat (dt - 1)%nat (- C1) 1%nat ltac:(lia) ltac:(lia) ltac:(lia)).
        cbn [Nat.mul Nat.add] in X. apply X. apply flip_maps; lia.
      * eapply (maps_ext n (B [a]) _ _ _ _); [nia|exact Ka|].
        assert (X := on1_maps dc dt Hdc Hdt (rotation 1 (dt - 1) PI (PI / 2)) 1%nat 0%nat C1 0%nat ltac:(lia) ltac:(lia) ltac:(lia)).
        rewrite Nat.mul_1_l, Nat.add_0_r in X. apply X. apply rot_fixes; lia.
      * unfold Cnorm2; cbn; ring.
      * unfold Cnorm2; cbn; ring.
      * right. split; [apply Ceq; cbn; ring|field].
Qed.

Lemma swap_ok t f : forallb (gate_ok dc dt) (pswap_no_phases dt t f) = true.
Proof.
  unfold pswap_no_phases. rewrite swap_list, !forallb_app. unfold w_part, x_part. rewrite !forallb_app, crot_ok by assumption.
  assert (X : forall t f, forallb (gate_ok dc dt) (if negb (Nat.eqb dt 2) then [on_targ (KR 1 (Z.of_nat dt - 1) t f)] else []) = true).
  { intros. destruct (Nat.eqb_spec dt 2); cbn; [reflexivity|]. rewrite (proj2 (check_levels_spec _ _ _)) by lia. reflexivity. }
  rewrite !X. cbn. rewrite !(proj2 (check_levels_spec _ _ _)) by lia. reflexivity.
Qed.
(** pswap:157-190: the rotation of states i and i+1 of the pair, for a pair that differs in both qudits. *)
Lemma permute_pswap_ok i t f : (i + 1 < n)%nat -> ((i + 1) mod dt = 0)%nat ->
  exists l, permute_pswap dc dt i t f false = Ok l /\ forallb (gate_ok dc dt) l = true /\ meq n (B l) (rotation i (i + 1) t f).
Proof.
  intros Hi Hm. unfold permute_pswap. set (q := (i / dt)%nat).
  assert (Di := Nat.div_mod (i + 1) dt ltac:(lia)). rewrite Hm in Di. set (k := ((i + 1) / dt)%nat) in *.
  assert (Kq : k = (q + 1)%nat).
  { assert (D := Nat.div_mod i dt ltac:(lia)). assert (L := Nat.mod_upper_bound i dt ltac:(lia)). fold q in D. nia. }
  assert (Ei : i = (q * dt + (dt - 1))%nat) by nia. assert (Ei1 : (i + 1)%nat = ((q + 1) * dt + 0)%nat) by nia.
  assert (Hq : (q + 1 < dc)%nat) by nia.
  destruct (Nat.eqb_spec q 0) as [E0|N0]; cbn [negb].
  - exists (pswap_no_phases dt t f). split; [unfold created; rewrite swap_ok; reflexivity|]. split; [apply swap_ok|].
    eapply meq_trans; [apply no_phases_matrix|]. replace (i + 1)%nat with dt by nia. replace i with (dt - 1)%nat by nia. apply meq_refl.
  - set (l := moves on_ctrl q ++ pswap_no_phases dt t f ++ map set_dag (rev (moves on_ctrl q))).
    assert (O : forallb (gate_ok dc dt) l = true).
    { unfold l. rewrite !forallb_app, ok_back, swap_ok, moves_ctrl_ok by lia. reflexivity. }
    exists l. split; [|split; [exact O|]].
    + unfold created. change ([on_ctrl (KR 0 (Z.of_nat q) PI (- PI / 2)); on_ctrl (KR 1 (Z.of_nat q + 1) (- PI) (PI / 2))] ++ pswap_no_phases dt t f ++ _) with l. rewrite O. reflexivity.
    + rewrite Ei1. rewrite Ei at 1.
      apply (conj_block dc dt (moves on_ctrl q) (pswap_no_phases dt t f) (map set_dag (rev (moves on_ctrl q))) (dt - 1) dt _ _ C1 C1 t); try nia.
      * apply bmat_unitary; try assumption. apply moves_ctrl_ok; lia.
      * apply back_adj; trivial.
      * apply no_phases_matrix.
      * apply (ctrl_moves dc dt Hdc Hdt q (dt - 1)); lia.
      * assert (X := proj2 (ctrl_moves dc dt Hdc Hdt q 0 ltac:(lia) ltac:(lia) ltac:(lia))). rewrite Nat.mul_1_l, (Nat.add_0_r dt) in X. exact X.
      * unfold Cnorm2; cbn; ring.
      * unfold Cnorm2; cbn; ring.
      * left. split; [apply Ceq; cbn; ring|reflexivity].
Qed.
End Swap.
