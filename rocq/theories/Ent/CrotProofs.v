(** The controlled rotation block. *)
From Coq Require Import Reals Lra Lia List Arith ZArith.
From Verif.Base Require Import Py Cplx Matrix Fiber.
From Verif.Gates Require Import AnglesModel AnglesSpec AnglesProofs SingleModel SingleSpec SingleProofs TwoModel TwoSpec TwoProofs.
From Verif.Ent Require Import BlockModel PairMath.
Import ListNotations.
Local Open Scope C_scope.

(** *** The matrices of the gates *)
Lemma kr_rotation d a b t f : (a < d)%nat -> (b < d)%nat -> (a < b)%nat -> meq d (kind_matrix d (KR (Z.of_nat a) (Z.of_nat b) t f)) (rotation a b t f).
Proof.
  intros Ha Hb Hab. cbn [kind_matrix].
  assert (E : r_matrix d (PList [PInt (Z.of_nat a); PInt (Z.of_nat b); PFloat t; PFloat f]) = Ok (r_array d (Z.to_nat (Z.min (Z.of_nat a) (Z.of_nat b))) (Z.to_nat (Z.max (Z.of_nat a) (Z.of_nat b))) (regulate_theta t) f)).
  { apply r_matrix_spec. exists (Z.of_nat a), (Z.of_nat b), t, f, []. repeat split; lia. }
  rewrite E. cbn [the]. replace (Z.to_nat (Z.min (Z.of_nat a) (Z.of_nat b))) with a by lia. replace (Z.to_nat (Z.max (Z.of_nat a) (Z.of_nat b))) with b by lia.
  eapply meq_trans; [apply r_array_rotation; lia|apply rotation_regulated].
Qed.
Lemma kr_order d a b t f : kind_matrix d (KR a b t f) = kind_matrix d (KR b a t f).
Proof. cbn [kind_matrix]. assert (E := r_level_order d b a t f). unfold rp in E. rewrite E. reflexivity. Qed.
Lemma krz_zrot d a b f : (a < d)%nat -> (b < d)%nat -> (a < b)%nat -> meq d (kind_matrix d (KRz (Z.of_nat a) (Z.of_nat b) f)) (zrot a b f).
Proof.
  intros Ha Hb Hab. cbn [kind_matrix]. destruct (rz_matrix_spec d (Z.of_nat a) (Z.of_nat b) f []) as (M & -> & E); try lia.
  cbn [the]. replace (Z.to_nat (Z.min (Z.of_nat a) (Z.of_nat b))) with a in E by lia. replace (Z.to_nat (Z.max (Z.of_nat a) (Z.of_nat b))) with b in E by lia. exact E.
Qed.
Lemma krh_rhad d : (2 <= d)%nat -> meq d (kind_matrix d (KRh 0 1)) (rhad 0 1).
Proof.
  intros Hd. cbn [kind_matrix]. unfold rh_matrix. cbn. rewrite (proj2 (check_levels_spec d 0 1)) by lia. cbn [the]. apply rh_array_spec; lia.
Qed.
(** The virtual rotation of level 0 by f, on levels 0 and 1. *)
Lemma kv_two_level d f : (2 <= d)%nat -> meq d (kind_matrix d (KV 0 f)) (two_level 0 1 (cis (- f)) C0 C0 C1).
Proof.
  intros Hd. cbn [kind_matrix]. eapply meq_trans; [apply virtrz_matrix_spec; lia|]. cbn [Z.to_nat].
  intros i j _ _. unfold mdiag, two_level, mid. destruct i as [|[|i]], j as [|[|j]]; cbn [Nat.eqb]; try reflexivity.
Qed.

(** *** Products of matrices on two levels *)
Record m2 := M2 { m00 : C; m01 : C; m10 : C; m11 : C }.
Definition tl (a b : nat) (m : m2) : mat := two_level a b (m00 m) (m01 m) (m10 m) (m11 m).
Definition m2mul (p q : m2) : m2 :=
  M2 (m00 p * m00 q + m01 p * m10 q) (m00 p * m01 q + m01 p * m11 q) (m10 p * m00 q + m11 p * m10 q) (m10 p * m01 q + m11 p * m11 q).
Definition m2id : m2 := M2 C1 C0 C0 C1.
Definition m2chain (l : list m2) : m2 := fold_left (fun M A => m2mul A M) l m2id.
Lemma m2_eq p q : m00 p = m00 q -> m01 p = m01 q -> m10 p = m10 q -> m11 p = m11 q -> p = q.
Proof. destruct p, q. cbn. intros -> -> -> ->. reflexivity. Qed.
Lemma tl_chain d a b l : (a < d)%nat -> (b < d)%nat -> a <> b -> meq d (chain d (map (tl a b) l)) (tl a b (m2chain l)).
Proof.
  intros Ha Hb Hab. unfold chain, m2chain. assert (E : meq d mid (tl a b m2id)) by (apply meq_sym, two_level_id).
  revert E. generalize mid as M, m2id as m. induction l as [|x l IH]; intros M m E; cbn [map fold_left]; [exact E|].
  apply IH. eapply meq_trans; [apply mmul_ext; [apply meq_refl|exact E]|]. unfold tl. eapply meq_trans; [apply two_level_mul; assumption|]. apply meq_refl.
Qed.

Definition m_rot (t f : R) : m2 := M2 (RtoC (cos (t / 2))) (- (Ci * RtoC (sin (t / 2)) * cis (- f))) (- (Ci * RtoC (sin (t / 2)) * cis f)) (RtoC (cos (t / 2))).
Definition m_z (f : R) : m2 := M2 (cis (- (f / 2))) C0 C0 (cis (f / 2)).
Definition m_v (f : R) : m2 := M2 (cis (- f)) C0 C0 C1.

Lemma half_sqrt2 : (1 / sqrt 2 * (1 / sqrt 2) = 1 / 2)%R.
Proof.
  pose proof (sqrt_sqrt 2 ltac:(lra)) as E. assert (0 < sqrt 2)%R by (apply sqrt_lt_R0; lra).
  apply (Rmult_eq_reg_r (sqrt 2 * sqrt 2)); [|nra]. rewrite E at 2. field. lra.
Qed.

(** The inner part, with the control at its level. *)
Lemma inner_on t : m2chain [m_rot PI 0; m_v (- PI); m_z (- t / 2); m_rot PI 0; m_z (t / 2); m_v PI] = m_z t.
Proof.
  unfold m2chain. cbn [fold_left]. unfold m_rot, m_z, m_v.
  rewrite Ropp_0, cis_0, cos_PI2, sin_PI2, RtoC_0, RtoC_1, Ropp_involutive.
  replace (- (- t / 2 / 2))%R with (t / 2 / 2)%R by field. replace (- t / 2 / 2)%R with (- (t / 2 / 2))%R by field.
  replace (cis (- (t / 2))) with (cis (- (t / 2 / 2)) * cis (- (t / 2 / 2))) by (rewrite <- cis_add; f_equal; field).
  replace (cis (t / 2)) with (cis (t / 2 / 2) * cis (t / 2 / 2)) by (rewrite <- cis_add; f_equal; field).
  rewrite (cis_neg PI), cis_PI.
  assert (K : Cconj (- C1) = - C1) by (apply Ceq; cbn; ring). rewrite K.
  assert (J := Cii). set (e := cis (t / 2 / 2)). set (e' := cis (- (t / 2 / 2))).
  apply m2_eq; cbn [m2mul m2id m00 m01 m10 m11].
  - transitivity (- (Ci * Ci) * (e' * e')); [ring|]. rewrite J. ring.
  - ring.
  - ring.
  - transitivity (- (Ci * Ci) * (e * e)); [ring|]. rewrite J. ring.
Qed.
Lemma m2mul_id_l p : m2mul m2id p = p.
Proof. apply m2_eq; cbn [m2mul m2id m00 m01 m10 m11]; ring. Qed.
Lemma m2mul_id_r p : m2mul p m2id = p.
Proof. apply m2_eq; cbn [m2mul m2id m00 m01 m10 m11]; ring. Qed.
Lemma m2mul_assoc p q r : m2mul (m2mul p q) r = m2mul p (m2mul q r).
Proof. apply m2_eq; cbn [m2mul m00 m01 m10 m11]; ring. Qed.
Lemma m2chain_cons x l : m2chain (x :: l) = m2mul (m2chain l) x.
Proof.
  unfold m2chain. cbn [fold_left]. rewrite m2mul_id_r.
  assert (G : forall l p q, fold_left (fun M A => m2mul A M) l (m2mul p q) = m2mul (fold_left (fun M A => m2mul A M) l p) q).
  { clear. induction l as [|y l IH]; intros p q; cbn [fold_left]; [reflexivity|]. rewrite <- m2mul_assoc. apply IH. }
  rewrite <- (m2mul_id_l x) at 1. apply G.
Qed.
Lemma m2chain_app l1 l2 : m2chain (l1 ++ l2) = m2mul (m2chain l2) (m2chain l1).
Proof.
  induction l1 as [|x l1 IH]; cbn [app]; [symmetry; apply m2mul_id_r|]. rewrite !m2chain_cons, IH. apply m2mul_assoc.
Qed.

Lemma frame_on t f : m2mul (m_rot (- PI / 2) (f - PI / 2)) (m2mul (m_z t) (m_rot (PI / 2) (f - PI / 2))) = m_rot t f.
Proof.
  unfold m_rot, m_z. replace (- PI / 2 / 2)%R with (- (PI / 4))%R by field. replace (PI / 2 / 2)%R with (PI / 4)%R by field.
  rewrite cos_neg, sin_neg, cos_PI4, sin_PI4. replace (- (f - PI / 2))%R with (PI / 2 + - f)%R by ring.
  replace (f - PI / 2)%R with (- (PI / 2) + f)%R by ring. rewrite !cis_add, (cis_neg (PI / 2)), cis_PI2, Cconj_i.
  assert (Q := half_sqrt2). set (q := (1 / sqrt 2)%R) in *. clearbody q.
  assert (Q' : RtoC q * RtoC q + RtoC q * RtoC q = C1) by (apply Ceq; cbn; lra).
  rewrite RtoC_opp. assert (J := Cii).
  assert (P1 : cis f * cis (- f) = C1) by (rewrite cis_neg; apply cis_conj_mul).
  assert (A : cis (t / 2) = RtoC (cos (t / 2)) + Ci * RtoC (sin (t / 2))) by (apply Ceq; cbn; ring).
  assert (B : cis (- (t / 2)) = RtoC (cos (t / 2)) - Ci * RtoC (sin (t / 2))) by (rewrite cis_neg; apply Ceq; cbn; ring).
  rewrite A, B. set (c := RtoC (cos (t / 2))). set (s := RtoC (sin (t / 2))). set (u := cis f) in *. set (v := cis (- f)) in *. set (r := RtoC q) in *.
  apply m2_eq; cbn [m2mul m2id m00 m01 m10 m11]; unfold Csub.
  - transitivity ((r * r) * (c - Ci * s) + (r * r) * (c + Ci * s) * (u * v) * (Ci * Ci) * (Ci * Ci)); [unfold Csub; ring|].
    rewrite P1, J. transitivity (c * (r * r + r * r)); [unfold Csub; ring|rewrite Q'; ring].
  - transitivity ((r * r + r * r) * (Ci * Ci) * (Ci * s * v)); [unfold Csub; ring|]. rewrite Q', J. ring.
  - transitivity ((r * r + r * r) * (Ci * Ci) * (Ci * s * u)); [unfold Csub; ring|]. rewrite Q', J. ring.
  - transitivity ((r * r) * (c + Ci * s) + (r * r) * (c - Ci * s) * (u * v) * (Ci * Ci) * (Ci * Ci)); [unfold Csub; ring|].
    rewrite P1, J. transitivity (c * (r * r + r * r)); [unfold Csub; ring|rewrite Q'; ring].
Qed.

Lemma crot_on t f : m2chain [m_rot (PI / 2) (f - PI / 2); m_rot PI 0; m_v (- PI); m_z (- t / 2); m_rot PI 0; m_z (t / 2); m_v PI; m_rot (- PI / 2) (f - PI / 2)] = m_rot t f.
Proof.
  rewrite m2chain_cons. change [m_rot PI 0; m_v (- PI); m_z (- t / 2); m_rot PI 0; m_z (t / 2); m_v PI; m_rot (- PI / 2) (f - PI / 2)]
    with ([m_rot PI 0; m_v (- PI); m_z (- t / 2); m_rot PI 0; m_z (t / 2); m_v PI] ++ [m_rot (- PI / 2) (f - PI / 2)]).
  rewrite m2chain_app, inner_on. unfold m2chain at 1. cbn [fold_left]. rewrite m2mul_id_r, m2mul_assoc. apply frame_on.
Qed.
Lemma m_rot_0 f : m_rot 0 f = m2id.
Proof. unfold m_rot. replace (0 / 2)%R with 0%R by field. rewrite cos_0, sin_0, RtoC_0, RtoC_1. apply m2_eq; cbn; try reflexivity; apply Ceq; cbn; ring. Qed.
Lemma m_z_0 : m_z 0 = m2id.
Proof. unfold m_z. replace (0 / 2)%R with 0%R by field. rewrite Ropp_0, cis_0. reflexivity. Qed.
Lemma inner_off t : m2chain [m2id; m_v (- PI); m_z (- t / 2); m2id; m_z (t / 2); m_v PI] = m_z 0.
Proof.
  rewrite m_z_0. unfold m2chain. cbn [fold_left]. rewrite !m2mul_id_r, !m2mul_id_l. unfold m_v, m_z.
  replace (- t / 2 / 2)%R with (- (t / 2 / 2))%R by field. rewrite Ropp_involutive, (cis_neg PI), Ropp_involutive, !cis_PI.
  assert (K : Cconj (- C1) = - C1) by (apply Ceq; cbn; ring). rewrite K.
  assert (P1 : cis (t / 2 / 2) * cis (- (t / 2 / 2)) = C1) by (rewrite cis_neg; apply cis_conj_mul).
  apply m2_eq; cbn [m2mul m2id m00 m01 m10 m11]; try ring.
  - transitivity (cis (t / 2 / 2) * cis (- (t / 2 / 2))); [ring|exact P1].
  - transitivity (cis (t / 2 / 2) * cis (- (t / 2 / 2))); [ring|exact P1].
Qed.
Lemma crot_off t f : m2chain [m_rot (PI / 2) (f - PI / 2); m2id; m_v (- PI); m_z (- t / 2); m2id; m_z (t / 2); m_v PI; m_rot (- PI / 2) (f - PI / 2)] = m2id.
Proof.
  rewrite m2chain_cons.
  change [m2id; m_v (- PI); m_z (- t / 2); m2id; m_z (t / 2); m_v PI; m_rot (- PI / 2) (f - PI / 2)]
    with ([m2id; m_v (- PI); m_z (- t / 2); m2id; m_z (t / 2); m_v PI] ++ [m_rot (- PI / 2) (f - PI / 2)]).
  rewrite m2chain_app, inner_off. unfold m2chain at 1. cbn [fold_left]. rewrite m2mul_id_r, m2mul_assoc, frame_on. apply m_rot_0.
Qed.

(** *** Operators of one line of the pair *)
Section Pair.
Variables (dc dt : nat).
Hypothesis Hdc : (2 <= dc)%nat.
Hypothesis Hdt : (2 <= dt)%nat.
Notation n := (dc * dt)%nat.
Notation blk := (fmat Nat.eqb (prest dc dt true) (psub dc dt true)).

Lemma idx_lt c t : (c < dc)%nat -> (t < dt)%nat -> (c * dt + t < n)%nat.
Proof. intros. nia. Qed.
Lemma on1_blk A : meq n (mkron dt mid A) (blk (fun _ => A)).
Proof.
  intros i j _ _. unfold mkron, fmat, prest, psub, mid. destruct (Nat.eqb_spec (i / dt) (j / dt)); ring.
Qed.
Lemma blk_ext F G : (forall c, (c < dc)%nat -> meq dt (F c) (G c)) -> meq n (blk F) (blk G).
Proof.
  intros H. apply (fmat_ext Nat.eqb n dt (prest dc dt true) (psub dc dt true)); [apply pair_fib; lia|].
  intros c (r & Hr & <-). apply H. apply prest_lt; [lia|lia|exact Hr].
Qed.
Lemma blk_mul F G : meq n (mmul n (blk F) (blk G)) (blk (fun c => mmul dt (F c) (G c))).
Proof. apply (fmat_mul Nat.eqb Nat.eqb_eq). apply pair_fib; lia. Qed.
Lemma blk_chain (Fs : list (nat -> mat)) : meq n (chain n (map (fun F => blk F) Fs)) (blk (fun c => chain dt (map (fun F => F c) Fs))).
Proof.
  unfold chain. assert (E : meq n mid (blk (fun _ => mid))) by (apply meq_sym, (fmat_id Nat.eqb Nat.eqb_eq n dt); apply pair_fib; lia).
  assert (G : forall M (N : nat -> mat), meq n M (blk N) -> meq n (fold_left (fun M A => mmul n A M) (map (fun F => blk F) Fs) M)
     (blk (fun c => fold_left (fun M A => mmul dt A M) (map (fun F => F c) Fs) (N c)))).
  { clear E. induction Fs as [|F Fs IH]; intros M N E; cbn [map fold_left]; [exact E|]. apply (IH _ (fun c => mmul dt (F c) (N c))).
    eapply meq_trans; [apply mmul_ext; [apply meq_refl|exact E]|]. apply blk_mul. }
  apply (G mid (fun _ => mid) E).
Qed.
Lemma blk_two_level c0 a b x y z w : (c0 < dc)%nat -> (a < dt)%nat -> (b < dt)%nat -> a <> b ->
  meq n (blk (fun c => if Nat.eqb c c0 then two_level a b x y z w else mid)) (two_level (c0 * dt + a) (c0 * dt + b) x y z w).
Proof.
  intros Hc Ha Hb Hab i j Hi Hj.
  rewrite <- (pair_of dc dt true ltac:(lia) ltac:(lia) i Hi), <- (pair_of dc dt true ltac:(lia) ltac:(lia) j Hj).
  assert (P1 := prest_lt dc dt true ltac:(lia) ltac:(lia) i Hi). assert (P2 := psub_lt dc dt true ltac:(lia) ltac:(lia) i Hi).
  assert (P3 := prest_lt dc dt true ltac:(lia) ltac:(lia) j Hj). assert (P4 := psub_lt dc dt true ltac:(lia) ltac:(lia) j Hj).
  set (ci := prest dc dt true i) in *. set (ti := psub dc dt true i) in *. set (cj := prest dc dt true j) in *. set (tj := psub dc dt true j) in *.
  rewrite fmat_pair by lia. unfold pair_index, two_level, mid.
  assert (X : forall c t c' t', (t < dt)%nat -> (t' < dt)%nat -> Nat.eqb (c * dt + t) (c' * dt + t') = (Nat.eqb c c' && Nat.eqb t t')%bool).
  { clear. intros c t c' t' H H'. destruct (Nat.eqb_spec c c') as [->|N]; cbn [andb].
    - destruct (Nat.eqb_spec t t'); [subst; apply Nat.eqb_refl|apply Nat.eqb_neq; lia].
    - apply Nat.eqb_neq. intros E. apply N. nia. }
  rewrite !X by assumption. destruct (Nat.eqb_spec ci c0) as [->|N1]; cbn [andb].
  - destruct (Nat.eqb_spec c0 cj) as [<-|N2]; cbn [andb]; rewrite ?Nat.eqb_refl; cbn [andb]; [reflexivity|].
    destruct (Nat.eqb_spec cj c0); [congruence|]. cbn [andb]. destruct (Nat.eqb ti a), (Nat.eqb ti b); reflexivity.
  - destruct (Nat.eqb_spec ci cj); cbn [andb]; reflexivity.
Qed.
Lemma on0_maps A c s c' t : (c < dc)%nat -> (c' < dc)%nat -> (t < dt)%nat -> maps_ket dc A c s c' -> maps_ket n (mkron dt A mid) (c * dt + t) s (c' * dt + t).
Proof.
  intros Hc Hc' Ht H. rewrite maps_col in * by (try apply idx_lt; assumption). intros k Hk. unfold mkron.
  rewrite Nat.div_add_l, (Nat.div_small t dt), Nat.add_0_r by lia. rewrite (Nat.add_comm (c * dt) t), Nat.mod_add, (Nat.mod_small t dt) by lia.
  assert (K : (k / dt < dc)%nat) by (apply Nat.div_lt_upper_bound; lia). rewrite H by exact K. unfold mid.
  assert (D := Nat.div_mod k dt ltac:(lia)). assert (M := Nat.mod_upper_bound k dt ltac:(lia)).
  destruct (Nat.eqb_spec k (c' * dt + t)) as [->|N].
  - rewrite Nat.div_add_l, (Nat.div_small t dt), Nat.add_0_r by lia. rewrite (Nat.add_comm (c' * dt) t), Nat.mod_add, (Nat.mod_small t dt) by lia.
    rewrite !Nat.eqb_refl. ring.
  - destruct (Nat.eqb_spec (k / dt) c') as [E1|]; [|ring]. destruct (Nat.eqb_spec (k mod dt) t) as [E2|]; [|ring].
    exfalso. apply N. rewrite D, E1, E2. lia.
Qed.
Lemma on1_maps A c t s t' : (c < dc)%nat -> (t < dt)%nat -> (t' < dt)%nat -> maps_ket dt A t s t' -> maps_ket n (mkron dt mid A) (c * dt + t) s (c * dt + t').
Proof.
  intros Hc Ht Ht' H. rewrite maps_col in * by (try apply idx_lt; assumption). intros k Hk. unfold mkron.
  rewrite Nat.div_add_l, (Nat.div_small t dt), Nat.add_0_r by lia. rewrite (Nat.add_comm (c * dt) t), Nat.mod_add, (Nat.mod_small t dt) by lia.
  assert (M := Nat.mod_upper_bound k dt ltac:(lia)). rewrite H by exact M. unfold mid.
  assert (D := Nat.div_mod k dt ltac:(lia)).
  destruct (Nat.eqb_spec k (c * dt + t')) as [->|N].
  - rewrite Nat.div_add_l, (Nat.div_small t' dt), Nat.add_0_r by lia. rewrite (Nat.add_comm (c * dt) t'), Nat.mod_add, (Nat.mod_small t' dt) by lia.
    rewrite !Nat.eqb_refl. ring.
  - destruct (Nat.eqb_spec (k / dt) c) as [E1|]; [|ring]. destruct (Nat.eqb_spec (k mod dt) t') as [E2|]; [|ring].
    exfalso. apply N. rewrite D, E1, E2. lia.
Qed.

Lemma cex_blk : meq n (the (cex_array dc dt true (Cex 0 1 1 0))) (blk (fun c => if Nat.eqb c 1 then rotation 0 1 PI 0 else mid)).
Proof.
  destruct (cex_returns dc dt true (Cex 0 1 1 0)) as (M & E); [cbn; lia|]. rewrite E. cbn [the].
  eapply meq_trans; [apply (cex_fmat dc dt true _ M ltac:(lia) ltac:(lia) E)|]. apply blk_ext. intros c Hc. cbn [cx_ctrl cx_a cx_b cx_phi].
  destruct (Nat.eqb_spec c 1) as [->|N]; [|destruct (Z.eqb_spec (Z.of_nat c) 1); [lia|apply meq_refl]].
  cbn [Z.of_nat Z.eqb]. apply cex_op_rotation. lia.
Qed.

(** The matrix of a block of gates, in the order of the lines. *)
Definition bmat (l : list egate) : mat := chain n (map (tracked dc dt true) l).
Lemma bmat_app l1 l2 : meq n (bmat (l1 ++ l2)) (mmul n (bmat l2) (bmat l1)).
Proof. unfold bmat. rewrite map_app. apply chain_app. Qed.

Lemma targ_tracked k A : meq dt (kind_matrix dt k) A -> meq n (tracked dc dt true (on_targ k)) (blk (fun _ => A)).
Proof. intros H. cbn [tracked on_targ flagged]. eapply meq_trans; [apply mkron_ext; [apply meq_refl|exact H]|]. apply on1_blk. Qed.

Lemma crot_101_matrix t f : meq n (bmat (crot_101 t f)) (rotation dt (dt + 1) t f).
Proof.
  unfold bmat, crot_101. cbn [map].
  set (R1 := fun (_ : nat) => rotation 0 1 (PI / 2) (f - PI / 2)).
  set (X := fun c : nat => if Nat.eqb c 1 then rotation 0 1 PI 0 else mid).
  set (V1 := fun (_ : nat) => tl 0 1 (m_v (- PI))). set (Z1 := fun (_ : nat) => zrot 0 1 (- t / 2)).
  set (Z2 := fun (_ : nat) => zrot 0 1 (t / 2)). set (V2 := fun (_ : nat) => tl 0 1 (m_v PI)).
  set (R2 := fun (_ : nat) => rotation 0 1 (- PI / 2) (f - PI / 2)).
  eapply meq_trans with (B := chain n (map (fun F => blk F) [R1; X; V1; Z1; X; Z2; V2; R2])).
  { apply chain_ext. rewrite Ropp_involutive. repeat constructor; try (apply targ_tracked); try apply cex_blk; unfold V1, V2, tl, m_v; cbn [m00 m01 m10 m11].
    - apply (kr_rotation dt 0 1); lia.
    - apply kv_two_level. lia.
    - apply (krz_zrot dt 0 1); lia.
    - apply (krz_zrot dt 0 1); lia.
    - apply kv_two_level. lia.
    - apply (kr_rotation dt 0 1); lia. }
  eapply meq_trans; [apply blk_chain|]. 
  eapply meq_trans; [|replace (rotation dt (dt + 1) t f) with (rotation (1 * dt + 0) (1 * dt + 1) t f) by (f_equal; lia); unfold rotation; apply blk_two_level; lia]. apply blk_ext. intros c Hc. cbn [map]. unfold X.
  destruct (Nat.eqb_spec c 1) as [->|N].
  - change (meq dt (chain dt (map (tl 0 1) [m_rot (PI / 2) (f - PI / 2); m_rot PI 0; m_v (- PI); m_z (- t / 2); m_rot PI 0; m_z (t / 2); m_v PI; m_rot (- PI / 2) (f - PI / 2)])) (tl 0 1 (m_rot t f))).
    eapply meq_trans; [apply tl_chain; lia|]. rewrite crot_on. apply meq_refl.
  - eapply meq_trans with (B := chain dt (map (tl 0 1) [m_rot (PI / 2) (f - PI / 2); m2id; m_v (- PI); m_z (- t / 2); m2id; m_z (t / 2); m_v PI; m_rot (- PI / 2) (f - PI / 2)])).
    { apply chain_ext. repeat constructor; try apply meq_refl; apply meq_sym, two_level_id. }
    eapply meq_trans; [apply tl_chain; lia|]. rewrite crot_off. apply two_level_id.
Qed.
End Pair.
