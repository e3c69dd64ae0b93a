(** Proofs about the noise channels. *)
From Coq Require Import Reals Lra Lia Bool.
From Verif.Base Require Import Py PyFacts Cplx Matrix.
From Verif.Gates Require Import AnglesModel AnglesProofs SingleModel SingleSpec SingleProofs.
From Verif.Noise Require Import NoiseModel NoiseSpec InsertModel InsertSpec InsertProofs ChannelSpec.
Local Open Scope list_scope.
Local Open Scope C_scope.

Lemma conjugate_ext d K K' r r' : meq d K K' -> meq d r r' -> meq d (conjugate d K r) (conjugate d K' r').
Proof. intros H1 H2. unfold conjugate. apply mmul_ext; [apply mmul_ext; assumption|now apply madj_ext]. Qed.
Lemma conjugate_diag d f r i j : (i < d)%nat -> (j < d)%nat -> conjugate d (mdiag f) r i j = f i * Cconj (f j) * r i j.
Proof.
  intros Hi Hj. unfold conjugate.
  rewrite (mmul_ext d _ (fun i j => f i * r i j) _ (mdiag (fun i => Cconj (f i))) (mdiag_mul_l d f r) (mdiag_adj d f) i j Hi Hj).
  rewrite (mdiag_mul_r d _ _ i j Hi Hj). ring.
Qed.
Lemma pmat_mul_l d f r i j : (forall x, (x < d)%nat -> (f x < d)%nat) -> (forall x y, (x < d)%nat -> (y < d)%nat -> f x = f y -> x = y) ->
  (i < d)%nat -> mmul d (pmat f) r (f i) j = r i j.
Proof.
  intros F I Hi. unfold mmul. rewrite (csum_single d _ i Hi).
  - unfold pmat. rewrite Nat.eqb_refl. ring.
  - intros k Hk N. unfold pmat. destruct (Nat.eqb_spec (f i) (f k)) as [E|]; [exfalso; apply N; symmetry; now apply I|ring].
Qed.
Lemma pmat_mul_adj_r d f r i j : (forall x, (x < d)%nat -> (f x < d)%nat) -> (forall x y, (x < d)%nat -> (y < d)%nat -> f x = f y -> x = y) ->
  (j < d)%nat -> mmul d r (madj (pmat f)) i (f j) = r i j.
Proof.
  intros F I Hj. unfold mmul, madj. rewrite (csum_single d _ j Hj).
  - unfold pmat. rewrite Nat.eqb_refl, Cconj_C1. ring.
  - intros k Hk N. unfold pmat. destruct (Nat.eqb_spec (f j) (f k)) as [E|]; [exfalso; apply N; symmetry; now apply I|rewrite Cconj_C0; ring].
Qed.
Lemma conjugate_pmat d f r i j : (forall x, (x < d)%nat -> (f x < d)%nat) -> (forall x y, (x < d)%nat -> (y < d)%nat -> f x = f y -> x = y) ->
  (i < d)%nat -> (j < d)%nat -> conjugate d (pmat f) r (f i) (f j) = r i j.
Proof. intros F I Hi Hj. unfold conjugate. rewrite pmat_mul_adj_r by assumption. now apply pmat_mul_l. Qed.

Lemma evolve_app d l1 l2 r : evolve d (l1 ++ l2) r = evolve d l2 (evolve d l1 r).
Proof. unfold evolve. apply fold_left_app. Qed.
Lemma evolve_ext d l : forall r r', meq d r r' -> meq d (evolve d l r) (evolve d l r').
Proof. induction l as [|i l IH]; intros r r' H; [exact H|]. cbn. apply IH. apply conjugate_ext; [apply meq_refl|exact H]. Qed.
Lemma evolve_z d q n : forall r i j, (i < d)%nat -> (j < d)%nat ->
  evolve d (repeat (IZ q) n) r i j = Cpow (Cpow (omega d) i * Cconj (Cpow (omega d) j)) n * r i j.
Proof.
  induction n as [|n IH]; intros r i j Hi Hj; [cbn; ring|]. cbn [repeat]. unfold evolve in *. cbn [fold_left]. rewrite IH by assumption. cbn [ins_matrix].
  rewrite (conjugate_ext d _ _ r r (z_array_diag d) (meq_refl d r) i j Hi Hj), conjugate_diag by assumption. cbn [Cpow]. ring.
Qed.
Lemma evolve_x d q n : forall r i j, (i < d)%nat -> (j < d)%nat -> evolve d (repeat (IX q) n) r ((i + n) mod d) ((j + n) mod d) = r i j.
Proof.
  induction n as [|n IH]; intros r i j Hi Hj; [rewrite !Nat.add_0_r, !Nat.mod_small by assumption; reflexivity|]. cbn [repeat]. unfold evolve in *. cbn [fold_left].
  assert (Hd : d <> 0%nat) by lia.
  replace ((i + S n) mod d)%nat with (((i + 1) mod d + n) mod d)%nat by (rewrite Nat.add_mod_idemp_l by exact Hd; f_equal; lia).
  replace ((j + S n) mod d)%nat with (((j + 1) mod d + n) mod d)%nat by (rewrite Nat.add_mod_idemp_l by exact Hd; f_equal; lia).
  rewrite IH by (apply Nat.mod_upper_bound; exact Hd). cbn [ins_matrix].
  rewrite (conjugate_ext d _ _ r r (x_array_pmat d) (meq_refl d r)) by (apply Nat.mod_upper_bound; exact Hd).
  apply (conjugate_pmat d (fun j => ((j + 1) mod d)%nat) r i j); [|apply mod_succ_inj|exact Hi|exact Hj].
  intros x _. apply Nat.mod_upper_bound. exact Hd.
Qed.
Lemma csum_bij d g h f : (forall a, (a < d)%nat -> (g a < d)%nat) -> (forall k, (k < d)%nat -> (h k < d)%nat /\ g (h k) = k) ->
  (forall a, (a < d)%nat -> h (g a) = a) -> csum d (fun a => f (g a)) = csum d f.
Proof.
  intros G H K.
  rewrite (csum_ext d (fun a => f (g a)) (fun a => csum d (fun k => mid (g a) k * f k))) by (intros a Ha; rewrite csum_mid_l by (apply G; exact Ha); reflexivity).
  rewrite csum_swap. apply csum_ext. intros k Hk. destruct (H k Hk) as [H1 H2]. rewrite (csum_single d _ (h k) H1).
  - rewrite H2. unfold mid. rewrite Nat.eqb_refl. ring.
  - intros i Hi N. unfold mid. destruct (Nat.eqb_spec (g i) k) as [E|]; [|ring]. exfalso. apply N. rewrite <- E. symmetry. now apply K.
Qed.
Lemma phase_sum d i j : (i < d)%nat -> (j < d)%nat -> csum d (fun b => Cpow (Cpow (omega d) i * Cconj (Cpow (omega d) j)) b) = if Nat.eqb i j then RtoC (INR d) else C0.
Proof.
  intros Hi Hj. assert (U : forall n, Cpow (omega d) n * Cconj (Cpow (omega d) n) = C1) by (intros n; rewrite Cmul_conj, Cnorm2_omega_pow; apply RtoC_1).
  assert (Hd : d <> 0%nat) by lia. destruct (Nat.eqb_spec i j) as [->|N].
  - rewrite U. rewrite (csum_ext d _ (fun _ => C1)) by (intros; apply Cpow_1). rewrite csum_const. ring.
  - apply geo_sum_root.
    + assert (P : forall n x y, Cpow (x * y) n = Cpow x n * Cpow y n) by (induction n as [|n IH]; intros x y; cbn; [ring|rewrite IH; ring]).
      assert (Q : forall n x, Cpow (Cconj x) n = Cconj (Cpow x n)) by (induction n as [|n IH]; intros x; cbn; [now rewrite Cconj_C1|rewrite IH, Cconj_mul; reflexivity]).
      rewrite P, Q, <- !Cpow_mul, (Nat.mul_comm i d), (Nat.mul_comm j d), !Cpow_mul, omega_pow_d, !Cpow_1, Cconj_C1 by exact Hd. ring.
    + intros E. assert (E2 : Cpow (omega d) i = Cpow (omega d) j).
      { transitivity (Cpow (omega d) i * Cconj (Cpow (omega d) j) * Cpow (omega d) j); [|rewrite E; ring].
        transitivity (Cpow (omega d) i * (Cpow (omega d) j * Cconj (Cpow (omega d) j))); [rewrite U; ring|ring]. }
      assert (K : forall a b, (a < b < d)%nat -> Cpow (omega d) a <> Cpow (omega d) b).
      { intros a b H X. apply (omega_pow_neq d (b - a)); [lia|].
        transitivity (Cconj (Cpow (omega d) a) * Cpow (omega d) a * Cpow (omega d) (b - a)).
        - transitivity (Cpow (omega d) a * Cconj (Cpow (omega d) a) * Cpow (omega d) (b - a)); [rewrite U; ring|ring].
        - transitivity (Cconj (Cpow (omega d) a) * (Cpow (omega d) a * Cpow (omega d) (b - a))); [ring|]. rewrite <- Cpow_add. replace (a + (b - a))%nat with b by lia. rewrite <- X.
          transitivity (Cpow (omega d) a * Cconj (Cpow (omega d) a)); [ring|apply U]. }
      destruct (Nat.lt_ge_cases i j); [apply (K i j); [lia|exact E2]|apply (K j i); [lia|now symmetry]].
Qed.
Lemma weyl_sum d q r i j : (i < d)%nat -> (j < d)%nat ->
  csum (d * d) (fun o => evolve d (repeat (IX q) (o / d) ++ repeat (IZ q) (o mod d)) r i j) = if Nat.eqb i j then RtoC (INR d) * trace d r else C0.
Proof.
  intros Hi Hj. assert (Hd : d <> 0%nat) by lia. rewrite csum_prod.
  rewrite (csum_ext d _ (fun a => (if Nat.eqb i j then RtoC (INR d) else C0) * evolve d (repeat (IX q) a) r i j)).
  2:{ intros a Ha. rewrite <- (phase_sum d i j Hi Hj), <- csum_mul_r. apply csum_ext. intros b Hb.
      replace ((a * d + b) / d)%nat with a by (rewrite Nat.add_comm, Nat.div_add, Nat.div_small by assumption; lia).
      replace ((a * d + b) mod d)%nat with b by (rewrite Nat.add_comm, Nat.mod_add, Nat.mod_small by assumption; lia).
      rewrite evolve_app, evolve_z by assumption. reflexivity. }
  rewrite csum_mul_l. destruct (Nat.eqb_spec i j) as [->|N]; [|ring]. f_equal. unfold trace.
  rewrite <- (csum_bij d (fun a => (j + (d - a)) mod d)%nat (fun k => (j + (d - k)) mod d)%nat (fun x => r x x)).
  - apply csum_ext. intros a Ha. rewrite <- (evolve_x d q a r ((j + (d - a)) mod d) ((j + (d - a)) mod d)) by (apply Nat.mod_upper_bound; exact Hd).
    rewrite Nat.add_mod_idemp_l by exact Hd. replace (j + (d - a) + a)%nat with (j + 1 * d)%nat by lia. rewrite Nat.mod_add, Nat.mod_small by assumption. reflexivity.
  - intros a Ha. apply Nat.mod_upper_bound. exact Hd.
  - assert (I : forall k, (k < d)%nat -> ((j + (d - (j + (d - k)) mod d)) mod d = k)%nat).
    { intros k Hk. destruct (Nat.lt_ge_cases (j + (d - k)) d) as [L|L].
      - rewrite (Nat.mod_small (j + (d - k))) by exact L. replace (j + (d - (j + (d - k))))%nat with k by lia. now apply Nat.mod_small.
      - replace (j + (d - k))%nat with (j - k + 1 * d)%nat by lia. rewrite Nat.mod_add, (Nat.mod_small (j - k)) by lia.
        replace (j + (d - (j - k)))%nat with (k + 1 * d)%nat by lia. rewrite Nat.mod_add by lia. now apply Nat.mod_small. }
    intros k Hk. split; [apply Nat.mod_upper_bound; exact Hd|now apply I].
  - intros k Hk. destruct (Nat.lt_ge_cases (j + (d - k)) d) as [L|L].
      + rewrite (Nat.mod_small (j + (d - k))) by exact L. replace (j + (d - (j + (d - k))))%nat with k by lia. now apply Nat.mod_small.
      + replace (j + (d - k))%nat with (j - k + 1 * d)%nat by lia. rewrite Nat.mod_add, (Nat.mod_small (j - k)) by lia.
        replace (j + (d - (j - k)))%nat with (k + 1 * d)%nat by lia. rewrite Nat.mod_add by lia. now apply Nat.mod_small.
Qed.
Lemma math_outcome dims q d n o k out k' : pyindex dims q = Ok d -> math_dit (fun _ _ => o) dims n q k = Ok (out, k') ->
  out = repeat (IX q) (o / d) ++ repeat (IZ q) (o mod d).
Proof.
  unfold math_dit. intros ->. destruct d as [|d]; [discriminate|]. intros H. apply bind_inv in H. destruct H as (i & j & C & H).
  unfold choice in C. destruct (any_negative _); [discriminate|]. injection C as <- _. unfold ret in H. congruence.
Qed.
Lemma nth_repeat_lt (p : R) n i : (i < n)%nat -> nth i (repeat p n) 0%R = p.
Proof. revert i. induction n as [|n IH]; intros [|i] H; cbn; try lia; [reflexivity|apply IH; lia]. Qed.
Lemma math_channel dims q d n outs rho : pyindex dims q = Ok d -> (0 < d)%nat ->
  (forall o, (o < d * d)%nat -> exists k', math_dit (fun _ _ => o) dims n q 0%nat = Ok (outs o, k')) ->
  meq d (mixture d (d * d) (math_probs (p_depol n) d) outs rho) (depolarized d (p_depol n) rho).
Proof.
  intros E Hd O i j Hi Hj. unfold mixture, depolarized. set (p := p_depol n) in *. assert (Hr : (0 < INR d)%R) by now apply lt_0_INR.
  assert (Ex : exists e, e = (p / INR d / INR d)%R) by eauto. destruct Ex as (e & De).
  assert (N : exists m, (d * d = S m)%nat) by (exists (d * d - 1)%nat; nia). destruct N as (m & Em).
  set (ev := fun o => evolve d (repeat (IX q) (o / d) ++ repeat (IZ q) (o mod d)) rho i j).
  rewrite (csum_ext _ _ (fun o => RtoC (1 - p) * (mid 0%nat o * ev o) + RtoC e * ev o)).
  - rewrite csum_add, !csum_mul_l, csum_mid_l by nia. unfold ev at 2. rewrite weyl_sum by assumption. unfold ev.
    replace (0 / d)%nat with 0%nat by (symmetry; apply Nat.div_small; lia). replace (0 mod d)%nat with 0%nat by (symmetry; apply Nat.mod_small; lia). cbn [repeat app evolve fold_left].
    f_equal. destruct (Nat.eqb i j); [|ring]. transitivity (RtoC e * RtoC (INR d) * trace d rho); [ring|]. rewrite <- RtoC_mul. f_equal. f_equal. rewrite De. field. lra.
  - intros o Ho. destruct (O o Ho) as (k' & Q). apply (math_outcome dims q d n o 0%nat (outs o) k' E) in Q. rewrite Q. fold (ev o).
    assert (W : nth o (math_probs p d) 0%R = if Nat.eqb 0%nat o then (1 - p + e)%R else e).
    { unfold math_probs. cbv zeta. rewrite <- De. destruct o as [|o]; cbn [nth Nat.eqb].
      - rewrite minus_INR by nia. rewrite mult_INR. cbn [INR]. rewrite De. field. lra.
      - apply nth_repeat_lt. lia. }
    rewrite W. unfold mid. destruct (Nat.eqb 0%nat o); [rewrite RtoC_add; ring|ring].
Qed.

(** *** two levels *)
Lemma two_level_mul_l d a b x y z w r i j : (a < d)%nat -> (b < d)%nat -> a <> b -> (i < d)%nat ->
  mmul d (two_level a b x y z w) r i j = if Nat.eqb i a then x * r a j + y * r b j else if Nat.eqb i b then z * r a j + w * r b j else r i j.
Proof.
  intros Ha Hb N Hi. unfold mmul, two_level. destruct (Nat.eqb_spec i a) as [->|Na].
  - rewrite (csum_pair d _ a b Ha Hb N).
    + rewrite Nat.eqb_refl. destruct (Nat.eqb_spec b a); [congruence|]. rewrite Nat.eqb_refl. reflexivity.
    + intros k Hk Ka Kb. destruct (Nat.eqb_spec k a); [congruence|]. destruct (Nat.eqb_spec k b); [congruence|]. ring.
  - destruct (Nat.eqb_spec i b) as [->|Nb].
    + rewrite (csum_pair d _ a b Ha Hb N).
      * rewrite Nat.eqb_refl. destruct (Nat.eqb_spec b a); [congruence|]. rewrite Nat.eqb_refl. reflexivity.
      * intros k Hk Ka Kb. destruct (Nat.eqb_spec k a); [congruence|]. destruct (Nat.eqb_spec k b); [congruence|]. ring.
    + apply (csum_mid_l d i (fun k => r k j) Hi).
Qed.
Lemma two_level_mul_r d a b x y z w r i j : (a < d)%nat -> (b < d)%nat -> a <> b -> (j < d)%nat ->
  mmul d r (madj (two_level a b x y z w)) i j = if Nat.eqb j a then r i a * Cconj x + r i b * Cconj y else if Nat.eqb j b then r i a * Cconj z + r i b * Cconj w else r i j.
Proof.
  intros Ha Hb N Hj. unfold mmul, madj, two_level. destruct (Nat.eqb_spec j a) as [->|Na].
  - rewrite (csum_pair d _ a b Ha Hb N).
    + rewrite Nat.eqb_refl. destruct (Nat.eqb_spec b a); [congruence|]. rewrite Nat.eqb_refl. reflexivity.
    + intros k Hk Ka Kb. destruct (Nat.eqb_spec k a); [congruence|]. destruct (Nat.eqb_spec k b); [congruence|]. rewrite Cconj_C0. ring.
  - destruct (Nat.eqb_spec j b) as [->|Nb].
    + rewrite (csum_pair d _ a b Ha Hb N).
      * rewrite Nat.eqb_refl. destruct (Nat.eqb_spec b a); [congruence|]. rewrite Nat.eqb_refl. reflexivity.
      * intros k Hk Ka Kb. destruct (Nat.eqb_spec k a); [congruence|]. destruct (Nat.eqb_spec k b); [congruence|]. rewrite Cconj_C0. ring.
    + rewrite <- (csum_mid_r d j (fun k => r i k) Hj) at 1. apply csum_ext. intros k Hk. unfold mid. rewrite (Nat.eqb_sym j k). destruct (Nat.eqb k j); rewrite ?Cconj_C1, ?Cconj_C0; reflexivity.
Qed.
Lemma noisez_two_level d a b : (a < d)%nat -> (b < d)%nat -> a <> b -> meq d (virtrz_matrix d (PList [PInt (Z.of_nat b); PFloat PI])) (two_level a b C1 C0 C0 (- C1)).
Proof.
  intros Ha Hb N i j Hi Hj. rewrite (virtrz_matrix_spec d (Z.of_nat b) PI) by lia. rewrite Nat2Z.id, cis_neg, cis_PI. unfold mdiag, two_level, mid.
  destruct (Nat.eqb_spec i j), (Nat.eqb_spec i a), (Nat.eqb_spec i b), (Nat.eqb_spec j a), (Nat.eqb_spec j b); subst; try congruence; try lia; try reflexivity; apply Ceq; cbn; ring.
Qed.
Lemma sub_channel d q a b n outs rho : (0 <= a < Z.of_nat d)%Z -> (0 <= b < Z.of_nat d)%Z -> a <> b ->
  (forall o, (o < 4)%nat -> exists k', sub_pair (fun _ _ => o) d q ((a, b), n) 0%nat = Ok (outs o, k')) ->
  supported_on d (Z.to_nat a) (Z.to_nat b) rho ->
  meq d (mixture d 4 (sub_probs (p_depol n)) outs rho) (depolarized_pair (Z.to_nat a) (Z.to_nat b) (p_depol n) rho).
Proof.
  intros Ha Hb N O S i j Hi Hj.
  assert (Oo : outs 0%nat = [] /\ outs 1%nat = [INoiseZ q b] /\ outs 2%nat = [INoiseX q a b] /\ outs 3%nat = [INoiseY q a b]).
  { assert (G : forall o, (o < 4)%nat -> outs o = match o with 0%nat => [] | 1%nat => [INoiseZ q b] | 2%nat => [INoiseX q a b] | _ => [INoiseY q a b] end).
    { intros o Ho. destruct (O o Ho) as (k' & Q). cbn [sub_pair] in Q. destruct (negb _); [discriminate|]. apply bind_inv in Q. destruct Q as (c & k1 & C & Q).
      unfold choice in C. destruct (any_negative _); [discriminate|]. injection C as <- _.
      destruct o as [|[|[|[|o]]]]; [| | | |lia]; try (destruct (check_levels d a b); [|discriminate]); unfold ret in Q; congruence. }
    split; [apply (G 0%nat); lia|]. split; [apply (G 1%nat); lia|]. split; [apply (G 2%nat); lia|apply (G 3%nat); lia]. }
  destruct Oo as (O0 & O1 & O2 & O3). unfold mixture. cbn [csum]. rewrite O0, O1, O2, O3. unfold evolve. cbn [fold_left ins_matrix].
  assert (Eb : b = Z.of_nat (Z.to_nat b)) by lia. rewrite Eb at 1. assert (Ea : (Z.to_nat a < d)%nat) by lia. assert (Eb' : (Z.to_nat b < d)%nat) by lia. assert (En : Z.to_nat a <> Z.to_nat b) by lia.
  set (A := Z.to_nat a) in *. set (B := Z.to_nat b) in *. clearbody A B. clear - Ea Eb' En S Hi Hj. rename Eb' into Eb. set (p := p_depol n). clearbody p.
  rewrite (conjugate_ext d _ _ rho rho (noisez_two_level d A B Ea Eb En) (meq_refl d rho) i j Hi Hj).
  rewrite (conjugate_ext d _ _ rho rho (noisex_two_level d A B En) (meq_refl d rho) i j Hi Hj).
  rewrite (conjugate_ext d _ _ rho rho (noisey_two_level d A B En) (meq_refl d rho) i j Hi Hj).
  unfold conjugate. rewrite !two_level_mul_r, !two_level_mul_l by assumption. unfold depolarized_pair, sub_probs. cbn [nth repeat].
  assert (Z1 : forall x y, (x < d)%nat -> (y < d)%nat -> x <> A -> x <> B -> rho x y = C0) by (intros; apply S; auto).
  assert (Z2 : forall x y, (x < d)%nat -> (y < d)%nat -> y <> A -> y <> B -> rho x y = C0) by (intros; apply S; auto).
  assert (X1 : forall u, RtoC (1 - 3 * (p / 4)) * u = u - RtoC p * RtoC (3 / 4) * u) by (intros u; apply Ceq; cbn; field).
  assert (X2 : RtoC (p / 4) = RtoC p * RtoC (1 / 4)) by (apply Ceq; cbn; field).
  assert (X3 : RtoC (p / 2) = RtoC p * RtoC (1 / 2)) by (apply Ceq; cbn; field).
  assert (X4 : forall u, RtoC (1 - p) * u = u - RtoC p * u) by (intros u; apply Ceq; cbn; ring).
  destruct (Nat.eqb_spec i A) as [->|IA].
  - destruct (Nat.eqb_spec j A) as [->|JA].
    + rewrite !Nat.eqb_refl. apply Ceq; cbn; field.
    + destruct (Nat.eqb_spec j B) as [->|JB].
      * rewrite ?Nat.eqb_refl. destruct (Nat.eqb_spec A B); [congruence|]. rewrite ?Nat.eqb_refl. destruct (Nat.eqb_spec B A); [congruence|]. apply Ceq; cbn; field.
      * rewrite ?Nat.eqb_refl. destruct (Nat.eqb_spec A j); [congruence|]. rewrite (Z2 A j), (Z2 B j) by assumption. apply Ceq; cbn; field.
  - destruct (Nat.eqb_spec i B) as [->|IB].
    + destruct (Nat.eqb_spec j A) as [->|JA].
      * rewrite ?Nat.eqb_refl. destruct (Nat.eqb_spec B A); [congruence|]. rewrite ?Nat.eqb_refl. apply Ceq; cbn; field.
      * destruct (Nat.eqb_spec j B) as [->|JB].
        -- rewrite ?Nat.eqb_refl. destruct (Nat.eqb_spec B A); [congruence|]. rewrite ?Nat.eqb_refl. apply Ceq; cbn; field.
        -- destruct (Nat.eqb_spec B A); [congruence|]. rewrite ?Nat.eqb_refl. destruct (Nat.eqb_spec B j); [congruence|]. rewrite (Z2 A j), (Z2 B j) by assumption. apply Ceq; cbn; field.
    + rewrite (Z1 i A), (Z1 i B), (Z1 i j) by assumption. rewrite andb_false_r. destruct (Nat.eqb j A), (Nat.eqb j B); apply Ceq; cbn; field.
Qed.

(** *** one level *)
Lemma dephase_channel d q l n outs rho : (0 <= l < Z.of_nat d)%Z ->
  (forall o, (o < 2)%nat -> exists k', dephase_level (fun _ _ => o) q n l 0%nat = Ok (outs o, k')) ->
  meq d (mixture d 2 [p_deph n; (1 - p_deph n)%R] outs rho) (dephased (Z.to_nat l) (p_deph n) rho).
Proof.
  intros L O i j Hi Hj.
  assert (Oo : outs 0%nat = [INoiseZ q l] /\ outs 1%nat = []).
  { assert (G : forall o, (o < 2)%nat -> outs o = match o with 0%nat => [INoiseZ q l] | _ => [] end).
    { intros o Ho. destruct (O o Ho) as (k' & Q). unfold dephase_level in Q. apply bind_inv in Q. destruct Q as (c & k1 & C & Q).
      unfold choice in C. destruct (any_negative _); [discriminate|]. injection C as <- _. unfold ret in Q. destruct o; congruence. }
    split; [apply (G 0%nat); lia|apply (G 1%nat); lia]. }
  destruct Oo as (O0 & O1). unfold mixture. cbn [csum]. rewrite O0, O1. unfold evolve. cbn [fold_left ins_matrix nth].
  rewrite (conjugate_ext d _ _ rho rho (virtrz_matrix_spec d l PI L) (meq_refl d rho) i j Hi Hj), conjugate_diag by assumption. rewrite cis_neg, cis_PI. unfold dephased.
  destruct (Nat.eqb i (Z.to_nat l)), (Nat.eqb j (Z.to_nat l)); cbn [Bool.eqb]; apply Ceq; cbn; ring.
Qed.
