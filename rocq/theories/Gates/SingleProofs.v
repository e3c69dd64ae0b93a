From Coq Require Import Reals Lra Lia List Arith ZArith.
From Verif Require Import Base.Py Base.Cplx Base.Matrix.
From Verif Require Import Gates.AnglesModel Gates.AnglesSpec Gates.AnglesProofs Gates.SingleModel Gates.SingleSpec.
Open Scope R_scope.
Open Scope C_scope.

Ltac eqb_cases := repeat match goal with
  | |- context [Nat.eqb ?a ?b] => destruct (Nat.eqb_spec a b); subst
  end; try congruence; try lia.

(** *** generic *)
Lemma msum_outer_diag d f i j : (i < d)%nat -> (j < d)%nat ->
  msum d (fun k => mscal (f k) (outer (ket k) (ket k))) i j = mdiag f i j.
Proof.
  intros Hi Hj. unfold msum. rewrite (csum_single d _ i Hi).
  - unfold mscal, outer, ket, mdiag. rewrite Nat.eqb_refl. eqb_cases; ring.
  - intros k Hk Hne. unfold mscal, outer, ket. eqb_cases; ring.
Qed.

Lemma cis_same_mod s t : same_mod (2 * PI) s t -> cis s = cis t.
Proof. intros (k & ->). rewrite cis_add, cis_2PI_Z. ring. Qed.

Lemma INR_pos d : (d <> 0)%nat -> 0 < INR d.
Proof. intros H. apply lt_0_INR. lia. Qed.

Lemma cis_rmod2 x : cis (rmod x 2 * PI) = cis (x * PI).
Proof. apply cis_same_mod. destruct (rmod_same x 2) as (k & ->). exists k. ring. Qed.

Lemma omega_pow d n : Cpow (omega d) n = cis (INR n * (2 * PI / INR d)).
Proof. unfold omega. apply cis_pow. Qed.
Lemma omega_pow_d d : (d <> 0)%nat -> Cpow (omega d) d = C1.
Proof.
  intros H. rewrite omega_pow. replace (INR d * (2 * PI / INR d))%R with (2 * PI)%R.
  - apply cis_2PI.
  - field. apply not_0_INR. exact H.
Qed.
Lemma omega_pow_mod d n : (d <> 0)%nat -> Cpow (omega d) (n mod d) = Cpow (omega d) n.
Proof.
  intros H. rewrite (Nat.div_mod n d H) at 2. rewrite Cpow_add, Cpow_mul, omega_pow_d by exact H.
  rewrite Cpow_1. ring.
Qed.
Lemma Cnorm2_omega_pow d n : Cnorm2 (Cpow (omega d) n) = 1%R.
Proof. rewrite omega_pow. apply Cnorm2_cis. Qed.
Lemma Cpow_conj z n : Cconj (Cpow z n) = Cpow (Cconj z) n.
Proof. induction n as [|n IH]; cbn; [apply Cconj_C1|]. rewrite Cconj_mul, IH. reflexivity. Qed.

(** omega^k <> 1 for 0 < k < d *)
Lemma cis_eq_1 t : 0 < t < 2 * PI -> cis t <> C1.
Proof.
  intros Ht E. assert (Hc : cos t = 1) by (apply (f_equal fst) in E; exact E).
  pose proof (cos_2a_sin (t / 2)) as H. replace (2 * (t / 2))%R with t in H by field. rewrite Hc in H.
  assert (0 < sin (t / 2)) by (apply sin_gt_0; lra). nra.
Qed.
Lemma omega_pow_neq d k : (0 < k < d)%nat -> Cpow (omega d) k <> C1.
Proof.
  intros H. rewrite omega_pow. apply cis_eq_1.
  assert (Hd : 0 < INR d) by (apply lt_0_INR; lia).
  assert (Hk : 0 < INR k) by (apply lt_0_INR; lia).
  assert (Hkd : INR k < INR d) by (apply lt_INR; lia).
  pose proof PI_RGT_0.
  replace (INR k * (2 * PI / INR d))%R with (INR k / INR d * (2 * PI))%R by (field; lra).
  assert (0 < INR k / INR d) by (apply Rdiv_lt_0_compat; lra).
  assert (INR k / INR d < 1). { apply (Rmult_lt_reg_r (INR d)); [lra|]. unfold Rdiv. rewrite Rmult_assoc, Rinv_l; lra. }
  nra.
Qed.

(** geometric sum *)
Lemma geo_sum z n : csum n (fun k => Cpow z k) * (z - C1) = Cpow z n - C1.
Proof. induction n as [|n IH]; cbn; [ring|]. replace ((csum n (fun k => Cpow z k) + Cpow z n) * (z - C1)) with (csum n (fun k => Cpow z k) * (z - C1) + Cpow z n * (z - C1)) by ring. rewrite IH. ring. Qed.
Lemma geo_sum_root z n : Cpow z n = C1 -> z <> C1 -> csum n (fun k => Cpow z k) = C0.
Proof.
  intros H1 H2. pose proof (geo_sum z n) as H. rewrite H1 in H.
  replace (C1 - C1) with C0 in H by ring. apply Cmul_integral in H. destruct H as [H|H]; [exact H|].
  exfalso. apply H2. replace z with (z - C1 + C1) by ring. rewrite H. ring.
Qed.

(** *** X *)
Lemma x_array_entry d i j : (i < d)%nat -> (j < d)%nat ->
  x_array d i j = if Nat.eqb i ((j + 1) mod d) then C1 else C0.
Proof.
  intros Hi Hj. unfold x_array, msum. rewrite (csum_single d _ j Hj).
  - unfold outer, ket. rewrite Nat.eqb_refl. destruct (Nat.eqb _ _); ring.
  - intros k Hk Hne. unfold outer, ket. eqb_cases; ring.
Qed.

Lemma mod_succ_inj d a b : (a < d)%nat -> (b < d)%nat -> ((a + 1) mod d = (b + 1) mod d)%nat -> a = b.
Proof.
  intros Ha Hb H.
  destruct (Nat.eq_dec (a + 1) d) as [Ea|Ea]; destruct (Nat.eq_dec (b + 1) d) as [Eb|Eb]; try lia.
  - rewrite Ea, Nat.mod_same, Nat.mod_small in H by lia. lia.
  - rewrite Eb, Nat.mod_same, (Nat.mod_small (a + 1)) in H by lia. lia.
  - rewrite !Nat.mod_small in H by lia. lia.
Qed.

(** permutation-like matrices *)
Definition pmat (f : nat -> nat) : mat := fun i j => if Nat.eqb i (f j) then C1 else C0.
Lemma pmat_mul d f g : (forall j, (j < d)%nat -> (g j < d)%nat) -> meq d (mmul d (pmat f) (pmat g)) (pmat (fun j => f (g j))).
Proof.
  intros Hg i j Hi Hj. unfold mmul, pmat. rewrite (csum_single d _ (g j) (Hg j Hj)).
  - rewrite Nat.eqb_refl. ring.
  - intros k Hk Hne. eqb_cases; ring.
Qed.
Lemma pmat_adj_mul d f : (forall j, (j < d)%nat -> (f j < d)%nat) ->
  (forall a b, (a < d)%nat -> (b < d)%nat -> f a = f b -> a = b) ->
  meq d (mmul d (madj (pmat f)) (pmat f)) mid.
Proof.
  intros Hf Hinj i j Hi Hj. unfold mmul, madj, pmat, mid. rewrite (csum_single d _ (f j) (Hf j Hj)).
  - rewrite Nat.eqb_refl. destruct (Nat.eqb_spec (f j) (f i)) as [E|E].
    + apply Hinj in E; try assumption. subst. rewrite Nat.eqb_refl, Cconj_C1. ring.
    + destruct (Nat.eqb_spec i j) as [->|]; [congruence|]. rewrite Cconj_C0. ring.
  - intros k Hk Hne. destruct (Nat.eqb_spec k (f j)); [congruence|]. ring.
Qed.
(** an injective map on {0..d-1} is surjective *)
Lemma inj_surj d (f : nat -> nat) : (forall j, (j < d)%nat -> (f j < d)%nat) ->
  (forall a b, (a < d)%nat -> (b < d)%nat -> f a = f b -> a = b) ->
  forall i, (i < d)%nat -> exists j, (j < d)%nat /\ f j = i.
Proof.
  intros Hf Hinj i Hi.
  assert (Hin : In i (map f (seq 0 d))).
  { apply (NoDup_length_incl (l:=map f (seq 0 d)) (l':=seq 0 d)).
    - rewrite <- (map_id (seq 0 d)) at 1. clear -Hinj.
      assert (H : forall l, (forall x, In x l -> (x < d)%nat) -> NoDup l -> NoDup (map f l)).
      { induction l as [|a l IH]; intros Hb Hnd; cbn; [constructor|]. inversion Hnd; subst. constructor.
        - intros Hx. apply in_map_iff in Hx. destruct Hx as (y & Ey & Hy).
          apply Hinj in Ey; [subst; contradiction| |]; apply Hb; [right|left]; auto.
        - apply IH; [|assumption]. intros x Hx; apply Hb; right; exact Hx. }
      rewrite map_id. apply H; [|apply seq_NoDup]. intros x Hx. apply in_seq in Hx. lia.
    - rewrite map_length. lia.
    - intros x Hx. apply in_map_iff in Hx. destruct Hx as (y & <- & Hy). apply in_seq in Hy. apply in_seq.
      specialize (Hf y). lia.
    - apply in_seq. lia. }
  apply in_map_iff in Hin. destruct Hin as (j & E & Hj). apply in_seq in Hj. exists j. split; [lia|exact E].
Qed.
Lemma pmat_mul_adj d f : (forall j, (j < d)%nat -> (f j < d)%nat) ->
  (forall a b, (a < d)%nat -> (b < d)%nat -> f a = f b -> a = b) ->
  meq d (mmul d (pmat f) (madj (pmat f))) mid.
Proof.
  intros Hf Hinj i j Hi Hj. unfold mmul, madj, pmat, mid.
  destruct (inj_surj d f Hf Hinj j Hj) as (k & Hk & Ek). rewrite (csum_single d _ k Hk).
  - subst j. rewrite Nat.eqb_refl, Cconj_C1. destruct (Nat.eqb i (f k)); ring.
  - intros l Hl Hne. destruct (Nat.eqb_spec j (f l)) as [E|E].
    + exfalso. apply Hne. apply Hinj; congruence.
    + rewrite Cconj_C0. ring.
Qed.
Lemma pmat_unitary d f : (forall j, (j < d)%nat -> (f j < d)%nat) ->
  (forall a b, (a < d)%nat -> (b < d)%nat -> f a = f b -> a = b) -> unitary d (pmat f).
Proof. intros H1 H2. split; [apply pmat_adj_mul|apply pmat_mul_adj]; assumption. Qed.

Lemma x_array_pmat d : meq d (x_array d) (pmat (fun j => (j + 1) mod d)%nat).
Proof. intros i j Hi Hj. rewrite x_array_entry by assumption. reflexivity. Qed.
Lemma x_unitary d : unitary d (x_array d).
Proof.
  eapply unitary_ext; [apply meq_sym; apply x_array_pmat|]. apply pmat_unitary.
  - intros j Hj. apply Nat.mod_upper_bound. lia.
  - intros a b. apply mod_succ_inj.
Qed.
Lemma x_pow_pmat d n : meq d (mpow d (x_array d) n) (pmat (fun j => (j + n) mod d)%nat).
Proof.
  induction n as [|n IH].
  - intros i j Hi Hj. cbn. unfold mid, pmat. rewrite Nat.add_0_r, Nat.mod_small by exact Hj. reflexivity.
  - cbn [mpow]. eapply meq_trans; [apply mmul_ext; [apply x_array_pmat|exact IH]|].
    destruct (Nat.eq_dec d 0) as [->|Hd]; [intros i j Hi; lia|].
    eapply meq_trans; [apply pmat_mul|].
    + intros j Hj. apply Nat.mod_upper_bound. lia.
    + intros i j Hi Hj. unfold pmat. rewrite Nat.add_mod_idemp_l by exact Hd.
      replace (j + n + 1)%nat with (j + S n)%nat by lia. reflexivity.
Qed.
Lemma x_pow_d d : meq d (mpow d (x_array d) d) mid.
Proof.
  eapply meq_trans; [apply x_pow_pmat|]. intros i j Hi Hj. unfold pmat, mid.
  replace (j + d)%nat with (j + 1 * d)%nat by lia. rewrite Nat.mod_add, Nat.mod_small by lia. reflexivity.
Qed.
Lemma x_maps d j : (j < d)%nat -> maps_ket d (x_array d) j C1 ((j + 1) mod d).
Proof.
  intros Hj i Hi. rewrite mapply_ket by exact Hj. rewrite x_array_entry by assumption.
  unfold ket. destruct (Nat.eqb i ((j + 1) mod d)); ring.
Qed.

(** *** Z *)
Lemma z_array_diag d : meq d (z_array d) (mdiag (fun i => Cpow (omega d) i)).
Proof.
  intros i j Hi Hj. unfold z_array.
  rewrite (msum_outer_diag d (fun i => cis (rmod (2 * INR i / INR d) 2 * PI)) i j Hi Hj).
  unfold mdiag. destruct (Nat.eqb_spec i j); [|reflexivity].
  rewrite cis_rmod2, omega_pow. f_equal. field. apply not_0_INR. lia.
Qed.
Lemma z_unitary d : unitary d (z_array d).
Proof.
  eapply unitary_ext; [apply meq_sym; apply z_array_diag|]. apply mdiag_unitary.
  intros i Hi. apply Cnorm2_omega_pow.
Qed.
Lemma mdiag_pow d f n : meq d (mpow d (mdiag f) n) (mdiag (fun i => Cpow (f i) n)).
Proof.
  induction n as [|n IH].
  - intros i j _ _. cbn. unfold mid, mdiag. reflexivity.
  - cbn [mpow]. eapply meq_trans; [apply mmul_ext; [apply meq_refl|exact IH]|]. apply mdiag_mul.
Qed.
Lemma z_pow_d d : meq d (mpow d (z_array d) d) mid.
Proof.
  eapply meq_trans; [apply mpow_ext; apply z_array_diag|].
  eapply meq_trans; [apply mdiag_pow|]. intros i j Hi Hj. unfold mdiag, mid.
  destruct (Nat.eqb i j); [|reflexivity].
  rewrite <- Cpow_mul, Nat.mul_comm, Cpow_mul, omega_pow_d by lia. apply Cpow_1.
Qed.
Lemma zx_weyl d : meq d (mmul d (z_array d) (x_array d)) (mscal (omega d) (mmul d (x_array d) (z_array d))).
Proof.
  intros i j Hi Hj.
  rewrite (mmul_ext d _ _ _ _ (z_array_diag d) (meq_refl d (x_array d))) by assumption.
  unfold mscal. rewrite (mmul_ext d _ _ _ _ (meq_refl d (x_array d)) (z_array_diag d)) by assumption.
  rewrite mdiag_mul_l, mdiag_mul_r by assumption. rewrite x_array_entry by assumption.
  destruct (Nat.eqb_spec i ((j + 1) mod d)) as [->|]; [|ring].
  rewrite omega_pow_mod by lia. rewrite Nat.add_1_r. cbn [Cpow]. ring.
Qed.

(** *** H *)
Lemma h_array_entry d i j : (i < d)%nat -> (j < d)%nat ->
  h_array d i j = RtoC (1 / sqrt (INR d)) * Cpow (omega d) (i * j).
Proof.
  intros Hi Hj. unfold h_array. unfold mscal at 1. f_equal. unfold msum.
  rewrite (csum_single d _ i Hi).
  - rewrite (csum_single d _ j Hj).
    + unfold mscal, outer, ket. rewrite !Nat.eqb_refl. rewrite cis_rmod2, omega_pow.
      replace (2 / INR d * INR (i * j) * PI)%R with (INR (i * j) * (2 * PI / INR d))%R
        by (field; apply not_0_INR; lia). ring.
    + intros k Hk Hne. unfold mscal, outer, ket. eqb_cases; ring.
  - intros k Hk Hne. apply csum_0. intros l Hl. unfold mscal, outer, ket. eqb_cases; ring.
Qed.

(** sum_k w^(k i) conj(w^(k j)) = d [i=j] *)
Lemma fourier_orth d i j : (i < d)%nat -> (j < d)%nat ->
  csum d (fun k => Cconj (Cpow (omega d) (k * i)) * Cpow (omega d) (k * j)) =
  if Nat.eqb i j then RtoC (INR d) else C0.
Proof.
  intros Hi Hj. destruct (Nat.eqb_spec i j) as [->|Hne].
  - rewrite (csum_ext d _ (fun _ => C1)).
    + rewrite csum_const. ring.
    + intros k Hk. rewrite omega_pow. apply cis_conj_mul'.
  - rewrite (csum_ext d _ (fun k => Cpow (Cconj (Cpow (omega d) i) * Cpow (omega d) j) k)).
    + apply geo_sum_root.
      * assert (Hm : forall a b n, Cpow (a * b) n = Cpow a n * Cpow b n).
        { intros a b n. induction n as [|n IH]; cbn; [ring|]. rewrite IH. ring. }
        rewrite Hm, <- Cpow_conj, <- !Cpow_mul, (Nat.mul_comm i d), (Nat.mul_comm j d), !Cpow_mul, omega_pow_d by lia.
        rewrite !Cpow_1, Cconj_C1. ring.
      * intros E.
        assert (E' : Cpow (omega d) j = Cpow (omega d) i).
        { assert (Hu : Cpow (omega d) i * Cconj (Cpow (omega d) i) = C1) by (rewrite omega_pow; apply cis_conj_mul).
          replace (Cpow (omega d) j) with (Cpow (omega d) i * Cconj (Cpow (omega d) i) * Cpow (omega d) j) by (rewrite Hu; ring).
          replace (Cpow (omega d) i * Cconj (Cpow (omega d) i) * Cpow (omega d) j) with (Cpow (omega d) i * (Cconj (Cpow (omega d) i) * Cpow (omega d) j)) by ring.
          rewrite E. ring. }
        assert (Hlt : forall a b, (a < b)%nat -> (b < d)%nat -> Cpow (omega d) b = Cpow (omega d) a -> False).
        { intros a b Hab Hb Eab. apply (omega_pow_neq d (b - a)); [lia|].
          replace b with (a + (b - a))%nat in Eab by lia. rewrite Cpow_add in Eab.
          assert (Hu : Cconj (Cpow (omega d) a) * Cpow (omega d) a = C1) by (rewrite omega_pow; apply cis_conj_mul').
          replace (Cpow (omega d) (b - a)) with (Cconj (Cpow (omega d) a) * Cpow (omega d) a * Cpow (omega d) (b - a)) by (rewrite Hu; ring).
          replace (Cconj (Cpow (omega d) a) * Cpow (omega d) a * Cpow (omega d) (b - a)) with (Cconj (Cpow (omega d) a) * (Cpow (omega d) a * Cpow (omega d) (b - a))) by ring.
          rewrite Eab. exact Hu. }
        destruct (Nat.lt_total i j) as [H|[H|H]]; [eapply Hlt; [exact H|exact Hj|exact E']|congruence|
          eapply Hlt; [exact H|exact Hi|symmetry; exact E']].
    + intros k Hk. assert (Hm : forall a b n, Cpow (a * b) n = Cpow a n * Cpow b n).
      { intros a b n. induction n as [|n IH]; cbn; [ring|]. rewrite IH. ring. }
      rewrite Hm, <- Cpow_conj, <- !Cpow_mul, (Nat.mul_comm k i), (Nat.mul_comm k j). reflexivity.
Qed.

Lemma inv_sqrt_sq d : (d <> 0)%nat -> (1 / sqrt (INR d) * (1 / sqrt (INR d)) * INR d = 1)%R.
Proof.
  intros H. assert (Hd : 0 < INR d) by (apply INR_pos; exact H).
  assert (Hs : 0 < sqrt (INR d)) by (apply sqrt_lt_R0; exact Hd).
  assert (E : (sqrt (INR d) * sqrt (INR d))%R = INR d) by (apply sqrt_sqrt; lra).
  rewrite <- E at 3. field. lra.
Qed.

Lemma h_sym d i j : (i < d)%nat -> (j < d)%nat -> h_array d i j = h_array d j i.
Proof. intros Hi Hj. rewrite !h_array_entry by assumption. rewrite Nat.mul_comm. reflexivity. Qed.

Lemma h_unitary d : unitary d (h_array d).
Proof.
  assert (H1 : meq d (mmul d (madj (h_array d)) (h_array d)) mid).
  { intros i j Hi Hj. unfold mmul, madj.
    rewrite (csum_ext d _ (fun k => RtoC (1 / sqrt (INR d) * (1 / sqrt (INR d))) * (Cconj (Cpow (omega d) (k * i)) * Cpow (omega d) (k * j)))).
    - rewrite csum_mul_l, fourier_orth by assumption. unfold mid. destruct (Nat.eqb i j); [|ring].
      rewrite <- RtoC_mul, inv_sqrt_sq by lia. reflexivity.
    - intros k Hk. rewrite !h_array_entry by assumption. rewrite Cconj_mul, Cconj_RtoC, RtoC_mul. ring. }
  split; [exact H1|].
  intros i j Hi Hj. replace (mid i j) with (mid j i) by (unfold mid; rewrite Nat.eqb_sym; reflexivity).
  rewrite <- (H1 j i Hj Hi). unfold mmul, madj. apply csum_ext. intros k Hk.
  rewrite (h_sym d k j), (h_sym d k i) by assumption. ring.
Qed.

Lemma zh_hx d : meq d (mmul d (z_array d) (h_array d)) (mmul d (h_array d) (x_array d)).
Proof.
  intros i j Hi Hj.
  rewrite (mmul_ext d _ _ _ _ (z_array_diag d) (meq_refl d (h_array d))) by assumption.
  rewrite mdiag_mul_l by assumption. unfold mmul.
  assert (Hb : ((j + 1) mod d < d)%nat) by (apply Nat.mod_upper_bound; lia).
  rewrite (csum_single d _ ((j + 1) mod d) Hb).
  - rewrite x_array_entry, Nat.eqb_refl by assumption. rewrite !h_array_entry by assumption.
    rewrite <- (omega_pow_mod d (i * ((j + 1) mod d))) by lia.
    rewrite Nat.mul_mod_idemp_r, omega_pow_mod by lia.
    replace (i * (j + 1))%nat with (i + i * j)%nat by lia. rewrite Cpow_add. ring.
  - intros k Hk Hne. rewrite x_array_entry by assumption. destruct (Nat.eqb_spec k ((j + 1) mod d)); [congruence|ring].
Qed.

(** *** S *)
Lemma tri_even i : exists t, (i * (i + 1) = 2 * t)%nat /\ t = (i * (i + 1) / 2)%nat.
Proof.
  assert (H : Nat.even (i * (i + 1)) = true).
  { rewrite Nat.even_mul, Nat.even_add. destruct (Nat.even i); reflexivity. }
  apply Nat.even_spec in H. destruct H as (t & Ht). exists t. split; [exact Ht|].
  rewrite Ht, Nat.mul_comm, Nat.div_mul; lia.
Qed.
Lemma s_array_diag d : (d <> 2)%nat -> meq d (s_array d) (mdiag (fun i => Cpow (omega d) (i * (i + 1) / 2))).
Proof.
  intros Hd i j Hi Hj. unfold s_array. destruct (Nat.eqb_spec d 2); [congruence|].
  rewrite (msum_outer_diag d (fun i => cis (2 * PI / INR d * rmod (INR (i * (i + 1)) / 2) (INR d))) i j Hi Hj).
  unfold mdiag. destruct (Nat.eqb_spec i j); [|reflexivity].
  destruct (tri_even i) as (t & Ht & Et). rewrite <- Et, Ht, omega_pow.
  apply cis_same_mod. destruct (rmod_same (INR (2 * t) / 2) (INR d)) as (k & ->). exists k.
  rewrite mult_INR. simpl INR. field. apply not_0_INR. lia.
Qed.
Lemma s_array_2 : meq 2 (s_array 2) (mdiag (fun i => Cpow Ci i)).
Proof.
  intros i j Hi Hj. unfold s_array, mdiag. cbn [Nat.eqb].
  destruct i as [|[|i]]; [| |lia]; destruct j as [|[|j]]; try lia; cbn; try reflexivity; csolve.
Qed.
Lemma s_unitary d : unitary d (s_array d).
Proof.
  destruct (Nat.eq_dec d 2) as [->|Hd].
  - eapply unitary_ext; [apply meq_sym; apply s_array_2|]. apply mdiag_unitary.
    intros i _. induction i as [|i IH]; cbn [Cpow]; [unfold Cnorm2; cbn; ring|].
    rewrite Cnorm2_mul, IH. unfold Cnorm2; cbn. ring.
  - eapply unitary_ext; [apply meq_sym; apply s_array_diag; exact Hd|]. apply mdiag_unitary.
    intros i _. apply Cnorm2_omega_pow.
Qed.
Lemma s_x_odd d : Nat.Odd d -> 
  meq d (mmul d (s_array d) (x_array d)) (mmul d (z_array d) (mmul d (x_array d) (s_array d))).
Proof.
  intros Ho i j Hi Hj. assert (Hd2 : (d <> 2)%nat) by (intros ->; destruct Ho as (k & Hk); lia).
  rewrite (mmul_ext d _ _ _ _ (s_array_diag d Hd2) (meq_refl d (x_array d))) by assumption.
  rewrite (mmul_ext d _ _ _ _ (z_array_diag d) (mmul_ext d _ _ _ _ (meq_refl d (x_array d)) (s_array_diag d Hd2))) by assumption.
  rewrite mdiag_mul_l by assumption. rewrite mdiag_mul_l by assumption. rewrite mdiag_mul_r by assumption.
  rewrite x_array_entry by assumption.
  destruct (Nat.eqb_spec i ((j + 1) mod d)) as [E|]; [|ring].
  assert (H : Cpow (omega d) (i * (i + 1) / 2) = Cpow (omega d) i * Cpow (omega d) (j * (j + 1) / 2)).
  { destruct (Nat.eq_dec (j + 1) d) as [Ej|Ej].
    - rewrite Ej, Nat.mod_same in E by lia. subst i. cbn [Nat.mul Nat.add]. rewrite Nat.div_small by lia. cbn [Cpow].
      destruct Ho as (k & Hk). rewrite Ej. replace (j * d)%nat with (d * k * 2)%nat by nia.
      rewrite Nat.div_mul by lia. rewrite Cpow_mul, omega_pow_d, Cpow_1 by lia. ring.
    - rewrite Nat.mod_small in E by lia. subst i. rewrite <- Cpow_add. f_equal.
      destruct (tri_even j) as (t & Ht & Et). rewrite <- Et.
      replace ((j + 1) * (j + 1 + 1))%nat with ((j + 1 + t) * 2)%nat by nia. rewrite Nat.div_mul by lia. reflexivity. }
  rewrite H. ring.
Qed.

(** primality *)
Lemma In_odd_range k hi : In k (odd_range hi) <-> (3 <= k < hi)%nat /\ Nat.Odd k.
Proof.
  unfold odd_range. rewrite in_map_iff. split.
  - intros (x & <- & Hx). apply in_seq in Hx.
    pose proof (Nat.div_mod (hi - 2) 2 ltac:(lia)). pose proof (Nat.mod_upper_bound (hi - 2) 2 ltac:(lia)).
    split; [lia|]. exists (x + 1)%nat. lia.
  - intros (Hk & (m & Hm)). exists (m - 1)%nat. split; [lia|]. apply in_seq.
    pose proof (Nat.div_mod (hi - 2) 2 ltac:(lia)). pose proof (Nat.mod_upper_bound (hi - 2) 2 ltac:(lia)). lia.
Qed.
Lemma is_prime_spec n : is_prime n = true <-> prime_nat n.
Proof.
  unfold is_prime, prime_nat. destruct (Nat.ltb_spec n 2) as [H|H].
  { split; [discriminate|]. intros [H2 _]. lia. }
  destruct (Nat.eqb_spec n 2) as [->|Hn2].
  { split; [|reflexivity]. intros _. split; [lia|]. intros k (q & Hq).
    destruct k as [|[|[|k]]]; try lia. destruct q as [|[|q]]; lia. }
  destruct (Nat.eqb_spec (n mod 2) 0) as [E|E].
  { split; [discriminate|]. intros [_ Hp]. apply Nat.mod_divides in E; [|lia]. destruct E as (c & Hc).
    destruct (Hp 2%nat); [exists c; lia|lia|lia]. }
  rewrite forallb_forall. split.
  - intros Hall. split; [lia|]. intros k (q & Hq).
    assert (Hnodd : forall a b, n = (a * b)%nat -> (a <= b)%nat -> a = 1%nat).
    { intros a b Hab Hle. destruct (Nat.eq_dec a 1) as [|Ha1]; [assumption|exfalso].
      assert (a <> 0)%nat by (intros ->; lia).
      assert (Ha2 : Nat.Odd a).
      { destruct (Nat.Even_or_Odd a) as [(c & Hc)|]; [|assumption]. exfalso. apply E. subst a.
        replace n with (c * b * 2)%nat by lia. apply Nat.mod_mul. lia. }
      assert (3 <= a)%nat by (destruct Ha2 as (c & Hc); lia).
      assert (Hs : (a <= Nat.sqrt n)%nat) by (apply Nat.sqrt_le_square; nia).
      assert (Hin : In a (odd_range (Nat.sqrt n + 1))) by (apply In_odd_range; split; [lia|exact Ha2]).
      specialize (Hall a Hin). cbn beta in Hall. rewrite Hab, (Nat.mul_comm a b), Nat.mod_mul in Hall by lia. discriminate. }
    destruct (Nat.le_ge_cases q k) as [Hle|Hle].
    + right. assert (q = 1)%nat by (apply (Hnodd q k); assumption). lia.
    + left. apply (Hnodd k q); [lia|exact Hle].
  - intros [_ Hp] k Hk. apply In_odd_range in Hk. destruct Hk as [Hk _].
    destruct (Nat.eqb_spec (n mod k) 0) as [Ek|]; [|reflexivity]. exfalso.
    apply Nat.mod_divides in Ek; [|lia]. destruct Ek as (c & Hc).
    assert (Hsq : (k * k <= n)%nat). { apply Nat.sqrt_le_square. lia. }
    destruct (Hp k); [exists c; lia|lia|]. subst k. nia.
Qed.

(** *** Perm *)
Lemma perm_validate_spec d p : perm_validate d p = Ok true <->
  forall n, In n p -> (0 <= n < Z.of_nat (List.length p))%Z /\ (n < Z.of_nat d)%Z.
Proof.
  unfold perm_validate. destruct (forallb _ p) eqn:E.
  - split; [|reflexivity]. intros _ n Hn. rewrite forallb_forall in E. specialize (E n Hn).
    rewrite !andb_true_iff, Z.leb_le, !Z.ltb_lt in E. lia.
  - split; [discriminate|]. intros H. exfalso.
    assert (Et : forallb (fun n => (0 <=? n)%Z && (n <? Z.of_nat (List.length p))%Z && (n <? Z.of_nat d)%Z)%bool p = true).
    { apply forallb_forall. intros n Hn. specialize (H n Hn). rewrite !andb_true_iff, Z.leb_le, !Z.ltb_lt. lia. }
    congruence.
Qed.
Lemma perm_array_pmat d p : meq d (perm_array d p) (pmat (fun j => nth j p 0%nat)).
Proof. intros i j _ _. reflexivity. Qed.
Lemma perm_unitary_iff d p : List.length p = d -> (forall x, In x p -> (x < d)%nat) ->
  (unitary d (perm_array d p) <-> NoDup p).
Proof.
  intros Hl Hb. split.
  - intros [H _]. apply (NoDup_nth p 0%nat). intros i j Hi Hj E. rewrite Hl in Hi, Hj.
    specialize (H i j Hi Hj). unfold mmul, madj, perm_array in H.
    rewrite (csum_single d _ (nth j p 0%nat)) in H.
    + unfold mid in H. rewrite E, Nat.eqb_refl, Cconj_C1 in H.
      destruct (Nat.eqb_spec i j) as [|Hne]; [assumption|]. exfalso. apply C1_neq_C0.
      rewrite <- H. ring.
    + apply Hb. apply nth_In. lia.
    + intros k Hk Hne. unfold mid. destruct (Nat.eqb_spec k (nth j p 0%nat)); [congruence|ring].
  - intros Hnd. eapply unitary_ext; [apply meq_sym; apply perm_array_pmat|]. apply pmat_unitary.
    + intros j Hj. apply Hb. apply nth_In. lia.
    + intros a b Ha Hbb E. rewrite (NoDup_nth p 0%nat) in Hnd. apply Hnd; [lia|lia|exact E].
Qed.
Lemma perm_maps d p j : (j < d)%nat -> List.length p = d -> maps_ket d (perm_array d p) j C1 (nth j p 0%nat).
Proof.
  intros Hj Hl i Hi. rewrite mapply_ket by exact Hj. unfold perm_array, mid, ket.
  destruct (Nat.eqb i (nth j p 0%nat)); ring.
Qed.

(** *** R *)
Lemma r_array_rotation d a b t f : a <> b -> meq d (r_array d a b t f) (rotation a b t f).
Proof.
  intros Hab i j Hi Hj.
  unfold r_array, rotation, msub, madd, mscal, gellmann_array, mset, two_level, mid, cis. cbn [String.eqb Ascii.eqb Bool.eqb].
  rewrite cos_neg, sin_neg. cbn [andb].
  destruct (Nat.eqb_spec i a) as [Eia|Eia]; destruct (Nat.eqb_spec i b) as [Eib|Eib];
  destruct (Nat.eqb_spec j a) as [Eja|Eja]; destruct (Nat.eqb_spec j b) as [Ejb|Ejb];
  destruct (Nat.eqb_spec i j) as [Eij|Eij]; subst; cbn [andb]; try congruence; try lia;
  rewrite ?Nat.eqb_refl;
  repeat (rewrite (proj2 (Nat.eqb_neq _ _)) by congruence); cbn [andb]; csolve.
Qed.

Lemma rotation_ext a b t f t' f' d :
  cos (t / 2) = cos (t' / 2) -> sin (t / 2) = sin (t' / 2) -> cis f = cis f' -> meq d (rotation a b t f) (rotation a b t' f').
Proof.
  intros H1 H2 H3. unfold rotation. rewrite H1, H2, !cis_neg, H3. apply meq_refl.
Qed.
Lemma rotation_theta_period a b t t' f d : same_mod (4 * PI) t t' -> meq d (rotation a b t f) (rotation a b t' f).
Proof.
  intros (k & Hk). assert (E : cis (t / 2) = cis (t' / 2)).
  { apply cis_same_mod. exists k. rewrite Hk. field. }
  apply rotation_ext; [apply (f_equal fst) in E|apply (f_equal snd) in E|]; trivial.
Qed.
Lemma rotation_regulated a b t f d : meq d (rotation a b (regulate_theta t) f) (rotation a b t f).
Proof. apply rotation_theta_period. apply regulate_theta_spec. Qed.

Lemma rotation_unitary d a b t f : (a < d)%nat -> (b < d)%nat -> a <> b -> unitary d (rotation a b t f).
Proof.
  intros Ha Hb Hab. unfold rotation.
  pose proof (sin2_cos2 (t / 2)) as H1. pose proof (sin2_cos2 f) as H2. unfold Rsqr in H1, H2.
  apply two_level_unitary; trivial; unfold cis; rewrite ?cos_neg, ?sin_neg; apply Ceq; cbn;
    ring_simplify; rewrite ?Rmult_1_r;
    set (c := cos (t / 2)) in *; set (s := sin (t / 2)) in *; set (x := cos f) in *; set (y := sin f) in *;
    try (replace (c ^ 2)%R with (1 - s ^ 2)%R by lra); try (replace (x ^ 2)%R with (1 - y ^ 2)%R by lra); ring.
Qed.

Lemma rotation_add d a b t1 t2 f : (a < d)%nat -> (b < d)%nat -> a <> b ->
  meq d (mmul d (rotation a b t1 f) (rotation a b t2 f)) (rotation a b (t1 + t2) f).
Proof.
  intros Ha Hb Hab. unfold rotation. eapply meq_trans; [apply two_level_mul; assumption|].
  replace ((t1 + t2) / 2)%R with (t1 / 2 + t2 / 2)%R by field. rewrite cos_plus, sin_plus.
  assert (E : cis (- f) * cis f = C1) by (rewrite cis_neg; apply cis_conj_mul').
  apply two_level_ext.
  - replace (RtoC (cos (t1 / 2)) * RtoC (cos (t2 / 2)) + - (Ci * RtoC (sin (t1 / 2)) * cis (- f)) * - (Ci * RtoC (sin (t2 / 2)) * cis f))
      with (RtoC (cos (t1 / 2)) * RtoC (cos (t2 / 2)) + (Ci * Ci) * RtoC (sin (t1 / 2)) * RtoC (sin (t2 / 2)) * (cis (- f) * cis f)) by ring.
    rewrite E, Cii. csolve.
  - unfold cis. csolve.
  - unfold cis. csolve.
  - replace (- (Ci * RtoC (sin (t1 / 2)) * cis f) * - (Ci * RtoC (sin (t2 / 2)) * cis (- f)) + RtoC (cos (t1 / 2)) * RtoC (cos (t2 / 2)))
      with (RtoC (cos (t1 / 2)) * RtoC (cos (t2 / 2)) + (Ci * Ci) * RtoC (sin (t1 / 2)) * RtoC (sin (t2 / 2)) * (cis (- f) * cis f)) by ring.
    rewrite E, Cii. csolve.
Qed.
Lemma rotation_0 d a b f : meq d (rotation a b 0 f) mid.
Proof.
  eapply meq_trans; [|apply (two_level_id a b d)]. unfold rotation.
  replace (0 / 2)%R with 0%R by field. rewrite cos_0, sin_0. apply two_level_ext; unfold cis; csolve.
Qed.
Lemma rotation_inv d a b t f : (a < d)%nat -> (b < d)%nat -> a <> b ->
  meq d (mmul d (rotation a b (- t) f) (rotation a b t f)) mid.
Proof.
  intros Ha Hb Hab. eapply meq_trans; [apply rotation_add; assumption|].
  replace (- t + t)%R with 0%R by ring. apply rotation_0.
Qed.
Lemma rotation_adj d a b t f : a <> b -> meq d (madj (rotation a b t f)) (rotation a b (- t) f).
Proof.
  intros Hab. unfold rotation. eapply meq_trans; [apply two_level_adj; exact Hab|].
  replace (- t / 2)%R with (- (t / 2))%R by field. rewrite cos_neg, sin_neg.
  apply two_level_ext; unfold cis; rewrite ?cos_neg, ?sin_neg; csolve.
Qed.
Lemma rotation_phi_pi d a b t f : meq d (rotation a b t (f + PI)) (rotation a b (- t) f).
Proof.
  unfold rotation. replace (- t / 2)%R with (- (t / 2))%R by field. rewrite cos_neg, sin_neg.
  replace (- (f + PI))%R with (- f - PI)%R by ring.
  apply two_level_ext; unfold cis; rewrite ?neg_cos, ?neg_sin, ?cos_minus, ?sin_minus, ?cos_PI, ?sin_PI, ?cos_neg, ?sin_neg; csolve.
Qed.
(** swapping the two levels conjugates the phase *)
Lemma rotation_swap d a b t f : a <> b -> meq d (rotation b a t f) (rotation a b t (- f)).
Proof.
  intros Hab i j _ _. unfold rotation, two_level, mid. rewrite Ropp_involutive.
  destruct (Nat.eqb_spec i a); destruct (Nat.eqb_spec i b); destruct (Nat.eqb_spec j a); destruct (Nat.eqb_spec j b); subst; try congruence.
Qed.
Lemma rotation_outside a b t f i j : i <> a -> i <> b -> rotation a b t f i j = mid i j /\ (i <> j -> rotation a b t f j i = C0).
Proof.
  intros Ha Hb. unfold rotation, two_level, mid. split.
  - rewrite (proj2 (Nat.eqb_neq i a) Ha), (proj2 (Nat.eqb_neq i b) Hb). reflexivity.
  - intros Hij. rewrite (proj2 (Nat.eqb_neq i a) Ha), (proj2 (Nat.eqb_neq i b) Hb).
    destruct (Nat.eqb j a); [reflexivity|]. destruct (Nat.eqb j b); [reflexivity|].
    destruct (Nat.eqb_spec j i); [congruence|reflexivity].
Qed.

Lemma check_levels_spec d a b : check_levels d a b = true <->
  (0 <= a < Z.of_nat d)%Z /\ (0 <= b < Z.of_nat d)%Z /\ a <> b.
Proof.
  unfold check_levels. rewrite !andb_true_iff, negb_true_iff, !Z.leb_le, !Z.ltb_lt, Z.eqb_neq. lia.
Qed.
Lemma levels_setter_spec a b : levels_setter a b = (Z.min a b, Z.max a b).
Proof. unfold levels_setter. destruct (Z.ltb_spec a b); f_equal; lia. Qed.

(** what the R constructor accepts and the matrix it yields *)
Lemma r_matrix_spec d p M : r_matrix d p = Ok M <->
  exists a b t f rest,
    p = PList (PInt a :: PInt b :: PFloat t :: PFloat f :: rest) /\
    (0 <= a < Z.of_nat d)%Z /\ (0 <= b < Z.of_nat d)%Z /\ a <> b /\
    M = r_array d (Z.to_nat (Z.min a b)) (Z.to_nat (Z.max a b)) (regulate_theta t) f.
Proof.
  unfold r_matrix, r_new. destruct p as [|l|]; cbn.
  - split; [discriminate|]. intros (a & b & t & f & r & H & _). discriminate.
  - split.
    + destruct l as [|[a|?|?] [|[b|?|?] [|[?|t|?] [|[?|f|?] r]]]]; cbn; try discriminate.
      destruct (check_levels d a b) eqn:E; [|discriminate].
      rewrite levels_setter_spec. cbn. intros H. injection H as <-.
      apply check_levels_spec in E. exists a, b, t, f, r. tauto.
    + intros (a & b & t & f & r & H & Ha & Hb & Hab & ->). injection H as ->. cbn.
      rewrite (proj2 (check_levels_spec d a b)) by tauto. rewrite levels_setter_spec. reflexivity.
  - split; [discriminate|]. intros (a & b & t & f & r & H & _). discriminate.
Qed.
Lemma r_matrix_rotation d a b t f rest M :
  r_matrix d (PList (PInt a :: PInt b :: PFloat t :: PFloat f :: rest)) = Ok M ->
  meq d M (rotation (Z.to_nat (Z.min a b)) (Z.to_nat (Z.max a b)) t f) /\
  (Z.to_nat (Z.min a b) < Z.to_nat (Z.max a b) < d)%nat.
Proof.
  intros H. apply r_matrix_spec in H. destruct H as (a' & b' & t' & f' & r' & E & Ha & Hb & Hab & ->).
  injection E as <- <- <- <- <-. split; [|lia].
  eapply meq_trans; [apply r_array_rotation; lia|]. apply rotation_regulated.
Qed.

(** *** Rz, Rh, VirtRz *)

Lemma rz_array_diag d a b phi : (a < d)%nat -> (b < d)%nat -> a <> b ->
  meq d (rz_array d a b phi) (zrot a b phi).
Proof.
  intros Ha Hb Hab. unfold rz_array.
  assert (HR : forall t f, meq d (r_array d a b (regulate_theta t) f) (rotation a b t f)).
  { intros t f. eapply meq_trans; [apply r_array_rotation; exact Hab|apply rotation_regulated]. }
  eapply meq_trans.
  { apply mmul_ext; [apply mmul_ext; apply HR|apply HR]. }
  unfold rotation. eapply meq_trans.
  { apply mmul_ext; [apply two_level_mul; assumption|apply meq_refl]. }
  eapply meq_trans; [apply two_level_mul; assumption|]. unfold zrot.
  replace (- PI / 2 / 2)%R with (- (PI / 4))%R by field. replace (PI / 2 / 2)%R with (PI / 4)%R by field.
  unfold cis. rewrite Ropp_0, !cos_neg, !sin_neg, cos_0, sin_0, cos_PI2, sin_PI2, cos_PI4, sin_PI4.
  assert (Hs : (1 / sqrt 2 * (1 / sqrt 2) = 1 / 2)%R).
  { pose proof (sqrt_sqrt 2 ltac:(lra)) as E. assert (0 < sqrt 2) by (apply sqrt_lt_R0; lra).
    apply (Rmult_eq_reg_r (sqrt 2 * sqrt 2)); [|nra]. rewrite E at 2. field. lra. }
  set (q := (1 / sqrt 2)%R) in *. clearbody q. set (c := cos (phi / 2)). set (s := sin (phi / 2)).
  apply two_level_ext; apply Ceq; cbn; ring_simplify; replace (q ^ 2)%R with (1 / 2)%R by (rewrite <- Hs; ring); field.
Qed.
Lemma zrot_unitary d a b phi : (a < d)%nat -> (b < d)%nat -> a <> b -> unitary d (zrot a b phi).
Proof.
  intros Ha Hb Hab. apply two_level_unitary; trivial; rewrite ?cis_neg, ?Cconj_inv, ?Cconj_C0;
    rewrite ?cis_conj_mul, ?cis_conj_mul'; ring.
Qed.
Lemma zrot_period a b t t' d : same_mod (4 * PI) t t' -> meq d (zrot a b t) (zrot a b t').
Proof.
  intros (k & Hk). assert (E : cis (t / 2) = cis (t' / 2)).
  { apply cis_same_mod. exists k. rewrite Hk. field. }
  unfold zrot. rewrite !cis_neg, E. apply meq_refl.
Qed.
Lemma rz_matrix_spec d a b f rest : 
  (0 <= a < Z.of_nat d)%Z -> (0 <= b < Z.of_nat d)%Z -> a <> b ->
  exists M, rz_matrix d (PList (PInt a :: PInt b :: PFloat f :: rest)) = Ok M /\
    meq d M (zrot (Z.to_nat (Z.min a b)) (Z.to_nat (Z.max a b)) f).
Proof.
  intros Ha Hb Hab. unfold rz_matrix. cbn. rewrite (proj2 (check_levels_spec d a b)) by tauto.
  rewrite levels_setter_spec. eexists. split; [reflexivity|].
  eapply meq_trans; [apply rz_array_diag; lia|]. apply zrot_period. apply regulate_theta_spec.
Qed.
Lemma rz_matrix_rejects d p M : rz_matrix d p = Ok M ->
  exists a b f rest, p = PList (PInt a :: PInt b :: PFloat f :: rest) /\
   (0 <= a < Z.of_nat d)%Z /\ (0 <= b < Z.of_nat d)%Z /\ a <> b.
Proof.
  unfold rz_matrix. destruct p as [|l|]; cbn; try discriminate.
  destruct l as [|[a|?|?] [|[b|?|?] [|[?|f|?] r]]]; cbn; try discriminate.
  destruct (check_levels d a b) eqn:E; [|discriminate]. intros _. apply check_levels_spec in E.
  exists a, b, f, r. tauto.
Qed.

Lemma rh_array_spec d a b : (a < d)%nat -> (b < d)%nat -> a <> b -> meq d (rh_array d a b) (rhad a b).
Proof.
  intros Ha Hb Hab. unfold rh_array.
  assert (HR : forall t f, meq d (r_array d a b (regulate_theta t) f) (rotation a b t f)).
  { intros t f. eapply meq_trans; [apply r_array_rotation; exact Hab|apply rotation_regulated]. }
  eapply meq_trans; [apply mmul_ext; apply HR|].
  unfold rotation. eapply meq_trans; [apply two_level_mul; assumption|]. unfold rhad.
  replace (- PI / 2)%R with (- (PI / 2))%R by field. replace (PI / 2 / 2)%R with (PI / 4)%R by field.
  unfold cis. rewrite Ropp_0, !cos_neg, !sin_neg, cos_0, sin_0, cos_PI2, sin_PI2, cos_PI4, sin_PI4.
  set (q := (1 / sqrt 2)%R). clearbody q.
  apply two_level_ext; apply Ceq; cbn; ring.
Qed.

Lemma virtrz_array_diag d l phi :
  meq d (virtrz_array d l phi) (mdiag (fun i => if Nat.eqb i l then cis (- phi) else C1)).
Proof.
  intros i j _ _. unfold virtrz_array, mset, mdiag, mid. rewrite Nat.eqb_refl.
  destruct (Nat.eqb_spec i l); destruct (Nat.eqb_spec j l); destruct (Nat.eqb_spec i j); subst; cbn; try congruence; ring.
Qed.
Lemma virtrz_diag_unitary d l phi : unitary d (mdiag (fun i => if Nat.eqb i l then cis (- phi) else C1)).
Proof.
  apply mdiag_unitary. intros i _. destruct (Nat.eqb i l); [apply Cnorm2_cis|unfold Cnorm2; cbn; ring].
Qed.
Lemma cis_regulate t : cis (- regulate_theta t) = cis (- t).
Proof.
  apply cis_same_mod. destruct (regulate_theta_spec t) as ((k & Hk) & _). exists (- 2 * k)%Z.
  rewrite Hk, mult_IZR. ring.
Qed.
Lemma virtrz_matrix_spec d a f : (0 <= a < Z.of_nat d)%Z ->
  meq d (virtrz_matrix d (PList [PInt a; PFloat f])) (mdiag (fun i => if Nat.eqb i (Z.to_nat a) then cis (- f) else C1)).
Proof.
  intros Ha. unfold virtrz_matrix, virtrz_validate.
  rewrite (proj2 (Z.leb_le 0 a)), (proj2 (Z.ltb_lt a (Z.of_nat d))) by lia. cbn [andb].
  eapply meq_trans; [apply virtrz_array_diag|]. rewrite cis_regulate. apply meq_refl.
Qed.
Lemma virtrz_matrix_invalid d p : virtrz_validate d p = None -> meq d (virtrz_matrix d p) mid.
Proof.
  intros H. unfold virtrz_matrix. rewrite H. eapply meq_trans; [apply virtrz_array_diag|].
  intros i j _ _. unfold mdiag, mid. rewrite Ropp_0, cis_0. destruct (Nat.eqb i j); [destruct (Nat.eqb i 0); reflexivity|reflexivity].
Qed.
Lemma virtrz_unitary d p : unitary d (virtrz_matrix d p).
Proof.
  unfold virtrz_matrix. destruct (virtrz_validate d p) as [[l f]|];
    (eapply unitary_ext; [apply meq_sym; apply virtrz_array_diag|apply virtrz_diag_unitary]).
Qed.

(** noise gates *)
Lemma noisex_two_level d a b : a <> b -> meq d (noisex_array d a b) (two_level a b C0 C1 C1 C0).
Proof.
  intros Hab i j _ _. unfold noisex_array, mset, two_level, mid.
  destruct (Nat.eqb_spec i a); destruct (Nat.eqb_spec i b); destruct (Nat.eqb_spec j a); destruct (Nat.eqb_spec j b);
    destruct (Nat.eqb_spec i j); subst; cbn; try congruence.
Qed.
Lemma noisey_two_level d a b : a <> b -> meq d (noisey_array d a b) (two_level a b C0 (- Ci) Ci C0).
Proof.
  intros Hab i j _ _. unfold noisey_array, mset, two_level, mid.
  destruct (Nat.eqb_spec i a); destruct (Nat.eqb_spec i b); destruct (Nat.eqb_spec j a); destruct (Nat.eqb_spec j b);
    destruct (Nat.eqb_spec i j); subst; cbn; try congruence; ring.
Qed.
Lemma noisex_unitary d a b : (a < d)%nat -> (b < d)%nat -> a <> b -> unitary d (noisex_array d a b).
Proof.
  intros. eapply unitary_ext; [apply meq_sym; apply noisex_two_level; assumption|].
  apply two_level_unitary; trivial; csolve.
Qed.
Lemma noisey_unitary d a b : (a < d)%nat -> (b < d)%nat -> a <> b -> unitary d (noisey_array d a b).
Proof.
  intros. eapply unitary_ext; [apply meq_sym; apply noisey_two_level; assumption|].
  apply two_level_unitary; trivial; csolve.
Qed.

(** ** consequences for accepted gates *)
Definition rp (a b : Z) (t f : R) : params := PList [PInt a; PInt b; PFloat t; PFloat f].

Lemma r_accepts d p : (exists M, r_matrix d p = Ok M) <->
  exists a b t f rest,
    p = PList (PInt a :: PInt b :: PFloat t :: PFloat f :: rest) /\ (0 <= a < Z.of_nat d)%Z /\ (0 <= b < Z.of_nat d)%Z /\ a <> b.
Proof.
  split.
  - intros (M & H). apply r_matrix_spec in H. destruct H as (a & b & t & f & r & H & Ha & Hb & Hab & _).
    exists a, b, t, f, r. tauto.
  - intros (a & b & t & f & r & H & Ha & Hb & Hab). eexists. apply r_matrix_spec.
    exists a, b, t, f, r. repeat split; try eassumption; lia.
Qed.
Lemma r_unitary d p M : r_matrix d p = Ok M -> unitary d M.
Proof.
  intros H. pose proof H as H'. apply r_matrix_spec in H. destruct H as (a & b & t & f & r & -> & _).
  apply r_matrix_rotation in H'. destruct H' as [E [H1 H2]].
  eapply unitary_ext; [apply meq_sym; exact E|]. apply rotation_unitary; lia.
Qed.
Lemma r_group d a b t1 t2 f M1 M2 M3 :
  r_matrix d (rp a b t1 f) = Ok M1 -> r_matrix d (rp a b t2 f) = Ok M2 -> r_matrix d (rp a b (t1 + t2) f) = Ok M3 ->
  meq d (mmul d M1 M2) M3.
Proof.
  unfold rp. intros H1 H2 H3. apply r_matrix_rotation in H1, H2, H3.
  destruct H1 as [H1 Hb], H2 as [H2 _], H3 as [H3 _].
  eapply meq_trans; [apply mmul_ext; eassumption|].
  eapply meq_trans; [apply rotation_add; lia|]. apply meq_sym. exact H3.
Qed.
Lemma r_inverse d a b t f M1 M2 :
  r_matrix d (rp a b (- t) f) = Ok M1 -> r_matrix d (rp a b t f) = Ok M2 -> meq d (mmul d M1 M2) mid /\ meq d M1 (madj M2).
Proof.
  unfold rp. intros H1 H2. apply r_matrix_rotation in H1, H2.
  destruct H1 as [H1 Hb], H2 as [H2 _]. split.
  - eapply meq_trans; [apply mmul_ext; eassumption|]. apply rotation_inv; lia.
  - eapply meq_trans; [exact H1|]. eapply meq_trans; [apply meq_sym; apply rotation_adj; lia|].
    apply meq_sym. apply madj_ext. exact H2.
Qed.
Lemma r_phi_pi d a b t f M1 M2 :
  r_matrix d (rp a b t (f + PI)) = Ok M1 -> r_matrix d (rp a b (- t) f) = Ok M2 -> meq d M1 M2.
Proof.
  unfold rp. intros H1 H2. apply r_matrix_rotation in H1, H2.
  destruct H1 as [H1 _], H2 as [H2 _].
  eapply meq_trans; [exact H1|]. eapply meq_trans; [apply rotation_phi_pi|]. apply meq_sym; exact H2.
Qed.
Lemma r_periodic d a b t f k M1 M2 :
  r_matrix d (rp a b t f) = Ok M1 -> r_matrix d (rp a b (t + IZR k * (4 * PI)) f) = Ok M2 -> meq d M1 M2.
Proof.
  unfold rp. intros H1 H2. apply r_matrix_rotation in H1, H2.
  destruct H1 as [H1 _], H2 as [H2 _].
  eapply meq_trans; [exact H1|]. eapply meq_trans; [|apply meq_sym; exact H2].
  apply rotation_theta_period. exists (- k)%Z. rewrite opp_IZR. ring.
Qed.
Lemma r_untouched d a b t f M l : r_matrix d (rp a b t f) = Ok M -> (l < d)%nat -> Z.of_nat l <> a -> Z.of_nat l <> b ->
  maps_ket d M l C1 l.
Proof.
  unfold rp. intros H Hl Ha Hb. pose proof (proj1 (r_matrix_spec _ _ _) H) as (a' & b' & t' & f' & r' & E & Ha' & Hb' & _).
  injection E as <- <- <- <- <-. apply r_matrix_rotation in H. destruct H as [H Hr].
  intros i Hi. rewrite mapply_ket by exact Hl. rewrite (H i l Hi Hl).
  destruct (rotation_outside (Z.to_nat (Z.min a b)) (Z.to_nat (Z.max a b)) t f l i) as [E1 E2]; [lia|lia|].
  unfold ket. destruct (Nat.eqb_spec i l) as [->|Hne].
  - rewrite E1. unfold mid. rewrite Nat.eqb_refl. ring.
  - rewrite E2 by congruence. ring.
Qed.
Lemma r_level_order d a b t f : r_matrix d (rp b a t f) = r_matrix d (rp a b t f).
Proof.
  unfold r_matrix, r_new, rp. cbn.
  assert (E : check_levels d b a = check_levels d a b).
  { apply Bool.eq_iff_eq_true. rewrite !check_levels_spec. split; intros (H1 & H2 & H3); repeat split; lia || congruence. }
  rewrite E. destruct (check_levels d a b) eqn:Hc; [|reflexivity]. rewrite !levels_setter_spec, Z.min_comm, Z.max_comm. reflexivity.
Qed.
Lemma r_amplitudes d a b t f M : (a < b)%nat -> r_matrix d (rp (Z.of_nat a) (Z.of_nat b) t f) = Ok M ->
  M a a = RtoC (cos (t / 2)) /\ M b b = RtoC (cos (t / 2)) /\ M b a = - (Ci * RtoC (sin (t / 2)) * cis f) /\ M a b = - (Ci * RtoC (sin (t / 2)) * cis (- f)).
Proof.
  intros Hab H. apply r_matrix_rotation in H. destruct H as [H Hr].
  rewrite Z.min_l, Z.max_r, !Nat2Z.id in H, Hr by lia.
  rewrite !H by lia. unfold rotation, two_level. rewrite !Nat.eqb_refl.
  rewrite (proj2 (Nat.eqb_neq b a)) by lia. auto.
Qed.

Lemma rz_accepts d p : (exists M, rz_matrix d p = Ok M) <->
  exists a b f rest, p = PList (PInt a :: PInt b :: PFloat f :: rest) /\ (0 <= a < Z.of_nat d)%Z /\ (0 <= b < Z.of_nat d)%Z /\ a <> b.
Proof.
  split.
  - intros (M & H). eapply rz_matrix_rejects; exact H.
  - intros (a & b & f & r & -> & Ha & Hb & Hab). destruct (rz_matrix_spec d a b f r Ha Hb Hab) as (M & HM & _). eauto.
Qed.
Lemma rz_value d a b f rest M : rz_matrix d (PList (PInt a :: PInt b :: PFloat f :: rest)) = Ok M ->
  meq d M (mdiag (fun l => if (Z.of_nat l =? Z.min a b)%Z then cis (- (f / 2))
                           else if (Z.of_nat l =? Z.max a b)%Z then cis (f / 2) else C1)).
Proof.
  intros H. destruct (rz_matrix_rejects d _ M H) as (a' & b' & f' & r' & E & Ha & Hb & Hab). injection E as <- <- <- <-.
  destruct (rz_matrix_spec d a b f rest Ha Hb Hab) as (M' & HM & EM). rewrite H in HM. injection HM as <-.
  eapply meq_trans; [exact EM|]. intros i j Hi Hj. unfold zrot, two_level, mdiag, mid.
  assert (E1 : Nat.eqb i (Z.to_nat (Z.min a b)) = (Z.of_nat i =? Z.min a b)%Z).
  { apply Bool.eq_iff_eq_true. rewrite Nat.eqb_eq, Z.eqb_eq. lia. }
  assert (E2 : Nat.eqb i (Z.to_nat (Z.max a b)) = (Z.of_nat i =? Z.max a b)%Z).
  { apply Bool.eq_iff_eq_true. rewrite Nat.eqb_eq, Z.eqb_eq. lia. }
  rewrite E1, E2.
  destruct (Z.eqb_spec (Z.of_nat i) (Z.min a b)) as [F1|F1];
  destruct (Z.eqb_spec (Z.of_nat i) (Z.max a b)) as [F2|F2]; try lia;
  destruct (Nat.eqb_spec i j) as [->|]; trivial;
  repeat match goal with |- context [Nat.eqb ?x ?y] => destruct (Nat.eqb_spec x y) end; trivial; try lia.
Qed.
Lemma rz_unitary d p M : rz_matrix d p = Ok M -> unitary d M.
Proof.
  intros H. pose proof H as H'. apply rz_matrix_rejects in H'. destruct H' as (a & b & f & r & -> & Ha & Hb & Hab).
  apply rz_value in H. eapply unitary_ext; [apply meq_sym; exact H|]. apply mdiag_unitary. intros i _.
  destruct (Z.eqb _ _); [apply Cnorm2_cis|]. destruct (Z.eqb _ _); [apply Cnorm2_cis|]. unfold Cnorm2; cbn; ring.
Qed.

Lemma rh_accepts d p M : rh_matrix d p = Ok M -> exists a b rest, p = PList (PInt a :: PInt b :: rest) /\ (0 <= a < Z.of_nat d)%Z /\ (0 <= b < Z.of_nat d)%Z /\ a <> b /\ M = rh_array d (Z.to_nat (Z.min a b)) (Z.to_nat (Z.max a b)).
Proof.
  unfold rh_matrix. destruct p as [|l|]; cbn; try discriminate.
  destruct l as [|[a|?|?] [|[b|?|?] r]]; cbn; try discriminate.
  destruct (check_levels d a b) eqn:E; [|discriminate]. rewrite levels_setter_spec. intros H. injection H as <-.
  apply check_levels_spec in E. exists a, b, r. tauto.
Qed.
Lemma rh_value d a b rest M : rh_matrix d (PList (PInt a :: PInt b :: rest)) = Ok M ->
  meq d M (rhad (Z.to_nat (Z.min a b)) (Z.to_nat (Z.max a b))) /\ unitary d M.
Proof.
  intros H. destruct (rh_accepts d _ M H) as (a' & b' & r' & E & Ha & Hb & Hab & ->). injection E as <- <- <-.
  assert (EM : meq d (rh_array d (Z.to_nat (Z.min a b)) (Z.to_nat (Z.max a b)))
                    (rhad (Z.to_nat (Z.min a b)) (Z.to_nat (Z.max a b)))) by (apply rh_array_spec; lia).
  split; [exact EM|]. eapply unitary_ext; [apply meq_sym; exact EM|].
  assert (Hs : (1 / sqrt 2 * (1 / sqrt 2) = 1 / 2)%R).
  { pose proof (sqrt_sqrt 2 ltac:(lra)) as E. assert (0 < sqrt 2) by (apply sqrt_lt_R0; lra).
    apply (Rmult_eq_reg_r (sqrt 2 * sqrt 2)); [|nra]. rewrite E at 2. field. lra. }
  unfold rhad. set (q := (1 / sqrt 2)%R) in *. clearbody q.
  apply two_level_unitary; try lia; apply Ceq; cbn; ring_simplify; try reflexivity;
    replace (q ^ 2)%R with (1 / 2)%R by (rewrite <- Hs; ring); field.
Qed.

Lemma perm_new_spec d p M : perm_new d p = Ok M <->
  (forall n, In n p -> (0 <= n < Z.of_nat (List.length p))%Z /\ (n < Z.of_nat d)%Z) /\ M = perm_array d (map Z.to_nat p).
Proof.
  rewrite <- perm_validate_spec. unfold perm_new. destruct (perm_validate d p) as [[]|e] eqn:E; cbn.
  - split; [intros H; injection H as <-; auto|intros [_ ->]; reflexivity].
  - exfalso. unfold perm_validate in E. destruct (forallb _ p); discriminate.
  - split; [discriminate|intros [H _]; discriminate].
Qed.
Lemma NoDup_map_to_nat p : (forall n, In n p -> (0 <= n)%Z) -> (NoDup (map Z.to_nat p) <-> NoDup p).
Proof.
  induction p as [|a p IH]; intros H; cbn; [split; constructor|].
  split; intros Hn; inversion Hn; subst; constructor.
  - intros Ha. apply H2. apply in_map. exact Ha.
  - apply IH; [|assumption]. intros; apply H; right; assumption.
  - intros Ha. apply in_map_iff in Ha. destruct Ha as (y & Ey & Hy). assert (y = a).
    { pose proof (H a (or_introl eq_refl)). pose proof (H y (or_intror Hy)). lia. }
    subst. contradiction.
  - apply IH; [|assumption]. intros; apply H; right; assumption.
Qed.
Lemma perm_accepted_unitary d p M : perm_new d p = Ok M -> List.length p = d -> (unitary d M <-> NoDup p).
Proof.
  intros H Hl. apply perm_new_spec in H. destruct H as [H ->].
  rewrite perm_unitary_iff.
  - apply NoDup_map_to_nat. intros n Hn. specialize (H n Hn). lia.
  - rewrite map_length. exact Hl.
  - intros x Hx. apply in_map_iff in Hx. destruct Hx as (y & <- & Hy). specialize (H y Hy). lia.
Qed.
Lemma perm_accepted_maps d p M j n : perm_new d p = Ok M -> List.length p = d -> nth_error p j = Some n ->
  maps_ket d M j C1 (Z.to_nat n).
Proof.
  intros H Hl Hj. apply perm_new_spec in H. destruct H as [H ->].
  assert (Hjd : (j < d)%nat) by (rewrite <- Hl; apply nth_error_Some; congruence).
  replace (Z.to_nat n) with (nth j (map Z.to_nat p) 0%nat).
  - apply perm_maps; [exact Hjd|]. rewrite map_length. exact Hl.
  - change 0%nat with (Z.to_nat 0). rewrite map_nth. f_equal. apply nth_error_nth. exact Hj.
Qed.
Lemma s_new_spec d : s_new d = Ok tt <-> prime_nat d.
Proof. rewrite <- is_prime_spec. unfold s_new. destruct (is_prime d); split; intros H; congruence. Qed.
Lemma perm_00 : exists M, perm_new 2 [0; 0]%Z = Ok M /\ ~ unitary 2 M.
Proof.
  eexists. split; [reflexivity|]. intros H. apply (perm_accepted_unitary 2 [0; 0]%Z _ eq_refl eq_refl) in H.
  inversion H as [|x l Hn _]. apply Hn. left. reflexivity.
Qed.
Lemma virtrz_out_of_range d l f : ~ (0 <= l < Z.of_nat d)%Z -> meq d (virtrz_matrix d (PList [PInt l; PFloat f])) mid.
Proof.
  intros H. apply virtrz_matrix_invalid. unfold virtrz_validate.
  destruct (Z.leb_spec 0 l); destruct (Z.ltb_spec l (Z.of_nat d)); cbn; trivial; lia.
Qed.
Lemma virtrz_int_angle : exists p, p = PList [PInt 1; PInt 1] /\ meq 3 (virtrz_matrix 3 p) mid.
Proof. eexists. split; [reflexivity|]. apply virtrz_matrix_invalid. reflexivity. Qed.
