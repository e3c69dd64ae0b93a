(** Square complex matrices as entry functions; equality is entrywise below the dimension. *)
From Coq Require Export Arith Lia.
From Verif Require Export Base.Cplx.
Open Scope C_scope.

Definition mat : Type := nat -> nat -> C.
Definition vec : Type := nat -> C.

Fixpoint csum (n : nat) (f : nat -> C) : C :=
  match n with O => C0 | S m => csum m f + f m end.

Definition meq (d : nat) (A B : mat) : Prop :=
  forall i j, (i < d)%nat -> (j < d)%nat -> A i j = B i j.
Definition veq (d : nat) (x y : vec) : Prop := forall i, (i < d)%nat -> x i = y i.

Definition mid : mat := fun i j => if Nat.eqb i j then C1 else C0.
Definition mmul (d : nat) (A B : mat) : mat := fun i j => csum d (fun k => A i k * B k j).
Definition madj (A : mat) : mat := fun i j => Cconj (A j i).
Definition mapply (d : nat) (A : mat) (x : vec) : vec := fun i => csum d (fun k => A i k * x k).
Definition mscal (c : C) (A : mat) : mat := fun i j => c * A i j.
Definition madd (A B : mat) : mat := fun i j => A i j + B i j.
Definition msub (A B : mat) : mat := fun i j => A i j - B i j.
Fixpoint mpow (d : nat) (A : mat) (n : nat) : mat :=
  match n with O => mid | S m => mmul d A (mpow d A m) end.
(** Kronecker product; [d2] is the dimension of the right factor. *)
Definition mkron (d2 : nat) (A B : mat) : mat :=
  fun i j => A (i / d2)%nat (j / d2)%nat * B (i mod d2) (j mod d2).
Definition ket (i : nat) : vec := fun k => if Nat.eqb k i then C1 else C0.

(** Unitary: A^+ A = A A^+ = I. *)
Definition unitary (d : nat) (A : mat) : Prop :=
  meq d (mmul d (madj A) A) mid /\ meq d (mmul d A (madj A)) mid.

(** ** Sums *)
Lemma csum_ext n f g : (forall k, (k < n)%nat -> f k = g k) -> csum n f = csum n g.
Proof.
  induction n as [|n IH]; intros H; cbn; [reflexivity|].
  rewrite IH by (intros; apply H; lia). rewrite H by lia. reflexivity.
Qed.
Lemma csum_0 n f : (forall k, (k < n)%nat -> f k = C0) -> csum n f = C0.
Proof.
  intros H. rewrite (csum_ext n f (fun _ => C0)) by exact H.
  clear H. induction n as [|n IH]; cbn; [reflexivity|]. rewrite IH. ring.
Qed.
Lemma csum_add n f g : csum n (fun k => f k + g k) = csum n f + csum n g.
Proof. induction n as [|n IH]; cbn; [ring|]. rewrite IH. ring. Qed.
Lemma csum_mul_l n c f : csum n (fun k => c * f k) = c * csum n f.
Proof. induction n as [|n IH]; cbn; [ring|]. rewrite IH. ring. Qed.
Lemma csum_mul_r n c f : csum n (fun k => f k * c) = csum n f * c.
Proof. induction n as [|n IH]; cbn; [ring|]. rewrite IH. ring. Qed.
Lemma csum_opp n f : csum n (fun k => - f k) = - csum n f.
Proof. induction n as [|n IH]; cbn; [ring|]. rewrite IH. ring. Qed.
Lemma csum_conj n f : Cconj (csum n f) = csum n (fun k => Cconj (f k)).
Proof. induction n as [|n IH]; cbn; [apply Cconj_C0|]. rewrite Cconj_add, IH. reflexivity. Qed.
Lemma csum_swap n m f : csum n (fun i => csum m (fun j => f i j)) = csum m (fun j => csum n (fun i => f i j)).
Proof.
  induction n as [|n IH]; cbn.
  - symmetry. apply csum_0. reflexivity.
  - rewrite IH, csum_add. reflexivity.
Qed.
Lemma csum_single n f k : (k < n)%nat -> (forall i, (i < n)%nat -> i <> k -> f i = C0) -> csum n f = f k.
Proof.
  induction n as [|n IH]; intros Hk H; [lia|]. cbn.
  destruct (Nat.eq_dec k n) as [->|Hne].
  - rewrite csum_0 by (intros i Hi; apply H; lia). ring.
  - rewrite IH; [|lia|intros; apply H; lia]. rewrite (H n) by lia. ring.
Qed.
Lemma csum_pair n f a b : (a < n)%nat -> (b < n)%nat -> a <> b ->
  (forall i, (i < n)%nat -> i <> a -> i <> b -> f i = C0) -> csum n f = f a + f b.
Proof.
  intros Ha Hb Hab H.
  rewrite (csum_ext n f (fun i => (if Nat.eqb i a then f i else C0) + (if Nat.eqb i b then f i else C0))).
  - rewrite csum_add. rewrite (csum_single n _ a), (csum_single n (fun i => if Nat.eqb i b then f i else C0) b); trivial.
    + rewrite !Nat.eqb_refl. reflexivity.
    + intros i Hi Hn. apply Nat.eqb_neq in Hn. rewrite Hn. reflexivity.
    + intros i Hi Hn. apply Nat.eqb_neq in Hn. rewrite Hn. reflexivity.
  - intros i Hi. destruct (Nat.eqb_spec i a) as [->|Hna].
    + destruct (Nat.eqb_spec a b); [contradiction|]. ring.
    + destruct (Nat.eqb_spec i b) as [->|Hnb]; [ring|]. rewrite H by assumption. ring.
Qed.
Lemma csum_app n m f : csum (n + m) f = csum n f + csum m (fun k => f (n + k)%nat).
Proof.
  induction m as [|m IH]; cbn.
  - rewrite Nat.add_0_r. ring.
  - rewrite Nat.add_succ_r. cbn. rewrite IH. ring.
Qed.
Lemma csum_prod n m f : csum (n * m) f = csum n (fun i => csum m (fun j => f (i * m + j)%nat)).
Proof.
  induction n as [|n IH]; cbn [Nat.mul csum]; [reflexivity|].
  rewrite Nat.add_comm, csum_app, IH. reflexivity.
Qed.
Lemma csum_const n c : csum n (fun _ => c) = RtoC (INR n) * c.
Proof.
  induction n as [|n IH].
  - cbn. rewrite RtoC_0. ring.
  - cbn [csum]. rewrite IH, S_INR, RtoC_add, RtoC_1. ring.
Qed.
(** reindexing by an injective map of [0..n-1] into itself *)
Lemma csum_mid_l d j f : (j < d)%nat -> csum d (fun k => mid j k * f k) = f j.
Proof.
  intros Hj. rewrite (csum_single d _ j); trivial.
  - unfold mid. rewrite Nat.eqb_refl. ring.
  - intros i Hi Hn. unfold mid. destruct (Nat.eqb_spec j i); [congruence|]. ring.
Qed.
Lemma csum_mid_r d j f : (j < d)%nat -> csum d (fun k => f k * mid k j) = f j.
Proof.
  intros Hj. rewrite (csum_single d _ j); trivial.
  - unfold mid. rewrite Nat.eqb_refl. ring.
  - intros i Hi Hn. unfold mid. destruct (Nat.eqb_spec i j); [congruence|]. ring.
Qed.

(** ** Matrices *)
Lemma meq_refl d A : meq d A A.
Proof. intros i j _ _. reflexivity. Qed.
Lemma meq_sym d A B : meq d A B -> meq d B A.
Proof. intros H i j Hi Hj. symmetry. apply H; assumption. Qed.
Lemma meq_trans d A B D : meq d A B -> meq d B D -> meq d A D.
Proof. intros H1 H2 i j Hi Hj. rewrite H1, H2 by assumption. reflexivity. Qed.
Lemma mmul_ext d A A' B B' : meq d A A' -> meq d B B' -> meq d (mmul d A B) (mmul d A' B').
Proof.
  intros HA HB i j Hi Hj. unfold mmul. apply csum_ext. intros k Hk.
  rewrite HA, HB by assumption. reflexivity.
Qed.
Lemma mmul_assoc d A B D : meq d (mmul d (mmul d A B) D) (mmul d A (mmul d B D)).
Proof.
  intros i j Hi Hj. unfold mmul.
  rewrite (csum_ext d _ (fun k => csum d (fun l => A i l * B l k * D k j))).
  2:{ intros k Hk. rewrite <- csum_mul_r. apply csum_ext. intros; ring. }
  rewrite csum_swap. apply csum_ext. intros k Hk.
  rewrite <- csum_mul_l. apply csum_ext. intros; ring.
Qed.
Lemma mmul_id_l d A : meq d (mmul d mid A) A.
Proof. intros i j Hi Hj. unfold mmul. apply (csum_mid_l d i (fun k => A k j)). exact Hi. Qed.
Lemma mmul_id_r d A : meq d (mmul d A mid) A.
Proof. intros i j Hi Hj. unfold mmul. apply (csum_mid_r d j (fun k => A i k)). exact Hj. Qed.
Lemma madj_mmul d A B : meq d (madj (mmul d A B)) (mmul d (madj B) (madj A)).
Proof.
  intros i j Hi Hj. unfold madj, mmul. rewrite csum_conj. apply csum_ext.
  intros k Hk. rewrite Cconj_mul. ring.
Qed.
Lemma madj_ext d A B : meq d A B -> meq d (madj A) (madj B).
Proof. intros H i j Hi Hj. unfold madj. rewrite H by assumption. reflexivity. Qed.
Lemma madj_inv d A : meq d (madj (madj A)) A.
Proof. intros i j Hi Hj. unfold madj. apply Cconj_inv. Qed.
Lemma madj_id d : meq d (madj mid) mid.
Proof.
  intros i j Hi Hj. unfold madj, mid. rewrite Nat.eqb_sym.
  destruct (Nat.eqb i j); [apply Cconj_C1|apply Cconj_C0].
Qed.
Lemma unitary_ext d A B : meq d A B -> unitary d A -> unitary d B.
Proof.
  intros H [H1 H2]. split.
  - eapply meq_trans; [|exact H1]. apply mmul_ext; [apply madj_ext|]; apply meq_sym; exact H.
  - eapply meq_trans; [|exact H2]. apply mmul_ext; [|apply madj_ext]; apply meq_sym; exact H.
Qed.
Lemma unitary_id d : unitary d mid.
Proof.
  split; (eapply meq_trans; [apply mmul_ext; [apply madj_id || apply meq_refl|apply madj_id || apply meq_refl]|apply mmul_id_l]).
Qed.
Lemma unitary_mmul d A B : unitary d A -> unitary d B -> unitary d (mmul d A B).
Proof.
  intros [A1 A2] [B1 B2]. split.
  - eapply meq_trans; [apply mmul_ext; [apply madj_mmul|apply meq_refl]|].
    eapply meq_trans; [apply mmul_assoc|].
    eapply meq_trans; [|exact B1].
    apply mmul_ext; [apply meq_refl|].
    eapply meq_trans; [apply meq_sym, mmul_assoc|].
    eapply meq_trans; [apply mmul_ext; [exact A1|apply meq_refl]|apply mmul_id_l].
  - eapply meq_trans; [apply mmul_ext; [apply meq_refl|apply madj_mmul]|].
    eapply meq_trans; [apply mmul_assoc|].
    eapply meq_trans; [|exact A2].
    apply mmul_ext; [apply meq_refl|].
    eapply meq_trans; [apply meq_sym, mmul_assoc|].
    eapply meq_trans; [apply mmul_ext; [exact B2|apply meq_refl]|apply mmul_id_l].
Qed.
Lemma unitary_adj d A : unitary d A -> unitary d (madj A).
Proof.
  intros [H1 H2]. split.
  - eapply meq_trans; [|exact H2]. apply mmul_ext; [apply madj_inv|apply meq_refl].
  - eapply meq_trans; [|exact H1]. apply mmul_ext; [apply meq_refl|apply madj_inv].
Qed.
Lemma unitary_mpow d A n : unitary d A -> unitary d (mpow d A n).
Proof. intros H. induction n as [|n IH]; cbn; [apply unitary_id|apply unitary_mmul; assumption]. Qed.
Lemma mpow_ext d A B n : meq d A B -> meq d (mpow d A n) (mpow d B n).
Proof. intros H. induction n as [|n IH]; cbn; [apply meq_refl|apply mmul_ext; assumption]. Qed.

(** matrix acting on a basis vector *)
Lemma mapply_ket d A j i : (j < d)%nat -> mapply d A (ket j) i = A i j.
Proof.
  intros Hj. unfold mapply, ket. rewrite (csum_single d _ j); trivial.
  - rewrite Nat.eqb_refl. ring.
  - intros k Hk Hn. apply Nat.eqb_neq in Hn. rewrite Hn. ring.
Qed.
Lemma mapply_mmul d A B x : veq d (mapply d (mmul d A B) x) (mapply d A (mapply d B x)).
Proof.
  intros i Hi. unfold mapply, mmul.
  rewrite (csum_ext d _ (fun k => csum d (fun l => A i l * B l k * x k))).
  2:{ intros k Hk. rewrite <- csum_mul_r. reflexivity. }
  rewrite csum_swap. apply csum_ext. intros k Hk.
  rewrite <- csum_mul_l. apply csum_ext. intros; ring.
Qed.
Lemma mapply_ext d A B x y : meq d A B -> veq d x y -> veq d (mapply d A x) (mapply d B y).
Proof.
  intros H1 H2 i Hi. unfold mapply. apply csum_ext. intros k Hk.
  rewrite H1, H2 by assumption. reflexivity.
Qed.
Lemma mapply_id d x : veq d (mapply d mid x) x.
Proof. intros i Hi. unfold mapply. apply csum_mid_l. exact Hi. Qed.

(** Kronecker products *)
Lemma mkron_mmul d1 d2 A B A' B' :
  meq (d1 * d2) (mmul (d1 * d2) (mkron d2 A B) (mkron d2 A' B')) (mkron d2 (mmul d1 A A') (mmul d2 B B')).
Proof.
  intros i j Hi Hj. unfold mmul, mkron.
  destruct (Nat.eq_dec d2 0) as [->|Hd2]; [lia|].
  rewrite csum_prod.
  rewrite <- csum_mul_r. apply csum_ext. intros k Hk.
  rewrite <- csum_mul_l. apply csum_ext. intros l Hl.
  replace ((k * d2 + l) / d2)%nat with k
    by (rewrite Nat.div_add_l, (Nat.div_small l) by lia; lia).
  replace ((k * d2 + l) mod d2)%nat with l
    by (rewrite Nat.add_comm, Nat.mod_add, Nat.mod_small by lia; reflexivity).
  ring.
Qed.
Lemma mkron_id d1 d2 : d2 <> 0%nat -> meq (d1 * d2) (mkron d2 mid mid) mid.
Proof.
  intros Hd i j Hi Hj. unfold mkron, mid.
  destruct (Nat.eqb_spec i j) as [->|Hn].
  - rewrite !Nat.eqb_refl. ring.
  - destruct (Nat.eqb_spec (i / d2) (j / d2)) as [H1|]; [|ring].
    destruct (Nat.eqb_spec (i mod d2) (j mod d2)) as [H2|]; [|ring].
    exfalso. apply Hn. rewrite (Nat.div_mod i d2), (Nat.div_mod j d2) by exact Hd.
    rewrite H1, H2. reflexivity.
Qed.
Lemma madj_mkron d1 d2 A B : meq (d1 * d2) (madj (mkron d2 A B)) (mkron d2 (madj A) (madj B)).
Proof. intros i j Hi Hj. unfold madj, mkron. apply Cconj_mul. Qed.
Lemma mkron_ext d1 d2 A A' B B' : meq d1 A A' -> meq d2 B B' -> meq (d1 * d2) (mkron d2 A B) (mkron d2 A' B').
Proof.
  intros H1 H2 i j Hi Hj. unfold mkron.
  assert (d2 <> 0)%nat by (intros ->; lia).
  rewrite H1 by (apply Nat.div_lt_upper_bound; lia).
  rewrite H2 by (apply Nat.mod_upper_bound; assumption). reflexivity.
Qed.
Lemma unitary_mkron d1 d2 A B : unitary d1 A -> unitary d2 B -> unitary (d1 * d2) (mkron d2 A B).
Proof.
  intros [A1 A2] [B1 B2].
  destruct (Nat.eq_dec d2 0) as [->|Hd2].
  { rewrite Nat.mul_0_r. split; intros i j Hi; lia. }
  split.
  - eapply meq_trans; [apply mmul_ext; [apply madj_mkron|apply meq_refl]|].
    eapply meq_trans; [apply mkron_mmul|].
    eapply meq_trans; [apply mkron_ext; [exact A1|exact B1]|apply mkron_id; exact Hd2].
  - eapply meq_trans; [apply mmul_ext; [apply meq_refl|apply madj_mkron]|].
    eapply meq_trans; [apply mkron_mmul|].
    eapply meq_trans; [apply mkron_ext; [exact A2|exact B2]|apply mkron_id; exact Hd2].
Qed.

(** ** Matrices that are the identity outside two levels [a] and [b] *)
Definition two_level (a b : nat) (maa mab mba mbb : C) : mat := fun i j =>
  if Nat.eqb i a then (if Nat.eqb j a then maa else if Nat.eqb j b then mab else C0)
  else if Nat.eqb i b then (if Nat.eqb j a then mba else if Nat.eqb j b then mbb else C0)
  else mid i j.

Lemma two_level_mul d a b x y z w x' y' z' w' :
  (a < d)%nat -> (b < d)%nat -> a <> b ->
  meq d (mmul d (two_level a b x y z w) (two_level a b x' y' z' w'))
        (two_level a b (x * x' + y * z') (x * y' + y * w') (z * x' + w * z') (z * y' + w * w')).
Proof.
  intros Ha Hb Hab i j Hi Hj. unfold mmul.
  destruct (Nat.eq_dec i a) as [->|Hia].
  - rewrite (csum_pair d _ a b); trivial.
    + unfold two_level. rewrite !Nat.eqb_refl.
      replace (Nat.eqb b a) with false by (symmetry; apply Nat.eqb_neq; auto).
      destruct (Nat.eqb_spec j a); destruct (Nat.eqb_spec j b); try (subst; contradiction); ring.
    + intros k Hk Hka Hkb. unfold two_level. rewrite Nat.eqb_refl.
      apply Nat.eqb_neq in Hka, Hkb. rewrite Hka, Hkb. ring.
  - destruct (Nat.eq_dec i b) as [->|Hib].
    + rewrite (csum_pair d _ a b); trivial.
      * unfold two_level. rewrite !Nat.eqb_refl.
        replace (Nat.eqb b a) with false by (symmetry; apply Nat.eqb_neq; auto).
        destruct (Nat.eqb_spec j a); destruct (Nat.eqb_spec j b); try (subst; contradiction); ring.
      * intros k Hk Hka Hkb. unfold two_level. rewrite Nat.eqb_refl.
        replace (Nat.eqb b a) with false by (symmetry; apply Nat.eqb_neq; auto).
        apply Nat.eqb_neq in Hka, Hkb. rewrite Hka, Hkb. ring.
    + rewrite (csum_single d _ i); trivial.
      * unfold two_level. apply Nat.eqb_neq in Hia, Hib. rewrite Hia, Hib.
        unfold mid. rewrite Nat.eqb_refl. ring.
      * intros k Hk Hki. unfold two_level. apply Nat.eqb_neq in Hia, Hib. rewrite Hia, Hib.
        unfold mid. destruct (Nat.eqb_spec i k); [congruence|]. ring.
Qed.
Lemma two_level_id a b d : meq d (two_level a b C1 C0 C0 C1) mid.
Proof.
  intros i j _ _. unfold two_level, mid.
  destruct (Nat.eqb_spec i a) as [->|]; destruct (Nat.eqb_spec j a) as [->|];
    try (destruct (Nat.eqb_spec i b) as [->|]); try (destruct (Nat.eqb_spec j b) as [->|]);
    try rewrite Nat.eqb_refl; try reflexivity;
    repeat match goal with |- context [Nat.eqb ?u ?v] => destruct (Nat.eqb_spec u v); subst; try congruence end.
Qed.
Lemma two_level_adj a b d x y z w : a <> b ->
  meq d (madj (two_level a b x y z w)) (two_level a b (Cconj x) (Cconj z) (Cconj y) (Cconj w)).
Proof.
  intros Hab i j _ _. unfold madj, two_level, mid.
  destruct (Nat.eqb_spec i a); destruct (Nat.eqb_spec i b); destruct (Nat.eqb_spec j a); destruct (Nat.eqb_spec j b);
    subst; try contradiction; try reflexivity; try apply Cconj_C0;
    repeat match goal with |- context [Nat.eqb ?u ?v] => destruct (Nat.eqb_spec u v); subst; try congruence end;
    try apply Cconj_C0; try apply Cconj_C1.
Qed.
Lemma two_level_ext a b x y z w x' y' z' w' d :
  x = x' -> y = y' -> z = z' -> w = w' -> meq d (two_level a b x y z w) (two_level a b x' y' z' w').
Proof. intros -> -> -> ->. apply meq_refl. Qed.

(** 2x2 unitarity lifts *)
Lemma two_level_unitary d a b x y z w :
  (a < d)%nat -> (b < d)%nat -> a <> b ->
  Cconj x * x + Cconj z * z = C1 -> Cconj x * y + Cconj z * w = C0 -> Cconj y * y + Cconj w * w = C1 ->
  x * Cconj x + y * Cconj y = C1 -> x * Cconj z + y * Cconj w = C0 -> z * Cconj z + w * Cconj w = C1 ->
  unitary d (two_level a b x y z w).
Proof.
  intros Ha Hb Hab H1 H2 H3 H4 H5 H6. split.
  - eapply meq_trans; [apply mmul_ext; [apply two_level_adj; exact Hab|apply meq_refl]|].
    eapply meq_trans; [apply two_level_mul; assumption|].
    eapply meq_trans; [|apply two_level_id with (a := a) (b := b)].
    apply two_level_ext; trivial.
    apply (f_equal Cconj) in H2. rewrite Cconj_C0 in H2. rewrite <- H2.
    rewrite Cconj_add, !Cconj_mul, !Cconj_inv. ring.
  - eapply meq_trans; [apply mmul_ext; [apply meq_refl|apply two_level_adj; exact Hab]|].
    eapply meq_trans; [apply two_level_mul; assumption|].
    eapply meq_trans; [|apply two_level_id with (a := a) (b := b)].
    apply two_level_ext; trivial.
    apply (f_equal Cconj) in H5. rewrite Cconj_C0 in H5. rewrite <- H5.
    rewrite Cconj_add, !Cconj_mul, !Cconj_inv. ring.
Qed.

(** diagonal matrices *)
Definition mdiag (f : nat -> C) : mat := fun i j => if Nat.eqb i j then f i else C0.
Lemma mdiag_mul_l d f A : meq d (mmul d (mdiag f) A) (fun i j => f i * A i j).
Proof.
  intros i j Hi Hj. unfold mmul, mdiag. rewrite (csum_single d _ i); trivial.
  - rewrite Nat.eqb_refl. reflexivity.
  - intros k Hk Hn. destruct (Nat.eqb_spec i k); [congruence|]. ring.
Qed.
Lemma mdiag_mul_r d f A : meq d (mmul d A (mdiag f)) (fun i j => A i j * f j).
Proof.
  intros i j Hi Hj. unfold mmul, mdiag. rewrite (csum_single d _ j); trivial.
  - rewrite Nat.eqb_refl. reflexivity.
  - intros k Hk Hn. destruct (Nat.eqb_spec k j); [congruence|]. ring.
Qed.
Lemma mdiag_mul d f g : meq d (mmul d (mdiag f) (mdiag g)) (mdiag (fun i => f i * g i)).
Proof.
  intros i j Hi Hj. rewrite mdiag_mul_l by assumption. unfold mdiag.
  destruct (Nat.eqb i j); ring.
Qed.
Lemma mdiag_adj d f : meq d (madj (mdiag f)) (mdiag (fun i => Cconj (f i))).
Proof.
  intros i j Hi Hj. unfold madj, mdiag. rewrite Nat.eqb_sym.
  destruct (Nat.eqb_spec i j); [subst; reflexivity|apply Cconj_C0].
Qed.
Lemma mdiag_unitary d f : (forall i, (i < d)%nat -> Cnorm2 (f i) = 1%R) -> unitary d (mdiag f).
Proof.
  intros H. split.
  - eapply meq_trans; [apply mmul_ext; [apply mdiag_adj|apply meq_refl]|].
    eapply meq_trans; [apply mdiag_mul|].
    intros i j Hi Hj. unfold mdiag, mid. destruct (Nat.eqb i j); [|reflexivity].
    rewrite <- RtoC_1, <- (H i Hi), <- Cmul_conj. ring.
  - eapply meq_trans; [apply mmul_ext; [apply meq_refl|apply mdiag_adj]|].
    eapply meq_trans; [apply mdiag_mul|].
    intros i j Hi Hj. unfold mdiag, mid. destruct (Nat.eqb i j); [|reflexivity].
    rewrite Cmul_conj, H by exact Hi. reflexivity.
Qed.
Lemma unitary_norm2_col d A j : unitary d A -> (j < d)%nat ->
  csum d (fun i => Cconj (A i j) * A i j) = C1.
Proof.
  intros [H _] Hj. specialize (H j j Hj Hj). unfold mmul, madj, mid in H.
  rewrite Nat.eqb_refl in H. exact H.
Qed.
Close Scope C_scope.
