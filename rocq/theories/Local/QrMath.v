(** Unitary matrices that are nearly upper triangular are nearly diagonal. *)
From Coq Require Import Reals Lra Lia Arith.
From Verif.Base Require Import Cplx Matrix Angle.
From Verif.Sim Require Import TnSpec.
Local Open Scope R_scope.

Lemma rsum_ext n f g : (forall k, (k < n)%nat -> f k = g k) -> rsum n f = rsum n g.
Proof. induction n as [|n IH]; cbn; intros H; [reflexivity|]. rewrite IH by (intros; apply H; lia). rewrite H by lia. reflexivity. Qed.
Lemma rsum_add n f g : rsum n (fun k => f k + g k) = rsum n f + rsum n g.
Proof. induction n as [|n IH]; cbn; [lra|]. rewrite IH. ring. Qed.
Lemma rsum_scal n c f : rsum n (fun k => c * f k) = c * rsum n f.
Proof. induction n as [|n IH]; cbn; [lra|]. rewrite IH. ring. Qed.
Lemma rsum_0 n f : (forall k, (k < n)%nat -> f k = 0) -> rsum n f = 0.
Proof. induction n as [|n IH]; cbn; intros H; [reflexivity|]. rewrite IH by (intros; apply H; lia). rewrite H by lia. ring. Qed.
Lemma rsum_le n f g : (forall k, (k < n)%nat -> f k <= g k) -> rsum n f <= rsum n g.
Proof. induction n as [|n IH]; cbn; intros H; [lra|]. assert (A := H n ltac:(lia)). assert (B : rsum n f <= rsum n g) by (apply IH; intros; apply H; lia). lra. Qed.
Lemma rsum_nonneg n f : (forall k, (k < n)%nat -> 0 <= f k) -> 0 <= rsum n f.
Proof. intros H. rewrite <- (rsum_0 n (fun _ => 0)) by reflexivity. apply rsum_le. exact H. Qed.
Lemma rsum_const n c : rsum n (fun _ => c) = INR n * c.
Proof. induction n as [|n IH]; [cbn; ring|]. rewrite S_INR. cbn [rsum]. rewrite IH. ring. Qed.
Lemma rsum_swap n m f : rsum n (fun i => rsum m (fun j => f i j)) = rsum m (fun j => rsum n (fun i => f i j)).
Proof.
  induction n as [|n IH]; cbn; [symmetry; apply rsum_0; reflexivity|]. rewrite IH, <- rsum_add. reflexivity.
Qed.
Lemma rsum_single n f k : (k < n)%nat -> (forall i, (i < n)%nat -> i <> k -> f i = 0) -> rsum n f = f k.
Proof.
  induction n as [|n IH]; intros Hk H; [lia|]. cbn. destruct (Nat.eq_dec k n) as [->|N].
  - rewrite rsum_0; [lra|]. intros; apply H; lia.
  - rewrite IH by (try lia; intros; apply H; lia). rewrite (H n) by lia. ring.
Qed.
Lemma rsum_pick n f a : (a < n)%nat -> rsum n (fun k => if Nat.eqb k a then f k else 0) = f a.
Proof.
  intros Ha. rewrite (rsum_single n _ a Ha); [rewrite Nat.eqb_refl; reflexivity|].
  intros i _ N. apply Nat.eqb_neq in N. now rewrite N.
Qed.
Lemma rsum_term n f k : (forall i, (i < n)%nat -> 0 <= f i) -> (k < n)%nat -> f k <= rsum n f.
Proof.
  intros P Hk. rewrite <- (rsum_pick n f k Hk). apply rsum_le. intros i Hi. destruct (Nat.eqb i k); [lra|apply P; exact Hi].
Qed.
(** Changing two terms without changing their sum. *)
Lemma rsum_two n f g a b : (a < n)%nat -> (b < n)%nat -> a <> b ->
  (forall k, (k < n)%nat -> k <> a -> k <> b -> f k = g k) -> f a + f b = g a + g b -> rsum n f = rsum n g.
Proof.
  intros Ha Hb Hab H E.
  assert (X : forall h, rsum n h = rsum n (fun k => if Nat.eqb k a then 0 else if Nat.eqb k b then 0 else h k) + (h a + h b)).
  { intros h. rewrite <- (rsum_pick n h a Ha), <- (rsum_pick n h b Hb), <- !rsum_add. apply rsum_ext. intros k _.
    destruct (Nat.eqb_spec k a) as [Ea|Ea]; destruct (Nat.eqb_spec k b) as [Eb|Eb]; try lra. congruence. }
  rewrite (X f), (X g), E. f_equal. apply rsum_ext. intros k Hk.
  destruct (Nat.eqb_spec k a) as [Ea|Ea]; destruct (Nat.eqb_spec k b) as [Eb|Eb]; try reflexivity. apply H; assumption.
Qed.

(** *** Unitary matrices *)
Lemma RtoC_rsum n f : RtoC (rsum n f) = csum n (fun k => RtoC (f k)).
Proof. induction n as [|n IH]; cbn; [reflexivity|]. rewrite RtoC_add, IH. reflexivity. Qed.
Lemma unitary_col d A j : unitary d A -> (j < d)%nat -> rsum d (fun i => Cnorm2 (A i j)) = 1.
Proof.
  intros U Hj. apply RtoC_inj. rewrite RtoC_rsum, RtoC_1, <- (unitary_norm2_col d A j U Hj). apply csum_ext. intros k _.
  rewrite <- Cmul_conj. apply Ceq; cbn; ring.
Qed.
Lemma unitary_row d A i : unitary d A -> (i < d)%nat -> rsum d (fun j => Cnorm2 (A i j)) = 1.
Proof.
  intros U Hi. rewrite <- (unitary_col d (madj A) i (unitary_adj d A U) Hi). apply rsum_ext. intros j _.
  unfold madj. symmetry. apply Cnorm2_conj.
Qed.
Lemma unitary_entry d A i j : unitary d A -> (i < d)%nat -> (j < d)%nat -> Cnorm2 (A i j) <= 1.
Proof.
  intros U Hi Hj. rewrite <- (unitary_row d A i U Hi). apply (rsum_term d (fun j => Cnorm2 (A i j)) j); [|exact Hj].
  intros; apply Cnorm2_nonneg.
Qed.

Definition ind (b : bool) : R := if b then 1 else 0.
Lemma ind_01 b : 0 <= ind b <= 1. Proof. destruct b; cbn; lra. Qed.

(** The weight above a cut equals the weight below it. *)
Lemma cut_balance d W (k : nat) : unitary d W ->
  rsum d (fun i => rsum d (fun j => ind (i <=? k)%nat * ind (k <? j)%nat * Cnorm2 (W i j))) =
  rsum d (fun j => rsum d (fun i => ind (j <=? k)%nat * ind (k <? i)%nat * Cnorm2 (W i j))).
Proof.
  intros U.
  assert (E : forall n m : nat, ind (k <? n)%nat = 1 - ind (n <=? k)%nat).
  { intros n _. destruct (Nat.leb_spec n k); destruct (Nat.ltb_spec k n); cbn; lra || lia. }
  assert (A : rsum d (fun i => rsum d (fun j => ind (i <=? k)%nat * ind (k <? j)%nat * Cnorm2 (W i j))) +
              rsum d (fun i => rsum d (fun j => ind (i <=? k)%nat * ind (j <=? k)%nat * Cnorm2 (W i j))) =
              rsum d (fun i => ind (i <=? k)%nat)).
  { rewrite <- rsum_add. apply rsum_ext. intros i Hi. rewrite <- rsum_add.
    rewrite (rsum_ext d _ (fun j => ind (i <=? k)%nat * Cnorm2 (W i j))) by (intros j _; rewrite (E j 0%nat); ring).
    rewrite rsum_scal, (unitary_row d W i U Hi). ring. }
  assert (B : rsum d (fun j => rsum d (fun i => ind (j <=? k)%nat * ind (k <? i)%nat * Cnorm2 (W i j))) +
              rsum d (fun j => rsum d (fun i => ind (j <=? k)%nat * ind (i <=? k)%nat * Cnorm2 (W i j))) =
              rsum d (fun j => ind (j <=? k)%nat)).
  { rewrite <- rsum_add. apply rsum_ext. intros j Hj. rewrite <- rsum_add.
    rewrite (rsum_ext d _ (fun i => ind (j <=? k)%nat * Cnorm2 (W i j))) by (intros i _; rewrite (E i 0%nat); ring).
    rewrite rsum_scal, (unitary_col d W j U Hj). ring. }
  assert (S : rsum d (fun i => rsum d (fun j => ind (i <=? k)%nat * ind (j <=? k)%nat * Cnorm2 (W i j))) =
              rsum d (fun j => rsum d (fun i => ind (j <=? k)%nat * ind (i <=? k)%nat * Cnorm2 (W i j)))).
  { rewrite rsum_swap. apply rsum_ext. intros j _. apply rsum_ext. intros i _. ring. }
  lra.
Qed.

(** The weight of column c below the diagonal. *)
Definition low (d : nat) (W : mat) (c : nat) : R := rsum d (fun r => ind (c <? r)%nat * Cnorm2 (W r c)).

Section Nearly.
  Variables (d : nat) (W : mat) (eps : R).
  Hypothesis U : unitary d W.
  Hypothesis E0 : 0 <= eps.
  Hypothesis L : forall c, (c < d)%nat -> low d W c <= INR d * (eps * eps).
  Let b := INR d * eps.

  Lemma below_cut k : rsum d (fun j => rsum d (fun i => ind (j <=? k)%nat * ind (k <? i)%nat * Cnorm2 (W i j))) <= b * b.
  Proof.
    unfold b. replace (INR d * eps * (INR d * eps)) with (INR d * (INR d * (eps * eps))) by ring.
    rewrite <- rsum_const. apply rsum_le. intros j Hj. refine (Rle_trans _ _ _ _ (L j Hj)).
    apply rsum_le. intros i Hi. assert (N := Cnorm2_nonneg (W i j)).
    destruct (Nat.leb_spec j k); destruct (Nat.ltb_spec k i); destruct (Nat.ltb_spec j i); cbn [ind]; try lia; lra.
  Qed.
  Lemma above_cut k : rsum d (fun i => rsum d (fun j => ind (i <=? k)%nat * ind (k <? j)%nat * Cnorm2 (W i j))) <= b * b.
  Proof. rewrite (cut_balance d W k U). apply below_cut. Qed.

  Lemma row_right i : (i < d)%nat -> rsum d (fun j => ind (i <? j)%nat * Cnorm2 (W i j)) <= b * b.
  Proof.
    intros Hi. refine (Rle_trans _ _ _ _ (above_cut i)).
    refine (Rle_trans _ _ _ _ (rsum_term d (fun i' => rsum d (fun j => ind (i' <=? i)%nat * ind (i <? j)%nat * Cnorm2 (W i' j))) i _ Hi)).
    - apply rsum_le. intros j Hj. rewrite Nat.leb_refl. cbn [ind]. lra.
    - intros k _. apply rsum_nonneg. intros j _. assert (N := Cnorm2_nonneg (W k j)).
      assert (A := ind_01 (k <=? i)%nat). assert (B := ind_01 (i <? j)%nat). apply Rmult_le_pos; [nra|exact N].
  Qed.
  Lemma row_left i : (i < d)%nat -> rsum d (fun j => ind (j <? i)%nat * Cnorm2 (W i j)) <= b * b.
  Proof.
    intros Hi. destruct i as [|k].
    - rewrite rsum_0; [apply Rle_0_sqr|]. intros j _. cbn. ring.
    - refine (Rle_trans _ _ _ _ (below_cut k)). rewrite rsum_swap.
      refine (Rle_trans _ _ _ _ (rsum_term d (fun i' => rsum d (fun j => ind (j <=? k)%nat * ind (k <? i')%nat * Cnorm2 (W i' j))) (S k) _ Hi)).
      + apply rsum_le. intros j Hj. assert (N := Cnorm2_nonneg (W (S k) j)).
        destruct (Nat.ltb_spec j (S k)); destruct (Nat.leb_spec j k); destruct (Nat.ltb_spec k (S k)); cbn [ind]; try lia; lra.
      + intros i _. apply rsum_nonneg. intros j _. assert (N := Cnorm2_nonneg (W i j)).
        assert (A := ind_01 (j <=? k)%nat). assert (B := ind_01 (k <? i)%nat). apply Rmult_le_pos; [nra|exact N].
  Qed.

  Lemma b_nonneg : 0 <= b.
  Proof. unfold b. assert (0 <= INR d) by apply pos_INR. nra. Qed.

  Lemma off_diagonal i j : (i < d)%nat -> (j < d)%nat -> i <> j -> Cmod (W i j) <= b.
  Proof.
    intros Hi Hj N. apply Cmod_le; [apply b_nonneg|]. destruct (Nat.lt_ge_cases i j) as [H|H].
    - refine (Rle_trans _ _ _ _ (row_right i Hi)).
      refine (Rle_trans _ _ _ _ (rsum_term d (fun j => ind (i <? j)%nat * Cnorm2 (W i j)) j _ Hj)).
      + apply Nat.ltb_lt in H. rewrite H. cbn [ind]. lra.
      + intros k _. assert (P := Cnorm2_nonneg (W i k)). assert (A := ind_01 (i <? k)%nat). nra.
    - refine (Rle_trans _ _ _ _ (row_left i Hi)).
      refine (Rle_trans _ _ _ _ (rsum_term d (fun j => ind (j <? i)%nat * Cnorm2 (W i j)) j _ Hj)).
      + assert (H' : (j < i)%nat) by lia. apply Nat.ltb_lt in H'. rewrite H'. cbn [ind]. lra.
      + intros k _. assert (P := Cnorm2_nonneg (W i k)). assert (A := ind_01 (k <? i)%nat). nra.
  Qed.
  Lemma on_diagonal i : (i < d)%nat -> 1 - 2 * (b * b) <= Cmod (W i i) <= 1.
  Proof.
    intros Hi. assert (R := unitary_row d W i U Hi). assert (A := row_right i Hi). assert (B := row_left i Hi).
    assert (S : rsum d (fun j => Cnorm2 (W i j)) = rsum d (fun j => ind (i <? j)%nat * Cnorm2 (W i j)) +
                rsum d (fun j => ind (j <? i)%nat * Cnorm2 (W i j)) + Cnorm2 (W i i)).
    { rewrite <- (rsum_pick d (fun j => Cnorm2 (W i j)) i Hi), <- !rsum_add. apply rsum_ext. intros j _.
      destruct (Nat.ltb_spec i j); destruct (Nat.ltb_spec j i); destruct (Nat.eqb_spec j i); cbn [ind]; try lia; ring. }
    assert (M := Cmod_nonneg (W i i)). assert (Q := Cmod_sqr (W i i)).
    assert (H1 : Cmod (W i i) <= 1).
    { apply Cmod_le; [lra|]. assert (X := unitary_entry d W i i U Hi Hi). lra. }
    split; [|exact H1]. nra.
  Qed.
End Nearly.
