(** Matrices on a pair of qudits: the operators of one line, conjugation of two-level rotations, and the
    matrices that mix only the two lowest levels of both qudits. *)
From Coq Require Import Reals Lra Lia List Arith ZArith.
From Verif.Base Require Import Py Cplx Matrix Fiber.
From Verif.Gates Require Import AnglesModel AnglesSpec AnglesProofs SingleModel SingleSpec SingleProofs TwoModel TwoProofs.
Import ListNotations.
Local Open Scope C_scope.

(** *** A list of matrices, the first acting first *)
Definition chain (n : nat) (l : list mat) : mat := fold_left (fun M A => mmul n A M) l mid.
Lemma chain_from n l M : meq n (fold_left (fun M A => mmul n A M) l M) (mmul n (chain n l) M).
Proof.
  unfold chain. revert M. assert (G : forall l M N, meq n (fold_left (fun M A => mmul n A M) l (mmul n M N)) (mmul n (fold_left (fun M A => mmul n A M) l M) N)).
  { clear. induction l as [|A l IH]; intros M N; cbn [fold_left]; [apply meq_refl|].
    assert (E : forall l X Y, meq n X Y -> meq n (fold_left (fun M A => mmul n A M) l X) (fold_left (fun M A => mmul n A M) l Y)).
    { clear. induction l as [|A l IH]; intros X Y H; cbn [fold_left]; [exact H|]. apply IH. apply mmul_ext; [apply meq_refl|exact H]. }
    eapply meq_trans; [apply E, meq_sym, mmul_assoc|]. apply IH. }
  intros M. assert (E : forall l X Y, meq n X Y -> meq n (fold_left (fun M A => mmul n A M) l X) (fold_left (fun M A => mmul n A M) l Y)).
  { clear. induction l as [|A l IH]; intros X Y H; cbn [fold_left]; [exact H|]. apply IH. apply mmul_ext; [apply meq_refl|exact H]. }
  eapply meq_trans; [apply E, meq_sym, mmul_id_l|]. apply G.
Qed.
Lemma chain_cons n A l : meq n (chain n (A :: l)) (mmul n (chain n l) A).
Proof.
  unfold chain at 1. cbn [fold_left]. eapply meq_trans; [apply chain_from|]. apply mmul_ext; [apply meq_refl|apply mmul_id_r].
Qed.
Lemma chain_app n l1 l2 : meq n (chain n (l1 ++ l2)) (mmul n (chain n l2) (chain n l1)).
Proof. unfold chain at 1. rewrite fold_left_app. apply chain_from. Qed.
Lemma chain_ext n l1 l2 : Forall2 (meq n) l1 l2 -> meq n (chain n l1) (chain n l2).
Proof.
  induction 1 as [|A B l1 l2 H _ IH]; [apply meq_refl|].
  eapply meq_trans; [apply chain_cons|]. eapply meq_trans; [apply mmul_ext; [exact IH|exact H]|]. apply meq_sym, chain_cons.
Qed.
Lemma chain_unitary n l : Forall (unitary n) l -> unitary n (chain n l).
Proof.
  induction 1 as [|A l H _ IH]; [apply unitary_id|]. eapply unitary_ext; [apply meq_sym, chain_cons|]. apply unitary_mmul; assumption.
Qed.
(** An operator list that is undone: the adjoints in reverse order. *)
Lemma chain_adj n l : meq n (chain n (map madj (rev l))) (madj (chain n l)).
Proof.
  induction l as [|A l IH]; [cbn; apply meq_sym, madj_id|].
  cbn [rev]. rewrite map_app. cbn [map]. eapply meq_trans; [apply chain_app|].
  eapply meq_trans; [apply mmul_ext; [apply chain_cons|exact IH]|].
  eapply meq_trans; [|apply madj_ext, meq_sym, chain_cons].
  eapply meq_trans; [|apply meq_sym, madj_mmul]. apply mmul_ext; [|apply meq_refl]. apply mmul_id_l.
Qed.

(** *** Conjugating a two-level matrix *)
Lemma maps_col n P j c i : (j < n)%nat -> maps_ket n P j c i <-> forall k, (k < n)%nat -> P k j = if Nat.eqb k i then c else C0.
Proof.
  intros Hj. unfold maps_ket, veq. split; intros H k Hk; specialize (H k Hk); rewrite mapply_ket in * by exact Hj; unfold ket in *;
    destruct (Nat.eqb k i); rewrite H; ring.
Qed.
Lemma maps_comp n A B j c i c' i' : (j < n)%nat -> (i < n)%nat -> maps_ket n B j c i -> maps_ket n A i c' i' -> maps_ket n (mmul n A B) j (c' * c) i'.
Proof.
  intros Hj Hi HB HA. rewrite maps_col in * by assumption. intros k Hk. unfold mmul. rewrite (csum_single n _ i Hi).
  - rewrite HB, Nat.eqb_refl, HA by assumption. destruct (Nat.eqb k i'); ring.
  - intros l Hl N. rewrite HB by exact Hl. apply Nat.eqb_neq in N. rewrite N. ring.
Qed.
Lemma maps_ext n A B j c i : (j < n)%nat -> meq n A B -> maps_ket n B j c i -> maps_ket n A j c i.
Proof. intros Hj E H. rewrite maps_col in * by exact Hj. intros k Hk. rewrite E by assumption. apply H. exact Hk. Qed.
Lemma maps_id n j : (j < n)%nat -> maps_ket n mid j C1 j.
Proof. intros Hj. apply maps_col; [exact Hj|]. intros k _. reflexivity. Qed.

Lemma conj_two_level n P a b a' b' s1 s2 x y z w : unitary n P -> (a < n)%nat -> (b < n)%nat -> a <> b -> (a' < n)%nat -> (b' < n)%nat -> a' <> b' ->
  maps_ket n P a' s1 a -> maps_ket n P b' s2 b -> Cnorm2 s1 = 1%R -> Cnorm2 s2 = 1%R ->
  meq n (mmul n (madj P) (mmul n (two_level a b x y z w) P))
        (two_level a' b' x (Cconj s1 * s2 * y) (Cconj s2 * s1 * z) w).
Proof.
  intros U Ha Hb Hab Ha' Hb' Hab' M1 M2 N1 N2. rewrite maps_col in M1, M2 by assumption.
  assert (I1 : forall s, Cnorm2 s = 1%R -> Cconj s * s = C1).
  { intros (p, q). unfold Cnorm2. cbn. intros H. apply Ceq; cbn; [|ring]. rewrite <- H. ring. }
  assert (I2 : forall s, Cnorm2 s = 1%R -> s <> C0).
  { intros (p, q) H E. injection E as -> ->. unfold Cnorm2 in H. cbn in H. lra. }
  (* the rows a and b of P vanish outside a' and b' *)
  assert (R1 : forall s a a', (a < n)%nat -> (a' < n)%nat -> Cnorm2 s = 1%R -> (forall k, (k < n)%nat -> P k a' = if Nat.eqb k a then s else C0) -> forall j, (j < n)%nat -> j <> a' -> P a j = C0).
  { clear - U I2 I1. intros s a a' Ha Ha' Ns M j Hj N. destruct U as [U _]. specialize (U a' j Ha' Hj). unfold mmul, madj in U.
    rewrite (csum_single n _ a Ha) in U.
    - rewrite (M a Ha), Nat.eqb_refl in U. unfold mid in U. destruct (Nat.eqb_spec a' j) as [E|_]; [congruence|].
      transitivity (s * Cconj s * P a j); [replace (s * Cconj s) with C1 by (rewrite <- (I1 s Ns); ring); ring|].
      transitivity (s * (Cconj s * P a j)); [ring|]. rewrite U. ring.
    - intros k Hk Nk. rewrite (M k Hk). apply Nat.eqb_neq in Nk. rewrite Nk, Cconj_C0. ring. }
  assert (RA : forall j, (j < n)%nat -> P a j = if Nat.eqb j a' then s1 else C0).
  { intros j Hj. destruct (Nat.eqb_spec j a') as [->|N]; [rewrite (M1 a Ha), Nat.eqb_refl; reflexivity|]. eapply (R1 s1 a a'); trivial. }
  assert (RB : forall j, (j < n)%nat -> P b j = if Nat.eqb j b' then s2 else C0).
  { intros j Hj. destruct (Nat.eqb_spec j b') as [->|N]; [rewrite (M2 b Hb), Nat.eqb_refl; reflexivity|]. eapply (R1 s2 b b'); trivial. }
  intros i j Hi Hj. unfold mmul at 1.
  transitivity (csum n (fun k => madj P i k * (P k j + (if Nat.eqb k a then (x - C1) * P a j + y * P b j else if Nat.eqb k b then z * P a j + (w - C1) * P b j else C0)))).
  { apply csum_ext. intros k Hk. f_equal. unfold mmul.
    destruct (Nat.eqb_spec k a) as [->|Na]; [|destruct (Nat.eqb_spec k b) as [->|Nb]].
    - rewrite (csum_pair n _ a b Ha Hb Hab).
      + unfold two_level. rewrite !Nat.eqb_refl. replace (Nat.eqb b a) with false by (symmetry; apply Nat.eqb_neq; auto). unfold Csub. ring.
      + intros l Hl L1 L2. unfold two_level. rewrite Nat.eqb_refl. apply Nat.eqb_neq in L1, L2. rewrite L1, L2. ring.
    - rewrite (csum_pair n _ a b Ha Hb Hab).
      + unfold two_level. rewrite !Nat.eqb_refl. replace (Nat.eqb b a) with false by (symmetry; apply Nat.eqb_neq; auto). unfold Csub. ring.
      + intros l Hl L1 L2. unfold two_level. rewrite Nat.eqb_refl. replace (Nat.eqb b a) with false by (symmetry; apply Nat.eqb_neq; auto). apply Nat.eqb_neq in L1, L2. rewrite L1, L2. ring.
    - rewrite (csum_single n _ k Hk).
      + unfold two_level, mid. apply Nat.eqb_neq in Na, Nb. rewrite Na, Nb, Nat.eqb_refl. ring.
      + intros l Hl N. unfold two_level, mid. apply Nat.eqb_neq in Na, Nb. rewrite Na, Nb. destruct (Nat.eqb_spec k l); [congruence|]. ring. }
  rewrite (csum_ext n _ (fun k => madj P i k * P k j + madj P i k * (if Nat.eqb k a then (x - C1) * P a j + y * P b j else if Nat.eqb k b then z * P a j + (w - C1) * P b j else C0))) by (intros; ring).
  rewrite csum_add. destruct U as [U _]. specialize (U i j Hi Hj). unfold mmul in U. rewrite U.
  rewrite (csum_pair n _ a b Ha Hb Hab).
  - rewrite Nat.eqb_refl. replace (Nat.eqb b a) with false by (symmetry; apply Nat.eqb_neq; auto). rewrite Nat.eqb_refl.
    unfold madj. rewrite (RA i Hi), (RB i Hi), (RA j Hj), (RB j Hj). unfold two_level, mid.
    assert (X1 := I1 s1 N1). assert (X2 := I1 s2 N2).
    assert (Hba' : b' <> a') by auto. apply Nat.eqb_neq in Hab', Hba'.
    destruct (Nat.eqb_spec i a') as [->|]; [rewrite ?Hab', ?Hba'|destruct (Nat.eqb_spec i b') as [->|]; [rewrite ?Hab', ?Hba'|]];
    destruct (Nat.eqb_spec j a') as [->|]; rewrite ?Hab', ?Hba'; try (destruct (Nat.eqb_spec j b') as [->|]); rewrite ?Nat.eqb_refl, ?Hab', ?Hba', ?Cconj_C0;
    repeat match goal with |- context [Nat.eqb ?u ?v] => destruct (Nat.eqb_spec u v); [congruence|] end; unfold Csub.
    all: try (ring).
    all: try (transitivity ((Cconj s1 * s1) * x + (C1 - Cconj s1 * s1)); [unfold Csub; ring|rewrite X1; unfold Csub; ring]).
    all: try (transitivity ((Cconj s2 * s2) * w + (C1 - Cconj s2 * s2)); [unfold Csub; ring|rewrite X2; unfold Csub; ring]).
  - intros k Hk Na Nb. apply Nat.eqb_neq in Na, Nb. rewrite Na, Nb. ring.
Qed.
