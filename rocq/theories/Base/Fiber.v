(** Matrices that are block diagonal over the fibres of a map.  [rest] labels the block a basis
    state lies in and [sub] its position inside the block. *)
From Coq Require Import List Arith Lia.
From Verif Require Import Base.Cplx Base.Matrix.
Open Scope C_scope.

Section Fiber.
Context {T : Type} (eqT : T -> T -> bool) (eqT_spec : forall a b, eqT a b = true <-> a = b).
Variables (N m : nat) (rest : nat -> T) (sub : nat -> nat).

Record fibration : Prop := {
  fib_lt : forall r, (r < N)%nat -> (sub r < m)%nat;
  fib_inj : forall r c, (r < N)%nat -> (c < N)%nat -> rest r = rest c -> sub r = sub c -> r = c;
  fib_ex : forall r k, (r < N)%nat -> (k < m)%nat -> exists c, (c < N)%nat /\ rest c = rest r /\ sub c = k
}.

Definition fmat (F : T -> mat) : mat := fun r c =>
  if eqT (rest r) (rest c) then F (rest r) (sub r) (sub c) else C0.

Hypothesis Hf : fibration.

Lemma eqT_refl a : eqT a a = true.
Proof. apply eqT_spec. reflexivity. Qed.

Lemma csum_fiber r f : (r < N)%nat ->
  csum N (fun c => if eqT (rest r) (rest c) then f (sub c) else C0) = csum m f.
Proof.
  intros Hr.
  transitivity (csum N (fun c => csum m (fun k => if Nat.eqb (sub c) k then (if eqT (rest r) (rest c) then f (sub c) else C0) else C0))).
  - apply csum_ext. intros c Hc. symmetry. rewrite (csum_single m _ (sub c)).
    + rewrite Nat.eqb_refl. reflexivity.
    + apply (fib_lt Hf). exact Hc.
    + intros k _ Hk. destruct (Nat.eqb_spec (sub c) k); [congruence|reflexivity].
  - rewrite csum_swap. apply csum_ext. intros k Hk.
    destruct (fib_ex Hf r k Hr Hk) as (c & Hc & E & Es). rewrite (csum_single N _ c Hc).
    + rewrite Es, Nat.eqb_refl, E, eqT_refl. reflexivity.
    + intros c' Hc' Hne. destruct (Nat.eqb_spec (sub c') k) as [E1|]; [|reflexivity].
      destruct (eqT (rest r) (rest c')) eqn:E2; [|reflexivity]. apply eqT_spec in E2.
      exfalso. apply Hne. apply (fib_inj Hf); congruence.
Qed.

Lemma fmat_mul F G : meq N (mmul N (fmat F) (fmat G)) (fmat (fun t => mmul m (F t) (G t))).
Proof.
  intros r c Hr Hc. unfold mmul, fmat at 3.
  destruct (eqT (rest r) (rest c)) eqn:E.
  - rewrite <- (csum_fiber r (fun k => F (rest r) (sub r) k * G (rest r) k (sub c)) Hr).
    apply csum_ext. intros k Hk. unfold fmat. destruct (eqT (rest r) (rest k)) eqn:E2; [|ring].
    apply eqT_spec in E, E2. rewrite <- E2, E, eqT_refl. reflexivity.
  - apply csum_0. intros k Hk. unfold fmat. destruct (eqT (rest r) (rest k)) eqn:E1; [|ring].
    apply eqT_spec in E1. rewrite <- E1, E. ring.
Qed.
Lemma fmat_id : meq N (fmat (fun _ => mid)) mid.
Proof.
  intros r c Hr Hc. unfold fmat, mid. destruct (Nat.eqb_spec r c) as [->|Hne].
  - rewrite eqT_refl, Nat.eqb_refl. reflexivity.
  - destruct (eqT (rest r) (rest c)) eqn:E; [|reflexivity]. apply eqT_spec in E.
    destruct (Nat.eqb_spec (sub r) (sub c)) as [Es|]; [|reflexivity].
    exfalso. apply Hne. apply (fib_inj Hf); assumption.
Qed.
Lemma fmat_adj F : meq N (madj (fmat F)) (fmat (fun t => madj (F t))).
Proof.
  intros r c Hr Hc. unfold madj, fmat.
  destruct (eqT (rest c) (rest r)) eqn:E.
  - apply eqT_spec in E. rewrite E, eqT_refl. reflexivity.
  - destruct (eqT (rest r) (rest c)) eqn:E2; [|apply Cconj_C0].
    apply eqT_spec in E2. rewrite E2, eqT_refl in E. discriminate.
Qed.
Lemma fmat_ext F G : (forall t, (exists r, (r < N)%nat /\ rest r = t) -> meq m (F t) (G t)) -> meq N (fmat F) (fmat G).
Proof.
  intros H r c Hr Hc. unfold fmat. destruct (eqT (rest r) (rest c)); [|reflexivity].
  apply H; [eauto| |]; apply (fib_lt Hf); assumption.
Qed.
Lemma fmat_unitary F : (forall t, (exists r, (r < N)%nat /\ rest r = t) -> unitary m (F t)) -> unitary N (fmat F).
Proof.
  intros H. split.
  - eapply meq_trans; [apply mmul_ext; [apply fmat_adj|apply meq_refl]|].
    eapply meq_trans; [apply fmat_mul|]. eapply meq_trans; [|apply fmat_id].
    apply fmat_ext. intros t Ht. apply H. exact Ht.
  - eapply meq_trans; [apply mmul_ext; [apply meq_refl|apply fmat_adj]|].
    eapply meq_trans; [apply fmat_mul|]. eapply meq_trans; [|apply fmat_id].
    apply fmat_ext. intros t Ht. apply H. exact Ht.
Qed.
(** Conversely the blocks of a unitary fibred matrix are unitary. *)
Lemma fmat_unitary_inv F r : (r < N)%nat -> unitary N (fmat F) -> unitary m (F (rest r)).
Proof.
  intros Hr [H1 H2].
  assert (Key : forall F', meq N (fmat F') mid -> meq m (F' (rest r)) mid).
  { intros F' H i j Hi Hj.
    destruct (fib_ex Hf r i Hr Hi) as (a & Ha & Ea & Sa). destruct (fib_ex Hf r j Hr Hj) as (b & Hb & Eb & Sb).
    specialize (H a b Ha Hb). unfold fmat in H. rewrite Ea, Eb, eqT_refl, Sa, Sb in H. rewrite H.
    unfold mid. destruct (Nat.eqb_spec a b) as [->|Hne].
    - rewrite Sa in Sb. subst. rewrite Nat.eqb_refl. reflexivity.
    - destruct (Nat.eqb_spec i j) as [->|]; [|reflexivity]. exfalso. apply Hne. apply (fib_inj Hf); congruence. }
  split.
  - apply (Key (fun t => mmul m (madj (F t)) (F t))). eapply meq_trans; [apply meq_sym; apply fmat_mul|].
    eapply meq_trans; [apply mmul_ext; [apply meq_sym; apply fmat_adj|apply meq_refl]|]. exact H1.
  - apply (Key (fun t => mmul m (F t) (madj (F t)))). eapply meq_trans; [apply meq_sym; apply fmat_mul|].
    eapply meq_trans; [apply mmul_ext; [apply meq_refl|apply meq_sym; apply fmat_adj]|]. exact H2.
Qed.
End Fiber.
