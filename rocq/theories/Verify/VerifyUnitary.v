(** What a positive answer means for unitary gates. *)
From Coq Require Import Reals Lra Lia List ZArith Arith Permutation Bool.
From Verif.Base Require Import Py Cplx Matrix Radix Angle.
From Verif.Sim Require Import TnSpec TnProofs.
From Verif.Misim Require Import DdModel DdProofs.
From Verif.Visual Require Import VisSpec.
From Verif.Verify Require Import VerifyModel VerifySpec VerifyProofs.
Import ListNotations.
Local Open Scope nat_scope.

Lemma runs_norm n ms : (forall A, In A ms -> unitary n A) -> forall v, norm2 n (runs n ms v) = norm2 n v.
Proof.
  induction ms as [|A ms IH]; intros F v; [reflexivity|]. cbn [runs]. rewrite IH by (intros; apply F; now right). apply norm2_unitary, F. now left.
Qed.
Lemma moved_norm n a b u w : placement n a -> placement n b -> (forall j, j < n -> u (entry a j) = w (entry b j)) -> norm2 n u = norm2 n w.
Proof.
  intros Pa Pb H. destruct (perm_ok n b a Pb Pa) as (P & _ & HP). destruct (perm_inverse n b a P Pb Pa HP) as [I1 I2].
  assert (R : forall s t, Cconj (P s t) = P s t).
  { intros s t. rewrite HP, csum_conj. apply csum_ext. intros k _. destruct (_ && _); [apply Cconj_C1|apply Cconj_C0]. }
  assert (Un : unitary n P).
  { split.
    - eapply meq_trans; [|exact I2]. apply mmul_ext; [|apply meq_refl]. intros i j _ _. apply R.
    - eapply meq_trans; [|exact I1]. apply mmul_ext; [apply meq_refl|]. intros i j _ _. apply R. }
  rewrite <- (norm2_unitary n P w Un). apply norm2_ext. intros k Hk. destruct (entry_onto n a k Pa Hk) as (j & Hj & <-). rewrite (H j Hj).
  symmetry. exact (perm_apply n b a P Pb Pa HP (fun i _ => w i) j 0 Hj).
Qed.
Lemma rsum_bound n f b : (forall k, 0 < k < n -> (f k <= b)%R) -> 0 < n -> (rsum n f <= f 0%nat + INR (n - 1) * b)%R.
Proof.
  intros F. induction n as [|n IH]; intros H; [lia|]. cbn [rsum]. destruct n as [|n].
  - cbn. lra.
  - assert (B := F (S n) ltac:(lia)). assert (Q := IH ltac:(intros; apply F; lia) ltac:(lia)). replace (S (S n) - 1) with (S (S n - 1)) by lia. rewrite S_INR. lra.
Qed.
Lemma rsum_first n f : (forall k, k < n -> (0 <= f k)%R) -> 0 < n -> (f 0%nat <= rsum n f)%R.
Proof.
  intros F. induction n as [|n IH]; intros H; [lia|]. cbn [rsum]. destruct n as [|n].
  - cbn. lra.
  - assert (B := F (S n) ltac:(lia)). assert (Q := IH ltac:(intros; apply F; lia) ltac:(lia)). lra.
Qed.
Lemma Cmod_one : Cmod C1 = 1%R.
Proof. rewrite <- RtoC_1. apply Cmod_RtoC. lra. Qed.
Lemma Cmod_zero : Cmod C0 = 0%R.
Proof. now apply Cmod_0. Qed.

Lemma normalised_factor n U : 0 < n -> U 0 0 <> C0 -> close n U (U 0 0) (Cmod (U 0 0) / 10000) -> norm2 n (fun r => U r 0) = 1%R ->
  exists c, Cmod c = 1%R /\ close n U c (1 / 10000 + INR (n - 1) / 100000000).
Proof.
  intros Hn Ht F N. set (t := U 0 0) in *. set (x := Cmod t). assert (Xp : (0 < x)%R) by (apply Cmod_pos, Ht).
  assert (B1 : (1 <= x * x + INR (n - 1) * (x * x / 100000000))%R).
  { rewrite <- N. unfold norm2. replace (x * x)%R with (Cnorm2 (U 0%nat 0%nat)) at 1 by (symmetry; apply Cmod_sqr).
    apply (rsum_bound n (fun k => Cnorm2 (U k 0%nat))); [|exact Hn]. intros k [K1 K2]. rewrite <- Cmod_sqr.
    assert (Q := F k 0 K2 Hn). replace (mid k 0) with C0 in Q by (unfold mid; destruct (Nat.eqb_spec k 0); [lia|reflexivity]). replace (Csub (U k 0) (Cmul t C0)) with (U k 0) in Q by ring. fold x in Q.
    pose proof (Cmod_nonneg (U k 0)). apply Rle_trans with (x / 10000 * (x / 10000))%R; [|lra]. apply Rmult_le_compat; lra. }
  assert (B2 : (x * x <= 1)%R).
  { rewrite <- N. unfold x. rewrite Cmod_sqr. apply (rsum_first n (fun k => Cnorm2 (U k 0%nat))); [intros; apply Cnorm2_nonneg|exact Hn]. }
  assert (B3 : (x <= 1)%R) by (destruct (Rle_dec x 1); [assumption|]; assert (1 * 1 < x * x)%R by (apply Rmult_le_0_lt_compat; lra); lra).
  assert (XX : (x * x <= x)%R) by (rewrite <- (Rmult_1_r x) at 3; apply Rmult_le_compat_l; lra).
  assert (I0 : (0 <= INR (n - 1))%R) by apply pos_INR.
  assert (B4 : (1 - x <= INR (n - 1) / 100000000)%R).
  { assert (INR (n - 1) * (x * x / 100000000) <= INR (n - 1) * (1 / 100000000))%R by (apply Rmult_le_compat_l; lra). lra. }
  exists (Cmul (RtoC (/ x)) t). split.
  - rewrite Cmod_mul, Cmod_RtoC by (left; apply Rinv_0_lt_compat, Xp). fold x. field. lra.
  - intros r c Hr Hc. specialize (F r c Hr Hc). fold x in F.
    assert (D : (Cmod (Csub (Cmul t (mid r c)) (Cmul (Cmul (RtoC (/ x)) t) (mid r c))) <= 1 - x)%R).
    { replace (Csub (Cmul t (mid r c)) (Cmul (Cmul (RtoC (/ x)) t) (mid r c))) with (Cmul (Cmul (Csub C1 (RtoC (/ x))) t) (mid r c)) by ring.
      rewrite !Cmod_mul. fold x. rewrite Cmod_sym. replace (Csub (RtoC (/ x)) C1) with (RtoC (/ x - 1)) by (rewrite <- RtoC_1; apply Ceq; cbn; ring).
      assert (Y : (1 <= / x)%R) by (rewrite <- Rinv_1; apply Rinv_le_contravar; lra). rewrite Cmod_RtoC by lra.
      replace ((/ x - 1) * x)%R with (1 - x)%R by (field; lra). unfold mid. destruct (Nat.eqb r c); rewrite ?Cmod_one, ?Cmod_zero; lra. }
    pose proof (triangle3 (U r c) (Cmul t (mid r c)) (Cmul (Cmul (RtoC (/ x)) t) (mid r c))). lra.
Qed.

Lemma column_norm n s T nd im fm U : 0 < n -> placement n nd -> placement n im -> placement n fm -> (forall a, In a s -> unitary n (snd a)) -> unitary n T ->
  final_amplitudes n s T nd im fm U -> norm2 n (fun r => U r 0) = 1%R.
Proof.
  intros Hn Pn Pi Pf Us UT F. destruct (perm_ok n nd im Pn Pi) as (P & _ & HP).
  set (v := mapply n P (mapply n T (ket 0))).
  assert (V : put_at n nd im (mapply n T (ket 0)) v) by (intros i Hi; exact (perm_apply n nd im P Pn Pi HP (fun k _ => mapply n T (ket 0) k) i 0 Hi)).
  rewrite (moved_norm n nd fm (fun r => U r 0) (runs n (map snd s) v) Pn Pf) by (intros j Hj; symmetry; apply F; assumption).
  rewrite runs_norm by (intros A I; apply in_map_iff in I; destruct I as (a & <- & I); apply Us, I).
  rewrite (moved_norm n im nd v (mapply n T (ket 0)) Pi Pn V). rewrite norm2_unitary by exact UT. apply norm2_ket, Hn.
Qed.

Lemma effective_placement n nodes imap fmap nd im fm : effective n nodes imap fmap nd im fm -> placement n nd /\ placement n im /\ placement n fm.
Proof. intros [(_ & _ & _ & H)|(_ & -> & -> & ->)]; [exact H|]. pose proof (placement_in_order n). auto. Qed.
Lemma verify_any inv dims s T nodes imap fmap nd im fm : inverts inv -> dims <> [] -> 0 < prodl dims -> (forall a, In a s -> fst a = prodl dims) ->
  effective (prodl dims) nodes imap fmap nd im fm ->
  exists V U, new_verifier s (prodl dims, T) dims nodes imap fmap = Ok V /\ final_amplitudes (prodl dims) s T nd im fm U /\
    verify inv V = Ok (near_identity (prodl dims) U) /\
    forall t eps, undone (prodl dims) (map snd s) T nd im fm t eps <-> close (prodl dims) U t eps.
Proof.
  intros Hinv NE Hn Hs E. destruct (effective_placement _ _ _ _ _ _ _ E) as (Pn & Pi & Pf).
  assert (Q : exists V U, new_verifier s (prodl dims, T) dims nodes imap fmap = Ok V /\ final_amplitudes (prodl dims) s T nd im fm U /\ verify inv V = Ok (near_identity (prodl dims) U)).
  { destruct E as [(-> & -> & -> & _)|(O & -> & -> & ->)]; [apply verify_maps; auto|apply verify_plain; auto]. }
  destruct Q as (V & U & Q1 & Q2 & Q3). exists V, U. repeat (split; [assumption|]). intros t eps. apply (undone_close (prodl dims) dims Hn (conj NE eq_refl)); assumption.
Qed.
