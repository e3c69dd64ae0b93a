(** Proofs about the objective of the sparsifier for unitary matrices. *)
From Coq Require Import Reals List Lia Lra Arith ZArith.
From Verif.Base Require Import Py Cplx Matrix Radix Angle PyFacts.
From Verif.Gates Require Import FactorySpec.
From Verif.Variational Require Import AnsatzModel AnsatzSpec AnsatzProofs SudProofs EmitProofs EmitCases AnsatzUnitary SparseModel SparseSpec SparseProofs.
Import ListNotations.
Local Open Scope R_scope.

Lemma entries_ext {A} n (f g : nat -> nat -> A) : (forall i j, (i < n)%nat -> (j < n)%nat -> f i j = g i j) -> entries n f = entries n g.
Proof.
  intros H. unfold entries. rewrite !flat_map_concat_map. f_equal. apply map_ext_in. intros i I. apply in_seq in I. apply map_ext_in. intros j J. apply in_seq in J. apply H; lia.
Qed.
Lemma entries_length {A} n (f : nat -> nat -> A) : length (entries n f) = (n * n)%nat.
Proof.
  unfold entries. assert (H : forall l, length (flat_map (fun i => map (f i) (seq 0 n)) l) = (length l * n)%nat).
  { induction l as [|x l IH]; [reflexivity|]. cbn [flat_map length]. rewrite app_length, map_length, seq_length, IH. lia. }
  rewrite H, seq_length. reflexivity.
Qed.
Lemma entries_In {A} n (f : nat -> nat -> A) i j : (i < n)%nat -> (j < n)%nat -> In (f i j) (entries n f).
Proof. intros Hi Hj. apply in_flat_map. exists i. split; [apply in_seq; lia|]. apply in_map, in_seq. lia. Qed.

Definition ghost (n : nat) (m : mat) : list R := entries n (fun i j => Rabs (Re (m i j)) + Rabs (Im (m i j))).
Lemma ghost_ext n m m' : meq n m m' -> ghost n m = ghost n m'.
Proof. intros H. apply entries_ext. intros i j Hi Hj. rewrite (H i j Hi Hj). reflexivity. Qed.
Lemma ghost_zero z : Rabs (Re z) + Rabs (Im z) = 0 -> z = C0.
Proof.
  intros E. pose proof (Rabs_pos (Re z)). pose proof (Rabs_pos (Im z)). apply Ceq; cbn; [destruct (Req_dec (fst z) 0) as [Q|Q]|destruct (Req_dec (snd z) 0) as [Q|Q]]; try exact Q; exfalso; apply Rabs_pos_lt in Q; unfold Re, Im in *; lra.
Qed.
Lemma unitary_nonzero n U : (0 < n)%nat -> unitary n U -> exists i j, (i < n)%nat /\ (j < n)%nat /\ U i j <> C0.
Proof.
  intros Hn [H _]. specialize (H 0%nat 0%nat Hn Hn). destruct (existsb (fun k => if Req_EM_T (Cnorm2 (U k 0%nat)) 0 then false else true) (seq 0 n)) eqn:E.
  - apply existsb_exists in E. destruct E as (k & I & E). apply in_seq in I. destruct (Req_EM_T _ 0) as [Q|Q]; [discriminate|]. exists k, 0%nat. split; [lia|]. split; [exact Hn|]. intros Z. apply Q. rewrite Z. unfold Cnorm2, C0. cbn. ring.
  - exfalso. unfold mmul, madj, mid in H. rewrite csum_0 in H; [cbn in H; exact (C1_neq_C0 (eq_sym H))|]. intros k Hk.
    assert (Z : U k 0%nat = C0). { apply Cnorm2_0. destruct (Req_EM_T (Cnorm2 (U k 0%nat)) 0) as [Q|Q]; [exact Q|]. exfalso. assert (T : existsb (fun k => if Req_EM_T (Cnorm2 (U k 0%nat)) 0 then false else true) (seq 0 n) = true); [|congruence]. apply existsb_exists. exists k. split; [apply in_seq; lia|]. destruct (Req_EM_T _ 0); [contradiction|reflexivity]. }
    rewrite Z. ring.
Qed.

Lemma objective_range expm p m d0 d1 v : objective_function expm p m d0 d1 = Ok v -> 0 <= v <= 1.
Proof.
  unfold objective_function. destruct (apply_rotations expm m p d0 d1) as [u|]; [|discriminate]. cbn [bindr]. destruct (compute_f _) as [f|] eqn:E; [|discriminate]. cbn [bindr]. intros [= <-].
  apply compute_range in E. match goal with |- 0 <= _ * density ?l <= 1 => pose proof (density_range l) as D; set (y := density l) in * end. clearbody y. nra.
Qed.

Section Returns.
Variable expm : nat -> mat -> mat.
Hypothesis EX : exact_expm expm.
Variables d0 d1 : nat.
Hypothesis H0 : (2 <= d0)%nat.
Hypothesis H1 : (2 <= d1)%nat.

Lemma rotations_return p m : length p = (2 * (sud_params d0 + sud_params d1))%nat -> unitary (d0 * d1) m ->
  exists U, apply_rotations expm m p d0 d1 = Ok U /\ unitary (d0 * d1) U.
Proof.
  intros L Um. assert (S0 : (0 < sud_params d0 + sud_params d1)%nat) by (unfold sud_params; nia).
  destruct (split_accepts p d0 d1 2 S0 L) as (bs & E & B). destruct bs as [|b0 [|b1 [|b2 [|b3 [|b4 bs]]]]]; cbn [blocks] in B; try tauto.
  destruct B as (L0 & L1 & L2 & L3 & _).
  destruct (sud_closed expm EX b0 d0) as (s0 & E0 & _); [lia|]. destruct (sud_closed expm EX b1 d1) as (s1 & E1 & _); [lia|].
  destruct (sud_closed expm EX b2 d0) as (s2 & E2 & _); [lia|]. destruct (sud_closed expm EX b3 d1) as (s3 & E3 & _); [lia|].
  unfold apply_rotations. rewrite E. cbn [bindr].
  rewrite (rot0 d0 d1 expm [b0; b1; b2; b3] 0 b0 s0 eq_refl E0), (rot1 d0 d1 expm [b0; b1; b2; b3] 1 b1 s1 eq_refl E1),
    (rot0 d0 d1 expm [b0; b1; b2; b3] 2 b2 s2 eq_refl E2), (rot1 d0 d1 expm [b0; b1; b2; b3] 3 b3 s3 eq_refl E3). cbn [bindr snd].
  eexists. split; [reflexivity|]. replace (prodl [d0; d1]) with (d0 * d1)%nat by (cbn; lia).
  assert (K0 : forall s, unitary d0 s -> unitary (d0 * d1) (mkron d1 s mid)).
  { intros s U. replace (d0 * d1)%nat with (prodl [d0; d1]) by (cbn; lia). apply (kron_unitary d0 d1 H0 H1 0 d0 s (d0 * d1, mkron d1 s mid)%nat); [reflexivity|exact U|apply expand0]. }
  assert (K1 : forall s, unitary d1 s -> unitary (d0 * d1) (mkron d1 mid s)).
  { intros s U. replace (d0 * d1)%nat with (prodl [d0; d1]) by (cbn; lia). apply (kron_unitary d0 d1 H0 H1 1 d1 s (d0 * d1, mkron d1 mid s)%nat); [reflexivity|exact U|apply expand1]. }
  repeat apply unitary_mmul; try assumption; try (apply K0; eapply sud_returned; eassumption); apply K1; eapply sud_returned; eassumption.
Qed.
Lemma ghost_measurable n U : (2 <= n)%nat -> unitary n U -> measurable (map RtoC (ghost n U)).
Proof.
  intros Hn Un. split; [rewrite map_length; unfold ghost; rewrite entries_length; nia|]. destruct (unitary_nonzero n U) as (i & j & Hi & Hj & Z); [lia|exact Un|].
  exists (RtoC (Rabs (Re (U i j)) + Rabs (Im (U i j)))). split; [apply in_map; apply (entries_In n (fun i j => Rabs (Re (U i j)) + Rabs (Im (U i j))) i j Hi Hj)|].
  intros E. apply Z, ghost_zero. apply (f_equal fst) in E. exact E.
Qed.
Lemma objective_returns p m : length p = (2 * (sud_params d0 + sud_params d1))%nat -> unitary (d0 * d1) m -> exists v, objective_function expm p m d0 d1 = Ok v.
Proof.
  intros L Um. destruct (rotations_return p m L Um) as (U & E & UU). unfold objective_function. rewrite E. cbn [bindr]. replace (prodl [d0; d1]) with (d0 * d1)%nat by (cbn; lia). fold (ghost (d0 * d1) U).
  rewrite compute_closed by (apply ghost_measurable; [nia|exact UU]). cbn [bindr]. eauto.
Qed.
End Returns.

(** *** The global phase *)
Section Phase.
Variable expm : nat -> mat -> mat.
Hypothesis EX : exact_expm expm.
Lemma still_rotations m : exists U, apply_rotations expm m still 2 2 = Ok U /\ meq 4 U m.
Proof.
  destruct (sud_zero expm EX) as (sz & Ez & Mz). unfold apply_rotations. rewrite split_still. cbn [bindr].
  rewrite (rot0 2 2 expm [z3; z3; z3; z3] 0 z3 sz eq_refl Ez), (rot1 2 2 expm [z3; z3; z3; z3] 1 z3 sz eq_refl Ez),
    (rot0 2 2 expm [z3; z3; z3; z3] 2 z3 sz eq_refl Ez), (rot1 2 2 expm [z3; z3; z3; z3] 3 z3 sz eq_refl Ez). cbn [bindr snd].
  eexists. split; [reflexivity|]. change (prodl [2%nat; 2%nat]) with 4%nat.
  assert (RR : forall A B : mat, meq 4 B mid -> meq 4 (mmul 4 A B) A) by (intros A B Q; eapply meq_trans; [apply mmul_ext; [apply meq_refl|exact Q]|apply mmul_id_r]).
  assert (LL : forall A B : mat, meq 4 A mid -> meq 4 (mmul 4 A B) B) by (intros A B Q; eapply meq_trans; [apply mmul_ext; [exact Q|apply meq_refl]|apply mmul_id_l]).
  eapply meq_trans; [apply RR, k_id1, Mz|]. eapply meq_trans; [apply RR, k_id0, Mz|]. apply LL. eapply meq_trans; [apply RR, k_id1, Mz|]. apply k_id0, Mz.
Qed.
Lemma still_objective m a b : 0 < b -> a = total (ghost 4 m) -> b * b = total (map (fun x => x * x) (ghost 4 m)) -> large (ghost 4 m) 4 ->
  objective_function expm still m 2 2 = Ok ((a - b) / (3 * b) / 4).
Proof.
  intros Hb Ea Eb La. destruct (still_rotations m) as (U & E & M). unfold objective_function. rewrite E. cbn [bindr]. change (prodl [2%nat; 2%nat]) with 4%nat. fold (ghost 4 U). rewrite (ghost_ext 4 U m M).
  assert (Pos : forall x, In x (ghost 4 m) -> 0 <= x).
  { intros x I. apply in_flat_map in I. destruct I as (i & _ & I). apply in_map_iff in I. destruct I as (j & <- & _). pose proof (Rabs_pos (Re (m i j))). pose proof (Rabs_pos (Im (m i j))). lra. }
  assert (MG : mags (map RtoC (ghost 4 m)) = ghost 4 m).
  { unfold mags. rewrite map_map. rewrite <- (map_id (ghost 4 m)) at 2. apply map_ext_in. intros x I. apply Cmod_RtoC, Pos, I. }
  assert (F : frobenius_norm (map RtoC (ghost 4 m)) = b) by (rewrite frob_sq, MG; unfold sq; rewrite <- Eb; apply sqrt_square; lra).
  assert (T : manhattan_norm (map RtoC (ghost 4 m)) = a) by (unfold manhattan_norm; fold (mags (map RtoC (ghost 4 m))); rewrite MG; symmetry; exact Ea).
  assert (Ms : measurable (map RtoC (ghost 4 m))) by (split; [rewrite map_length; unfold ghost; rewrite entries_length; lia|apply frob_pos; rewrite F; exact Hb]).
  rewrite compute_closed by exact Ms. cbn [bindr]. rewrite F, T, map_length, (density_large _ 4 La). unfold ghost. rewrite entries_length.
  replace (sqrt (INR (4 * 4))) with 4 by (replace (INR (4 * 4)) with (4 * 4) by (cbn; lra); symmetry; apply sqrt_square; lra).
  f_equal. replace (INR 4) with 4 by (cbn; lra). replace (INR (4 * 4)) with 16 by (cbn; lra). field. lra.
Qed.

Definition tgate : mat := mdiag (fun i => if Nat.eqb i 3 then cis (PI / 4) else C1).
Lemma tgate_unitary : unitary 4 tgate.
Proof. apply mdiag_unitary. intros i Hi. destruct (Nat.eqb i 3); [apply Cnorm2_cis|unfold Cnorm2, C1; cbn; ring]. Qed.
Lemma ghost_diag f : ghost 4 (mdiag f) =
  let g i := Rabs (Re (f i)) + Rabs (Im (f i)) in [g 0%nat; 0; 0; 0; 0; g 1%nat; 0; 0; 0; 0; g 2%nat; 0; 0; 0; 0; g 3%nat].
Proof. unfold ghost, entries, mdiag. cbn. rewrite Rabs_R0, Rplus_0_r. reflexivity. Qed.
Lemma large_diag x y z w : 1 / 10 < x -> 1 / 10 < y -> 1 / 10 < z -> 1 / 10 < w -> large [x; 0; 0; 0; 0; y; 0; 0; 0; 0; z; 0; 0; 0; 0; w] 4.
Proof. intros. repeat first [apply large_nil | apply large_no; [lra|] | apply large_yes; [lra|]]. Qed.
Lemma phase_differs : exists v w, objective_function expm still tgate 2 2 = Ok v /\ objective_function expm still (mscal (cis (- (PI / 8))) tgate) 2 2 = Ok w /\ v < w.
Proof.
  assert (P : 0 < PI) by apply PI_RGT_0. assert (S2 : sqrt 2 * sqrt 2 = 2) by (apply sqrt_sqrt; lra). assert (S2p : 0 < sqrt 2) by (apply sqrt_lt_R0; lra).
  assert (S5 : sqrt 5 * sqrt 5 = 5) by (apply sqrt_sqrt; lra). assert (S5p : 0 < sqrt 5) by (apply sqrt_lt_R0; lra).
  set (c := cos (PI / 8) + sin (PI / 8)).
  assert (Cp : 0 < cos (PI / 8)) by (apply cos_gt_0; lra). assert (Sp : 0 < sin (PI / 8)) by (apply sin_gt_0; lra).
  assert (Cc : 1 <= c). { assert (Q : cos (PI / 8) * cos (PI / 8) + sin (PI / 8) * sin (PI / 8) = 1) by (pose proof (sin2_cos2 (PI / 8)) as Q; unfold Rsqr in Q; lra). unfold c. nra. }
  assert (Q1 : Rabs (cos (PI / 4)) + Rabs (sin (PI / 4)) = sqrt 2).
  { rewrite cos_PI4, sin_PI4. rewrite Rabs_pos_eq by (apply Rlt_le, Rdiv_lt_0_compat; lra). field_simplify; [|lra]. apply Rmult_eq_reg_r with (sqrt 2); [|lra]. field_simplify; [|lra]. rewrite <- (Rmult_1_r (sqrt 2 ^ 2)). cbn. lra. }
  exists ((3 + sqrt 2 - sqrt 5) / (3 * sqrt 5) / 4), ((4 * c - 2 * c) / (3 * (2 * c)) / 4). split; [|split].
  - apply still_objective; [exact S5p| | |].
    + unfold tgate. rewrite ghost_diag. cbn -[cos sin sqrt PI Rabs]. rewrite Q1, Rabs_R1, Rabs_R0. ring.
    + unfold tgate. rewrite ghost_diag. cbn -[cos sin sqrt PI Rabs]. rewrite Q1, Rabs_R1, Rabs_R0, S5. ring_simplify. cbn. lra.
    + unfold tgate. rewrite ghost_diag. cbn -[cos sin sqrt PI Rabs]. rewrite Q1, Rabs_R1, Rabs_R0. apply large_diag; try lra. nra.
  - assert (M : meq 4 (mscal (cis (- (PI / 8))) tgate) (mdiag (fun i => if Nat.eqb i 3 then cis (PI / 8) else cis (- (PI / 8))))).
    { intros i j Hi Hj. unfold mscal, tgate, mdiag. destruct (Nat.eqb i j); [|ring]. destruct (Nat.eqb i 3); [rewrite <- cis_add; f_equal; lra|ring]. }
    assert (G : ghost 4 (mscal (cis (- (PI / 8))) tgate) = [c; 0; 0; 0; 0; c; 0; 0; 0; 0; c; 0; 0; 0; 0; c]).
    { rewrite (ghost_ext _ _ _ M), ghost_diag. cbn -[cos sin sqrt PI Rabs]. rewrite cos_neg, sin_neg, Rabs_Ropp, (Rabs_pos_eq (cos _)), (Rabs_pos_eq (sin _)) by lra. reflexivity. }
    apply still_objective; rewrite ?G; [lra| | |apply large_diag; lra]; cbn -[c]; ring.
  - replace ((4 * c - 2 * c) / (3 * (2 * c)) / 4) with (1 / 3 / 4) by (field; lra).
    apply Rmult_lt_compat_r; [lra|]. apply Rmult_lt_reg_r with (3 * sqrt 5); [lra|]. replace ((3 + sqrt 2 - sqrt 5) / (3 * sqrt 5) * (3 * sqrt 5)) with (3 + sqrt 2 - sqrt 5) by (field; lra).
    assert (sqrt 2 < 145 / 100) by nra. assert (223 / 100 < sqrt 5) by nra. lra.
Qed.
End Phase.
