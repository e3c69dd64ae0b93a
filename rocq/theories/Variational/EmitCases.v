(** Witnesses: the emitted order, the lines and the dagger of the primitive (C48), the sparsifier (C73), several lines (C74). *)
From Coq Require Import List ZArith Arith Lia Sorted Permutation Reals Lra Bool String ClassicalEpsilon.
From Verif Require Import Base.Py Base.PyFacts Base.Cplx Base.Matrix Base.Radix Base.Expm.
From Verif Require Import Circuit.GateModel Gates.FactoryModel Gates.FactorySpec Gates.ActsOn.
From Verif Require Import Gates.SingleModel Gates.TwoModel Gates.TwoSpec Gates.EntProofs Sim.TnSpec Sim.TnProofs.
From Verif Require Import Variational.AnsatzModel Variational.AnsatzSpec Variational.AnsatzProofs Variational.SudProofs Variational.EmitProofs.
Import ListNotations.
Local Open Scope list_scope.
Local Open Scope nat_scope.

(** An exact exponential exists. *)
Lemma exact_expm_exists : exists expm, exact_expm expm.
Proof.
  exists (fun n A => epsilon (inhabits (mid : mat)) (fun E => is_expm n A E)). intros n A E H.
  pose proof (epsilon_spec (inhabits (mid : mat)) (fun E => is_expm n A E) (ex_intro _ E H)) as Q. cbn beta in Q.
  intros i j Hi Hj. eapply Ccv_unique; [apply Q; assumption|apply H; assumption].
Qed.

Lemma two_level_zero_phase d a b : meq d (phase_pair a b 0) mid.
Proof. unfold phase_pair. rewrite Ropp_0, cis_0. apply two_level_id. Qed.
Lemma real_rotation_zero d a b : meq d (real_rotation a b 0) mid.
Proof. unfold real_rotation. rewrite cos_0, sin_0, Ropp_0. apply two_level_id. Qed.
Lemma rotation_2 x y z : meq 2 (rotation_of [x; y; z] 2) (mmul 2 (phase_pair 0 1 x) (mmul 2 (phase_pair 0 1 z) (real_rotation 0 1 y))).
Proof.
  unfold rotation_of. cbn [seq map flat_map app Nat.sub Nat.add mprod]. unfold entry. cbn [nth Nat.mul Nat.add].
  apply mmul_ext; [apply meq_refl|]. apply mmul_ext; [apply meq_refl|]. apply mmul_id_r.
Qed.
Lemma rotation_real y : meq 2 (rotation_of [0%R; y; 0%R] 2) (real_rotation 0 1 y).
Proof.
  eapply meq_trans; [apply rotation_2|]. eapply meq_trans; [apply mmul_ext; [apply two_level_zero_phase|apply mmul_ext; [apply two_level_zero_phase|apply meq_refl]]|].
  eapply meq_trans; [apply mmul_id_l|apply mmul_id_l].
Qed.
Lemma rotation_zero : meq 2 (rotation_of [0%R; 0%R; 0%R] 2) mid.
Proof. eapply meq_trans; [apply rotation_real|apply real_rotation_zero]. Qed.

Definition z3 : list R := [0%R; 0%R; 0%R].
Definition y3 : list R := [0%R; (PI / 4)%R; 0%R].
Definition turn : list R := y3 ++ z3 ++ z3 ++ z3.
Definition still : list R := z3 ++ z3 ++ z3 ++ z3.
Lemma split_turn : params_splitter turn [2; 2] = Ok [y3; z3; z3; z3].
Proof. reflexivity. Qed.
Lemma split_still : params_splitter still [2; 2] = Ok [z3; z3; z3; z3].
Proof. reflexivity. Qed.
Definition sg (t : nat) (s : mat) : gate mat := Gate "CUo_SUD" SINGLE (TInt (Z.of_nat t)) None false false s.

Section Cases.
Variable expm : nat -> mat -> mat.
Hypothesis EX : exact_expm expm.
Lemma sud_zero : exists s, generic_sud expm z3 2 = Ok s /\ meq 2 s mid.
Proof. destruct (sud_closed expm EX z3 2) as (s & E & M); [cbn; lia|]. exists s. split; [exact E|]. eapply meq_trans; [exact M|apply rotation_zero]. Qed.
Lemma sud_turn : exists s, generic_sud expm y3 2 = Ok s /\ meq 2 s (real_rotation 0 1 (PI / 4)).
Proof. destruct (sud_closed expm EX y3 2) as (s & E & M); [cbn; lia|]. exists s. split; [exact E|]. eapply meq_trans; [exact M|apply rotation_real]. Qed.
Lemma sud_gate_eq t p s : generic_sud expm p 2 = Ok s -> sud_gate expm [2; 2] t p 2 = Ok (sg t s).
Proof. intros E. unfold sud_gate. rewrite E. reflexivity. Qed.

Let b4 := big [].
Lemma b4_eq M : meq 4 (b4 M) M.
Proof. intros i j _ _. apply mkron_1_r. Qed.

(** four local rotations around a primitive on two qubits *)
Section Four.
Variables (p0 p1 p2 p3 : list R) (s0 s1 s2 s3 : mat) (u : gate mat).
Hypothesis E0 : generic_sud expm p0 2 = Ok s0.
Hypothesis E1 : generic_sud expm p1 2 = Ok s1.
Hypothesis E2 : generic_sud expm p2 2 = Ok s2.
Hypothesis E3 : generic_sud expm p3 2 = Ok s3.
Hypothesis UC : g_controls u = None.
Hypothesis UT : Permutation (target_nats u) [0; 1].
Let gs := [sg 0 s0; sg 1 s1; u; sg 0 s2; sg 1 s3].
Let k0 s := mkron 2 s mid.
Let k1 s := mkron 2 mid s.
Let m4 := mmul 4.
Lemma four_emitted : ansatz_decompose expm [2; 2] [2; 2] (Some u) [p0; p1; p2; p3] = Ok gs.
Proof.
  unfold ansatz_decompose. cbn [decompose_loop Nat.eqb fst snd Nat.add app].
  change (pyindex [2; 2] (Z.of_nat 0)) with (Ok 2). change (pyindex [2; 2] (Z.of_nat 1)) with (Ok 2). cbn [bindr].
  rewrite (sud_gate_eq 0 p0 s0 E0), (sud_gate_eq 1 p1 s1 E1), (sud_gate_eq 0 p2 s2 E2), (sud_gate_eq 1 p3 s3 E3). reflexivity.
Qed.
Lemma four_matrix M : prepare_ansatz expm (Ok M) [p0; p1; p2; p3] [2; 2] = Ok (m4 (m4 (m4 (m4 (m4 (mkron 2 mid mid) (k0 s0)) (k1 s1)) M) (k0 s2)) (k1 s3)).
Proof.
  unfold prepare_ansatz. change (pyindex [2; 2] 0%Z) with (Ok 2). cbn [bindr]. rewrite expand0. cbn [bindr snd].
  cbn [ansatz_loop Nat.eqb fst snd Nat.add bindr].
  change (pyindex [2; 2] (Z.of_nat 0)) with (Ok 2). change (pyindex [2; 2] (Z.of_nat 1)) with (Ok 2). cbn [bindr].
  rewrite E0, E1, E2, E3. cbn [bindr]. rewrite !expand0, !expand1. reflexivity.
Qed.
Lemma sg_m0 s : matrix_of [2; 2] (sg 0 s) (b4 (k0 s)).
Proof. apply (matrix_single 2 2 [] ltac:(lia) ltac:(lia) ltac:(intros x []) (sg 0 s) 0 eq_refl eq_refl eq_refl (or_introl eq_refl)). Qed.
Lemma sg_m1 s : matrix_of [2; 2] (sg 1 s) (b4 (k1 s)).
Proof. apply (matrix_single 2 2 [] ltac:(lia) ltac:(lia) ltac:(intros x []) (sg 1 s) 1 eq_refl eq_refl eq_refl (or_intror eq_refl)). Qed.
Lemma four_implements : implements [2; 2] gs (b4 (m4 (m4 (m4 (m4 (m4 mid (k1 s3)) (k0 s2)) (core u)) (k1 s1)) (k0 s0))).
Proof.
  assert (P2 : 0 < 2) by lia. assert (PR : forall x, In x [] -> 0 < x) by (intros x []).
  eapply (implements_cons 2 2 [] P2 P2 PR); [apply sg_m0| |apply meq_refl]. eapply (implements_cons 2 2 [] P2 P2 PR); [apply sg_m1| |apply meq_refl].
  eapply (implements_cons 2 2 [] P2 P2 PR); [apply (matrix_core 2 2 [] P2 P2 PR u UC UT)| |apply meq_refl].
  eapply (implements_cons 2 2 [] P2 P2 PR); [apply sg_m0| |apply meq_refl]. eapply (implements_cons 2 2 [] P2 P2 PR); [apply sg_m1| |apply meq_refl].
  apply (implements_nil 2 2 [] P2 P2 PR).
Qed.

Lemma k_id0 s : meq 2 s mid -> meq 4 (k0 s) mid.
Proof. intros H. eapply meq_trans; [apply (mkron_ext 2 2); [exact H|apply meq_refl]|]. apply (mkron_id 2 2). lia. Qed.
Lemma k_id1 s : meq 2 s mid -> meq 4 (k1 s) mid.
Proof. intros H. eapply meq_trans; [apply (mkron_ext 2 2); [apply meq_refl|exact H]|]. apply (mkron_id 2 2). lia. Qed.
Hypothesis I1 : meq 2 s1 mid.
Hypothesis I2 : meq 2 s2 mid.
Hypothesis I3 : meq 2 s3 mid.
Let red_r A B : meq 4 B mid -> meq 4 (m4 A B) A.
Proof. intros H. eapply meq_trans; [apply mmul_ext; [apply meq_refl|exact H]|]. apply mmul_id_r. Qed.
Let ext_l A A' B : meq 4 A A' -> meq 4 (m4 A B) (m4 A' B).
Proof. intros H. apply mmul_ext; [exact H|apply meq_refl]. Qed.
Lemma four_matrix_eq M : meq 4 (m4 (m4 (m4 (m4 (m4 (mkron 2 mid mid) (k0 s0)) (k1 s1)) M) (k0 s2)) (k1 s3)) (m4 (k0 s0) M).
Proof.
  eapply meq_trans; [apply red_r, k_id1, I3|]. eapply meq_trans; [apply red_r, k_id0, I2|]. apply ext_l.
  eapply meq_trans; [apply red_r, k_id1, I1|]. eapply meq_trans; [apply ext_l; apply (mkron_id 2 2); lia|]. apply mmul_id_l.
Qed.
Lemma four_implements_eq : meq 4 (b4 (m4 (m4 (m4 (m4 (m4 mid (k1 s3)) (k0 s2)) (core u)) (k1 s1)) (k0 s0))) (m4 (core u) (k0 s0)).
Proof.
  eapply meq_trans; [apply b4_eq|]. apply ext_l. eapply meq_trans; [apply red_r, k_id1, I1|]. eapply meq_trans; [|apply mmul_id_l]. apply ext_l.
  eapply meq_trans; [apply red_r, k_id0, I2|]. eapply meq_trans; [apply red_r, k_id1, I3|]. apply meq_refl.
Qed.
Lemma four_implements' : implements [2; 2] gs (m4 (core u) (k0 s0)).
Proof. eapply (implements_ext 2 2 []); [|apply four_implements]. exact four_implements_eq. Qed.
End Four.

(** A diagonal primitive with the phases x, 1, 1, x. *)
Definition corner (x : C) : nat -> C := fun r => if (r =? 0) || (r =? 3) then x else C1.
Lemma turned_differ s x M : meq 2 s (real_rotation 0 1 (PI / 4)) -> meq 4 M (mdiag (corner x)) -> x <> C1 -> x <> C0 ->
  ~ same_up_to_phase 4 (mmul 4 M (mkron 2 s mid)) (mmul 4 (mkron 2 s mid) M).
Proof.
  intros Hs HM X1 X0 (c & Hc & H).
  set (K := mkron 2 (real_rotation 0 1 (PI / 4)) mid).
  assert (HK : meq 4 (mkron 2 s mid) K) by (apply (mkron_ext 2 2); [exact Hs|apply meq_refl]).
  assert (A1 : meq 4 (mmul 4 M (mkron 2 s mid)) (fun i j => corner x i * K i j)%C).
  { eapply meq_trans; [apply mmul_ext; [exact HM|exact HK]|]. apply mdiag_mul_l. }
  assert (A2 : meq 4 (mmul 4 (mkron 2 s mid) M) (fun i j => K i j * corner x j)%C).
  { eapply meq_trans; [apply mmul_ext; [exact HK|exact HM]|]. apply mdiag_mul_r. }
  pose proof (H 0 0 ltac:(lia) ltac:(lia)) as H00. pose proof (H 0 2 ltac:(lia) ltac:(lia)) as H02. unfold mscal in H00, H02.
  rewrite (A1 0 0), (A2 0 0) in H00 by lia. rewrite (A1 0 2), (A2 0 2) in H02 by lia.
  assert (K00 : K 0 0 = RtoC (cos (PI / 4))) by (unfold K, mkron, real_rotation, two_level, mid; cbn; ring).
  assert (K02 : K 0 2 = RtoC (sin (PI / 4))) by (unfold K, mkron, real_rotation, two_level, mid; cbn; ring).
  rewrite K00 in H00. rewrite K02 in H02. change (corner x 0) with x in *. change (corner x 2) with C1 in *.
  assert (Pc : cos (PI / 4) <> 0%R) by (apply Rgt_not_eq; apply cos_gt_0; pose proof PI_RGT_0; lra).
  assert (Ps : sin (PI / 4) <> 0%R) by (apply Rgt_not_eq; apply sin_gt_0; pose proof PI_RGT_0; lra).
  assert (Q0 : forall r : R, r <> 0%R -> RtoC r <> C0) by (intros r Hr E; apply Hr; exact (f_equal fst E)).
  assert (E1 : (RtoC (cos (PI / 4)) * (x * (C1 - c)))%C = C0).
  { replace (RtoC (cos (PI / 4)) * (x * (C1 - c)))%C with (x * RtoC (cos (PI / 4)) - c * (RtoC (cos (PI / 4)) * x))%C by ring. rewrite H00. ring. }
  assert (E2 : (RtoC (sin (PI / 4)) * (x - c))%C = C0).
  { replace (RtoC (sin (PI / 4)) * (x - c))%C with (x * RtoC (sin (PI / 4)) - c * (RtoC (sin (PI / 4)) * C1))%C by ring. rewrite H02. ring. }
  apply Cmul_integral in E1. destruct E1 as [E1|E1]; [exact (Q0 _ Pc E1)|]. apply Cmul_integral in E1. destruct E1 as [E1|E1]; [exact (X0 E1)|].
  apply Cmul_integral in E2. destruct E2 as [E2|E2]; [exact (Q0 _ Ps E2)|].
  apply X1. replace x with (c + (x - c))%C by ring. rewrite E2. replace c with (C1 - (C1 - c))%C by ring. rewrite E1. ring.
Qed.
Lemma ls_corner M : meq 4 M (expm 4 (ls_exponent 2 2 (PI / 2))) -> meq 4 M (mdiag (corner (cis (- (PI / 2))))).
Proof.
  intros H. eapply meq_trans; [exact H|]. destruct (ls_exists 2 2 (PI / 2) ltac:(lia)) as (E & HE). eapply meq_trans; [apply EX; exact HE|].
  eapply meq_trans; [exact (ls_closed 2 2 (PI / 2) E ltac:(lia) HE)|]. intros i j Hi Hj. unfold mdiag. destruct (Nat.eqb i j); [|reflexivity].
  destruct i as [|[|[|[|i]]]]; [reflexivity..|]. cbn in Hi. lia.
Qed.
Lemma cis_quarter : cis (- (PI / 2)) = (0%R, (-1)%R).
Proof. unfold cis. rewrite cos_neg, sin_neg, cos_PI2, sin_PI2. apply Ceq; cbn; ring. Qed.
Lemma ls_theta_2 : ls_theta [2; 2] = (PI / 2)%R.
Proof. reflexivity. Qed.
Lemma order_refuted : exists p gs U A, create_instance expm LS [2; 2] p 2 2 = Ok gs /\ ansatz_matrix expm LS p 2 2 = Ok U /\
  implements [2; 2] gs A /\ ~ same_up_to_phase 4 A U.
Proof.
  destruct sud_zero as (sz & Ez & Mz). destruct sud_turn as (st & Et & Mt). destruct (ls_gate_ok 2 2 expm [2; 2]) as (u & G).
  destruct (ls_gate_inv 2 2 expm u _ G) as (C & D & T & E). rewrite ls_theta_2 in E. cbn [Nat.mul Nat.add] in E.
  exists turn, [sg 0 st; sg 1 sz; u; sg 0 sz; sg 1 sz]. eexists. exists (mmul 4 (core u) (mkron 2 st mid)).
  split; [|split; [|split]].
  - unfold create_instance. rewrite split_turn. cbn [bindr]. rewrite G. cbn [bindr]. apply four_emitted; assumption.
  - unfold ansatz_matrix. rewrite split_turn. cbn [bindr]. rewrite G. cbn [bindr]. rewrite two_to_matrix by assumption. cbn [bindr]. apply four_matrix; eassumption.
  - apply four_implements'; assumption.
  - assert (Hc : core u = g_data u) by (unfold core; rewrite D; reflexivity). rewrite Hc.
    assert (HM : meq 4 (g_data u) (mdiag (corner (cis (- (PI / 2)))))) by (apply ls_corner; rewrite E; apply meq_refl).
    intros (c & Hn & H). apply (turned_differ st _ _ Mt HM).
    + rewrite cis_quarter. intros Q. apply (f_equal fst) in Q. cbn in Q. lra.
    + rewrite cis_quarter. intros Q. apply (f_equal snd) in Q. cbn in Q. lra.
    + exists c. split; [exact Hn|]. eapply meq_trans; [exact H|]. intros i j Hi Hj. unfold mscal. f_equal. apply (four_matrix_eq st sz sz sz Mz Mz Mz (g_data u)); assumption.
Qed.

(** a custom primitive with its dagger flag set *)
Definition quarter_gate (dg : bool) : gate mat := Gate "CUt" TWO (TList [0%Z; 1%Z]) None dg false (mdiag (fun r => if r =? 3 then Ci else C1)).
Lemma dagger_refuted : exists g p gs U A, g_controls g = None /\ target_nats g = [0; 1] /\ unitary 4 (g_data g) /\
  create_instance expm (CU (Some g)) [2; 2] p 2 2 = Ok gs /\ ansatz_matrix expm (CU (Some g)) p 2 2 = Ok U /\
  implements [2; 2] (rev gs) A /\ ~ same_up_to_phase 4 A U.
Proof.
  destruct sud_zero as (sz & Ez & Mz). set (g := quarter_gate true).
  exists g, still, [sg 0 sz; sg 1 sz; g; sg 0 sz; sg 1 sz]. eexists. exists (madj (g_data g)).
  assert (P2 : 0 < 2) by lia. assert (PR : forall x, In x [] -> 0 < x) by (intros x []).
  split; [reflexivity|]. split; [reflexivity|]. split; [|split; [|split; [|split]]].
  - apply mdiag_unitary. intros i Hi. destruct (i =? 3); unfold Cnorm2, Ci, C1; cbn; ring.
  - unfold create_instance. rewrite split_still. cbn [bindr]. apply four_emitted; assumption.
  - unfold ansatz_matrix. rewrite split_still. cbn [bindr]. apply four_matrix; eassumption.
  - cbn [rev app]. assert (Q0 : meq 4 (mkron 2 sz mid) mid) by (apply k_id0; exact Mz). assert (Q1 : meq 4 (mkron 2 mid sz) mid) by (apply k_id1; exact Mz).
    assert (RR : forall A B : mat, meq 4 B mid -> meq 4 A (mmul 4 A B)).
    { intros A B H. apply meq_sym. eapply meq_trans; [apply mmul_ext; [apply meq_refl|exact H]|apply mmul_id_r]. }
    assert (TP : Permutation (target_nats g) [0; 1]) by apply Permutation_refl.
    eapply (implements_ext 2 2 []); [apply b4_eq|].
    eapply (implements_cons 2 2 [] P2 P2 PR); [apply sg_m1| |apply RR, Q1]. eapply (implements_cons 2 2 [] P2 P2 PR); [apply sg_m0| |apply RR, Q0].
    eapply (implements_cons 2 2 [] P2 P2 PR) with (V := mid); [apply (matrix_core 2 2 [] P2 P2 PR g eq_refl TP)| |apply meq_sym, mmul_id_l].
    eapply (implements_cons 2 2 [] P2 P2 PR); [apply sg_m1| |apply RR, Q1]. eapply (implements_cons 2 2 [] P2 P2 PR); [apply sg_m0| |apply RR, Q0]. apply (implements_nil 2 2 [] P2 P2 PR).
  - intros (c & Hn & H).
    assert (H' : meq 4 (madj (g_data g)) (mscal c (g_data g))).
    { eapply meq_trans; [exact H|]. intros i j Hi Hj. unfold mscal. f_equal. rewrite (four_matrix_eq sz sz sz sz Mz Mz Mz (g_data g) i j Hi Hj).
      revert i j Hi Hj. change (meq 4 (mmul 4 (mkron 2 sz mid) (g_data g)) (g_data g)). eapply meq_trans; [apply mmul_ext; [apply k_id0; exact Mz|apply meq_refl]|apply mmul_id_l]. }
    pose proof (H' 0 0 ltac:(lia) ltac:(lia)) as H0. pose proof (H' 3 3 ltac:(lia) ltac:(lia)) as H3. unfold mscal, madj, g, quarter_gate, mdiag in H0, H3. cbn in H0, H3.
    assert (Ec : c = C1) by (replace c with (c * C1)%C by ring; rewrite <- H0; unfold Cconj, C1; apply Ceq; cbn; ring).
    rewrite Ec in H3. apply (f_equal snd) in H3. cbn in H3. lra.
Qed.

(** the sparsifier *)
Lemma sparsify_order_refuted : exists g p gs U A, g_controls g = None /\ target_nats g = [0; 1] /\ unitary 4 (g_data g) /\
  instantiate_rotations expm [2; 2] g p 2 2 = Ok gs /\ apply_rotations expm (core g) p 2 2 = Ok U /\ implements [2; 2] gs A /\ ~ same_up_to_phase 4 A U.
Proof.
  destruct sud_zero as (sz & Ez & Mz). destruct sud_turn as (st & Et & Mt). set (g := Gate "LS" TWO (TList [0%Z; 1%Z]) None false false (mdiag (corner Ci))).
  exists g, turn, [sg 0 st; sg 1 sz; g; sg 0 sz; sg 1 sz]. eexists. exists (mmul 4 (core g) (mkron 2 st mid)).
  split; [reflexivity|]. split; [reflexivity|]. split; [|split; [|split; [|split]]].
  - apply mdiag_unitary. intros i Hi. unfold corner. destruct ((i =? 0) || (i =? 3)); unfold Cnorm2, Ci, C1; cbn; ring.
  - unfold instantiate_rotations. rewrite split_turn. cbn [bindr].
    change (pyindex [y3; z3; z3; z3] (Z.of_nat 0)) with (Ok y3). change (pyindex [y3; z3; z3; z3] (Z.of_nat 1)) with (Ok z3).
    change (pyindex [y3; z3; z3; z3] (Z.of_nat 2)) with (Ok z3). change (pyindex [y3; z3; z3; z3] (Z.of_nat 3)) with (Ok z3).
    change (pyindex [2; 2] (Z.of_nat 0)) with (Ok 2). change (pyindex [2; 2] (Z.of_nat 1)) with (Ok 2). cbn [bindr].
    rewrite (sud_gate_eq 0 y3 st Et), (sud_gate_eq 1 z3 sz Ez), (sud_gate_eq 0 z3 sz Ez). reflexivity.
  - unfold apply_rotations. rewrite split_turn. cbn [bindr].
    rewrite (rot0 2 2 expm [y3; z3; z3; z3] 0 y3 st eq_refl Et), (rot1 2 2 expm [y3; z3; z3; z3] 1 z3 sz eq_refl Ez),
      (rot0 2 2 expm [y3; z3; z3; z3] 2 z3 sz eq_refl Ez), (rot1 2 2 expm [y3; z3; z3; z3] 3 z3 sz eq_refl Ez). cbn [bindr snd]. reflexivity.
  - apply four_implements'; [reflexivity|apply Permutation_refl|exact Mz|exact Mz|exact Mz].
  - intros (c & Hn & H). apply (turned_differ st Ci (core g) Mt (meq_refl _ _)).
    + intros Q. apply (f_equal fst) in Q. cbn in Q. lra.
    + intros Q. apply (f_equal snd) in Q. cbn in Q. lra.
    + exists c. split; [exact Hn|]. eapply meq_trans; [exact H|]. intros i j Hi Hj. unfold mscal. f_equal.
      revert i j Hi Hj. change (meq 4 (mmul 4 (mmul 4 (mmul 4 (mmul 4 (mkron 2 st mid) (mkron 2 mid sz)) (core g)) (mkron 2 sz mid)) (mkron 2 mid sz)) (mmul 4 (mkron 2 st mid) (core g))).
      assert (RR : forall A B : mat, meq 4 B mid -> meq 4 (mmul 4 A B) A) by (intros A B Q; eapply meq_trans; [apply mmul_ext; [apply meq_refl|exact Q]|apply mmul_id_r]).
      eapply meq_trans; [apply RR, k_id1, Mz|]. eapply meq_trans; [apply RR, k_id0, Mz|]. apply mmul_ext; [apply RR, k_id1, Mz|apply meq_refl].
Qed.
End Cases.

(** the lines of the target *)
Definition x_pair (l m : Z) : gate mat := Gate "CUt" TWO (TList [l; m]) None false false (mkron 2 mid (two_level 0 1 C0 C1 C1 C0)).
Lemma lines_refuted expm a : match a with CU _ => False | _ => True end ->
  forall p gs A T, variational_instructions expm a [2; 2; 2] (x_pair 1 2) p = Ok gs -> implements [2; 2; 2] gs A ->
  matrix_of [2; 2; 2] (x_pair 1 2) T -> ~ same_up_to_phase 8 A T.
Proof.
  intros HA p gs A T H I M (c & Hn & E).
  assert (Z : A 0 1 = C0).
  { apply (implements_off [2; 2; 2] [0; 1] gs) with (U := A); [|exact I|cbn; lia|cbn; lia|].
    - intros g Hg t Ht. destruct (variational_lines expm a _ _ _ _ HA H g Hg t Ht) as [->| ->]; cbn; auto.
    - intros Q. specialize (Q 2 ltac:(cbn; lia)). cbn in Q. assert (~ (0 = 2 \/ 1 = 2 \/ False)) as N by lia. specialize (Q N). discriminate. }
  destruct M as (ts & PT & S & AO). assert (Et : ts = [1; 2]).
  { apply (FactoryMain.sorted_targets ts [1; 2]); [repeat constructor; cbn; lia|exact PT|exact S]. }
  subst ts. assert (T1 : T 0 1 = C1).
  { rewrite (ao_active _ _ _ _ _ _ AO); [|cbn; lia|cbn; lia| |reflexivity].
    - cbn. unfold mkron, two_level, mid. cbn. ring.
    - intros i Hi Hni. cbn in Hi. destruct i as [|[|[|]]]; try reflexivity; exfalso; apply Hni; cbn; auto; lia. }
  pose proof (E 0 1 ltac:(lia) ltac:(lia)) as E'. unfold mscal in E'. rewrite Z, T1 in E'.
  assert (c = C0) by (replace c with (c * C1)%C by ring; rewrite <- E'; reflexivity). subst c. unfold Cnorm2, C0 in Hn. cbn in Hn. lra.
Qed.
Lemma lines_accepted expm a : exact_expm expm -> match a with CU _ => False | _ => True end ->
  exists gs, variational_instructions expm a [2; 2; 2] (x_pair 1 2) still = Ok gs /\ gs <> [].
Proof.
  intros EX HA. destruct (sud_zero expm EX) as (sz & Ez & Mz).
  assert (Q : forall u, exists gs, ansatz_decompose expm [2; 2; 2] [2; 2] (Some u) [z3; z3; z3; z3] = Ok gs /\ gs <> []).
  { intros u. unfold ansatz_decompose. cbn [decompose_loop Nat.eqb fst snd Nat.add app].
    change (pyindex [2; 2] (Z.of_nat 0)) with (Ok 2). change (pyindex [2; 2] (Z.of_nat 1)) with (Ok 2). cbn [bindr]. unfold sud_gate. rewrite Ez.
    cbn. eexists. split; [reflexivity|discriminate]. }
  unfold variational_instructions. change (reference_lines (x_pair 1 2)) with (Ok [1%Z; 2%Z]). cbn [bindr]. change (mapr (pyindex [2; 2; 2]) [1%Z; 2%Z]) with (Ok [2; 2]). cbn [bindr].
  unfold create_instance. rewrite split_still. cbn [bindr]. destruct a as [| |]; [| |destruct HA].
  - destruct (ms_gate_ok 2 2 expm [2; 2; 2]) as (u & G). rewrite G. apply Q.
  - destruct (ls_gate_ok 2 2 expm [2; 2; 2]) as (u & G). rewrite G. apply Q.
Qed.

(** several lines at once *)
Lemma expand_size t M n E : t < n -> gate_expand (2, M) n t (repeat 2 n) = Ok E -> fst E = 2 ^ n /\ acts_on (repeat 2 n) [t] [] [] M (snd E).
Proof.
  intros L H. assert (P : forall x, In x (repeat 2 n) -> 0 < x) by (intros x Hx; apply repeat_spec in Hx; lia).
  assert (PW : prodl (repeat 2 n) = 2 ^ n) by (clear; induction n as [|n IH]; [reflexivity|cbn [repeat prodl]; rewrite IH; reflexivity]).
  rewrite <- PW. rewrite <- (repeat_length 2 n) in H at 1. apply expand_acts in H; [exact H|exact P|rewrite repeat_length; exact L|].
  symmetry. apply (repeat_spec n 2). apply nth_In. rewrite repeat_length. exact L.
Qed.
Lemma pow_prodl n : prodl (repeat 2 n) = 2 ^ n.
Proof. induction n as [|n IH]; [reflexivity|cbn [repeat prodl]; rewrite IH; reflexivity]. Qed.
Lemma one_line n t M : t < n -> exists A, apply_gate_to_tlines (2, M) n (Some [t]) None = Ok A /\ acts_on (repeat 2 n) [t] [] [] M A.
Proof.
  intros L. assert (P : forall x, In x (repeat 2 n) -> 0 < x) by (intros x Hx; apply repeat_spec in Hx; lia).
  destruct (expand_returns (repeat 2 n) t 2 M P) as (E & HE); [rewrite repeat_length; exact L|symmetry; apply (repeat_spec n 2), nth_In; rewrite repeat_length; exact L|].
  rewrite repeat_length in HE. destruct (expand_size t M n E L HE) as [F AO].
  unfold apply_gate_to_tlines. cbn [apply_to_lines]. rewrite HE. cbn [bindr]. unfold add_to. rewrite F, Nat.eqb_refl. cbn [bindr]. eexists. split; [reflexivity|].
  eapply acts_ext; [| |apply meq_refl| |exact AO].
  - split; [constructor; [intros []|constructor]|]. intros x [<-|[]]. rewrite repeat_length. exact L.
  - intros c [].
  - intros i j _ _. unfold madd, mzero. ring.
Qed.
Lemma other_dims dims t ts d M : (forall x, In x dims -> 0 < x) -> t < List.length dims -> d = nth t dims 0 -> prodl dims <> 2 ^ List.length dims -> prodl dims <> 1 ->
  apply_gate_to_tlines (d, M) (List.length dims) (Some (t :: ts)) (Some dims) = Err ValueError.
Proof.
  intros P L D N1 N2. destruct (expand_returns dims t d M P L D) as (E & HE). unfold apply_gate_to_tlines. cbn [apply_to_lines]. rewrite HE. cbn [bindr].
  destruct (expand_acts dims t d M E P L D HE) as [F _]. unfold add_to. rewrite F. destruct (Nat.eqb_spec (prodl dims) (2 ^ List.length dims)); [congruence|].
  destruct (Nat.eqb_spec (prodl dims) 1); [congruence|]. reflexivity.
Qed.
Definition x2 : mat := two_level 0 1 C0 C1 C1 C0.
Lemma x2_unitary : unitary 2 x2.
Proof. apply two_level_unitary; try lia; apply Ceq; cbn; ring. Qed.
Lemma all_lines_refuted : exists A, apply_gate_to_tlines (2, x2) 2 None None = Ok A /\ ~ unitary 4 A.
Proof.
  eexists. split; [reflexivity|]. intros [H _]. specialize (H 0 0 ltac:(lia) ltac:(lia)). unfold mmul, madj in H.
  apply (f_equal fst) in H. revert H. cbv -[Rplus Rmult Ropp Rminus IZR]. lra.
Qed.
