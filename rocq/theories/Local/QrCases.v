(** Refutations and cases for the QR passes. *)
From Coq Require Import Reals Lra Lia List Arith ZArith.
From Verif.Base Require Import Py PyFacts Cplx Matrix Angle.
From Verif.Gates Require Import AnglesModel AnglesSpec AnglesProofs SingleModel SingleSpec SingleProofs.
From Verif.Levels Require Import LevelsModel LevelsSpec GraphProofs LevelsProofs RouteProofs PhaseProofs DistanceProofs.
From Verif.Sim Require Import TnSpec.
From Verif.Variational Require EmitProofs.
From Verif.Local Require Import QrModel QrSpec QrMath QrCore PulseProofs QrMoved QrEmit QrProofs QrPhysical QrPasses.
Import ListNotations.
Local Open Scope string_scope.
Local Open Scope list_scope.
Local Open Scope nat_scope.

Lemma error_small d : d <= 1000 -> (qr_error code_eps code_delta d <= 2 / 10000)%R.
Proof.
  intros H. unfold qr_error, code_eps, code_delta. apply le_INR in H.
  assert (X := pos_INR d). replace (INR 1000) with 1000%R in H by (rewrite INR_IZR_INZ; reflexivity).
  assert (Y : (0 <= INR d * (1 / 100000000) <= 1 / 100000)%R) by lra. nra.
Qed.
Lemma code_error_2 : (code_error 2 <= 1 / 1000)%R.
Proof.
  unfold code_error. assert (X := error_small 2 ltac:(lia)). replace (INR 2) with 2%R by (cbn; ring). lra.
Qed.

Local Open Scope C_scope.
(** Two operators far apart up to a factor. *)
Lemma far_apart (a b c : C) L00 L11 e : (Cmod (Csub L00 a) <= e)%R -> (Cmod (Csub L11 b) <= e)%R ->
  (Cmod (Csub L00 (c * a)) <= 1 / 10)%R -> (Cmod (Csub L11 (c * (- b))) <= 1 / 10)%R -> Cmod a = 1%R -> Cmod b = 1%R -> (e <= 1 / 10)%R -> False.
Proof.
  intros H1 H2 H3 H4 Ha Hb He.
  assert (SY : forall x y, Cmod (Csub x y) = Cmod (Csub y x)) by (intros x y; unfold Cmod, Cnorm2, Csub, Cadd, Copp; cbn; f_equal; ring).
  assert (A : (Cmod (a * Csub c C1) <= 2 / 10)%R).
  { replace (a * Csub c C1) with (Csub (c * a) L00 + Csub L00 a) by (unfold Csub; ring).
    refine (Rle_trans _ _ _ (Cmod_triangle _ _) _). rewrite (SY (c * a) L00). lra. }
  assert (B : (Cmod (b * (c + C1)) <= 2 / 10)%R).
  { replace (b * (c + C1)) with (Csub L11 (c * (- b)) + Csub b L11) by (unfold Csub; ring).
    refine (Rle_trans _ _ _ (Cmod_triangle _ _) _). rewrite (SY b L11). lra. }
  rewrite Cmod_mul, Ha, Rmult_1_l in A. rewrite Cmod_mul, Hb, Rmult_1_l in B.
  assert (D : (Cmod (RtoC 2) <= 4 / 10)%R).
  { replace (RtoC 2) with ((c + C1) + Csub C1 c) by (apply Ceq; cbn; ring).
    refine (Rle_trans _ _ _ (Cmod_triangle _ _) _). rewrite (SY C1 c). lra. }
  rewrite Cmod_RtoC in D by lra. lra.
Qed.
Lemma Cmod_C1 : Cmod C1 = 1%R.
Proof. rewrite <- RtoC_1. apply Cmod_RtoC. lra. Qed.
Lemma Cmod_Ci : Cmod Ci = 1%R.
Proof. unfold Cmod, Cnorm2. cbn. replace (0 * 0 + 1 * 1)%R with 1%R by ring. apply sqrt_1. Qed.
Lemma Cmod_opp z : Cmod (- z) = Cmod z.
Proof. unfold Cmod, Cnorm2, Copp. cbn. f_equal. ring. Qed.
Lemma phase_unitary2 z : Cnorm2 z = 1%R -> unitary 2 (mdiag (fun i => if Nat.eqb i 1 then z else C1)).
Proof. intros H. apply mdiag_unitary. intros i _. destruct (Nat.eqb i 1); [exact H|unfold Cnorm2; cbn; ring]. Qed.

(** The list of LogLocQRPass for diag(1, i) is near diag(1, -i). *)
Theorem log_inverse_wrong : exists U, unitary 2 U /\ forall sp, finds_shortest sp ->
  exists l gs', log_transpile_gate sp [pair_graph] 0 2 U = Ok (l, gs') /\
    forall c, ~ close 2 (1 / 10) (circuit_matrix 2 l) (mscal c U).
Proof.
  exists (mdiag (fun i => if Nat.eqb i 1 then Ci else C1)). assert (HU : unitary 2 (mdiag (fun i => if Nat.eqb i 1 then Ci else C1))) by (apply phase_unitary2; unfold Cnorm2; cbn; ring).
  split; [exact HU|]. intros sp SP.
  destruct (log_transpile_gate_ok sp [pair_graph] 0 2 _ pair_graph SP eq_refl pair_routable pair_covers HU) as (l & gs' & E & C & _).
  exists l, gs'. split; [exact E|]. intros c H. fold (code_error 2) in C. assert (CE := code_error_2).
  apply (far_apart C1 (- Ci) c (circuit_matrix 2 l 0%nat 0%nat) (circuit_matrix 2 l 1%nat 1%nat) (code_error 2)).
  - assert (X := C 0%nat 0%nat ltac:(lia) ltac:(lia)). replace C1 with (madj (mdiag (fun i => if Nat.eqb i 1 then Ci else C1)) 0%nat 0%nat); [exact X|].
    apply Ceq; cbn; ring.
  - assert (X := C 1%nat 1%nat ltac:(lia) ltac:(lia)). replace (- Ci) with (madj (mdiag (fun i => if Nat.eqb i 1 then Ci else C1)) 1%nat 1%nat); [exact X|].
    apply Ceq; cbn; ring.
  - exact (H 0%nat 0%nat ltac:(lia) ltac:(lia)).
  - assert (X := H 1%nat 1%nat ltac:(lia) ltac:(lia)). replace (- - Ci) with Ci by ring. exact X.
  - apply Cmod_C1.
  - rewrite Cmod_opp. apply Cmod_Ci.
  - lra.
Qed.

(** *** PhyLocQRPass.transpile *)
Definition swapped_phase : mat := fun i j => if Nat.eqb i 0 then (if Nat.eqb j 1 then Ci else C0) else if Nat.eqb j 0 then C1 else C0.
Lemma swapped_phase_unitary : unitary 2 swapped_phase.
Proof.
  split; intros i j Hi Hj; (destruct i as [|[|i]]; [| |lia]); (destruct j as [|[|j]]; [| |lia]); apply Ceq; cbv -[Rplus Rmult Ropp Rminus IZR]; ring.
Qed.
Lemma pair_on_device V : on_device 2 pair_graph V V.
Proof.
  apply (on_device_moved 2 _ _ _ pair_routable pair_covers). intros i j Hi Hj. rewrite !pair_lpf by assumption. reflexivity.
Qed.

Lemma pair_route t f : route_states2rotate_basic search_shortest 2 (Rot 0 1 t f 0 1) pair_graph = Ok (0%R, [], pair_graph).
Proof. reflexivity. Qed.

Lemma first_turn u : meq 2 u swapped_phase -> let R := Rot 0 1 PI (- PI / 2) 0 1 in
  meq 2 (op_matrix 2 (OR R)) (two_level 0 1 C0 C1 (- C1) C0).
Proof.
  intros _ R. cbn [op_matrix lev_a lev_b r_theta r_phi R]. eapply meq_trans; [apply r_array_rotation; lia|].
  eapply meq_trans; [apply (quarter_pulse 2 0 1 PI (- PI / 2) (-1)); auto; right; split; [reflexivity|assert (X := PI_RGT_0); nra]|].
  apply two_level_ext; apply Ceq; cbn; ring.
Qed.

Lemma angle_re x : (0 < x)%R -> angle (RtoC x) = 0%R.
Proof. intros H. unfold angle, atan2, RtoC, Re, Im. cbn. destruct (Rlt_dec 0 x); [|lra]. unfold Rdiv. rewrite Rmult_0_l. apply atan_0. Qed.
Lemma angle_0 : angle C0 = 0%R.
Proof. unfold angle, atan2, C0, Re, Im. cbn. repeat destruct (Rlt_dec _ _); lra. Qed.
Lemma angle_mi : angle (- Ci) = (- (PI / 2))%R.
Proof.
  unfold angle, atan2, Copp, Ci, Re, Im. cbn. replace (- (0))%R with 0%R by ring.
  repeat destruct (Rlt_dec _ _); lra.
Qed.

Lemma swapped_ops : exists alg tot, phy_execute search_shortest code_eps code_delta false false 2 swapped_phase pair_graph =
  Ok ([OR (Rot 0 1 PI (- PI / 2) 0 1); OV (Some (1%nat, regulate_theta (- (PI / 2))))], alg, tot, pair_graph).
Proof.
  unfold phy_execute, execute, flush.
  replace (has_phases pair_graph) with (@Ok bool false) by (vm_compute; reflexivity). cbn [bindr].
  replace (visits 2) with [(1, 0)]%nat by reflexivity. cbn [foldr]. unfold phy_step. cbn [q_u].
  change (swapped_phase 1 0)%nat with C1. rewrite Cmod_C1. destruct (Rlt_dec code_eps 1) as [_|N]; [|unfold code_eps in N; lra].
  assert (TH : qr_theta swapped_phase 1 0 = PI).
  { unfold qr_theta. change (swapped_phase 1 0)%nat with C1. change (swapped_phase (1 - 1) 0)%nat with C0. rewrite Cmod_C1.
    rewrite (proj2 (Cmod_0 C0)) by reflexivity. unfold atan2. repeat destruct (Rlt_dec _ _); lra. }
  assert (PH : qr_phi swapped_phase 1 0 = (- PI / 2)%R).
  { unfold qr_phi. change (swapped_phase 1 0)%nat with C1. change (swapped_phase (1 - 1) 0)%nat with C0. rewrite angle_0.
    rewrite <- RtoC_1, angle_re by lra. field. }
  unfold qr_rotation. rewrite TH, PH. change (Z.of_nat 1 - 1)%Z with 0%Z. change (Z.of_nat 1) with 1%Z.
  rewrite new_R_ok by lia. cbn [bindr]. rewrite (regulate_pi PI (or_introl eq_refl)).
  change (Z.to_nat (Z.min 0 1)) with 0%nat. change (Z.to_nat (Z.max 0 1)) with 1%nat.
  set (R := Rot 0 1 PI (- PI / 2) 0 1).
  unfold cost_calculator. assert (RR : route_states2rotate_basic search_shortest 2 R pair_graph = Ok (0%R, [], pair_graph)) by apply pair_route. rewrite RR. cbn [bindr].
  destruct (cost_ok 2 pair_graph pair_routable search_shortest search_contract R) as (gc & EC); [vm_compute; auto|vm_compute; auto|].
  rewrite EC. cbn [bindr].
  replace (node_attr pair_graph 0 "lpmap") with (@Ok aval (AInt 0)) by (vm_compute; reflexivity).
  replace (node_attr pair_graph 1 "lpmap") with (@Ok aval (AInt 1)) by (vm_compute; reflexivity). cbn [bindr as_int].
  change (1 <? 0)%Z with false. cbn iota. rewrite new_R_ok by lia. cbn [bindr gate_chain_condition map last rev mapr app].
  rewrite (regulate_pi PI (or_introl eq_refl)). change (Z.to_nat (Z.min 0 1)) with 0%nat. change (Z.to_nat (Z.max 0 1)) with 1%nat.
  fold R. cbn [q_ops q_u seq foldr app].
  set (u := mmul 2 (op_matrix 2 (OR R)) swapped_phase).
  assert (UE : forall i j, (i < 2)%nat -> (j < 2)%nat -> u i j = mmul 2 (two_level 0 1 C0 C1 (- C1) C0) swapped_phase i j).
  { intros i j Hi Hj. apply (mmul_ext 2 _ _ _ _ (first_turn swapped_phase (meq_refl _ _)) (meq_refl 2 swapped_phase) i j Hi Hj). }
  assert (U0 : u 0%nat 0%nat = RtoC 1) by (rewrite UE by lia; apply Ceq; cbv -[Rplus Rmult Ropp Rminus IZR]; ring).
  assert (U1 : u 1%nat 1%nat = - Ci) by (rewrite UE by lia; apply Ceq; cbv -[Rplus Rmult Ropp Rminus IZR]; ring).
  unfold phy_phase. rewrite U0, angle_re by lra. rewrite Rabs_R0. destruct (Rlt_dec code_delta 0) as [N|_]; [unfold code_delta in N; lra|].
  cbn [bindr]. rewrite U1, angle_mi. rewrite Rabs_Ropp.
  assert (P1 := PI2_1). destruct (Rlt_dec code_delta (Rabs (PI / 2))) as [_|N]; [|exfalso; apply N; rewrite Rabs_right by lra; unfold code_delta; lra].
  change (Z.of_nat 1) with 1%Z. replace (node_attr pair_graph 1 "lpmap") with (@Ok aval (AInt 1)) by (vm_compute; reflexivity). cbn [bindr].
  unfold recover. cbn [andb bindr]. eexists _, _. reflexivity.
Qed.

Theorem phy_transpile_wrong : exists U, unitary 2 U /\ on_device 2 pair_graph U U /\
  (exists l gs', phy_transpile_gate search_shortest [pair_graph] 0 2 U = Ok (l, gs') /\ close 2 (code_error 2) (circuit_matrix 2 l) U) /\
  (exists l gs', phy_transpile search_shortest [pair_graph] [ISingle 0 2 U] = Ok (map (OGate 0 2) l, gs') /\
    forall c, ~ close 2 (1 / 10) (circuit_matrix 2 l) (mscal c U)).
Proof.
  exists swapped_phase. split; [apply swapped_phase_unitary|]. split; [apply pair_on_device|]. split.
  - destruct (phy_transpile_gate_ok search_shortest [pair_graph] 0 2 swapped_phase pair_graph search_contract eq_refl pair_routable pair_covers swapped_phase_unitary)
      as (l & ops & g' & E & _ & C & _). exists l. eexists. split; [exact E|]. apply C; [apply pair_quiet|apply pair_on_device].
  - destruct swapped_ops as (alg & tot & E). cbn [phy_transpile]. unfold phy_transpile_gate. change (pyindex [pair_graph] 0) with (@Ok lgraph pair_graph).
    cbn [bindr]. rewrite E. cbn [bindr fst snd phy_transpile map rev app].
    eexists [_; _], _. split; [reflexivity|]. intros c H.
    set (o1 := dag_op (dag_op (plain (OR (Rot 0 1 PI (- PI / 2) 0 1))))) in *.
    set (o2 := dag_op (dag_op (plain (OV (Some (1%nat, regulate_theta (- (PI / 2)))))))) in *.
    assert (M : meq 2 (circuit_matrix 2 [o1; o2]) (mmul 2 (mdiag (fun i => if Nat.eqb i 1 then - Ci else C1)) (two_level 0 1 C0 (- C1) C1 C0))).
    { change [o1; o2] with ([o1] ++ [o2]). eapply meq_trans; [apply circuit_app|]. apply mmul_ext.
      - eapply meq_trans; [apply circuit_one|]. unfold o2, dag_op, plain, gate_matrix. cbn [fst snd op_matrix].
        eapply meq_trans; [apply madj_ext, virtrz_array_diag|]. eapply meq_trans; [apply mdiag_adj|].
        intros i j Hi Hj. unfold mdiag. destruct (Nat.eqb i j); [|reflexivity]. destruct (Nat.eqb i 1); [|apply Ceq; cbn; ring].
        rewrite cis_regulate, Ropp_involutive, cis_PI2. apply Ceq; cbn; ring.
      - eapply meq_trans; [apply circuit_one|]. unfold o1, dag_op, plain, gate_matrix. cbn [fst snd].
        eapply meq_trans; [apply madj_ext, (first_turn swapped_phase (meq_refl _ _))|].
        eapply meq_trans; [apply two_level_adj; lia|]. apply two_level_ext; apply Ceq; cbn; ring. }
    apply (far_apart (- C1) (- Ci) (Ci * - c) (circuit_matrix 2 [o1; o2] 0%nat 1%nat) (circuit_matrix 2 [o1; o2] 1%nat 0%nat) 0).
    + rewrite (M 0%nat 1%nat) by lia. rewrite (proj2 (Cmod_0 _)); [lra|]. apply Ceq; cbv -[Rplus Rmult Ropp Rminus IZR]; ring.
    + rewrite (M 1%nat 0%nat) by lia. rewrite (proj2 (Cmod_0 _)); [lra|]. apply Ceq; cbv -[Rplus Rmult Ropp Rminus IZR]; ring.
    + assert (X := H 0%nat 1%nat ltac:(lia) ltac:(lia)). replace (Ci * - c * - C1) with (mscal c swapped_phase 0%nat 1%nat); [exact X|].
      unfold mscal, swapped_phase. cbn [Nat.eqb]. ring.
    + assert (X := H 1%nat 0%nat ltac:(lia) ltac:(lia)). replace (Ci * - c * - - Ci) with (mscal c swapped_phase 1%nat 0%nat); [exact X|].
      unfold mscal, swapped_phase. cbn [Nat.eqb]. transitivity (- (Ci * Ci) * c); [rewrite Cii; ring|ring].
    + rewrite Cmod_opp. apply Cmod_C1.
    + rewrite Cmod_opp. apply Cmod_Ci.
    + lra.
Qed.

(** *** Stored phases *)
Lemma phased_pair : exists g, routable 2 g /\ covers 2 g /\ pending g (fun l => if Nat.eqb l 1 then (PI / 2)%R else 0%R) /\
  (forall V, on_device 2 g V V) /\ ~ no_phases g.
Proof.
  assert (R0 := phase_setup_routable 2 _ pair_routable). set (g0 := phase_storing_setup pair_graph) in *.
  destruct (write_attr_ok 2 g0 1 (AFlt (PI / 2)) (AInt 0) (PI / 2) R0) as (g & EW & K & A & R & L); [|reflexivity|].
  { apply (has_attr_alook g0 (rt_wf _ _ R0)). vm_compute. reflexivity. }
  exists g. assert (CV : covers 2 g).
  { intros n Hn. unfold is_node. rewrite K. destruct n as [|[|n]]; [vm_compute; auto|vm_compute; auto|lia]. }
  assert (W := rt_wf _ _ R).
  assert (P0 : placed g 0 0) by (apply (has_attr_alook g W); rewrite L; vm_compute; reflexivity).
  assert (P1 : placed g 1 1) by (apply (has_attr_alook g W); rewrite L; vm_compute; reflexivity).
  assert (S0 : has_attr g 0 "phase_storage" (AInt 0)) by (apply (has_attr_alook g W); rewrite L; vm_compute; reflexivity).
  assert (S1 : has_attr g 1 "phase_storage" (AFlt (PI / 2))) by (apply (has_attr_alook g W); rewrite L; reflexivity).
  assert (UQ : forall n k v w, has_attr g n k v -> has_attr g n k w -> v = w).
  { intros n k v w A1 A2. apply (has_attr_alook g W) in A1, A2. congruence. }
  split; [exact R|]. split; [exact CV|]. split; [|split].
  - split.
    + intros n p v x Hp Hv Hx. assert (B := rt_logical _ _ R n (has_node g _ _ _ Hv)). assert (n = 0 \/ n = 1)%Z as [-> | ->] by lia.
      * assert (X := UQ _ _ _ _ Hp P0). injection X as ->. rewrite (UQ _ _ _ _ Hv S0) in Hx. injection Hx as <-. reflexivity.
      * assert (X := UQ _ _ _ _ Hp P1). injection X as ->. rewrite (UQ _ _ _ _ Hv S1) in Hx. injection Hx as <-. reflexivity.
    + intros l Hl. destruct (Nat.eqb_spec l 1) as [->|]; [|reflexivity]. exfalso. exact (Hl 1%Z _ P1 S1).
  - intros V n m p q Hn Hm Hp Hq.
    assert (G : forall n p, (n < 2)%nat -> placed g (Z.of_nat n) (Z.of_nat p) -> p = n).
    { intros k r Hk Hr. destruct k as [|[|k]]; [| |lia].
      - assert (X := UQ _ _ _ _ Hr P0). injection X as X. lia.
      - assert (X := UQ _ _ _ _ Hr P1). injection X as X. lia. }
    rewrite (G n p Hn Hp), (G m q Hm Hq). reflexivity.
  - intros NP. assert (X := NP _ _ _ S1 eq_refl). assert (Y := PI_RGT_0). lra.
Qed.

Theorem stored_phases_wrong : exists U g f, unitary 2 U /\ routable 2 g /\ covers 2 g /\ pending g f /\ on_device 2 g U U /\
  forall sp, finds_shortest sp -> exists l g', phy_transpile_gate sp [g] 0 2 U = Ok (l, [g']) /\ no_phases g' /\
    (forall c, ~ close 2 (1 / 10) (circuit_matrix 2 l) (mscal c (mmul 2 (phases f) U))) /\
    (forall c, ~ close 2 (1 / 10) (circuit_matrix 2 l) (mscal c (mmul 2 U (phases f)))).
Proof.
  destruct phased_pair as (g & RT & CV & PF & OD & _). set (f := fun l => if Nat.eqb l 1 then (PI / 2)%R else 0%R) in *.
  exists mid, g, f. split; [apply unitary_id|]. split; [exact RT|]. split; [exact CV|]. split; [exact PF|]. split; [apply OD|].
  intros sp SP. destruct (phy_transpile_gate_ok sp [g] 0 2 mid g SP eq_refl RT CV (unitary_id 2)) as (l & ops & g' & E & _ & _ & C & _ & _ & _ & _ & NP & _ & _).
  exists l, g'. split; [exact E|]. split; [exact NP|]. specialize (C f mid PF (OD mid)).
  assert (CE := code_error_2). assert (DL : (code_error 2 + code_delta <= 1 / 10)%R) by (unfold code_delta; lra).
  assert (F : forall A, meq 2 A (phases f) -> forall c, ~ close 2 (1 / 10) (circuit_matrix 2 l) (mscal c A)).
  { intros A EA c H.
    assert (V0 : mmul 2 (madj (phases f)) mid 0%nat 0%nat = C1).
    { rewrite (mmul_id_r 2 (madj (phases f)) 0%nat 0%nat) by lia. unfold madj, phases, mdiag, f. cbn [Nat.eqb]. rewrite Ropp_0, cis_0. apply Ceq; cbn; ring. }
    assert (V1 : mmul 2 (madj (phases f)) mid 1%nat 1%nat = Ci).
    { rewrite (mmul_id_r 2 (madj (phases f)) 1%nat 1%nat) by lia. unfold madj, phases, mdiag, f. cbn [Nat.eqb]. rewrite cis_neg, cis_PI2. apply Ceq; cbn; ring. }
    apply (far_apart C1 Ci c (circuit_matrix 2 l 0%nat 0%nat) (circuit_matrix 2 l 1%nat 1%nat) (code_error 2 + code_delta)).
    - rewrite <- V0. apply C; lia.
    - rewrite <- V1. apply C; lia.
    - assert (X := H 0%nat 0%nat ltac:(lia) ltac:(lia)). unfold mscal in X. rewrite (EA 0%nat 0%nat) in X by lia.
      replace C1 with (phases f 0%nat 0%nat); [exact X|]. unfold phases, mdiag, f. cbn [Nat.eqb]. rewrite Ropp_0. apply cis_0.
    - assert (X := H 1%nat 1%nat ltac:(lia) ltac:(lia)). unfold mscal in X. rewrite (EA 1%nat 1%nat) in X by lia.
      replace (- Ci) with (phases f 1%nat 1%nat); [exact X|]. unfold phases, mdiag, f. cbn [Nat.eqb]. rewrite cis_neg, cis_PI2. apply Ceq; cbn; ring.
    - apply Cmod_C1.
    - apply Cmod_Ci.
    - exact DL. }
  split; apply F; [apply mmul_id_r|apply mmul_id_l].
Qed.

(** *** Statements for the properties *)
Lemma close_exact d A : close d (qr_error 0 0 d) A mid -> meq d A mid.
Proof.
  intros H i j Hi Hj. assert (X := H i j Hi Hj). unfold qr_error in X.
  assert (Z : Cmod (Csub (A i j) (mid i j)) = 0%R) by (assert (Y := Cmod_nonneg (Csub (A i j) (mid i j))); lra).
  apply Cmod_0 in Z. replace (A i j) with (Csub (A i j) (mid i j) + mid i j) by (unfold Csub; ring). rewrite Z. ring.
Qed.
Theorem phases_restored sp eps delta d U g :
  finds_shortest sp -> routable d g -> covers d g -> unitary d U -> (0 <= eps)%R -> (0 <= delta)%R ->
  exists ops alg tot g', phy_execute sp eps delta false true d U g = Ok (ops, alg, tot, g') /\
    forall n v x, has_attr g n "phase_storage" v -> num v = Ok x ->
      exists y, has_attr g' n "phase_storage" (AFlt y) /\ same_mod (2 * PI) y x.
Proof.
  intros SP RT CV HU E0 D0. destruct (phy_execute_ok sp eps delta false true d U g SP RT CV HU E0 D0 (or_introl eq_refl))
    as (ops0 & new & alg & tot & g' & E & _ & _ & _ & _ & _ & _ & _ & _ & _ & _ & A & _).
  exists (ops0 ++ new), alg, tot, g'. split; [exact E|]. intros n v x Hv Hx. eexists. split; [exact (A eq_refl n v Hv)|].
  assert (B := rt_logical _ _ RT n (has_node g _ _ _ Hv)). rewrite <- (Z2Nat.id n) in Hv by lia.
  destruct (stored_ok d g _ v RT Hv) as [_ Y]. rewrite Hx in Y. injection Y as ->.
  assert (P : (0 < 2 * PI)%R) by (assert (X := PI_RGT_0); lra). exact (proj1 (new_mod_spec _ _ P)).
Qed.

Lemma put_length gs i g g0 : pyindex gs i = Ok g0 -> List.length (put_graph gs i g) = List.length gs.
Proof.
  intros H. apply pyindex_norm in H. destruct H as [B _]. unfold put_graph, norm_index in *. rewrite app_length, firstn_length. cbn [List.length]. rewrite skipn_length.
  destruct (Z.ltb_spec i 0); lia.
Qed.
Lemma replaced_any R c out : replaced R c out -> replaced (fun _ _ _ _ => True) c out.
Proof. induction 1; constructor; auto. Qed.
Theorem log_structure sp gs c : finds_shortest sp -> compilable gs c ->
  exists out gs', log_transpile sp gs c = Ok (out, gs') /\ replaced (fun _ _ _ _ => True) c out /\ List.length gs' = List.length gs.
Proof.
  intros SP CP. destruct (log_transpile_ok sp SP c gs CP) as (out & gs' & E & R). exists out, gs'. split; [exact E|]. split; [exact (replaced_any _ _ _ R)|].
  clear SP CP R. revert gs out gs' E. induction c as [|[line d U|n] c IH]; cbn [log_transpile]; intros gs out gs' E.
  - congruence.
  - apply EmitProofs.bindr_Ok in E. destruct E as ((l & gs1) & E1 & E). apply EmitProofs.bindr_Ok in E. destruct E as ((o2 & gs2) & E2 & E).
    injection E as <- <-. cbn [fst snd] in *. rewrite (IH _ _ _ E2). unfold log_transpile_gate in E1. apply EmitProofs.bindr_Ok in E1. destruct E1 as (g & EG & E1).
    apply EmitProofs.bindr_Ok in E1. destruct E1 as ((((ops & ?) & ?) & g') & _ & E1). injection E1 as <- <-. exact (put_length gs line g' g EG).
  - apply EmitProofs.bindr_Ok in E. destruct E as ((o2 & gs2) & E2 & E). injection E as <- <-. exact (IH _ _ _ E2).
Qed.
Theorem phy_structure sp gs c : finds_shortest sp -> compilable gs c ->
  exists out gs', phy_transpile sp gs c = Ok (out, gs') /\ replaced (fun _ _ _ _ => True) c out /\ List.length gs' = List.length gs.
Proof.
  intros SP CP. destruct (phy_transpile_ok sp SP gs c gs CP CP (follows_refl gs)) as (out & gs' & E & R). exists out, gs'. split; [exact E|]. split; [exact (replaced_any _ _ _ R)|].
  clear SP CP R. revert gs out gs' E. induction c as [|[line d U|n] c IH]; cbn [phy_transpile]; intros gs out gs' E.
  - congruence.
  - apply EmitProofs.bindr_Ok in E. destruct E as ((l & gs1) & E1 & E). apply EmitProofs.bindr_Ok in E. destruct E as ((o2 & gs2) & E2 & E).
    injection E as <- <-. cbn [fst snd] in *. rewrite (IH _ _ _ E2). unfold phy_transpile_gate in E1. apply EmitProofs.bindr_Ok in E1. destruct E1 as (g & EG & E1).
    apply EmitProofs.bindr_Ok in E1. destruct E1 as ((((ops & ?) & ?) & g') & _ & E1). injection E1 as <- <-. exact (put_length gs line g' g EG).
  - apply EmitProofs.bindr_Ok in E. destruct E as ((o2 & gs2) & E2 & E). injection E as <- <-. exact (IH _ _ _ E2).
Qed.

Lemma three_case : finds_shortest search_shortest /\ routable 3 traps_three /\ covers 3 traps_three /\ no_phases traps_three /\
  unitary 3 (rotation 0 2 1 1).
Proof.
  split; [exact search_contract|]. split; [exact three_routable|]. split; [|split].
  - intros n Hn. destruct n as [|[|[|n]]]; [vm_compute; auto|vm_compute; auto|vm_compute; auto|lia].
  - intros n v x H. apply (has_attr_alook traps_three (rt_wf _ _ three_routable)) in H. exfalso.
    unfold alook in H. destruct (nget (nd traps_three) n) as [a|] eqn:E; [|discriminate].
    apply (dget_In Z.eqb zeq) in E. vm_compute in E. repeat destruct E as [E|E]; try (injection E as <- <-; vm_compute in H; discriminate). destruct E.
  - apply rotation_unitary; lia.
Qed.
Lemma three_device : exists V, on_device 3 traps_three (rotation 0 2 1 1) V.
Proof. destruct three_case as (_ & R & C & _). exact (on_device_exists 3 _ _ R C). Qed.
Lemma three_circuit : compilable [traps_three; pair_graph]
  [IOther 7; ISingle 0 3 (rotation 0 2 1 1); ISingle 1 2 swapped_phase; ISingle (-1) 2 swapped_phase].
Proof.
  destruct three_case as (_ & R & C & _ & T). intros line d U H. destruct H as [H|[H|[H|[H|[]]]]]; try discriminate; injection H as <- <- <-.
  - split; [exact T|]. exists traps_three. auto.
  - split; [exact swapped_phase_unitary|]. exists pair_graph. split; [reflexivity|]. split; [exact pair_routable|exact pair_covers].
  - split; [exact swapped_phase_unitary|]. exists pair_graph. split; [reflexivity|]. split; [exact pair_routable|exact pair_covers].
Qed.
