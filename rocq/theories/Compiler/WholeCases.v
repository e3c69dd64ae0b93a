(** A compiled circuit that does not do what the program says, and a circuit that the theorems are about (C93). *)
From Coq Require Import Reals List Arith ZArith Lia Lra Sorted Permutation.
From Verif.Base Require Import Py PyFacts Cplx Matrix Radix Angle.
From Verif.Circuit Require Import CircuitModel GateModel.
From Verif.Gates Require Import SingleModel TwoModel TwoSpec TwoProofs FactoryModel FactorySpec ActsOn.
From Verif.Sim Require Import TnSpec TnProofs.
From Verif.Levels Require Import LevelsModel LevelsSpec GraphProofs LevelsProofs RouteProofs.
From Verif.Local Require Import QrModel QrSpec QrMath QrCases QrPhysical QrPasses AdaPasses PhySpec PhyCases.
From Verif.Ent Require Import BlockModel BlockSpec PassModel PassSpec EmitProofs PassProofs.
From Verif.Compiler Require Import DispatchModel DispatchSpec WholeModel WholeSpec WholeNorm WholeOps WholeProofs.
Import ListNotations.
Local Open Scope nat_scope.

(** *** Two qubits whose levels are where they are called *)
Definition two_qubits (l : list cgate) : circuit cgate := set_instructions (fst (circuit_of_dims 2 (Some [2; 2]))) l.
Definition same_levels (i n : nat) : nat := n.
Lemma two_device : device [2; 2] [pair_graph; pair_graph] same_levels.
Proof. intros i Hi. exists pair_graph. destruct i as [|[|i]]; [| |cbn in Hi; lia]; (split; [reflexivity|]; split; [exact pair_laid|exact pair_quiet]). Qed.
Lemma same_placed dims v : placed_state dims same_levels v v.
Proof. intros r k Hr Hk H. f_equal. apply (digit_ext dims); trivial. Qed.

Lemma within_at n e v w k : within n e v w -> k < n -> (Cmod (Csub (v k) (w k)) <= e)%R.
Proof.
  intros H Hk. refine (Rle_trans _ _ _ _ H). unfold Cmod. apply sqrt_le_1_alt. unfold norm2.
  apply (rsum_term n (fun i => Cnorm2 (Csub (v i) (w i))) k); [intros i _; apply Cnorm2_nonneg|exact Hk].
Qed.

Theorem dagger_lost sp round6 det solve fuel : exists c gs' out, num_qudits c = List.length (dimensions c) /\ dimensions c = [2; 2] /\
  instructions c = [CUser2 (Two 0 1 2 2 (TCex (Cex 0 1 1 0) true))] /\
  whole_O0 sp round6 det solve fuel [pair_graph; pair_graph] c = (gs', Ok out) /\
  ~ implements [2; 2] same_levels (1 / 2) (map as_gate (instructions out)) (map as_gate (instructions c)).
Proof.
  set (x := Cex 0 1 1 0).
  assert (Fx : cex_fits 2 2 x) by (assert (P := PI_RGT_0); unfold cex_fits; cbn; repeat split; try lia; lra).
  destruct (phy_cex_ok sp round6 det solve [pair_graph; pair_graph] 0 1 2 2 pair_graph pair_graph _ _ eq_refl eq_refl pair_laid pair_laid x true Fx)
    as (y & M & M' & E & _ & EM & EM' & RL & _).
  apply proj2 in RL. specialize (RL (or_introl Nat.lt_0_1)).
  assert (EN : forall i j, i < 4 -> j < 4 -> M' i j = M i j).
  { intros i j Hi Hj. assert (X := RL (i / 2) (i mod 2) (j / 2) (j mod 2)). unfold pair_index in X. cbn [Nat.ltb Nat.leb] in X.
    assert (B : forall a, a < 4 -> a / 2 < 2 /\ a mod 2 < 2 /\ a / 2 * 2 + a mod 2 = a).
    { intros a Ha. split; [apply Nat.div_lt_upper_bound; lia|]. split; [apply Nat.mod_upper_bound; lia|]. assert (D := Nat.div_mod a 2 ltac:(lia)). lia. }
    destruct (B i Hi) as (A1 & A2 & A3). destruct (B j Hj) as (B1 & B2 & B3). specialize (X A1 A2 B1 B2). rewrite A3, B3 in X. exact X. }
  set (c := two_qubits [CUser2 (Two 0 1 2 2 (TCex x true))]). set (gs := [pair_graph; pair_graph]) in *.
  assert (EP : mappings_of level_maps gs c = Ok (map (fun i => map (same_levels i) (seq 0 (nth i [2; 2] 0))) (seq 0 2)))
    by (unfold mappings_of; change (num_qudits c) with 2; apply (mapping_laid [2; 2] same_levels gs two_device)).
  set (ms := map (fun i => map (same_levels i) (seq 0 (nth i [2; 2] 0))) (seq 0 2)) in EP.
  exists c, gs, (set_mapping (set_instructions (set_mapping c ms) [CCex 0 1 2 2 y]) ms). split; [reflexivity|]. split; [reflexivity|]. split; [reflexivity|]. split.
  { unfold whole_O0, compile_O0, compile. replace (choose [] ["PhyLocQRPass"%string; "PhyEntQRCEXPass"%string]) with (Ok [(SINGLE, PhyLocQR); (TWO, PhyEntQRCEX)]) by (vm_compute; reflexivity).
    change (instructions c) with [CUser2 (Two 0 1 2 2 (TCex x true))]. cbn [rewrite_all type_of dget gtype_eqb transpile_gate]. unfold the_pass, pass_result. cbn [double bindr].
    rewrite E. cbn [fst snd tw_dc tw_dt flat_map from_ent app bindr]. rewrite EP. reflexivity. }
  change (instructions c) with [CUser2 (Two 0 1 2 2 (TCex x true))]. 
  match goal with |- context [instructions ?o] => change (instructions o) with [CCex 0 1 2 2 y] end. cbn [map as_gate]. change (0 <? 1) with true in EM, EM' |- *. rewrite EM, EM'. cbn [the].
  intros (g & H).
  assert (ME : M 0 0 = C1 /\ M 3 2 = Copp Ci /\ M 2 3 = Copp Ci).
  { clear - EM. unfold cex_array in EM. cbn in EM. injection EM as <-. unfold msum, mkron; cbn. rewrite ?cos_0, ?sin_0. split; [|split]; apply Ceq; cbn; ring. }
  destruct ME as (M1 & M2 & M3).
  assert (O1 := op_on_two [2; 2] 0 1 true M ltac:(cbn; lia) ltac:(cbn; lia) ltac:(lia)).
  assert (O2 := op_on_two [2; 2] 0 1 false M' ltac:(cbn; lia) ltac:(cbn; lia) ltac:(lia)).
  assert (K : forall i j, i < 4 -> j < 4 -> (Cmod (Csub (M i j) (Cmul (cis g) (madj M i j))) <= 1 / 2)%R).
  { intros i j Hi Hj. assert (X := H (ket j) _ (ket j) _ _ (norm2_ket 4 j Hj) (proj2 (O1 (ket j) _) (fun k _ => eq_refl)) (same_placed _ _) (proj2 (O2 (ket j) _) (fun k _ => eq_refl)) (same_placed _ _)).
    apply (within_at _ _ _ _ i) in X; [|exact Hi]. rewrite !mapply_ket in X by exact Hj. 
    assert (EE : forall A, emb [2; 2] (pair_of 0 1) A i j = A i j).
    { intros A. destruct i as [|[|[|[|i]]]]; try lia; destruct j as [|[|[|[|j]]]]; try lia; reflexivity. }
    rewrite !EE in X. rewrite (EN i j Hi Hj) in X. exact X. }
  assert (K0 := K 0 0 ltac:(lia) ltac:(lia)). assert (K1 := K 3 2 ltac:(lia) ltac:(lia)). unfold madj in K0, K1. rewrite M1 in K0. rewrite M2, M3 in K1.
  apply (sign_apart g C1 (Copp C1)); try reflexivity.
  - replace (Csub C1 (cis g)) with (Csub C1 (Cmul (cis g) (Cconj C1))); [exact K0|]. apply Ceq; cbn; ring.
  - replace (Csub (Copp C1) (cis g)) with (Cmul (Copp Ci) (Csub (Copp Ci) (Cmul (cis g) (Cconj (Copp Ci))))); [|apply Ceq; cbn; ring].
    rewrite Cmod_mul, Cmod_opp, Cmod_Ci, Rmult_1_l. exact K1.
Qed.

(** *** Circuits the theorems are about *)
Definition a_program : circuit cgate :=
  two_qubits [CUser1 0 2 swap2; CUser2 (Two 0 1 2 2 (TCex (Cex 0 1 1 0) false)); CUser2 (Two 1 0 2 2 (TCex (Cex 0 1 0 PI) false));
    CUser1 1 2 swap2; CUser1 1 2 swap2; CUser2 (Two 0 1 2 2 (TMat flip1))].
Lemma a_program_fits : forall g, In g (instructions a_program) -> implementable [2; 2] same_levels g /\ type_of g <> MULTI.
Proof.
  assert (P := PI_RGT_0). assert (U2 := swap2_unitary). assert (U4 := flip1_unitary).
  intros g [<-|[<-|[<-|[<-|[<-|[<-|[]]]]]]]; (split; [|discriminate]); unfold implementable, same_levels, at_home, cex_fits; cbn;
    repeat split; try lia; try lra; try apply U2; try apply U4; auto; try (right; exact sin_PI).
Qed.
(** On the second of these two qubits the levels are exchanged. *)
Definition half_swapped (i n : nat) : nat := match i with 0 => n | _ => 1 - n end.
Lemma swapped_quiet : no_phases swapped_pair.
Proof.
  intros n v x H. apply (has_attr_alook swapped_pair (rt_wf _ _ swapped_routable)) in H. exfalso.
  unfold alook in H. destruct (nget (nd swapped_pair) n) as [a|] eqn:E; [|discriminate].
  apply (dget_In Z.eqb zeq) in E. vm_compute in E. destruct E as [E|[E|[]]]; injection E as <- <-; vm_compute in H; discriminate.
Qed.
Lemma half_device : device [2; 2] [pair_graph; swapped_pair] half_swapped.
Proof.
  intros i Hi. destruct i as [|[|i]]; [| |cbn in Hi; lia].
  - exists pair_graph. split; [reflexivity|]. split; [exact pair_laid|exact pair_quiet].
  - exists swapped_pair. split; [reflexivity|]. split; [exact swapped_laid|exact swapped_quiet].
Qed.
Definition another_program : circuit cgate :=
  two_qubits [CUser1 1 2 swap2; CUser2 (Two 0 1 2 2 (TCex (Cex 0 1 1 0) false)); CUser2 (Two 1 0 2 2 (TCex (Cex 0 1 1 (PI / 2)) false)); CUserN [0] swap2].
Lemma another_program_fits : forall g, In g (instructions another_program) -> implementable [2; 2] half_swapped g.
Proof.
  assert (P := PI_RGT_0). assert (U2 := swap2_unitary).
  intros g [<-|[<-|[<-|[<-|[]]]]]; unfold implementable, half_swapped, at_home, cex_fits; cbn;
    repeat split; try lia; try lra; try apply U2; auto; try (right; exact sin_0); try discriminate.
  - repeat constructor.
  - destruct H as [<-|[]]. lia.
Qed.

(** The two qubits of [pair_graph] have both of their levels coupled; the two gates on the first qubit have a CEx in between. *)
Lemma pairs_coupled : coupled_device [2; 2] [pair_graph; pair_graph].
Proof. intros i Hi. exists pair_graph. destruct i as [|[|i]]; [| |cbn in Hi; lia]; (split; [reflexivity|exact pair_all_coupled]). Qed.
Definition third_program : circuit cgate :=
  two_qubits [CUser1 0 2 s_gate; CUser2 (Two 0 1 2 2 (TCex (Cex 0 1 1 0) false)); CUser1 1 2 swap2; CUser1 0 2 swap2; CUser2 (Two 0 1 2 2 (TMat flip1))].
Lemma third_program_fits : forall g, In g (instructions third_program) -> implementable [2; 2] same_levels g /\ type_of g <> MULTI /\ adaptable_gate g.
Proof.
  assert (P := PI_RGT_0). assert (U2 := swap2_unitary). assert (U3 := s_gate_unitary). assert (U4 := flip1_unitary).
  intros g [<-|[<-|[<-|[<-|[<-|[]]]]]]; (split; [|split; [discriminate|]]);
    try (split; [lia|first [exact s_gate_dust_free|exact swap2_dust_free]]); try exact Logic.I;
    unfold implementable, same_levels, at_home, cex_fits; cbn [tw_q0 cx_a cx_b cx_ctrl cx_phi List.length nth];
    repeat split; try lia; try lra; try apply U2; try apply U3; try apply U4; cbn; auto; try lia; try lra.
Qed.
Lemma third_program_apart : separated (instructions third_program).
Proof.
  intros a q d U b d' U' r E. change (instructions third_program) with [CUser1 0 2 s_gate; CUser2 (Two 0 1 2 2 (TCex (Cex 0 1 1 0) false)); CUser1 1 2 swap2; CUser1 0 2 swap2; CUser2 (Two 0 1 2 2 (TMat flip1))] in E.
  destruct a as [|a0 [|a1 [|a2 [|a3 [|a4 [|a5 a]]]]]]; cbn [app] in E; try (injection E; intros; discriminate).
  - injection E as <- _ _ E. destruct b as [|b0 b]; cbn [app] in E; [discriminate|]. injection E as <- E. exists (Two 0 1 2 2 (TCex (Cex 0 1 1 0) false)). split; [left; reflexivity|]. left. reflexivity.
  - injection E as _ _ <- _ _ E. destruct b as [|b0 [|b1 [|b2 b]]]; cbn [app] in E; try (injection E; intros; discriminate); try discriminate.
  - injection E as _ _ _ <- _ _ E. destruct b as [|b0 [|b1 b]]; cbn [app] in E; try (injection E; intros; discriminate); try discriminate.
Qed.
