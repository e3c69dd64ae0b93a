(** Circuits the theorems about chosen passes are about, and two that are not compiled rightly (C106). *)
From Coq Require Import Reals List Arith ZArith Lia Lra String.
From Verif.Base Require Import Py PyFacts Cplx Matrix Radix Angle.
From Verif.Circuit Require Import CircuitModel GateModel.
From Verif.Gates Require Import SingleModel TwoModel TwoSpec TwoProofs FactoryModel FactorySpec ActsOn.
From Verif.Sim Require Import TnSpec TnProofs.
From Verif.Levels Require Import LevelsModel LevelsSpec GraphProofs LevelsProofs RouteProofs.
From Verif.Local Require Import QrModel QrSpec QrMath QrCases QrPhysical QrPasses TreeModel AdaModel AdaSpec AdaPasses PhySpec PhyCases.
From Verif.Ent Require Import BlockModel BlockSpec PassModel PassSpec EmitProofs PassProofs.
From Verif.Compiler Require Import DispatchModel DispatchSpec DispatchProofs WholeModel WholeSpec WholeNorm WholeOps WholeProofs WholeCases WholeTwice ChosenModel ChosenSpec ChosenProofs.
Import ListNotations.
Local Open Scope nat_scope.

Definition one_qubit (l : list cgate) : circuit cgate := set_instructions (fst (circuit_of_dims 1 (Some [2]))) l.

(** *** The logical local pass puts out the inverse *)
Lemma one_entry A i j : i < 2 -> j < 2 -> emb [2] [0] A i j = A i j.
Proof. intros Hi Hj. destruct i as [|[|i]]; try lia; destruct j as [|[|j]]; try lia; reflexivity. Qed.
Lemma only_log : responsible ["LogLocQRPass"%string] SINGLE LogLocQR.
Proof. exists [], "LogLocQRPass"%string, []. repeat split; [constructor|]. intros m d []. Qed.
Lemma log_known : forall n, In n ["LogLocQRPass"%string] -> exists k, named n k.
Proof. intros n [<-|[]]. exists LogLocQR. constructor. Qed.
Lemma sub_sym x y : Cmod (Csub x y) = Cmod (Csub y x).
Proof. unfold Cmod, Cnorm2, Csub, Cadd, Copp; cbn; f_equal; ring. Qed.
Lemma sub_tri x y z : (Cmod (Csub x z) <= Cmod (Csub x y) + Cmod (Csub y z))%R.
Proof. replace (Csub x z) with (Cadd (Csub x y) (Csub y z)) by (apply Ceq; cbn; ring). apply Cmod_triangle. Qed.
Lemma two_phases a b e : (Cmod (Csub (cis a) (cis b)) <= e)%R -> (Cmod (Cadd (cis a) (cis b)) <= e)%R -> (1 <= e)%R.
Proof.
  intros H1 H2. assert (X := Cmod_triangle (Csub (cis a) (cis b)) (Cadd (cis a) (cis b))).
  replace (Cadd (Csub (cis a) (cis b)) (Cadd (cis a) (cis b))) with (Cmul (2, 0)%R (cis a)) in X by (apply Ceq; cbn; ring).
  rewrite Cmod_mul, Cmod_cis in X. replace (Cmod (2, 0)%R) with 2%R in X; [lra|].
  unfold Cmod, Cnorm2. cbn. replace (2 * 2 + 0 * 0)%R with (2 * 2)%R by ring. rewrite sqrt_square; lra.
Qed.
Theorem log_inverts sp round6 det solve : finds_shortest sp -> rounds6 round6 -> exact_det det -> exact_solve det solve ->
  exists gs' out enough, (forall fuel, enough <= fuel -> whole_compile sp round6 det solve fuel ["LogLocQRPass"%string] [pair_graph] (one_qubit [CUser1 0 2 s_gate]) = (gs', Ok out)) /\
  ~ implements [2] same_levels (1 / 2) (map as_gate (instructions out)) [on_one 0 false s_gate].
Proof.
  intros SP HR HD HS. set (c := one_qubit [CUser1 0 2 s_gate]).
  destruct (chosen_ok sp round6 det solve ["LogLocQRPass"%string] [pair_graph] same_levels c [CUser1 0 2 (madj s_gate)]
    (INR 2 * (INR 2 * qr_error code_eps code_delta 2) + 0) SP HR HD HS eq_refl log_known one_device) as (gs' & out & enough & E & _ & _ & _ & _ & R1 & R2 & I).
  { intros W. discriminate (responsible_fun _ _ _ _ log_known W only_log). }
  { constructor; [|constructor]. apply (b_log_qr [2] same_levels ["LogLocQRPass"%string] 0 s_gate only_log); [cbn; lia|exact s_gate_unitary|intros n _; reflexivity]. }
  exists gs', out, enough. split; [exact E|]. change (dimensions c) with [2] in *. cbn [map as_gate] in I. intros (g2 & H2). destruct I as (g1 & H1).
  set (e := (INR 2 * (INR 2 * qr_error code_eps code_delta 2) + 0)%R) in *.
  assert (SE : (e < 1 / 4)%R) by (unfold e, qr_error, code_eps, code_delta; cbn [INR]; lra).
  assert (K : forall j, j < 2 -> (Cmod (Csub (Cmul (cis g1) (madj s_gate j j)) (Cmul (cis g2) (s_gate j j))) <= 3 / 4)%R).
  { intros j Hj. destruct (R2 (ket j)) as (phi' & EV).
    assert (O1 := op_on_one [2] 0 false (madj s_gate) ltac:(cbn; lia)). assert (O2 := op_on_one [2] 0 false s_gate ltac:(cbn; lia)).
    assert (X1 := H1 (ket j) _ (ket j) phi' _ (norm2_ket 2 j Hj) (proj2 (O1 (ket j) _) (fun k _ => eq_refl)) (same_placed _ _) EV (same_placed _ _)).
    assert (X2 := H2 (ket j) _ (ket j) phi' _ (norm2_ket 2 j Hj) (proj2 (O2 (ket j) _) (fun k _ => eq_refl)) (same_placed _ _) EV (same_placed _ _)).
    apply (within_at _ _ _ _ j) in X1, X2; try exact Hj. cbv beta iota in X1, X2. rewrite mapply_ket in X1, X2 by exact Hj. rewrite one_entry in X1, X2 by exact Hj.
    eapply Rle_trans; [apply (sub_tri _ (phi' j))|]. rewrite sub_sym in X1. lra. }
  assert (K0 := K 0 ltac:(lia)). assert (K1 := K 1 ltac:(lia)). unfold s_gate, mdiag, madj in K0, K1. cbn [Nat.eqb] in K0, K1.
  assert (F : (1 <= 3 / 4)%R); [|lra]. apply (two_phases g1 g2).
  - replace (Csub (cis g1) (cis g2)) with (Csub (Cmul (cis g1) (Cconj C1)) (Cmul (cis g2) C1)) by (apply Ceq; cbn; ring). exact K0.
  - replace (Csub (Cmul (cis g1) (Cconj Ci)) (Cmul (cis g2) Ci)) with (Cmul (Copp Ci) (Cadd (cis g1) (cis g2))) in K1 by (apply Ceq; cbn; ring).
    rewrite Cmod_mul, Cmod_opp, Cmod_Ci, Rmult_1_l in K1. exact K1.
Qed.

(** *** A gate that no pass takes stays on the logical levels *)
Definition exchanged (i n : nat) : nat := 1 - n.
Lemma exchanged_device : device [2] [swapped_pair] exchanged.
Proof. intros i Hi. exists swapped_pair. destruct i as [|i]; [|cbn in Hi; lia]. split; [reflexivity|]. split; [exact swapped_laid|exact swapped_quiet]. Qed.
Lemma exchanged_placed v : placed_state [2] exchanged v (fun k => v (1 - k)).
Proof.
  intros r k Hr Hk H. change (prodl [2]) with 2 in *. specialize (H 0 ltac:(cbn; lia)).
  destruct r as [|[|r]]; try lia; destruct k as [|[|k]]; try lia; vm_compute in H; try discriminate; reflexivity.
Qed.
Theorem kept_wrong sp round6 det solve fuel : exists out, whole_compile sp round6 det solve fuel ["LogEntQRCEXPass"%string] [swapped_pair] (one_qubit [CUser1 0 2 s_gate]) = ([swapped_pair], Ok out) /\
  mappings out = Some [[1; 0]] /\ ~ implements [2] exchanged (1 / 2) (map as_gate (instructions out)) [on_one 0 false s_gate].
Proof.
  set (c := one_qubit [CUser1 0 2 s_gate]).
  assert (EP : mappings_of level_maps [swapped_pair] c = Ok [[1; 0]]) by (unfold mappings_of; change (num_qudits c) with 1; apply (mapping_laid [2] exchanged [swapped_pair] exchanged_device)).
  exists (set_instructions (set_mapping c [[1; 0]]) [CUser1 0 2 s_gate]). split; [|split; [reflexivity|]].
  { unfold whole_compile, compile. replace (choose [] ["LogEntQRCEXPass"%string]) with (Ok [(TWO, LogEntQRCEX)]) by (vm_compute; reflexivity).
    change (instructions c) with [CUser1 0 2 s_gate]. cbn [rewrite_all type_of dget gtype_eqb fst snd]. rewrite EP. reflexivity. }
  match goal with |- context [instructions ?o] => change (instructions o) with [CUser1 0 2 s_gate] end. cbn [map as_gate]. intros (g & H).
  assert (O2 := op_on_one [2] 0 false s_gate ltac:(cbn; lia)).
  assert (K : forall j, j < 2 -> (Cmod (Csub (s_gate (1 - j)%nat (1 - j)%nat) (Cmul (cis g) (s_gate j j))) <= 1 / 2)%R).
  { intros j Hj. assert (KE : veq 2 (fun k => ket j (1 - k)%nat) (ket (1 - j))) by (intros k Hk; destruct k as [|[|k]]; try lia; destruct j as [|[|j]]; try lia; reflexivity).
    assert (X := H (ket j) _ _ (mapply 2 (emb [2] [0] s_gate) (ket (1 - j))) _ (norm2_ket 2 j Hj) (proj2 (O2 (ket j) _) (fun k _ => eq_refl)) (exchanged_placed _)
      (proj2 (O2 _ _) (fun k Hk => eq_sym (mapply_ext 2 _ _ _ _ (meq_refl 2 _) KE k Hk))) (exchanged_placed _)).
    apply (within_at _ _ _ _ (1 - j)) in X; [|change (prodl [2]) with 2; lia]. cbv beta iota in X. replace (1 - (1 - j)) with j in X by lia. rewrite !mapply_ket in X by (change (prodl [2]) with 2; lia).
    rewrite !one_entry in X by lia. exact X. }
  assert (K0 := K 0 ltac:(lia)). assert (K1 := K 1 ltac:(lia)). unfold s_gate, mdiag in K0, K1. cbn [Nat.eqb Nat.sub] in K0, K1.
  assert (F : (2 <= 1)%R); [|lra].
  assert (K0' : (Cmod (Csub Ci (cis g)) <= 1 / 2)%R) by (replace (Csub Ci (cis g)) with (Csub Ci (Cmul (cis g) C1)) by (apply Ceq; cbn; ring); exact K0).
  assert (K1' : (Cmod (Csub (cis g) (Copp Ci)) <= 1 / 2)%R).
  { replace (Csub C1 (Cmul (cis g) Ci)) with (Cmul (Copp Ci) (Csub (cis g) (Copp Ci))) in K1 by (apply Ceq; cbn; ring). rewrite Cmod_mul, Cmod_opp, Cmod_Ci, Rmult_1_l in K1. exact K1. }
  assert (X := sub_tri Ci (cis g) (Copp Ci)). replace (Cmod (Csub Ci (Copp Ci))) with 2%R in X; [lra|].
  unfold Cmod. replace (Cnorm2 (Csub Ci (Copp Ci))) with (2 * 2)%R by (unfold Cnorm2; cbn; ring). rewrite sqrt_square; lra.
Qed.

(** *** Programs that meet the hypotheses *)
Definition mixed : list string := ["LocQRPass"; "LogEntQRCEXPass"; "ZPropagationOptPass"; "LocAdaPass"]%string.
Lemma mixed_known : forall n, In n mixed -> exists k, named n k.
Proof. intros n [<-|[<-|[<-|[<-|[]]]]]; eexists; constructor. Qed.
Lemma mixed_one : responsible mixed SINGLE PhyLocAda.
Proof. exists ["LocQRPass"; "LogEntQRCEXPass"; "ZPropagationOptPass"]%string, "LocAdaPass"%string, []. split; [reflexivity|]. split; [constructor|]. split; [reflexivity|]. intros m d []. Qed.
Lemma mixed_two : responsible mixed TWO LogEntQRCEX.
Proof.
  exists ["LocQRPass"]%string, "LogEntQRCEXPass"%string, ["ZPropagationOptPass"; "LocAdaPass"]%string. split; [reflexivity|]. split; [constructor|]. split; [reflexivity|].
  intros m d [<-|[<-|[]]] N M; inversion N; subst; cbn in M; discriminate || contradiction.
Qed.
Definition fourth_program : circuit cgate :=
  two_qubits [CUser1 0 2 s_gate; CUser2 (Two 0 1 2 2 (TCex (Cex 0 1 1 0) true)); CUser1 0 2 swap2; CUser1 0 2 s_gate; CUser2 (Two 0 1 2 2 (TMat flip1)); CUserN [1] swap2].
Lemma fourth_fits : exists e, program_becomes [2; 2] same_levels mixed (instructions fourth_program) (instructions fourth_program) e.
Proof.
  assert (P := PI_RGT_0). assert (U2 := swap2_unitary). assert (U3 := s_gate_unitary). assert (U4 := flip1_unitary).
  assert (L : two_lines [2; 2] 0 1) by (repeat split; cbn; lia). assert (A : forall q, at_home [2; 2] same_levels q) by (intros q n _; reflexivity).
  change (instructions fourth_program) with [CUser1 0 2 s_gate; CUser2 (Two 0 1 2 2 (TCex (Cex 0 1 1 0) true)); CUser1 0 2 swap2; CUser1 0 2 s_gate; CUser2 (Two 0 1 2 2 (TMat flip1)); CUserN [1] swap2].
  eexists. repeat apply pb_cons; try apply pb_nil.
  - apply (b_ada [2; 2] same_levels mixed 0 s_gate mixed_one); [cbn; lia|exact U3|]. split; [cbn; lia|exact s_gate_dust_free].
  - apply (b_log_ent [2; 2] same_levels mixed 0 1 _ mixed_two L); try lia; try reflexivity; try apply A. unfold cex_fits; cbn; repeat split; try lia; lra.
  - apply (b_ada [2; 2] same_levels mixed 0 swap2 mixed_one); [cbn; lia|exact U2|]. split; [cbn; lia|exact swap2_dust_free].
  - apply (b_ada [2; 2] same_levels mixed 0 s_gate mixed_one); [cbn; lia|exact U3|]. split; [cbn; lia|exact s_gate_dust_free].
  - apply (b_log_ent [2; 2] same_levels mixed 0 1 _ mixed_two L); try lia; try reflexivity; try apply A. exact U4.
  - apply b_kept_many. cbn. split; [discriminate|]. split; [repeat constructor|]. split; [|exact U2]. intros t [<-|[]]. split; [lia|apply A].
Qed.
