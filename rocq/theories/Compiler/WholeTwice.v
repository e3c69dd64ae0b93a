(** Two local gates in a row at level O2: the phases of the first are kept for after the second, but belong before the
    rotations of the first (C93). *)
From Coq Require Import Reals List Arith ZArith Lia Lra String.
From Verif.Base Require Import Py PyFacts Cplx Matrix Radix Angle.
From Verif.Circuit Require Import CircuitModel GateModel.
From Verif.Gates Require Import AnglesModel AnglesProofs SingleModel SingleSpec SingleProofs TwoModel FactoryModel FactorySpec ActsOn.
From Verif.Sim Require Import TnSpec TnProofs.
From Verif.Levels Require Import LevelsModel LevelsSpec GraphProofs LevelsProofs RouteProofs.
From Verif.Variational Require EmitProofs.
From Verif.Local Require Import QrModel QrSpec QrMath QrCore QrEmit QrProofs QrPhysical QrCases QrPasses TreeModel AdaModel AdaSpec SearchProofs AdaProofs AdaFound AdaPasses
  PhySpec PhyUpdate PhyStep PhyAda PhyFound PhyPasses PhyCases QrMoved.
From Verif.Ent Require Import BlockModel BlockSpec PassModel PassSpec PairMath ExecProofs EmitProofs PassProofs.
From Verif.Compiler Require Import DispatchModel DispatchSpec WholeModel WholeSpec WholeNorm WholeOps WholeProofs WholeCases.
Import ListNotations.
Local Open Scope string_scope.
Local Open Scope list_scope.
Local Open Scope nat_scope.

(** The first gate: 0 goes to 1 and 1 to i times 0. *)
Definition twist : mat := fun i j => match i, j with 0, 1 => Ci | 1, 0 => C1 | _, _ => C0 end.
Lemma twist_unitary : unitary 2 twist.
Proof.
  split; intros i j Hi Hj; (destruct i as [|[|i]]; [| |lia]); (destruct j as [|[|j]]; [| |lia]); apply Ceq; cbv -[Rplus Rmult Ropp Rminus IZR]; ring.
Qed.
Lemma twist_dust_free : dust_free code_eps code_tiny 2 (visits 2) twist.
Proof. cbn. split; [|exact Logic.I]. intros _. right. exact PhyCases.Cmod_0. Qed.
(** Its rotation. *)
Definition quarter : mat := fun i j => match i, j with 0, 1 => C1 | 1, 0 => Copp C1 | _, _ => C0 end.
Lemma angle_C1 : angle C1 = 0%R.
Proof. unfold angle, atan2. cbn. destruct (Rlt_dec 0 1); [|lra]. replace (0 / 1)%R with 0%R by field. apply atan_0. Qed.
Lemma angle_C0 : angle C0 = 0%R.
Proof. unfold angle, atan2. cbn. destruct (Rlt_dec 0 0); [lra|]. reflexivity. Qed.
Lemma angle_back : angle (Copp Ci) = (- (PI / 2))%R.
Proof. unfold angle, atan2. cbn. repeat (match goal with |- context [Rlt_dec ?a ?b] => destruct (Rlt_dec a b) end; try lra). Qed.
Lemma twist_swing : meq 2 (swing 2 twist 0 0 1) quarter.
Proof.
  eapply meq_trans; [apply swing_rotation; lia|].
  assert (T : ada_theta twist 0 0 1 = PI).
  { unfold ada_theta. cbn [twist]. rewrite Cmod_C1, PhyCases.Cmod_0. unfold atan2. destruct (Rlt_dec 0 0); [lra|]. destruct (Rlt_dec 0 1); [field|lra]. }
  assert (P : ada_phi twist 0 0 1 = (- (PI / 2))%R) by (unfold ada_phi; cbn [twist]; rewrite angle_C0, angle_C1; ring).
  rewrite T, P. intros i j Hi Hj. unfold rotation. destruct i as [|[|i]]; [| |lia]; (destruct j as [|[|j]]; [| |lia]); cbn; apply Ceq; cbn;
    rewrite ?Ropp_involutive, ?cos_neg, ?sin_neg, ?cos_PI2, ?sin_PI2; ring.
Qed.
Lemma twist_turned : meq 2 (mmul 2 (swing 2 twist 0 0 1) twist) (mdiag (fun i => if Nat.eqb i 1 then Copp Ci else C1)).
Proof.
  eapply meq_trans; [apply mmul_ext; [exact twist_swing|apply meq_refl]|].
  intros i j Hi Hj. destruct i as [|[|i]]; [| |lia]; (destruct j as [|[|j]]; [| |lia]); apply Ceq; cbv -[Rplus Rmult Ropp Rminus IZR]; ring.
Qed.

(** The graph with phases stored. *)
Definition keeping (a b : aval) : lgraph :=
  match write_attr (phase_storing_setup pair_graph) 0 "phase_storage" a with
  | Ok g => match write_attr g 1 "phase_storage" b with Ok g' => g' | Err _ => g end
  | Err _ => pair_graph end.

Section Twice.
  Variable sp : lgraph -> Z -> Z -> res (list Z).
  Hypothesis SP : finds_shortest sp.
  Notation kid := (phy_kid sp code_eps code_tiny code_slack 2).
  Let g0 := phase_storing_setup pair_graph.

  Lemma pair_execute : exists ops alg tot, phy_execute sp code_eps code_delta false true 2 twist pair_graph = Ok (ops, alg, tot, pair_graph).
  Proof.
    destruct code_pos as [E0 D0]. destruct (phy_execute_usable sp code_eps code_delta 2 twist pair_graph SP pair_usable twist_unitary E0 D0) as (ops & alg & tot & g' & E & _).
    exists ops, alg, tot. rewrite E. repeat f_equal. unfold phy_execute, execute in E. change (flush code_delta phy_level 2 false pair_graph) with (@Ok (list qop * list (Z * Rdefinitions.R) * lgraph) ([], [], pair_graph)) in E. cbn [bindr] in E.
    apply EmitProofs.bindr_Ok in E. destruct E as (s & _ & E). apply EmitProofs.bindr_Ok in E. destruct E as (o & _ & E).
    change (recover false true [] pair_graph) with (@Ok lgraph pair_graph) in E. cbn [bindr] in E. injection E as _ _ _ <-. reflexivity.
  Qed.

  Lemma first_gate : exists n l, (forall fuel, n <= fuel -> phy_ada_gate sp fuel true [Some pair_graph] 0 2 twist = Ok (l, [Some (keeping (AInt 0) (AFlt (- (PI / 2))))])) /\
    meq 2 (circuit_matrix 2 l) (madj quarter).
  Proof.
    destruct code_pos as [E0 D0]. destruct code_ada_pos as [S0 N0]. destruct (code_small 2 ltac:(lia)) as (A1 & A2 & A3).
    destruct pair_execute as (ops & alg & tot & E). 
    assert (T0 := phy_total_nonneg sp _ _ _ 2 twist pair_graph ops alg tot pair_graph SP pair_routable pair_covers E).
    destruct (some_nat ((tot + code_slack) / (8 / 100000))%R) as (n & Hn).
    assert (FB : (snd (alg, tot) + code_slack < INR n * (8 / 100000))%R).
    { cbn [snd]. apply (Rmult_lt_compat_r (8 / 100000)) in Hn; [|lra]. replace ((tot + code_slack) / (8 / 100000) * (8 / 100000))%R with (tot + code_slack)%R in Hn by field. exact Hn. }
    destruct (phy_adaptive_ends sp code_eps code_tiny code_near code_slack code_delta 2 SP S0 code_delta_pi ltac:(lia) n twist pair_graph (alg, tot) twist_unitary pair_usable T0 FB) as (((ops', best), fg) & EA).
    assert (LD : ladder 2 pair_graph) by (intros r Hr; apply pair_all_coupled; lia).
    assert (BN := phy_found sp code_eps code_tiny code_near code_slack code_delta 2 twist pair_graph ops alg tot pair_graph SP pair_usable LD twist_unitary ltac:(lia) E0 D0 S0 A1 A2 twist_dust_free E n ops' best fg EA).
    unfold phy_adaptive in EA. fold g0 in EA. apply EmitProofs.bindr_Ok in EA. destruct EA as (((p, best'), fg') & Es & EA).
    assert (SO := search_ok code_near kid 2 n twist g0 (alg, tot) p best' fg' Es). cbv zeta in SO. set (a := root twist g0 (alg, tot)) in *.
    destruct best' as [(c0, dc0)|]; [|exfalso; destruct SO as (-> & _); injection EA as _ <- _; congruence]. clear EA BN.
    destruct SO as (CH & ND & _ & _ & EG).
    assert (FT := setup_fit 2 pair_graph ltac:(lia) pair_usable). fold g0 in FT.
    assert (NA : near_diagonal code_near 2 twist = false).
    { apply Bool.not_true_is_false. intros H. apply near_diagonal_spec in H. destruct H as [_ H]. assert (X := H 1 0 ltac:(lia) ltac:(lia) ltac:(lia)). cbn in X. rewrite Cmod_C1 in X. unfold code_near in X. lra. }
    assert (EP : exists b, p = [a; b] /\ s_u b = mmul 2 (swing 2 twist 0 0 1) twist).
    { inversion CH as [|a' b p' CB CH']; subst; [cbn [last] in ND; change (s_u a) with twist in ND; congruence|].
      destruct (phy_child sp code_eps code_tiny code_slack 2 SP S0 a b g0 _ CB eq_refl FT) as (c & r & r2 & q & g2 & f2 & H1 & H2 & W & Eb & F2 & _ & _ & _ & _ & UB & _).
      assert (c = 0 /\ r = 0 /\ r2 = 1) as (-> & -> & ->) by lia. change (s_u a) with twist in UB.
      exists b. split; [|exact UB]. inversion CH' as [|b' x p'' CX]; subst; [reflexivity|]. exfalso.
      destruct (phy_child sp code_eps code_tiny code_slack 2 SP S0 b x g2 f2 CX Eb F2) as (c & r & r2 & _ & _ & _ & K1 & K2 & W' & _).
      assert (c = 0 /\ r = 0 /\ r2 = 1) as (-> & -> & ->) by lia. unfold wanted in W'. rewrite UB in W'. rewrite (twist_turned 1 0) in W' by lia. cbn [mdiag Nat.eqb] in W'. rewrite PhyCases.Cmod_0 in W'.
      destruct (Rlt_dec code_eps 0); [lra|discriminate]. }
    destruct EP as (b & -> & UB).
    destruct (phy_chain sp code_eps code_tiny code_slack 2 SP S0 a [a; b] CH twist_unitary g0 _ eq_refl FT) as (gx & fx & Ex & FX & _ & _ & UO & _ & MM & _ & _ & AC).
    cbn [last] in Ex, MM, EG, ND.
    assert (gx = g0) as ->.
    { apply AC. intros u v Hu Hv NE. assert (X := pair_all_coupled u v Hu Hv NE). exact X. }
    (* the frames *)
    assert (LP : forall k, k < 2 -> lpf g0 k = k) by (intros k Hk; destruct k as [|[|k]]; [reflexivity|reflexivity|lia]).
    assert (RI : meq 2 (relabel (lpf g0)) mid).
    { intros i j Hi Hj. unfold relabel, mid. rewrite LP by exact Hj. reflexivity. }
    assert (FR : forall f, fit 2 g0 f -> meq 2 (frame 2 g0 f) mid).
    { intros f Ff. assert (Z : forall l, l < 2 -> f l = 0%R).
      { intros l Hl. destruct (fit_pending _ _ _ Ff) as [PF _]. rewrite <- (Nat2Z.id l). apply (PF (Z.of_nat l) (Z.of_nat l) (AInt 0) 0%R); [| |reflexivity].
        - rewrite <- (LP l Hl) at 2. apply (lpf_placed 2 g0 (fit_routable _ _ _ Ff) (fit_covers _ _ _ Ff) l Hl).
        - apply (has_attr_alook g0 (rt_wf _ _ (fit_routable _ _ _ Ff))). destruct l as [|[|l]]; [reflexivity|reflexivity|lia]. }
      unfold frame. eapply meq_trans; [apply mmul_ext; [|exact RI]|apply mmul_id_l].
      intros i j Hi Hj. unfold phases, mdiag, mid. rewrite Z by exact Hi. destruct (Nat.eqb i j); [|reflexivity]. rewrite Ropp_0. apply Ceq; cbn; [apply cos_0|apply sin_0]. }
    assert (MO : meq 2 (ops_matrix 2 (path_ops [a; b])) quarter).
    { assert (X : meq 2 (mmul 2 (ops_matrix 2 (path_ops [a; b])) twist) (mmul 2 quarter twist)).
      { eapply meq_trans; [apply mmul_ext; [|apply meq_refl]|].
        - eapply meq_trans; [apply meq_sym, mmul_id_r|]. apply mmul_ext; [apply meq_refl|]. apply meq_sym, (FR _ FT).
        - eapply meq_trans; [exact MM|]. eapply meq_trans; [apply mmul_ext; [apply (FR _ FX)|apply meq_refl]|]. eapply meq_trans; [apply mmul_id_l|]. rewrite UB.
          apply mmul_ext; [exact twist_swing|apply meq_refl]. }
      assert (Y : meq 2 (mmul 2 (mmul 2 (ops_matrix 2 (path_ops [a; b])) twist) (madj twist)) (mmul 2 (mmul 2 quarter twist) (madj twist))) by (apply mmul_ext; [exact X|apply meq_refl]).
      destruct twist_unitary as [_ TU].
      assert (CAN : forall A, meq 2 (mmul 2 (mmul 2 A twist) (madj twist)) A).
      { intros A. eapply meq_trans; [apply mmul_assoc|]. eapply meq_trans; [apply mmul_ext; [apply meq_refl|exact TU]|]. apply mmul_id_r. }
      eapply meq_trans; [apply meq_sym, CAN|]. eapply meq_trans; [exact Y|]. apply CAN. }
    exists n, (map dag_op (rev (map plain (path_ops [a; b])))). split.
    - intros fuel Hf. unfold phy_ada_gate, the_graph. change (pyindex [Some pair_graph] 0) with (@Ok (option lgraph) (Some pair_graph)). cbn [bindr]. rewrite E. cbn [bindr].
      unfold phy_adaptive. fold g0. rewrite (search_more _ _ _ _ _ _ _ _ _ Es Hf). cbn [bindr last]. rewrite ND, EG, Ex. cbn [bindr].
      assert (D0' : s_u b 0 0 = C1) by (rewrite UB; rewrite (twist_turned 0 0) by lia; reflexivity).
      assert (D1' : s_u b 1 1 = Copp Ci) by (rewrite UB; rewrite (twist_turned 1 1) by lia; reflexivity).
      assert (EZ : phy_z code_delta 2 true (s_u b) g0 (path_ops [a; b]) = Ok (path_ops [a; b], keeping (AInt 0) (AFlt (- (PI / 2))))).
      { unfold phy_z. cbn [seq foldr]. unfold phy_z_step at 1. rewrite D0', angle_C1, Rabs_R0. destruct (Rlt_dec code_delta 0); [lra|]. cbn [bindr].
        unfold phy_z_step at 1. rewrite D1', angle_back. assert (P := PI2_3_2). destruct (Rlt_dec code_delta (Rabs (- (PI / 2)))) as [_|N]; [|exfalso; apply N; rewrite Rabs_Ropp, Rabs_right by lra; unfold code_delta; lra].
        change (has_phases g0) with (@Ok bool true). cbn [bindr]. change (node_attr g0 (Z.of_nat 1) "phase_storage") with (@Ok aval (AInt 0)). cbn [bindr num].
        rewrite new_mod_fix by lra. replace (0 + - (PI / 2))%R with (- (PI / 2))%R by ring. generalize (- (PI / 2))%R. intros t. reflexivity. }
      rewrite EZ. cbn [bindr fst snd]. reflexivity.
    - eapply meq_trans; [apply dagger_list|]. apply madj_ext. exact MO.
  Qed.

  Lemma second_gate fuel : phy_ada_gate sp (S fuel) false [Some (keeping (AInt 0) (AFlt (- (PI / 2))))] 0 2 mid =
    Ok ([(OV (Some (1, regulate_theta (- (PI / 2)))), true)], [Some (keeping (AInt 0) (AInt 0))]).
  Proof.
    assert (P := PI2_3_2). destruct code_pos as [E0 D0].
    assert (M0 : new_mod 0 (2 * PI) = 0%R) by (apply new_mod_fix; lra). assert (M1 : new_mod (- (PI / 2)) (2 * PI) = (- (PI / 2))%R) by (apply new_mod_fix; lra).
    set (t := (- (PI / 2))%R) in *. assert (AT : (code_delta < Rabs t)%R) by (unfold t; rewrite Rabs_Ropp, Rabs_right by lra; unfold code_delta; lra).
    assert (FL : forall v, num v = Ok 0%R -> flush code_delta phy_level 2 false (keeping v (AFlt t)) = Ok ([OV (Some (1, regulate_theta t))], [(0%Z, 0%R); (1%Z, t)], keeping (AInt 0) (AInt 0))).
    { intros v Hv. unfold flush. change (has_phases (keeping v (AFlt t))) with (@Ok bool true). cbn [bindr]. change (seq 0 (List.length (nd (keeping v (AFlt t))))) with [0; 1]. cbn [foldr].
      unfold flush_step at 1. change (node_attr (keeping v (AFlt t)) (Z.of_nat 0) "phase_storage") with (@Ok aval v). cbn [bindr]. rewrite Hv. cbn [bindr]. rewrite M0, Rabs_R0.
      destruct (Rlt_dec code_delta 0); [lra|]. cbn [bindr]. change (write_attr (keeping v (AFlt t)) (Z.of_nat 0) "phase_storage" (AInt 0)) with (@Ok lgraph (keeping (AInt 0) (AFlt t))). cbn [bindr].
      unfold flush_step at 1. change (node_attr (keeping (AInt 0) (AFlt t)) (Z.of_nat 1) "phase_storage") with (@Ok aval (AFlt t)). cbn [bindr num]. rewrite M1.
      destruct (Rlt_dec code_delta (Rabs t)); [|contradiction]. change (phy_level (keeping (AInt 0) (AFlt t)) (Z.of_nat 1)) with (@Ok (option aval) (Some (AInt 1))). cbn [bindr].
      change (write_attr (keeping (AInt 0) (AFlt t)) (Z.of_nat 1) "phase_storage" (AInt 0)) with (@Ok lgraph (keeping (AInt 0) (AInt 0))). cbn [bindr app].
      change (virtrz_params 2 (AInt 1) (AFlt t)) with (Some (1, regulate_theta t)). reflexivity. }
    assert (EX : phy_execute sp code_eps code_delta false true 2 mid (keeping (AInt 0) (AFlt t)) = Ok ([OV (Some (1, regulate_theta t))], 0%R, 0%R, keeping (AFlt 0) (AFlt t))).
    { unfold phy_execute, execute. rewrite (FL (AInt 0) eq_refl). cbn [bindr]. change (visits 2) with [(1, 0)]. cbn [foldr]. unfold phy_step at 1. cbn [q_u]. change (mid 1 0) with C0. rewrite PhyCases.Cmod_0.
      destruct (Rlt_dec code_eps 0); [lra|]. cbn [bindr seq foldr q_u q_ops q_alg q_total]. unfold phy_phase. change (mid 0 0) with C1. change (mid 1 1) with C1. rewrite angle_C1, Rabs_R0.
      destruct (Rlt_dec code_delta 0); [lra|]. cbn [bindr]. clear - t. generalize t. intros x. reflexivity. }
    assert (ND : near_diagonal code_near 2 mid = true).
    { apply near_diagonal_spec. split.
      - exists 0. split; [lia|]. change (mid 0 0) with C1. rewrite Cmod_C1. unfold code_near. lra.
      - intros i j Hi Hj N. unfold mid. rewrite (proj2 (Nat.eqb_neq i j) N), PhyCases.Cmod_0. unfold code_near. lra. }
    unfold phy_ada_gate, the_graph. change (pyindex [Some (keeping (AInt 0) (AFlt t))] 0) with (@Ok (option lgraph) (Some (keeping (AInt 0) (AFlt t)))). cbn [bindr]. rewrite EX. cbn [bindr].
    unfold phy_adaptive. change (phase_storing_setup (keeping (AFlt 0) (AFlt t))) with (keeping (AFlt 0) (AFlt t)).
    assert (ES : search_for code_near kid 2 (S fuel) mid (keeping (AFlt 0) (AFlt t)) (0%R, 0%R) = Ok ([root mid (keeping (AFlt 0) (AFlt t)) (0%R, 0%R)], Some (0%R, 0%R), Some (keeping (AFlt 0) (AFlt t)))).
    { unfold search_for. rewrite dfs_unfold. cbn [s_u root]. rewrite ND. reflexivity. }
    rewrite ES. cbn [bindr last s_u root]. rewrite ND. cbn [bindr].
    assert (EZ : phy_z code_delta 2 false mid (keeping (AFlt 0) (AFlt t)) [] = Ok ([OV (Some (1, regulate_theta t))], keeping (AInt 0) (AInt 0))).
    { unfold phy_z. cbn [seq foldr]. unfold phy_z_step at 1. change (mid 0 0) with C1. rewrite angle_C1, Rabs_R0. destruct (Rlt_dec code_delta 0); [lra|]. cbn [bindr].
      unfold phy_z_step at 1. change (mid 1 1) with C1. rewrite angle_C1, Rabs_R0. destruct (Rlt_dec code_delta 0); [lra|]. cbn [bindr snd fst]. rewrite (FL (AFlt 0) eq_refl). reflexivity. }
    change (path_ops [root mid (keeping (AFlt 0) (AFlt t)) (0%R, 0%R)]) with (@nil qop). rewrite EZ. reflexivity.
  Qed.
End Twice.

(** *** The program *)
Definition twice : circuit cgate := set_instructions (fst (circuit_of_dims 1 (Some [2]))) [CUser1 0 2 twist; CUser1 0 2 mid].
Lemma one_device : device [2] [pair_graph] same_levels.
Proof. intros i Hi. exists pair_graph. destruct i as [|i]; [|cbn in Hi; lia]. split; [reflexivity|]. split; [exact pair_laid|exact pair_quiet]. Qed.
Lemma one_coupled : coupled_device [2] [pair_graph].
Proof. intros i Hi. exists pair_graph. destruct i as [|i]; [|cbn in Hi; lia]. split; [reflexivity|exact pair_all_coupled]. Qed.
Lemma twice_fits : forall g, In g (instructions twice) -> implementable [2] same_levels g /\ type_of g <> MULTI /\ adaptable_gate g.
Proof.
  intros g [<-|[<-|[]]]; (split; [cbn; repeat (split; [first [lia|reflexivity]|])|split; [discriminate|split; [lia|]]]).
  - exact twist_unitary.
  - exact twist_dust_free.
  - apply unitary_id.
  - cbn. split; [|exact Logic.I]. intros _. left. rewrite Cmod_C1. unfold code_tiny. lra.
Qed.
Lemma one_emb A i j : i < 2 -> j < 2 -> emb [2] [0] A i j = A i j.
Proof. intros Hi Hj. destruct i as [|[|i]]; [| |lia]; (destruct j as [|[|j]]; [| |lia]); reflexivity. Qed.
Theorem twice_wrong sp round6 det solve : finds_shortest sp -> exists enough, forall fuel, enough <= fuel -> exists gs' out,
  whole_O2 sp round6 det solve fuel [pair_graph] twice = (gs', Ok out) /\
  ~ implements [2] same_levels (1 / 2) (map as_gate (instructions out)) (map as_gate (instructions twice)).
Proof.
  intros SP. destruct (first_gate sp SP) as (n & l & E1 & ML). exists (Datatypes.S n). intros fuel Hf.
  set (z := (OV (Some (1, regulate_theta (- (PI / 2)))), true)).
  assert (EO : exists gs' out, whole_O2 sp round6 det solve fuel [pair_graph] twice = (gs', Ok out) /\ instructions out = map (CRot 0 2) (l ++ [z])).
  { unfold whole_O2, compile_O2. change (instructions twice) with [CUser1 0 2 twist; CUser1 0 2 mid]. cbn [List.length seq combine].
    assert (LA : exists nl, lookahead [CUser1 0 2 twist; CUser1 0 2 mid] = Ok nl /\ nl (0, CUser1 0 2 twist) = Ok true /\ nl (1, CUser1 0 2 mid) = Ok false).
    { unfold lookahead. eexists. split; [reflexivity|]. split; reflexivity. }
    destruct LA as (nl & -> & N0 & N1). 
    match goal with |- context [instructions (with_gates ?c ?l)] => change (instructions (with_gates c l)) with l end.
    cbn [rewrite_split snd type_of]. rewrite N0. cbn [bindr]. unfold transpile_gate, object_pass, the_pass, pass_result. cbn [snd single bindr map].
    change (Z.of_nat 0) with 0%Z. rewrite (E1 fuel) by lia. cbn [bindr fst snd mapr map]. change (Z.of_nat 0) with 0%Z.
    rewrite N1. cbn [bindr]. destruct fuel as [|fuel]; [lia|]. rewrite (second_gate sp fuel). cbn [bindr fst snd mapr map]. eexists _, _. split; [reflexivity|].
    cbn [instructions with_gates app]. match goal with |- context [instructions (set_instructions ?a ?b)] => change (instructions (set_instructions a b)) with b end.
    rewrite !map_app, !map_map. reflexivity. }
  destruct EO as (gs' & out & EO & EI). exists gs', out. split; [exact EO|]. rewrite EI. change (instructions twice) with [CUser1 0 2 twist; CUser1 0 2 mid]. rewrite map_map. cbn [map as_gate].
  intros (g & H).
  assert (OA : opof [2] (map (fun x => as_gate (CRot 0 2 x)) (l ++ [z])) (emb [2] [0] (circuit_matrix 2 (l ++ [z])))).
  { assert (EC : chain (prodl (sub_dims [2] [0])) (map (gate_matrix 2) (l ++ [z])) = circuit_matrix 2 (l ++ [z])) by (unfold chain, circuit_matrix; symmetry; apply fold_chain).
    rewrite <- EC. apply op_list; [apply (lines_one [2] 0); cbn; lia|]. clear. induction (l ++ [z]) as [|o l' IH]; cbn [map]; constructor; [|exact IH].
    destruct o as [o dag]. cbn [as_gate]. apply (op_on_one [2] 0 dag (op_matrix 2 o)). cbn. lia. }
  assert (OB : opof [2] [on_one 0 false twist; on_one 0 false mid] (emb [2] [0] (chain 2 [twist; mid]))).
  { apply (op_list [2] [0] [on_one 0 false twist; on_one 0 false mid] [twist; mid] (lines_one [2] 0 ltac:(cbn; lia))).
    repeat constructor; apply (op_on_one [2] 0 false); cbn; lia. }
  assert (K : forall i j, i < 2 -> j < 2 -> (Cmod (Csub (circuit_matrix 2 (l ++ [z]) i j) (Cmul (cis g) (chain 2 [twist; mid] i j))) <= 1 / 2)%R).
  { intros i j Hi Hj. assert (X := H (ket j) _ (ket j) _ _ (norm2_ket 2 j Hj) (proj2 (OB (ket j) _) (fun k _ => eq_refl)) (same_placed _ _) (proj2 (OA (ket j) _) (fun k _ => eq_refl)) (same_placed _ _)).
    apply (within_at _ _ _ _ i) in X; [|exact Hi]. rewrite !mapply_ket in X by exact Hj. rewrite !one_emb in X by assumption. exact X. }
  assert (P := PI2_3_2). assert (RG : regulate_theta (- (PI / 2)) = (- (PI / 2))%R).
  { apply regulate_theta_sign. rewrite Rabs_Ropp, Rabs_right by lra. lra. }
  assert (CM : meq 2 (circuit_matrix 2 (l ++ [z])) (mmul 2 (mdiag (fun i => if Nat.eqb i 1 then Copp Ci else C1)) (madj quarter))).
  { unfold circuit_matrix at 1. rewrite fold_left_app. cbn [fold_left]. fold (circuit_matrix 2 l). apply mmul_ext; [|exact ML].
    unfold gate_matrix, z. cbn [fst snd op_matrix]. rewrite RG. intros i j Hi Hj. unfold madj, virtrz_array, mset. rewrite Ropp_involutive.
    destruct i as [|[|i]]; [| |lia]; (destruct j as [|[|j]]; [| |lia]); cbn; apply Ceq; cbn; rewrite ?cos_PI2, ?sin_PI2; ring. }
  assert (K0 := K 0 1 ltac:(lia) ltac:(lia)). assert (K1 := K 1 0 ltac:(lia) ltac:(lia)). rewrite CM in K0, K1 by lia. clear K.
  apply (sign_apart (g + PI / 2) C1 (Copp C1)); try reflexivity.
  - replace (Csub C1 (cis (g + PI / 2))) with (Cmul Ci (Csub (mmul 2 (mdiag (fun i => if Nat.eqb i 1 then Copp Ci else C1)) (madj quarter) 1 0) (cis g * chain 2 [twist; mid] 1 0)%C)).
    + rewrite Cmod_mul, Cmod_Ci, Rmult_1_l. exact K1.
    + rewrite cis_add. apply Ceq; cbv -[Rplus Rmult Ropp Rminus IZR cos sin PI Rdiv]; rewrite ?cos_PI2, ?sin_PI2; ring.
  - replace (Csub (Copp C1) (cis (g + PI / 2))) with (Csub (mmul 2 (mdiag (fun i => if Nat.eqb i 1 then Copp Ci else C1)) (madj quarter) 0 1) (cis g * chain 2 [twist; mid] 0 1)%C).
    + exact K0.
    + rewrite cis_add. apply Ceq; cbv -[Rplus Rmult Ropp Rminus IZR cos sin PI Rdiv]; rewrite ?cos_PI2, ?sin_PI2; ring.
Qed.
