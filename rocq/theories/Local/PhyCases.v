(** Cases for the physical adaptive compilation (C91): gates compiled in the wrong direction and gates dropped. *)
From Coq Require Import Reals Lra Lia List Arith ZArith String.
From Verif.Base Require Import Py PyFacts Cplx Matrix Angle.
From Verif.Gates Require Import AnglesModel AnglesProofs SingleModel SingleSpec SingleProofs.
From Verif.Sim Require Import TnSpec.
From Verif.Levels Require Import LevelsModel LevelsSpec GraphProofs LevelsProofs RouteProofs PhaseProofs.
From Verif.Variational Require EmitProofs.
From Verif.Local Require Import QrModel QrSpec QrMath QrCore PulseProofs QrMoved QrEmit QrProofs QrPhysical QrCases TreeModel AdaModel AdaSpec SearchProofs AdaProofs AdaFound AdaPasses QrPasses
  PhySpec PhyPulse PhyUpdate PhyStep PhyAda PhyFound PhyPasses.
Import ListNotations.
Local Open Scope string_scope.
Local Open Scope list_scope.
Local Open Scope nat_scope.

(** *** The three level trap *)
Lemma only_walk sp d g s t p n : finds_shortest sp -> routable d g -> is_node g s -> is_node g t ->
  (forall k, k < n -> filter (fun q => (last q s =? t)%Z) (walks g k s) = []) -> filter (fun q => (last q s =? t)%Z) (walks g n s) = [p] -> sp g s t = Ok p.
Proof.
  intros SP RT Ns Nt H1 H2. assert (W := rt_wf d g RT). destruct (SP g s t W (rt_connected d g RT) Ns Nt) as (q & E & Q & M). rewrite E. f_equal.
  assert (HQ : forall k, List.length q = S k -> In q (filter (fun q => (last q s =? t)%Z) (walks g k s))).
  { intros k Hk. apply filter_In. split; [apply walks_In; eauto|]. apply Z.eqb_eq. apply (walk_last _ _ _ _ s Q). }
  assert (Hp : In p (filter (fun q => (last q s =? t)%Z) (walks g n s))) by (rewrite H2; left; reflexivity).
  apply filter_In in Hp. destruct Hp as [Hp Lp]. apply walks_In in Hp; [|exact W]. destruct Hp as (Lp' & t' & Wp). rewrite (walk_last _ _ _ _ s Wp) in Lp. apply Z.eqb_eq in Lp. subst t'.
  specialize (M p Wp). destruct q as [|x q]; [inversion Q|]. cbn [List.length] in *.
  destruct (Nat.eq_dec (List.length q) n) as [L|L].
  - specialize (HQ n ltac:(rewrite L; reflexivity)). rewrite H2 in HQ. destruct HQ as [HQ|[]]. congruence.
  - specialize (HQ (List.length q) eq_refl). rewrite H1 in HQ by lia. destruct HQ.
Qed.

Definition three_pulse : rot := Rot 0 1 (regulate_theta (regulate_theta PI)) (- PI / 2 - 0 + 0)%R 0 1.
Definition three_cost : R := (0 + 2 * theta_cost (regulate_theta (regulate_theta (regulate_theta PI))))%R.
Definition three_cost' : R := (0 + 2 * theta_cost (regulate_theta (regulate_theta PI)))%R.

Section Three.
  Variable sp : lgraph -> Z -> Z -> res (list Z).
  Hypothesis SP : finds_shortest sp.
  Let t3 := traps_three.
  Let s3 := phase_storing_setup traps_three.
  Let t3' := match swap_nodes traps_three 2 0 with Ok g => g | Err _ => traps_three end.
  Let s3' := match swap_nodes (phase_storing_setup traps_three) 2 0 with Ok g => g | Err _ => traps_three end.
  Let RT : routable 3 t3 := three_routable.
  Let RS : routable 3 s3 := phase_setup_routable 3 _ three_routable.

  Lemma walk_t12 : sp t3 1 2 = Ok [1; 0; 2]%Z.
  Proof. apply (only_walk sp 3 t3 1 2 _ 2 SP RT); [vm_compute; tauto|vm_compute; tauto| |vm_compute; reflexivity]. intros [|[|k]] Hk; [vm_compute; reflexivity|vm_compute; reflexivity|lia]. Qed.
  Lemma walk_t10 : sp t3 1 0 = Ok [1; 0]%Z.
  Proof. apply (only_walk sp 3 t3 1 0 _ 1 SP RT); [vm_compute; tauto|vm_compute; tauto| |vm_compute; reflexivity]. intros [|k] Hk; [vm_compute; reflexivity|lia]. Qed.
  Lemma walk_s12 : sp s3 1 2 = Ok [1; 0; 2]%Z.
  Proof. apply (only_walk sp 3 s3 1 2 _ 2 SP RS); [vm_compute; tauto|vm_compute; tauto| |vm_compute; reflexivity]. intros [|[|k]] Hk; [vm_compute; reflexivity|vm_compute; reflexivity|lia]. Qed.
  Lemma walk_s10 : sp s3 1 0 = Ok [1; 0]%Z.
  Proof. apply (only_walk sp 3 s3 1 0 _ 1 SP RS); [vm_compute; tauto|vm_compute; tauto| |vm_compute; reflexivity]. intros [|k] Hk; [vm_compute; reflexivity|lia]. Qed.

  Lemma route_t r : orig_a r = 1%Z -> orig_b r = 2%Z -> exists ps, route_states2rotate_basic sp 3 r t3 = Ok (three_cost', ps, t3').
  Proof.
    intros Ra Rb. eexists. unfold route_states2rotate_basic. rewrite Ra, Rb, walk_t12. cbn [bindr List.length Nat.sub].
    unfold route_loop, route_step.
    assert (E1 := walk_t12). assert (E2 := walk_t10).
    unfold t3 in E1, E2 |- *. cbv -[Rplus Rmult Rminus Ropp Rdiv IZR PI regulate_theta theta_cost t3'] in E1, E2 |- *.
    rewrite ?E1, ?E2. cbv -[Rplus Rmult Rminus Ropp Rdiv IZR PI regulate_theta theta_cost]. reflexivity.
  Qed.
  Lemma route_s r : orig_a r = 1%Z -> orig_b r = 2%Z -> exists ps, route_states2rotate_basic sp 3 r s3 = Ok (three_cost, ps, s3').
  Proof.
    intros Ra Rb. eexists. unfold route_states2rotate_basic. rewrite Ra, Rb, walk_s12. cbn [bindr List.length Nat.sub].
    unfold route_loop, route_step.
    assert (E1 := walk_s12). assert (E2 := walk_s10).
    unfold s3 in E1, E2 |- *. cbv -[Rplus Rmult Rminus Ropp Rdiv IZR PI regulate_theta theta_cost s3'] in E1, E2 |- *.
    rewrite ?E1, ?E2. cbv -[Rplus Rmult Rminus Ropp Rdiv IZR PI regulate_theta theta_cost]. reflexivity.
  Qed.
  Lemma cost_three g g' c r nz : routable 3 g -> (exists ps, route_states2rotate_basic sp 3 r g = Ok (c, ps, g')) -> orig_a r = 1%Z -> orig_b r = 2%Z ->
    g = t3 /\ g' = t3' \/ g = s3 /\ g' = s3' ->
    exists z ps, cost_calculator sp 3 r g nz = Ok (z, ps, g', c, theta_cost (r_theta r)).
  Proof.
    intros RG (ps & E) Ra Rb HG.
    destruct (cost_calculator_ok sp 3 g SP RG r nz) as (cc & ps1 & g1 & gc & ER & RT' & EC).
    { rewrite Ra. destruct HG as [[-> ->]|[-> ->]]; vm_compute; tauto. }
    { rewrite Rb. destruct HG as [[-> ->]|[-> ->]]; vm_compute; tauto. }
    { rewrite Ra, Rb. lia. }
    rewrite E in ER. injection ER as <- <- <-. rewrite EC. eexists _, _. f_equal. f_equal.
    unfold cost_calculator in EC. rewrite E in EC. cbn [bindr] in EC. apply EmitProofs.bindr_Ok in EC. destruct EC as (gc' & EC & EQ). injection EQ as _ <-.
    assert (W1 : sp g' 1 1 = Ok [1]%Z).
    { apply (only_walk sp 3 g' 1 1 _ 0 SP RT'); [destruct HG as [[-> ->]|[-> ->]]; vm_compute; tauto..| |destruct HG as [[-> ->]|[-> ->]]; vm_compute; reflexivity]. intros k Hk. lia. }
    assert (W2 : sp g' 1 2 = Ok [1; 2]%Z).
    { apply (only_walk sp 3 g' 1 2 _ 1 SP RT'); [destruct HG as [[-> ->]|[-> ->]]; vm_compute; tauto..| |destruct HG as [[-> ->]|[-> ->]]; vm_compute; reflexivity]. intros [|k] Hk; [|lia]. destruct HG as [[-> ->]|[-> ->]]; vm_compute; reflexivity. }
    unfold rotation_cost_calc in EC. rewrite Ra, Rb in EC. unfold distance_nodes in EC.
    assert (X1 : is_irnode g' 1 = Ok false) by (destruct HG as [[-> ->]|[-> ->]]; vm_compute; reflexivity).
    assert (X2 : is_irnode g' 2 = Ok true) by (destruct HG as [[-> ->]|[-> ->]]; vm_compute; reflexivity).
    assert (X3 : fst_inode g' = Ok 1%Z) by (destruct HG as [[-> ->]|[-> ->]]; vm_compute; reflexivity).
    rewrite X1 in EC. cbn [bindr] in EC. rewrite X2 in EC. cbn [bindr] in EC. rewrite X3 in EC. cbn [bindr] in EC. rewrite W1, W2 in EC. cbn [bindr List.length] in EC.
    injection EC as <-. replace (IZR _) with 1%R by reflexivity. ring.
  Qed.
End Three.

Definition flip12 : mat := exchange 1 2.
Lemma flip12_unitary : unitary 3 flip12.
Proof.
  split; intros i j Hi Hj; (destruct i as [|[|[|i]]]; [| | |lia]); (destruct j as [|[|[|j]]]; [| | |lia]); apply Ceq; cbv -[Rplus Rmult Ropp Rminus IZR]; ring.
Qed.
Lemma three_usable : usable 3 traps_three.
Proof. destruct three_case as (_ & RT & CV & NP & _). split; trivial. vm_compute. reflexivity. Qed.
Lemma Cmod_0 : Cmod C0 = 0%R.
Proof. unfold Cmod, Cnorm2. cbn. replace (0 * 0 + 0 * 0)%R with 0%R by ring. apply sqrt_0. Qed.
Lemma not_wanted u c r r2 : u r2 c = C0 -> wanted code_eps code_tiny u c r r2 = false.
Proof. intros H. unfold wanted. rewrite H, Cmod_0. destruct code_pos as [E0 _]. destruct (Rlt_dec code_eps 0); [lra|reflexivity]. Qed.
Lemma flip12_wanted : wanted code_eps code_tiny flip12 1 1 2 = true.
Proof.
  unfold wanted. replace (flip12 2%nat 1%nat) with C1 by reflexivity. replace (flip12 1%nat 1%nat) with C0 by reflexivity. rewrite Cmod_C1, Cmod_0.
  destruct (Rlt_dec code_eps 1) as [_|N]; [|exfalso; apply N; unfold code_eps; lra]. destruct (Req_EM_T 0 0); [apply Bool.orb_true_r|contradiction].
Qed.
Lemma flip12_reduced : reduced code_eps 3 flip12 = mmul 3 (swing 3 flip12 1 1 2) flip12.
Proof.
  unfold reduced. change (visits 3) with [(2, 0); (1, 0); (2, 1)]. cbn [fold_left].
  assert (Z : forall r, r = 1 \/ r = 2 -> ustep code_eps 3 flip12 (r, 0) = flip12).
  { intros r Hr. unfold ustep. replace (flip12 r 0) with C0 by (destruct Hr as [-> | ->]; reflexivity). rewrite Cmod_0. destruct code_pos as [E0 _]. destruct (Rlt_dec code_eps 0); [lra|reflexivity]. }
  rewrite !Z by tauto. unfold ustep. replace (flip12 2%nat 1%nat) with C1 by reflexivity. rewrite Cmod_C1. destruct (Rlt_dec code_eps 1) as [_|N]; [|exfalso; apply N; unfold code_eps; lra].
  reflexivity.
Qed.
Lemma flip12_swung c r r2 : c <= r < r2 -> r2 < 3 -> mmul 3 (swing 3 flip12 1 1 2) flip12 r2 c = C0.
Proof.
  intros H1 H2. assert (X := swing_zero 3 flip12 1 1 2 ltac:(lia) ltac:(lia)). assert (R := swing_rotation 3 flip12 1 1 2 ltac:(lia)).
  destruct (Nat.eq_dec c 1) as [->|N]; [replace r2 with 2 by lia; exact X|]. replace c with 0 by lia.
  unfold mmul. cbn [csum]. rewrite !(R r2) by lia. replace (flip12 0%nat 0%nat) with C1 by reflexivity. replace (flip12 1%nat 0%nat) with C0 by reflexivity. replace (flip12 2%nat 0%nat) with C0 by reflexivity.
  replace (rotation 1 2 (ada_theta flip12 1 1 2) (ada_phi flip12 1 1 2) r2 0) with C0; [ring|].
  assert (r2 = 1 \/ r2 = 2) by lia. destruct H as [-> | ->]; reflexivity.
Qed.

Lemma costs_inj {A B D : Type} (a a' : A) (b b' : B) (x x' : D) (y y' z z' : R) : Ok (a, b, x, y, z) = Ok (a', b', x', y', z') -> y = y' /\ z = z'.
Proof. intros [= _ _ _ -> ->]. auto. Qed.
Section Trap.
  Variable sp : lgraph -> Z -> Z -> res (list Z).
  Hypothesis SP : finds_shortest sp.
  Notation kid := (phy_kid sp code_eps code_tiny code_slack 3).
  Let s3 := phase_storing_setup traps_three.

  Lemma trap_total : exists ops alg tot, phy_execute sp code_eps code_delta false true 3 flip12 traps_three = Ok (ops, alg, tot, traps_three) /\
    tot = (2 * three_cost' + theta_cost (regulate_theta (ada_theta flip12 1 1 2)))%R.
  Proof.
    destruct code_pos as [E0 D0].
    destruct (phy_execute_usable sp code_eps code_delta 3 flip12 traps_three SP three_usable flip12_unitary E0 D0) as (ops & alg & tot & g' & E & _).
    exists ops, alg, tot. unfold phy_execute, execute, flush in E. replace (has_phases traps_three) with (@Ok bool false) in E by (vm_compute; reflexivity). cbn [bindr] in E.
    assert (E' := E). apply EmitProofs.bindr_Ok in E'. destruct E' as (s & Es & E'). apply EmitProofs.bindr_Ok in E'. destruct E' as (o & _ & E').
    unfold recover in E'. replace (has_phases traps_three) with (@Ok bool false) in E' by (vm_compute; reflexivity). cbn [andb negb bindr] in E'. injection E' as _ _ ET EG. subst g' tot.
    split.
    { unfold phy_execute, execute, flush. replace (has_phases traps_three) with (@Ok bool false) by (vm_compute; reflexivity). cbn [bindr]. exact E. }
    change (visits 3) with [(2, 0); (1, 0); (2, 1)] in Es. cbn [foldr] in Es.
    assert (Z : forall r o, r = 1 \/ r = 2 -> phy_step sp code_eps 3 traps_three (QS o flip12 0 0) (r, 0) = Ok (QS o flip12 0 0)).
    { intros r o' Hr. unfold phy_step. cbn [q_u]. replace (flip12 r 0) with C0 by (destruct Hr as [-> | ->]; reflexivity). rewrite Cmod_0. destruct (Rlt_dec code_eps 0); [lra|reflexivity]. }
    rewrite (Z 2) in Es by tauto. cbn [bindr] in Es. rewrite (Z 1) in Es by tauto. cbn [bindr] in Es.
    unfold phy_step in Es. cbn [q_u q_total q_alg q_ops] in Es. replace (flip12 2%nat 1%nat) with C1 in Es by reflexivity. rewrite Cmod_C1 in Es.
    destruct (Rlt_dec code_eps 1) as [_|N]; [|exfalso; apply N; unfold code_eps; lra].
    apply EmitProofs.bindr_Ok in Es. destruct Es as (s' & Es & EQ). injection EQ as <-.
    assert (ER : qr_rotation 3 flip12 2 1 = Ok (log_rot flip12 1 1 2)).
    { unfold qr_rotation. rewrite new_R_ok by lia. reflexivity. }
    rewrite ER in Es. cbn [bindr] in Es.
    destruct (cost_three sp SP traps_three _ _ (log_rot flip12 1 1 2) (count_nonzero 3 (mmul 3 (op_matrix 3 (OR (log_rot flip12 1 1 2))) flip12)) three_routable
      (route_t sp SP (log_rot flip12 1 1 2) eq_refl eq_refl) eq_refl eq_refl (or_introl (conj eq_refl eq_refl))) as (z & ps & EC).
    rewrite EC in Es. cbn [bindr] in Es. repeat (apply EmitProofs.bindr_Ok in Es; destruct Es as (? & ? & Es)). injection Es as <-. cbn [q_total]. cbn [r_theta log_rot]. ring.
  Qed.

  Lemma three_costs : (three_cost <= 2 * three_cost')%R.
  Proof. unfold three_cost, three_cost'. rewrite !(regulate_pi PI (or_introl eq_refl)). assert (T := theta_cost_nonneg PI). lra. Qed.

  Theorem trap_wrong : exists enough, forall fuel, enough <= fuel -> exists l g',
    phy_ada_gate sp fuel false [Some traps_three] 0 3 flip12 = Ok (l, [Some g']) /\
    placed g' 0 1 /\ placed g' 1 2 /\ placed g' 2 0 /\
    forall V, relocated 3 traps_three g' flip12 V \/ on_device 3 traps_three flip12 V -> forall c, ~ close 3 (1 / 10) (circuit_matrix 3 l) (mscal c V).
  Proof.
    destruct code_pos as [E0 D0]. destruct code_ada_pos as [S0 N0]. destruct (code_small 3 ltac:(lia)) as (A1 & A2 & A3).
    destruct trap_total as (ops & alg & tot & E & ET).
    assert (T0 : (0 <= tot)%R) by exact (phy_total_nonneg sp _ _ _ 3 flip12 traps_three ops alg tot traps_three SP three_routable (us_covers _ _ three_usable) E).
    destruct (some_nat ((tot + code_slack) / (8 / 100000))%R) as (n & Hn). exists n. intros fuel F.
    assert (FB : (snd (alg, tot) + code_slack < INR fuel * (8 / 100000))%R).
    { cbn [snd]. apply (Rmult_lt_compat_r (8 / 100000)) in Hn; [|lra]. replace ((tot + code_slack) / (8 / 100000) * (8 / 100000))%R with (tot + code_slack)%R in Hn by field.
      apply le_INR in F. apply (Rmult_le_compat_r (8 / 100000)) in F; [|lra]. lra. }
    destruct (phy_adaptive_ends sp code_eps code_tiny code_near code_slack code_delta 3 SP S0 code_delta_pi ltac:(lia) fuel flip12 traps_three (alg, tot) flip12_unitary three_usable T0 FB) as (((ops', best), fg) & EA).
    assert (OK := phy_adaptive_ok sp code_eps code_tiny code_near code_slack code_delta 3 SP S0 N0 code_delta_pi ltac:(lia) fuel flip12 traps_three (alg, tot) ops' best fg flip12_unitary three_usable EA).
    assert (FT := setup_fit 3 traps_three ltac:(lia) three_usable). fold s3 in FT. assert (RS := fit_routable _ _ _ FT). assert (CS := fit_covers _ _ _ FT).
    set (a := root flip12 s3 (alg, tot)).
    (* the only child of the root, and it has none *)
    destruct (kid_ok sp code_eps code_tiny code_slack 3 SP a s3 _ 1 1 2 eq_refl FT ltac:(lia) flip12_wanted) as (cpi & gc & ps & q2 & g2 & f2 & est & EK & C1' & C2' & F2 & SC & _ & _ & _ & _ & LP & (dat & CO) & z & g'' & EC).
    assert (cpi = three_cost /\ gc = theta_cost (regulate_theta (ada_theta flip12 1 1 2))) as [-> ->].
    { destruct (cost_three sp SP s3 _ _ (log_rot flip12 1 1 2) (count_nonzero 3 (mmul 3 (swing 3 (s_u a) 1 1 2) (s_u a))) RS
        (route_s sp SP (log_rot flip12 1 1 2) eq_refl eq_refl) eq_refl eq_refl (or_intror (conj eq_refl eq_refl))) as (z' & ps' & EC').
      change (s_u a) with flip12 in EC, EC'. rewrite EC in EC'. exact (costs_inj _ _ _ _ _ _ _ _ _ _ EC'). }
    replace (affordable code_slack (snd (s_max a)) (three_cost + theta_cost (regulate_theta (ada_theta flip12 1 1 2)) + s_dcost a)) with true in EK.
    2:{ symmetry. apply affordable_spec; [exact S0|]. cbn [s_max s_dcost a root snd]. assert (X := three_costs). lra. }
    match type of EK with _ = Ok (Some ?x) => set (b := x) in * end. change (s_u a) with flip12 in *.
    assert (KA : forall x, child kid 3 a x -> x = b).
    { intros x (((c, r), r2) & Ht & Ex). apply triples_spec in Ht.
      assert (CC : c = 1 /\ r = 1 /\ r2 = 2 \/ c = 0) by lia. destruct CC as [(-> & -> & ->)| ->]; [rewrite EK in Ex; injection Ex as <-; reflexivity|].
      rewrite kid_unwanted in Ex; [discriminate|]. apply not_wanted. change (s_u a) with flip12. assert (r2 = 1 \/ r2 = 2) by lia. destruct H as [-> | ->]; reflexivity. }
    assert (KB : forall x, ~ child kid 3 b x).
    { intros x (((c, r), r2) & Ht & Ex). apply triples_spec in Ht. rewrite kid_unwanted in Ex; [discriminate|]. apply not_wanted. unfold b. cbn [s_u]. apply flip12_swung with r; lia. }
    assert (CB : child kid 3 a b) by (exists (1, 1, 2); split; [apply triples_spec; lia|exact EK]).
    assert (NB : near_diagonal code_near 3 (s_u b) = true).
    { unfold b. cbn [s_u]. rewrite <- flip12_reduced. apply reduced_near; trivial; [exact flip12_unitary|lia]. }
    assert (NA : near_diagonal code_near 3 flip12 = false).
    { destruct (near_diagonal code_near 3 flip12) eqn:X; [|reflexivity]. apply near_diagonal_spec in X. destruct X as [_ X]. specialize (X 2 1 ltac:(lia) ltac:(lia) ltac:(lia)).
      replace (flip12 2%nat 1%nat) with C1 in X by reflexivity. rewrite Cmod_C1 in X. unfold code_near in X. lra. }
    assert (EP := EA). unfold phy_adaptive in EP. fold s3 in EP. apply EmitProofs.bindr_Ok in EP. destruct EP as (((p, best'), fg') & Es & EP).
    assert (SO := search_ok code_near kid 3 fuel flip12 s3 (alg, tot) p best' fg' Es). cbv zeta in SO. fold a in SO.
    destruct best' as [(c0, dc0)|].
    2:{ exfalso. destruct SO as (_ & _ & SO). specialize (SO [a; b] (chain_cons _ _ _ _ _ CB (chain_one _ _ b))). cbn [last] in SO. congruence. }
    destruct SO as (CH & ND & _ & _ & EGR).
    assert (p = [a; b]) as ->.
    { inversion CH as [|a' b' p' CB' CH']; subst.
      - cbn [last] in ND. change (s_u a) with flip12 in ND. congruence.
      - apply KA in CB'. subst b'. inversion CH' as [|b'' x p'' CX]; subst; [reflexivity|]. exfalso. exact (KB _ CX). }
    cbn [last] in EGR, ND. cbv zeta in EP. cbn [last] in EP. rewrite NB, EGR in EP. unfold b in EP at 1. cbn [s_graph bindr] in EP.
    destruct (phy_z_ok code_delta 3 code_delta_pi (s_u b) g2 f2 (path_ops [a; b]) F2) as (new & g' & Ez & _ & _ & R' & S' & _ & _).
    rewrite Ez in EP. cbn [bindr] in EP. injection EP as <- <- <-.
    destruct OK as (g0 & EG0 & US' & SC' & _ & UO & CL & _ & _). injection EG0 as <-.
    assert (R2 := fit_routable _ _ _ F2). assert (C2 := fit_covers _ _ _ F2).
    (* the placement *)
    assert (LS : lpf s3 1 = 2) by (vm_compute; reflexivity). rewrite LS in LP.
    assert (L22 : lpf g2 2 = 0).
    { rewrite LP in CO. destruct CO as (u & v & J & Pu & Pv).
      assert (u = 1%Z).
      { apply (proj2 (rt_placement 3 s3 RS) u 1%Z 2%Z Pu). apply (lpf_placed 3 s3 RS CS 1). lia. }
      subst u. assert (v = 0%Z).
      { destruct J as (l & Hl & Hv). vm_compute in Hl. destruct Hl as [Hl|[Hl|[Hl|[]]]]; [discriminate Hl| |discriminate Hl]. injection Hl as Hl2. subst l. destruct Hv as [Hv|[]]. injection Hv as <- _. reflexivity. }
      subst v. apply (placed_lpf 3 s3 RS CS 0) in Pv; [|lia]. apply Nat2Z.inj in Pv. rewrite Pv. vm_compute. reflexivity. }
    assert (L20 : lpf g2 0 = 1).
    { assert (A := lpf_in 3 g2 R2 C2 0 ltac:(lia)). assert (B := lpf_inj 3 g2 R2 C2 0 1 ltac:(lia) ltac:(lia)). assert (D := lpf_inj 3 g2 R2 C2 0 2 ltac:(lia) ltac:(lia)). lia. }
    assert (C' := us_covers _ _ US').
    assert (M0 : lpf g' 0 = 1) by (rewrite (sb_lpf 3 g2 g' 0 R2 R' C2 S'); [exact L20|lia]).
    assert (M1 : lpf g' 1 = 2) by (rewrite (sb_lpf 3 g2 g' 1 R2 R' C2 S'); [exact LP|lia]).
    assert (M2 : lpf g' 2 = 0) by (rewrite (sb_lpf 3 g2 g' 2 R2 R' C2 S'); [exact L22|lia]).
    assert (P0 := lpf_placed 3 g' R' C' 0 ltac:(lia)). assert (P1 := lpf_placed 3 g' R' C' 1 ltac:(lia)). assert (P2 := lpf_placed 3 g' R' C' 2 ltac:(lia)).
    rewrite M0 in P0. rewrite M1 in P1. rewrite M2 in P2.
    assert (CT := us_covers _ _ three_usable).
    set (V0 := fun p q : nat => if ((p =? 2) && (q =? 0) || (p =? 0) && (q =? 1) || (p =? 1) && (q =? 2))%bool then C1 else C0).
    assert (RV : relocated 3 g' traps_three flip12 V0).
    { intros i j p q Hi Hj Hp Hq. apply (placed_lpf 3 _ three_routable CT) in Hp; [|exact Hi]. apply Nat2Z.inj in Hp. apply (placed_lpf 3 g' R' C') in Hq; [|exact Hj]. apply Nat2Z.inj in Hq.
      assert (T0' : lpf traps_three 0 = 0) by (vm_compute; reflexivity). assert (T1' : lpf traps_three 1 = 2) by (vm_compute; reflexivity). assert (T2' : lpf traps_three 2 = 1) by (vm_compute; reflexivity).
      destruct i as [|[|[|i]]]; [| | |lia]; (destruct j as [|[|[|j]]]; [| | |lia]); subst p q; rewrite ?M0, ?M1, ?M2, ?T0', ?T1', ?T2'; reflexivity. }
    assert (CC := relocated_close 3 _ traps_three g' flip12 V0 _ three_routable CT R' C' UO (ada_error_nonneg _ _ 3 N0 D0) CL RV).
    exists (map dag_op (rev (map plain (path_ops [a; b] ++ new)))), g'. split; [|split; [exact P0|split; [exact P1|split; [exact P2|]]]].
    { unfold phy_ada_gate, the_graph. change (pyindex [Some traps_three] 0) with (@Ok (option lgraph) (Some traps_three)). cbn [bindr]. rewrite E. cbn [bindr]. rewrite EA. cbn [bindr]. reflexivity. }
    intros V HV c X.
    assert (Q0 : placed traps_three 0 0) by (apply (lpf_placed 3 _ three_routable CT 0); lia). assert (Q1 : placed traps_three 1 2) by (apply (lpf_placed 3 _ three_routable CT 1); lia).
    assert (V20 : V 2 0 = C0).
    { destruct HV as [HV|HV]; [exact (HV 1 0 2 0 ltac:(lia) ltac:(lia) P1 Q0)|exact (HV 1 0 2 0 ltac:(lia) ltac:(lia) Q1 Q0)]. }
    specialize (X 2 0 ltac:(lia) ltac:(lia)). specialize (CC 2 0 ltac:(lia) ltac:(lia)). rewrite <- (dagger_list 3 _ 2 0 ltac:(lia) ltac:(lia)) in CC.
    unfold mscal in X. rewrite V20 in X. change (V0 2 0) with C1 in CC. set (L := circuit_matrix 3 _ 2 0) in *.
    assert (T := Cmod_triangle (Csub C1 L) L). replace (Csub C1 L + L)%C with C1 in T by (unfold Csub; ring). rewrite Cmod_C1 in T.
    assert (SY : Cmod (Csub C1 L) = Cmod (Csub L C1)) by (unfold Cmod, Cnorm2, Csub, Cadd, Copp; cbn; f_equal; ring).
    replace (Csub L (c * C0)%C) with L in X by (unfold Csub; ring). rewrite SY in T.
    assert (AE := ada_error_small 3 ltac:(lia)). cbn [INR] in CC. lra.
  Qed.
End Trap.

(** *** A pair of levels *)
Lemma pair_usable : usable 2 pair_graph.
Proof. split; [exact pair_routable|exact pair_covers|vm_compute; reflexivity|exact pair_quiet]. Qed.
Ltac in_list := first [left; reflexivity|right; in_list].
Ltac in_edges := vm_compute; eexists; eexists; split; [in_list|in_list].
Lemma pair_all_coupled : all_coupled 2 pair_graph.
Proof.
  intros n m Hn Hm N. assert (H : n = 0 /\ m = 1 \/ n = 1 /\ m = 0) by lia. unfold linked, joined.
  destruct H as [[-> ->]|[-> ->]]; in_edges.
Qed.
Theorem phy_dropped sp : finds_shortest sp -> forall fuel, exists gs',
  phy_ada_gate sp (S fuel) false [Some pair_graph] 0 2 dusty = Ok ([], gs').
Proof.
  intros SP fuel. destruct code_pos as [E0 D0].
  destruct (phy_execute_usable sp code_eps code_delta 2 dusty pair_graph SP pair_usable dusty_unitary E0 D0) as (ops & alg & tot & g' & E & _).
  eexists. unfold phy_ada_gate, the_graph. change (pyindex [Some pair_graph] 0) with (@Ok (option lgraph) (Some pair_graph)). cbn [bindr]. rewrite E. cbn [bindr].
  assert (X : phy_adaptive sp code_eps code_tiny code_near code_slack code_delta 2 false (S fuel) dusty g' (alg, tot) = Ok ([], None, Some (phase_storing_setup g'))).
  { assert (X : Cmod (dusty 0 0) = (/ 10000000000000000000)%R).
    { unfold dusty. cbn. unfold Cmod, Cnorm2, RtoC. cbn. replace (_ + 0 * 0)%R with (/ 10000000000000000000 * / 10000000000000000000)%R by ring. apply sqrt_square. lra. }
    assert (X' : Cmod (dusty 1 1) = (/ 10000000000000000000)%R) by exact X.
    assert (ND : near_diagonal code_near 2 dusty = false).
    { apply Bool.not_true_is_false. intros H. apply near_diagonal_spec in H. destruct H as [(i & Hi & H) _]. unfold code_near in H.
      destruct i as [|[|i]]; [| |lia]; rewrite ?X, ?X' in H; lra. }
    assert (W : wanted code_eps code_tiny dusty 0 0 1 = false).
    { unfold wanted. rewrite X. destruct (Rlt_dec code_tiny (/ 10000000000000000000)) as [H|H]; [unfold code_tiny in H; lra|].
      destruct (Req_EM_T (/ 10000000000000000000) 0) as [H'|H']; [lra|]. apply Bool.andb_false_r. }
    unfold phy_adaptive, search_for. rewrite dfs_unfold. cbn [s_u root]. rewrite ND.
    change (triples 2) with [(0, 0, 1)]. cbn [kids]. unfold phy_kid at 1. cbn [s_u root]. rewrite W. cbn. reflexivity. }
  rewrite X. cbn [bindr map rev]. reflexivity.
Qed.
Lemma pair_circuit : adaptable [Some pair_graph; Some traps_three] [ISingle 0 2 swap2; IOther 5; ISingle 1 3 flip12; ISingle 0 2 s_gate].
Proof.
  intros line d U [H|[H|[H|[H|[]]]]]; try discriminate; injection H as <- <- <-.
  - split; [exact swap2_unitary|]. split; [lia|]. exists pair_graph. split; [reflexivity|exact pair_usable].
  - split; [exact flip12_unitary|]. split; [lia|]. exists traps_three. split; [reflexivity|exact three_usable].
  - split; [exact s_gate_unitary|]. split; [lia|]. exists pair_graph. split; [reflexivity|exact pair_usable].
Qed.
Lemma pair_only : forall line d U, In (ISingle line d U) [ISingle 0 2 swap2; IOther 5; ISingle 0 2 s_gate] ->
  dust_free code_eps code_tiny d (visits d) U /\ exists g, pyindex [Some pair_graph] line = Ok (Some g) /\ all_coupled d g.
Proof.
  intros line d U [H|[H|[H|[]]]]; try discriminate; injection H as <- <- <-.
  - split; [exact swap2_dust_free|]. exists pair_graph. split; [reflexivity|exact pair_all_coupled].
  - split; [exact s_gate_dust_free|]. exists pair_graph. split; [reflexivity|exact pair_all_coupled].
Qed.
(** A trap in which each level is coupled to the next one. *)
Lemma innsbruck_usable : usable 3 innsbruck.
Proof.
  split; [exact innsbruck_routable| |vm_compute; reflexivity|].
  - intros n Hn. destruct n as [|[|[|n]]]; [vm_compute; auto|vm_compute; auto|vm_compute; auto|lia].
  - intros n v x H. apply (has_attr_alook innsbruck (rt_wf _ _ innsbruck_routable)) in H. exfalso.
    unfold alook in H. destruct (nget (nd innsbruck) n) as [a|] eqn:E; [|discriminate].
    apply (dget_In Z.eqb zeq) in E. vm_compute in E. repeat destruct E as [E|E]; try (injection E as <- <-; vm_compute in H; discriminate). destruct E.
Qed.
Lemma innsbruck_ladder : ladder 3 innsbruck.
Proof.
  intros r Hr. assert (H : r = 1 \/ r = 2) by lia. unfold linked, joined.
  destruct H as [-> | ->]; in_edges.
Qed.
Lemma flip12_dust_free : dust_free code_eps code_tiny 3 (visits 3) flip12.
Proof.
  change (visits 3) with [(2, 0); (1, 0); (2, 1)]. cbn [dust_free].
  assert (Z : forall r, r = 1 \/ r = 2 -> ustep code_eps 3 flip12 (r, 0) = flip12).
  { intros r Hr. unfold ustep. replace (flip12 r 0) with C0 by (destruct Hr as [-> | ->]; reflexivity). rewrite Cmod_0. destruct code_pos as [E0 _]. destruct (Rlt_dec code_eps 0); [lra|reflexivity]. }
  rewrite !Z by tauto. cbn [Nat.sub]. split; [|split; [|split; [|exact Logic.I]]].
  - intros _. right. exact Cmod_0.
  - intros _. left. replace (flip12 0%nat 0%nat) with C1 by reflexivity. rewrite Cmod_C1. unfold code_tiny. lra.
  - intros _. right. exact Cmod_0.
Qed.

(** There is always an operator to compare with. *)
Lemma relocated_some d before after U : routable d before -> covers d before -> routable d after -> covers d after -> exists V, relocated d before after U V.
Proof.
  intros RB CB RA CA. exists (mmul d (mmul d (relabel (lpf after)) U) (madj (relabel (lpf before)))).
  intros n m p q Hn Hm Hp Hq. apply (placed_lpf d after RA CA) in Hp; [|exact Hn]. apply (placed_lpf d before RB CB) in Hq; [|exact Hm]. apply Nat2Z.inj in Hp, Hq. subst p q.
  unfold mmul at 1. rewrite (csum_single d _ m Hm).
  2:{ intros k Hk N. unfold madj, relabel. rewrite (proj2 (Nat.eqb_neq (lpf before m) (lpf before k))); [cbn; apply Ceq; cbn; ring|]. intros E. apply N. symmetry. apply (lpf_inj d before RB CB); assumption. }
  unfold mmul. rewrite (csum_single d _ n Hn).
  2:{ intros k Hk N. unfold relabel. rewrite (proj2 (Nat.eqb_neq (lpf after n) (lpf after k))); [ring|]. intros E. apply N. symmetry. apply (lpf_inj d after RA CA); assumption. }
  unfold madj, relabel. rewrite !Nat.eqb_refl. apply Ceq; cbn; ring.
Qed.
