(** The logical adaptive search finds what the QR decomposition finds. *)
From Coq Require Import Reals Lra Lia List Arith ZArith.
From Verif.Base Require Import Py PyFacts Cplx Matrix Angle.
From Verif.Gates Require Import AnglesModel AnglesProofs SingleModel SingleSpec SingleProofs.
From Verif.Levels Require Import LevelsModel LevelsSpec GraphProofs LevelsProofs RouteProofs PhaseProofs DistanceProofs.
From Verif.Variational Require EmitProofs.
From Verif.Local Require Import QrModel QrSpec QrMath QrCore QrMoved QrEmit QrProofs QrPhysical QrPasses QrCases TreeModel AdaModel AdaSpec SearchProofs AdaProofs.
Import ListNotations.
Local Open Scope list_scope.
Local Open Scope nat_scope.

Lemma theta_cost_nonneg t : (0 <= theta_cost t)%R.
Proof. apply theta_cost_props. Qed.

(** *** Costs of routing *)
Lemma rotation_cost_nonneg sp r g c : rotation_cost_calc sp r g = Ok c -> (0 <= c)%R.
Proof.
  unfold rotation_cost_calc. intros E. apply EmitProofs.bindr_Ok in E. destruct E as (ra & _ & E). apply EmitProofs.bindr_Ok in E. destruct E as (rb & _ & E).
  assert (T := theta_cost_nonneg (r_theta r)). destruct rb; [|injection E as <-; exact T].
  apply EmitProofs.bindr_Ok in E. destruct E as (i1 & _ & E). apply EmitProofs.bindr_Ok in E. destruct E as (d1 & E1 & E).
  apply EmitProofs.bindr_Ok in E. destruct E as (i2 & _ & E). apply EmitProofs.bindr_Ok in E. destruct E as (d2 & E2 & E). injection E as <-.
  apply EmitProofs.bindr_Ok in E1. destruct E1 as (p1 & _ & [= <-]). apply EmitProofs.bindr_Ok in E2. destruct E2 as (p2 & _ & [= <-]).
  apply Rmult_le_pos; [|exact T]. apply IZR_le. lia.
Qed.
Lemma gate_cost_min sp d r g c : finds_shortest sp -> routable d g -> is_node g (orig_a r) -> is_node g (orig_b r) ->
  rotation_cost_calc sp r g = Ok c -> (theta_cost (r_theta r) <= c)%R.
Proof.
  intros SP RT Ha Hb. unfold rotation_cost_calc. intros E. apply EmitProofs.bindr_Ok in E. destruct E as (ra & _ & E). apply EmitProofs.bindr_Ok in E. destruct E as (rb & _ & E).
  assert (T := theta_cost_nonneg (r_theta r)). destruct rb; [|injection E as <-; lra].
  destruct (fst_inode_ok d g RT) as (i & Ei & Hi). rewrite Ei in E. cbn [bindr] in E.
  assert (D : forall t k, is_node g t -> distance_nodes sp g i t = Ok k -> (0 <= k)%Z).
  { intros t k Ht Ek. unfold distance_nodes in Ek. destruct (SP g i t (rt_wf d g RT) (rt_connected d g RT)) as (p & Ep & Sh & _); [eapply has_node; exact Hi|exact Ht|].
    rewrite Ep in Ek. injection Ek as <-. destruct (walk_nonempty _ _ _ _ Sh) as (q & ->). cbn [List.length]. lia. }
  apply EmitProofs.bindr_Ok in E. destruct E as (d1 & E1 & E). apply EmitProofs.bindr_Ok in E. destruct E as (d2 & E2 & E). injection E as <-.
  assert (A := D _ _ Ha E1). assert (B := D _ _ Hb E2). assert (C : (1 <= IZR (Z.min d1 d2 + 1))%R) by (apply IZR_le; lia). nra.
Qed.
Lemma route_loop_cost sp d : forall i path g pulses cost c ps g', route_loop sp d i path g pulses cost = Ok (c, ps, g') -> (cost <= c)%R.
Proof.
  induction i as [|i IH]; intros path g pulses cost c ps g' E; cbn [route_loop] in E; [injection E as <- _ _; lra|].
  apply EmitProofs.bindr_Ok in E. destruct E as ((((c1, ps1), g1), path1) & E1 & E). apply IH in E.
  assert (X : (cost <= c1)%R); [|lra]. unfold route_step in E1.
  repeat (apply EmitProofs.bindr_Ok in E1; destruct E1 as (? & ? & E1)). injection E1 as <- _ _ _.
  match goal with H : rotation_cost_calc _ _ _ = Ok ?k |- _ => assert (Y := rotation_cost_nonneg _ _ _ _ H) end. lra.
Qed.
Lemma cost_calculator_min sp d q g nz est ps g' cpi gc : finds_shortest sp -> routable d g -> is_node g (orig_a q) -> is_node g (orig_b q) -> orig_a q <> orig_b q ->
  cost_calculator sp d q g nz = Ok (est, ps, g', cpi, gc) -> (0 <= cpi)%R /\ (r_cost q <= gc)%R /\ route_states2rotate_basic sp d q g = Ok (cpi, ps, g') /\
    rotation_cost_calc sp q g' = Ok gc /\ est = ((gc + cpi) * IZR nz)%R.
Proof.
  intros SP RT Ha Hb Hab E. unfold cost_calculator in E. apply EmitProofs.bindr_Ok in E. destruct E as (((c, p), g1) & E1 & E). apply EmitProofs.bindr_Ok in E.
  destruct E as (k & E2 & E). injection E as <- <- <- <- <-.
  destruct (route_ok sp d q g SP RT Ha Hb Hab) as (c1 & ps1 & g2 & E3 & _ & _ & _ & ND & R1 & _). rewrite E1 in E3. injection E3 as <- <- <-.
  split; [|split; [|auto]].
  - unfold route_states2rotate_basic in E1. apply EmitProofs.bindr_Ok in E1. destruct E1 as (path & _ & E1). apply (route_loop_cost _ _ _ _ _ _ _ _ _ _ E1).
  - apply (gate_cost_min sp d q g1 k SP R1); [apply ND; exact Ha|apply ND; exact Hb|exact E2].
Qed.

(** *** The QR decomposition as a path of the search *)
Section Path.
  Variables (sp : lgraph -> Z -> Z -> res (list Z)) (eps tiny slack : R) (d : nat) (g : lgraph).
  Hypothesis SP : finds_shortest sp.
  Hypothesis RT : routable d g.
  Hypothesis CV : covers d g.
  Hypothesis S0 : (0 < slack)%R.
  Notation kid := (log_kid eps tiny slack d).

  Lemma log_step_total s r c s' : 0 < r < d -> log_step sp eps d g s (r, c) = Ok s' ->
    ((eps < Cmod (q_u s r c))%R /\ q_u s' = mmul d (swing d (q_u s) c (r - 1) r) (q_u s) /\ (q_total s + r_cost (log_rot (q_u s) c (r - 1) r) <= q_total s')%R) \/
    (~ (eps < Cmod (q_u s r c))%R /\ s' = s).
  Proof.
    intros Hr E. unfold log_step in E. destruct (Rlt_dec eps (Cmod (q_u s r c))) as [Y|Y]; [left|right; split; [exact Y|congruence]].
    destruct (qr_rotation_ok d (q_u s) r c Hr) as (q & Eq & Mq & Oa & Ob). rewrite Eq in E. cbn [bindr] in E.
    apply EmitProofs.bindr_Ok in E. destruct E as (((((est, ps), g'), cpi), gc) & Ec & E). injection E as <-. cbn [q_u q_total].
    destruct (pred_node d g CV r Hr) as [Na Nb].
    assert (Na' : is_node g (orig_a q)) by (rewrite Oa; exact Na). assert (Nb' : is_node g (orig_b q)) by (rewrite Ob; exact Nb). assert (Nab : orig_a q <> orig_b q) by lia.
    destruct (cost_calculator_min sp d q g _ _ _ _ _ _ SP RT Na' Nb' Nab Ec) as (C1 & C2 & _).
    split; [exact Y|]. split; [exact (f_equal (fun M => mmul d M (q_u s)) Mq)|].
    assert (RC : r_cost q = r_cost (log_rot (q_u s) c (r - 1) r)).
    { unfold qr_rotation in Eq. rewrite new_R_ok in Eq by lia. injection Eq as <-. reflexivity. }
    lra.
  Qed.
  Lemma log_steps_mono l s s' : (forall rc, In rc l -> 0 < fst rc < d) -> foldr (log_step sp eps d g) l s = Ok s' -> (q_total s <= q_total s')%R.
  Proof.
    revert s. induction l as [|(r, c) l IH]; intros s Hl E; cbn [foldr] in E; [injection E as <-; lra|].
    apply EmitProofs.bindr_Ok in E. destruct E as (s1 & E1 & E). specialize (IH s1 (fun rc H => Hl rc (or_intror H)) E).
    destruct (log_step_total s r c s1 (Hl (r, c) (or_introl eq_refl)) E1) as [(_ & _ & X)|(_ & ->)]; [|exact IH].
    assert (Y := theta_cost_nonneg (r_theta (log_rot (q_u s) c (r - 1) r))). unfold r_cost in X. lra.
  Qed.
  Lemma qr_chain l : forall s s' a, (forall rc, In rc l -> 0 < fst rc < d /\ snd rc < fst rc) -> foldr (log_step sp eps d g) l s = Ok s' ->
    s_u a = q_u s -> (s_dcost a <= q_total s)%R -> (q_total s' <= snd (s_max a))%R -> dust_free eps tiny d l (q_u s) ->
    exists p, chain kid d a p /\ s_u (last p a) = q_u s'.
  Proof.
    induction l as [|(r, c) l IH]; intros s s' a Hl E EU DC LM DF; cbn [foldr] in E.
    - injection E as <-. exists [a]. split; [constructor|exact EU].
    - apply EmitProofs.bindr_Ok in E. destruct E as (s1 & E1 & E). destruct (Hl (r, c) (or_introl eq_refl)) as [Hr Hc]. cbn [fst snd] in *.
      assert (Hl' : forall rc, In rc l -> 0 < fst rc < d /\ snd rc < fst rc) by (intros rc H; apply Hl; right; exact H).
      assert (MO := log_steps_mono l s1 s' (fun rc H => proj1 (Hl' rc H)) E). cbn [dust_free] in DF. destruct DF as [D1 D2].
      destruct (log_step_total s r c s1 Hr E1) as [(Y & U1 & X)|(Y & ->)].
      + set (b := log_node d a c (r - 1) r).
        assert (W : wanted eps tiny (s_u a) c (r - 1) r = true).
        { rewrite EU. unfold wanted. destruct (Rlt_dec eps (Cmod (q_u s r c))); [|contradiction]. cbn [andb]. destruct (D1 Y) as [T|T].
          - destruct (Rlt_dec tiny (Cmod (q_u s (r - 1) c))); [reflexivity|contradiction].
          - destruct (Req_EM_T (Cmod (q_u s (r - 1) c)) 0); [apply Bool.orb_true_r|contradiction]. }
        assert (CB : child kid d a b).
        { exists (c, r - 1, r). split; [apply triples_spec; lia|]. rewrite log_kid_eq by lia. rewrite W. cbn [andb].
          replace (affordable slack (snd (s_max a)) (r_cost (log_rot (s_u a) c (r - 1) r) + s_dcost a)) with true; [reflexivity|].
          symmetry. apply affordable_spec; [exact S0|]. rewrite EU. lra. }
        destruct (IH s1 s' b Hl' E) as (p & Hp & Up).
        * unfold b. cbn [s_u log_node]. rewrite U1, EU. reflexivity.
        * unfold b. cbn [s_dcost log_node]. rewrite EU. lra.
        * exact LM.
        * replace (q_u s1) with (ustep eps d (q_u s) (r, c)); [exact D2|]. unfold ustep. destruct (Rlt_dec eps (Cmod (q_u s r c))); [|contradiction]. rewrite U1. reflexivity.
        * exists (a :: p). split; [econstructor; eassumption|]. destruct (chain_head _ _ _ _ Hp) as (q & ->). rewrite <- Up. cbn [last]. f_equal. apply last_any.
      + apply (IH s s' a Hl' E EU DC LM). replace (q_u s) with (ustep eps d (q_u s) (r, c)); [exact D2|]. unfold ustep.
        destruct (Rlt_dec eps (Cmod (q_u s r c))); [contradiction|reflexivity].
  Qed.
End Path.

(** What execute of the logical QR decomposition does apart from the list of gates. *)
Lemma log_execute_inv sp eps delta nsa d U g ops alg tot g' : finds_shortest sp -> routable d g -> covers d g ->
  log_execute sp eps delta false nsa d U g = Ok (ops, alg, tot, g') ->
  exists g1 s, routable d g1 /\ covers d g1 /\ q_u s = reduced eps d U /\ q_total s = tot /\ exists ops0, foldr (log_step sp eps d g1) (visits d) (QS ops0 U 0 0) = Ok s.
Proof.
  intros SP RT CV E. unfold log_execute, execute in E.
  destruct (flush_ok delta d g log_level (fun _ => None) RT CV) as (ops0 & rec & g1 & EF & R1 & S1 & _).
  { intros g1 i R1 C1 S1 Hi. unfold log_level. destruct (node_attrs_ok d g1 R1 (Z.of_nat i) (C1 i Hi)) as (A & -> & _). reflexivity. }
  rewrite EF in E. cbn [bindr] in E. apply EmitProofs.bindr_Ok in E. destruct E as (s & Es & E). apply EmitProofs.bindr_Ok in E. destruct E as (o & _ & E).
  apply EmitProofs.bindr_Ok in E. destruct E as (g2 & _ & E). injection E as _ _ <- _.
  assert (C1 := sb_covers d g g1 S1 CV). exists g1, s. split; [exact R1|]. split; [exact C1|].
  destruct (steps_good d (fun n => n) eps (fun o => match o with OR r => lev_b r = lev_a r + 1 | OV _ => True end) 1 (fun n H => H) (fun n m _ _ H => H)
    _ (log_step_good sp eps d g1 SP R1 C1) (visits d) (QS ops0 U 0 0)) as (s2 & new & X & E2 & U2 & _).
  { intros rc H. destruct (visits_range d rc H) as (A & B & _). auto. }
  assert (s2 = s) by congruence. subst s2. split; [exact U2|]. split; [reflexivity|]. exists ops0. exact Es.
Qed.

Lemma reduced_near eps near d U : unitary d U -> 0 < d -> (0 <= eps)%R -> (INR d * eps <= near)%R -> (2 * (INR d * eps * (INR d * eps)) < 1 - near)%R ->
  near_diagonal near d (reduced eps d U) = true.
Proof.
  intros HU D1 E0 H1 H2. apply near_diagonal_spec. split.
  - exists 0. split; [exact D1|]. destruct (reduced_on eps d E0 U 0 HU D1) as [A _]. lra.
  - intros i j Hi Hj N. assert (X := reduced_off eps d E0 U i j HU Hi Hj N). lra.
Qed.

Lemma qr_total_nonneg sp eps delta nsa d U g ops alg tot g' : finds_shortest sp -> routable d g -> covers d g ->
  log_execute sp eps delta false nsa d U g = Ok (ops, alg, tot, g') -> (0 <= tot)%R.
Proof.
  intros SP RT CV E. destruct (log_execute_inv sp eps delta nsa d U g ops alg tot g' SP RT CV E) as (g1 & s & R1 & C1 & _ & <- & ops0 & Es).
  apply (log_steps_mono sp eps d g1 SP R1 C1 _ _ _) in Es; [exact Es|]. intros rc H. destruct (visits_range d rc H) as (A & _). exact A.
Qed.

(** With the cost of the QR decomposition as limit the search succeeds. *)
Theorem log_found sp eps tiny near slack delta d U g ops alg tot g' : finds_shortest sp -> routable d g -> covers d g -> unitary d U -> 0 < d ->
  (0 <= eps)%R -> (0 < slack)%R -> (INR d * eps <= near)%R -> (2 * (INR d * eps * (INR d * eps)) < 1 - near)%R ->
  dust_free eps tiny d (visits d) U ->
  log_execute sp eps delta false true d U g = Ok (ops, alg, tot, g') ->
  forall fuel ops' best fg, log_adaptive eps tiny near slack delta d fuel U g' (alg, tot) = Ok (ops', best, fg) -> best <> None.
Proof.
  intros SP RT CV HU D1 E0 S0 H1 H2 DF E fuel ops' best fg EA EB. subst best.
  destruct (log_execute_inv sp eps delta true d U g ops alg tot g' SP RT CV E) as (g1 & s & R1 & C1 & EU & ET & ops0 & Es).
  set (a := root U (phase_storing_setup g') (alg, tot)).
  destruct (qr_chain sp eps tiny slack d g1 SP R1 C1 S0 (visits d) (QS ops0 U 0 0) s a) as (p & Hp & Up); trivial.
  - intros rc H. destruct (visits_range d rc H) as (A & _ & B). auto.
  - cbn. lra.
  - cbn. rewrite ET. lra.
  - assert (N0 : (0 <= near)%R) by (assert (X := pos_INR d); nra).
    unfold log_adaptive in EA. apply EmitProofs.bindr_Ok in EA. destruct EA as (((p', best'), fg') & Es' & EA).
    assert (SO := search_ok near _ d fuel U (phase_storing_setup g') (alg, tot) p' best' fg' Es'). cbv zeta in SO. fold a in SO.
    assert (ND := reduced_near eps near d U HU D1 E0 H1 H2). rewrite <- EU, <- Up in ND.
    destruct best' as [b|].
    + destruct p' as [|x p']; [|destruct (near_diagonal near d _); [injection EA as _ EA _; discriminate|discriminate]]. destruct b as (b1, b2). destruct SO as (CH & _). inversion CH.
    + destruct SO as (_ & _ & SO). rewrite (SO p Hp) in ND. discriminate.
Qed.

(** *** Without the hypothesis on tiny entries *)
Definition dusty : mat := two_level 0 1 (RtoC (/ 10000000000000000000)) (RtoC (- sqrt (1 - / 10000000000000000000 * / 10000000000000000000)))
  (RtoC (sqrt (1 - / 10000000000000000000 * / 10000000000000000000))) (RtoC (/ 10000000000000000000)).
Lemma dusty_unitary : unitary 2 dusty.
Proof.
  assert (Q := sqrt_sqrt (1 - / 10000000000000000000 * / 10000000000000000000) ltac:(lra)). unfold dusty. set (b := sqrt _) in *. set (x := (/ 10000000000000000000)%R) in *.
  split; intros i j Hi Hj; (destruct i as [|[|i]]; [| |lia]); (destruct j as [|[|j]]; [| |lia]); apply Ceq; cbv -[Rplus Rmult Ropp Rminus IZR b x]; try ring;
    (transitivity (x * x + b * b)%R; [ring|rewrite Q; ring]).
Qed.
Theorem dusty_dropped fuel g limit : log_adaptive code_eps code_tiny code_near code_slack code_delta 2 (S fuel) dusty g limit =
  Ok ([], None, Some (phase_storing_setup g)).
Proof.
  assert (X : Cmod (dusty 0 0) = (/ 10000000000000000000)%R).
  { unfold dusty. cbn. unfold Cmod, Cnorm2, RtoC. cbn. replace (_ + 0 * 0)%R with (/ 10000000000000000000 * / 10000000000000000000)%R by ring. apply sqrt_square. lra. }
  assert (X' : Cmod (dusty 1 1) = (/ 10000000000000000000)%R) by exact X.
  assert (ND : near_diagonal code_near 2 dusty = false).
  { apply Bool.not_true_is_false. intros H. apply near_diagonal_spec in H. destruct H as [(i & Hi & H) _]. unfold code_near in H.
    destruct i as [|[|i]]; [| |lia]; rewrite ?X, ?X' in H; lra. }
  assert (W : wanted code_eps code_tiny dusty 0 0 1 = false).
  { unfold wanted. rewrite X. destruct (Rlt_dec code_tiny (/ 10000000000000000000)) as [H|H]; [unfold code_tiny in H; lra|].
    destruct (Req_EM_T (/ 10000000000000000000) 0) as [H'|H']; [lra|]. apply Bool.andb_false_r. }
  unfold log_adaptive, search_for. rewrite dfs_unfold. cbn [s_u root]. rewrite ND.
  change (triples 2) with [(0, 0, 1)]. cbn [kids]. unfold log_kid at 1. cbn [s_u root]. rewrite W. cbn. reflexivity.
Qed.
