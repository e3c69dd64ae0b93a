(** With the cost of the QR decomposition as limit the physical search succeeds, if neighbouring levels are coupled. *)
From Coq Require Import Reals Lra Lia List Arith ZArith String.
From Verif.Base Require Import Py PyFacts Cplx Matrix Angle.
From Verif.Gates Require Import AnglesModel AnglesProofs SingleModel SingleSpec SingleProofs.
From Verif.Sim Require Import TnSpec.
From Verif.Levels Require Import LevelsModel LevelsSpec GraphProofs LevelsProofs RouteProofs PhaseProofs.
From Verif.Variational Require EmitProofs.
From Verif.Local Require Import QrModel QrSpec QrMath QrCore PulseProofs QrMoved QrEmit QrProofs QrPhysical TreeModel AdaModel AdaSpec SearchProofs AdaProofs AdaFound PhySpec PhyPulse PhyUpdate PhyStep PhyAda.
Import ListNotations.
Local Open Scope string_scope.
Local Open Scope list_scope.
Local Open Scope nat_scope.

(** *** Graphs that differ in the stored phases have the same costs *)
Lemma with_levels_keys g : NoDup (map fst (nd g)) ->
  with_levels g = mapr (fun n => let? v := getk (alook (nd g) n "level") in Ok (n, v)) (map fst (nd g)).
Proof.
  intros ND. unfold with_levels.
  assert (G : forall l, incl l (nd g) -> mapr (fun na => let? v := getk (aget (snd na) "level") in Ok (fst na, v)) l =
    mapr (fun n => let? v := getk (alook (nd g) n "level") in Ok (n, v)) (map fst l)).
  { induction l as [|(n, a) l IH]; intros I; [reflexivity|]. cbn [mapr map fst snd].
    assert (E : alook (nd g) n "level" = aget a "level").
    { unfold alook. rewrite (dget_complete Z.eqb zeq (nd g) n a ND (I _ (or_introl eq_refl))). reflexivity. }
    rewrite E, (IH (fun x H => I x (or_intror H))). reflexivity. }
  apply G. apply incl_refl.
Qed.
Lemma sb_levels d g g' s : well_formed g -> well_formed g' -> same_but_phases d g g' -> nodes_at_level g' s = nodes_at_level g s.
Proof.
  intros W W' S. unfold nodes_at_level. rewrite (with_levels_keys g (wf_nodes g W)), (with_levels_keys g' (wf_nodes g' W')), (sb_keys d g g' S).
  replace (mapr (fun n => let? v := getk (alook (nd g') n "level") in Ok (n, v)) (map fst (nd g))) with
    (mapr (fun n => let? v := getk (alook (nd g) n "level") in Ok (n, v)) (map fst (nd g))); [reflexivity|].
  generalize (map fst (nd g)). induction l as [|n l IH]; [reflexivity|]. cbn [mapr]. rewrite IH, (sb_look d g g' S) by discriminate. reflexivity.
Qed.
Lemma sb_linked d g g' a b : same_but_phases d g g' -> (linked g' a b <-> linked g a b).
Proof. intros S. unfold linked, joined. rewrite (sb_adj d g g' S). reflexivity. Qed.
Lemma sb_walk d g g' p s t : same_but_phases d g g' -> walk g p s t -> walk g' p s t.
Proof.
  intros S H. induction H as [s|s m t p L H IH]; [constructor|]. apply walk_cons with m; [|exact IH]. apply (sb_linked d g g' s m S). exact L.
Qed.
Lemma sb_sym d g g' : same_but_phases d g g' -> same_but_phases d g' g.
Proof. intros [A B C]. constructor; [congruence|congruence|]. intros m k N. symmetry. apply C. exact N. Qed.
Lemma sb_distance sp d g g' s t : finds_shortest sp -> routable d g -> routable d g' -> same_but_phases d g g' -> is_node g s -> is_node g t ->
  distance_nodes sp g' s t = distance_nodes sp g s t.
Proof.
  intros SP RT RT' S Hs Ht. unfold distance_nodes.
  destruct (SP g s t (rt_wf d g RT) (rt_connected d g RT) Hs Ht) as (p & -> & W & M).
  destruct (SP g' s t (rt_wf d g' RT') (rt_connected d g' RT')) as (p' & -> & W' & M'); [apply (sb_node d g g' s S); exact Hs|apply (sb_node d g g' t S); exact Ht|].
  cbn [bindr]. assert (A := M p' (sb_walk d g' g p' s t (sb_sym d g g' S) W')). assert (B := M' p (sb_walk d g g' p s t S W)). replace (List.length p') with (List.length p) by lia. reflexivity.
Qed.
Lemma sb_cost sp d g g' r : finds_shortest sp -> routable d g -> routable d g' -> same_but_phases d g g' -> is_node g (orig_a r) -> is_node g (orig_b r) ->
  rotation_cost_calc sp r g' = rotation_cost_calc sp r g.
Proof.
  intros SP RT RT' S Ha Hb. unfold rotation_cost_calc, is_irnode, fst_inode, fst_node. rewrite !(sb_levels d g g' _ (rt_wf d g RT) (rt_wf d g' RT') S).
  destruct (fst_inode_ok d g RT) as (i & Ei & Hi). unfold fst_inode, fst_node in Ei. rewrite Ei. cbn [bindr].
  assert (Ni : is_node g i) by (eapply has_node; exact Hi).
  rewrite !(sb_distance sp d g g' i) by assumption. reflexivity.
Qed.
Lemma setup_same d g : well_formed g -> same_but_phases d g (phase_storing_setup g).
Proof.
  intros W. destruct (phase_setup_spec g W) as (W' & _ & A & _). cbn zeta in *. constructor; [cbn; rewrite map_map; reflexivity|reflexivity|].
  intros m k N. destruct (alook (nd g) m k) as [v|] eqn:E.
  - apply (has_attr_alook _ W'). apply A; [exact N|]. apply (has_attr_alook g W). exact E.
  - destruct (alook (nd (phase_storing_setup g)) m k) as [v|] eqn:E'; [|reflexivity]. apply (has_attr_alook _ W') in E'. apply A in E'; [|exact N].
    apply (has_attr_alook g W) in E'. congruence.
Qed.

Lemma route_linked sp d r g : finds_shortest sp -> routable d g -> is_node g (orig_a r) -> is_node g (orig_b r) -> linked g (orig_a r) (orig_b r) ->
  route_states2rotate_basic sp d r g = Ok (0%R, [], g).
Proof.
  intros SP RT Na Nb LK. unfold route_states2rotate_basic.
  destruct (SP g _ _ (rt_wf d g RT) (rt_connected d g RT) Na Nb) as (w & -> & Sh). cbn [bindr].
  assert (WL : List.length w <= 2) by (apply (proj2 Sh [orig_a r; orig_b r]); apply walk_cons with (orig_b r); [exact LK|constructor]).
  replace (List.length w - 2) with 0 by lia. reflexivity.
Qed.

Section Path.
  Variables (sp : lgraph -> Z -> Z -> res (list Z)) (eps tiny slack : R) (d : nat) (g1 g : lgraph) (f : nat -> R).
  Hypothesis SP : finds_shortest sp.
  Hypothesis RT1 : routable d g1.
  Hypothesis CV1 : covers d g1.
  Hypothesis SB : same_but_phases d g1 g.
  Hypothesis FT : fit d g f.
  Hypothesis NB : ladder d g.
  Hypothesis S0 : (0 < slack)%R.
  Notation kid := (phy_kid sp eps tiny slack d).

  Lemma phy_step_total s r c s' : 0 < r < d -> phy_step sp eps d g1 s (r, c) = Ok s' ->
    ((eps < Cmod (q_u s r c))%R /\ q_u s' = mmul d (swing d (q_u s) c (r - 1) r) (q_u s) /\
       exists gc, rotation_cost_calc sp (log_rot (q_u s) c (r - 1) r) g = Ok gc /\ (0 <= gc)%R /\ q_total s' = (q_total s + gc)%R) \/
    (~ (eps < Cmod (q_u s r c))%R /\ s' = s).
  Proof.
    intros Hr E. unfold phy_step in E. destruct (Rlt_dec eps (Cmod (q_u s r c))) as [Y|Y]; [left|right; injection E as <-; auto].
    split; [exact Y|].
    assert (Eq : qr_rotation d (q_u s) r c = Ok (log_rot (q_u s) c (r - 1) r)).
    { unfold qr_rotation. rewrite new_R_ok by lia. unfold log_rot. rewrite Z.min_l, Z.max_r by lia.
      replace (Z.to_nat (Z.of_nat r - 1)) with (r - 1) by lia. replace (Z.of_nat r - 1)%Z with (Z.of_nat (r - 1)) by lia. rewrite Nat2Z.id. reflexivity. }
    rewrite Eq in E. cbn [bindr] in E. set (q := log_rot (q_u s) c (r - 1) r) in *.
    assert (Na : is_node g1 (orig_a q)) by (apply CV1; lia). assert (Nb : is_node g1 (orig_b q)) by (apply CV1; lia).
    unfold cost_calculator in E. rewrite (route_linked sp d q g1 SP RT1 Na Nb) in E.
    2:{ apply (sb_linked d g g1 _ _ (sb_sym d g1 g SB)). apply NB. exact Hr. }
    cbn [bindr] in E. rewrite <- (sb_cost sp d g1 g q SP RT1 (fit_routable d g f FT) SB Na Nb) in E.
    destruct (rotation_cost_calc sp q g) as [gc|e] eqn:EC; [|discriminate]. cbn [bindr] in E.
    repeat (apply EmitProofs.bindr_Ok in E; destruct E as (? & ? & E)). injection E as <-. cbn [q_u q_total].
    split; [reflexivity|]. exists gc. split; [reflexivity|]. split; [exact (rotation_cost_nonneg _ _ _ _ EC)|ring].
  Qed.
  Lemma phy_steps_mono l s s' : (forall rc, In rc l -> 0 < fst rc < d) -> foldr (phy_step sp eps d g1) l s = Ok s' -> (q_total s <= q_total s')%R.
  Proof.
    revert s. induction l as [|(r, c) l IH]; intros s Hl E; cbn [foldr] in E; [injection E as <-; lra|].
    apply EmitProofs.bindr_Ok in E. destruct E as (s1 & E1 & E). specialize (IH s1 (fun rc H => Hl rc (or_intror H)) E).
    destruct (phy_step_total s r c s1 (Hl (r, c) (or_introl eq_refl)) E1) as [(_ & _ & gc & _ & G0 & X)|(_ & ->)]; [lra|exact IH].
  Qed.
  Lemma phy_qr_chain l : forall s s' a, (forall rc, In rc l -> 0 < fst rc < d /\ snd rc < fst rc) -> foldr (phy_step sp eps d g1) l s = Ok s' ->
    s_graph a = Some g -> s_u a = q_u s -> (s_dcost a <= q_total s)%R -> (q_total s' <= snd (s_max a))%R -> dust_free eps tiny d l (q_u s) ->
    exists p, chain kid d a p /\ s_u (last p a) = q_u s'.
  Proof.
    induction l as [|(r, c) l IH]; intros s s' a Hl E EG EU DC LM DF; cbn [foldr] in E.
    - injection E as <-. exists [a]. split; [constructor|exact EU].
    - apply EmitProofs.bindr_Ok in E. destruct E as (s1 & E1 & E). destruct (Hl (r, c) (or_introl eq_refl)) as [Hr Hc]. cbn [fst snd] in *.
      assert (Hl' : forall rc, In rc l -> 0 < fst rc < d /\ snd rc < fst rc) by (intros rc H; apply Hl; right; exact H).
      assert (MO := phy_steps_mono l s1 s' (fun rc H => proj1 (Hl' rc H)) E). cbn [dust_free] in DF. destruct DF as [D1 D2].
      destruct (phy_step_total s r c s1 Hr E1) as [(Y & U1 & gc & EC & G0 & X)|(Y & ->)].
      + assert (W : wanted eps tiny (s_u a) c (r - 1) r = true).
        { rewrite EU. unfold wanted. destruct (Rlt_dec eps (Cmod (q_u s r c))); [|contradiction]. cbn [andb]. destruct (D1 Y) as [T|T].
          - destruct (Rlt_dec tiny (Cmod (q_u s (r - 1) c))); [reflexivity|contradiction].
          - destruct (Req_EM_T (Cmod (q_u s (r - 1) c)) 0); [apply Bool.orb_true_r|contradiction]. }
        destruct (kid_ok sp eps tiny slack d SP a g f c (r - 1) r EG FT ltac:(lia) W) as (cpi & gc' & ps & q2 & g2 & f2 & est & EK & _ & _ & _ & _ & _ & _ & _ & LK & _).
        destruct (LK (NB r Hr)) as (-> & -> & -> & EC'). rewrite EU in EC'. rewrite EC in EC'. injection EC' as <-.
        replace (affordable slack (snd (s_max a)) (0 + gc + s_dcost a)) with true in EK by (symmetry; apply affordable_spec; [exact S0|lra]).
        match type of EK with _ = Ok (Some ?x) => set (b := x) in * end.
        assert (CB : child kid d a b) by (exists (c, r - 1, r); split; [apply triples_spec; lia|exact EK]).
        destruct (IH s1 s' b Hl' E) as (p & Hp & Up).
        * reflexivity.
        * unfold b. cbn [s_u]. rewrite U1, EU. reflexivity.
        * unfold b. cbn [s_dcost]. lra.
        * exact LM.
        * replace (q_u s1) with (ustep eps d (q_u s) (r, c)); [exact D2|]. unfold ustep. destruct (Rlt_dec eps (Cmod (q_u s r c))); [|contradiction]. rewrite U1. reflexivity.
        * exists (a :: p). split; [econstructor; eassumption|]. destruct (chain_head _ _ _ _ Hp) as (q & ->). rewrite <- Up. cbn [last]. f_equal. apply last_any.
      + apply (IH s s' a Hl' E EG EU DC LM). replace (q_u s) with (ustep eps d (q_u s) (r, c)); [exact D2|]. unfold ustep.
        destruct (Rlt_dec eps (Cmod (q_u s r c))); [contradiction|reflexivity].
  Qed.
End Path.
