(** The pass of the physical adaptive compilation (C91). *)
From Coq Require Import Reals Lra Lia List Arith ZArith String.
From Verif.Base Require Import Py PyFacts Cplx Matrix Angle.
From Verif.Gates Require Import AnglesModel AnglesProofs SingleModel SingleSpec SingleProofs.
From Verif.Sim Require Import TnSpec.
From Verif.Levels Require Import LevelsModel LevelsSpec GraphProofs LevelsProofs RouteProofs PhaseProofs.
From Verif.Variational Require EmitProofs.
From Verif.Local Require Import QrModel QrSpec QrMath QrCore PulseProofs QrMoved QrEmit QrProofs QrPhysical TreeModel AdaModel AdaSpec SearchProofs AdaProofs AdaFound AdaPasses QrPasses
  PhySpec PhyPulse PhyUpdate PhyStep PhyAda PhyFound.
Import ListNotations.
Local Open Scope string_scope.
Local Open Scope list_scope.
Local Open Scope nat_scope.

(** *** The graph the search starts from *)
Lemma setup_no_phases g : well_formed g -> no_phases g -> no_phases (phase_storing_setup g).
Proof.
  intros W NP n v x H E. destruct (phase_setup_spec g W) as (_ & _ & _ & P). apply P in H. destruct H as [H|(_ & _ & ->)]; [eapply NP; eassumption|].
  cbn in E. congruence.
Qed.
Lemma setup_usable d g : usable d g -> usable d (phase_storing_setup g).
Proof.
  intros [RT CV OG NP]. split; [apply phase_setup_routable; exact RT|apply setup_covers; exact CV| |apply setup_no_phases; [apply (rt_wf d g RT)|exact NP]].
  apply (ordered_keys g); [cbn; rewrite map_map; reflexivity|exact OG].
Qed.
Lemma no_phases_pending g : no_phases g -> pending g (fun _ => 0%R).
Proof. intros NP. split; [|reflexivity]. intros n p v x _ H E. symmetry. eapply NP; eassumption. Qed.
Lemma setup_fit d g : 0 < d -> usable d g -> fit d (phase_storing_setup g) (fun _ => 0%R).
Proof.
  intros D1 HU. destruct (setup_usable d g HU) as [RT' CV' OG' NP']. destruct HU as [RT CV OG NP]. split; trivial.
  - destruct (phase_setup_spec g (rt_wf d g RT)) as (_ & _ & _ & P). exists 0%Z.
    destruct (alook (nd g) 0 "phase_storage") as [v|] eqn:E.
    + exists v. apply P. left. apply (has_attr_alook g (rt_wf d g RT)). exact E.
    + exists (AInt 0). apply P. right. split; [apply (CV 0); exact D1|]. split; [|reflexivity]. intros w Hw. apply (has_attr_alook g (rt_wf d g RT)) in Hw. congruence.
  - apply no_phases_pending. exact NP'.
  - intros l _. apply sin_0.
Qed.
Lemma phases_none d : meq d (phases (fun _ => 0%R)) mid.
Proof. intros i j Hi Hj. unfold phases, mdiag, mid. destruct (Nat.eqb i j); [|reflexivity]. rewrite Ropp_0. apply Ceq; cbn; [apply cos_0|apply sin_0]. Qed.
Lemma frame_none d g : meq d (frame d g (fun _ => 0%R)) (relabel (lpf g)).
Proof. unfold frame. eapply meq_trans; [apply mmul_ext; [apply phases_none|apply meq_refl]|]. apply mmul_id_l. Qed.
Lemma sb_couplings d g g' : well_formed g -> well_formed g' -> same_but_phases d g g' -> same_couplings g g'.
Proof.
  intros W W' S. split.
  - intros p q dat. symmetry. apply (sb_coupled d g g' p q dat W W' S).
  - intros p. split; intros (n & H); exists n; apply (sb_placed d g g' n p W W' S); exact H.
Qed.
Lemma sb_ordered d g g' : same_but_phases d g g' -> ordered g -> ordered g'.
Proof. intros S. apply ordered_keys. apply (sb_keys d g g' S). Qed.

(** *** From the frames to the circuit *)
Lemma relocated_ext d g0 g1 U V : routable d g0 -> covers d g0 -> routable d g1 -> covers d g1 -> relocated d g1 g0 U V ->
  meq d (mmul d V (relabel (lpf g1))) (mmul d (relabel (lpf g0)) U).
Proof.
  intros R0 C0' R1 C1' H i j Hi Hj. destruct (image d (lpf g0) (lpf_in d g0 R0 C0') (lpf_inj d g0 R0 C0') i Hi) as (n & Hn & <-).
  unfold mmul. rewrite (csum_single d _ (lpf g1 j)); [|apply (lpf_in d g1 R1 C1'); exact Hj|].
  2:{ intros k Hk N. unfold relabel. rewrite (proj2 (Nat.eqb_neq k (lpf g1 j)) N). ring. }
  rewrite (csum_single d _ n Hn).
  - unfold relabel. rewrite !Nat.eqb_refl. rewrite (H n j (lpf g0 n) (lpf g1 j) Hn Hj); [ring|apply (lpf_placed d g0 R0 C0'); exact Hn|apply (lpf_placed d g1 R1 C1'); exact Hj].
  - intros k Hk N. unfold relabel. rewrite (proj2 (Nat.eqb_neq (lpf g0 n) (lpf g0 k))); [ring|]. intros E. apply N. symmetry. apply (lpf_inj d g0 R0 C0'); assumption.
Qed.
Lemma relocated_close d e g0 g1 U V T : routable d g0 -> covers d g0 -> routable d g1 -> covers d g1 -> unitary d T -> (0 <= e)%R ->
  close d e (mmul d (mmul d T (relabel (lpf g0))) U) (relabel (lpf g1)) -> relocated d g1 g0 U V -> close d (INR d * e) (madj T) V.
Proof.
  intros R0 C0' R1 C1' HT He H HV. apply close_inverse; trivial. intros i p Hi Hp.
  destruct (image d (lpf g1) (lpf_in d g1 R1 C1') (lpf_inj d g1 R1 C1') p Hp) as (m & Hm & <-).
  assert (X : meq d (mmul d (mmul d T V) (relabel (lpf g1))) (mmul d (mmul d T (relabel (lpf g0))) U)).
  { eapply meq_trans; [apply mmul_assoc|]. eapply meq_trans; [apply mmul_ext; [apply meq_refl|apply (relocated_ext d g0 g1 U V); assumption]|]. apply meq_sym, mmul_assoc. }
  specialize (X i m Hi Hm). unfold mmul at 1 in X. rewrite (csum_single d _ (lpf g1 m)) in X; [|apply (lpf_in d g1 R1 C1'); exact Hm|].
  2:{ intros k Hk N. unfold relabel. rewrite (proj2 (Nat.eqb_neq k (lpf g1 m)) N). ring. }
  unfold relabel at 1 in X. rewrite Nat.eqb_refl in X. replace (mmul d T V i (lpf g1 m)) with (mmul d (mmul d T (relabel (lpf g0))) U i m).
  - exact (H i m Hi Hm).
  - rewrite <- X. ring.
Qed.

(** *** Fuel *)
Lemma dfs_more near kid d : forall n m key a counter x, dfs near kid d n key a counter = Ok x -> n <= m -> dfs near kid d m key a counter = Ok x.
Proof.
  induction n as [|n IH]; intros m key a counter x E L; [discriminate|]. destruct m as [|m]; [lia|].
  rewrite dfs_unfold in E |- *. destruct (near_diagonal near d (s_u a)); [exact E|].
  destruct (kids kid a (triples d)) as [l|e]; [|discriminate]. cbn [bindr] in E |- *.
  assert (V : forall l c y, visit near kid d n l c = Ok y -> visit near kid d m l c = Ok y).
  { induction l0 as [|(k, b) l0 IHl]; intros c y Ey; [exact Ey|]. cbn [visit fst snd] in Ey |- *.
    apply EmitProofs.bindr_Ok in Ey. destruct Ey as (z & Ez & Ey). rewrite (IH m _ _ _ _ Ez) by lia. cbn [bindr]. destruct (snd z); [exact Ey|].
    apply EmitProofs.bindr_Ok in Ey. destruct Ey as (w & Ew & Ey). unfold visit in Ew, IHl |- *. rewrite (IHl _ _ Ew). cbn [bindr]. exact Ey. }
  apply EmitProofs.bindr_Ok in E. destruct E as (y & Ey & E). rewrite (V _ _ _ Ey). cbn [bindr]. exact E.
Qed.
Lemma search_more near kid d n m U g limit x : search_for near kid d n U g limit = Ok x -> n <= m -> search_for near kid d m U g limit = Ok x.
Proof. intros E L. unfold search_for in *. apply EmitProofs.bindr_Ok in E. destruct E as (y & Ey & E). rewrite (dfs_more _ _ _ _ _ _ _ _ _ Ey L). exact E. Qed.

Section Phy.
  Variables (sp : lgraph -> Z -> Z -> res (list Z)) (eps tiny near slack delta : R) (d : nat).
  Hypothesis SP : finds_shortest sp.
  Hypothesis S0 : (0 < slack)%R.
  Hypothesis N0 : (0 <= near)%R.
  Hypothesis D0 : (0 <= delta < PI)%R.
  Hypothesis D1 : 0 < d.
  Notation kid := (phy_kid sp eps tiny slack d).
  Notation adaptive := (phy_adaptive sp eps tiny near slack delta d false).

  Lemma adaptive_more n m U g limit x : adaptive n U g limit = Ok x -> n <= m -> adaptive m U g limit = Ok x.
  Proof. intros E L. unfold phy_adaptive in *. apply EmitProofs.bindr_Ok in E. destruct E as (y & Ey & E). rewrite (search_more _ _ _ _ _ _ _ _ _ Ey L). exact E. Qed.

  Theorem phy_adaptive_ok fuel U g limit ops best fg : unitary d U -> usable d g -> adaptive fuel U g limit = Ok (ops, best, fg) ->
    match best with
    | Some (c, dc) => exists g', fg = Some g' /\ usable d g' /\ same_couplings g g' /\ Forall (native g) ops /\
        unitary d (ops_matrix d ops) /\
        close d (ada_error near delta d) (mmul d (mmul d (ops_matrix d ops) (relabel (lpf g))) U) (relabel (lpf g')) /\
        (near_diagonal near d U = true \/ (dc < snd limit + slack)%R) /\
        (all_coupled d g -> forall n p, placed g' n p <-> placed g n p)
    | None => ops = [] /\ fg = Some (phase_storing_setup g) /\
        forall q, chain kid d (root U (phase_storing_setup g) limit) q -> near_diagonal near d (s_u (last q (root U (phase_storing_setup g) limit))) = false
    end.
  Proof.
    intros HU US E. assert (FT := setup_fit d g D1 US). destruct US as [RT CV OG NP].
    assert (SB := setup_same d g (rt_wf d g RT)). set (g0 := phase_storing_setup g) in *.
    assert (R0 := fit_routable d g0 _ FT). assert (C0' := fit_covers d g0 _ FT).
    assert (SC0 := sb_couplings d g g0 (rt_wf d g RT) (rt_wf d g0 R0) SB).
    unfold phy_adaptive in E. fold g0 in E. apply EmitProofs.bindr_Ok in E. destruct E as (((p, best'), fg') & Es & E).
    assert (SO := search_ok near kid d fuel U g0 limit p best' fg' Es). cbv zeta in SO. set (a := root U g0 limit) in *.
    destruct best' as [(c0, dc0)|].
    - destruct SO as (CH & ND & EC & ED & EG).
      destruct (phy_chain sp eps tiny slack d SP S0 a p CH HU g0 _ eq_refl FT) as (gx & fx & Ex & FX & SC & NA & UO & UX & MM & MX & AL & AC).
      destruct (chain_head _ _ _ _ CH) as (q & Eq). rewrite Eq in E. assert (LA : last (a :: q) a = last p a) by (rewrite Eq; reflexivity).
      cbv zeta in E. rewrite LA in E. rewrite ND in E. rewrite EG, Ex in E. cbn [bindr] in E. rewrite <- Eq in E.
      destruct (phy_z_ok delta d D0 (s_u (last p a)) gx fx (path_ops p) FX) as (new & g' & Ez & Vz & Lz & R' & S' & NP' & MZ).
      rewrite Ez in E. cbn [bindr fst snd] in E. injection E as <- <- <-.
      set (x := last p a) in *. assert (RX := fit_routable d gx fx FX). assert (CX := fit_covers d gx fx FX).
      assert (C' := sb_covers d gx g' S' CX).
      assert (LE : forall n, n < d -> lpf g' n = lpf gx n) by (intros n Hn; apply (sb_lpf d gx g' n RX R' CX S' Hn)).
      assert (L0 : forall n, n < d -> lpf g0 n = lpf g n) by (intros n Hn; apply (sb_lpf d g g0 n RT R0 CV SB Hn)).
      exists g'. split; [reflexivity|]. split; [|split; [|split; [|split; [|split; [|split]]]]].
      + split; trivial. apply (sb_ordered d gx g' S'). apply (fit_ordered d gx fx FX).
      + eapply couplings_trans; [exact SC0|]. eapply couplings_trans; [exact SC|]. apply (sb_couplings d); [apply (rt_wf d gx RX)|apply (rt_wf d g' R')|exact S'].
      + apply Forall_app. split.
        * eapply Forall_impl; [|exact NA]. intros o. apply native_same. exact SC0.
        * apply Forall_forall. intros o Ho. destruct (Vz o Ho) as (v & ->). exact Logic.I.
      + eapply unitary_ext; [apply meq_sym, ops_app|]. apply unitary_mmul; [|exact UO].
        assert (X : meq d (ops_matrix d new) (mmul d (mmul d (relabel (lpf gx)) (mdiag (fun i => fix_phase delta (s_u x i i)))) (madj (frame d gx fx)))).
        { eapply meq_trans; [|apply mmul_ext; [exact MZ|apply meq_refl]]. eapply meq_trans; [|apply meq_sym, mmul_assoc].
          eapply meq_trans; [apply meq_sym, mmul_id_r|]. apply mmul_ext; [apply meq_refl|]. apply meq_sym. apply (frame_unitary d gx RX CX fx). }
        eapply unitary_ext; [apply meq_sym; exact X|]. apply unitary_mmul; [apply unitary_mmul|].
        * apply (relabel_unitary d gx RX CX).
        * apply mdiag_unitary. intros i Hi. apply fix_unit.
        * apply unitary_adj. apply (frame_unitary d gx RX CX fx).
      + apply near_diagonal_spec in ND. destruct ND as [_ ND].
        assert (CL := near_close near delta d (s_u x) N0 (proj1 D0) UX ND).
        set (D := mdiag (fun i => fix_phase delta (s_u x i i))) in *.
        assert (EQ : meq d (mmul d (mmul d (ops_matrix d (path_ops p ++ new)) (relabel (lpf g))) U) (mmul d (relabel (lpf gx)) (mmul d D (s_u x)))).
        { eapply meq_trans; [apply mmul_ext; [apply mmul_ext; [apply ops_app|]|apply meq_refl]|].
          { eapply meq_trans; [|apply meq_sym, (frame_none d g0)]. intros i j Hi Hj. unfold relabel. rewrite L0 by exact Hj. reflexivity. }
          eapply meq_trans; [apply mmul_ext; [apply mmul_assoc|apply meq_refl]|]. eapply meq_trans; [apply mmul_assoc|].
          eapply meq_trans; [apply mmul_ext; [apply meq_refl|exact MM]|].
          eapply meq_trans; [apply meq_sym, mmul_assoc|]. eapply meq_trans; [apply mmul_ext; [exact MZ|apply meq_refl]|]. apply mmul_assoc. }
        intros i j Hi Hj. rewrite (EQ i j Hi Hj). destruct (image d (lpf gx) (lpf_in d gx RX CX) (lpf_inj d gx RX CX) i Hi) as (n & Hn & <-).
        unfold mmul at 1. rewrite (csum_single d _ n Hn).
        2:{ intros k Hk N. unfold relabel. rewrite (proj2 (Nat.eqb_neq (lpf gx n) (lpf gx k))); [ring|]. intros EE. apply N. symmetry. apply (lpf_inj d gx RX CX); assumption. }
        unfold relabel at 1. rewrite Nat.eqb_refl.
        assert (Y := CL n j Hn Hj). replace (relabel (lpf g') (lpf gx n) j) with (mid n j).
        * replace (Csub (Cmul C1 (mmul d D (s_u x) n j)) (mid n j)) with (Csub (mmul d D (s_u x) n j) (mid n j)) by ring. exact Y.
        * unfold mid, relabel. rewrite LE by exact Hj. destruct (Nat.eqb_spec n j) as [->|NN]; [rewrite Nat.eqb_refl; reflexivity|].
          rewrite (proj2 (Nat.eqb_neq (lpf gx n) (lpf gx j))); [reflexivity|]. intros EE. apply NN. apply (lpf_inj d gx RX CX); assumption.
      + destruct AL as [PA|LT]; [left|right; rewrite ED; exact LT]. unfold x in ND. rewrite PA in ND. exact ND.
      + intros AA. assert (X : gx = g0).
        { apply AC. intros n m Hn Hm NM. apply (sb_linked d g g0 _ _ SB). apply AA; assumption. }
        intros n m. rewrite (sb_placed d gx g' n m (rt_wf d gx RX) (rt_wf d g' R') S'), X. apply (sb_placed d g g0 n m (rt_wf d g RT) (rt_wf d g0 R0) SB).
    - destruct SO as (-> & -> & SO). injection E as <- <- <-. auto.
  Qed.

  Theorem phy_adaptive_ends fuel U g limit : unitary d U -> usable d g -> (0 <= snd limit)%R -> (snd limit + slack < INR fuel * (8 / 100000))%R ->
    exists x, adaptive fuel U g limit = Ok x.
  Proof.
    intros HU US L0 F. assert (FT := setup_fit d g D1 US). unfold phy_adaptive. set (g0 := phase_storing_setup g) in *. set (a := root U g0 limit).
    destruct (search_ends near kid d (fun b => (exists g f, s_graph b = Some g /\ fit d g f) /\ s_max b = limit /\ (s_dcost b <= snd limit + slack)%R) (8 / 100000) (snd limit + slack)) with (fuel := fuel) (U := U) (g := g0) (limit := limit)
      as (((p, best), fg) & Es); trivial.
    - intros b ((c, r), r2) ((gb & fb & Eb & Fb) & _) Ht. apply triples_spec in Ht. destruct (wanted eps tiny (s_u b) c r r2) eqn:W; [|rewrite kid_unwanted by exact W; eauto].
      destruct (kid_ok sp eps tiny slack d SP b gb fb c r r2 Eb Fb ltac:(lia) W) as (cpi & gc & ps & q & g2 & f2 & est & EK & _). rewrite EK. eauto.
    - intros b b' ((gb & fb & Eb & Fb) & Mb & Cb) Hc.
      destruct (phy_child sp eps tiny slack d SP S0 b b' gb fb Hc Eb Fb) as (c & r & r2 & q & g2 & f2 & _ & _ & _ & Eb' & F2 & _ & _ & _ & _ & _ & _ & MX & C1 & C2 & _).
      rewrite Mb in C2. split; [|lra]. split; [eauto|]. split; [congruence|lra].
    - intros b (_ & _ & Cb). exact Cb.
    - cbn. split; [eauto|]. split; [reflexivity|lra].
    - rewrite Es. cbn [bindr]. assert (SO := search_ok near kid d fuel U g0 limit p best fg Es). cbv zeta in SO.
      destruct best as [(c0, dc0)|]; [|destruct SO as (-> & _); eauto]. destruct SO as (CH & ND & _ & _ & EG). fold a in CH, ND, EG.
      destruct (phy_chain sp eps tiny slack d SP S0 a p CH HU g0 _ eq_refl FT) as (gx & fx & Ex & FX & _).
      destruct (chain_head _ _ _ _ CH) as (q & ->). cbv zeta. rewrite ND, EG, Ex. cbn [bindr].
      destruct (phy_z_ok delta d D0 (s_u (last (a :: q) a)) gx fx (path_ops (a :: q)) FX) as (new & g' & -> & _). cbn [bindr]. eauto.
  Qed.
End Phy.

(** *** The QR decomposition before it *)
Lemma phy_execute_inv sp eps delta nsa d U g ops alg tot g' : finds_shortest sp -> routable d g -> covers d g ->
  phy_execute sp eps delta false nsa d U g = Ok (ops, alg, tot, g') ->
  exists g1 s, routable d g1 /\ covers d g1 /\ same_but_phases d g g1 /\ q_u s = reduced eps d U /\ q_total s = tot /\ exists ops0, foldr (phy_step sp eps d g1) (visits d) (QS ops0 U 0 0) = Ok s.
Proof.
  intros SP RT CV E. unfold phy_execute, execute in E.
  destruct (flush_ok delta d g phy_level (fun i => Some (AInt (Z.of_nat (lpf g i)))) RT CV) as (ops0 & rec & g1 & EF & R1 & S1 & N1 & _).
  { intros g1 i R1 C1 S1 Hi. unfold phy_level. rewrite (node_attr_ok d g1 R1 _ _ _ (lpf_placed d g1 R1 C1 i Hi)). cbn [bindr].
    rewrite (sb_lpf d g g1 i RT R1 CV S1 Hi). reflexivity. }
  rewrite EF in E. cbn [bindr] in E. apply EmitProofs.bindr_Ok in E. destruct E as (s & Es & E). apply EmitProofs.bindr_Ok in E. destruct E as (o & _ & E).
  apply EmitProofs.bindr_Ok in E. destruct E as (g2 & _ & E). injection E as _ _ <- _.
  assert (C1 := sb_covers d g g1 S1 CV). exists g1, s. split; [exact R1|]. split; [exact C1|]. split; [exact S1|].
  destruct (steps_good d (lpf g1) eps (native g1) (2 * d - 3) (lpf_in d g1 R1 C1) (lpf_inj d g1 R1 C1)
    _ (phy_step_good sp eps d g1 SP R1 C1 N1) (visits d) (QS ops0 U 0 0)) as (s2 & new & X & E2 & U2 & _).
  { intros rc H. destruct (visits_range d rc H) as (A & B & _). auto. }
  assert (s2 = s) by congruence. subst s2. split; [exact U2|]. split; [reflexivity|]. exists ops0. exact Es.
Qed.
Lemma phy_steps_up sp eps d g : forall l s s', finds_shortest sp -> routable d g -> covers d g -> (forall rc, In rc l -> 0 < fst rc < d) ->
  foldr (phy_step sp eps d g) l s = Ok s' -> (q_total s <= q_total s')%R.
Proof.
  induction l as [|(r, c) l IH]; intros s s' SP RT CV Hl E; cbn [foldr] in E; [injection E as <-; lra|].
  apply EmitProofs.bindr_Ok in E. destruct E as (s1 & E1 & E). specialize (IH s1 s' SP RT CV (fun rc H => Hl rc (or_intror H)) E).
  assert (Hr := Hl (r, c) (or_introl eq_refl)). cbn [fst] in Hr. assert (X : (q_total s <= q_total s1)%R); [|lra].
  unfold phy_step in E1. destruct (Rlt_dec eps (Cmod (q_u s r c))); [|injection E1 as <-; lra].
  destruct (qr_rotation_ok d (q_u s) r c Hr) as (q & Eq & _ & Oa & Ob). rewrite Eq in E1. cbn [bindr] in E1.
  apply EmitProofs.bindr_Ok in E1. destruct E1 as (((((est, ps), g1), cpi), gc) & Ec & E1).
  destruct (pred_node d g CV r Hr) as [Na Nb].
  destruct (cost_calculator_min sp d q g _ _ _ _ _ _ SP RT ltac:(rewrite Oa; exact Na) ltac:(rewrite Ob; exact Nb) ltac:(lia) Ec) as (K1 & K2 & _).
  repeat (apply EmitProofs.bindr_Ok in E1; destruct E1 as (? & ? & E1)). injection E1 as <-. cbn [q_total].
  assert (T := theta_cost_nonneg (r_theta q)). unfold r_cost in K2. lra.
Qed.
Lemma phy_total_nonneg sp eps delta nsa d U g ops alg tot g' : finds_shortest sp -> routable d g -> covers d g ->
  phy_execute sp eps delta false nsa d U g = Ok (ops, alg, tot, g') -> (0 <= tot)%R.
Proof.
  intros SP RT CV E. destruct (phy_execute_inv sp eps delta nsa d U g ops alg tot g' SP RT CV E) as (g1 & s & R1 & C1 & _ & _ & <- & ops0 & Es).
  apply (phy_steps_up sp eps d g1) in Es; trivial. intros rc H. destruct (visits_range d rc H) as (A & _). exact A.
Qed.
Lemma phy_execute_usable sp eps delta d U g : finds_shortest sp -> usable d g -> unitary d U -> (0 <= eps)%R -> (0 <= delta)%R ->
  exists ops alg tot g', phy_execute sp eps delta false true d U g = Ok (ops, alg, tot, g') /\ usable d g' /\ same_but_phases d g g'.
Proof.
  intros SP [RT CV OG NP] HU E0 D0. destruct (phy_execute_ok sp eps delta false true d U g SP RT CV HU E0 D0 (or_introl eq_refl))
    as (ops0 & new & alg & tot & g' & E & _ & _ & _ & _ & _ & _ & _ & R' & S' & _ & RS & _).
  eexists _, alg, tot, g'. split; [exact E|]. split; [|exact S']. assert (W := rt_wf d g RT). assert (W' := rt_wf d g' R').
  split; [exact R'|exact (sb_covers d g g' S' CV)|exact (sb_ordered d g g' S' OG)|].
  intros n v x Hv Ev.
  destruct (alook (nd g) n "phase_storage") as [w|] eqn:EW.
  - assert (Hw := proj2 (has_attr_alook g W n "phase_storage" w) EW). specialize (RS eq_refl n w Hw).
    apply (has_attr_alook g' W') in Hv, RS. rewrite Hv in RS. injection RS as ->. cbn in Ev. injection Ev as <-.
    apply turned_0. apply (no_phases_stored d); assumption.
  - exfalso. assert (HP : forall n w, ~ has_attr g n "phase_storage" w).
    { intros m w Hw. assert (Nn : is_node g n) by (apply (sb_node d g g' n S'); eapply has_node; exact Hv).
      destruct (rt_uniform d g RT m n _ _ Hw Nn) as (w' & Hw'). apply (has_attr_alook g W) in Hw'. congruence. }
    clear RS. unfold phy_execute, execute in E.
    assert (HF : has_phases g = Ok false).
    { destruct (has_phases_ok d g RT) as (b & EB & HB). rewrite EB. f_equal. destruct b; [|reflexivity]. destruct (proj1 HB eq_refl) as (m & w & Hw). exfalso. exact (HP m w Hw). }
    unfold flush in E. rewrite HF in E. cbn [bindr] in E. apply EmitProofs.bindr_Ok in E. destruct E as (s & _ & E). apply EmitProofs.bindr_Ok in E. destruct E as (o & _ & E).
    unfold recover in E. cbn [andb negb] in E. rewrite HF in E. cbn [bindr] in E. injection E as _ _ _ EG. subst g'. exact (HP n v Hv).
Qed.

(** With the cost of the QR decomposition as limit the search succeeds on a ladder. *)
Theorem phy_found sp eps tiny near slack delta d U g ops alg tot g' : finds_shortest sp -> usable d g -> ladder d g -> unitary d U -> 0 < d ->
  (0 <= eps)%R -> (0 <= delta)%R -> (0 < slack)%R -> (INR d * eps <= near)%R -> (2 * (INR d * eps * (INR d * eps)) < 1 - near)%R ->
  dust_free eps tiny d (visits d) U ->
  phy_execute sp eps delta false true d U g = Ok (ops, alg, tot, g') ->
  forall fuel ops' best fg, phy_adaptive sp eps tiny near slack delta d false fuel U g' (alg, tot) = Ok (ops', best, fg) -> best <> None.
Proof.
  intros SP US LD HU D1 E0 DL S0 H1 H2 DF E fuel ops' best fg EA EB. subst best.
  destruct (phy_execute_usable sp eps delta d U g SP US HU E0 DL) as (ops1 & alg1 & tot1 & g2 & E' & US' & SB). rewrite E in E'. injection E' as <- <- <- <-.
  destruct (phy_execute_inv sp eps delta true d U g ops alg tot g' SP (us_routable d g US) (us_covers d g US) E) as (g1 & s & R1 & C1 & SB1 & EU & ET & ops0 & Es).
  set (g0 := phase_storing_setup g') in *. assert (FT := setup_fit d g' D1 US'). fold g0 in FT.
  assert (SB0 := setup_same d g' (rt_wf d g' (us_routable d g' US'))). fold g0 in SB0.
  assert (SB10 : same_but_phases d g1 g0) by (eapply sb_trans; [apply sb_sym; exact SB1|eapply sb_trans; [exact SB|exact SB0]]).
  assert (LD0 : ladder d g0).
  { intros r Hr. apply (sb_linked d g g0 _ _ (sb_trans d g g' g0 SB SB0)). apply LD. exact Hr. }
  set (a := root U g0 (alg, tot)).
  destruct (phy_qr_chain sp eps tiny slack d g1 g0 _ SP R1 C1 SB10 FT LD0 S0 (visits d) (QS ops0 U 0 0) s a) as (p & Hp & Up); trivial.
  - intros rc H. destruct (visits_range d rc H) as (A & _ & B). auto.
  - cbn. lra.
  - cbn. rewrite ET. lra.
  - unfold phy_adaptive in EA. fold g0 in EA. apply EmitProofs.bindr_Ok in EA. destruct EA as (((p', best'), fg') & Es' & EA).
    assert (SO := search_ok near _ d fuel U g0 (alg, tot) p' best' fg' Es'). cbv zeta in SO. fold a in SO.
    assert (ND := reduced_near eps near d U HU D1 E0 H1 H2). rewrite <- EU, <- Up in ND.
    destruct best' as [b|].
    + destruct p' as [|x p']; [destruct b as (b1, b2); destruct SO as (CH & _); inversion CH|].
      destruct (near_diagonal near d _); [|discriminate]. apply EmitProofs.bindr_Ok in EA. destruct EA as (z & _ & EA). apply EmitProofs.bindr_Ok in EA. destruct EA as (y & _ & EA). discriminate.
    + destruct SO as (_ & _ & SO). rewrite (SO p Hp) in ND. discriminate.
Qed.

(** *** The pass *)
Lemma code_delta_pi : (0 <= code_delta < PI)%R.
Proof. assert (P := PI2_3_2). unfold code_delta. lra. Qed.

Theorem phy_ada_gate_ok sp gs line d U g : finds_shortest sp -> pyindex gs line = Ok (Some g) -> usable d g -> unitary d U -> 0 < d <= 1000 ->
  exists l g' enough, (forall fuel, enough <= fuel -> phy_ada_gate sp fuel false gs line d U = Ok (l, put_slot gs line (Some g'))) /\
    adapted g g' d U l.
Proof.
  intros SP EG US HU D1. destruct code_pos as [E0 D0]. destruct code_ada_pos as [S0 N0]. destruct (code_small d (proj2 D1)) as (A1 & A2 & A3).
  destruct (phy_execute_usable sp code_eps code_delta d U g SP US HU E0 D0) as (ops & alg & tot & g1 & E & US1 & SB).
  assert (RT := us_routable d g US). assert (CV := us_covers d g US). assert (R1 := us_routable d g1 US1). assert (C1 := us_covers d g1 US1).
  assert (T0 := phy_total_nonneg sp _ _ _ d U g ops alg tot g1 SP RT CV E).
  assert (SC := sb_couplings d g g1 (rt_wf d g RT) (rt_wf d g1 R1) SB).
  assert (LE : forall n, n < d -> lpf g1 n = lpf g n) by (intros n Hn; apply (sb_lpf d g g1 n RT R1 CV SB Hn)).
  destruct (some_nat ((tot + code_slack) / (8 / 100000))%R) as (n & Hn).
  assert (FB : (snd (alg, tot) + code_slack < INR n * (8 / 100000))%R).
  { cbn [snd]. apply (Rmult_lt_compat_r (8 / 100000)) in Hn; [|lra]. replace ((tot + code_slack) / (8 / 100000) * (8 / 100000))%R with (tot + code_slack)%R in Hn by field. exact Hn. }
  destruct (phy_adaptive_ends sp code_eps code_tiny code_near code_slack code_delta d SP S0 code_delta_pi (proj1 D1) n U g1 (alg, tot) HU US1 T0 FB) as (((ops', best), fg) & EA).
  assert (OK := phy_adaptive_ok sp code_eps code_tiny code_near code_slack code_delta d SP S0 N0 code_delta_pi (proj1 D1) n U g1 (alg, tot) ops' best fg HU US1 EA).
  assert (GO : forall fuel, n <= fuel -> phy_ada_gate sp fuel false gs line d U = Ok (map dag_op (rev (map plain ops')), put_slot gs line fg)).
  { intros fuel F. unfold phy_ada_gate, the_graph. rewrite EG. cbn [bindr]. rewrite E. cbn [bindr].
    rewrite (adaptive_more sp code_eps code_tiny code_near code_slack code_delta d n fuel U g1 (alg, tot) _ EA F). reflexivity. }
  exists (map dag_op (rev (map plain ops'))).
  destruct best as [(c, dc)|].
  - destruct OK as (g' & -> & US' & SC' & NA & UO & CL & _ & AC). exists g', n. split; [exact GO|].
    assert (CC : forall V, relocated d g' g U V -> close d (INR d * ada_error code_near code_delta d) (circuit_matrix d (map dag_op (rev (map plain ops')))) V).
    { intros V HV. eapply close_ext; [apply meq_sym, dagger_list|apply meq_refl|].
      apply (relocated_close d _ g g' U V (ops_matrix d ops') RT CV (us_routable d g' US') (us_covers d g' US') UO (ada_error_nonneg _ _ d N0 D0)); [|exact HV].
      eapply close_ext; [|apply meq_refl|exact CL]. apply mmul_ext; [|apply meq_refl]. apply mmul_ext; [apply meq_refl|].
      intros i j Hi Hj. unfold relabel. rewrite LE by exact Hj. reflexivity. }
    split; [exact US'|]. split; [eapply couplings_trans; eassumption|]. split; [|split; [|split; [right; exact CC|intros _ _; exact CC]]].
    + apply Forall_forall. intros o Ho. apply in_map_iff in Ho. destruct Ho as (o' & <- & Ho). apply in_rev in Ho. apply in_map_iff in Ho. destruct Ho as (q & <- & Hq).
      split; [|reflexivity]. rewrite Forall_forall in NA. apply (native_same g g1 _ SC). exact (NA q Hq).
    + intros AA m p. rewrite (AC (fun n m Hn Hm NM => proj2 (sb_linked d g g1 _ _ SB) (AA n m Hn Hm NM)) m p). apply (sb_placed d g g1 m p (rt_wf d g RT) (rt_wf d g1 R1) SB).
  - destruct OK as (-> & -> & _). exists (phase_storing_setup g1), n. split; [exact GO|].
    assert (US2 := setup_usable d g1 US1). assert (SB2 := sb_trans d g g1 _ SB (setup_same d g1 (rt_wf d g1 R1))).
    assert (PL : forall m p, placed (phase_storing_setup g1) m p <-> placed g m p).
    { intros m p. apply (sb_placed d g _ m p (rt_wf d g RT) (rt_wf d _ (us_routable d _ US2)) SB2). }
    split; [exact US2|]. split; [apply (sb_couplings d); [apply (rt_wf d g RT)|apply (rt_wf d _ (us_routable d _ US2))|exact SB2]|]. split; [constructor|]. split; [intros _; exact PL|].
    split.
    + left. split; [reflexivity|exact PL].
    + intros LD DF. exfalso.
      exact (phy_found sp code_eps code_tiny code_near code_slack code_delta d U g ops alg tot g1 SP US LD HU (proj1 D1) E0 D0 S0 A1 A2 DF E n [] None _ EA eq_refl).
Qed.

(** *** Circuits *)
Lemma usable_dim d e g : usable d g -> usable e g -> d = e.
Proof.
  intros A B. assert (X : forall d e, usable d g -> usable e g -> d <= e).
  { clear. intros d e A B. destruct d as [|d]; [lia|]. assert (H := us_covers _ _ A d ltac:(lia)). apply (rt_logical _ _ (us_routable _ _ B)) in H. lia. }
  apply Nat.le_antisymm; apply X; assumption.
Qed.
Lemma slot_of gs i j x o o' : pyindex gs i = Ok o' -> pyindex gs j = Ok o -> pyindex (put_slot gs i x) j = Ok (if (norm_index (List.length gs) i =? norm_index (List.length gs) j)%Z then x else o).
Proof.
  intros Hi Hj. apply pyindex_norm in Hi, Hj. destruct Hi as [Bi Ei], Hj as [Bj Ej].
  assert (PG : put_slot gs i x = firstn (Z.to_nat (norm_index (List.length gs) i)) gs ++ x :: skipn (S (Z.to_nat (norm_index (List.length gs) i))) gs).
  { unfold put_slot, norm_index. rewrite (Z.add_comm i). reflexivity. }
  set (a := norm_index (List.length gs) i) in *. set (b := norm_index (List.length gs) j) in *.
  assert (LN : List.length (put_slot gs i x) = List.length gs).
  { rewrite PG, app_length, firstn_length. cbn [List.length]. rewrite skipn_length. lia. }
  apply pyindex_norm. rewrite LN. fold b. split; [exact Bj|]. rewrite PG.
  assert (LF : List.length (firstn (Z.to_nat a) gs) = Z.to_nat a) by (rewrite firstn_length; lia).
  destruct (Z.eqb_spec a b) as [E|N].
  - rewrite <- E. rewrite nth_error_app2 by lia. rewrite LF, Nat.sub_diag. reflexivity.
  - destruct (Z.lt_ge_cases b a) as [L|L].
    + rewrite nth_error_app1 by lia. rewrite <- Ej. rewrite <- (firstn_skipn (Z.to_nat a) gs) at 2. rewrite nth_error_app1 by lia. reflexivity.
    + rewrite nth_error_app2 by lia. rewrite LF. replace (Z.to_nat b - Z.to_nat a) with (S (Z.to_nat b - S (Z.to_nat a))) by lia. cbn [nth_error].
      rewrite <- Ej. rewrite <- (firstn_skipn (S (Z.to_nat a)) gs) at 2. rewrite nth_error_app2 by (rewrite firstn_length; lia). rewrite firstn_length, Nat.min_l by lia. reflexivity.
Qed.
Lemma slot_same (gs : list (option lgraph)) i j o o' : pyindex gs i = Ok o' -> pyindex gs j = Ok o -> norm_index (List.length gs) i = norm_index (List.length gs) j -> o = o'.
Proof. intros Hi Hj E. apply pyindex_norm in Hi, Hj. destruct Hi as [_ Hi], Hj as [_ Hj]. rewrite E in Hi. congruence. Qed.

Theorem phy_circuit sp c : finds_shortest sp -> forall gs, adaptable gs c ->
  exists out gs' enough, (forall fuel, enough <= fuel -> phy_ada_transpile sp fuel false gs c = Ok (out, gs')) /\ threaded adapted gs c out gs'.
Proof.
  intros SP. induction c as [|[line d U|n] c IH]; intros gs HA.
  - exists [], gs, 0. split; [reflexivity|constructor].
  - destruct (HA line d U (or_introl eq_refl)) as (HU & D1 & g & EG & US).
    destruct (phy_ada_gate_ok sp gs line d U g SP EG US HU D1) as (l & g' & n1 & E1 & AD).
    destruct (IH (put_slot gs line (Some g'))) as (out & gs' & n2 & E2 & T).
    { intros line2 d2 U2 H2. destruct (HA line2 d2 U2 (or_intror H2)) as (HU2 & D2 & g2 & EG2 & US2). split; [exact HU2|]. split; [exact D2|].
      rewrite (slot_of gs line line2 (Some g') _ _ EG EG2). destruct (Z.eqb_spec (norm_index (List.length gs) line) (norm_index (List.length gs) line2)) as [E|N]; [|eauto].
      exists g'. split; [reflexivity|]. assert (X := slot_same gs line line2 _ _ EG EG2 E). injection X as ->.
      rewrite (usable_dim d2 d g US2 US). apply AD. }
    exists (map (OGate line d) l ++ out), gs', (Nat.max n1 n2). split.
    + intros fuel F. cbn [phy_ada_transpile]. rewrite (E1 fuel) by lia. cbn [bindr fst snd]. rewrite (E2 fuel) by lia. reflexivity.
    + eapply th_single; eassumption.
  - destruct (IH gs) as (out & gs' & n0 & E & T); [intros line d U H; apply HA; right; exact H|].
    exists (OOther n :: out), gs', n0. split; [|constructor; exact T]. intros fuel F. cbn [phy_ada_transpile]. rewrite (E fuel F). reflexivity.
Qed.

Lemma all_coupled_same d g g' : usable d g -> same_couplings g g' -> (forall n p, placed g' n p <-> placed g n p) -> all_coupled d g -> all_coupled d g'.
Proof.
  intros US [SC _] PL AC n m Hn Hm NM. destruct (AC n m Hn Hm NM) as (dat & J).
  assert (RT := us_routable d g US). assert (CV := us_covers d g US).
  assert (Pn := lpf_placed d g RT CV n Hn). assert (Pm := lpf_placed d g RT CV m Hm).
  destruct (proj1 (SC _ _ dat) (ex_intro _ _ (ex_intro _ _ (conj J (conj Pn Pm))))) as (a & b & J' & Pa & Pb).
  apply PL in Pa, Pb. rewrite (proj2 (rt_placement d g RT) _ _ _ Pa Pn) in J'. rewrite (proj2 (rt_placement d g RT) _ _ _ Pb Pm) in J'. exists dat. exact J'.
Qed.
Theorem phy_faithful sp c gs : finds_shortest sp -> adaptable gs c ->
  (forall line d U, In (ISingle line d U) c -> dust_free code_eps code_tiny d (visits d) U /\ exists g, pyindex gs line = Ok (Some g) /\ all_coupled d g) ->
  exists out gs' enough, (forall fuel, enough <= fuel -> phy_ada_transpile sp fuel false gs c = Ok (out, gs')) /\ threaded faithful gs c out gs'.
Proof.
  intros SP HA HC. destruct (phy_circuit sp c SP gs HA) as (out & gs' & n & E & T). exists out, gs', n. split; [exact E|]. clear E.
  induction T as [gs|gs m c o gs' T IH|gs line d U l g g' c o gs' EG AD T IH].
  - constructor.
  - constructor. apply IH; [intros line d U H; apply HA; right; exact H|intros line d U H; apply HC; right; exact H].
  - destruct (HA line d U (or_introl eq_refl)) as (HU & D1 & g0 & EG0 & US). rewrite EG in EG0. injection EG0 as <-.
    destruct (HC line d U (or_introl eq_refl)) as (DF & g0 & EG0 & AC). rewrite EG in EG0. injection EG0 as <-.
    destruct AD as (US' & SC & NA & PL & _ & OK). specialize (PL AC).
    assert (LD : ladder d g) by (intros r Hr; apply AC; lia).
    eapply th_single; [exact EG| |].
    + split; [exact PL|]. intros V HV. apply (OK LD DF). intros n1 m1 p q Hn Hm Hp Hq. apply PL in Hq. exact (HV n1 m1 p q Hn Hm Hp Hq).
    + apply IH.
      * intros line2 d2 U2 H2. destruct (HA line2 d2 U2 (or_intror H2)) as (HU2 & D2 & g2 & EG2 & US2). split; [exact HU2|]. split; [exact D2|].
        rewrite (slot_of gs line line2 (Some g') _ _ EG EG2). destruct (Z.eqb_spec (norm_index (List.length gs) line) (norm_index (List.length gs) line2)) as [E|N]; [|eauto].
        exists g'. split; [reflexivity|]. assert (X := slot_same gs line line2 _ _ EG EG2 E). injection X as ->. rewrite (usable_dim d2 d g US2 US). exact US'.
      * intros line2 d2 U2 H2. destruct (HC line2 d2 U2 (or_intror H2)) as (DF2 & g2 & EG2 & AC2). split; [exact DF2|].
        destruct (HA line2 d2 U2 (or_intror H2)) as (_ & _ & g3 & EG3 & US2). rewrite EG2 in EG3. injection EG3 as <-.
        rewrite (slot_of gs line line2 (Some g') _ _ EG EG2). destruct (Z.eqb_spec (norm_index (List.length gs) line) (norm_index (List.length gs) line2)) as [E|N]; [|eauto].
        exists g'. split; [reflexivity|]. assert (X := slot_same gs line line2 _ _ EG EG2 E). injection X as ->. rewrite (usable_dim d2 d g US2 US). apply (all_coupled_same d g g'); assumption.
Qed.
