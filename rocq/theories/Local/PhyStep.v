(** One step of the physical adaptive search. *)
From Coq Require Import Reals Lra Lia List Arith ZArith.
From Verif.Base Require Import Py PyFacts Cplx Matrix Angle.
From Verif.Gates Require Import AnglesModel AnglesProofs SingleModel SingleSpec SingleProofs.
From Verif.Sim Require Import TnSpec.
From Verif.Levels Require Import LevelsModel LevelsSpec GraphProofs LevelsProofs RouteProofs PhaseProofs.
From Verif.Variational Require EmitProofs.
From Verif.Local Require Import QrModel QrSpec QrMath QrCore PulseProofs QrMoved QrEmit QrProofs TreeModel AdaModel AdaSpec SearchProofs AdaProofs AdaFound PhySpec PhyPulse PhyUpdate.
Import ListNotations.
Local Open Scope list_scope.
Local Open Scope nat_scope.

(** What the search keeps true of a graph: it is usable, its nodes are in order, it stores the phases f, all half turns. *)
Record fit (d : nat) (g : lgraph) (f : nat -> R) : Prop := {
  fit_routable : routable d g; fit_covers : covers d g; fit_ordered : ordered g; fit_stores : stores g;
  fit_pending : pending g f; fit_halves : halves d f }.

(** Logical levels to physical ones, with the stored phases. *)
Definition frame (d : nat) (g : lgraph) (f : nat -> R) : mat := mmul d (phases f) (relabel (lpf g)).

Section Place.
  Variables (d : nat) (g : lgraph).
  Hypothesis RT : routable d g.
  Hypothesis CV : covers d g.

  Lemma relabel_moved A B : moved d (lpf g) A B -> meq d (mmul d B (relabel (lpf g))) (mmul d (relabel (lpf g)) A).
  Proof.
    intros H i j Hi Hj. unfold mmul. rewrite (csum_single d _ (lpf g j)); [|apply (lpf_in d g RT CV); exact Hj|].
    2:{ intros k Hk N. unfold relabel. rewrite (proj2 (Nat.eqb_neq k (lpf g j)) N). ring. }
    destruct (image d (lpf g) (lpf_in d g RT CV) (lpf_inj d g RT CV) i Hi) as (n & Hn & <-).
    rewrite (csum_single d _ n Hn).
    - unfold relabel. rewrite !Nat.eqb_refl. rewrite H by assumption. ring.
    - intros k Hk N. unfold relabel. rewrite (proj2 (Nat.eqb_neq (lpf g n) (lpf g k))); [ring|]. intros E. apply N. symmetry. apply (lpf_inj d g RT CV); assumption.
  Qed.
  Lemma relabel_unitary : unitary d (relabel (lpf g)).
  Proof.
    split; intros i j Hi Hj; unfold mmul, madj.
    - rewrite (csum_single d _ (lpf g j)); [|apply (lpf_in d g RT CV); exact Hj|].
      + unfold relabel, mid. rewrite Nat.eqb_refl. destruct (Nat.eqb_spec i j) as [->|N].
        * rewrite Nat.eqb_refl. apply Ceq; cbn; ring.
        * rewrite (proj2 (Nat.eqb_neq (lpf g j) (lpf g i))); [apply Ceq; cbn; ring|]. intros E. apply N. symmetry. apply (lpf_inj d g RT CV); assumption.
      + intros k Hk N. unfold relabel. rewrite (proj2 (Nat.eqb_neq k (lpf g j)) N). ring.
    - destruct (image d (lpf g) (lpf_in d g RT CV) (lpf_inj d g RT CV) j Hj) as (n & Hn & <-).
      rewrite (csum_single d _ n Hn).
      + unfold relabel, mid. rewrite Nat.eqb_refl. destruct (Nat.eqb i (lpf g n)); apply Ceq; cbn; ring.
      + intros k Hk N. unfold relabel. rewrite (proj2 (Nat.eqb_neq (lpf g n) (lpf g k))); [apply Ceq; cbn; ring|]. intros E. apply N. symmetry. apply (lpf_inj d g RT CV); assumption.
  Qed.
  Lemma frame_unitary f : unitary d (frame d g f).
  Proof. apply unitary_mmul; [apply phases_unitary|apply relabel_unitary]. Qed.
  Lemma full l : l < d -> exists n, placed g n (Z.of_nat l).
  Proof.
    intros Hl. destruct (image d (lpf g) (lpf_in d g RT CV) (lpf_inj d g RT CV) l Hl) as (n & Hn & <-). eexists. apply (lpf_placed d g RT CV). exact Hn.
  Qed.
End Place.

Lemma lpf_same d g g' n : routable d g -> routable d g' -> covers d g -> covers d g' -> (forall n q, placed g' n q <-> placed g n q) -> n < d -> lpf g' n = lpf g n.
Proof.
  intros RT RT' CV CV' H Hn. assert (X := lpf_placed d g' RT' CV' n Hn). apply H in X. apply (placed_lpf d g RT CV n) in X; [|exact Hn]. lia.
Qed.
Lemma ordered_keys g g' : map fst (nd g') = map fst (nd g) -> ordered g -> ordered g'.
Proof. unfold ordered. intros E H. assert (L := f_equal (@List.length Z) E). rewrite !map_length in L. rewrite E, H, L. reflexivity. Qed.
Lemma covers_nodes d g g' : (forall n, is_node g n <-> is_node g' n) -> covers d g -> covers d g'.
Proof. intros E H i Hi. apply E. apply H. exact Hi. Qed.

Section Kid.
  Variables (sp : lgraph -> Z -> Z -> res (list Z)) (eps tiny slack : R) (d : nat).
  Hypothesis SP : finds_shortest sp.
  Hypothesis S0 : (0 < slack)%R.
  Notation kid := (phy_kid sp eps tiny slack d).

  Lemma half_pulses_unitary ps : Forall (half d) ps -> unitary d (pulses_matrix d ps).
  Proof.
    induction ps as [|p ps IH] using rev_ind; intros F; [apply unitary_id|].
    rewrite pulses_snoc. apply Forall_app in F. destruct F as [F1 F2]. apply unitary_mmul; [|apply IH; exact F1].
    apply half_unitary. inversion F2; assumption.
  Qed.

  (** After routing and updating, the new frame is the old one carried along. *)
  Lemma frame_routed ps g g' f f' h : routable d g -> covers d g -> routable d g' -> covers d g' ->
    (forall n p q, placed g n p -> placed g' n q -> carries d (pulses_matrix d ps) (Z.to_nat p) (Z.to_nat q)) ->
    (forall x, x < d -> h x < d) ->
    meq d (mmul d (phases f') (relabel h)) (mmul d (pulses_matrix d ps) (phases f)) ->
    meq d (mmul d (pulses_matrix d ps) (frame d g f)) (frame d g' f').
  Proof.
    intros RT CV RT' CV' CA Hh E. unfold frame.
    eapply meq_trans; [apply meq_sym, mmul_assoc|]. eapply meq_trans; [apply mmul_ext; [apply meq_sym; exact E|apply meq_refl]|].
    eapply meq_trans; [apply mmul_assoc|]. apply mmul_ext; [apply meq_refl|].
    eapply meq_trans; [apply relabel_mul; apply (lpf_in d g RT CV)|].
    intros i j Hi Hj. unfold relabel. assert (X : h (lpf g j) = lpf g' j); [|rewrite X; reflexivity].
    assert (Bp := lpf_in d g RT CV j Hj). set (p := lpf g j) in *. assert (Bq := lpf_in d g' RT' CV' j Hj). set (q := lpf g' j) in *.
    destruct (CA _ _ _ (lpf_placed d g RT CV j Hj) (lpf_placed d g' RT' CV' j Hj)) as (c & Hc & MK). rewrite !Nat2Z.id in MK. fold p q in MK.
    destruct (Nat.eq_dec (h p) q) as [->|N]; [reflexivity|]. exfalso.
    specialize (E (h p) p (Hh p Bp) Bp). unfold phases at 1 in E; rewrite mdiag_mul_l in E by (auto; apply Hh; exact Bp).
    unfold relabel in E. rewrite Nat.eqb_refl in E.
    assert (MR : mmul d (pulses_matrix d ps) (phases f) (h p) p = Cmul (pulses_matrix d ps (h p) p) (cis (- f p))).
    { unfold mmul. rewrite (csum_single d _ p Bp).
      - unfold phases, mdiag. rewrite Nat.eqb_refl. reflexivity.
      - intros k Hk Nk. unfold phases, mdiag. rewrite (proj2 (Nat.eqb_neq k p) Nk). ring. }
    rewrite MR in E. specialize (MK (h p) (Hh p Bp)). rewrite mapply_ket in MK by exact Bp. rewrite MK in E. unfold ket in E. cbn beta in E.
    rewrite (proj2 (Nat.eqb_neq (h p) q) N) in E.
    assert (Q := Cnorm2_cis (- f' (h p))). replace (cis (- f' (h p))) with C0 in Q; [cbn in Q; unfold Cnorm2 in Q; cbn in Q; lra|].
    transitivity (Cmul (cis (- f' (h p))) C1); [|ring]. rewrite E. ring.
  Qed.

  Lemma kid_unwanted a c r r2 : wanted eps tiny (s_u a) c r r2 = false -> kid a (c, r, r2) = Ok None.
  Proof. intros W. unfold phy_kid. rewrite W. reflexivity. Qed.

  Lemma kid_ok a g f c r r2 : s_graph a = Some g -> fit d g f -> r < r2 < d -> wanted eps tiny (s_u a) c r r2 = true ->
    let th := regulate_theta (ada_theta (s_u a) c r r2) in
    exists cpi gc ps q2 g2 f2 est,
      kid a (c, r, r2) = Ok (if affordable slack (snd (s_max a)) (cpi + gc + s_dcost a)%R
        then Some (SN (Some q2) (mmul d (swing d (s_u a) c r r2) (s_u a)) (Some g2) (est + s_cost a)%R (cpi + gc + s_dcost a)%R (s_max a) ps) else None) /\
      (0 <= cpi)%R /\ (theta_cost th <= gc)%R /\
      fit d g2 f2 /\ same_couplings g g2 /\ Forall (native g) (map OR ps ++ [OR q2]) /\
      unitary d (ops_matrix d (map OR ps ++ [OR q2])) /\
      meq d (mmul d (ops_matrix d (map OR ps ++ [OR q2])) (frame d g f)) (mmul d (frame d g2 f2) (swing d (s_u a) c r r2)) /\
      (linked g (Z.of_nat r) (Z.of_nat r2) -> ps = [] /\ g2 = g /\ cpi = 0%R /\
         rotation_cost_calc sp (log_rot (s_u a) c r r2) g = Ok gc) /\
      lpf g2 r = lpf g r /\ (exists dat, coupled g (Z.of_nat (lpf g2 r)) (Z.of_nat (lpf g2 r2)) dat) /\
      (exists z g', cost_calculator sp d (log_rot (s_u a) c r r2) g (count_nonzero d (mmul d (swing d (s_u a) c r r2) (s_u a))) = Ok (z, ps, g', cpi, gc)).
  Proof.
    intros Eg [RT CV OG ST PF HF] Hr W th. unfold phy_kid. rewrite W. rewrite new_R_ok by lia. cbn [bindr]. rewrite Eg. cbn [bindr].
    rewrite Z.min_l, Z.max_r, !Nat2Z.id by lia. fold (log_rot (s_u a) c r r2). set (q := log_rot (s_u a) c r r2).
    assert (Na : is_node g (orig_a q)) by (apply CV; lia). assert (Nb : is_node g (orig_b q)) by (apply CV; lia).
    assert (Nab : orig_a q <> orig_b q) by (cbn; lia).
    change (op_matrix d (OR q)) with (swing d (s_u a) c r r2).
    destruct (cost_calculator_ok sp d g SP RT q (count_nonzero d (mmul d (swing d (s_u a) c r r2) (s_u a))) Na Nb Nab) as (cc & ps & g' & gc & ER & RT' & EC).
    destruct (cost_calculator_min sp d q g _ _ _ _ _ _ SP RT Na Nb Nab EC) as (C1 & C2 & _ & EG & _).
    rewrite EC. cbn [bindr].
    destruct (route_ok sp d q g SP RT Na Nb Nab) as (c1 & ps1 & g1 & E1 & LEG & LK & SC & ND & _ & CA & MIN).
    rewrite ER in E1. injection E1 as <- <- <-.
    assert (CV' := covers_nodes d g g' ND CV).
    assert (Pa := lpf_placed d g RT CV r ltac:(lia)). assert (Pb := lpf_placed d g RT CV r2 ltac:(lia)).
    destruct (route_framed sp d q g f SP RT PF Na Nb Nab _ _ _ _ _ ER Pa Pb) as (us & y & sg & Py & Px & CH & S1 & AP & Rx & Ry & GU & FR & PF' & KEYS & ST').
    specialize (ST' ST). cbn [orig_a orig_b q log_rot] in *. set (x := Z.of_nat (lpf g r)) in *.
    assert (HP : Forall (half d) ps).
    { clear - FR GU HF. induction FR as [|p u ps us F FR IH]; [constructor|]. inversion GU; subst. constructor; [eapply framed_half; eassumption|apply IH; assumption]. }
    assert (OG' := ordered_keys g g' KEYS OG).
    destruct (update_all d ps g' f HP RT' CV' OG' ST' PF' HF (full d g' RT' CV')) as (back & g2 & f2 & h & Eb & E2 & RT2 & K2 & A2 & P2 & PF2 & HF2 & ST2 & Hh & EH).
    assert (N2 : forall n, is_node g' n <-> is_node g2 n) by (intros n; unfold is_node; rewrite K2; reflexivity).
    assert (CV2 := covers_nodes d g' g2 N2 CV').
    assert (Bx := rt_physical d g' RT' _ _ Px). assert (By := rt_physical d g' RT' _ _ Py).
    assert (XY : x <> y). { intros E. rewrite E in Px. assert (Z := proj2 (rt_placement d g' RT') _ _ _ Px Py). lia. }
    set (ph := ada_phi (s_u a) c r r2) in *.
    set (p0 := Rot (Z.to_nat (Z.min x y)) (Z.to_nat (Z.max x y)) (regulate_theta (ada_theta (s_u a) c r r2)) (if (y <? x)%Z then (ph * -1)%R else ph) x y).
    assert (E0 : new_R d x y (ada_theta (s_u a) c r r2) (if (y <? x)%Z then (ph * -1)%R else ph) = Ok p0) by (apply new_R_ok; assumption).
    assert (O0 : isr p0 (lo x y) (hi x y) (regulate_theta (ada_theta (s_u a) c r r2)) (if (y <? x)%Z then (ph * -1)%R else ph)) by (repeat split).
    destruct (chain_value d ps x y sg p0 _ _ Bx By XY CH AP O0) as (p1 & Ep1 & (V1 & V2 & V3 & V4)).
    assert (LH := lo_hi d x y Bx By XY).
    destruct (ongate_phases d p1 g' f RT') as (q2 & Eq2 & L1 & L2 & MO); [rewrite V1, V2; lia|exact PF'|].
    exists cc, gc, ps, q2, g2, f2, ((gc + cc) * IZR (count_nonzero d (mmul d (swing d (s_u a) c r r2) (s_u a))))%R.
    assert (CPL : exists dat, coupled g x y dat).
    { destruct LK as (dat & J). exists dat. apply SC. exists (Z.of_nat r), (Z.of_nat r2). auto. }
    assert (UPS := half_pulses_unitary ps HP).
    assert (FRM := frame_routed ps g g2 f f2 h RT CV RT2 CV2).
    split; [|split; [exact C1|split; [exact C2|split; [|split; [|split; [|split; [|split; [|split; [|split; [|split]]]]]]]]]].
    - destruct (affordable slack (snd (s_max a)) (cc + gc + s_dcost a)) eqn:AF; [|reflexivity].
      rewrite (node_attr_ok d g' RT' _ _ _ Px), (node_attr_ok d g' RT' _ _ _ Py). cbn [bindr as_int].
      rewrite E0. cbn [bindr]. rewrite Ep1. cbn [bindr]. rewrite Eq2. cbn [bindr]. rewrite Eb. cbn [bindr]. rewrite E2. cbn [bindr]. reflexivity.
    - split; trivial. apply (ordered_keys g'); [exact K2|exact OG'].
    - destruct SC as [SC1 SC2]. split.
      + intros p p' dat. rewrite SC1. unfold coupled, joined. rewrite A2. setoid_rewrite P2. reflexivity.
      + intros p. rewrite SC2. setoid_rewrite P2. reflexivity.
    - apply Forall_app. split; [|constructor; [|constructor]].
      + apply Forall_forall. intros o H. apply in_map_iff in H. destruct H as (p & <- & H). rewrite Forall_forall in LEG. destruct (LEG p H) as [C _]. exact C.
      + cbn [native]. rewrite L1, L2, V1, V2. destruct CPL as (dat & C). unfold lo, hi. destruct (Z.ltb_spec x y).
        * rewrite Z.min_l, Z.max_r, !Z2Nat.id by lia. exists dat. exact C.
        * rewrite Z.min_r, Z.max_l, !Z2Nat.id by lia. exists dat. apply (coupled_sym d g RT). exact C.
    - eapply unitary_ext; [apply meq_sym, ops_app|]. rewrite ops_pulses. apply unitary_mmul; [|exact UPS].
      eapply unitary_ext; [apply meq_sym, ops_one|]. cbn [op_matrix]. eapply unitary_ext; [apply meq_sym, r_array_rotation; rewrite ?L1, ?L2, ?V1, ?V2; lia|].
      apply rotation_unitary; rewrite ?L1, ?L2, ?V1, ?V2; lia.
    - assert (FRM' : meq d (mmul d (pulses_matrix d ps) (frame d g f)) (frame d g2 f2)).
      { apply FRM; [|exact Hh|exact EH]. intros n p p' Hp Hp'. apply (CA n); [exact Hp|apply P2; exact Hp']. }
      assert (MP : meq d (op_matrix d (OR p1)) (rotation (Z.to_nat x) (Z.to_nat y) (sg * ada_theta (s_u a) c r r2) ph)).
      { cbn [op_matrix]. rewrite V1, V2, V3, V4. fold th.
        eapply meq_trans; [apply r_array_rotation; lia|].
        assert (TH : meq d (rotation (lo x y) (hi x y) (match ps with [] => th | _ :: _ => regulate_theta (th * sg) end) (if (y <? x)%Z then (ph * -1)%R else ph))
                 (rotation (lo x y) (hi x y) (sg * ada_theta (s_u a) c r r2) (if (y <? x)%Z then (ph * -1)%R else ph))).
        { unfold th. destruct ps as [|p0' ps'].
          - destruct CH as [_|? ? L]; [|discriminate L]. rewrite Rmult_1_l. apply rotation_regulated.
          - eapply meq_trans; [apply rotation_regulated|]. destruct S1 as [->| ->].
            + rewrite Rmult_1_r, Rmult_1_l. apply rotation_regulated.
            + set (t0 := ada_theta (s_u a) c r r2). replace (regulate_theta t0 * -1)%R with (- regulate_theta t0)%R by ring. replace (-1 * t0)%R with (- t0)%R by ring.
              apply rotation_theta_period. destruct (regulate_theta_spec t0) as ((k & Hk) & _). exists (- k)%Z. rewrite Hk, opp_IZR. ring. }
        eapply meq_trans; [exact TH|]. unfold lo, hi. destruct (Z.ltb_spec y x).
        - rewrite Z.min_r, Z.max_l by lia. replace (ph * -1)%R with (- ph)%R by ring. apply meq_sym, rotation_swap. lia.
        - rewrite Z.min_l, Z.max_r by lia. apply meq_refl. }
      assert (CJ : meq d (mmul d (madj (pulses_matrix d us)) (mmul d (op_matrix d (OR p1)) (pulses_matrix d us)))
                     (rotation (lpf g r) (lpf g r2) (ada_theta (s_u a) c r r2) ph)).
      { eapply meq_trans; [apply mmul_ext; [apply meq_refl|apply mmul_ext; [exact MP|apply meq_refl]]|].
        replace (lpf g r) with (Z.to_nat x) by (unfold x; apply Nat2Z.id). rewrite Nat2Z.id in Ry.
        apply conjugated; trivial; try lia.
        - apply pulses_unitary. exact GU.
        - apply (lpf_in d g RT CV). lia.
        - unfold x. rewrite Nat2Z.id. intros E. apply (lpf_inj d g RT CV) in E; lia. }
      set (V := rotation (lpf g r) (lpf g r2) (ada_theta (s_u a) c r r2) ph) in *.
      set (Pu := pulses_matrix d us) in *. set (Pp := pulses_matrix d ps) in *. set (Q1 := op_matrix d (OR p1)) in *. set (Q2 := op_matrix d (OR q2)) in *.
      assert (UU : unitary d Pu) by (apply pulses_unitary; exact GU).
      assert (CJ' : meq d (mmul d Q1 Pu) (mmul d Pu V)).
      { eapply meq_trans; [|apply mmul_ext; [apply meq_refl|exact CJ]]. eapply meq_trans; [|apply mmul_assoc].
        eapply meq_trans; [apply meq_sym, mmul_id_l|]. apply mmul_ext; [apply meq_sym; apply UU|apply meq_refl]. }
      assert (MV : meq d (mmul d V (relabel (lpf g))) (mmul d (relabel (lpf g)) (swing d (s_u a) c r r2))).
      { apply (relabel_moved d g RT CV). eapply (moved_ext d (lpf g) (lpf_in d g RT CV)); [apply meq_sym, swing_rotation; lia|apply meq_refl|].
        apply (moved_rotation d (lpf g) (lpf_inj d g RT CV)); lia. }
      assert (FP := framed_phases d f ps us FR GU). fold Pp Pu in FP.
      assert (MO' : meq d (mmul d (phases f) Q2) (mmul d Q1 (phases f))) by exact MO.
      assert (PI := phases_involution d f HF). set (F := phases f) in *. set (Rl := relabel (lpf g)) in *. set (SW := swing d (s_u a) c r r2) in *.
      (* F * (Q2 Pp F Rl) = F * (F2 ... SW) *)
      eapply meq_trans; [apply mmul_ext; [apply ops_app|apply meq_refl]|]. rewrite ops_pulses. fold Pp.
      eapply meq_trans; [apply mmul_ext; [apply mmul_ext; [apply ops_one|apply meq_refl]|apply meq_refl]|]. fold Q2.
      assert (G : meq d (mmul d F (mmul d (mmul d Q2 Pp) (frame d g f))) (mmul d F (mmul d (frame d g2 f2) SW))).
      { assert (X1 : meq d (mmul d F (mmul d Q2 Pp)) (mmul d (mmul d Q1 Pu) F)).
        { eapply meq_trans; [apply meq_sym, mmul_assoc|]. eapply meq_trans; [apply mmul_ext; [exact MO'|apply meq_refl]|].
          eapply meq_trans; [apply mmul_assoc|]. eapply meq_trans; [apply mmul_ext; [apply meq_refl|exact FP]|]. apply meq_sym, mmul_assoc. }
        assert (X2 : meq d (mmul d F (frame d g f)) Rl).
        { unfold frame. eapply meq_trans; [apply meq_sym, mmul_assoc|]. eapply meq_trans; [apply mmul_ext; [exact PI|apply meq_refl]|]. apply mmul_id_l. }
        eapply meq_trans; [apply meq_sym, mmul_assoc|]. eapply meq_trans; [apply mmul_ext; [exact X1|apply meq_refl]|].
        eapply meq_trans; [apply mmul_assoc|]. eapply meq_trans; [apply mmul_ext; [exact CJ'|exact X2]|].
        eapply meq_trans; [apply mmul_assoc|]. eapply meq_trans; [apply mmul_ext; [apply meq_refl|exact MV]|].
        eapply meq_trans; [|apply mmul_ext; [apply meq_refl|apply mmul_ext; [exact FRM'|apply meq_refl]]].
        eapply meq_trans; [|apply mmul_assoc].
        eapply meq_trans; [apply meq_sym, mmul_assoc|]. apply mmul_ext; [|apply meq_refl].
        eapply meq_trans; [|apply mmul_assoc].
        eapply meq_trans; [|apply mmul_ext; [apply meq_sym; exact FP|apply meq_refl]].
        eapply meq_trans; [|apply meq_sym, mmul_assoc]. apply mmul_ext; [apply meq_refl|]. apply meq_sym. exact X2. }
      eapply meq_trans; [apply meq_sym, mmul_id_l|]. eapply meq_trans; [apply mmul_ext; [apply meq_sym; exact PI|apply meq_refl]|].
      eapply meq_trans; [apply mmul_assoc|]. eapply meq_trans; [apply mmul_ext; [apply meq_refl|exact G]|].
      eapply meq_trans; [apply meq_sym, mmul_assoc|]. eapply meq_trans; [apply mmul_ext; [exact PI|apply meq_refl]|]. apply mmul_id_l.
    - intros LKD. unfold route_states2rotate_basic in ER. cbn [orig_a orig_b q log_rot] in ER.
      destruct (SP g _ _ (rt_wf d g RT) (rt_connected d g RT) Na Nb) as (w & Ew & Sh). cbn [orig_a orig_b q log_rot] in Ew, Sh. rewrite Ew in ER. cbn [bindr] in ER.
      assert (WL : List.length w <= 2).
      { apply (proj2 Sh [Z.of_nat r; Z.of_nat r2]). apply walk_cons with (Z.of_nat r2); [exact LKD|constructor]. }
      replace (List.length w - 2) with 0 in ER by lia. cbn [route_loop] in ER. injection ER as <- <- <-.
      cbn [mapr] in Eb. injection Eb as <-. cbn [foldr] in E2. injection E2 as <-. auto.
    - assert (Y := proj2 (P2 _ _) Px). apply (placed_lpf d g2 RT2 CV2 r) in Y; [|lia]. unfold x in Y. lia.
    - assert (Y := proj2 (P2 _ _) Px). apply (placed_lpf d g2 RT2 CV2 r) in Y; [|lia]. assert (Y' := proj2 (P2 _ _) Py). apply (placed_lpf d g2 RT2 CV2 r2) in Y'; [|lia].
      rewrite <- Y, <- Y'. exact CPL.
    - eauto.
  Qed.
End Kid.
