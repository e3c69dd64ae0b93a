(** Compilation from end to end (C93). *)
From Coq Require Import Reals List Arith ZArith Lia Lra Sorted Permutation.
From Verif.Base Require Import Py PyFacts Cplx Matrix Radix Fiber Angle.
From Verif.Circuit Require Import CircuitModel GateModel.
From Verif.Gates Require Import SingleModel TwoModel TwoSpec TwoProofs FactoryModel FactorySpec ActsOn.
From Verif.Sim Require Import TnModel TnSpec TnProofs.
From Verif.Levels Require Import LevelsModel LevelsSpec GraphProofs LevelsProofs RouteProofs.
From Verif.Local Require Import QrModel QrSpec QrMath QrCore QrMoved QrEmit QrProofs QrPhysical QrPasses.
From Verif.State Require Import Drop.
From Verif.Ent Require Import BlockModel BlockSpec PassModel PassSpec CircuitSpec PairMath CrotProofs PermProofs ExecProofs EmitProofs PassProofs CircuitProofs.
From Verif.Compiler Require Import DispatchModel DispatchSpec DispatchProofs WholeModel WholeSpec WholeNorm WholeOps.
Import ListNotations.
Local Open Scope nat_scope.

Lemma phase_unitary n g A : unitary n A -> unitary n (with_phase g A).
Proof.
  assert (E : forall X Y, meq n (mmul n (madj (with_phase g X)) (with_phase g Y)) (mmul n (madj X) Y) /\ meq n (mmul n (with_phase g X) (madj (with_phase g Y))) (mmul n X (madj Y))).
  { intros X Y. assert (P : Cmul (Cconj (cis g)) (cis g) = C1).
    { replace (Cmul (Cconj (cis g)) (cis g)) with (Cmul (cis g) (Cconj (cis g))) by ring. rewrite Cmul_conj, Cnorm2_cis. apply RtoC_1. }
    split; intros i j _ _; unfold mmul, madj, with_phase; apply csum_ext; intros k _; rewrite Cconj_mul.
    - transitivity (Cmul (Cmul (Cconj (cis g)) (cis g)) (Cmul (Cconj (X k i)) (Y k j))); [ring|]. rewrite P. ring.
    - transitivity (Cmul (Cmul (Cconj (cis g)) (cis g)) (Cmul (X i k) (Cconj (Y j k)))); [ring|]. rewrite P. ring. }
  intros [U1 U2]. destruct (E A A) as [E1 E2]. split; [eapply meq_trans; [exact E1|exact U1]|eapply meq_trans; [exact E2|exact U2]].
Qed.
Lemma phase_mul n a b A B : meq n (mmul n (with_phase a A) (with_phase b B)) (with_phase (a + b) (mmul n A B)).
Proof. intros i j _ _. unfold mmul, with_phase. rewrite <- csum_mul_l. apply csum_ext. intros k _. rewrite cis_add. ring. Qed.
Lemma phase_0 n A : meq n (with_phase 0 A) A.
Proof. intros i j _ _. unfold with_phase. rewrite cis_0. ring. Qed.

Section Whole.
  Variables (sp : lgraph -> Z -> Z -> res (list Z)).
  Variables (round6 : R -> R) (det : nat -> (nat -> nat -> R) -> R) (solve : nat -> (nat -> nat -> R) -> (nat -> R) -> res (list R)).
  Variable fuel : nat.
  Hypothesis SP : finds_shortest sp.
  Hypothesis HD : exact_det det.
  Hypothesis HS : exact_solve det solve.
  Hypothesis HR : rounds6 round6.
  Variables (dims : list nat) (p : nat -> nat -> nat).
  Notation N := (prodl dims).
  Notation thep := (the_pass sp round6 det solve fuel).
  Definition fine : Prop := (forall i n, i < List.length dims -> n < nth i dims 0 -> p i n < nth i dims 0) /\
    (forall i n m, i < List.length dims -> n < nth i dims 0 -> m < nth i dims 0 -> p i n = p i m -> n = m).
  Lemma device_fine gs : device dims gs p -> fine.
  Proof.
    intros D. split; [intros i n Hi Hn|intros i n m Hi Hn Hm E]; destruct (D i Hi) as (g & _ & L & _).
    - apply (laid_lt _ g (p i) n L Hn).
    - apply (laid_inj _ g (p i) n m L Hn Hm E).
  Qed.
  Hypothesis F : fine.
  Notation Lin := (proj1 F).
  Notation Inj := (proj2 F).
  Notation rg := (reg dims p).

  Definition done (e : R) (old new : list (gate mat)) : Prop :=
    exists A B A' gamma, opof dims old A /\ moved N rg A B /\ unitary N A /\ opof dims new A' /\ unitary N A' /\ approx N e A' (with_phase gamma B).
  Lemma done_nil : done 0 [] [].
  Proof.
    exists mid, mid, mid, 0%R. split; [apply op_nil|]. split; [apply moved_id; [intros a b; apply (reg_inj dims p Lin Inj)]|]. split; [apply unitary_id|]. split; [apply op_nil|]. split; [apply unitary_id|].
    apply approx_0. apply meq_sym, phase_0.
  Qed.
  Lemma done_app e1 e2 o1 o2 n1 n2 : done e1 o1 n1 -> done e2 o2 n2 -> done (e1 + e2) (o1 ++ o2) (n1 ++ n2).
  Proof.
    intros (A1 & B1 & A1' & g1 & O1 & M1 & U1 & N1 & V1 & X1) (A2 & B2 & A2' & g2 & O2 & M2 & U2 & N2 & V2 & X2).
    assert (UB : unitary N B1) by (apply (moved_unitary N rg (reg_lt dims p Lin) (reg_inj dims p Lin Inj) A1); assumption).
    exists (mmul N A2 A1), (mmul N B2 B1), (mmul N A2' A1'), (g2 + g1)%R. split; [apply op_app; assumption|].
    split; [apply moved_mul; try assumption; [apply (reg_lt dims p Lin)|apply (reg_inj dims p Lin Inj)]|]. split; [apply unitary_mmul; assumption|]. split; [apply op_app; assumption|].
    split; [apply unitary_mmul; assumption|]. rewrite Rplus_comm. eapply approx_ext; [apply meq_refl|apply phase_mul|].
    apply approx_mul; trivial. apply phase_unitary. exact UB.
  Qed.

  Lemma device_put gs q g' : device dims gs p -> q < List.length dims -> laid_out (nth q dims 0) g' (p q) -> no_phases g' ->
    device dims (put_graph gs (Z.of_nat q) g') p.
  Proof.
    intros D Hq L NP i Hi. destruct (D q Hq) as (g0 & G0 & _). destruct (D i Hi) as (g & G & L1 & N1). rewrite (nth_put gs q i g' g0 G0).
    destruct (Nat.eqb_spec q i) as [->|]; eauto.
  Qed.
  Lemma single_ok gs q U : device dims gs p -> q < List.length dims -> unitary (nth q dims 0) U ->
    exists l gs', phy_transpile_gate sp gs (Z.of_nat q) (nth q dims 0) U = Ok (l, gs') /\ device dims gs' p /\
      done (INR (nth q dims 0) * code_error (nth q dims 0)) [on_one q false U] (map (fun o => as_gate (CRot q (nth q dims 0) o)) l).
  Proof.
    intros D Hq HU. set (d := nth q dims 0) in *. destruct (D q Hq) as (g & G & L & NP). fold d in L. assert (RT := lo_routable _ _ _ L). assert (CV := laid_covers _ _ _ L).
    destruct code_pos as [E0 D0].
    destruct (phy_execute_ok sp code_eps code_delta false false d U g SP RT CV HU E0 D0 (or_introl eq_refl))
      as (ops0 & new & alg & tot & g' & E & T & C & Z2 & Z0 & L0 & NT & L1 & R' & S' & _ & _ & Z5).
    assert (X0 := Z0 NP). subst ops0. cbn [app] in *.
    exists (map dag_op (rev (map plain new))), (put_graph gs (Z.of_nat q) g'). split; [|split].
    - unfold phy_transpile_gate. rewrite (proj1 (nth_pyindex _ _ _) G). cbn [bindr]. rewrite E. reflexivity.
    - apply device_put; trivial; [|apply Z5; reflexivity]. apply (laid_same d g g' (p q) L R' S'). intros n x. apply (sb_placed d g g' n x (rt_wf d g RT) (rt_wf d g' R') S').
    - set (V := fun a b => U (unlp d (p q) a) (unlp d (p q) b)).
      assert (IJ : forall n m, n < d -> m < d -> p q n = p q m -> n = m) by (intros n m; apply (Inj q n m Hq)).
      assert (OD : on_device d g U V).
      { intros n m a b Hn Hm Pa Pb. assert (FN : forall n a, n < d -> placed g (Z.of_nat n) (Z.of_nat a) -> a = p q n).
        { intros k a' Hk Pk. assert (Y := lo_placed d g (p q) L k Hk). unfold placed in Y, Pk. apply (has_attr_alook g (rt_wf d g RT)) in Y, Pk. rewrite Y in Pk. injection Pk as X. lia. }
        rewrite (FN n a Hn Pa), (FN m b Hm Pb). unfold V. rewrite !(unlp_lp d (p q) IJ) by assumption. reflexivity. }
      assert (Q : (0 <= qr_error code_eps code_delta d)%R) by (apply qr_error_nonneg; assumption).
      set (l := map dag_op (rev (map plain new))).
      assert (CL : close d (code_error d) (circuit_matrix d l) V).
      { eapply close_ext; [apply meq_sym, dagger_list|apply meq_refl|]. apply close_inverse; [exact T|exact Q|apply C; exact OD]. }
      assert (UL : unitary d (circuit_matrix d l)) by (eapply unitary_ext; [apply meq_sym, dagger_list|apply unitary_adj; exact T]).
      assert (LO := lines_one dims q Hq). assert (SZ := one_size dims q). fold d in SZ.
      exists (emb dims [q] U), (emb dims [q] V), (emb dims [q] (circuit_matrix d l)), 0%R. split; [apply (op_on_one dims q false U Hq)|]. split; [|split; [|split; [|split]]].
      + apply (moved_emb dims p Lin Inj); [exact LO|]. intros r c Hr Hc. rewrite !one_index, !(reg_digit dims p Lin) by assumption. unfold V.
        rewrite !(unlp_lp d (p q) IJ) by (apply digit_lt; assumption). reflexivity.
      + apply emb_unitary; [exact LO|]. rewrite SZ. exact HU.
      + assert (EC : chain (prodl (sub_dims dims [q])) (map (gate_matrix d) l) = circuit_matrix d l) by (rewrite SZ; unfold chain, circuit_matrix; symmetry; apply fold_chain).
        rewrite <- EC. apply op_list; [exact LO|]. clear - Hq. induction l as [|o l IH]; cbn [map]; constructor; [|exact IH].
        destruct o as [o dag]. cbn [as_gate]. apply (op_on_one dims q dag (op_matrix d o) Hq).
      + apply emb_unitary; [exact LO|]. rewrite SZ. exact UL.
      + eapply approx_ext; [apply meq_refl|apply meq_sym, phase_0|]. rewrite <- SZ at 1. apply emb_approx; [exact LO| |rewrite SZ; exact CL].
        unfold code_error. apply Rmult_le_pos; [apply pos_INR|exact Q].
  Qed.

  Lemma cex_ok gs q0 q1 x : device dims gs p -> q0 < List.length dims -> q1 < List.length dims -> q0 <> q1 -> cex_fits (nth q0 dims 0) (nth q1 dims 0) x ->
    (p q1 (cx_a x) < p q1 (cx_b x) \/ sin (cx_phi x) = 0%R) ->
    exists y, phy_ent_gate sp round6 det solve gs (Two q0 q1 (nth q0 dims 0) (nth q1 dims 0) (TCex x false)) = Ok ([ENewCex q0 q1 y], gs) /\
      done 0 [as_gate (CUser2 (Two q0 q1 (nth q0 dims 0) (nth q1 dims 0) (TCex x false)))] [as_gate (CCex q0 q1 (nth q0 dims 0) (nth q1 dims 0) y)].
  Proof.
    intros D H0 H1 Dq Fx Hp. set (dc := nth q0 dims 0) in *. set (dt := nth q1 dims 0) in *.
    destruct (D q0 H0) as (g0 & G0 & L0 & _). destruct (D q1 H1) as (g1 & G1 & L1 & _).
    destruct (phy_cex_ok sp round6 det solve gs q0 q1 dc dt g0 g1 (p q0) (p q1) (proj1 (nth_pyindex _ _ _) G0) (proj1 (nth_pyindex _ _ _) G1) L0 L1 x false Fx)
      as (y & M & M' & E & Fy & EM & EM' & RL & _).
    exists y. split; [exact E|]. apply proj2 in RL. specialize (RL Hp).
    assert (LO := lines_pair dims q0 q1 H0 H1 Dq). assert (SZ := pair_size dims q0 q1). fold dc dt in SZ.
    assert (UM : unitary (dc * dt) M) by (apply (cex_unitary dc dt (q0 <? q1) x); [destruct Fx; lia|apply Fx|exact EM]).
    assert (UM' : unitary (dc * dt) M') by (apply (cex_unitary dc dt (q0 <? q1) y); [destruct Fy; lia|apply Fy|exact EM']).
    exists (emb dims (pair_of q0 q1) M), (emb dims (pair_of q0 q1) M'), (emb dims (pair_of q0 q1) M'), 0%R. cbn [as_gate]. rewrite EM, EM'. cbn [the].
    split; [apply (op_on_two dims q0 q1 false M H0 H1 Dq)|]. split; [|split; [|split; [|split]]].
    - apply (moved_emb dims p Lin Inj); [exact LO|]. intros r c Hr Hc. rewrite !pair_sub, !(reg_digit dims p Lin) by assumption. fold dc dt. apply RL; apply digit_lt; assumption.
    - apply emb_unitary; [exact LO|]. rewrite SZ. exact UM.
    - apply (op_on_two dims q0 q1 false M' H0 H1 Dq).
    - apply emb_unitary; [exact LO|]. rewrite SZ. exact UM'.
    - apply approx_0. apply meq_sym, phase_0.
  Qed.

  Lemma qubits_ok gs q0 q1 U : device dims gs p -> q0 < List.length dims -> q1 < List.length dims -> q0 < q1 -> nth q0 dims 0 = 2 -> nth q1 dims 0 = 2 -> unitary 4 U ->
    at_home dims p q0 -> at_home dims p q1 ->
    exists l gs', phy_ent_gate sp round6 det solve gs (Two q0 q1 2 2 (TMat U)) = Ok (map (EGate q0 q1) l, gs') /\ device dims gs' p /\
      (forall i g, i < List.length dims -> nth_error gs i = Some g -> exists h, nth_error gs' i = Some h /\ forall u v, linked g u v -> linked h u v) /\
      done (4 * (4 * ent_error code_eps code_delta 4)) [on_two q0 q1 false U] (map (fun e => as_gate (CBlock q0 q1 2 2 e)) l).
  Proof.
    intros D H0 H1 Lt D0 D1 HU A0 A1. assert (Dq : q0 <> q1) by lia.
    assert (OL : on_lines gs (Two q0 q1 2 2 (TMat U)) (p q0) (p q1)).
    { destruct (D q0 H0) as (g0 & G0 & L0 & _). destruct (D q1 H1) as (g1 & G1 & L1 & _). rewrite D0 in L0. rewrite D1 in L1. split; cbn; eauto. }
    destruct (gate_kept sp round6 det solve SP HD HS HR gs _ _ _ OL) as (o & gs' & E & (l & -> & El) & K). cbn [tw_q0 tw_q1 tw_dc tw_dt tw_op] in *.
    destruct (emitted_ok round6 det solve HD HS HR 2 2 U ltac:(lia) ltac:(lia) HU) as (l0 & El0 & Gd & C). rewrite El in El0. injection El0 as ->.
    assert (UF := proj2 (proj2 Gd) eq_refl eq_refl). destruct (C UF) as (gm & CL).
    exists (map set_dag (rev l0)), gs'. split; [exact E|]. split; [|split].
    - intros i Hi. destruct (D i Hi) as (g & G & L & NP). destruct (K i g G) as (h & Hh & _ & LL & T1 & T2). exists h. split; [exact Hh|]. split; [apply LL, L|].
      destruct (mat_lines_dec (Two q0 q1 2 2 (TMat U)) i) as [X|X]; [apply T1, X|rewrite (T2 X); exact NP].
    - intros i g Hi G. destruct (D i Hi) as (g' & G' & L & _). rewrite G in G'. injection G' as <-. destruct (K i g G) as (h & Hh & _ & LL & _). exists h. split; [exact Hh|apply (LL _ _ L)].
    - assert (LO := lines_pair dims q0 q1 H0 H1 Dq). assert (SZ := pair_size dims q0 q1). rewrite D0, D1 in SZ. change (2 * 2) with 4 in *.
      assert (PO : pair_of q0 q1 = [q0; q1]) by (unfold pair_of; rewrite (proj2 (Nat.ltb_lt _ _) Lt); reflexivity).
      set (l := map set_dag (rev l0)) in *. assert (BM := emit_bmat 2 2 l0 ltac:(lia) ltac:(lia) Gd). fold l in BM. change (2 * 2) with 4 in BM.
      assert (OKl : forallb (gate_ok 2 2) l = true) by (unfold l; rewrite ok_back; apply Gd).
      assert (UB : unitary 4 (bmat 2 2 l)) by (apply (bmat_unitary 2 2); [lia|lia|exact OKl]).
      exists (emb dims (pair_of q0 q1) U), (emb dims (pair_of q0 q1) U), (emb dims (pair_of q0 q1) (bmat 2 2 l)), gm.
      split; [apply (op_on_two dims q0 q1 false U H0 H1 Dq)|]. split; [|split; [|split; [|split]]].
      + apply (moved_emb dims p Lin Inj); [exact LO|]. intros r c Hr Hc. rewrite !(home_index dims p Lin) by (trivial; intros t Ht; rewrite PO in Ht; destruct Ht as [<-|[<-|[]]]; auto). reflexivity.
      + apply emb_unitary; [exact LO|]. rewrite SZ. exact HU.
      + unfold bmat. change (2 * 2) with 4. rewrite <- SZ. apply op_list; [exact LO|]. clear - H0 H1 Lt D0 D1 PO Dq. induction l as [|e l IH]; cbn [map]; constructor; [|exact IH].
        rewrite PO. destruct e as [[|] k dag|dag]; cbn [as_gate tracked].
        * eapply op_ext; [|exact (op_on_one dims q1 dag _ H1)]. eapply meq_trans; [apply (widen_second dims q0 q1 _ H0 H1 Lt)|]. rewrite D1. apply meq_refl.
        * eapply op_ext; [|exact (op_on_one dims q0 dag _ H0)]. eapply meq_trans; [apply (widen_first dims q0 q1 _ H0 H1 Lt)|]. rewrite D1. apply meq_refl.
        * rewrite <- PO. rewrite (proj2 (Nat.ltb_lt _ _) Lt). exact (op_on_two dims q0 q1 dag _ H0 H1 Dq).
      + apply emb_unitary; [exact LO|]. rewrite SZ. exact UB.
      + eapply approx_ext; [apply meq_refl|apply emb_phase; exact LO|]. replace 4%R with (INR (prodl (sub_dims dims (pair_of q0 q1)))) at 1 by (rewrite SZ; cbn; ring).
        assert (NN : (0 <= ent_error code_eps code_delta 4)%R) by apply ent_error_nonneg.
        apply emb_approx; [exact LO|lra|]. rewrite SZ. eapply close_meq; [apply meq_sym; exact BM|]. replace 4%R with (INR 4) by (cbn; ring). exact CL.
  Qed.

  (** *** Circuits *)
  Lemma gate_ok gs g : device dims gs p -> implementable dims p g ->
    (type_of g = MULTI /\ done (gate_error g) [as_gate g] [as_gate g]) \/
    exists c l gs', dget gtype_eqb [(SINGLE, PhyLocQR); (TWO, PhyEntQRCEX)] (type_of g) = Some c /\ transpile_gate thep c false gs g = (gs', Ok l) /\ device dims gs' p /\
      done (gate_error g) [as_gate g] (map as_gate l).
  Proof.
    intros D I. destruct g as [q d U|[q0 q1 dc dt op]|ts U| | |]; cbn [implementable] in I; try contradiction.
    - right. destruct I as (Hq & -> & HU). destruct (single_ok gs q U D Hq HU) as (l & gs' & E & D' & Dn). exists PhyLocQR, (map (CRot q (nth q dims 0)) l), gs'.
      split; [reflexivity|]. split; [unfold transpile_gate, the_pass, pass_result; cbn [single bindr]; rewrite E; reflexivity|]. split; [exact D'|]. rewrite map_map. exact Dn.
    - destruct I as (H0 & H1 & Dq & -> & -> & I). right. exists PhyEntQRCEX. destruct op as [x dag|U].
      + destruct I as (-> & Fx & Hp). destruct (cex_ok gs q0 q1 x D H0 H1 Dq Fx Hp) as (y & E & Dn). exists [CCex q0 q1 (nth q0 dims 0) (nth q1 dims 0) y], gs.
        split; [reflexivity|]. split; [unfold transpile_gate, the_pass, pass_result; cbn [double bindr]; rewrite E; reflexivity|]. split; [exact D|exact Dn].
      + destruct I as (Lt & D0 & D1 & HU & A0 & A1). destruct (qubits_ok gs q0 q1 U D H0 H1 Lt D0 D1 HU A0 A1) as (l & gs' & E & D' & _ & Dn). exists (map (CBlock q0 q1 2 2) l), gs'. rewrite D0, D1.
        split; [reflexivity|]. split; [|split; [exact D'|rewrite map_map; exact Dn]]. unfold transpile_gate, the_pass, pass_result. cbn [double bindr]. rewrite E. cbn [bindr fst snd tw_dc tw_dt].
        f_equal. f_equal. clear. induction l as [|e l IH]; [reflexivity|]. cbn [map flat_map from_ent app]. rewrite IH. reflexivity.
    - left. split; [reflexivity|]. destruct I as (Ne & S & L & HU). destruct (op_on_many dims ts U Ne S (fun t Ht => proj1 (L t Ht))) as [O LO].
      exists (emb dims ts U), (emb dims ts U), (emb dims ts U), 0%R. split; [exact O|]. split; [|split; [|split; [|split]]].
      + apply (moved_emb dims p Lin Inj); [exact LO|]. intros r c Hr Hc. rewrite !(home_index dims p Lin) by assumption. reflexivity.
      + apply emb_unitary; assumption.
      + exact O.
      + apply emb_unitary; assumption.
      + apply approx_0. apply meq_sym, phase_0.
  Qed.
  Lemma rewrite_ok l : forall gs new, device dims gs p -> (forall g, In g l -> implementable dims p g) ->
    exists gs' out, rewrite_all type_of thep [(SINGLE, PhyLocQR); (TWO, PhyEntQRCEX)] gs l new = (gs', Ok (new ++ out)) /\ device dims gs' p /\
      done (total_error l) (map as_gate l) (map as_gate out).
  Proof.
    induction l as [|g l IH]; intros gs new D H.
    - exists gs, []. split; [rewrite app_nil_r; reflexivity|]. split; [exact D|exact done_nil].
    - cbn [rewrite_all map total_error fold_right]. fold (total_error l). destruct (gate_ok gs g D (H g (or_introl eq_refl))) as [[Ty Dn]|(c & lg & gs1 & Ec & Et & D1 & Dn)].
      + rewrite Ty. cbn [dget gtype_eqb fst snd]. destruct (IH gs (new ++ [g]) D) as (gs' & out & E & D' & Dn'); [intros h Hh; apply H; right; exact Hh|].
        exists gs', (g :: out). split; [rewrite E; f_equal; f_equal; rewrite <- app_assoc; reflexivity|]. split; [exact D'|].
        change (as_gate g :: map as_gate l) with ([as_gate g] ++ map as_gate l). change (map as_gate (g :: out)) with ([as_gate g] ++ map as_gate out). apply done_app; assumption.
      + rewrite Ec, Et. destruct (IH gs1 (new ++ lg) D1) as (gs' & out & E & D' & Dn'); [intros h Hh; apply H; right; exact Hh|].
        exists gs', (lg ++ out). split; [rewrite E; f_equal; f_equal; rewrite <- app_assoc; reflexivity|]. split; [exact D'|].
        change (as_gate g :: map as_gate l) with ([as_gate g] ++ map as_gate l). rewrite map_app. apply done_app; assumption.
  Qed.
  Lemma done_implements e old new : done e old new -> implements dims p e new old.
  Proof.
    intros (A & B & A' & gm & O & M & U & O' & U' & X). exists gm. intros psi phi psi' phi' target Hn E P E' T.
    apply O in E. apply O' in E'. assert (TB : veq N target (mapply N B psi')).
    { apply (placed_fun dims p Lin Inj phi); [exact T|]. assert (Y := placed_mapply dims p Lin Inj A B psi psi' M P). rewrite (placed_reg dims p Lin) in Y. rewrite (placed_reg dims p Lin).
      intros r Hr. rewrite Y by exact Hr. symmetry. apply E. exact Hr. }
    unfold within. change (sqrt (norm2 N (fun k => (phi' k - cis gm * target k)%C))) with (nrm N (vsub phi' (fun k => (cis gm * target k)%C))).
    rewrite (dist_veq N phi' (mapply N A' psi') (fun k => (cis gm * target k)%C) (mapply N (with_phase gm B) psi')).
    - eapply Rle_trans; [apply X|]. unfold nrm. rewrite (placed_norm dims p Lin Inj psi psi' P), Hn, sqrt_1. lra.
    - exact E'.
    - intros k Hk. rewrite (TB k Hk). unfold mapply, with_phase. rewrite <- csum_mul_l. apply csum_ext. intros j _. ring.
  Qed.
  Lemma done_runs e old new : done e old new -> (forall psi, exists phi, evolves dims psi old phi) /\ (forall psi, exists phi, evolves dims psi new phi).
  Proof.
    intros (A & B & A' & gm & O & M & U & O' & U' & X). split; intros psi; [exists (mapply N A psi); apply O|exists (mapply N A' psi); apply O']; intros k _; reflexivity.
  Qed.
End Whole.

(** *** The recorded mappings *)
Lemma level_map_laid d g p : laid_out d g p -> level_map g = map p (seq 0 d).
Proof.
  intros L. assert (E := lp_map_laid d g p L). unfold lp_map in E. unfold level_map. destruct (log_phy_map g) as [l|e] eqn:El; cbn [bindr] in E; [|discriminate].
  assert (RT := lo_routable d g p L). assert (W := rt_wf d g RT). destruct (log_phy_map_spec g W (rt_placement d g RT)) as (l' & E' & M). rewrite El in E'. injection E' as <-.
  assert (Q : l = map (fun n => AInt (Z.of_nat (p n))) (seq 0 d)).
  { rewrite (lo_order d g p L), map_map in M.
    assert (X : map Some l = map Some (map (fun n => AInt (Z.of_nat (p n))) (seq 0 d))).
    { rewrite M, map_map. apply map_ext_in. intros n Hn. apply in_seq in Hn. assert (Y := lo_placed d g p L n ltac:(lia)). unfold placed in Y. apply (has_attr_alook g W) in Y. exact Y. }
    clear -X. revert X. generalize (map (fun n => AInt (Z.of_nat (p n))) (seq 0 d)). induction l as [|x l IH]; intros [|y m]; cbn; intros H; try discriminate; [reflexivity|].
    injection H as -> H. f_equal. apply IH. exact H. }
  rewrite Q. assert (G : forall k, mapr as_int (map (fun n => AInt (Z.of_nat (p n))) k) = Ok (map (fun n => Z.of_nat (p n)) k)).
  { induction k as [|n k IH]; [reflexivity|]. cbn [map mapr as_int bindr]. rewrite IH. reflexivity. }
  rewrite G, map_map. apply map_ext. intros n. apply Nat2Z.id.
Qed.
Lemma mapping_laid dims p gs : device dims gs p -> mapping_loop (List.length dims) dims 0 (level_maps gs) =
  Ok (map (fun i => map (p i) (seq 0 (nth i dims 0))) (seq 0 (List.length dims))).
Proof.
  intros D. assert (G : forall gs i, (forall j, i <= j < List.length dims -> exists g, nth_error gs (j - i) = Some g /\ laid_out (nth j dims 0) g (p j)) ->
    mapping_loop (List.length dims) dims i (level_maps gs) = Ok (map (fun i => map (p i) (seq 0 (nth i dims 0))) (seq i (List.length dims - i)))).
  { clear. induction gs as [|g gs IH]; intros i H.
    - cbn. destruct (Nat.lt_ge_cases i (List.length dims)) as [L|L]; [|replace (List.length dims - i) with 0 by lia; reflexivity].
      destruct (H i ltac:(lia)) as (g & E & _). rewrite Nat.sub_diag in E. discriminate.
    - cbn [level_maps map mapping_loop]. fold (level_maps gs). destruct (Nat.ltb_spec i (List.length dims)) as [L|L].
      + destruct (H i ltac:(lia)) as (g' & E & La). rewrite Nat.sub_diag in E. injection E as <-.
        rewrite (proj1 (nth_pyindex dims i (nth i dims 0)) (nth_error_nth' _ _ L)). cbn [bindr]. rewrite IH.
        * cbn [bindr]. replace (List.length dims - i) with (S (List.length dims - S i)) by lia. cbn [seq map]. f_equal. f_equal. rewrite (level_map_laid _ _ _ La).
          assert (Y : forall k, (forall n, In n k -> p i n < nth i dims 0) -> filter (fun lev => lev <? nth i dims 0) (map (p i) k) = map (p i) k).
          { induction k as [|n k IHk]; intros Hk; [reflexivity|]. cbn [map filter]. rewrite (proj2 (Nat.ltb_lt _ _)) by (apply Hk; left; reflexivity). f_equal. apply IHk. intros m Hm. apply Hk. right. exact Hm. }
          apply Y. intros n Hn. apply in_seq in Hn. apply (laid_lt _ _ _ _ La). lia.
        * intros j Hj. destruct (H j ltac:(lia)) as (g' & E & La'). replace (j - i) with (S (j - S i)) in E by lia. exists g'. auto.
      + rewrite IH by (intros j Hj; lia). replace (List.length dims - i) with 0 by lia. replace (List.length dims - S i) with 0 by lia. reflexivity. }
  rewrite G; [rewrite Nat.sub_0_r; reflexivity|]. intros j Hj. destruct (D j ltac:(lia)) as (g & E & L & _). rewrite Nat.sub_0_r. eauto.
Qed.

Theorem o0_ok sp round6 det solve fuel gs p c : finds_shortest sp -> rounds6 round6 -> exact_det det -> exact_solve det solve ->
  num_qudits c = List.length (dimensions c) -> device (dimensions c) gs p -> (forall g, In g (instructions c) -> implementable (dimensions c) p g) ->
  exists gs' out, whole_O0 sp round6 det solve fuel gs c = (gs', Ok out) /\ device (dimensions c) gs' p /\ same_registers out c /\
    mappings out = Some (map (fun i => map (p i) (seq 0 (nth i (dimensions c) 0))) (seq 0 (List.length (dimensions c)))) /\
    (forall psi, exists psi', placed_state (dimensions c) p psi psi') /\
    (forall psi, exists phi, evolves (dimensions c) psi (map as_gate (instructions c)) phi) /\
    (forall psi, exists phi, evolves (dimensions c) psi (map as_gate (instructions out)) phi) /\
    implements (dimensions c) p (total_error (instructions c)) (map as_gate (instructions out)) (map as_gate (instructions c)).
Proof.
  intros SP HR HD HS HN D I. assert (F := device_fine _ _ _ D). set (dims := dimensions c) in *.
  destruct (rewrite_ok sp round6 det solve fuel SP HD HS HR dims p F (instructions c) gs [] D I) as (gs' & new & E & D' & Dn). cbn [app] in E.
  set (ms := map (fun i => map (p i) (seq 0 (nth i dims 0))) (seq 0 (List.length dims))).
  assert (EM : mappings_of level_maps gs' c = Ok ms) by (unfold mappings_of; rewrite HN; apply mapping_laid; exact D').
  exists gs', (set_mapping (set_instructions (set_mapping c ms) new) ms). split.
  { unfold whole_O0, compile_O0, compile. replace (choose [] ["PhyLocQRPass"%string; "PhyEntQRCEXPass"%string]) with (Ok [(SINGLE, PhyLocQR); (TWO, PhyEntQRCEX)]) by (vm_compute; reflexivity).
    cbn [bindr]. rewrite E, EM. reflexivity. }
  destruct (done_runs _ _ _ _ _ Dn) as [R1 R2].
  split; [exact D'|]. split; [unfold same_registers; cbn; repeat split|]. split; [reflexivity|]. split; [apply (placed_exists dims p (proj1 F) (proj2 F))|].
  split; [exact R1|]. split; [exact R2|]. apply done_implements; [exact F|exact Dn].
Qed.
