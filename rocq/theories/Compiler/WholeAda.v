(** Compilation at level O2, from end to end (C93). *)
From Coq Require Import Reals List Arith ZArith Lia Lra Sorted Permutation.
From Verif.Base Require Import Py PyFacts Cplx Matrix Radix Fiber.
From Verif.Circuit Require Import CircuitModel GateModel.
From Verif.Gates Require Import SingleModel SingleSpec SingleProofs TwoModel FactoryModel FactorySpec ActsOn.
From Verif.Sim Require Import TnSpec TnProofs.
From Verif.Levels Require Import LevelsModel LevelsSpec GraphProofs LevelsProofs RouteProofs.
From Verif.Variational Require EmitProofs.
From Verif.Lanes Require LanesModel LanesSpec LanesProofs GroupProofs.
From Verif.Local Require Import QrModel QrSpec QrMath QrCore QrMoved QrEmit QrProofs QrPhysical QrPasses TreeModel AdaModel AdaSpec AdaProofs AdaPasses PhySpec PhyAda PhyFound PhyPasses.
From Verif.Ent Require Import BlockModel BlockSpec PassModel PassSpec PairMath ExecProofs PassProofs CircuitProofs.
From Verif.Compiler Require Import DispatchModel DispatchSpec WholeModel WholeSpec WholeNorm WholeOps WholeProofs WholeMerge.
Import ListNotations.
Local Open Scope nat_scope.

(** *** One gate *)
Lemma ada_unitary sp fuel gs line d U g l gs' : finds_shortest sp -> pyindex gs line = Ok (Some g) -> usable d g -> unitary d U -> 0 < d <= 1000 ->
  phy_ada_gate sp fuel false gs line d U = Ok (l, gs') -> unitary d (circuit_matrix d l).
Proof.
  intros SP EG US HU D1 E. destruct code_pos as [E0 D0]. destruct code_ada_pos as [S0 N0].
  unfold phy_ada_gate, the_graph in E. rewrite EG in E. cbn [bindr] in E.
  destruct (phy_execute_usable sp code_eps code_delta d U g SP US HU E0 D0) as (ops & alg & tot & g1 & Ex & US1 & SB). rewrite Ex in E. cbn [bindr] in E.
  apply EmitProofs.bindr_Ok in E. destruct E as (((ops', best), fg) & EA & E). injection E as <- <-.
  assert (OK := phy_adaptive_ok sp code_eps code_tiny code_near code_slack code_delta d SP S0 N0 code_delta_pi (proj1 D1) fuel U g1 (alg, tot) ops' best fg HU US1 EA).
  eapply unitary_ext; [apply meq_sym, dagger_list|]. apply unitary_adj.
  destruct best as [(c, dc)|]; [destruct OK as (g' & _ & _ & _ & _ & UO & _); exact UO|]. destruct OK as (-> & _). apply unitary_id.
Qed.
Lemma slots_put gs k g : put_slot (map Some gs) k (Some g) = map Some (put_graph gs k g).
Proof. unfold put_slot, put_graph. rewrite map_length, map_app. cbn [map]. rewrite firstn_map, skipn_map. reflexivity. Qed.
Lemma slots_index (gs : list lgraph) i g : nth_error gs i = Some g -> pyindex (map Some gs) (Z.of_nat i) = Ok (Some g).
Proof. intros H. apply nth_pyindex. rewrite nth_error_map, H. reflexivity. Qed.
Lemma slots_all (gs : list lgraph) : mapr (fun o => match o with Some h => Ok h | None => Err AttributeError end) (map Some gs) = Ok gs.
Proof. induction gs as [|g gs IH]; [reflexivity|]. cbn [map mapr bindr]. rewrite IH. reflexivity. Qed.
Lemma usable_laid d g p : usable d g -> (forall n, n < d -> placed g (Z.of_nat n) (Z.of_nat (p n))) -> laid_out d g p.
Proof.
  intros [RT CV OG NP] H. split; trivial. red in OG. rewrite OG, (covers_length d g RT CV). reflexivity.
Qed.
Lemma laid_usable d g p : laid_out d g p -> no_phases g -> usable d g.
Proof.
  intros L NP. split; [apply (lo_routable _ _ _ L)|apply (laid_covers _ _ _ L)| |exact NP]. red.
  rewrite (lo_order d g p L), (covers_length d g (lo_routable _ _ _ L) (laid_covers _ _ _ L)). reflexivity.
Qed.

Section Ada.
  Variables (sp : lgraph -> Z -> Z -> res (list Z)).
  Variables (round6 : Rdefinitions.R -> Rdefinitions.R) (det : nat -> (nat -> nat -> Rdefinitions.R) -> Rdefinitions.R)
    (solve : nat -> (nat -> nat -> Rdefinitions.R) -> (nat -> Rdefinitions.R) -> res (list Rdefinitions.R)).
  Hypothesis SP : finds_shortest sp.
  Hypothesis HR : rounds6 round6.
  Hypothesis HD : exact_det det.
  Hypothesis HS : exact_solve det solve.
  Variables (dims : list nat) (p : nat -> nat -> nat).
  Hypothesis F : fine dims p.
  Notation N := (prodl dims).
  Notation Lin := (proj1 F).
  Notation Inj := (proj2 F).
  Notation done := (done dims p).

  Lemma coupled_put gs q g' : coupled_device dims gs -> q < List.length dims -> all_coupled (nth q dims 0) g' -> coupled_device dims (put_graph gs (Z.of_nat q) g').
  Proof.
    intros D Hq A i Hi. destruct (D q Hq) as (g0 & G0 & _). destruct (D i Hi) as (g & G & A1). rewrite (nth_put gs q i g' g0 G0).
    destruct (Nat.eqb_spec q i) as [->|]; eauto.
  Qed.
  Lemma ada_ok gs q U : device dims gs p -> coupled_device dims gs -> q < List.length dims -> unitary (nth q dims 0) U -> nth q dims 0 <= 1000 ->
    dust_free code_eps code_tiny (nth q dims 0) (visits (nth q dims 0)) U ->
    exists l gs' enough, (forall fuel, enough <= fuel -> phy_ada_gate sp fuel false (map Some gs) (Z.of_nat q) (nth q dims 0) U = Ok (l, map Some gs')) /\ device dims gs' p /\
      coupled_device dims gs' /\
      done (INR (nth q dims 0%nat) * (INR (nth q dims 0%nat) * ada_error code_near code_delta (nth q dims 0%nat))) [on_one q false U] (map (fun o => as_gate (CRot q (nth q dims 0) o)) l).
  Proof.
    intros D CD Hq HU Hd DF. set (d := nth q dims 0) in *. destruct (D q Hq) as (g & G & L & NP). fold d in L.
    destruct (CD q Hq) as (g0 & G0 & AC). rewrite G in G0. injection G0 as <-. fold d in AC.
    assert (US := laid_usable d g _ L NP). assert (RT := us_routable d g US). assert (CV := us_covers d g US).
    assert (D1 : 0 < d <= 1000) by (split; [apply (device_pos dims gs p D); apply nth_In; exact Hq|exact Hd]).
    destruct (phy_ada_gate_ok sp (map Some gs) (Z.of_nat q) d U g SP (slots_index gs q g G) US HU D1) as (l & g' & enough & E & US' & SC & _ & PL & _ & OK).
    specialize (PL AC). assert (LD : ladder d g) by (intros r Hr; apply AC; lia). specialize (OK LD DF).
    assert (UL := ada_unitary sp enough (map Some gs) (Z.of_nat q) d U g l _ SP (slots_index gs q g G) US HU D1 (E enough (le_n _))).
    exists l, (put_graph gs (Z.of_nat q) g'), enough. split; [intros fuel Hf; rewrite (E fuel Hf), slots_put; reflexivity|]. split; [|split].
    - apply device_put; trivial; [|apply (us_phases d g' US')]. apply usable_laid; [exact US'|]. intros n Hn. apply PL. apply (lo_placed d g (p q) L n Hn).
    - apply coupled_put; trivial. apply (all_coupled_same d g g' US SC PL AC).
    - set (V := fun a b => U (unlp d (p q) a) (unlp d (p q) b)).
      assert (IJ : forall n m, n < d -> m < d -> p q n = p q m -> n = m) by (intros n m; apply (Inj q n m Hq)).
      assert (FN : forall n a, n < d -> placed g (Z.of_nat n) (Z.of_nat a) -> a = p q n).
      { intros k a' Hk Pk. assert (Y := lo_placed d g (p q) L k Hk). unfold placed in Y, Pk. apply (has_attr_alook g (rt_wf d g RT)) in Y, Pk. rewrite Y in Pk. injection Pk as X. lia. }
      assert (CL : close d (INR d * ada_error code_near code_delta d) (circuit_matrix d l) V).
      { apply OK. intros n m a b Hn Hm Pa Pb. apply PL in Pb. rewrite (FN n a Hn Pa), (FN m b Hm Pb). unfold V. rewrite !(unlp_lp d (p q) IJ) by assumption. reflexivity. }
      destruct code_pos as [_ D0]. destruct code_ada_pos as [_ N0]. assert (Q := ada_error_nonneg code_near code_delta d N0 D0).
      assert (LO := lines_one dims q Hq). assert (SZ := one_size dims q). fold d in SZ.
      exists (emb dims [q] U), (emb dims [q] V), (emb dims [q] (circuit_matrix d l)), 0%R. split; [apply (op_on_one dims q false U Hq)|]. split; [|split; [|split; [|split]]].
      + apply (moved_emb dims p Lin Inj); [exact LO|]. intros r c Hr Hc. rewrite !one_index, !(reg_digit dims p Lin) by assumption. unfold V.
        rewrite !(unlp_lp d (p q) IJ) by (apply digit_lt; assumption). reflexivity.
      + apply emb_unitary; [exact LO|]. rewrite SZ. exact HU.
      + assert (EC : chain (prodl (sub_dims dims [q])) (map (gate_matrix d) l) = circuit_matrix d l) by (rewrite SZ; unfold chain, circuit_matrix; symmetry; apply fold_chain).
        rewrite <- EC. apply op_list; [exact LO|]. clear - Hq. induction l as [|o l IH]; cbn [map]; constructor; [|exact IH].
        destruct o as [o dag]. cbn [as_gate]. apply (op_on_one dims q dag (op_matrix d o) Hq).
      + apply emb_unitary; [exact LO|]. rewrite SZ. exact UL.
      + eapply approx_ext; [apply meq_refl|apply meq_sym, phase_0|]. rewrite <- SZ at 1. apply emb_approx; [exact LO| |rewrite SZ; exact CL].
        apply Rmult_le_pos; [apply pos_INR|exact Q].
  Qed.

  (** *** Circuits *)
  Definition looks_on (nl : nat * cgate -> res bool) (o : nat * cgate) : Prop := type_of (snd o) = SINGLE -> nl o = Ok false.
  Lemma coupled_linked gs gs' : coupled_device dims gs ->
    (forall i g, i < List.length dims -> nth_error gs i = Some g -> exists h, nth_error gs' i = Some h /\ forall u v, linked g u v -> linked h u v) -> coupled_device dims gs'.
  Proof.
    intros CD H i Hi. destruct (CD i Hi) as (g & G & A). destruct (H i g Hi G) as (h & Hh & L). exists h. split; [exact Hh|].
    intros n m Hn Hm NM. apply L. apply A; assumption.
  Qed.
  Lemma gate2_ok nl gs o : device dims gs p -> coupled_device dims gs -> implementable dims p (snd o) -> type_of (snd o) <> MULTI -> adaptable_gate (snd o) -> looks_on nl o ->
    exists l gs' enough, device dims gs' p /\ coupled_device dims gs' /\ done (adaptive_error (snd o)) [as_gate (snd o)] (map as_gate l) /\
      forall fuel, enough <= fuel -> forall r new,
      rewrite_split (fun o => type_of (snd o)) (object_pass sp round6 det solve fuel) (fun g => let? f := nl g in Ok (PhyLocAda, f)) gs (o :: r) new =
      rewrite_split (fun o => type_of (snd o)) (object_pass sp round6 det solve fuel) (fun g => let? f := nl g in Ok (PhyLocAda, f)) gs' r (new ++ map (pair 0) l).
  Proof.
    intros D CD I T AG LO. destruct o as [k g]. unfold looks_on in LO. cbn [snd] in *. destruct g as [q d U|[q0 q1 dc dt op]|ts U| | |]; cbn [implementable] in I; try contradiction; try contradiction (T eq_refl).
    - destruct I as (Hq & -> & HU). destruct AG as [Hd DF]. destruct (ada_ok gs q U D CD Hq HU Hd DF) as (l & gs' & enough & E & D' & CD' & Dn).
      exists (map (CRot q (nth q dims 0)) l), gs', enough. split; [exact D'|]. split; [exact CD'|]. split; [rewrite map_map; exact Dn|].
      intros fuel Hf r new. cbn [rewrite_split snd type_of]. rewrite (LO eq_refl). cbn [bindr]. unfold transpile_gate, object_pass, the_pass, pass_result. cbn [snd single bindr].
      rewrite (E fuel Hf). cbn [bindr fst snd]. rewrite slots_all. reflexivity.
    - destruct I as (H0 & H1 & Dq & -> & -> & I). destruct op as [x dag|U].
      + destruct I as (-> & Fx & Hp). destruct (cex_ok sp round6 det solve dims p F gs q0 q1 x D H0 H1 Dq Fx Hp) as (y & E & Dn). exists [CCex q0 q1 (nth q0 dims 0) (nth q1 dims 0) y], gs, 0.
        split; [exact D|]. split; [exact CD|]. split; [exact Dn|]. intros fuel _ r new. cbn [rewrite_split snd type_of]. unfold transpile_gate, object_pass, the_pass, pass_result. cbn [snd double bindr]. rewrite E. reflexivity.
      + destruct I as (Lt & D0 & D1 & HU & A0 & A1). destruct (qubits_ok sp round6 det solve SP HD HS HR dims p F gs q0 q1 U D H0 H1 Lt D0 D1 HU A0 A1) as (l & gs' & E & D' & KL & Dn).
        exists (map (CBlock q0 q1 2 2) l), gs', 0. split; [exact D'|]. split; [apply (coupled_linked gs gs' CD KL)|]. split; [rewrite map_map; exact Dn|].
        intros fuel _ r new. rewrite D0, D1. cbn [rewrite_split snd type_of]. unfold transpile_gate, object_pass, the_pass, pass_result. cbn [snd double bindr]. rewrite E. cbn [bindr fst snd tw_dc tw_dt].
        assert (X : flat_map (from_ent 2 2) (map (EGate q0 q1) l) = map (CBlock q0 q1 2 2) l) by (clear; induction l as [|e l IH]; [reflexivity|]; cbn [map flat_map from_ent app]; rewrite IH; reflexivity).
        rewrite X. reflexivity.
  Qed.
  Lemma split2_ok nl os : (forall o, In o os -> implementable dims p (snd o) /\ type_of (snd o) <> MULTI /\ adaptable_gate (snd o) /\ looks_on nl o) ->
    forall gs, device dims gs p -> coupled_device dims gs ->
    exists gs' out enough, device dims gs' p /\ coupled_device dims gs' /\ done (total_adaptive (map snd os)) (map as_gate (map snd os)) (map as_gate out) /\
      forall fuel, enough <= fuel -> forall new,
      rewrite_split (fun o => type_of (snd o)) (object_pass sp round6 det solve fuel) (fun g => let? f := nl g in Ok (PhyLocAda, f)) gs os new = (gs', Ok (new ++ map (pair 0) out)).
  Proof.
    induction os as [|o os IH]; intros H gs D CD.
    - exists gs, [], 0. split; [exact D|]. split; [exact CD|]. split; [exact (done_nil dims p F)|]. intros fuel _ new. cbn. rewrite app_nil_r. reflexivity.
    - destruct (H o (or_introl eq_refl)) as (I & T & AG & LO). destruct (gate2_ok nl gs o D CD I T AG LO) as (l & gs1 & n1 & D1 & CD1 & Dn1 & E1).
      destruct (IH (fun o' Ho => H o' (or_intror Ho)) gs1 D1 CD1) as (gs' & out & n2 & D' & CD' & Dn2 & E2).
      exists gs', (l ++ out), (Nat.max n1 n2). split; [exact D'|]. split; [exact CD'|]. split.
      + cbn [map total_adaptive fold_right]. fold (total_adaptive (map snd os)). change (as_gate (snd o) :: map as_gate (map snd os)) with ([as_gate (snd o)] ++ map as_gate (map snd os)).
        rewrite map_app. apply done_app; assumption.
      + intros fuel Hf new. rewrite (E1 fuel) by lia. rewrite (E2 fuel) by lia. rewrite map_app, app_assoc. reflexivity.
  Qed.
End Ada.

(** *** The lookahead *)
Lemma split_filter {A} (f : A -> bool) l a x y b : filter f l = a ++ x :: y :: b -> exists l1 l2 l3, l = l1 ++ x :: l2 ++ y :: l3 /\ forall z, In z l2 -> f z = false.
Proof.
  revert a. induction l as [|z l IH]; intros a E; cbn in E; [destruct a; discriminate|]. destruct (f z) eqn:Ez.
  - destruct a as [|a0 a]; injection E as -> E.
    + assert (G : forall l, filter f l = y :: b -> exists l2 l3, l = l2 ++ y :: l3 /\ forall z, In z l2 -> f z = false).
      { clear. induction l as [|w l IH]; intros E; cbn in E; [discriminate|]. destruct (f w) eqn:Ew.
        - injection E as -> E. exists [], l. split; [reflexivity|]. intros z [].
        - destruct (IH E) as (l2 & l3 & -> & H). exists (w :: l2), l3. split; [reflexivity|]. intros z [<-|Hz]; [exact Ew|apply H; exact Hz]. }
      destruct (G l E) as (l2 & l3 & -> & H). exists [], l2, l3. split; [reflexivity|exact H].
    + destruct (IH a E) as (l1 & l2 & l3 & -> & H). exists (a0 :: l1), l2, l3. split; [reflexivity|exact H].
  - destruct (IH a E) as (l1 & l2 & l3 & -> & H). exists (z :: l1), l2, l3. split; [reflexivity|exact H].
Qed.
Lemma lookahead_ok dims p l : (forall g, In g l -> implementable dims p g /\ type_of g <> MULTI) -> separated l ->
  exists nl, lookahead l = Ok nl /\ forall o, In o (combine (seq 0 (List.length l)) l) -> looks_on nl o.
Proof.
  intros I S.
  assert (PL : forall o, In o (as_objects l) -> LanesSpec.plain (snd o)).
  { intros o Ho. destruct (objects_in l o Ho) as (g & Hg & ->). destruct (I g (nth_error_In _ _ Hg)) as [I1 T1]. apply (implementable_wp dims p g I1 T1). }
  assert (ND : NoDup (map fst (as_objects l))) by (rewrite objects_ids; apply seq_NoDup).
  destruct (LanesProofs.new_lanes_ok (as_objects l) PL) as (x & Ex & _).
  exists (fun o => LanesModel.next_is_local x (fst o)). split; [unfold lookahead; rewrite Ex; reflexivity|].
  intros o Ho T.
  assert (Hk : nth_error l (fst o) = Some (snd o)).
  { assert (G : forall l k, In o (combine (seq k (List.length l)) l) -> k <= fst o /\ nth_error l (fst o - k) = Some (snd o)).
    { clear. induction l as [|g l IH]; intros k H; cbn in H; [contradiction|]. destruct H as [<-|H]; cbn [fst snd]; [rewrite Nat.sub_diag; split; [lia|reflexivity]|].
      destruct (IH (S k) H) as [A B]. split; [lia|]. replace (fst o - k) with (Datatypes.S (fst o - Datatypes.S k)) by lia. exact B. }
    destruct (G l 0 Ho) as [_ G']. rewrite Nat.sub_0_r in G'. exact G'. }
  destruct (I (snd o) (nth_error_In _ _ Hk)) as [I1 T1].
  assert (OO : In (fst o, as_gate (snd o)) (as_objects l)).
  { unfold as_objects. apply (nth_error_In _ (fst o)).
    assert (G : forall (A B : Type) (a : list A) (b : list B) n x y, nth_error a n = Some x -> nth_error b n = Some y -> nth_error (combine a b) n = Some (x, y)).
    { clear. induction a as [|a0 a IH]; intros [|b0 b] [|n] x y E1 E2; cbn in *; try discriminate; [congruence|]. apply IH; assumption. }
    assert (Lk : fst o < List.length l) by (apply nth_error_Some; congruence).
    apply G; [|rewrite nth_error_map, Hk; reflexivity]. rewrite (nth_error_nth' _ 0) by (rewrite seq_length; exact Lk). rewrite seq_nth by exact Lk. reflexivity. }
  destruct (snd o) as [q d U|t|ts U|q d e|q0 q1 dc dt [s k dag|dag]|] eqn:Eo; cbn [type_of] in T; try discriminate; cbn [implementable] in I1; try contradiction.
  destruct (GroupProofs.next_local_single (as_objects l) x PL ND Ex _ (Z.of_nat q) OO eq_refl) as (b & Eb & Hb).
  { unfold LanesSpec.on_line. cbn. rewrite Z.eqb_refl. reflexivity. }
  cbn [fst] in Eb. rewrite Eb. f_equal. destruct b; [|reflexivity]. exfalso. destruct (proj1 Hb eq_refl) as (o' & (a & r & Ea) & Lo). unfold LanesSpec.line_ops in Ea.
  assert (On : LanesSpec.on_line (Z.of_nat q) o' = true).
  { assert (X : In o' (filter (LanesSpec.on_line (Z.of_nat q)) (as_objects l))) by (rewrite Ea; apply in_or_app; right; right; left; reflexivity). apply filter_In in X. apply X. }
  assert (Io : In o' (as_objects l)).
  { assert (X : In o' (filter (LanesSpec.on_line (Z.of_nat q)) (as_objects l))) by (rewrite Ea; apply in_or_app; right; right; left; reflexivity). apply filter_In in X. apply X. }
  destruct (split_filter _ _ _ _ _ _ Ea) as (l1 & l2 & l3 & EL & Off).
  assert (EM := objects_back dims l). rewrite EL in EM. rewrite map_app in EM. cbn [map] in EM. rewrite map_app in EM. cbn [map] in EM.
  unfold of_object at 2 in EM. cbn [fst] in EM. rewrite Hk in EM.
  destruct (objects_in l o' Io) as (g' & Hg' & Sg'). destruct (I g' (nth_error_In _ _ Hg')) as [I2 T2].
  unfold of_object at 3 in EM. rewrite Hg' in EM.
  assert (Eg : exists U', g' = CUser1 q (nth q dims 0) U').
  { unfold LanesSpec.local in Lo. rewrite Sg' in Lo. unfold LanesSpec.on_line in On. rewrite Sg' in On.
    destruct g' as [q' d' U'|[q0 q1 dc dt [y dag|U']]|ts U'| | |]; cbn [implementable] in I2; try contradiction; try discriminate Lo.
    destruct I2 as (Hq' & -> & _). cbn in On. rewrite Bool.orb_false_r in On. apply Z.eqb_eq in On. assert (q = q') by lia. subst q'. eauto. }
  destruct Eg as (U' & ->).
  destruct (S _ q d U _ _ U' _ (eq_sym EM)) as (t & Ht & Hq).
  apply in_map_iff in Ht. destruct Ht as (z & Ez & Hz). specialize (Off z Hz).
  assert (Iz : In z (as_objects l)) by (rewrite EL; apply in_or_app; right; right; apply in_or_app; left; exact Hz).
  destruct (objects_in l z Iz) as (gz & Hgz & Sz). unfold of_object in Ez. rewrite Hgz in Ez. subst gz.
  unfold LanesSpec.on_line in Off. rewrite Sz in Off. destruct t as [q0 q1 dc dt [y dag|M]]; cbn in Off, Hq; destruct Hq as [-> | ->]; rewrite Z.eqb_refl in Off; cbn in Off; rewrite ?Bool.orb_true_r in Off; discriminate.
Qed.

Theorem o2_ok sp round6 det solve gs p c : finds_shortest sp -> rounds6 round6 -> exact_det det -> exact_solve det solve ->
  num_qudits c = List.length (dimensions c) -> device (dimensions c) gs p -> coupled_device (dimensions c) gs ->
  (forall g, In g (instructions c) -> implementable (dimensions c) p g /\ type_of g <> MULTI /\ adaptable_gate g) -> separated (instructions c) ->
  exists gs' out enough, (forall fuel, enough <= fuel -> whole_O2 sp round6 det solve fuel gs c = (gs', Ok out)) /\
    device (dimensions c) gs' p /\ coupled_device (dimensions c) gs' /\ same_registers out c /\
    mappings out = Some (map (fun i => map (p i) (seq 0 (nth i (dimensions c) 0))) (seq 0 (List.length (dimensions c)))) /\
    (forall psi, exists psi', placed_state (dimensions c) p psi psi') /\
    (forall psi, exists phi, evolves (dimensions c) psi (map as_gate (instructions c)) phi) /\
    (forall psi, exists phi, evolves (dimensions c) psi (map as_gate (instructions out)) phi) /\
    implements (dimensions c) p (total_adaptive (instructions c)) (map as_gate (instructions out)) (map as_gate (instructions c)).
Proof.
  intros SP HR HD HS HN D CD I S. assert (F := device_fine _ _ _ D). set (dims := dimensions c) in *. set (l := instructions c) in *.
  destruct (lookahead_ok dims p l (fun g Hg => conj (proj1 (I g Hg)) (proj1 (proj2 (I g Hg)))) S) as (nl & En & HL).
  set (os := combine (seq 0 (List.length l)) l) in *.
  assert (ES : map snd os = l) by (unfold os; generalize 0; clear; induction l as [|g l IH]; intros k; [reflexivity|]; cbn; f_equal; apply IH).
  destruct (split2_ok sp round6 det solve SP HR HD HS dims p F nl os) with (gs := gs) as (gs' & out & n & D' & CD' & Dn & E); trivial.
  { intros o Ho. assert (X : In (snd o) l) by (rewrite <- ES; apply in_map; exact Ho). destruct (I _ X) as (A1 & A2 & A3). repeat (split; [assumption|]). apply HL. exact Ho. }
  rewrite ES in Dn. set (ms := map (fun i => map (p i) (seq 0 (nth i dims 0))) (seq 0 (List.length dims))).
  assert (EM : mappings_of level_maps gs' (with_gates c os) = Ok ms) by (unfold mappings_of; cbn; rewrite HN; apply mapping_laid; exact D').
  exists gs', (with_gates (set_instructions (set_mapping (with_gates c os) ms) (map (pair 0) out)) out), n. split.
  { intros fuel Hf. unfold whole_O2, compile_O2. fold l. rewrite En. fold os. change (instructions (with_gates c os)) with os. rewrite (E fuel Hf []). cbn [app]. unfold finish. rewrite EM. cbn [bindr].
    f_equal. f_equal. f_equal. cbn. rewrite map_map. cbn. rewrite map_id. reflexivity. }
  destruct (done_runs _ _ _ _ _ Dn) as [R1 R2].
  split; [exact D'|]. split; [exact CD'|]. split; [unfold same_registers; cbn; repeat split|]. split; [reflexivity|]. split; [apply (placed_exists dims p (proj1 F) (proj2 F))|].
  split; [exact R1|]. split; [exact R2|]. apply done_implements; [exact F|exact Dn].
Qed.
