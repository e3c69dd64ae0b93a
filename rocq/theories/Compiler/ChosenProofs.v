(** Compilation with a chosen list of passes (C106). *)
From Coq Require Import Reals List Arith ZArith Lia Lra Sorted Permutation String.
From Verif.Base Require Import Py PyFacts Cplx Matrix Radix Fiber Angle.
From Verif.Circuit Require Import CircuitModel GateModel.
From Verif.Gates Require Import SingleModel TwoModel TwoSpec TwoProofs FactoryModel FactorySpec ActsOn.
From Verif.Sim Require Import TnModel TnSpec TnProofs.
From Verif.Levels Require Import LevelsModel LevelsSpec GraphProofs LevelsProofs RouteProofs.
From Verif.Local Require Import QrModel QrSpec QrMath QrCore QrMoved QrEmit QrProofs QrPhysical QrPasses TreeModel AdaModel AdaSpec PhySpec.
From Verif.State Require Import Drop.
From Verif.Ent Require Import BlockModel BlockSpec PassModel PassSpec CircuitSpec PairMath CrotProofs PermProofs ExecProofs EmitProofs PassProofs CircuitProofs.
From Verif.Compiler Require Import DispatchModel DispatchSpec DispatchProofs WholeModel WholeSpec WholeNorm WholeOps WholeProofs WholeAda ChosenModel ChosenSpec.
Import ListNotations.
Local Open Scope nat_scope.

Section Chosen.
  Variables (sp : lgraph -> Z -> Z -> res (list Z)).
  Variables (round6 : R -> R) (det : nat -> (nat -> nat -> R) -> R) (solve : nat -> (nat -> nat -> R) -> (nat -> R) -> res (list R)).
  Hypothesis SP : finds_shortest sp.
  Hypothesis HD : exact_det det.
  Hypothesis HS : exact_solve det solve.
  Hypothesis HR : rounds6 round6.
  Variables (dims : list nat) (p : nat -> nat -> nat).
  Hypothesis F : fine dims p.
  Notation N := (prodl dims).
  Notation Lin := (proj1 F).
  Notation Inj := (proj2 F).
  Notation rg := (reg dims p).
  Notation done := (done dims p).

  (** a gate left as it is, at home *)
  Lemma kept_done ts g M : lines_ok dims ts -> opof dims [g] (emb dims ts M) -> unitary (prodl (sub_dims dims ts)) M ->
    (forall t, In t ts -> at_home dims p t) -> done 0 [g] [g].
  Proof.
    intros LO O U H. exists (emb dims ts M), (emb dims ts M), (emb dims ts M), 0%R. split; [exact O|]. split; [|split; [|split; [|split]]].
    - apply (moved_emb dims p Lin Inj); [exact LO|]. intros r c Hr Hc. assert (HH : forall t, In t ts -> t < List.length dims /\ at_home dims p t) by (intros t Ht; split; [apply LO; exact Ht|apply H; exact Ht]). rewrite !(home_index dims p Lin) by assumption. reflexivity.
    - apply emb_unitary; assumption.
    - exact O.
    - apply emb_unitary; assumption.
    - apply approx_0. apply meq_sym, phase_0.
  Qed.
  Lemma kept_one q U : q < List.length dims -> unitary (nth q dims 0) U -> at_home dims p q -> done 0 [on_one q false U] [on_one q false U].
  Proof.
    intros Hq HU H. apply (kept_done [q] _ U); [apply lines_one; exact Hq|apply (op_on_one dims q false U Hq)|rewrite one_size; exact HU|]. intros t [<-|[]]. exact H.
  Qed.
  Lemma pair_in q0 q1 t : In t (pair_of q0 q1) -> t = q0 \/ t = q1.
  Proof. unfold pair_of. destruct (q0 <? q1); intros [<-|[<-|[]]]; auto. Qed.
  Lemma kept_two q0 q1 op : two_lines dims q0 q1 -> at_home dims p q0 -> at_home dims p q1 ->
    match op with TCex x dag => cex_fits (nth q0 dims 0) (nth q1 dims 0) x | TMat U => unitary (nth q0 dims 0 * nth q1 dims 0) U end ->
    done 0 [as_gate (CUser2 (Two q0 q1 (nth q0 dims 0) (nth q1 dims 0) op))] [as_gate (CUser2 (Two q0 q1 (nth q0 dims 0) (nth q1 dims 0) op))].
  Proof.
    intros (H0 & H1 & Dq) A0 A1 H.
    assert (K : forall dag M, unitary (nth q0 dims 0 * nth q1 dims 0) M -> done 0 [on_two q0 q1 dag M] [on_two q0 q1 dag M]).
    { intros dag M U. apply (kept_done (pair_of q0 q1) _ (if dag then madj M else M)); [apply lines_pair; assumption|apply op_on_two; assumption| |].
      - rewrite pair_size. destruct dag; [apply unitary_adj|]; exact U.
      - intros t Ht. apply pair_in in Ht. destruct Ht as [-> | ->]; assumption. }
    destruct op as [x dag|U]; cbn [as_gate]; [|apply K; exact H]. apply K.
    destruct (cex_array (nth q0 dims 0) (nth q1 dims 0) (q0 <? q1) x) as [M|e] eqn:E; cbn [the].
    - apply (cex_unitary _ _ (q0 <? q1) x); [destruct H; lia|apply H|exact E].
    - apply unitary_id.
  Qed.

  (** the logical local pass puts out the inverse *)
  Lemma log_ok gs q U : device dims gs p -> q < List.length dims -> unitary (nth q dims 0) U -> at_home dims p q ->
    exists l gs', log_transpile_gate sp gs (Z.of_nat q) (nth q dims 0) U = Ok (l, gs') /\ device dims gs' p /\
      done (INR (nth q dims 0) * code_error (nth q dims 0)) [on_one q false (madj U)] (map (fun o => as_gate (CRot q (nth q dims 0) o)) l).
  Proof.
    intros D Hq HU AH. set (d := nth q dims 0) in *. destruct (D q Hq) as (g & G & L & NP). fold d in L. assert (RT := lo_routable _ _ _ L). assert (CV := laid_covers _ _ _ L).
    destruct code_pos as [E0 D0].
    destruct (log_execute_ok sp code_eps code_delta false false d U g SP RT CV HU E0 D0) as (ops & alg & tot & g' & E & C & T & _ & _ & _ & R' & S' & Z5).
    exists (map plain ops), (put_graph gs (Z.of_nat q) g'). split; [|split].
    - unfold log_transpile_gate. rewrite (proj1 (nth_pyindex _ _ _) G). cbn [bindr]. rewrite E. reflexivity.
    - apply device_put; trivial; [|apply Z5; reflexivity]. apply (laid_same d g g' (p q) L R' S'). intros n x. apply (sb_placed d g g' n x (rt_wf d g RT) (rt_wf d g' R') S').
    - assert (Q : (0 <= qr_error code_eps code_delta d)%R) by (apply qr_error_nonneg; assumption).
      set (l := map plain ops).
      assert (CM : circuit_matrix d l = ops_matrix d ops) by reflexivity.
      assert (CL : close d (code_error d) (circuit_matrix d l) (madj U)) by (rewrite CM; apply (close_inverse_r d _ (ops_matrix d ops) U HU); [exact Q|exact C]).
      assert (UL : unitary d (circuit_matrix d l)) by (rewrite CM; exact T).
      assert (LO := lines_one dims q Hq). assert (SZ := one_size dims q). fold d in SZ.
      exists (emb dims [q] (madj U)), (emb dims [q] (madj U)), (emb dims [q] (circuit_matrix d l)), 0%R. split; [apply (op_on_one dims q false (madj U) Hq)|]. split; [|split; [|split; [|split]]].
      + apply (moved_emb dims p Lin Inj); [exact LO|]. intros r c Hr Hc. rewrite !(home_index dims p Lin) by (trivial; intros t [<-|[]]; auto). reflexivity.
      + apply emb_unitary; [exact LO|]. rewrite SZ. apply unitary_adj. exact HU.
      + assert (EC : chain (prodl (sub_dims dims [q])) (map (gate_matrix d) l) = circuit_matrix d l) by (rewrite SZ; unfold chain, circuit_matrix; symmetry; apply fold_chain).
        rewrite <- EC. apply op_list; [exact LO|]. clear - Hq. induction l as [|o l IH]; cbn [map]; constructor; [|exact IH].
        destruct o as [o dag]. cbn [as_gate]. apply (op_on_one dims q dag (op_matrix d o) Hq).
      + apply emb_unitary; [exact LO|]. rewrite SZ. exact UL.
      + eapply approx_ext; [apply meq_refl|apply meq_sym, phase_0|]. rewrite <- SZ at 1. apply emb_approx; [exact LO| |rewrite SZ; exact CL].
        unfold code_error. apply Rmult_le_pos; [apply pos_INR|exact Q].
  Qed.

  (** the logical two-qudit pass on two qubits *)
  Lemma log_ent_ok q0 q1 op : two_lines dims q0 q1 -> q0 < q1 -> nth q0 dims 0 = 2 -> nth q1 dims 0 = 2 -> at_home dims p q0 -> at_home dims p q1 ->
    match op with TCex x dag => cex_fits 2 2 x | TMat U => unitary 4 U end ->
    exists l, ent_transpile_gate round6 det solve (Two q0 q1 2 2 op) = Ok l /\
      done (4 * (4 * ent_error code_eps code_delta 4)) [as_gate (CUser2 (Two q0 q1 2 2 op))] (map (fun e => as_gate (CBlock q0 q1 2 2 e)) l).
  Proof.
    intros (H0 & H1 & Dq) Lt D0 D1 A0 A1 H.
    assert (X : exists U, two_matrix (Two q0 q1 2 2 op) = Ok U /\ unitary 4 U /\ opof dims [as_gate (CUser2 (Two q0 q1 2 2 op))] (emb dims (pair_of q0 q1) U)).
    { destruct op as [x dag|U]; cbn [as_gate two_matrix tw_op tw_dc tw_dt tw_q0 tw_q1].
      - destruct (cex_returns 2 2 (q0 <? q1) x (proj2 (proj1 (proj2 H)))) as (M & E). rewrite E. cbn [bindr the]. exists (flagged dag M). split; [reflexivity|]. split.
        + apply (flagged_unitary (2 * 2)). apply (cex_unitary 2 2 (q0 <? q1) x); [lia|apply H|exact E].
        + apply (op_on_two dims q0 q1 dag M H0 H1 Dq).
      - exists U. split; [reflexivity|]. split; [exact H|apply (op_on_two dims q0 q1 false U H0 H1 Dq)]. }
    destruct X as (U & EU & HU & OU).
    destruct (emitted_ok round6 det solve HD HS HR 2 2 U ltac:(lia) ltac:(lia) HU) as (l0 & El0 & Gd & C).
    assert (UF := proj2 (proj2 Gd) eq_refl eq_refl). destruct (C UF) as (gm & CL).
    exists (map set_dag (rev l0)). split; [unfold ent_transpile_gate; rewrite EU; cbn [bindr tw_dc tw_dt tw_q0 tw_q1]; rewrite (proj2 (Nat.ltb_lt _ _) Lt); exact El0|].
    assert (LO := lines_pair dims q0 q1 H0 H1 Dq). assert (SZ := pair_size dims q0 q1). rewrite D0, D1 in SZ. change (2 * 2) with 4 in *.
    assert (PO : pair_of q0 q1 = [q0; q1]) by (unfold pair_of; rewrite (proj2 (Nat.ltb_lt _ _) Lt); reflexivity).
    set (l := map set_dag (rev l0)) in *. assert (BM := emit_bmat 2 2 l0 ltac:(lia) ltac:(lia) Gd). fold l in BM. change (2 * 2) with 4 in BM.
    assert (OKl : forallb (BlockModel.gate_ok 2 2) l = true) by (unfold l; rewrite ok_back; apply Gd).
    assert (UB : unitary 4 (bmat 2 2 l)) by (apply (bmat_unitary 2 2); [lia|lia|exact OKl]).
    exists (emb dims (pair_of q0 q1) U), (emb dims (pair_of q0 q1) U), (emb dims (pair_of q0 q1) (bmat 2 2 l)), gm.
    split; [exact OU|]. split; [|split; [|split; [|split]]].
    + apply (moved_emb dims p Lin Inj); [exact LO|]. intros r c Hr Hc. rewrite !(home_index dims p Lin) by (trivial; intros t Ht; rewrite PO in Ht; destruct Ht as [<-|[<-|[]]]; auto). reflexivity.
    + apply emb_unitary; [exact LO|]. rewrite SZ. exact HU.
    + unfold bmat. change (2 * 2) with 4. rewrite <- SZ. apply op_list; [exact LO|]. clear - H0 H1 Lt D0 D1 PO Dq. induction l as [|e l IH]; cbn [map]; constructor; [|exact IH].
      rewrite PO. destruct e as [[|] k dag|dag]; cbn [as_gate tracked].
      * eapply op_ext; [|exact (op_on_one dims q1 dag _ H1)]. eapply meq_trans; [apply (widen_second dims q0 q1 _ H0 H1 Lt)|]. rewrite D1. apply meq_refl.
      * eapply op_ext; [|exact (op_on_one dims q0 dag _ H0)]. eapply meq_trans; [apply (widen_first dims q0 q1 _ H0 H1 Lt)|]. rewrite D1. apply meq_refl.
      * rewrite <- PO. rewrite (proj2 (Nat.ltb_lt _ _) Lt). exact (op_on_two dims q0 q1 dag _ H0 H1 Dq).
    + apply emb_unitary; [exact LO|]. rewrite SZ. exact UB.
    + eapply approx_ext; [apply meq_refl|apply emb_phase; exact LO|]. replace 4%R with (INR (prodl (sub_dims dims (pair_of q0 q1)))) at 1 by (rewrite SZ; cbn; ring).
      assert (NN : (0 <= ent_error code_eps code_delta 4)%R) by apply ent_error_nonneg.
      apply emb_approx; [exact LO|lra|]. rewrite SZ. eapply close_meq; [apply meq_sym; exact BM|]. replace 4%R with (INR 4) by (cbn; ring). exact CL.
  Qed.

  Variable names : list string.
  Variable dict : list (gtype * cls).
  Hypothesis CH : choose [] names = Ok dict.
  Notation wants := (responsible names SINGLE PhyLocAda).

  Lemma chosen_gate gs g h e : device dims gs p -> (wants -> coupled_device dims gs) -> becomes dims p names g h e ->
    exists l gs' enough, device dims gs' p /\ (wants -> coupled_device dims gs') /\ done e [as_gate h] (map as_gate l) /\
      forall fuel, enough <= fuel -> forall r new,
      rewrite_all type_of (the_pass sp round6 det solve fuel) dict gs (g :: r) new = rewrite_all type_of (the_pass sp round6 det solve fuel) dict gs' r (new ++ l).
  Proof.
    intros D CD B.
    assert (KN : forall n, In n names -> exists c, named n c) by (apply (choose_known names []); exists dict; exact CH).
    assert (ONE : forall c d, responsible names SINGLE c -> responsible names SINGLE d -> c = d) by (intros c d; apply responsible_fun; exact KN).
    destruct B as [q U NB Hq HU AH|q U RS Hq HU|q U RS Hq HU AG|q U RS Hq HU AH|q0 q1 op NB TL A0 A1 H|q0 q1 op RS TL Lt D0 D1 A0 A1 H|t RS I|ts U I].
    - exists [CUser1 q (nth q dims 0) U], gs, 0. split; [exact D|]. split; [exact CD|]. split; [apply kept_one; assumption|].
      intros fuel _ r new. cbn [rewrite_all type_of]. rewrite (proj2 (choose_none names dict CH SINGLE) NB). reflexivity.
    - destruct (single_ok sp SP dims p F gs q U D Hq HU) as (l & gs' & E & D' & Dn). exists (map (CRot q (nth q dims 0)) l), gs', 0.
      split; [exact D'|]. split; [intros W; discriminate (ONE _ _ W RS)|]. split; [rewrite map_map; exact Dn|].
      intros fuel _ r new. cbn [rewrite_all type_of]. rewrite (proj2 (choose_some names dict CH SINGLE _) RS). unfold transpile_gate, the_pass, pass_result. cbn [single bindr]. rewrite E. reflexivity.
    - destruct AG as [Hd DF]. destruct (ada_ok sp SP dims p F gs q U D (CD RS) Hq HU Hd DF) as (l & gs' & enough & E & D' & CD' & Dn). exists (map (CRot q (nth q dims 0)) l), gs', enough.
      split; [exact D'|]. split; [intros _; exact CD'|]. split; [rewrite map_map; exact Dn|].
      intros fuel Hf r new. cbn [rewrite_all type_of]. rewrite (proj2 (choose_some names dict CH SINGLE _) RS). unfold transpile_gate, the_pass, pass_result. cbn [single bindr].
      rewrite (E fuel Hf). cbn [bindr fst snd]. rewrite slots_all. reflexivity.
    - destruct (log_ok gs q U D Hq HU AH) as (l & gs' & E & D' & Dn). exists (map (CRot q (nth q dims 0)) l), gs', 0.
      split; [exact D'|]. split; [intros W; discriminate (ONE _ _ W RS)|]. split; [rewrite map_map; exact Dn|].
      intros fuel _ r new. cbn [rewrite_all type_of]. rewrite (proj2 (choose_some names dict CH SINGLE _) RS). unfold transpile_gate, the_pass, pass_result. cbn [single bindr]. rewrite E. reflexivity.
    - eexists [_], gs, 0. split; [exact D|]. split; [exact CD|]. split; [apply kept_two; eassumption|].
      intros fuel _ r new. cbn [rewrite_all type_of]. rewrite (proj2 (choose_none names dict CH TWO) NB). reflexivity.
    - destruct (log_ent_ok q0 q1 op TL Lt D0 D1 A0 A1 H) as (l & E & Dn). exists (map (CBlock q0 q1 2 2) l), gs, 0.
      split; [exact D|]. split; [exact CD|]. split; [rewrite map_map; exact Dn|].
      intros fuel _ r new. cbn [rewrite_all type_of]. rewrite (proj2 (choose_some names dict CH TWO _) RS). unfold transpile_gate, the_pass, pass_result. cbn [double bindr]. rewrite E. reflexivity.
    - destruct t as [q0 q1 dc dt op]. cbn [implementable] in I. destruct I as (H0 & H1 & Dq & -> & -> & I). destruct op as [x dag|U].
      + destruct I as (-> & Fx & Hp). destruct (cex_ok sp round6 det solve dims p F gs q0 q1 x D H0 H1 Dq Fx Hp) as (y & E & Dn). exists [CCex q0 q1 (nth q0 dims 0) (nth q1 dims 0) y], gs, 0.
        split; [exact D|]. split; [exact CD|]. split; [exact Dn|].
        intros fuel _ r new. cbn [rewrite_all type_of]. rewrite (proj2 (choose_some names dict CH TWO _) RS). unfold transpile_gate, the_pass, pass_result. cbn [double bindr]. rewrite E. reflexivity.
      + destruct I as (Lt & D0 & D1 & HU & A0 & A1). destruct (qubits_ok sp round6 det solve SP HD HS HR dims p F gs q0 q1 U D H0 H1 Lt D0 D1 HU A0 A1) as (l & gs' & E & D' & KL & Dn).
        exists (map (CBlock q0 q1 2 2) l), gs', 0. split; [exact D'|]. split; [intros W; exact (coupled_linked dims gs gs' (CD W) KL)|]. split; [rewrite map_map; exact Dn|].
        intros fuel _ r new. rewrite D0, D1. cbn [rewrite_all type_of]. rewrite (proj2 (choose_some names dict CH TWO _) RS). unfold transpile_gate, the_pass, pass_result. cbn [double bindr]. rewrite E. cbn [bindr fst snd tw_dc tw_dt].
        assert (X : flat_map (from_ent 2 2) (map (EGate q0 q1) l) = map (CBlock q0 q1 2 2) l) by (clear; induction l as [|e l IH]; [reflexivity|]; cbn [map flat_map from_ent app]; rewrite IH; reflexivity).
        rewrite X. reflexivity.
    - exists [CUserN ts U], gs, 0. split; [exact D|]. split; [exact CD|]. split.
      + destruct I as (Ne & S & L & HU). destruct (op_on_many dims ts U Ne S (fun t Ht => proj1 (L t Ht))) as [O LO]. apply (kept_done ts _ U LO O HU). intros t Ht. apply L. exact Ht.
      + intros fuel _ r new. cbn [rewrite_all type_of]. rewrite (proj2 (choose_none names dict CH MULTI)); [reflexivity|]. intros n c _ Nm M. destruct Nm; cbn in M; discriminate || contradiction.
  Qed.
  Lemma chosen_all l m e : program_becomes dims p names l m e -> forall gs, device dims gs p -> (wants -> coupled_device dims gs) ->
    exists gs' out enough, device dims gs' p /\ done e (map as_gate m) (map as_gate out) /\
      forall fuel, enough <= fuel -> forall new, rewrite_all type_of (the_pass sp round6 det solve fuel) dict gs l new = (gs', Ok (new ++ out)).
  Proof.
    induction 1 as [|g h e l m f B PB IH]; intros gs D CD.
    - exists gs, [], 0. split; [exact D|]. split; [exact (done_nil dims p F)|]. intros fuel _ new. cbn. rewrite app_nil_r. reflexivity.
    - destruct (chosen_gate gs g h e D CD B) as (lg & gs1 & n1 & D1 & CD1 & Dn1 & E1). destruct (IH gs1 D1 CD1) as (gs' & out & n2 & D' & Dn2 & E2).
      exists gs', (lg ++ out), (Nat.max n1 n2). split; [exact D'|]. split.
      + cbn [map]. change (as_gate h :: map as_gate m) with ([as_gate h] ++ map as_gate m). rewrite map_app. apply done_app; assumption.
      + intros fuel Hf new. rewrite (E1 fuel) by lia. rewrite (E2 fuel) by lia. rewrite app_assoc. reflexivity.
  Qed.
End Chosen.

Theorem chosen_ok sp round6 det solve names gs p c hs e : finds_shortest sp -> rounds6 round6 -> exact_det det -> exact_solve det solve ->
  num_qudits c = List.length (dimensions c) -> (forall n, In n names -> exists k, named n k) -> device (dimensions c) gs p ->
  (responsible names SINGLE PhyLocAda -> coupled_device (dimensions c) gs) ->
  program_becomes (dimensions c) p names (instructions c) hs e ->
  exists gs' out enough, (forall fuel, enough <= fuel -> whole_compile sp round6 det solve fuel names gs c = (gs', Ok out)) /\
    device (dimensions c) gs' p /\ same_registers out c /\
    mappings out = Some (map (fun i => map (p i) (seq 0 (nth i (dimensions c) 0))) (seq 0 (List.length (dimensions c)))) /\
    (forall psi, exists psi', placed_state (dimensions c) p psi psi') /\
    (forall psi, exists phi, evolves (dimensions c) psi (map as_gate hs) phi) /\
    (forall psi, exists phi, evolves (dimensions c) psi (map as_gate (instructions out)) phi) /\
    implements (dimensions c) p e (map as_gate (instructions out)) (map as_gate hs).
Proof.
  intros SP HR HD HS HN KN D CD PB. assert (F := device_fine _ _ _ D). set (dims := dimensions c) in *.
  destruct (proj2 (choose_known names []) KN) as (dict & CH).
  destruct (chosen_all sp round6 det solve SP HD HS HR dims p F names dict CH _ _ _ PB gs D CD) as (gs' & new & enough & D' & Dn & E).
  set (ms := map (fun i => map (p i) (seq 0 (nth i dims 0))) (seq 0 (List.length dims))).
  assert (EM : mappings_of level_maps gs' c = Ok ms) by (unfold mappings_of; rewrite HN; apply mapping_laid; exact D').
  exists gs', (set_instructions (set_mapping c ms) new), enough. split.
  { intros fuel Hf. unfold whole_compile, compile. rewrite CH, (E fuel Hf), EM. reflexivity. }
  destruct (done_runs _ _ _ _ _ Dn) as [R1 R2].
  split; [exact D'|]. split; [unfold same_registers; cbn; repeat split|]. split; [reflexivity|]. split; [apply (placed_exists dims p (proj1 F) (proj2 F))|].
  split; [exact R1|]. split; [exact R2|]. apply done_implements; [exact F|exact Dn].
Qed.
