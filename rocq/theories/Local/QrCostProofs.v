(** Proofs about the costs a QR decomposition reports. *)
From Coq Require Import Reals Lra Lia List Arith ZArith.
From Verif.Base Require Import Py PyFacts Cplx Matrix Angle.
From Verif.Gates Require Import AnglesModel AnglesSpec AnglesProofs SingleModel SingleSpec SingleProofs CostProofs.
From Verif.Levels Require Import LevelsModel LevelsSpec GraphProofs LevelsProofs RouteProofs PhaseProofs DistanceSpec DistanceProofs.
From Verif.Sim Require Import TnSpec.
From Verif.Variational Require EmitProofs.
From Verif.Local Require Import QrModel QrSpec QrMath QrCore QrMoved QrEmit QrProofs QrPhysical QrPasses QrCases TreeModel AdaModel AdaSpec SearchProofs AdaProofs AdaFound PhyFound QrCostSpec.
Import ListNotations.
Local Open Scope list_scope.
Local Open Scope nat_scope.

Ltac ok H := apply EmitProofs.bindr_Ok in H; destruct H as (? & ? & H).

(** *** The two decompositions report the same costs *)
Section Same.
  Variables (sp : lgraph -> Z -> Z -> res (list Z)) (eps delta : R) (d : nat).
  Definition agree (s t : qstate) : Prop := q_u s = q_u t /\ q_alg s = q_alg t /\ q_total s = q_total t.
  Lemma step_agree g s t rc s' t' : agree s t -> log_step sp eps d g s rc = Ok s' -> phy_step sp eps d g t rc = Ok t' -> agree s' t'.
  Proof.
    intros (A & B & C) E F. destruct rc as (r, c). unfold log_step, phy_step in *. rewrite A in E.
    destruct (Rlt_dec eps (Cmod (q_u t r c))) as [Y|Y]; [|injection E as <-; injection F as <-; exact (conj A (conj B C))].
    destruct (qr_rotation d (q_u t) r c) as [q|]; [|discriminate]. cbn [bindr] in E, F.
    destruct (cost_calculator sp d q g (count_nonzero d (mmul d (op_matrix d (OR q)) (q_u t)))) as [((((est, ps), g'), cpi), gc)|]; [|discriminate].
    cbn [bindr] in E, F. injection E as <-. repeat ok F. injection F as <-. cbn. rewrite B, C. repeat split.
  Qed.
  Lemma fold_agree g l : forall s t s' t', agree s t -> foldr (log_step sp eps d g) l s = Ok s' -> foldr (phy_step sp eps d g) l t = Ok t' -> agree s' t'.
  Proof.
    induction l as [|x l IH]; intros s t s' t' A E F; cbn [foldr] in *; [injection E as <-; injection F as <-; exact A|].
    apply EmitProofs.bindr_Ok in E. destruct E as (s1 & E1 & E). apply EmitProofs.bindr_Ok in F. destruct F as (t1 & F1 & F).
    exact (IH _ _ _ _ (step_agree g s t x s1 t1 A E1 F1) E F).
  Qed.
  Lemma flush_step_same level level' i ops rec ops' g a b : flush_step delta level d (ops, rec, g) i = Ok a -> flush_step delta level' d (ops', rec, g) i = Ok b ->
    snd (fst a) = snd (fst b) /\ snd a = snd b.
  Proof.
    unfold flush_step. destruct (node_attr g (Z.of_nat i) "phase_storage") as [v|]; [|discriminate]. cbn [bindr]. destruct (num v) as [x|]; [|discriminate]. cbn [bindr].
    intros E F. apply EmitProofs.bindr_Ok in E. destruct E as (o1 & _ & E). apply EmitProofs.bindr_Ok in F. destruct F as (o2 & _ & F).
    destruct (write_attr g (Z.of_nat i) "phase_storage" (AInt 0)) as [g'|]; [|discriminate]. cbn [bindr] in *. injection E as <-. injection F as <-. split; reflexivity.
  Qed.
  Lemma flush_fold_same level level' l : forall ops rec ops' g a b, foldr (flush_step delta level d) l (ops, rec, g) = Ok a ->
    foldr (flush_step delta level' d) l (ops', rec, g) = Ok b -> snd a = snd b.
  Proof.
    induction l as [|i l IH]; intros ops rec ops' g a b E F; cbn [foldr] in *; [injection E as <-; injection F as <-; reflexivity|].
    apply EmitProofs.bindr_Ok in E. destruct E as (((o1, r1), g1) & E1 & E). apply EmitProofs.bindr_Ok in F. destruct F as (((o2, r2), g2) & F1 & F).
    destruct (flush_step_same _ _ _ _ _ _ _ _ _ E1 F1) as [A B]. cbn in A, B. subst r2 g2. exact (IH _ _ _ _ _ _ E F).
  Qed.
  Lemma flush_same level level' z g a b : flush delta level d z g = Ok a -> flush delta level' d z g = Ok b -> snd a = snd b.
  Proof.
    unfold flush. destruct z; [intros E F; injection E as <-; injection F as <-; reflexivity|].
    destruct (has_phases g) as [h|]; [|discriminate]. cbn [bindr]. destruct h; [apply flush_fold_same|].
    intros E F. injection E as <-. injection F as <-. reflexivity.
  Qed.
  Lemma same_costs z n n' U g ops alg tot g1 ops' alg' tot' g2 :
    log_execute sp eps delta z n d U g = Ok (ops, alg, tot, g1) -> phy_execute sp eps delta z n' d U g = Ok (ops', alg', tot', g2) -> alg = alg' /\ tot = tot'.
  Proof.
    unfold log_execute, phy_execute, execute. intros E F.
    apply EmitProofs.bindr_Ok in E. destruct E as (((o1, r1), h1) & E1 & E). apply EmitProofs.bindr_Ok in F. destruct F as (((o2, r2), h2) & F1 & F).
    assert (X := flush_same _ _ _ _ _ _ E1 F1). cbn in X. subst h2.
    apply EmitProofs.bindr_Ok in E. destruct E as (s & E2 & E). apply EmitProofs.bindr_Ok in F. destruct F as (t & F2 & F).
    assert (A : agree s t) by (eapply fold_agree; [|exact E2|exact F2]; repeat split). destruct A as (_ & A & B).
    repeat ok E. repeat ok F. injection E as <- <- <- <-. injection F as <- <- <- <-. auto.
  Qed.
End Same.

(** *** Adding costs *)
Lemma gates_cost_app l l' : gates_cost (l ++ l') = (gates_cost l + gates_cost l')%R.
Proof. unfold gates_cost. induction l as [|o l IH]; cbn [fold_right app]; [ring|]. rewrite IH. ring. Qed.
Lemma gates_cost_free l : rotation_free l -> gates_cost l = 0%R.
Proof.
  induction l as [|o l IH]; intros H; [reflexivity|]. change (gates_cost (o :: l)) with (gate_cost o + gates_cost l)%R. rewrite IH by (intros r Hr; apply (H r); right; exact Hr).
  destruct o as [r|p]; [exfalso; apply (H r); left; reflexivity|]. cbn [gate_cost]. ring.
Qed.
Lemma free_app l l' : rotation_free (l ++ l') <-> rotation_free l /\ rotation_free l'.
Proof.
  unfold rotation_free. split; [intros H; split; intros r Hr; apply (H r); apply in_or_app; auto|intros [A B] r Hr; apply in_app_or in Hr; destruct Hr; [apply (A r)|apply (B r)]; assumption].
Qed.

(** *** Angles *)
Lemma cost_mono t t' : (Rabs t <= Rabs t')%R -> (theta_cost t <= theta_cost t')%R.
Proof.
  intros [H|H]; [left; apply theta_cost_increasing; exact H|]. right.
  assert (X : t = t' \/ t = (- t')%R) by (unfold Rabs in H; destruct (Rcase_abs t), (Rcase_abs t'); lra).
  destruct X as [-> | ->]; [reflexivity|]. apply theta_cost_props.
Qed.
Lemma regulate_top y : (0 <= y < 2 / 10)%R -> regulate_theta ((4 + y) * PI) = ((4 + y) * PI)%R /\ (Rabs (regulate_theta (- ((4 + y) * PI))) <= (4 + y) * PI)%R.
Proof.
  intros Hy. assert (P := PI_RGT_0).
  assert (M : rmod (4 + y) 4 = y).
  { destruct (rmod_same (4 + y) 4) as (k & Hk). assert (B := rmod_bounds (4 + y) 4 ltac:(lra)). rewrite Hk in B.
    assert (K : (-2 < k < 0)%Z) by (split; apply lt_IZR; lra). assert (k = -1)%Z by lia. subst k. rewrite Hk. lra. }
  assert (D : forall x, (x * PI / PI = x)%R) by (intros; field; lra).
  unfold regulate_theta. split.
  - rewrite D, (Rabs_right (4 + y)), M by lra. destruct (Rlt_dec ((4 + y) * PI) 0) as [H|H]; [nra|]. rewrite (Rabs_right y) by lra.
    destruct (Rlt_dec y (2 / 10)) as [Q|Q]; [ring|exfalso; apply Q; lra].
  - replace (- ((4 + y) * PI))%R with ((- (4 + y)) * PI)%R by ring. rewrite D, Rabs_Ropp, (Rabs_right (4 + y)), M by lra.
    destruct (Rlt_dec (- (4 + y) * PI) 0) as [H|H]; [|nra]. replace (y * -1)%R with (- y)%R by ring. rewrite Rabs_Ropp, (Rabs_right y) by lra.
    destruct (Rlt_dec y (2 / 10)); [|lra]. assert (0 <= y * PI)%R by (apply Rmult_le_pos; lra). rewrite Rabs_right; nra.
Qed.
Lemma regulate_again t t' : t' = regulate_theta t \/ t' = (regulate_theta t * -1)%R -> (Rabs (regulate_theta t') <= Rabs (regulate_theta t))%R.
Proof.
  assert (P := PI_RGT_0). destruct (regulate_theta_spec t) as (_ & B & _). set (x := regulate_theta t) in *. intros H.
  assert (A : Rabs t' = Rabs x) by (destruct H as [-> | ->]; [reflexivity|]; replace (x * -1)%R with (- x)%R by ring; apply Rabs_Ropp).
  destruct (Rlt_le_dec (Rabs x) (4 * PI)) as [L|L].
  - rewrite (regulate_theta_sign t') by (rewrite A; lra). rewrite A. lra.
  - assert (X : (0 < x)%R).
    { unfold x in *. clear H A t'. unfold regulate_theta in *. assert (R := rmod_bounds (Rabs (t / PI)) 4 ltac:(lra)).
      set (u := rmod (Rabs (t / PI)) 4) in *. clearbody u. destruct (Rlt_dec t 0) as [T|T].
      - replace (u * -1)%R with (- u)%R in * by ring. rewrite !Rabs_Ropp, !(Rabs_right u) in * by lra.
        destruct (Rlt_dec u (2 / 10)); [nra|]. exfalso. rewrite Rabs_mult, Rabs_Ropp, !Rabs_right in L by lra. nra.
      - rewrite !(Rabs_right u) in * by lra. destruct (Rlt_dec u (2 / 10)); nra. }
    rewrite (Rabs_right x) in * by lra. set (y := (x / PI - 4)%R). assert (EX : x = ((4 + y) * PI)%R) by (unfold y; field; lra).
    assert (Hy : (0 <= y < 2 / 10)%R) by (clearbody y; rewrite EX in B, L; split; nra).
    destruct (regulate_top y Hy) as [R1 R2]. destruct H as [-> | ->].
    + rewrite EX at 1. rewrite R1. rewrite Rabs_right; lra.
    + replace (x * -1)%R with (- ((4 + y) * PI))%R by (rewrite EX; ring). rewrite EX. exact R2.
Qed.

(** *** Entries that count *)
Lemma large_entry d A j : unitary d A -> j < d -> (INR d < 100000000)%R -> exists i, i < d /\ (1 / 10000 < Cmod (A i j))%R.
Proof.
  intros HU Hj Hd.
  assert (X : (exists i, i < d /\ (1 / 10000 < Cmod (A i j))%R) \/ forall i, i < d -> (Cmod (A i j) <= 1 / 10000)%R).
  { clear. induction d as [|d IH]; [right; intros; lia|]. destruct IH as [(i & Hi & H)|IH]; [left; exists i; auto|].
    destruct (Rlt_le_dec (1 / 10000) (Cmod (A d j))) as [L|L]; [left; exists d; auto|]. right. intros i Hi.
    destruct (Nat.eq_dec i d) as [->|N]; [exact L|]. apply IH. lia. }
  destruct X as [X|X]; [exact X|]. exfalso. assert (S1 := unitary_col d A j HU Hj).
  assert (S2 : (rsum d (fun i => Cnorm2 (A i j)) <= rsum d (fun _ => 1 / 100000000))%R).
  { apply rsum_le. intros k Hk. rewrite <- Cmod_sqr. assert (B := X k Hk). assert (C := Cmod_nonneg (A k j)). nra. }
  rewrite rsum_const in S2. lra.
Qed.
Lemma two_nonzeros d A : unitary d A -> 2 <= d -> (INR d < 100000000)%R -> (2 <= count_nonzero d A)%Z.
Proof.
  intros HU H2 Hd. destruct (large_entry d A 0 HU ltac:(lia) Hd) as (i0 & H0 & L0). destruct (large_entry d A 1 HU ltac:(lia) Hd) as (i1 & H1 & L1).
  unfold count_nonzero. set (l := filter _ _).
  assert (X : 2 <= List.length l); [|lia]. change 2 with (List.length [(i0, 0); (i1, 1)]). apply NoDup_incl_length.
  - constructor; [intros [E|[]]; discriminate|]. constructor; [intros []|constructor].
  - intros x Hx. apply filter_In. destruct Hx as [<-|[<-|[]]]; cbn [fst snd]; (split; [apply in_prod; apply in_seq; lia|]).
    + destruct (Rlt_dec (1 / 10000) (Cmod (A i0 0))); [reflexivity|contradiction].
    + destruct (Rlt_dec (1 / 10000) (Cmod (A i1 1))); [reflexivity|contradiction].
Qed.

(** *** Pulses *)
Lemma loop_pi sp d : forall i path g ps cost c ps' g', Forall (fun p => pi_angle (r_theta p)) ps -> route_loop sp d i path g ps cost = Ok (c, ps', g') ->
  Forall (fun p => pi_angle (r_theta p)) ps'.
Proof.
  induction i as [|i IH]; intros path g ps cost c ps' g' F E; cbn [route_loop] in E; [injection E as _ <- _; exact F|].
  apply EmitProofs.bindr_Ok in E. destruct E as ((((c1, ps1), g1), path1) & E1 & E). eapply IH; [|exact E].
  unfold route_step in E1. do 6 ok E1. apply EmitProofs.bindr_Ok in E1. destruct E1 as (p0 & P0 & E1). apply EmitProofs.bindr_Ok in E1. destruct E1 as (p1 & P1 & E1).
  apply EmitProofs.bindr_Ok in E1. destruct E1 as (p2 & P2 & E1). repeat ok E1. injection E1 as _ <- _ _.
  apply Forall_app. split; [exact F|]. constructor; [|constructor]. eapply ongate_theta; [|exact P2]. eapply chain_theta; [|exact P1].
  rewrite (new_R_theta _ _ _ _ _ _ P0). rewrite regulate_pi; left; reflexivity.
Qed.
Lemma pulses_cost l : Forall (fun p => pi_angle (r_theta p)) l -> gates_cost (map OR l) = (INR (List.length l) * (4 / 10000))%R.
Proof.
  induction 1 as [|p l P F IH]; [cbn; ring|]. change (gates_cost (map OR (p :: l))) with (theta_cost (r_theta p) + gates_cost (map OR l))%R.
  rewrite IH, (pi_cost _ P). cbn [List.length]. rewrite S_INR. ring.
Qed.
Lemma back_pi d : forall l l', Forall (fun p => pi_angle (r_theta p)) l -> mapr (back_pulse d) l = Ok l' -> Forall (fun p => pi_angle (r_theta p)) l' /\ List.length l' = List.length l.
Proof.
  induction l as [|p l IH]; intros l' F E; cbn [mapr] in E; [injection E as <-; split; [constructor|reflexivity]|]. inversion F as [|? ? P F']; subst.
  apply EmitProofs.bindr_Ok in E. destruct E as (q & E1 & E). apply EmitProofs.bindr_Ok in E. destruct E as (l1 & E2 & E). injection E as <-.
  destruct (IH l1 F' E2) as [A B]. split; [|cbn; rewrite B; reflexivity]. constructor; [|exact A].
  rewrite (new_R_theta _ _ _ _ _ _ E1), (regulate_pi _ P). exact P.
Qed.
Lemma chain_cost d ps r r' t : r_theta r = regulate_theta t -> gate_chain_condition d ps r = Ok r' -> (theta_cost (r_theta r') <= theta_cost (regulate_theta t))%R.
Proof.
  intros T. unfold gate_chain_condition. destruct (last (map Some ps) None) as [p|]; [|intros [= <-]; rewrite T; lra].
  intros E. rewrite (new_R_theta _ _ _ _ _ _ E). apply cost_mono. apply regulate_again. rewrite T.
  repeat match goal with |- context [if ?c then _ else _] => destruct c end; auto.
Qed.
Lemma chain_none d r r' : gate_chain_condition d [] r = Ok r' -> r' = r.
Proof. cbn. congruence. Qed.
Lemma regulated_cost t : (0 < theta_cost (regulate_theta t))%R.
Proof. assert (X := rotation_cost_min t). lra. Qed.

(** *** One step *)
Section Steps.
  Variables (sp : lgraph -> Z -> Z -> res (list Z)) (eps : R) (d : nat) (g : lgraph).
  Hypothesis SP : finds_shortest sp.
  Hypothesis NE : names_nodes sp.
  Hypothesis RT : routable d g.
  Hypothesis CV : covers d g.
  Hypothesis SMALL : (INR d < 100000000)%R.

  (** What a step may add. *)
  Definition adds (s s' : qstate) : Prop :=
    s' = s \/ exists l tot alg, q_ops s' = q_ops s ++ l /\ q_total s' = (q_total s + tot)%R /\ q_alg s' = (q_alg s + alg)%R /\
      ~ rotation_free l /\ (0 < tot)%R /\ (gates_cost l <= tot <= alg)%R /\ (chain d g -> all_direct g -> gates_cost l = tot) /\ unitary d (q_u s').

  Lemma pieces u r c est ps g' cpi gc q : 0 < r < d -> unitary d u -> qr_rotation d u r c = Ok q ->
    cost_calculator sp d q g (count_nonzero d (mmul d (op_matrix d (OR q)) u)) = Ok (est, ps, g', cpi, gc) ->
    r_theta q = regulate_theta (qr_theta u r c) /\ unitary d (mmul d (op_matrix d (OR q)) u) /\
    (theta_cost (r_theta q) <= gc)%R /\ (INR (List.length ps) * (4 / 10000) <= cpi)%R /\ Forall (fun p => pi_angle (r_theta p)) ps /\
    (2 * cpi + gc <= est)%R /\ (chain d g -> all_direct g -> cpi = 0%R /\ ps = [] /\ gc = theta_cost (r_theta q)).
  Proof.
    intros Hr HU Eq Ec. destruct (qr_rotation_ok d u r c Hr) as (q' & Eq' & Mq & Oa & Ob). rewrite Eq in Eq'. injection Eq' as <-.
    assert (T : r_theta q = regulate_theta (qr_theta u r c)) by (exact (new_R_theta _ _ _ _ _ _ Eq)).
    assert (HU' : unitary d (mmul d (op_matrix d (OR q)) u)) by (apply unitary_mmul; [rewrite Mq; apply turn_unitary; exact Hr|exact HU]).
    destruct (pred_node d g CV r Hr) as [Na Nb].
    assert (Na' : is_node g (orig_a q)) by (rewrite Oa; exact Na). assert (Nb' : is_node g (orig_b q)) by (rewrite Ob; exact Nb). assert (Nab : orig_a q <> orig_b q) by lia.
    destruct (cost_calculator_min sp d q g _ _ _ _ _ _ SP RT Na' Nb' Nab Ec) as (C1 & _ & C3 & C4 & C5).
    assert (G0 := cost_at_least sp q g' gc NE C4).
    assert (GP : (0 < gc)%R) by (rewrite T in G0; assert (X := regulated_cost (qr_theta u r c)); lra).
    assert (NZ := two_nonzeros d _ HU' ltac:(lia) SMALL).
    split; [exact T|]. split; [exact HU'|]. split; [exact G0|]. split; [exact (route_cost sp d q g cpi ps g' NE C3)|].
    split; [|split].
    - unfold route_states2rotate_basic in C3. ok C3. eapply loop_pi; [|exact C3]. constructor.
    - rewrite C5. apply IZR_le in NZ. nra.
    - intros CH DI. unfold route_states2rotate_basic in C3. apply EmitProofs.bindr_Ok in C3. destruct C3 as (p & Ep & C3).
      destruct (SP g _ _ (rt_wf d g RT) (rt_connected d g RT) Na' Nb') as (p' & Ep' & Sh & Min). rewrite Ep in Ep'. injection Ep' as <-.
      assert (L : linked g (orig_a q) (orig_b q)).
      { rewrite Oa, Ob. assert (X := CH (r - 1) ltac:(lia)). replace (Z.of_nat (S (r - 1))) with (Z.of_nat r) in X by lia.
        replace (Z.of_nat (r - 1)) with (Z.of_nat r - 1)%Z in X by lia. exact X. }
      assert (W : walk g [orig_a q; orig_b q] (orig_a q) (orig_b q)) by (econstructor; [exact L|constructor]).
      assert (X := Min _ W). cbn [List.length] in X. replace (List.length p - 2) with 0 in C3 by lia. cbn [route_loop] in C3. injection C3 as <- <- <-.
      split; [reflexivity|]. split; [reflexivity|]. assert (D := cost_direct d g sp RT q (DI _) (DI _)). congruence.
  Qed.

  Lemma log_adds s r c s' : 0 < r < d -> unitary d (q_u s) -> log_step sp eps d g s (r, c) = Ok s' -> adds s s'.
  Proof.
    intros Hr HU E. unfold log_step in E. destruct (Rlt_dec eps (Cmod (q_u s r c))) as [Y|Y]; [right|left; congruence].
    apply EmitProofs.bindr_Ok in E. destruct E as (q & Eq & E). apply EmitProofs.bindr_Ok in E. destruct E as (((((est, ps), g'), cpi), gc) & Ec & E). injection E as <-.
    destruct (pieces _ _ _ _ _ _ _ _ _ Hr HU Eq Ec) as (T & HU' & G0 & P0 & F & LE & EX).
    assert (GP : (0 < theta_cost (r_theta q))%R) by (rewrite T; apply regulated_cost). assert (NN := pos_INR (List.length ps)).
    exists [OR q], (2 * cpi + gc)%R, est. cbn [q_ops q_u q_alg q_total]. split; [reflexivity|]. split; [reflexivity|]. split; [reflexivity|].
    split; [intros H; apply (H q); left; reflexivity|]. split; [lra|]. cbn [gates_cost fold_right gate_cost]. split; [lra|]. split; [|exact HU'].
    intros CH DI. destruct (EX CH DI) as (-> & _ & ->). lra.
  Qed.
  Lemma phy_adds s r c s' : 0 < r < d -> unitary d (q_u s) -> phy_step sp eps d g s (r, c) = Ok s' -> adds s s'.
  Proof.
    intros Hr HU E. unfold phy_step in E. destruct (Rlt_dec eps (Cmod (q_u s r c))) as [Y|Y]; [right|left; congruence].
    apply EmitProofs.bindr_Ok in E. destruct E as (q & Eq & E). apply EmitProofs.bindr_Ok in E. destruct E as (((((est, ps), g'), cpi), gc) & Ec & E).
    destruct (pieces _ _ _ _ _ _ _ _ _ Hr HU Eq Ec) as (T & HU' & G0 & P0 & F & LE & EX).
    assert (GP : (0 < theta_cost (r_theta q))%R) by (rewrite T; apply regulated_cost). assert (NN := pos_INR (List.length ps)).
    do 4 ok E. apply EmitProofs.bindr_Ok in E. destruct E as (y0 & Y0 & E). apply EmitProofs.bindr_Ok in E. destruct E as (y1 & Y1 & E).
    apply EmitProofs.bindr_Ok in E. destruct E as (bk & Bk & E). injection E as <-.
    assert (T0 := new_R_theta _ _ _ _ _ _ Y0). assert (CC := chain_cost d ps y0 y1 _ T0 Y1).
    destruct (back_pi d (rev ps) bk) as [FB LB]; [apply Forall_rev; exact F|exact Bk|]. rewrite rev_length in LB.
    exists (map OR ps ++ [OR y1] ++ map OR bk), (2 * cpi + gc)%R, est. cbn [q_ops q_u q_alg q_total]. split; [reflexivity|]. split; [reflexivity|]. split; [reflexivity|].
    split; [intros HF; apply (HF y1); apply in_or_app; right; left; reflexivity|]. split; [lra|].
    assert (GC : gates_cost (map OR ps ++ [OR y1] ++ map OR bk) = (INR (List.length ps) * (4 / 10000) + theta_cost (r_theta y1) + INR (List.length ps) * (4 / 10000))%R).
    { rewrite !gates_cost_app, (pulses_cost ps F), (pulses_cost bk FB), LB. cbn [gates_cost fold_right gate_cost]. ring. }
    rewrite GC. split; [rewrite T in G0; lra|]. split; [|exact HU'].
    intros CH DI. destruct (EX CH DI) as (-> & -> & ->). apply chain_none in Y1. subst y1. rewrite T0, T. cbn [List.length]. cbn [INR]. lra.
  Qed.

  Definition books (s : qstate) : Prop := unitary d (q_u s) /\ (gates_cost (q_ops s) <= q_total s <= q_alg s)%R /\ (0 <= q_total s)%R /\
    (rotation_free (q_ops s) -> q_alg s = 0 /\ q_total s = 0)%R /\ (~ rotation_free (q_ops s) -> 0 < q_total s)%R /\
    (chain d g -> all_direct g -> gates_cost (q_ops s) = q_total s).
  Lemma adds_books s s' : books s -> adds s s' -> books s'.
  Proof.
    intros (B1 & B2 & B3 & B4 & B5 & B6) [->|(l & tot & alg & E1 & E2 & E3 & NF & P & LE & EX & HU)]; [exact (conj B1 (conj B2 (conj B3 (conj B4 (conj B5 B6)))))|].
    unfold books. rewrite E1, E2, E3, gates_cost_app. split; [exact HU|]. split; [lra|]. split; [lra|].
    split; [intros F; apply free_app in F; destruct F as [_ F]; contradiction|]. split; [intros _; lra|]. intros CH DI. rewrite (B6 CH DI), (EX CH DI). reflexivity.
  Qed.
  Lemma fold_books (step : qstate -> nat * nat -> res qstate) : (forall s r c s', 0 < r < d -> unitary d (q_u s) -> step s (r, c) = Ok s' -> adds s s') ->
    forall l s s', (forall x, In x l -> 0 < fst x < d) -> books s -> foldr step l s = Ok s' -> books s'.
  Proof.
    intros ST. induction l as [|(r, c) l IH]; intros s s' HL B E; cbn [foldr] in E; [injection E as <-; exact B|].
    apply EmitProofs.bindr_Ok in E. destruct E as (s1 & E1 & E). eapply IH; [intros x Hx; apply HL; right; exact Hx| |exact E].
    eapply adds_books; [exact B|]. eapply ST; [apply (HL (r, c)); left; reflexivity|apply B|exact E1].
  Qed.
End Steps.

(** *** The whole decomposition *)
Lemma phases_free delta phase g d u : phase = log_phase delta \/ phase = phy_phase delta -> forall l ops ops',
  foldr (phase g d u) l ops = Ok ops' -> exists m, ops' = ops ++ m /\ rotation_free m.
Proof.
  intros HP. induction l as [|i l IH]; intros ops ops' E; cbn [foldr] in E; [injection E as <-; exists []; split; [rewrite app_nil_r; reflexivity|intros r []]|].
  apply EmitProofs.bindr_Ok in E. destruct E as (o1 & E1 & E). destruct (IH _ _ E) as (m & -> & F).
  assert (X : exists k, o1 = ops ++ k /\ rotation_free k).
  { destruct HP as [-> | ->]; unfold log_phase, phy_phase in E1; (destruct (Rlt_dec delta (Rabs (angle (u i i)))); [|injection E1 as <-; exists []; split; [rewrite app_nil_r; reflexivity|intros rr []]]);
    ok E1; injection E1 as <-; eexists; (split; [reflexivity|]); intros rr [HH|[]]; discriminate. }
  destruct X as (k & -> & K). exists (k ++ m). split; [rewrite app_assoc; reflexivity|]. apply free_app. auto.
Qed.
Lemma flush_free delta level d z g ops rec g' : flush delta level d z g = Ok (ops, rec, g') -> rotation_free ops.
Proof.
  unfold flush. destruct z; [intros [= <- _ _] r []|]. intros E. apply EmitProofs.bindr_Ok in E. destruct E as (b & _ & E). destruct b; [|injection E as <- _ _; intros r []].
  assert (G : forall l st st', foldr (flush_step delta level d) l st = Ok st' -> rotation_free (fst (fst st)) -> rotation_free (fst (fst st'))).
  { induction l as [|i l IH]; intros st st' H F; cbn [foldr] in H; [injection H as <-; exact F|]. apply EmitProofs.bindr_Ok in H. destruct H as (s1 & H1 & H).
    apply (IH _ _ H). destruct st as ((o, rc), h). unfold flush_step in H1. do 2 ok H1. apply EmitProofs.bindr_Ok in H1. destruct H1 as (o' & HO & H1). ok H1. injection H1 as <-.
    cbn [fst] in *. destruct (Rlt_dec delta _) in HO; [|injection HO as <-; exact F]. ok HO. injection HO as <-. apply free_app. split; [exact F|]. intros rr [HH|[]]; discriminate. }
  apply (G _ _ _ E). intros r [].
Qed.
Section Whole.
  Variables (sp : lgraph -> Z -> Z -> res (list Z)) (eps delta : R) (z nsa : bool) (d : nat) (U : mat) (g : lgraph).
  Hypothesis SP : finds_shortest sp.
  Hypothesis NE : names_nodes sp.
  Hypothesis RT : routable d g.
  Hypothesis CV : covers d g.
  Hypothesis HU : unitary d U.
  Hypothesis SMALL : (INR d < 100000000)%R.

  Definition accounts (ops : list qop) (alg tot : R) : Prop :=
    (gates_cost ops <= tot <= alg)%R /\ (0 <= tot)%R /\ (rotation_free ops -> alg = 0 /\ tot = 0)%R /\ (~ rotation_free ops -> 0 < tot)%R /\
    (chain d g -> all_direct g -> gates_cost ops = tot).
  Lemma flush_graph level lv ops rec g' :
    (forall g' i, routable d g' -> covers d g' -> same_but_phases d g g' -> i < d -> level g' (Z.of_nat i) = Ok (lv i)) ->
    flush delta level d z g = Ok (ops, rec, g') -> routable d g' /\ same_but_phases d g g'.
  Proof.
    intros LV E. destruct z; [unfold flush in E; injection E as _ _ <-; split; [exact RT|apply sb_refl]|].
    destruct (flush_ok delta d g level lv RT CV LV) as (o & rc & h & E' & R' & S' & _). rewrite E in E'. injection E' as <- <- <-. auto.
  Qed.
  Lemma execute_accounts level lv step phase ops alg tot g' :
    (forall g' i, routable d g' -> covers d g' -> same_but_phases d g g' -> i < d -> level g' (Z.of_nat i) = Ok (lv i)) ->
    phase = log_phase delta \/ phase = phy_phase delta ->
    (forall g1 s r c s', routable d g1 -> covers d g1 -> 0 < r < d -> unitary d (q_u s) -> step d g1 s (r, c) = Ok s' -> adds d g1 s s') ->
    execute delta level step phase z nsa d U g = Ok (ops, alg, tot, g') -> accounts ops alg tot.
  Proof.
    intros LV HP ST E. unfold execute in E. apply EmitProofs.bindr_Ok in E. destruct E as (((o0, rc), g1) & E1 & E).
    apply EmitProofs.bindr_Ok in E. destruct E as (s & E2 & E). apply EmitProofs.bindr_Ok in E. destruct E as (o1 & E3 & E). ok E. injection E as <- <- <- <-.
    destruct (flush_graph level lv _ _ _ LV E1) as [R1 S1]. assert (C1 := sb_covers d g g1 S1 CV). assert (F0 := flush_free _ _ _ _ _ _ _ _ E1).
    destruct (phases_free delta phase g1 d (q_u s) HP _ _ _ E3) as (m & -> & FM).
    assert (B : books d g1 s).
    { eapply (fold_books d g1 (step d g1)); [|intros y Hy; apply (visits_range d) in Hy; apply Hy| |exact E2].
      - intros s0 r c s1. apply ST; assumption.
      - unfold books. cbn [q_u q_ops q_total q_alg]. rewrite (gates_cost_free _ F0). split; [exact HU|]. split; [lra|]. split; [lra|]. split; [intros _; split; reflexivity|]. split; [intros NF; contradiction|reflexivity]. }
    destruct B as (_ & B2 & B3 & B4 & B5 & B6). unfold accounts. rewrite gates_cost_app, (gates_cost_free m FM), Rplus_0_r.
    split; [exact B2|]. split; [exact B3|]. split; [intros F; apply free_app in F; apply B4; apply F|]. split; [intros F; apply B5; intros F'; apply F; apply free_app; auto|].
    intros CH DI. apply B6.
    - intros n Hn. apply (PhyFound.sb_linked d g g1 _ _ S1). apply CH. exact Hn.
    - intros n Hn. apply (DI n). apply (has_attr_alook g (rt_wf d g RT)). rewrite <- (sb_look d g g1 S1) by discriminate. apply (has_attr_alook g1 (rt_wf d g1 R1)). exact Hn.
  Qed.
  Lemma log_accounts ops alg tot g' : log_execute sp eps delta z nsa d U g = Ok (ops, alg, tot, g') -> accounts ops alg tot.
  Proof.
    apply (execute_accounts log_level (fun _ => None)); [|left; reflexivity|].
    - intros g1 i R1 C1 S1 Hi. unfold log_level. destruct (node_attrs_ok d g1 R1 (Z.of_nat i) (C1 i Hi)) as (A & -> & _). reflexivity.
    - intros g1 s r c s' R1 C1. apply log_adds; assumption.
  Qed.
  Lemma phy_accounts ops alg tot g' : phy_execute sp eps delta z nsa d U g = Ok (ops, alg, tot, g') -> accounts ops alg tot.
  Proof.
    apply (execute_accounts phy_level (fun i => Some (AInt (Z.of_nat (lpf g i))))); [|right; reflexivity|].
    - intros g1 i R1 C1 S1 Hi. unfold phy_level. rewrite (node_attr_ok d g1 R1 _ _ _ (lpf_placed d g1 R1 C1 i Hi)). cbn [bindr].
      rewrite (sb_lpf d g g1 i RT R1 CV S1 Hi). reflexivity.
    - intros g1 s r c s' R1 C1. apply phy_adds; assumption.
  Qed.
End Whole.

(** *** A case *)
Lemma search_names : names_nodes search_shortest.
Proof.
  assert (W : forall g n s p, In p (walks g n s) -> p <> []).
  { intros g n s p. destruct n; cbn [walks]; [intros [<-|[]]; discriminate|]. intros H. apply in_flat_map in H. destruct H as (m & _ & H).
    apply in_map_iff in H. destruct H as (q & <- & _). discriminate. }
  intros g s t p. unfold search_shortest. generalize (List.length (nd g)) as k, 0%nat as n. induction k as [|k IH]; intros n E; cbn [search] in E; [discriminate|].
  destruct (find _ _) as [q|] eqn:F; [|exact (IH _ E)]. injection E as <-. apply find_some in F. apply (W g n s). apply F.
Qed.
Lemma driven_routable : routable 2 driven_pair.
Proof.
  unfold driven_pair. routable_case. apply new_graph_spec; [apply nodup_check; vm_compute; reflexivity|discriminate|reflexivity|apply good_edgesb_ok; vm_compute; reflexivity].
Qed.
Lemma driven_covers : covers 2 driven_pair.
Proof. intros n Hn. destruct n as [|[|n]]; [vm_compute; auto|vm_compute; auto|lia]. Qed.
Lemma driven_chain : chain 2 driven_pair.
Proof. intros n Hn. replace n with 0 by lia. eexists. vm_compute. eexists. split; [left; reflexivity|]. left. reflexivity. Qed.
Lemma driven_direct : all_direct driven_pair.
Proof.
  intros n H. apply (has_attr_alook driven_pair (rt_wf _ _ driven_routable)) in H. unfold alook in H. destruct (nget (nd driven_pair) n) as [a|] eqn:E; [|discriminate].
  apply (dget_In Z.eqb zeq) in E. vm_compute in E. destruct E as [E|[E|[]]]; injection E as <- <-; vm_compute in H; discriminate.
Qed.
