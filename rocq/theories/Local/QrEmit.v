(** What the QR algorithms emit. *)
From Coq Require Import Reals Lra Lia List Arith ZArith.
From Verif.Base Require Import Py PyFacts Cplx Matrix Angle.
From Verif.Gates Require Import AnglesModel AnglesProofs SingleModel SingleSpec SingleProofs.
From Verif.Levels Require Import LevelsModel LevelsSpec GraphProofs LevelsProofs RouteProofs PhaseProofs.
From Verif.Local Require Import QrModel QrSpec QrMath QrCore PulseProofs QrMoved.
Import ListNotations.
Local Open Scope string_scope.
Local Open Scope list_scope.
Local Open Scope nat_scope.

Lemma foldr_app {A B} (f : B -> A -> res B) l1 l2 b : foldr f (l1 ++ l2) b = let? b' := foldr f l1 b in foldr f l2 b'.
Proof. revert b. induction l1 as [|x l1 IH]; intros b; [reflexivity|]. cbn. destruct (f b x); cbn; [apply IH|reflexivity]. Qed.

Definition rotations (l : list qop) : nat := List.length (filter is_rotation l).
Lemma rotations_app a b : rotations (a ++ b) = rotations a + rotations b.
Proof. unfold rotations. rewrite filter_app, app_length. reflexivity. Qed.

(** *** From single steps to the whole list *)
Section Emit.
  Variables (d : nat) (lp : nat -> nat) (eps delta : R) (good : qop -> Prop) (cap : nat).
  Hypothesis Lin : forall n, n < d -> lp n < d.
  Hypothesis Inj : forall n m, n < d -> m < d -> lp n = lp m -> n = m.

  (** One step turns u_ as [ustep] says and emits the same operator, moved. *)
  Definition step_good (step : qstate -> nat * nat -> res qstate) : Prop :=
    forall s r c, 0 < r < d -> c < d -> exists s' new X,
      step s (r, c) = Ok s' /\ q_u s' = ustep eps d (q_u s) (r, c) /\ q_ops s' = q_ops s ++ new /\ Forall good new /\
      List.length new <= cap /\
      moved d lp X (ops_matrix d new) /\ unitary d X /\ meq d (q_u s') (mmul d X (q_u s)).

  Lemma steps_good step : step_good step -> forall l s, (forall rc, In rc l -> 0 < fst rc < d /\ snd rc < d) ->
    exists s' new X, foldr step l s = Ok s' /\ q_u s' = fold_left (ustep eps d) l (q_u s) /\ q_ops s' = q_ops s ++ new /\ Forall good new /\
      List.length new <= List.length l * cap /\
      moved d lp X (ops_matrix d new) /\ unitary d X /\ meq d (q_u s') (mmul d X (q_u s)).
  Proof.
    intros SG. induction l as [|(r, c) l IH]; intros s Hl.
    - exists s, [], mid. split; [reflexivity|]. split; [reflexivity|]. rewrite app_nil_r. split; [reflexivity|]. split; [constructor|].
      split; [cbn; lia|]. split; [apply (moved_id d lp Inj)|]. split; [apply unitary_id|]. apply meq_sym, mmul_id_l.
    - destruct (SG s r c) as (s1 & n1 & X1 & E1 & U1 & O1 & F1 & L1 & M1 & T1 & Q1);
        [apply (Hl (r, c)); left; reflexivity|apply (Hl (r, c)); left; reflexivity|].
      destruct (IH s1) as (s2 & n2 & X2 & E2 & U2 & O2 & F2 & L2 & M2 & T2 & Q2); [intros rc H; apply Hl; right; exact H|].
      exists s2, (n1 ++ n2), (mmul d X2 X1). cbn [foldr]. rewrite E1. cbn [bindr]. split; [exact E2|].
      split; [cbn [fold_left]; rewrite U2, U1; reflexivity|]. split; [rewrite O2, O1, app_assoc; reflexivity|].
      split; [apply Forall_app; auto|]. split; [rewrite app_length; cbn [List.length]; lia|].
      split; [|split; [apply unitary_mmul; assumption|]].
      + apply (moved_ext d lp Lin (mmul d X2 X1) (mmul d (ops_matrix d n2) (ops_matrix d n1))); [apply meq_refl|apply meq_sym, ops_app|].
        apply moved_mul; trivial.
      + eapply meq_trans; [exact Q2|]. eapply meq_trans; [apply mmul_ext; [apply meq_refl|exact Q1]|]. apply meq_sym, mmul_assoc.
  Qed.

  (** One virtual rotation per phase. *)
  Definition phase_good (phase : mat -> list qop -> nat -> res (list qop)) : Prop :=
    forall u ops i, i < d -> phase u ops i =
      Ok (if Rlt_dec delta (Rabs (angle (u i i))) then ops ++ [OV (Some (lp i, regulate_theta (angle (u i i))))] else ops).

  Lemma virtrz_moved l f : l < d ->
    moved d lp (mdiag (fun i => if Nat.eqb i l then cis (- f) else C1)) (op_matrix d (OV (Some (lp l, regulate_theta f)))).
  Proof.
    intros Hl. cbn [op_matrix].
    apply (moved_ext d lp Lin (mdiag (fun i => if Nat.eqb i l then cis (- f) else C1)) (mdiag (fun i => if Nat.eqb i (lp l) then cis (- regulate_theta f) else C1)));
      [apply meq_refl|apply meq_sym, virtrz_array_diag|].
    apply (moved_diag d lp Inj). intros i Hi. rewrite cis_regulate. destruct (Nat.eqb_spec i l) as [->|N]; [rewrite Nat.eqb_refl; reflexivity|].
    rewrite (proj2 (Nat.eqb_neq _ _)); [reflexivity|]. intros E. apply N. apply Inj; assumption.
  Qed.

  Lemma phases_good phase u : phase_good phase -> forall k, k <= d -> forall ops, exists new,
    foldr (phase u) (seq 0 k) ops = Ok (ops ++ new) /\ (forall o, In o new -> exists p, o = OV (Some p)) /\ List.length new <= k /\
    moved d lp (mdiag (fun i => if Nat.ltb i k then fix_phase delta (u i i) else C1)) (ops_matrix d new).
  Proof.
    intros PG. induction k as [|k IH]; intros Hk ops.
    - exists []. cbn [seq foldr]. rewrite app_nil_r. split; [reflexivity|]. split; [intros o []|]. split; [cbn; lia|].
      apply (moved_ext d lp Lin mid mid); [|apply meq_refl|apply (moved_id d lp Inj)].
      intros i j Hi Hj. unfold mdiag, mid. destruct (Nat.eqb i j); reflexivity.
    - destruct (IH ltac:(lia) ops) as (new & E & V & L & M). rewrite seq_S, foldr_app, E. cbn [bindr foldr plus]. rewrite PG by lia.
      cbn [bindr]. set (z := u k k) in *.
      assert (DE : meq d (mmul d (mdiag (fun i => if Nat.eqb i k then fix_phase delta z else C1)) (mdiag (fun i => if Nat.ltb i k then fix_phase delta (u i i) else C1)))
                (mdiag (fun i => if Nat.ltb i (S k) then fix_phase delta (u i i) else C1))).
      { eapply meq_trans; [apply mdiag_mul|]. intros i j Hi Hj. unfold mdiag. destruct (Nat.eqb_spec i j) as [->|]; [|reflexivity].
        destruct (Nat.eqb_spec j k) as [->|N].
        - rewrite (proj2 (Nat.ltb_ge k k)), (proj2 (Nat.ltb_lt k (S k))) by lia. unfold z. apply Ceq; cbn; ring.
        - destruct (Nat.ltb_spec j k); [rewrite (proj2 (Nat.ltb_lt j (S k))) by lia|rewrite (proj2 (Nat.ltb_ge j (S k))) by lia]; apply Ceq; cbn; ring. }
      destruct (Rlt_dec delta (Rabs (angle z))) as [Y|Y].
      + exists (new ++ [OV (Some (lp k, regulate_theta (angle z)))]). split; [rewrite app_assoc; reflexivity|]. split; [|split].
        * intros o H. apply in_app_or in H. destruct H as [H|[<-|[]]]; [apply V; exact H|eauto].
        * rewrite app_length. cbn. lia.
        * apply (moved_ext d lp Lin _ _ _ _ DE (meq_sym _ _ _ (ops_app d new _))). apply moved_mul; trivial.
          apply (moved_ext d lp Lin (mdiag (fun i => if Nat.eqb i k then cis (- angle z) else C1)) (op_matrix d (OV (Some (lp k, regulate_theta (angle z)))))).
          -- intros i j Hi Hj. unfold mdiag, fix_phase. destruct (Rlt_dec delta (Rabs (angle z))); [reflexivity|contradiction].
          -- apply meq_sym, ops_one.
          -- apply virtrz_moved. lia.
      + exists new. split; [reflexivity|]. split; [exact V|]. split; [lia|].
        apply (moved_ext d lp Lin _ (ops_matrix d new) _ _ DE (meq_refl _ _)).
        apply (moved_ext d lp Lin (mdiag (fun i => if Nat.ltb i k then fix_phase delta (u i i) else C1)) (ops_matrix d new)); [|apply meq_refl|exact M].
        apply meq_sym. eapply meq_trans; [|apply mmul_id_l]. apply mmul_ext; [|apply meq_refl].
        intros i j Hi Hj. unfold mdiag, mid, fix_phase. destruct (Rlt_dec delta (Rabs (angle z))); [contradiction|].
        destruct (Nat.eqb i j), (Nat.eqb i k); reflexivity.
  Qed.

  (** The list emitted for U: X on the logical levels, the gates carry it out on the levels lp. *)
  Lemma emitted step phase U ops0 : (0 <= eps)%R -> (0 <= delta)%R -> unitary d U -> step_good step -> phase_good phase ->
    (forall p, good (OV (Some p))) ->
    exists s new X, foldr step (visits d) (QS ops0 U 0%R 0%R) = Ok s /\
      foldr (phase (q_u s)) (seq 0 d) (q_ops s) = Ok (ops0 ++ new) /\ Forall good new /\
      List.length new <= List.length (visits d) * cap + d /\
      moved d lp X (ops_matrix d new) /\ unitary d X /\ close d (qr_error eps delta d) (mmul d X U) mid.
  Proof.
    intros E0 D0 HU SG PG GV.
    destruct (steps_good step SG (visits d) (QS ops0 U 0%R 0%R)) as (s & n1 & X1 & E1 & U1 & O1 & F1 & L1 & M1 & T1 & Q1).
    { intros rc H. destruct (visits_range d rc H) as (A & B & _). auto. }
    destruct (phases_good phase (q_u s) PG d (le_n d) (q_ops s)) as (n2 & E2 & V2 & L2 & M2). cbn [q_ops q_u] in *.
    set (D := mdiag (fun i => if Nat.ltb i d then fix_phase delta (q_u s i i) else C1)) in *.
    exists s, (n1 ++ n2), (mmul d D X1). split; [exact E1|]. split; [rewrite E2, O1, app_assoc; reflexivity|].
    split; [apply Forall_app; split; [exact F1|]; apply Forall_forall; intros o H; destruct (V2 o H) as (p & ->); apply GV|].
    split; [rewrite app_length; lia|]. split; [|split].
    - apply (moved_ext d lp Lin (mmul d D X1) (mmul d (ops_matrix d n2) (ops_matrix d n1))); [apply meq_refl|apply meq_sym, ops_app|].
      apply moved_mul; trivial.
    - apply unitary_mmul; [|exact T1]. unfold D. apply mdiag_unitary. intros i Hi. destruct (Nat.ltb i d); [apply fix_unit|unfold Cnorm2; cbn; ring].
    - assert (EQ : meq d (mmul d (mmul d D X1) U) (finished eps d delta U)).
      { eapply meq_trans; [apply mmul_assoc|]. unfold finished. change (reduced eps d U) with (fold_left (ustep eps d) (visits d) U).
        rewrite <- U1. apply mmul_ext; [|apply meq_sym; exact Q1].
        intros i j Hi Hj. unfold D, mdiag. rewrite (proj2 (Nat.ltb_lt i d)) by exact Hi. reflexivity. }
      intros i j Hi Hj. rewrite (EQ i j Hi Hj). apply finished_close; trivial.
  Qed.
End Emit.

Lemma visits_length d : 2 * List.length (visits d) = d * (d - 1).
Proof.
  unfold visits. assert (G : forall n c, c + n = d -> 2 * List.length (flat_map (fun c => map (fun r => (r, c)) (rev (seq (c + 1) (d - (c + 1))))) (seq c n)) = n * (n - 1)).
  { induction n as [|n IH]; intros c H; [reflexivity|]. cbn [seq flat_map]. rewrite app_length, map_length, rev_length, seq_length.
    rewrite Nat.mul_add_distr_l, (IH (S c)) by lia. replace (d - (c + 1)) with n by lia.
    destruct n as [|m]; [reflexivity|]. cbn [Nat.sub]. rewrite ?Nat.sub_0_r. ring. }
  apply (G d 0). reflexivity.
Qed.

(** *** The two passes *)
Section Passes.
  Variables (sp : lgraph -> Z -> Z -> res (list Z)) (eps delta : R) (d : nat) (g : lgraph).
  Hypothesis SP : finds_shortest sp.
  Hypothesis RT : routable d g.
  Hypothesis CV : covers d g.

  Lemma qr_rotation_ok u r c : 0 < r < d -> exists q, qr_rotation d u r c = Ok q /\
    op_matrix d (OR q) = turn d u r c /\ orig_a q = (Z.of_nat r - 1)%Z /\ orig_b q = Z.of_nat r.
  Proof.
    intros H. unfold qr_rotation. rewrite new_R_ok by lia. eexists. split; [reflexivity|]. cbn [op_matrix lev_a lev_b r_theta r_phi orig_a orig_b].
    rewrite Z.min_l, Z.max_r by lia. replace (Z.to_nat (Z.of_nat r - 1)) with (r - 1) by lia. rewrite Nat2Z.id. auto.
  Qed.
  Lemma pred_node r : 0 < r < d -> is_node g (Z.of_nat r - 1) /\ is_node g (Z.of_nat r).
  Proof. intros H. replace (Z.of_nat r - 1)%Z with (Z.of_nat (r - 1)) by lia. split; apply CV; lia. Qed.

  Lemma cost_calculator_ok q nz : is_node g (orig_a q) -> is_node g (orig_b q) -> orig_a q <> orig_b q ->
    exists c ps g' gc, route_states2rotate_basic sp d q g = Ok (c, ps, g') /\ routable d g' /\
      cost_calculator sp d q g nz = Ok (((gc + c) * IZR nz)%R, ps, g', c, gc).
  Proof.
    intros Ha Hb Hab. destruct (route_ok sp d q g SP RT Ha Hb Hab) as (c & ps & g' & E & _ & _ & _ & N & R & _).
    unfold cost_calculator. rewrite E. cbn [bindr].
    destruct (cost_ok d g' R sp SP q) as (gc & ->); [apply N; exact Ha|apply N; exact Hb|]. cbn [bindr].
    exists c, ps, g', gc. auto.
  Qed.

  Lemma log_step_good : step_good d (fun n => n) eps (fun o => match o with OR r => lev_b r = lev_a r + 1 | OV _ => True end) 1 (log_step sp eps d g).
  Proof.
    intros s r c Hr Hc. unfold log_step. destruct (Rlt_dec eps (Cmod (q_u s r c))) as [Y|Y].
    - destruct (qr_rotation_ok (q_u s) r c Hr) as (q & Eq & Mq & Oa & Ob). rewrite Eq. cbn [bindr].
      destruct (pred_node r Hr) as [Na Nb].
      destruct (cost_calculator_ok q (count_nonzero d (mmul d (op_matrix d (OR q)) (q_u s)))) as (cc & ps & g' & gc & _ & _ & ->);
        [rewrite Oa; exact Na|rewrite Ob; exact Nb|lia|].
      cbn [bindr]. eexists _, [OR q], (turn d (q_u s) r c). split; [reflexivity|]. cbn [q_u q_ops]. rewrite Mq.
      split; [unfold ustep; destruct (Rlt_dec eps (Cmod (q_u s r c))); [reflexivity|contradiction]|].
      split; [reflexivity|]. split; [constructor; [|constructor]|].
      { unfold qr_rotation in Eq. rewrite new_R_ok in Eq by lia. injection Eq as <-. cbn. lia. }
      split; [cbn; lia|]. split; [|split; [apply turn_unitary; lia|apply meq_refl]].
      intros i j Hi Hj. rewrite (ops_one d (OR q) i j Hi Hj), Mq. reflexivity.
    - exists s, [], mid. split; [reflexivity|]. split; [unfold ustep; destruct (Rlt_dec eps (Cmod (q_u s r c))); [contradiction|reflexivity]|].
      rewrite app_nil_r. split; [reflexivity|]. split; [constructor|]. split; [cbn; lia|]. split; [intros i j _ _; reflexivity|].
      split; [apply unitary_id|apply meq_sym, mmul_id_l].
  Qed.
  Lemma log_phase_good : phase_good d (fun n => n) delta (log_phase delta g d).
  Proof.
    intros u ops i Hi. unfold log_phase. destruct (Rlt_dec delta (Rabs (angle (u i i)))); [|reflexivity].
    destruct (node_attrs_ok d g RT (Z.of_nat i) (CV i Hi)) as (A & -> & _). cbn [bindr].
    unfold virtrz_params. rewrite (proj2 (Z.leb_le 0 (Z.of_nat i))), (proj2 (Z.ltb_lt (Z.of_nat i) (Z.of_nat d))) by lia.
    cbn [andb]. rewrite Nat2Z.id. reflexivity.
  Qed.

  (** *** Physical *)
  Definition lpf (n : nat) : nat := match node_attr g (Z.of_nat n) "lpmap" with Ok (AInt p) => Z.to_nat p | _ => 0 end.
  Lemma lpf_placed n : n < d -> placed g (Z.of_nat n) (Z.of_nat (lpf n)).
  Proof.
    intros Hn. destruct (proj1 (rt_placement d g RT) _ (CV n Hn)) as (p & Hp). assert (B := rt_physical d g RT _ _ Hp).
    unfold lpf. rewrite (node_attr_ok d g RT _ _ _ Hp). rewrite Z2Nat.id by lia. exact Hp.
  Qed.
  Lemma placed_lpf n p : n < d -> placed g (Z.of_nat n) p -> p = Z.of_nat (lpf n).
  Proof.
    intros Hn Hp. assert (X := lpf_placed n Hn). apply (has_attr_alook g (rt_wf d g RT)) in Hp, X. congruence.
  Qed.
  Lemma lpf_in n : n < d -> lpf n < d.
  Proof. intros Hn. assert (B := rt_physical d g RT _ _ (lpf_placed n Hn)). lia. Qed.
  Lemma lpf_inj n m : n < d -> m < d -> lpf n = lpf m -> n = m.
  Proof.
    intros Hn Hm E. assert (A := lpf_placed n Hn). assert (B := lpf_placed m Hm). rewrite E in A.
    assert (X := proj2 (rt_placement d g RT) _ _ _ A B). lia.
  Qed.

  Hypothesis NP : no_phases g.

  Lemma coupled_sym p q dat : coupled g p q dat -> coupled g q p dat.
  Proof. intros (a & b & J & A & B). exists b, a. split; [apply (wf_sym g (rt_wf d g RT)); exact J|auto]. Qed.

  Lemma phy_step_good : step_good d lpf eps (native g) (2 * d - 3) (phy_step sp eps d g).
  Proof.
    intros s r c Hr Hc. assert (D2 : 2 <= d) by lia. unfold phy_step. destruct (Rlt_dec eps (Cmod (q_u s r c))) as [Y|Y].
    2:{ exists s, [], mid. split; [reflexivity|]. split; [unfold ustep; destruct (Rlt_dec eps (Cmod (q_u s r c))); [contradiction|reflexivity]|].
      rewrite app_nil_r. split; [reflexivity|]. split; [constructor|]. split; [cbn; lia|]. split; [apply (moved_id d lpf lpf_inj)|].
      split; [apply unitary_id|apply meq_sym, mmul_id_l]. }
    destruct (qr_rotation_ok (q_u s) r c Hr) as (q & Eq & Mq & Oa & Ob). rewrite Eq. cbn [bindr].
    destruct (pred_node r Hr) as [Na Nb].
    destruct (cost_calculator_ok q (count_nonzero d (mmul d (op_matrix d (OR q)) (q_u s)))) as (cc & ps & g' & gc & ER & RT' & ->);
      [rewrite Oa; exact Na|rewrite Ob; exact Nb|lia|].
    cbn [bindr].
    assert (Ha : is_node g (orig_a q)) by (rewrite Oa; exact Na). assert (Hb : is_node g (orig_b q)) by (rewrite Ob; exact Nb).
    assert (Hab : orig_a q <> orig_b q) by lia.
    destruct (route_ok sp d q g SP RT Ha Hb Hab) as (c1 & ps1 & g1 & E1 & LEG & LK & SC & ND & _ & _ & MIN).
    rewrite ER in E1. injection E1 as <- <- <-.
    replace (Z.of_nat r - 1)%Z with (Z.of_nat (r - 1)) in * by lia.
    assert (Pa := lpf_placed (r - 1) ltac:(lia)). assert (Pb := lpf_placed r ltac:(lia)).
    destruct (route_exact sp d q g SP RT NP Ha Hb Hab _ _ _ (Z.of_nat (lpf (r - 1))) (Z.of_nat (lpf r)) ER) as (y & sg & Py & Px & CH & S1 & AP & Rx & Ry & GP);
      [rewrite Oa; exact Pa|rewrite Ob; exact Pb|].
    rewrite Oa, Ob in *. set (x := Z.of_nat (lpf (r - 1))) in *.
    rewrite (node_attr_ok d g' RT' _ _ _ Px), (node_attr_ok d g' RT' _ _ _ Py). cbn [bindr as_int].
    assert (Bx := rt_physical d g' RT' _ _ Px). assert (By := rt_physical d g' RT' _ _ Py).
    assert (XY : x <> y). { intros E. rewrite E in Px. assert (Z := proj2 (rt_placement d g' RT') _ _ _ Px Py). lia. }
    set (th := qr_theta (q_u s) r c). set (ph := qr_phi (q_u s) r c).
    rewrite (new_R_ok d x y) by assumption. cbn [bindr].
    match goal with |- context [gate_chain_condition d ps ?r0] => set (p0 := r0) end.
    assert (O0 : isr p0 (lo x y) (hi x y) (regulate_theta th) (if (y <? x)%Z then (ph * -1)%R else ph)) by (repeat split).
    destruct (chain_value d ps x y sg p0 _ _ Bx By XY CH AP O0) as (p1 & -> & (V1 & V2 & V3 & V4)). cbn [bindr].
    destruct (back_all d ps GP) as (back & -> & MB & LB & CB). cbn [bindr].
    eexists _, (map OR ps ++ [OR p1] ++ map OR back), (turn d (q_u s) r c). split; [reflexivity|]. cbn [q_u q_ops]. rewrite Mq.
    split; [unfold ustep; destruct (Rlt_dec eps (Cmod (q_u s r c))); [reflexivity|contradiction]|].
    split; [reflexivity|].
    assert (CPL : exists dat, coupled g x y dat).
    { destruct LK as (dat & J). exists dat. apply SC. exists (Z.of_nat (r - 1)), (Z.of_nat r). auto. }
    assert (NAT : native g (OR p1)).
    { cbn [native]. rewrite V1, V2. destruct CPL as (dat & C). unfold lo, hi. destruct (Z.ltb_spec x y).
      - rewrite Z.min_l, Z.max_r, !Z2Nat.id by lia. exists dat. exact C.
      - rewrite Z.min_r, Z.max_l, !Z2Nat.id by lia. exists dat. apply coupled_sym. exact C. }
    split; [|split; [|split; [|split; [apply turn_unitary; lia|apply meq_refl]]]].
    - apply Forall_app. split; [|apply Forall_app; split; [constructor; [exact NAT|constructor]|]].
      + apply Forall_forall. intros o H. apply in_map_iff in H. destruct H as (p & <- & H). rewrite Forall_forall in LEG.
        destruct (LEG p H) as [C _]. exact C.
      + apply Forall_forall. intros o H. apply in_map_iff in H. destruct H as (p & <- & H). destruct (CB p H) as (p' & H' & A & B).
        rewrite Forall_forall in LEG. destruct (LEG p' H') as [C _]. cbn [native]. rewrite A, B. exact C.
    - rewrite !app_length, !map_length, LB. cbn [List.length].
      assert (LP : List.length ps + 2 <= d).
      { destruct (SP g _ _ (rt_wf d g RT) (rt_connected d g RT) Na Nb) as (w & _ & Sh). assert (X := MIN w (proj1 Sh)).
        assert (NDw := shortest_NoDup _ _ _ _ Sh).
        assert (I : incl w (map Z.of_nat (seq 0 d))).
        { intros n Hn. assert (Nn : is_node g n) by (eapply walk_nodes; [apply (rt_wf d g RT)|exact Na|exact (proj1 Sh)|exact Hn]).
          apply (rt_logical d g RT) in Nn. apply in_map_iff. exists (Z.to_nat n). split; [lia|]. apply in_seq. lia. }
        assert (L := NoDup_incl_length NDw I). rewrite map_length, seq_length in L. lia. }
      lia.
    - assert (UP := pulses_unitary d ps GP).
      assert (MM : meq d (ops_matrix d (map OR ps ++ [OR p1] ++ map OR back)) (rotation (lpf (r - 1)) (lpf r) th ph)).
      { eapply meq_trans; [apply ops_app|]. eapply meq_trans; [apply mmul_ext; [apply ops_app|apply meq_refl]|].
        rewrite !ops_pulses. rewrite ops_pulses in MB.
        eapply meq_trans; [apply mmul_assoc|].
        assert (MP : meq d (ops_matrix d [OR p1]) (rotation (Z.to_nat x) (Z.to_nat y) (sg * th) ph)).
        { eapply meq_trans; [apply ops_one|]. cbn [op_matrix]. rewrite V1, V2, V3, V4.
          assert (LH := lo_hi d x y Bx By XY).
          eapply meq_trans; [apply r_array_rotation; lia|].
          assert (TH : meq d (rotation (lo x y) (hi x y) (match ps with [] => regulate_theta th | _ :: _ => regulate_theta (regulate_theta th * sg) end) (if (y <? x)%Z then (ph * -1)%R else ph))
                   (rotation (lo x y) (hi x y) (sg * th) (if (y <? x)%Z then (ph * -1)%R else ph))).
          { destruct ps as [|p0' ps'].
            - destruct CH as [_|? ? L]; [|discriminate L]. rewrite Rmult_1_l. apply rotation_regulated.
            - eapply meq_trans; [apply rotation_regulated|]. destruct S1 as [->| ->].
              + rewrite Rmult_1_r, Rmult_1_l. apply rotation_regulated.
              + replace (regulate_theta th * -1)%R with (- regulate_theta th)%R by ring. replace (-1 * th)%R with (- th)%R by ring.
                apply rotation_theta_period. destruct (regulate_theta_spec th) as ((k & Hk) & _). exists (- k)%Z. rewrite Hk, opp_IZR. ring. }
          eapply meq_trans; [exact TH|]. unfold lo, hi. destruct (Z.ltb_spec y x).
          - rewrite Z.min_r, Z.max_l by lia. replace (ph * -1)%R with (- ph)%R by ring. apply meq_sym, rotation_swap. lia.
          - rewrite Z.min_l, Z.max_r by lia. apply meq_refl. }
        eapply meq_trans; [apply mmul_ext; [exact MB|apply mmul_ext; [exact MP|apply meq_refl]]|].
        replace (lpf (r - 1)) with (Z.to_nat x) by (unfold x; apply Nat2Z.id).
        rewrite Nat2Z.id in Ry.
        apply conjugated; trivial; try lia.
        - apply lpf_in. lia.
        - unfold x. rewrite Nat2Z.id. intros E. apply lpf_inj in E; lia. }
      apply (moved_ext d lpf lpf_in (rotation (r - 1) r th ph) (rotation (lpf (r - 1)) (lpf r) th ph)).
      + apply meq_sym. apply turn_rotation. lia.
      + apply meq_sym. exact MM.
      + apply (moved_rotation d lpf lpf_inj); lia.
  Qed.
  Lemma phy_phase_good : phase_good d lpf delta (phy_phase delta g d).
  Proof.
    intros u ops i Hi. unfold phy_phase. destruct (Rlt_dec delta (Rabs (angle (u i i)))); [|reflexivity].
    rewrite (node_attr_ok d g RT _ _ _ (lpf_placed i Hi)). cbn [bindr]. assert (B := lpf_in i Hi).
    unfold virtrz_params. rewrite (proj2 (Z.leb_le 0 (Z.of_nat (lpf i)))), (proj2 (Z.ltb_lt (Z.of_nat (lpf i)) (Z.of_nat d))) by lia.
    cbn [andb]. rewrite Nat2Z.id. reflexivity.
  Qed.
End Passes.
