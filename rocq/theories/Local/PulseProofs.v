(** The exact matrix of the routing pulses on a graph that stores no phases. *)
From Coq Require Import Reals Lra Lia List Arith ZArith.
From Verif.Base Require Import Py PyFacts Cplx Matrix.
From Verif.Gates Require Import AnglesModel AnglesProofs SingleModel SingleSpec SingleProofs.
From Verif.Levels Require Import LevelsModel LevelsSpec GraphProofs LevelsProofs RouteProofs PhaseProofs.
From Verif.Local Require Import QrModel QrSpec QrCore.
Import ListNotations.
Local Open Scope string_scope.
Local Open Scope list_scope.
Local Open Scope nat_scope.

(** The rotation with these parameters (the order in which the levels were given is forgotten). *)
Definition isr (r : rot) (a b : nat) (t f : R) : Prop := lev_a r = a /\ lev_b r = b /\ r_theta r = t /\ r_phi r = f.

Lemma ongate_quiet d r g : routable d g -> no_phases g -> lev_a r < lev_b r < d -> regulate_theta (r_theta r) = r_theta r ->
  exists r', graph_rule_ongate d r g = Ok r' /\ isr r' (lev_a r) (lev_b r) (r_theta r) (r_phi r).
Proof.
  intros RT Q Hl Ht. unfold graph_rule_ongate.
  destruct (fst_inode_ok d g RT) as (i & -> & Hi). cbn [bindr].
  destruct (node_attrs_ok d g RT i (has_node _ _ _ _ Hi)) as (A & -> & HA). cbn [bindr].
  destruct (dmem String.eqb A "phase_storage") eqn:EM; cbn [negb]; [|exists r; split; [reflexivity|repeat split]].
  apply HA in EM. destruct EM as (v & Hv).
  assert (PS : forall n, is_node g n -> exists w, node_attr g n "phase_storage" = Ok w /\ num w = Ok 0%R).
  { intros n Hn. destruct (rt_uniform d g RT _ _ _ _ Hv Hn) as (w & Hw). destruct (rt_phases d g RT n w Hw) as (x & Hx).
    exists w. split; [apply (node_attr_ok d g RT); exact Hw|]. rewrite Hx. f_equal. eapply Q; eassumption. }
  destruct (find_logic_ok d g RT (Z.of_nat (lev_a r)) (Z.of_nat (lev_b r))) as (na & nb & -> & Na & Nb). cbn [bindr].
  assert (F1 : (if (na =? -1)%Z then Ok (r_phi r)
            else let? v := node_attr g na "phase_storage" in let? x := num v in Ok (r_phi r - x)%R) = Ok (r_phi r)).
  { destruct (Z.eqb_spec na (-1)); [reflexivity|]. destruct Na as [Na|Na]; [contradiction|].
    destruct (PS na Na) as (w & -> & Hx). cbn [bindr]. rewrite Hx. cbn. f_equal. ring. }
  rewrite F1. cbn [bindr].
  assert (F2 : (if (nb =? -1)%Z then Ok (r_phi r)
            else let? v := node_attr g nb "phase_storage" in let? x := num v in Ok (r_phi r + x)%R) = Ok (r_phi r)).
  { destruct (Z.eqb_spec nb (-1)); [reflexivity|]. destruct Nb as [Nb|Nb]; [contradiction|].
    destruct (PS nb Nb) as (w & -> & Hx). cbn [bindr]. rewrite Hx. cbn. f_equal. ring. }
  rewrite F2. cbn [bindr]. rewrite new_R_ok by lia. eexists. split; [reflexivity|].
  unfold isr. cbn [lev_a lev_b r_theta r_phi]. rewrite Z.min_l, Z.max_r, !Nat2Z.id, Ht by lia. auto.
Qed.

Definition sgn (x y : Z) : R := if (x <? y)%Z then 1%R else (-1)%R.
Lemma sgn_sq x y : (sgn x y * sgn x y = 1)%R.
Proof. unfold sgn. destruct (x <? y)%Z; ring. Qed.
Definition lo (x y : Z) : nat := Z.to_nat (Z.min x y).
Definition hi (x y : Z) : nat := Z.to_nat (Z.max x y).
Definition inside (d : nat) (x : Z) : Prop := (0 <= x < Z.of_nat d)%Z.
Lemma lo_hi d x y : inside d x -> inside d y -> x <> y -> lo x y < hi x y < d.
Proof. unfold inside, lo, hi. lia. Qed.

(** The turn that gate_chain_condition gives a rotation after the pulses [ps]: none after no pulse, and the
    sign of the move that ended on the shared level otherwise. *)
Inductive chained (ps : list rot) (y : Z) : R -> Prop :=
| ch_nil : ps = [] -> chained ps y 1%R
| ch_last prev z : last (map Some ps) None = Some prev -> lev_a prev = lo y z -> lev_b prev = hi y z -> y <> z -> (0 <= z)%Z -> chained ps y (sgn y z).
Definition apart (ps : list rot) (y x : Z) : Prop :=
  forall prev z, last (map Some ps) None = Some prev -> lev_a prev = lo y z -> lev_b prev = hi y z -> (0 <= z)%Z -> x <> z.

Lemma chain_value d ps x y s r t f : inside d x -> inside d y -> x <> y -> chained ps y s -> apart ps y x -> isr r (lo x y) (hi x y) t f ->
  exists r', gate_chain_condition d ps r = Ok r' /\ isr r' (lo x y) (hi x y) (match ps with [] => t | _ => regulate_theta (t * s) end) f.
Proof.
  intros Hx Hy Hxy C AP (E1 & E2 & E3 & E4). unfold gate_chain_condition. destruct C as [->|prev z L A B NE Z0].
  - cbn. exists r. split; [reflexivity|]. repeat split; assumption.
  - rewrite L. assert (XZ := AP prev z L A B Z0).
    rewrite E1, E2, E3, E4, A, B. rewrite new_R_ok by (unfold lo, hi, inside in *; lia).
    eexists. split; [reflexivity|]. unfold isr. cbn [lev_a lev_b r_theta r_phi].
    split; [unfold lo, hi, inside in *; lia|]. split; [unfold lo, hi, inside in *; lia|]. split; [|reflexivity].
    destruct ps as [|p0 ps']; [discriminate L|]. f_equal. unfold sgn.
    unfold lo, hi, inside in *.
    destruct (Nat.eqb_spec (Z.to_nat (Z.min x y)) (Z.to_nat (Z.min y z))).
    { destruct (Z.ltb_spec y z); [ring|]. lia. }
    destruct (Nat.eqb_spec (Z.to_nat (Z.max x y)) (Z.to_nat (Z.max y z))).
    { destruct (Nat.ltb_spec (Z.to_nat (Z.min x y)) (Z.to_nat (Z.min y z)));
        destruct (Nat.ltb_spec (Z.to_nat (Z.min y z)) (Z.to_nat (Z.min x y))); cbn [orb];
        destruct (Z.ltb_spec y z); try ring; lia. }
    destruct (Nat.eqb_spec (Z.to_nat (Z.min x y)) (Z.to_nat (Z.max y z))).
    { destruct (Z.ltb_spec y z); [lia|ring]. }
    destruct (Z.ltb_spec y z); [ring|]. lia.
Qed.

(** One pulse, exactly. *)
Lemma step_exact sp d g pre m t rest ps cost x y s : finds_shortest sp -> routable d g -> no_phases g ->
  is_node g m -> is_node g t -> m <> t -> placed g m x -> placed g t y -> chained ps y s -> apart ps y x -> (s = 1 \/ s = -1)%R ->
  exists c r g', route_step sp d (List.length pre) (pre ++ m :: t :: rest) g ps cost
      = Ok ((cost + c)%R, ps ++ [r], g', pre ++ t :: m :: rest) /\
    swapped t m g g' /\ isr r (lo x y) (hi x y) (PI * s)%R (- PI / 2)%R.
Proof.
  intros SP RT Q Hm Ht MT Hx Hy CH AP S1. assert (W := rt_wf d g RT).
  unfold route_step. rewrite !pyindex_nat.
  rewrite nth_error_app2 by lia. rewrite Nat.sub_diag. cbn [nth_error bindr].
  rewrite nth_error_app2 by lia. replace (List.length pre + 1 - List.length pre) with 1 by lia. cbn [nth_error bindr].
  rewrite (node_attr_ok d g RT m _ _ Hx), (node_attr_ok d g RT t _ _ Hy). cbn [bindr as_int].
  assert (XY : x <> y) by (intros ->; apply MT; eapply (proj2 (rt_placement d g RT)); eassumption).
  assert (Bx := rt_physical d g RT _ _ Hx). assert (By := rt_physical d g RT _ _ Hy).
  assert (RP : forall k, (k = 1 \/ k = -1)%R -> regulate_theta (PI * k) = (PI * k)%R).
  { intros k [->| ->]; apply regulate_pi; [left|right]; ring. }
  rewrite (new_R_ok d x y PI _ Bx By XY). cbn [bindr].
  set (p0 := Rot _ _ _ _ _ _).
  assert (O0 : isr p0 (lo x y) (hi x y) PI (- PI / 2)).
  { unfold isr, p0. cbn [lev_a lev_b r_theta r_phi]. rewrite (regulate_pi PI (or_introl eq_refl)). repeat split. }
  destruct (chain_value d ps x y s p0 _ _ Bx By XY CH AP O0) as (p1 & -> & O1). cbn [bindr].
  assert (O1' : isr p1 (lo x y) (hi x y) (PI * s) (- PI / 2)).
  { destruct O1 as (A1 & A2 & A3 & A4). repeat split; trivial. rewrite A3. destruct ps.
    - destruct CH as [_|? ? L]; [ring|discriminate L].
    - apply RP. exact S1. }
  clear O1. assert (LH := lo_hi d x y Bx By XY).
  assert (HR : regulate_theta (r_theta p1) = r_theta p1) by (destruct O1' as (_ & _ & -> & _); apply RP; exact S1).
  destruct (ongate_quiet d p1 g RT Q) as (p2 & -> & O2); [destruct O1' as (-> & -> & _); lia|exact HR|].
  cbn [bindr].
  rewrite (new_R_ok d m t) by (trivial; eapply rt_logical; eassumption). cbn [bindr].
  set (lg := Rot _ _ _ _ m t).
  destruct (cost_ok d g RT sp SP lg Hm Ht) as (c & ->). cbn [bindr].
  destruct (swap_nodes_spec g t m W (rt_uniform d g RT) Ht Hm) as (g' & -> & S & _). cbn [bindr].
  rewrite swap_elements_app. cbn [bindr]. exists c, p2, g'. split; [reflexivity|]. split; [exact S|].
  destruct O1' as (A1 & A2 & A3 & A4), O2 as (B1 & B2 & B3 & B4). repeat split; congruence.
Qed.

(** *** Rows of the product *)
Local Open Scope C_scope.
Definition row_is (d : nat) (M : mat) (p : nat) (c : R) (q : nat) : Prop :=
  forall j, (j < d)%nat -> M p j = if Nat.eqb j q then RtoC c else C0.

Lemma pulse_entries d x y s r : inside d x -> inside d y -> x <> y -> (s = 1 \/ s = -1)%R -> isr r (lo x y) (hi x y) (PI * s) (- PI / 2) ->
  let P := r_array d (lev_a r) (lev_b r) (r_theta r) (r_phi r) in
  forall M j, (j < d)%nat ->
    mmul d P M (Z.to_nat x) j = RtoC (s * sgn x y) * M (Z.to_nat y) j /\
    (forall p, (p < d)%nat -> p <> Z.to_nat x -> p <> Z.to_nat y -> mmul d P M p j = M p j).
Proof.
  intros Hx Hy Hxy Hs (-> & -> & -> & ->) P M j Hj. assert (LH := lo_hi d x y Hx Hy Hxy).
  assert (E : meq d (mmul d P M) (mmul d (rotation (lo x y) (hi x y) (PI * s) (- PI / 2)) M)).
  { apply mmul_ext; [apply r_array_rotation; lia|apply meq_refl]. }
  assert (CS : cos (PI * s / 2) = 0%R /\ sin (PI * s / 2) = s).
  { destruct Hs as [->| ->].
    - replace (PI * 1 / 2)%R with (PI / 2)%R by field. rewrite cos_PI2, sin_PI2. auto.
    - replace (PI * -1 / 2)%R with (- (PI / 2))%R by field. rewrite cos_neg, sin_neg, cos_PI2, sin_PI2. auto. }
  destruct CS as [CS1 CS2]. unfold inside in *. split.
  - rewrite (E (Z.to_nat x) j) by lia. unfold rotation. rewrite two_level_rows by lia. rewrite CS1, CS2.
    replace (- (- PI / 2))%R with (PI / 2)%R by field. replace (- PI / 2)%R with (- (PI / 2))%R by field.
    rewrite cis_neg, cis_PI2, Cconj_i. unfold sgn, lo, hi. destruct (Z.ltb_spec x y) as [L|L].
    + rewrite Z.min_l, Z.max_r by lia. rewrite Nat.eqb_refl, RtoC_0, Rmult_1_r.
      transitivity (- (Ci * Ci) * RtoC s * M (Z.to_nat y) j); [ring|]. rewrite Cii. ring.
    + rewrite Z.min_r, Z.max_l by lia. replace (Nat.eqb (Z.to_nat x) (Z.to_nat y)) with false by (symmetry; apply Nat.eqb_neq; lia).
      rewrite Nat.eqb_refl, RtoC_0.
      transitivity ((Ci * Ci) * RtoC s * M (Z.to_nat y) j); [ring|]. rewrite Cii.
      replace (s * -1)%R with (- s)%R by ring. rewrite RtoC_opp. ring.
  - intros p Hp N1 N2. rewrite (E p j) by lia. unfold rotation. rewrite two_level_rows by lia.
    replace (Nat.eqb p (lo x y)) with false by (symmetry; apply Nat.eqb_neq; unfold lo; lia).
    replace (Nat.eqb p (hi x y)) with false by (symmetry; apply Nat.eqb_neq; unfold hi; lia). reflexivity.
Qed.

Definition good_pulse (d : nat) (r : rot) : Prop :=
  (lev_a r < lev_b r < d)%nat /\ exists s, (s = 1 \/ s = -1)%R /\ r_theta r = (PI * s)%R /\ r_phi r = (- PI / 2)%R.

Local Open Scope nat_scope.
Lemma last_snoc {A} (l : list A) x : last (map Some (l ++ [x])) None = Some x.
Proof. rewrite map_app. cbn. apply last_last. Qed.

(** The loop. [q]: the physical level on which the moving level t started; [y]: where it is now. *)
Lemma loop_exact sp d (SP : finds_shortest sp) q : forall pre m t rest g ps cost y s,
  routable d g -> no_phases g -> (forall n, In n (pre ++ [m; t]) -> is_node g n) -> NoDup (pre ++ [m; t]) ->
  placed g t y -> chained ps y s -> (s = 1 \/ s = -1)%R ->
  (forall n x, In n (pre ++ [m]) -> placed g n x -> apart ps y x /\ row_is d (pulses_matrix d ps) (Z.to_nat x) 1 (Z.to_nat x)) ->
  row_is d (pulses_matrix d ps) (Z.to_nat y) s q -> Forall (good_pulse d) ps ->
  exists c ps' g' y' s', route_loop sp d (List.length pre) (pre ++ m :: t :: rest) g ps cost = Ok (c, ps', g') /\
    placed g' t y' /\ chained ps' y' s' /\ (s' = 1 \/ s' = -1)%R /\
    (forall x, placed g (hd m pre) x -> placed g' (hd m pre) x /\ apart ps' y' x /\ row_is d (pulses_matrix d ps') (Z.to_nat x) 1 (Z.to_nat x)) /\
    row_is d (pulses_matrix d ps') (Z.to_nat y') s' q /\ Forall (good_pulse d) ps' /\ routable d g'.
Proof.
  intros pre. remember (List.length pre) as k eqn:Ek. revert pre Ek.
  induction k as [|k IH]; intros pre Ek m t rest g ps cost y s RT Q IN ND Hy CH S1 HP HR HF.
  - destruct pre; [|discriminate]. cbn [route_loop hd]. exists cost, ps, g, y, s. split; [reflexivity|]. split; [exact Hy|].
    split; [exact CH|]. split; [exact S1|]. split; [|auto]. intros x Hx. split; [exact Hx|]. apply (HP m x); [left; reflexivity|exact Hx].
  - destruct (exists_last (l := pre)) as (pre' & n0 & ->); [intros ->; discriminate|].
    rewrite app_length in Ek. cbn in Ek. assert (Ek' : k = List.length pre') by lia.
    assert (MT : m <> t).
    { apply NoDup_remove_2 in ND. intros ->. apply ND. apply in_or_app. right. left. reflexivity. }
    assert (W := rt_wf d g RT).
    assert (Hm : is_node g m) by (apply IN; apply in_or_app; right; left; reflexivity).
    assert (Ht : is_node g t) by (apply IN; apply in_or_app; right; right; left; reflexivity).
    destruct (proj1 (rt_placement d g RT) m Hm) as (x & Hx).
    assert (Bx := rt_physical d g RT _ _ Hx). assert (By := rt_physical d g RT _ _ Hy).
    assert (XY : x <> y) by (intros ->; apply MT; eapply (proj2 (rt_placement d g RT)); eassumption).
    destruct (HP m x) as [AP RX]; [apply in_or_app; right; left; reflexivity|exact Hx|].
    destruct (step_exact sp d g (pre' ++ [n0]) m t rest ps cost x y s SP RT Q Hm Ht MT Hx Hy CH AP S1) as (c & r & g' & E & S & O).
    cbn [route_loop]. replace (Datatypes.S k) with (List.length (pre' ++ [n0])) by (rewrite app_length; cbn; lia).
    rewrite E. cbn [bindr].
    replace ((pre' ++ [n0]) ++ t :: m :: rest) with (pre' ++ n0 :: t :: m :: rest) by (rewrite <- app_assoc; reflexivity).
    assert (NDx : NoDup (pre' ++ [n0; t])).
    { replace ((pre' ++ [n0]) ++ [m; t]) with ((pre' ++ [n0]) ++ m :: [t]) in ND by reflexivity.
      apply NoDup_remove_1 in ND. rewrite <- app_assoc in ND. exact ND. }
    assert (Nm : ~ In m (pre' ++ [n0])).
    { replace ((pre' ++ [n0]) ++ [m; t]) with ((pre' ++ [n0]) ++ m :: [t]) in ND by reflexivity. apply NoDup_remove_2 in ND.
      intros H. apply ND. apply in_or_app. left. exact H. }
    assert (Nt : ~ In t (pre' ++ [n0])).
    { replace (pre' ++ [n0; t]) with ((pre' ++ [n0]) ++ [t]) in NDx by (rewrite <- app_assoc; reflexivity).
      apply NoDup_remove_2 in NDx. rewrite app_nil_r in NDx. exact NDx. }
    assert (PL : forall n p, In n (pre' ++ [n0]) -> (placed g' n p <-> placed g n p)).
    { intros n p Hn. rewrite (sw_placed t m g g' W S), tau_other; [reflexivity|intros ->; contradiction|intros ->; contradiction]. }
    assert (Hy' : placed g' t x) by (apply (sw_placed t m g g' W S); rewrite tau_l; exact Hx).
    assert (PE := pulse_entries d x y s r Bx By XY S1 O). cbn zeta in PE.
    assert (SG : (sgn x y = 1 \/ sgn x y = -1)%R) by (unfold sgn; destruct (x <? y)%Z; auto).
    destruct (IH pre' Ek' n0 t (m :: rest) g' (ps ++ [r]) (cost + c)%R x (sgn x y)) as (c' & ps' & g'' & y' & s' & E2 & A1 & A2 & A3 & A4 & A5 & A6 & A7).
    + exact (sw_routable t m g g' W Ht Hm S d RT).
    + intros n v z Hv Hz. apply (sw_has t m g g' W S) in Hv. eapply Q; eassumption.
    + intros n Hn. apply (sw_node t m g g' S). apply IN. apply in_app_or in Hn. destruct Hn as [Hn|[<-|[<-|[]]]].
      * apply in_or_app. left. apply in_or_app. left. exact Hn.
      * apply in_or_app. left. apply in_or_app. right. left. reflexivity.
      * apply in_or_app. right. right. left. reflexivity.
    + exact NDx.
    + exact Hy'.
    + apply (ch_last _ _ r y); [apply last_snoc|apply O|apply O|exact XY|lia].
    + exact SG.
    + intros n p Hn Hp. apply (PL n p Hn) in Hp.
      assert (Bp := rt_physical d g RT _ _ Hp).
      destruct (HP n p) as [AP' RP]; [|exact Hp|].
      { apply in_or_app. left. exact Hn. }
      assert (PX : p <> x).
      { intros ->. apply Nm. replace m with n; [exact Hn|]. eapply (proj2 (rt_placement d g RT)); eassumption. }
      assert (PY : p <> y).
      { intros ->. apply Nt. replace t with n; [exact Hn|]. eapply (proj2 (rt_placement d g RT)); eassumption. }
      split.
      * intros prev z L La Lb Z0 ->. rewrite last_snoc in L. injection L as <-.
        destruct O as (O1 & O2 & _). rewrite O1 in La. rewrite O2 in Lb. unfold lo, hi in *. lia.
      * intros j Hj. rewrite pulses_snoc. destruct (PE (pulses_matrix d ps) j Hj) as [_ PE2].
        rewrite PE2 by lia. apply RP. exact Hj.
    + intros j Hj. rewrite pulses_snoc. destruct (PE (pulses_matrix d ps) j Hj) as [PE1 _]. rewrite PE1, (HR j Hj).
      destruct (Nat.eqb j q); [|apply Ceq; cbn; ring]. rewrite <- RtoC_mul. f_equal.
      destruct S1 as [->| ->]; ring.
    + apply Forall_app. split; [exact HF|]. constructor; [|constructor]. destruct O as (O1 & O2 & O3 & O4). split.
      * rewrite O1, O2. apply lo_hi; assumption.
      * exists s. auto.
    + exists c', ps', g'', y', s'. split; [rewrite <- Ek' in *; exact E2|]. split; [exact A1|]. split; [exact A2|]. split; [exact A3|].
      split; [|auto]. intros z Hz.
      assert (EH : hd n0 pre' = hd m (pre' ++ [n0])) by (destruct pre'; reflexivity).
      rewrite <- EH in *. apply A4. apply (PL (hd n0 pre') z); [|exact Hz].
      destruct pre'; [left; reflexivity|left; reflexivity].
Qed.

Theorem route_exact sp d r g : finds_shortest sp -> routable d g -> no_phases g ->
  is_node g (orig_a r) -> is_node g (orig_b r) -> orig_a r <> orig_b r ->
  forall c ps g' x q, route_states2rotate_basic sp d r g = Ok (c, ps, g') -> placed g (orig_a r) x -> placed g (orig_b r) q ->
  exists y s, placed g' (orig_b r) y /\ placed g' (orig_a r) x /\ chained ps y s /\ (s = 1 \/ s = -1)%R /\ apart ps y x /\
    row_is d (pulses_matrix d ps) (Z.to_nat x) 1 (Z.to_nat x) /\ row_is d (pulses_matrix d ps) (Z.to_nat y) s (Z.to_nat q) /\
    Forall (good_pulse d) ps.
Proof.
  intros SP RT Q Ha Hb Hab c ps g' x q E Hx Hq. unfold route_states2rotate_basic in E.
  destruct (SP g _ _ (rt_wf d g RT) (rt_connected d g RT) Ha Hb) as (p & Ep0 & Sh). rewrite Ep0 in E. cbn [bindr] in E.
  assert (ND := shortest_NoDup _ _ _ _ Sh). destruct Sh as [WK Min].
  destruct (walk_nonempty _ _ _ _ WK) as (l & El).
  assert (WL := walk_last _ _ _ _ 0%Z WK).
  assert (NE : l <> []) by (intros ->; subst p; cbn in WL; congruence).
  destruct (exists_last NE) as (l' & t & El'). subst l.
  assert (Et : t = orig_b r) by (rewrite El in WL; replace (orig_a r :: l' ++ [t]) with ((orig_a r :: l') ++ [t]) in WL by reflexivity; rewrite last_last in WL; exact WL).
  destruct (exists_last (l := orig_a r :: l')) as (pre & m & Em); [discriminate|].
  assert (Ep : p = pre ++ [m; t]).
  { rewrite El. replace (orig_a r :: l' ++ [t]) with ((orig_a r :: l') ++ [t]) by reflexivity. rewrite Em, <- app_assoc. reflexivity. }
  replace (List.length p - 2) with (List.length pre) in E by (rewrite Ep, app_length; cbn; lia).
  assert (Hh : hd m pre = orig_a r) by (destruct pre; cbn in Em |- *; congruence).
  rewrite Ep in E. subst t.
  assert (RI : forall i, row_is d (pulses_matrix d []) i 1 i).
  { intros i j Hj. unfold pulses_matrix, mid. cbn. rewrite Nat.eqb_sym. rewrite RtoC_1. reflexivity. }
  destruct (loop_exact sp d SP (Z.to_nat q) pre m (orig_b r) [] g [] 0%R q 1%R) as (c' & ps' & g2 & y & s & E2 & A1 & A2 & A3 & A4 & A5 & A6 & A7);
    [exact RT|exact Q| | |exact Hq| | | |apply RI|constructor|].
  - rewrite <- Ep. apply (walk_nodes g p (orig_a r) (orig_b r)); trivial. apply (rt_wf d g RT).
  - rewrite <- Ep. exact ND.
  - apply ch_nil. reflexivity.
  - left. reflexivity.
  - intros n z _ _. split; [|apply RI]. intros prev z' L. discriminate L.
  - rewrite E2 in E. injection E as <- <- <-. rewrite Hh in A4. destruct (A4 x Hx) as (B1 & B2 & B3).
    exists y, s. auto 10.
Qed.
