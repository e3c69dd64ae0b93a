(** The routing pulses on a graph that stores phases: each is the pulse of a graph without phases, framed by the
    phases of the two levels; and the phases stored when the pulses are not undone. *)
From Coq Require Import Reals Lra Lia List Arith ZArith.
From Verif.Base Require Import Py PyFacts Cplx Matrix.
From Verif.Gates Require Import AnglesModel AnglesProofs SingleModel SingleSpec SingleProofs.
From Verif.Noise Require Import ChannelProofs.
From Verif.Sim Require Import TnSpec.
From Verif.Levels Require Import LevelsModel LevelsSpec GraphProofs LevelsProofs RouteProofs PhaseProofs.
From Verif.Local Require Import QrModel QrSpec QrMath QrCore PulseProofs QrMoved QrEmit PhySpec.
Import ListNotations.
Local Open Scope string_scope.
Local Open Scope list_scope.
Local Open Scope nat_scope.

(** Nodes 0, 1, ... in this order. *)
Definition stores (g : lgraph) : Prop := exists n v, has_attr g n "phase_storage" v.

(** *** Phases and exchanges of nodes *)
Lemma pending_swapped d g g' t m f : routable d g -> is_node g t -> is_node g m -> swapped t m g g' -> pending g f -> pending g' f.
Proof.
  intros RT Ht Hm S (P1 & P2). assert (W := rt_wf d g RT). split.
  - intros n p v x Hp Hv Hx. apply (sw_placed t m g g' W S) in Hp. apply (sw_has t m g g' W S) in Hv. eapply P1; eassumption.
  - intros l Hl. apply P2. intros n v Hn Hv. apply (Hl (tau t m n) v).
    + apply (sw_placed t m g g' W S). rewrite tau_invol. exact Hn.
    + apply (sw_has t m g g' W S). rewrite tau_invol. exact Hv.
Qed.

(** *** Framing *)
Definition framed (f : nat -> R) (r u : rot) : Prop :=
  lev_a r = lev_a u /\ lev_b r = lev_b u /\ r_theta r = r_theta u /\ r_phi r = (r_phi u - f (lev_a u) + f (lev_b u))%R.

Lemma ongate_framed d r g f : routable d g -> pending g f -> lev_a r < lev_b r < d -> regulate_theta (r_theta r) = r_theta r ->
  exists r', graph_rule_ongate d r g = Ok r' /\ framed f r' r.
Proof.
  intros RT (P1 & P2) Hl Ht. unfold graph_rule_ongate.
  destruct (fst_inode_ok d g RT) as (i & -> & Hi). cbn [bindr].
  destruct (node_attrs_ok d g RT i (has_node _ _ _ _ Hi)) as (A & -> & HA). cbn [bindr].
  destruct (dmem String.eqb A "phase_storage") eqn:EM; cbn [negb].
  - apply HA in EM. destruct EM as (v & Hv).
    assert (PS : forall n, is_node g n -> exists w x, has_attr g n "phase_storage" w /\ node_attr g n "phase_storage" = Ok w /\ num w = Ok x).
    { intros n Hn. destruct (rt_uniform d g RT _ _ _ _ Hv Hn) as (w & Hw). destruct (rt_phases d g RT n w Hw) as (x & Hx).
      exists w, x. split; [exact Hw|]. split; [apply (node_attr_ok d g RT); exact Hw|exact Hx]. }
    destruct (find_logic_ok d g RT (Z.of_nat (lev_a r)) (Z.of_nat (lev_b r))) as (na & nb & EF & _ & _).
    rewrite EF. cbn [bindr]. destruct (find_logic_spec d g _ _ _ _ RT EF) as [Na Nb].
    assert (F1 : (if (na =? -1)%Z then Ok (r_phi r)
              else let? v := node_attr g na "phase_storage" in let? x := num v in Ok (r_phi r - x)%R) = Ok (r_phi r - f (lev_a r))%R).
    { destruct Na as [Na|[-> Na]].
      - assert (Hn : is_node g na) by (eapply has_node; exact Na). assert (B := rt_logical d g RT na Hn).
        destruct (Z.eqb_spec na (-1)); [lia|]. destruct (PS na Hn) as (w & x & Hw & -> & Hx). cbn [bindr]. rewrite Hx. cbn [bindr].
        rewrite <- (P1 na _ w x Na Hw Hx), Nat2Z.id. reflexivity.
      - cbn. rewrite (P2 (lev_a r)); [|intros n w Hn; exfalso; apply (Na n Hn)]. f_equal. ring. }
    rewrite F1. cbn [bindr].
    assert (F2 : (if (nb =? -1)%Z then Ok (r_phi r - f (lev_a r))%R
              else let? v := node_attr g nb "phase_storage" in let? x := num v in Ok (r_phi r - f (lev_a r) + x)%R)
              = Ok (r_phi r - f (lev_a r) + f (lev_b r))%R).
    { destruct Nb as [Nb|[-> Nb]].
      - assert (Hn : is_node g nb) by (eapply has_node; exact Nb). assert (B := rt_logical d g RT nb Hn).
        destruct (Z.eqb_spec nb (-1)); [lia|]. destruct (PS nb Hn) as (w & x & Hw & -> & Hx). cbn [bindr]. rewrite Hx. cbn [bindr].
        rewrite <- (P1 nb _ w x Nb Hw Hx), Nat2Z.id. reflexivity.
      - cbn. rewrite (P2 (lev_b r)); [|intros n w Hn; exfalso; apply (Nb n Hn)]. f_equal. ring. }
    rewrite F2. cbn [bindr]. rewrite new_R_ok by lia. eexists. split; [reflexivity|].
    unfold framed. cbn [lev_a lev_b r_theta r_phi]. rewrite Z.min_l, Z.max_r, !Nat2Z.id, Ht by lia. auto.
  - exists r. split; [reflexivity|].
    assert (F0 : forall l, f l = 0%R).
    { intros l. apply P2. intros n w _ Hw. assert (NI : is_node g i) by (eapply has_node; exact Hi).
      destruct (rt_uniform d g RT _ _ _ _ Hw NI) as (w' & Hw'). assert (Q : dmem String.eqb A "phase_storage" = true) by (apply HA; eauto). congruence. }
    unfold framed. rewrite !F0. repeat split. ring.
Qed.

(** One pulse. *)
Lemma step_framed sp d g pre m t rest ps cost x y s f : finds_shortest sp -> routable d g -> pending g f ->
  is_node g m -> is_node g t -> m <> t -> placed g m x -> placed g t y -> chained ps y s -> apart ps y x -> (s = 1 \/ s = -1)%R ->
  exists c r u g', route_step sp d (List.length pre) (pre ++ m :: t :: rest) g ps cost
      = Ok ((cost + c)%R, ps ++ [r], g', pre ++ t :: m :: rest) /\
    swapped t m g g' /\ framed f r u /\ isr u (lo x y) (hi x y) (PI * s)%R (- PI / 2)%R.
Proof.
  intros SP RT Q Hm Ht MT Hx Hy CH AP S1. assert (W := rt_wf d g RT).
  unfold route_step. rewrite !pyindex_nat.
  rewrite nth_error_app2 by lia. rewrite Nat.sub_diag. cbn [nth_error bindr].
  rewrite nth_error_app2 by lia. replace (List.length pre + 1 - List.length pre) with 1 by lia. cbn [nth_error bindr].
  rewrite (node_attr_ok d g RT m _ _ Hx), (node_attr_ok d g RT t _ _ Hy). cbn [bindr as_int].
  assert (XY : x <> y) by (intros ->; apply MT; eapply (proj2 (rt_placement d g RT)); eassumption).
  assert (Bx := rt_physical d g RT _ _ Hx). assert (By := rt_physical d g RT _ _ Hy).
  assert (RP : forall k, (k = 1 \/ k = -1)%R -> regulate_theta (PI * k) = (PI * k)%R).
  { intros k [->| ->]; apply regulate_pi; [left|right]; ring. }
  rewrite (new_R_ok d x y PI _ Bx By XY). cbn [bindr].
  set (p0 := Rot _ _ _ _ _ _).
  assert (O0 : isr p0 (lo x y) (hi x y) PI (- PI / 2)).
  { unfold isr, p0. cbn [lev_a lev_b r_theta r_phi]. rewrite (regulate_pi PI (or_introl eq_refl)). repeat split. }
  destruct (chain_value d ps x y s p0 _ _ Bx By XY CH AP O0) as (p1 & -> & O1). cbn [bindr].
  assert (O1' : isr p1 (lo x y) (hi x y) (PI * s) (- PI / 2)).
  { destruct O1 as (A1 & A2 & A3 & A4). repeat split; trivial. rewrite A3. destruct ps.
    - destruct CH as [_|? ? L]; [ring|discriminate L].
    - apply RP. exact S1. }
  clear O1. assert (LH := lo_hi d x y Bx By XY).
  assert (HR : regulate_theta (r_theta p1) = r_theta p1) by (destruct O1' as (_ & _ & -> & _); apply RP; exact S1).
  destruct (ongate_framed d p1 g f RT Q) as (p2 & -> & O2); [destruct O1' as (-> & -> & _); lia|exact HR|].
  cbn [bindr].
  rewrite (new_R_ok d m t) by (trivial; eapply rt_logical; eassumption). cbn [bindr].
  set (lg := Rot _ _ _ _ m t).
  destruct (cost_ok d g RT sp SP lg Hm Ht) as (c & ->). cbn [bindr].
  destruct (swap_nodes_spec g t m W (rt_uniform d g RT) Ht Hm) as (g' & -> & S & _). cbn [bindr].
  rewrite swap_elements_app. cbn [bindr]. exists c, p2, p1, g'. split; [reflexivity|]. split; [exact S|]. split; [exact O2|exact O1'].
Qed.

(** The loop. [q]: the physical level on which the moving level t started; [y]: where it is now; [us]: the pulses
    without the frame. *)
Lemma loop_framed sp d (SP : finds_shortest sp) q f : forall pre m t rest g ps us cost y s,
  routable d g -> pending g f -> (forall n, In n (pre ++ [m; t]) -> is_node g n) -> NoDup (pre ++ [m; t]) ->
  placed g t y -> chained ps y s -> (s = 1 \/ s = -1)%R ->
  (forall n x, In n (pre ++ [m]) -> placed g n x -> apart ps y x /\ row_is d (pulses_matrix d us) (Z.to_nat x) 1 (Z.to_nat x)) ->
  row_is d (pulses_matrix d us) (Z.to_nat y) s q -> Forall (good_pulse d) us -> Forall2 (framed f) ps us ->
  exists c ps' us' g' y' s', route_loop sp d (List.length pre) (pre ++ m :: t :: rest) g ps cost = Ok (c, ps', g') /\
    placed g' t y' /\ chained ps' y' s' /\ (s' = 1 \/ s' = -1)%R /\
    (forall x, placed g (hd m pre) x -> placed g' (hd m pre) x /\ apart ps' y' x /\ row_is d (pulses_matrix d us') (Z.to_nat x) 1 (Z.to_nat x)) /\
    row_is d (pulses_matrix d us') (Z.to_nat y') s' q /\ Forall (good_pulse d) us' /\ Forall2 (framed f) ps' us' /\
    pending g' f /\ map fst (nd g') = map fst (nd g) /\ (stores g -> stores g').
Proof.
  intros pre. remember (List.length pre) as k eqn:Ek. revert pre Ek.
  induction k as [|k IH]; intros pre Ek m t rest g ps us cost y s RT Q IN ND Hy CH S1 HP HR HF HF2.
  - destruct pre; [|discriminate]. cbn [route_loop hd]. exists cost, ps, us, g, y, s. split; [reflexivity|]. split; [exact Hy|].
    split; [exact CH|]. split; [exact S1|]. split; [|auto 10]. intros x Hx. split; [exact Hx|]. apply (HP m x); [left; reflexivity|exact Hx].
  - destruct (exists_last (l := pre)) as (pre' & n0 & ->); [intros ->; discriminate|].
    rewrite app_length in Ek. cbn in Ek. assert (Ek' : k = List.length pre') by lia.
    assert (MT : m <> t).
    { apply NoDup_remove_2 in ND. intros ->. apply ND. apply in_or_app. right. left. reflexivity. }
    assert (W := rt_wf d g RT).
    assert (Hm : is_node g m) by (apply IN; apply in_or_app; right; left; reflexivity).
    assert (Ht : is_node g t) by (apply IN; apply in_or_app; right; right; left; reflexivity).
    destruct (proj1 (rt_placement d g RT) m Hm) as (x & Hx).
    assert (Bx := rt_physical d g RT _ _ Hx). assert (By := rt_physical d g RT _ _ Hy).
    assert (XY : x <> y) by (intros ->; apply MT; eapply (proj2 (rt_placement d g RT)); eassumption).
    destruct (HP m x) as [AP RX]; [apply in_or_app; right; left; reflexivity|exact Hx|].
    destruct (step_framed sp d g (pre' ++ [n0]) m t rest ps cost x y s f SP RT Q Hm Ht MT Hx Hy CH AP S1) as (c & r & u & g' & E & S & FR & O).
    cbn [route_loop]. replace (Datatypes.S k) with (List.length (pre' ++ [n0])) by (rewrite app_length; cbn; lia).
    rewrite E. cbn [bindr].
    replace ((pre' ++ [n0]) ++ t :: m :: rest) with (pre' ++ n0 :: t :: m :: rest) by (rewrite <- app_assoc; reflexivity).
    assert (NDx : NoDup (pre' ++ [n0; t])).
    { replace ((pre' ++ [n0]) ++ [m; t]) with ((pre' ++ [n0]) ++ m :: [t]) in ND by reflexivity.
      apply NoDup_remove_1 in ND. rewrite <- app_assoc in ND. exact ND. }
    assert (Nm : ~ In m (pre' ++ [n0])).
    { replace ((pre' ++ [n0]) ++ [m; t]) with ((pre' ++ [n0]) ++ m :: [t]) in ND by reflexivity. apply NoDup_remove_2 in ND.
      intros H. apply ND. apply in_or_app. left. exact H. }
    assert (Nt : ~ In t (pre' ++ [n0])).
    { replace (pre' ++ [n0; t]) with ((pre' ++ [n0]) ++ [t]) in NDx by (rewrite <- app_assoc; reflexivity).
      apply NoDup_remove_2 in NDx. rewrite app_nil_r in NDx. exact NDx. }
    assert (PL : forall n p, In n (pre' ++ [n0]) -> (placed g' n p <-> placed g n p)).
    { intros n p Hn. rewrite (sw_placed t m g g' W S), tau_other; [reflexivity|intros ->; contradiction|intros ->; contradiction]. }
    assert (Hy' : placed g' t x) by (apply (sw_placed t m g g' W S); rewrite tau_l; exact Hx).
    assert (PE := pulse_entries d x y s u Bx By XY S1 O). cbn zeta in PE.
    assert (SG : (sgn x y = 1 \/ sgn x y = -1)%R) by (unfold sgn; destruct (x <? y)%Z; auto).
    assert (LR : lev_a r = lo x y /\ lev_b r = hi x y) by (destruct FR as (-> & -> & _), O as (-> & -> & _); auto).
    destruct (IH pre' Ek' n0 t (m :: rest) g' (ps ++ [r]) (us ++ [u]) (cost + c)%R x (sgn x y)) as (c' & ps' & us' & g'' & y' & s' & E2 & A1 & A2 & A3 & A4 & A5 & A6 & A7 & A8 & A9 & A10).
    + exact (sw_routable t m g g' W Ht Hm S d RT).
    + exact (pending_swapped d g g' t m f RT Ht Hm S Q).
    + intros n Hn. apply (sw_node t m g g' S). apply IN. apply in_app_or in Hn. destruct Hn as [Hn|[<-|[<-|[]]]].
      * apply in_or_app. left. apply in_or_app. left. exact Hn.
      * apply in_or_app. left. apply in_or_app. right. left. reflexivity.
      * apply in_or_app. right. right. left. reflexivity.
    + exact NDx.
    + exact Hy'.
    + apply (ch_last _ _ r y); [apply last_snoc|apply LR|apply LR|exact XY|lia].
    + exact SG.
    + intros n p Hn Hp. apply (PL n p Hn) in Hp.
      assert (Bp := rt_physical d g RT _ _ Hp).
      destruct (HP n p) as [AP' RP]; [|exact Hp|].
      { apply in_or_app. left. exact Hn. }
      assert (PX : p <> x).
      { intros ->. apply Nm. replace m with n; [exact Hn|]. eapply (proj2 (rt_placement d g RT)); eassumption. }
      assert (PY : p <> y).
      { intros ->. apply Nt. replace t with n; [exact Hn|]. eapply (proj2 (rt_placement d g RT)); eassumption. }
      split.
      * intros prev z L La Lb Z0 ->. rewrite last_snoc in L. injection L as <-.
        destruct LR as (O1 & O2). rewrite O1 in La. rewrite O2 in Lb. unfold lo, hi in *. lia.
      * intros j Hj. rewrite pulses_snoc. destruct (PE (pulses_matrix d us) j Hj) as [_ PE2].
        rewrite PE2 by lia. apply RP. exact Hj.
    + intros j Hj. rewrite pulses_snoc. destruct (PE (pulses_matrix d us) j Hj) as [PE1 _]. rewrite PE1, (HR j Hj).
      destruct (Nat.eqb j q); [|apply Ceq; cbn; ring]. rewrite <- RtoC_mul. f_equal.
      destruct S1 as [->| ->]; ring.
    + apply Forall_app. split; [exact HF|]. constructor; [|constructor]. destruct O as (O1 & O2 & O3 & O4). split.
      * rewrite O1, O2. apply lo_hi; assumption.
      * exists s. auto.
    + apply Forall2_app; [exact HF2|]. constructor; [exact FR|constructor].
    + exists c', ps', us', g'', y', s'. split; [rewrite <- Ek' in *; exact E2|]. split; [exact A1|]. split; [exact A2|]. split; [exact A3|].
      split; [|split; [exact A5|split; [exact A6|split; [exact A7|split; [exact A8|split]]]]].
      * intros z Hz.
        assert (EH : hd n0 pre' = hd m (pre' ++ [n0])) by (destruct pre'; reflexivity).
        rewrite <- EH in *. apply A4. apply (PL (hd n0 pre') z); [|exact Hz].
        destruct pre'; [left; reflexivity|left; reflexivity].
      * rewrite A9. apply (sw_nodes t m g g' S).
      * intros (n & v & H). apply A10. exists (tau t m n), v. apply (sw_has t m g g' W S). rewrite tau_invol. exact H.
Qed.

Theorem route_framed sp d r g f : finds_shortest sp -> routable d g -> pending g f ->
  is_node g (orig_a r) -> is_node g (orig_b r) -> orig_a r <> orig_b r ->
  forall c ps g' x q, route_states2rotate_basic sp d r g = Ok (c, ps, g') -> placed g (orig_a r) x -> placed g (orig_b r) q ->
  exists us y s, placed g' (orig_b r) y /\ placed g' (orig_a r) x /\ chained ps y s /\ (s = 1 \/ s = -1)%R /\ apart ps y x /\
    row_is d (pulses_matrix d us) (Z.to_nat x) 1 (Z.to_nat x) /\ row_is d (pulses_matrix d us) (Z.to_nat y) s (Z.to_nat q) /\
    Forall (good_pulse d) us /\ Forall2 (framed f) ps us /\ pending g' f /\ map fst (nd g') = map fst (nd g) /\ (stores g -> stores g').
Proof.
  intros SP RT Q Ha Hb Hab c ps g' x q E Hx Hq. unfold route_states2rotate_basic in E.
  destruct (SP g _ _ (rt_wf d g RT) (rt_connected d g RT) Ha Hb) as (p & Ep0 & Sh). rewrite Ep0 in E. cbn [bindr] in E.
  assert (ND := shortest_NoDup _ _ _ _ Sh). destruct Sh as [WK Min].
  destruct (walk_nonempty _ _ _ _ WK) as (l & El).
  assert (WL := walk_last _ _ _ _ 0%Z WK).
  assert (NE : l <> []) by (intros ->; subst p; cbn in WL; congruence).
  destruct (exists_last NE) as (l' & t & El'). subst l.
  assert (Et : t = orig_b r) by (rewrite El in WL; replace (orig_a r :: l' ++ [t]) with ((orig_a r :: l') ++ [t]) in WL by reflexivity; rewrite last_last in WL; exact WL).
  destruct (exists_last (l := orig_a r :: l')) as (pre & m & Em); [discriminate|].
  assert (Ep : p = pre ++ [m; t]).
  { rewrite El. replace (orig_a r :: l' ++ [t]) with ((orig_a r :: l') ++ [t]) by reflexivity. rewrite Em, <- app_assoc. reflexivity. }
  replace (List.length p - 2) with (List.length pre) in E by (rewrite Ep, app_length; cbn; lia).
  assert (Hh : hd m pre = orig_a r) by (destruct pre; cbn in Em |- *; congruence).
  rewrite Ep in E. subst t.
  assert (RI : forall i, row_is d (pulses_matrix d []) i 1 i).
  { intros i j Hj. unfold pulses_matrix, mid. cbn. rewrite Nat.eqb_sym. rewrite RtoC_1. reflexivity. }
  destruct (loop_framed sp d SP (Z.to_nat q) f pre m (orig_b r) [] g [] [] 0%R q 1%R) as (c' & ps' & us & g2 & y & s & E2 & A1 & A2 & A3 & A4 & A5 & A6 & A7 & A8 & A9 & A10);
    [exact RT|exact Q| | |exact Hq| | | |apply RI|constructor|constructor|].
  - rewrite <- Ep. apply (walk_nodes g p (orig_a r) (orig_b r)); trivial. apply (rt_wf d g RT).
  - rewrite <- Ep. exact ND.
  - apply ch_nil. reflexivity.
  - left. reflexivity.
  - intros n z _ _. split; [|apply RI]. intros prev z' L. discriminate L.
  - rewrite E2 in E. injection E as <- <- <-. rewrite Hh in A4. destruct (A4 x Hx) as (B1 & B2 & B3).
    exists us, y, s. repeat split; trivial; try apply A8.
Qed.

(** The frame on the matrix of the pulses. *)
Lemma pulses_cons d p ps : meq d (pulses_matrix d (p :: ps)) (mmul d (pulses_matrix d ps) (r_array d (lev_a p) (lev_b p) (r_theta p) (r_phi p))).
Proof.
  rewrite <- !ops_pulses. cbn [map]. replace (OR p :: map OR ps) with ([OR p] ++ map OR ps) by reflexivity.
  eapply meq_trans; [apply ops_app|]. apply mmul_ext; [apply meq_refl|]. apply ops_one.
Qed.
Lemma framed_phases d f ps us : Forall2 (framed f) ps us -> Forall (good_pulse d) us ->
  meq d (mmul d (phases f) (pulses_matrix d ps)) (mmul d (pulses_matrix d us) (phases f)).
Proof.
  intros H. induction H as [|p u ps us (F1 & F2 & F3 & F4) H IH]; intros G.
  - eapply meq_trans; [apply mmul_id_r|]. apply meq_sym, mmul_id_l.
  - inversion G as [|u' us' Gu Gus]; subst. specialize (IH Gus). destruct Gu as (L & _).
    eapply meq_trans; [apply mmul_ext; [apply meq_refl|apply pulses_cons]|].
    eapply meq_trans; [apply meq_sym, mmul_assoc|]. eapply meq_trans; [apply mmul_ext; [exact IH|apply meq_refl]|].
    eapply meq_trans; [apply mmul_assoc|].
    apply meq_sym. eapply meq_trans; [apply mmul_ext; [apply pulses_cons|apply meq_refl]|]. eapply meq_trans; [apply mmul_assoc|].
    apply mmul_ext; [apply meq_refl|]. apply meq_sym. rewrite F1, F2, F3, F4.
    eapply meq_trans; [apply mmul_ext; [apply meq_refl|apply r_array_rotation; lia]|].
    eapply meq_trans; [apply (diag_rotation d _ _ _ _ f); lia|].
    apply mmul_ext; [|apply meq_refl]. apply meq_sym, r_array_rotation. lia.
Qed.
