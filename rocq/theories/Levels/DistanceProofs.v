(** Distances and costs on a level graph. *)
From Coq Require Import Reals Lra Lia List ZArith Bool.
From Verif.Base Require Import Py PyFacts.
From Verif.Gates Require Import AnglesModel AnglesProofs SingleModel CostProofs.
From Verif.Levels Require Import LevelsModel LevelsSpec GraphProofs LevelsProofs RouteProofs PhaseProofs DistanceSpec.
Import ListNotations.
Local Open Scope string_scope.
Local Open Scope list_scope.
Local Open Scope nat_scope.

Lemma edges_unique g s t k k' : edges_apart g s t k -> edges_apart g s t k' -> k = k'.
Proof. intros ((p & W & L) & M) ((p' & W' & L') & M'). specialize (M p' W'). specialize (M' p W). lia. Qed.
Lemma distance_value sp g s t : finds_shortest sp -> well_formed g -> connected g -> is_node g s -> is_node g t ->
  exists k, distance_nodes sp g s t = Ok (Z.of_nat k) /\ edges_apart g s t k.
Proof.
  intros SP W C Hs Ht. destruct (SP g s t W C Hs Ht) as (p & E & Wk & M). destruct (walk_nonempty _ _ _ _ Wk) as (q & ->).
  exists (List.length q). unfold distance_nodes. rewrite E. cbn [bindr]. split.
  - f_equal. cbn [List.length]. lia.
  - split; [exists (s :: q); split; [exact Wk|reflexivity]|]. exact M.
Qed.
Lemma distance_exact sp g s t k : finds_shortest sp -> well_formed g -> connected g -> is_node g s -> is_node g t ->
  edges_apart g s t k -> distance_nodes sp g s t = Ok (Z.of_nat k).
Proof.
  intros SP W C Hs Ht H. destruct (distance_value sp g s t SP W C Hs Ht) as (k' & E & H'). now rewrite (edges_unique _ _ _ _ _ H H').
Qed.

(** first initial node *)
Lemma level_dec b : {In ("level", AStr "i") b} + {~ In ("level", AStr "i") b}.
Proof.
  induction b as [|[k v] b IH]; [right; intros []|]. destruct IH as [H|H]; [left; now right|].
  destruct (string_dec k "level") as [->|N].
  - destruct v as [z|r|s]; try (right; intros [E|E]; [discriminate|contradiction]).
    destruct (string_dec s "i") as [->|N]; [left; now left|]. right. intros [E|E]; [injection E as E; congruence|contradiction].
  - right. intros [E|E]; [injection E as E _; congruence|contradiction].
Qed.
Lemma fst_inode_first g n : well_formed g -> fst_inode g = Ok n -> first_initial g n.
Proof.
  intros W. unfold fst_inode, fst_node, nodes_at_level, with_levels. assert (A := wf_attrs g W). unfold first_initial. revert A.
  generalize (nd g) as l. induction l as [|[m b] l IH]; intros A H; [discriminate|]. cbn [mapr snd fst] in H.
  assert (Nb : NoDup (map fst b)) by (apply (A m b); now left).
  assert (Lk : forall v, aget b "level" = Some v -> forall w, In ("level", w) b -> w = v).
  { intros v Ev w Hw. apply (dget_complete String.eqb String.eqb_eq) in Hw; [congruence|exact Nb]. }
  destruct (aget b "level") as [v|] eqn:E; cbn [getk bindr] in H; [|discriminate].
  destruct (mapr _ l) as [ys|] eqn:El; cbn [bindr] in H; [|discriminate].
  cbn [filter] in H. destruct (is_level "i" (m, v)) eqn:Ei; cbn [map fst] in H.
  - injection H as <-. exists [], b, l. split; [reflexivity|]. split.
    + unfold is_level in Ei. cbn in Ei. destruct v as [| |s]; try discriminate. apply String.eqb_eq in Ei. subst s.
      eapply (dget_In String.eqb String.eqb_eq); exact E.
    + intros ? ? [].
  - destruct IH as (p & a & q & E1 & E2 & E3); [intros; eapply A; right; eassumption|cbn [bindr]; exact H|].
    exists ((m, b) :: p), a, q. split; [cbn; now rewrite E1|]. split; [exact E2|].
    intros m' b' [X|X]; [|eapply E3; exact X]. injection X as <- <-. intros F. pose proof (Lk v eq_refl _ F) as Y. subst v.
    cbn in Ei. discriminate.
Qed.
Lemma kind_nodes (l : list (Z * attrs)) s : (forall n a, In (n, a) l -> NoDup (map fst a)) -> (forall n a, In (n, a) l -> exists v, In ("level", v) a) ->
  exists ks, mapr (fun na => let? v := getk (aget (snd na) "level") in Ok (fst na, v)) l = Ok ks /\
  (forall n, In n (map fst (filter (is_level s) ks)) <-> exists a, In (n, a) l /\ In ("level", AStr s) a) /\
  match map fst (filter (is_level s) ks) with
  | [] => forall n a, In (n, a) l -> ~ In ("level", AStr s) a
  | n :: _ => exists p a q, l = p ++ (n, a) :: q /\ In ("level", AStr s) a /\ forall m b, In (m, b) p -> ~ In ("level", AStr s) b
  end.
Proof.
  induction l as [|[m b] l IH]; intros A G.
  - exists []. split; [reflexivity|]. split; [|intros ? ? []]. intros n. split; [intros []|intros (a & [] & _)].
  - assert (Nb : NoDup (map fst b)) by (apply (A m b); now left). destruct (G m b) as [v Hv]; [now left|].
    assert (Lk : aget b "level" = Some v) by (apply (dget_complete String.eqb String.eqb_eq); assumption).
    assert (Un : forall w, In ("level", w) b -> w = v).
    { intros w Hw. apply (dget_complete String.eqb String.eqb_eq) in Hw; [|exact Nb]. assert (X : Some w = Some v) by (rewrite <- Lk; symmetry; exact Hw). now injection X. }
    destruct IH as (ks & E & I & F); [intros; eapply A; right; eassumption|intros; eapply G; right; eassumption|].
    cbn [mapr snd fst]. rewrite Lk. cbn [getk bindr]. rewrite E. cbn [bindr]. exists ((m, v) :: ks). split; [reflexivity|].
    cbn [filter]. destruct (is_level s (m, v)) eqn:L; cbn [map fst].
    + assert (Ev : v = AStr s) by (unfold is_level in L; cbn in L; destruct v; try discriminate; apply String.eqb_eq in L; now subst). subst v. split.
      * intros n. cbn [In]. rewrite I. split.
        -- intros [<-|(a & H & K)]; [exists b; split; [now left|exact Hv]|exists a; split; [now right|exact K]].
        -- intros (a & [H|H] & K); [injection H as <- _; now left|right; now exists a].
      * exists [], b, l. split; [reflexivity|]. split; [exact Hv|]. intros ? ? [].
    + assert (Nv : ~ In ("level", AStr s) b).
      { intros H. apply Un in H. subst v. unfold is_level in L. cbn in L. rewrite String.eqb_refl in L. discriminate. }
      split.
      * intros n. rewrite I. split; [intros (a & H & K); exists a; split; [now right|exact K]|].
        intros (a & [H|H] & K); [injection H as _ <-; contradiction|now exists a].
      * destruct (map fst (filter (is_level s) ks)) as [|n r].
        -- intros n a [H|H]; [injection H as _ <-; exact Nv|exact (F n a H)].
        -- destruct F as (p & a & q & -> & K & F). exists ((m, b) :: p), a, q. split; [reflexivity|]. split; [exact K|].
           intros m' b' [H|H]; [injection H as _ <-; exact Nv|exact (F m' b' H)].
Qed.
Lemma first_kind g s : well_formed g -> kinds_given g ->
  (forall n, first_of_kind g s n -> fst_node g s = Ok n) /\ ((forall n, ~ has_attr g n "level" (AStr s)) -> fst_node g s = Err IndexError).
Proof.
  intros W G. destruct (kind_nodes (nd g) s (wf_attrs g W) G) as (ks & E & I & F).
  unfold fst_node, nodes_at_level, with_levels. rewrite E. cbn [bindr]. split.
  - intros n (p & a & q & Eq & K & P). destruct (map fst (filter (is_level s) ks)) as [|n' r].
    + exfalso. apply (F n a); [rewrite Eq; apply in_elt|exact K].
    + destruct F as (p' & a' & q' & Eq' & K' & P'). f_equal. rewrite Eq in Eq'. clear -Eq' K K' P P'.
      revert p' Eq' P'. induction p as [|x p IH]; intros [|y p'] Eq' P'; cbn in Eq'.
      * now injection Eq'.
      * injection Eq' as Ey _. subst y. exfalso. apply (P' n a); [now left|exact K].
      * injection Eq' as Ex _. subst x. exfalso. apply (P n' a'); [now left|exact K'].
      * injection Eq' as _ Eq'. apply (IH (fun m b H => P m b (or_intror H)) p' Eq'). intros m b H. apply (P' m b). now right.
  - intros H. destruct (map fst (filter (is_level s) ks)) as [|n r]; [reflexivity|]. exfalso.
    destruct F as (p & a & q & Eq & K & _). apply (H n). exists a. split; [rewrite Eq; apply in_elt|exact K].
Qed.
Lemma of_kind g s n : well_formed g -> kinds_given g ->
  exists b, (let? l := nodes_at_level g s in Ok (existsb (Z.eqb n) l)) = Ok b /\ (b = true <-> has_attr g n "level" (AStr s)).
Proof.
  intros W G. destruct (kind_nodes (nd g) s (wf_attrs g W) G) as (ks & E & I & F).
  unfold nodes_at_level, with_levels. rewrite E. cbn [bindr]. eexists. split; [reflexivity|]. rewrite existsb_exists. unfold has_attr.
  rewrite <- I. split; [intros (x & H & Q); apply Z.eqb_eq in Q; now subst|intros H; exists n; split; [exact H|apply Z.eqb_refl]].
Qed.
Lemma first_initial_unique g n m : well_formed g -> first_initial g n -> first_initial g m -> n = m.
Proof.
  intros W (p & a & q & E & H & F) (p' & a' & q' & E' & H' & F'). rewrite E in E'. clear E.
  revert p' E' F'. induction p as [|x p IH]; intros [|y p'] E' F'; cbn in E'.
  - now injection E'.
  - injection E' as Ey E'. subst y. exfalso. apply (F' n a); [now left|exact H].
  - injection E' as Ey E'. subst x. exfalso. apply (F m a'); [now left|exact H'].
  - injection E' as <- E'. eapply IH; [intros; eapply F; right; eassumption|exact E'|intros; eapply F'; right; eassumption].
Qed.

Section Costs.
Variables (d : nat) (g : lgraph) (sp : lgraph -> Z -> Z -> res (list Z)).
Hypothesis RT : routable d g.
Hypothesis SP : finds_shortest sp.
Lemma irnode_spec n : is_irnode g n = Ok true /\ reachable_level g n \/ is_irnode g n = Ok false /\ ~ reachable_level g n.
Proof.
  unfold is_irnode. destruct (nodes_at_ok d g RT "r") as (l & -> & H). cbn [bindr].
  destruct (existsb (Z.eqb n) l) eqn:E.
  - left. split; [reflexivity|]. apply existsb_exists in E. destruct E as (m & Hm & Em). apply Z.eqb_eq in Em. subst m. now apply H.
  - right. split; [reflexivity|]. intros F. apply H in F. assert (X : existsb (Z.eqb n) l = true); [|congruence].
    apply existsb_exists. exists n. split; [exact F|apply Z.eqb_refl].
Qed.
Lemma cost_direct r : ~ reachable_level g (orig_a r) -> ~ reachable_level g (orig_b r) ->
  rotation_cost_calc sp r g = Ok (theta_cost (r_theta r)).
Proof.
  intros Ha Hb. unfold rotation_cost_calc. destruct (irnode_spec (orig_a r)) as [[_ X]|[-> _]]; [contradiction|]. cbn [bindr].
  destruct (irnode_spec (orig_b r)) as [[_ X]|[-> _]]; [contradiction|]. reflexivity.
Qed.
Lemma cost_far r i ka kb : is_node g (orig_a r) -> is_node g (orig_b r) ->
  reachable_level g (orig_a r) \/ reachable_level g (orig_b r) -> first_initial g i ->
  edges_apart g i (orig_a r) ka -> edges_apart g i (orig_b r) kb ->
  rotation_cost_calc sp r g = Ok (INR (Nat.min ka kb + 1) * theta_cost (r_theta r))%R.
Proof.
  intros Na Nb Hr Hi Da Db. unfold rotation_cost_calc.
  assert (B : exists ra, is_irnode g (orig_a r) = Ok ra /\ (if ra then Ok true else is_irnode g (orig_b r)) = Ok true).
  { destruct (irnode_spec (orig_a r)) as [[-> _]|[-> X]]; [exists true; auto|exists false; split; [reflexivity|]].
    destruct Hr as [Hr|Hr]; [contradiction|]. destruct (irnode_spec (orig_b r)) as [[-> _]|[_ X']]; [reflexivity|contradiction]. }
  destruct B as (ra & -> & B). cbn [bindr]. rewrite B. cbn [bindr].
  destruct (fst_inode_ok d g RT) as (j & Ej & Hj). rewrite Ej. cbn [bindr].
  assert (i = j) by (eapply first_initial_unique; [apply RT|exact Hi|apply fst_inode_first; [apply RT|exact Ej]]). subst j.
  assert (Ni : is_node g i) by (destruct Hj as (A & HA & _); eapply in_keys; exact HA).
  rewrite (distance_exact sp g i _ ka SP (rt_wf d g RT) (rt_connected d g RT) Ni Na Da). cbn [bindr].
  rewrite (distance_exact sp g i _ kb SP (rt_wf d g RT) (rt_connected d g RT) Ni Nb Db). cbn [bindr].
  rewrite <- Nat2Z.inj_min. replace (Z.of_nat (Nat.min ka kb) + 1)%Z with (Z.of_nat (Nat.min ka kb + 1)) by lia. now rewrite <- INR_IZR_INZ.
Qed.
End Costs.

(** the total *)
Lemma total_cost sp d r g nz tot ps g' cpi gc : cost_calculator sp d r g nz = Ok (tot, ps, g', cpi, gc) <->
  route_states2rotate_basic sp d r g = Ok (cpi, ps, g') /\ rotation_cost_calc sp r g' = Ok gc /\ tot = (IZR nz * (gc + cpi))%R.
Proof.
  unfold cost_calculator. split.
  - destruct (route_states2rotate_basic sp d r g) as [[[c p] h]|]; [|discriminate]. cbn [bindr].
    destruct (rotation_cost_calc sp r h) as [x|] eqn:E; [|discriminate]. cbn [bindr]. intros H. injection H as <- <- <- <- <-.
    split; [reflexivity|]. split; [exact E|]. ring.
  - intros (-> & E & ->). cbn [bindr]. rewrite E. cbn [bindr]. do 5 f_equal. ring.
Qed.
Lemma total_cost_returns sp d r g nz : finds_shortest sp -> routable d g ->
  is_node g (orig_a r) -> is_node g (orig_b r) -> orig_a r <> orig_b r -> exists x, cost_calculator sp d r g nz = Ok x.
Proof.
  intros SP RT Ha Hb N. destruct (route_ok sp d r g SP RT Ha Hb N) as (c & ps & g' & E & _ & _ & _ & NN & RT' & _).
  destruct (cost_ok d g' RT' sp SP r) as (x & Ex); [apply NN, Ha|apply NN, Hb|].
  eexists. unfold cost_calculator. rewrite E. cbn [bindr]. rewrite Ex. reflexivity.
Qed.

(** every pulse costs at least one pi rotation *)
Lemma new_R_theta d a b t f r : new_R d a b t f = Ok r -> r_theta r = regulate_theta t.
Proof.
  unfold new_R. destruct (r_new d _) as [[x|]|] eqn:E; try discriminate. cbn [bindr]. intros H. injection H as <-.
  unfold r_new in E. cbn [get_int get_float nth_error bindr] in E. destruct (check_levels d a b); [|discriminate].
  destruct (levels_setter a b) as [u v]. cbn [bindr] in E. injection E as <-. reflexivity.
Qed.
Lemma ongate_theta d r g r' : pi_angle (r_theta r) -> graph_rule_ongate d r g = Ok r' -> pi_angle (r_theta r').
Proof.
  intros P. unfold graph_rule_ongate. destruct (fst_inode g) as [i|]; [|discriminate]. cbn [bindr].
  destruct (node_attrs g i) as [a|]; [|discriminate]. cbn [bindr]. destruct (negb _); [intros H; injection H as <-; exact P|].
  destruct (find_logic_from_phys _ _ g) as [[na nb]|]; [|discriminate]. cbn [bindr].
  match goal with |- context [let? f1 := ?e in _] => destruct e as [f1|]; [|discriminate] end. cbn [bindr].
  match goal with |- context [let? f2 := ?e in _] => destruct e as [f2|]; [|discriminate] end. cbn [bindr].
  intros H. rewrite (new_R_theta _ _ _ _ _ _ H). now rewrite regulate_pi.
Qed.
Lemma chain_theta d ps r r' : pi_angle (r_theta r) -> gate_chain_condition d ps r = Ok r' -> pi_angle (r_theta r').
Proof.
  intros P. unfold gate_chain_condition. destruct (last (map Some ps) None) as [p|]; [|intros H; injection H as <-; exact P].
  intros H. rewrite (new_R_theta _ _ _ _ _ _ H).
  assert (Q : pi_angle (r_theta r * -1)) by (destruct P as [-> | ->]; [right|left]; ring).
  repeat match goal with |- context [if ?c then _ else _] => destruct c end; now rewrite regulate_pi.
Qed.
Lemma pi_cost t : pi_angle t -> theta_cost t = (4 / 10000)%R.
Proof.
  intros P. rewrite <- cost_pi_rotation. rewrite regulate_pi by now left. destruct P as [->| ->]; [reflexivity|]. apply theta_cost_props.
Qed.
Lemma cost_at_least sp r g c : (forall g s t p, sp g s t = Ok p -> p <> []) -> rotation_cost_calc sp r g = Ok c -> (theta_cost (r_theta r) <= c)%R.
Proof.
  intros NE. unfold rotation_cost_calc. destruct (is_irnode g (orig_a r)) as [ra|]; [|discriminate]. cbn [bindr].
  match goal with |- context [let? rb := ?e in _] => destruct e as [rb|]; [|discriminate] end. cbn [bindr]. destruct rb; [|intros H; injection H as <-; lra].
  destruct (fst_inode g) as [i|]; [|discriminate]. cbn [bindr]. unfold distance_nodes.
  destruct (sp g i (orig_a r)) as [p|] eqn:E1; [|discriminate]. cbn [bindr]. destruct (sp g i (orig_b r)) as [q|] eqn:E2; [|discriminate]. cbn [bindr].
  intros H. injection H as <-. apply NE in E1, E2.
  assert (L : (1 <= IZR (Z.min (Z.of_nat (List.length p) - 1) (Z.of_nat (List.length q) - 1) + 1))%R).
  { apply IZR_le. destruct p; [contradiction|]. destruct q; [contradiction|]. cbn [List.length]. lia. }
  pose proof (proj1 (theta_cost_props (r_theta r))). nra.
Qed.
Lemma loop_cost sp d : (forall g s t p, sp g s t = Ok p -> p <> []) -> forall i path g ps cost c' ps' g',
  route_loop sp d i path g ps cost = Ok (c', ps', g') ->
  List.length ps' = List.length ps + i /\ (cost + INR i * (4 / 10000) <= c')%R.
Proof.
  intros NE. induction i as [|i IH]; intros path g ps cost c' ps' g' H; cbn [route_loop] in H.
  - injection H as <- <- <-. cbn. split; [lia|lra].
  - destruct (route_step sp d (S i) path g ps cost) as [[[[c1 p1] g1] q1]|] eqn:E; [|discriminate]. cbn [bindr] in H.
    apply IH in H. destruct H as [L C]. unfold route_step in E.
    destruct (pyindex path (Z.of_nat (S i))) as [ni|]; [|discriminate]. cbn [bindr] in E.
    destruct (pyindex path _) as [ni1|]; [|discriminate]. cbn [bindr] in E.
    destruct (node_attr g ni "lpmap") as [vi|]; [|discriminate]. cbn [bindr] in E.
    destruct (node_attr g ni1 "lpmap") as [vi1|]; [|discriminate]. cbn [bindr] in E.
    destruct (as_int vi) as [x|]; [|discriminate]. cbn [bindr] in E. destruct (as_int vi1) as [y|]; [|discriminate]. cbn [bindr] in E.
    destruct (new_R d x y PI _) as [r0|] eqn:E0; [|discriminate]. cbn [bindr] in E.
    destruct (gate_chain_condition d ps r0) as [r1|] eqn:E1; [|discriminate]. cbn [bindr] in E.
    destruct (graph_rule_ongate d r1 g) as [r2|] eqn:E2; [|discriminate]. cbn [bindr] in E.
    destruct (new_R d ni ni1 (r_theta r2) _) as [lg|] eqn:E3; [|discriminate]. cbn [bindr] in E.
    destruct (rotation_cost_calc sp lg g) as [c|] eqn:E4; [|discriminate]. cbn [bindr] in E.
    destruct (swap_nodes g ni1 ni) as [g2|]; [|discriminate]. cbn [bindr] in E.
    destruct (swap_elements path _ _) as [q2|]; [|discriminate]. cbn [bindr] in E. injection E as <- <- <- <-.
    assert (P0 : pi_angle (r_theta r0)) by (rewrite (new_R_theta _ _ _ _ _ _ E0), regulate_pi; now left).
    pose proof (ongate_theta _ _ _ _ (chain_theta _ _ _ _ P0 E1) E2) as P2.
    pose proof (new_R_theta _ _ _ _ _ _ E3) as T3. rewrite (regulate_pi _ P2) in T3.
    pose proof (cost_at_least sp lg g c NE E4) as K. rewrite T3, (pi_cost _ P2) in K.
    rewrite app_length in L. cbn in L. split; [lia|]. rewrite S_INR. lra.
Qed.
Lemma route_cost sp d r g c ps g' : (forall g s t p, sp g s t = Ok p -> p <> []) ->
  route_states2rotate_basic sp d r g = Ok (c, ps, g') -> (INR (List.length ps) * (4 / 10000) <= c)%R.
Proof.
  intros NE. unfold route_states2rotate_basic. destruct (sp g _ _) as [p|]; [|discriminate]. cbn [bindr]. intros H.
  destruct (loop_cost sp d NE _ _ _ _ _ _ _ _ H) as [L C]. cbn in L. rewrite L. lra.
Qed.
(** the count of pulses without ancilla nodes *)
Lemma route_pulses sp d r g c ps g' : finds_shortest sp -> routable d g ->
  is_node g (orig_a r) -> is_node g (orig_b r) -> orig_a r <> orig_b r ->
  route_states2rotate_basic sp d r g = Ok (c, ps, g') -> distance_pi_pulses sp g (orig_a r) (orig_b r) = Ok (Z.of_nat (List.length ps)).
Proof.
  intros SP RT Ha Hb N E. unfold route_states2rotate_basic in E. unfold distance_pi_pulses.
  destruct (SP g _ _ (rt_wf d g RT) (rt_connected d g RT) Ha Hb) as (p & Ep & Wk & M). rewrite Ep in *. cbn [bindr] in *.
  assert (L : List.length ps = List.length p - 2).
  { clear - E. enough (K : forall i path g ps cost c' ps' g', route_loop sp d i path g ps cost = Ok (c', ps', g') -> List.length ps' = List.length ps + i) by (apply K in E; cbn in E; exact E).
    induction i as [|i IH]; intros path h qs cost c' ps' h' H; cbn [route_loop] in H; [injection H as <- <- <-; lia|].
    destruct (route_step sp d (S i) path h qs cost) as [[[[c1 p1] g1] q1]|] eqn:E1; [|discriminate]. cbn [bindr] in H. apply IH in H.
    unfold route_step in E1. repeat (match type of E1 with bindr ?e _ = _ => destruct e; [|discriminate]; cbn [bindr] in E1 end).
    injection E1 as <- <- <- <-. rewrite app_length in H. cbn in H. lia. }
  assert (I : forall x, In x p -> (0 <= x)%Z) by (intros x Hx; apply (rt_logical d g RT); eapply walk_nodes; [apply RT|exact Ha|exact Wk|exact Hx]).
  assert (F1 : filter (fun n => (0 <=? n)%Z) p = p).
  { clear - I. induction p as [|x p IH]; [reflexivity|]. cbn. rewrite (proj2 (Z.leb_le 0 x)) by (apply I; now left). f_equal. apply IH. intros; apply I; now right. }
  assert (F2 : filter (fun n => negb (0 <=? n)%Z) p = []).
  { clear - I. induction p as [|x p IH]; [reflexivity|]. cbn. rewrite (proj2 (Z.leb_le 0 x)) by (apply I; now left). apply IH. intros; apply I; now right. }
  rewrite F1, F2, L. cbn [List.length]. f_equal.
  assert (2 <= List.length p).
  { inversion Wk as [s|s m t q Lk Wq]; subst; [congruence|]. destruct (walk_nonempty _ _ _ _ Wq) as (q' & ->). cbn. lia. }
  lia.
Qed.

(** sensitivities *)
Lemma edge_sens g a b x : well_formed g -> get_edge_sensitivity g a b = Ok x <-> sensitivity g a b x.
Proof.
  intros W. unfold get_edge_sensitivity, sensitivity. split.
  - destruct (nget (adj g) a) as [l|] eqn:E1; [|discriminate]. cbn [getk bindr]. destruct (nget l b) as [e|] eqn:E2; [|discriminate]. cbn [getk bindr].
    destruct (aget e "sensitivity") as [v|] eqn:E3; [|discriminate]. cbn [getk bindr]. intros H. exists e, v.
    split; [exists l; split; [eapply (dget_In Z.eqb Z.eqb_eq); exact E1|eapply (dget_In Z.eqb Z.eqb_eq); exact E2]|].
    split; [eapply (dget_In String.eqb String.eqb_eq); exact E3|exact H].
  - intros (e & v & (l & Hl & He) & Hv & Hx).
    assert (Na : NoDup (map fst (adj g))) by (rewrite (wf_adj g W); apply (wf_nodes g W)).
    rewrite (dget_complete Z.eqb Z.eqb_eq _ _ _ Na Hl). cbn [getk bindr].
    rewrite (dget_complete Z.eqb Z.eqb_eq _ _ _ (wf_neighbours g W _ _ Hl) He). cbn [getk bindr].
    assert (Ne : NoDup (map fst e)) by (apply (wf_data g W a b); exists l; auto).
    rewrite (dget_complete String.eqb String.eqb_eq _ _ _ Ne Hv). cbn [getk bindr]. exact Hx.
Qed.
Lemma sens_sym g a b x : well_formed g -> sensitivity g a b x -> sensitivity g b a x.
Proof. intros W (d & v & J & H). exists d, v. split; [now apply (wf_sym g W)|exact H]. Qed.
Lemma node_sens g n : well_formed g -> is_node g n -> (forall m, linked g n m -> exists x, sensitivity g n m x) ->
  exists l, get_node_sensitivity_cost g n = Ok (total (map snd l)) /\ NoDup (map fst l) /\
    forall m x, In (m, x) l <-> sensitivity g n m x.
Proof.
  intros W Hn HS. unfold get_node_sensitivity_cost. assert (Hn' : In n (map fst (adj g))) by (rewrite (wf_adj g W); exact Hn).
  assert (Na : NoDup (map fst (adj g))) by (rewrite (wf_adj g W); apply (wf_nodes g W)).
  apply in_map_iff in Hn'. destruct Hn' as ((n' & nb) & En & Hnb). cbn in En. subst n'.
  rewrite (dget_complete Z.eqb Z.eqb_eq _ _ _ Na Hnb). cbn [getk bindr].
  assert (Nn := wf_neighbours g W _ _ Hnb).
  assert (K : forall l, incl l nb -> NoDup (map fst l) -> forall s, exists out,
    fold_left (fun acc ne => let? s := acc in let? v := getk (aget (snd ne) "sensitivity") in let? x := num v in Ok (s + x)%R) l (Ok s) = Ok (s + total (map snd out))%R /\
    NoDup (map fst out) /\ forall m x, In (m, x) out <-> (exists e v, In (m, e) l /\ In ("sensitivity", v) e /\ num v = Ok x)).
  { induction l as [|[m e] l IH]; intros I N s.
    - exists []. cbn. split; [f_equal; ring|]. split; [constructor|]. intros m x. split; [intros []|intros (e & v & [] & _)].
    - inversion N as [|? ? N1 N2]; subst. assert (He : In (m, e) nb) by (apply I; now left).
      assert (J : joined g n m e) by (exists nb; auto). destruct (HS m (ex_intro _ e J)) as (x & d' & v & (l' & Hl' & Hd') & Hv & Hx).
      assert (l' = nb) by (pose proof (dget_complete Z.eqb Z.eqb_eq _ _ _ Na Hl'); pose proof (dget_complete Z.eqb Z.eqb_eq _ _ _ Na Hnb); congruence). subst l'.
      assert (d' = e) by (pose proof (dget_complete Z.eqb Z.eqb_eq _ _ _ Nn Hd'); pose proof (dget_complete Z.eqb Z.eqb_eq _ _ _ Nn He); congruence). subst d'.
      assert (Ne : NoDup (map fst e)) by (eapply (wf_data g W); exact J).
      cbn [fold_left snd]. rewrite (dget_complete String.eqb String.eqb_eq _ _ _ Ne Hv). cbn [getk bindr]. rewrite Hx. cbn [bindr].
      destruct (IH (fun y Hy => I y (or_intror Hy)) N2 (s + x)%R) as (out & E & No & Ho). exists ((m, x) :: out). split; [rewrite E; unfold total; cbn [map snd fold_right]; f_equal; ring|].
      assert (Hm : forall y, ~ In (m, y) out).
      { intros y Hy. apply Ho in Hy. destruct Hy as (e' & v' & H & _). apply N1. apply in_map_iff. exists (m, e'). auto. }
      split; [cbn; constructor; [|exact No]; intros F; apply in_map_iff in F; destruct F as ((m' & y) & Em & F); cbn in Em; subst m'; exact (Hm y F)|].
      intros m' x'. split.
      + intros [Eq|H]; [injection Eq as <- <-; exists e, v; split; [now left|auto]|]. apply Ho in H. destruct H as (e' & v' & H1 & H2). exists e', v'. split; [now right|exact H2].
      + intros (e' & v' & [Eq|H1] & H2 & H3); [|right; apply Ho; eauto].
        injection Eq as <- <-. left. f_equal. assert (v = v').
        { pose proof (dget_complete String.eqb String.eqb_eq _ _ _ Ne Hv). pose proof (dget_complete String.eqb String.eqb_eq _ _ _ Ne H2). congruence. }
        subst v'. congruence. }
  destruct (K nb (incl_refl nb) Nn 0%R) as (out & E & No & Ho). exists out. split; [rewrite E; f_equal; ring|]. split; [exact No|].
  intros m x. rewrite Ho. unfold sensitivity, joined. split.
  - intros (e & v & H1 & H2). exists e, v. split; [exists nb; auto|exact H2].
  - intros (e & v & (l' & Hl' & He) & H2). exists e, v. split; [|exact H2].
    assert (l' = nb) by (pose proof (dget_complete Z.eqb Z.eqb_eq _ _ _ Na Hl'); pose proof (dget_complete Z.eqb Z.eqb_eq _ _ _ Na Hnb); congruence). now subst l'.
Qed.

(** *** Witnesses *)
Lemma walks_nonempty g n s p : In p (walks g n s) -> p <> [].
Proof.
  destruct n as [|n]; cbn [walks]; intros H; [destruct H as [<-|[]]; discriminate|].
  apply in_flat_map in H. destruct H as (m & _ & H). apply in_map_iff in H. destruct H as (q & <- & _). discriminate.
Qed.
Lemma search_nonempty g s t p : search_shortest g s t = Ok p -> p <> [].
Proof.
  unfold search_shortest. generalize 0. generalize (List.length (nd g)). induction n as [|n IH]; intros m; cbn [search]; [discriminate|].
  destruct (find _ (walks g m s)) as [r|] eqn:F; [|apply IH]. intros H. injection H as <-. apply find_some in F. eapply walks_nonempty. apply F.
Qed.
Lemma case_apart_two : edges_apart traps_three 1 2 2.
Proof.
  pose proof three_routable as RT. destruct (distance_value search_shortest traps_three 1 2 search_contract (rt_wf _ _ RT) (rt_connected _ _ RT)) as (k & E & A);
  [vm_compute; auto|vm_compute; auto|]. assert (E' : distance_nodes search_shortest traps_three 1 2 = Ok 2%Z) by (vm_compute; reflexivity).
  rewrite E' in E. injection E as E. replace 2 with k by lia. exact A.
Qed.
Lemma case_apart_zero : edges_apart traps_three 1 1 0.
Proof.
  split; [exists [1%Z]; split; [constructor|reflexivity]|]. intros q Q. destruct (walk_nonempty _ _ _ _ Q) as (y & ->). cbn. lia.
Qed.
Lemma case_apart_one : edges_apart traps_three 1 0 1.
Proof.
  pose proof three_routable as RT. destruct (distance_value search_shortest traps_three 1 0 search_contract (rt_wf _ _ RT) (rt_connected _ _ RT)) as (k & E & A);
  [vm_compute; auto|vm_compute; auto|]. assert (E' : distance_nodes search_shortest traps_three 1 0 = Ok 1%Z) by (vm_compute; reflexivity).
  rewrite E' in E. injection E as E. replace 1 with k by lia. exact A.
Qed.
Lemma case_first : first_initial traps_three 1.
Proof. apply fst_inode_first; [apply (rt_wf _ _ three_routable)|vm_compute; reflexivity]. Qed.
Lemma case_levels : reachable_level traps_three 0 /\ reachable_level traps_three 2.
Proof.
  destruct (irnode_spec 3 traps_three three_routable 0) as [[_ A]|[A _]]; [|vm_compute in A; discriminate].
  destruct (irnode_spec 3 traps_three three_routable 2) as [[_ B]|[B _]]; [|vm_compute in B; discriminate]. auto.
Qed.
Lemma case_cost : rotation_cost_calc search_shortest (Rot 0 2 PI 0 0 2) traps_three = Ok (INR 2 * theta_cost PI)%R.
Proof.
  apply (cost_far 3 traps_three search_shortest three_routable search_contract (Rot 0 2 PI 0 0 2) 1%Z 1 2);
  [vm_compute; auto|vm_compute; auto|left; apply case_levels|exact case_first|exact case_apart_one|exact case_apart_two].
Qed.
Lemma case_sens : get_edge_sensitivity traps_six 5 0 = Ok 4%R /\ get_edge_sensitivity traps_six 1 5 = Ok 3%R.
Proof. split; vm_compute; reflexivity. Qed.
