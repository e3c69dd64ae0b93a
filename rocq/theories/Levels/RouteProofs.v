(** Routing. *)
From Coq Require Import Reals Permutation Lra.
From Verif.Base Require Import Py PyFacts Cplx Matrix.
From Verif.Gates Require Import AnglesModel AnglesProofs SingleModel SingleSpec SingleProofs.
From Verif.Levels Require Import LevelsModel LevelsSpec GraphProofs LevelsProofs.
Local Open Scope string_scope.
Local Open Scope list_scope.
Local Open Scope nat_scope.

(** *** Walks *)
Lemma walk_nonempty g p s t : walk g p s t -> exists q, p = s :: q.
Proof. destruct 1; eauto. Qed.
Lemma walk_last g p s t x : walk g p s t -> last p x = t.
Proof.
  induction 1 as [s|s m t p L W IH]; [reflexivity|]. destruct (walk_nonempty _ _ _ _ W) as (q & ->). exact IH.
Qed.
Lemma walk_suffix g p s t x : walk g p s t -> In x p -> exists q, walk g q x t /\ List.length q <= List.length p.
Proof.
  induction 1 as [s|s m t p L W IH]; cbn.
  - intros [->|[]]. exists [x]. split; [constructor|apply le_n].
  - intros [->|H].
    + exists (x :: p). split; [econstructor; eassumption|apply le_n].
    + destruct (IH H) as (q & Q1 & Q2). exists q. split; [exact Q1|lia].
Qed.
Lemma shortest_NoDup g p s t : shortest g p s t -> NoDup p.
Proof.
  intros (W & M). induction W as [s|s m t p L W IH]; [constructor; [intros []|constructor]|].
  constructor.
  - intros H. destruct (walk_suffix _ _ _ _ _ W H) as (q & Q1 & Q2). apply M in Q1. cbn in Q1. lia.
  - apply IH. intros q Q. assert (Q' : walk g (s :: q) s t) by (econstructor; eassumption). apply M in Q'. cbn in Q'. lia.
Qed.
Lemma walk_consec g p s t : walk g p s t -> forall l1 x y l2, p = l1 ++ x :: y :: l2 -> linked g x y.
Proof.
  induction 1 as [s|s m t p L W IH]; intros l1 x y l2 E.
  - destruct l1 as [|z [|]]; discriminate.
  - destruct l1 as [|z l1]; cbn in E; injection E as -> E.
    + destruct (walk_nonempty _ _ _ _ W) as (q & ->). injection E as -> _. exact L.
    + eapply IH. exact E.
Qed.
Lemma linked_nodes g u v : well_formed g -> linked g u v -> is_node g u /\ is_node g v.
Proof. intros W (d & J). apply (joined_data g W) in J. eapply data_nodes; eassumption. Qed.
Lemma walk_nodes g p s t : well_formed g -> is_node g s -> walk g p s t -> incl p (map fst (nd g)).
Proof.
  intros W Hs H. induction H as [s|s m t p L H IH]; intros x Hx.
  - destruct Hx as [<-|[]]. exact Hs.
  - destruct Hx as [<-|Hx]; [exact Hs|]. apply IH; [apply (linked_nodes g s m W L)|exact Hx].
Qed.

(** *** A search that meets the contract *)
Lemma walks_In g n s p : well_formed g -> (In p (walks g n s) <-> List.length p = S n /\ exists t, walk g p s t).
Proof.
  intros W. revert s p. induction n as [|n IH]; intros s p; cbn [walks].
  - split.
    + intros [<-|[]]. split; [reflexivity|]. exists s. constructor.
    + intros (L & t & H). destruct H as [s|s m t p L' H]; [left; reflexivity|].
      destruct (walk_nonempty _ _ _ _ H) as (q & ->). discriminate L.
  - rewrite in_flat_map. split.
    + intros (m & Hm & H). apply in_map_iff in H. destruct H as (q & <- & Hq). apply IH in Hq. destruct Hq as (L & t & Q).
      split; [cbn; congruence|]. exists t. econstructor; [|exact Q]. apply nget_key in Hm. destruct Hm as (d & Hd).
      exists d. apply (joined_data g W). exact Hd.
    + intros (L & t & H). destruct H as [s|s m t p Lk H]; [discriminate L|]. exists m. split.
      * destruct Lk as (d & J). apply (joined_data g W) in J. apply nget_key. eauto.
      * apply in_map. apply IH. split; [cbn in L; congruence|]. eauto.
Qed.
Lemma min_walk g s t p : walk g p s t -> exists q, shortest g q s t.
Proof.
  intros H. remember (List.length p) as n eqn:E. revert p H E.
  induction n as [n IH] using (well_founded_induction lt_wf). intros p H E. subst n.
  assert (D : (exists q, walk g q s t /\ List.length q < List.length p) \/ ~ (exists q, walk g q s t /\ List.length q < List.length p))
    by apply Classical_Prop.classic.
  destruct D as [(q & Q1 & Q2)|D].
  - eapply IH; [exact Q2|exact Q1|reflexivity].
  - exists p. split; [exact H|]. intros q Q. destruct (Nat.le_gt_cases (List.length p) (List.length q)) as [H1|H1]; [exact H1|].
    exfalso. apply D. eauto.
Qed.
Lemma search_spec g s t k : well_formed g -> forall n p, walk g p s t -> List.length p <= n + k ->
  (forall q, walk g q s t -> n < List.length q) ->
  exists r, search g s t n k = Ok r /\ shortest g r s t.
Proof.
  intros W. induction k as [|k IH]; intros n p Hp Lp Hn; cbn [search].
  - apply Hn in Hp. lia.
  - destruct (find (fun q => (last q s =? t)%Z) (walks g n s)) as [r|] eqn:F.
    + apply find_some in F. destruct F as [F1 F2]. apply walks_In in F1; [|exact W]. destruct F1 as (L & t' & F1).
      apply Z.eqb_eq in F2. rewrite (walk_last _ _ _ _ s F1) in F2. subst t'.
      exists r. split; [reflexivity|]. split; [exact F1|]. intros q Q. apply Hn in Q. lia.
    + apply (IH (S n) p Hp); [lia|]. intros q Q. assert (H := Hn q Q).
      destruct (Nat.eq_dec (List.length q) (S n)) as [E|E]; [|lia]. exfalso.
      assert (I : In q (walks g n s)) by (apply walks_In; eauto).
      apply (find_none _ _ F) in I. rewrite (walk_last _ _ _ _ s Q), Z.eqb_refl in I. discriminate.
Qed.
Lemma search_contract : finds_shortest search_shortest.
Proof.
  intros g s t W C Hs Ht. destruct (C s t Hs Ht) as (p & Hp). destruct (min_walk g s t p Hp) as (q & Q).
  destruct (search_spec g s t (List.length (nd g)) W 0 q (proj1 Q)) as (r & R1 & R2).
  - cbn. rewrite <- (map_length fst (nd g)). apply NoDup_incl_length; [eapply shortest_NoDup; exact Q|].
    eapply walk_nodes; [exact W|exact Hs|apply Q].
  - intros x X. destruct (walk_nonempty _ _ _ _ X) as (y & ->). cbn. lia.
  - exists r. auto.
Qed.

(** *** Pieces that must not raise *)
Definition pi_angle (t : R) : Prop := t = PI \/ t = (- PI)%R.
Lemma regulate_pi t : pi_angle t -> regulate_theta t = t.
Proof.
  intros H. apply regulate_theta_sign. assert (P := PI_RGT_0).
  assert (A : Rabs t = PI) by (destruct H as [->| ->]; rewrite ?Rabs_Ropp; apply Rabs_right; lra). rewrite A. lra.
Qed.

Lemma new_R_ok d a b t f : (0 <= a < Z.of_nat d)%Z -> (0 <= b < Z.of_nat d)%Z -> a <> b ->
  new_R d a b t f = Ok (Rot (Z.to_nat (Z.min a b)) (Z.to_nat (Z.max a b)) (regulate_theta t) f a b).
Proof.
  intros Ha Hb Hab. unfold new_R, r_new. cbn [get_int get_float nth_error bindr].
  assert (Hc : check_levels d a b = true).
  { unfold check_levels. rewrite !Bool.andb_true_iff, Bool.negb_true_iff, !Z.leb_le, !Z.ltb_lt, Z.eqb_neq. lia. }
  rewrite Hc. unfold levels_setter. destruct (Z.ltb_spec a b); cbn [bindr].
  - rewrite Z.min_l, Z.max_r by lia. reflexivity.
  - rewrite Z.min_r, Z.max_l by lia. reflexivity.
Qed.

Definition on_levels (d : nat) (r : rot) (x y : Z) : Prop :=
  lev_a r = Z.to_nat (Z.min x y) /\ lev_b r = Z.to_nat (Z.max x y) /\
  (0 <= x < Z.of_nat d)%Z /\ (0 <= y < Z.of_nat d)%Z /\ x <> y /\ pi_angle (r_theta r).

Lemma again d r x y t f : on_levels d r x y -> pi_angle t ->
  exists r', new_R d (Z.of_nat (lev_a r)) (Z.of_nat (lev_b r)) t f = Ok r' /\ on_levels d r' x y.
Proof.
  intros (A & B & Hx & Hy & Hxy & _) Ht. rewrite A, B, !Z2Nat.id by lia.
  rewrite new_R_ok by lia. eexists. split; [reflexivity|]. unfold on_levels. cbn.
  rewrite (regulate_pi t Ht). repeat split; trivial; try lia; f_equal; lia.
Qed.

Lemma gate_chain_ok d prev r x y : on_levels d r x y ->
  exists r', gate_chain_condition d prev r = Ok r' /\ on_levels d r' x y.
Proof.
  intros H. unfold gate_chain_condition. destruct (last (map Some prev) None) as [p|]; [|eauto].
  apply again; [exact H|]. assert (P : pi_angle (r_theta r)) by apply H.
  assert (Q : pi_angle (r_theta r * -1)).
  { destruct P as [-> | ->]; [right|left]; ring. }
  repeat match goal with |- context [if ?c then _ else _] => destruct c end; assumption.
Qed.

Section Ready.
  Variables (d : nat) (g : lgraph).
  Hypothesis RT : routable d g.
  Let W := rt_wf d g RT.

  Lemma mapr_In {A B} (f : A -> res B) l ys y : mapr f l = Ok ys -> In y ys -> exists x, In x l /\ f x = Ok y.
  Proof.
    revert ys. induction l as [|x r IH]; intros ys; cbn.
    - intros H. injection H as <-. intros [].
    - destruct (f x) as [z|] eqn:E; cbn; [|discriminate]. destruct (mapr f r) as [zs|]; cbn; [|discriminate].
      intros H. injection H as <-. intros [<-|H]; [eauto|]. destruct (IH zs eq_refl H) as (u & U1 & U2). eauto.
  Qed.
  Lemma mapr_In2 {A B} (f : A -> res B) l ys x : mapr f l = Ok ys -> In x l -> exists y, In y ys /\ f x = Ok y.
  Proof.
    revert ys. induction l as [|z r IH]; intros ys; cbn; [intros _ []|].
    destruct (f z) as [w|] eqn:E; cbn; [|discriminate]. destruct (mapr f r) as [zs|]; cbn; [|discriminate].
    intros H. injection H as <-. intros [<-|H]; [exists w; split; [left; reflexivity|exact E]|].
    destruct (IH zs eq_refl H) as (u & U1 & U2). exists u. split; [right; exact U1|exact U2].
  Qed.

  Lemma with_levels_ok : exists l, with_levels g = Ok l /\ forall n v, In (n, v) l <-> has_attr g n "level" v.
  Proof.
    unfold with_levels.
    destruct (mapr_ok (fun na : Z * attrs => let? v := getk (aget (snd na) "level") in Ok (fst na, v)) (nd g)) as (l & El).
    { intros (n, A) H. destruct (rt_level d g RT n) as (v & Hv); [eapply in_keys; exact H|].
      apply (has_attr_alook g W) in Hv. unfold alook in Hv. rewrite (dget_complete Z.eqb zeq _ n A (wf_nodes g W) H) in Hv.
      cbn. rewrite Hv. cbn. eauto. }
    exists l. split; [exact El|]. intros n v. split.
    - intros H. destruct (mapr_In _ _ _ _ El H) as ((m, A) & HA & E). cbn in E.
      destruct (aget A "level") as [w|] eqn:Ew; cbn in E; [|discriminate]. injection E as <- <-.
      exists A. split; [exact HA|apply (dget_In String.eqb seq'); exact Ew].
    - intros (A & HA & Hv). destruct (mapr_In2 _ _ _ _ El HA) as (y & Hy & E). cbn in E.
      rewrite (dget_complete String.eqb seq' A "level" v (wf_attrs g W n A HA) Hv) in E. cbn in E. injection E as <-. exact Hy.
  Qed.
  Lemma nodes_at_ok s : exists l, nodes_at_level g s = Ok l /\ forall n, In n l <-> has_attr g n "level" (AStr s).
  Proof.
    unfold nodes_at_level. destruct with_levels_ok as (l & -> & Hl). cbn [bindr]. eexists. split; [reflexivity|].
    intros n. rewrite in_map_iff. split.
    - intros ((m, v) & <- & H). apply filter_In in H. destruct H as [H1 H2]. apply Hl in H1. unfold is_level in H2. cbn in H2.
      destruct v; try discriminate. apply String.eqb_eq in H2. subst. exact H1.
    - intros H. exists (n, AStr s). split; [reflexivity|]. apply filter_In. split; [apply Hl; exact H|apply String.eqb_refl].
  Qed.
  Lemma fst_inode_ok : exists n, fst_inode g = Ok n /\ has_attr g n "level" (AStr "i").
  Proof.
    unfold fst_inode, fst_node. destruct (nodes_at_ok "i") as (l & -> & Hl). cbn [bindr].
    destruct (rt_initial d g RT) as (n & Hn). apply Hl in Hn. destruct l as [|m r]; [destruct Hn|].
    exists m. split; [reflexivity|]. apply Hl. left. reflexivity.
  Qed.
  Lemma has_node n k v : has_attr g n k v -> is_node g n.
  Proof. intros (A & H & _). eapply in_keys. exact H. Qed.
  Lemma node_attrs_ok n : is_node g n -> exists A, node_attrs g n = Ok A /\ (forall k, dmem String.eqb A k = true <-> exists v, has_attr g n k v).
  Proof.
    intros H. apply nget_key in H. destruct H as (A & HA). unfold node_attrs. rewrite HA. exists A. split; [reflexivity|].
    intros k. assert (L : alook (nd g) n k = aget A k) by (unfold alook; rewrite HA; reflexivity).
    unfold dmem. rewrite <- L. split.
    - destruct (alook (nd g) n k) as [v|] eqn:E; [|discriminate]. intros _. exists v. apply (has_attr_alook g W). exact E.
    - intros (v & Hv). apply (has_attr_alook g W) in Hv. rewrite Hv. reflexivity.
  Qed.
  Lemma node_attr_ok n k v : has_attr g n k v -> node_attr g n k = Ok v.
  Proof.
    intros H. apply (has_attr_alook g W) in H. unfold node_attr, node_attrs. unfold alook in H.
    destruct (nget (nd g) n) as [A|]; [|discriminate]. cbn. rewrite H. reflexivity.
  Qed.

  Lemma find_logic_ok la lb : exists na nb, find_logic_from_phys la lb g = Ok (na, nb) /\
    (na = (-1)%Z \/ is_node g na) /\ (nb = (-1)%Z \/ is_node g nb).
  Proof.
    unfold find_logic_from_phys.
    assert (H : forall l na nb, incl l (nd g) -> (na = (-1)%Z \/ is_node g na) -> (nb = (-1)%Z \/ is_node g nb) ->
      exists na' nb', fold_left (fun acc (na : Z * attrs) =>
        let? ab := acc in
        let? v := getk (aget (snd na) "lpmap") in
        let same z := match v with AInt y => (y =? z)%Z | _ => false end in
        Ok (if same la then fst na else fst ab, if same lb then fst na else snd ab)) l (Ok (na, nb)) = Ok (na', nb') /\
        (na' = (-1)%Z \/ is_node g na') /\ (nb' = (-1)%Z \/ is_node g nb')).
    { induction l as [|(n, A) r IH]; intros na nb I Ha Hb; cbn [fold_left].
      - eauto.
      - assert (HA : In (n, A) (nd g)) by (apply I; left; reflexivity).
        destruct (proj1 (rt_placement d g RT) n) as (p & Hp); [eapply in_keys; exact HA|].
        apply (has_attr_alook g W) in Hp. unfold alook in Hp. rewrite (dget_complete Z.eqb zeq _ n A (wf_nodes g W) HA) in Hp.
        cbn [bindr snd]. rewrite Hp. cbn [getk bindr fst snd].
        assert (Hn : is_node g n) by (eapply in_keys; exact HA).
        apply IH; [intros x Hx; apply I; right; exact Hx|destruct (p =? la)%Z; auto|destruct (p =? lb)%Z; auto]. }
    apply (H (nd g) (-1)%Z (-1)%Z); auto. apply incl_refl.
  Qed.

  Lemma rule_ongate_ok r x y : on_levels d r x y -> exists r', graph_rule_ongate d r g = Ok r' /\ on_levels d r' x y.
  Proof.
    intros H. unfold graph_rule_ongate. destruct fst_inode_ok as (i & -> & Hi). cbn [bindr].
    destruct (node_attrs_ok i (has_node _ _ _ Hi)) as (A & -> & HA). cbn [bindr].
    destruct (dmem String.eqb A "phase_storage") eqn:E; cbn [negb]; [|eauto].
    apply HA in E. destruct E as (v & Hv).
    assert (PS : forall n, is_node g n -> exists w f, node_attr g n "phase_storage" = Ok w /\ num w = Ok f).
    { intros n Hn. destruct (rt_uniform d g RT _ _ _ _ Hv Hn) as (w & Hw). destruct (rt_phases d g RT n w Hw) as (f & Hf).
      exists w, f. split; [apply node_attr_ok; exact Hw|exact Hf]. }
    destruct (find_logic_ok (Z.of_nat (lev_a r)) (Z.of_nat (lev_b r))) as (na & nb & -> & Na & Nb). cbn [bindr].
    assert (P : pi_angle (r_theta r)) by apply H.
    assert (F1 : exists f1, (if (na =? -1)%Z then Ok (r_phi r)
              else let? v := node_attr g na "phase_storage" in let? x := num v in Ok (r_phi r - x)%R) = Ok f1).
    { destruct (Z.eqb_spec na (-1)); [eauto|]. destruct Na as [Na|Na]; [contradiction|].
      destruct (PS na Na) as (w & f & -> & Hf). cbn [bindr]. rewrite Hf. cbn. eauto. }
    destruct F1 as (f1 & ->). cbn [bindr].
    assert (F2 : exists f2, (if (nb =? -1)%Z then Ok f1
              else let? v := node_attr g nb "phase_storage" in let? x := num v in Ok (f1 + x)%R) = Ok f2).
    { destruct (Z.eqb_spec nb (-1)); [eauto|]. destruct Nb as [Nb|Nb]; [contradiction|].
      destruct (PS nb Nb) as (w & f & -> & Hf). cbn [bindr]. rewrite Hf. cbn. eauto. }
    destruct F2 as (f2 & ->). cbn [bindr]. apply again; assumption.
  Qed.

  Lemma is_irnode_ok n : exists b, is_irnode g n = Ok b.
  Proof. unfold is_irnode. destruct (nodes_at_ok "r") as (l & -> & _). cbn. eauto. Qed.

  Variable sp : lgraph -> Z -> Z -> res (list Z).
  Hypothesis SP : finds_shortest sp.

  Lemma distance_ok s t : is_node g s -> is_node g t -> exists k, distance_nodes sp g s t = Ok k.
  Proof.
    intros Hs Ht. unfold distance_nodes. destruct (SP g s t W (rt_connected d g RT) Hs Ht) as (p & -> & _). cbn. eauto.
  Qed.
  Lemma cost_ok r : is_node g (orig_a r) -> is_node g (orig_b r) -> exists c, rotation_cost_calc sp r g = Ok c.
  Proof.
    intros Ha Hb. unfold rotation_cost_calc. destruct (is_irnode_ok (orig_a r)) as (ra & ->). cbn [bindr].
    assert (B : exists rb, (if ra then Ok true else is_irnode g (orig_b r)) = Ok rb)
      by (destruct ra; [eauto|apply is_irnode_ok]).
    destruct B as (rb & ->). cbn [bindr]. destruct rb; [|eauto].
    destruct fst_inode_ok as (i & -> & Hi). cbn [bindr]. apply has_node in Hi.
    destruct (distance_ok i (orig_a r) Hi Ha) as (k1 & ->). cbn [bindr].
    destruct (distance_ok i (orig_b r) Hi Hb) as (k2 & ->). cbn [bindr]. eauto.
  Qed.
End Ready.

(** *** One pulse *)
Lemma set_nth_app {A} (l1 : list A) x l2 v : set_nth (l1 ++ x :: l2) (List.length l1) v = l1 ++ v :: l2.
Proof. induction l1; cbn; [reflexivity|]. f_equal. assumption. Qed.
Lemma swap_elements_app {A} (pre : list A) m t rest :
  swap_elements (pre ++ m :: t :: rest) (List.length pre + 1) (List.length pre) = Ok (pre ++ t :: m :: rest).
Proof.
  unfold swap_elements.
  assert (E1 : nth_error (pre ++ m :: t :: rest) (List.length pre + 1) = Some t).
  { rewrite nth_error_app2 by lia. replace (List.length pre + 1 - List.length pre) with 1 by lia. reflexivity. }
  assert (E2 : nth_error (pre ++ m :: t :: rest) (List.length pre) = Some m).
  { rewrite nth_error_app2 by lia. rewrite Nat.sub_diag. reflexivity. }
  rewrite E1, E2. f_equal.
  replace (pre ++ m :: t :: rest) with ((pre ++ [m]) ++ t :: rest) by (rewrite <- app_assoc; reflexivity).
  replace (List.length pre + 1) with (List.length (pre ++ [m])) by (rewrite app_length; reflexivity).
  rewrite set_nth_app, <- app_assoc. cbn [app]. apply set_nth_app.
Qed.

Lemma route_step_ok sp d g pre m t rest pulses cost : finds_shortest sp -> routable d g -> linked g m t -> m <> t ->
  exists c r g' x y, route_step sp d (List.length pre) (pre ++ m :: t :: rest) g pulses cost
      = Ok ((cost + c)%R, pulses ++ [r], g', pre ++ t :: m :: rest) /\
    swapped t m g g' /\ placed g m x /\ placed g t y /\ on_levels d r x y.
Proof.
  intros SP RT L MT. assert (W := rt_wf d g RT). destruct (linked_nodes g m t W L) as [Hm Ht].
  unfold route_step. rewrite !pyindex_nat.
  rewrite nth_error_app2 by lia. rewrite Nat.sub_diag. cbn [nth_error bindr].
  rewrite nth_error_app2 by lia. replace (List.length pre + 1 - List.length pre) with 1 by lia. cbn [nth_error bindr].
  destruct (proj1 (rt_placement d g RT) m Hm) as (x & Hx). destruct (proj1 (rt_placement d g RT) t Ht) as (y & Hy).
  rewrite (node_attr_ok d g RT m _ _ Hx), (node_attr_ok d g RT t _ _ Hy). cbn [bindr as_int].
  assert (XY : x <> y) by (intros ->; apply MT; eapply (proj2 (rt_placement d g RT)); eassumption).
  assert (Bx := rt_physical d g RT _ _ Hx). assert (By := rt_physical d g RT _ _ Hy).
  assert (PP : pi_angle PI) by (left; reflexivity).
  rewrite (new_R_ok d x y PI _ Bx By XY). cbn [bindr].
  set (p0 := Rot _ _ _ _ _ _).
  assert (O0 : on_levels d p0 x y).
  { unfold on_levels, p0. cbn. rewrite (regulate_pi PI PP). auto 10. }
  destruct (gate_chain_ok d pulses p0 x y O0) as (p1 & -> & O1). cbn [bindr].
  destruct (rule_ongate_ok d g RT p1 x y O1) as (p2 & -> & O2). cbn [bindr].
  rewrite (new_R_ok d m t) by (trivial; eapply rt_logical; eassumption). cbn [bindr].
  set (lg := Rot _ _ _ _ m t).
  destruct (cost_ok d g RT sp SP lg Hm Ht) as (c & ->). cbn [bindr].
  destruct (swap_nodes_spec g t m W (rt_uniform d g RT) Ht Hm) as (g' & -> & S & _). cbn [bindr].
  rewrite swap_elements_app. cbn [bindr]. exists c, p2, g', x, y. auto.
Qed.

(** *** What a pulse does *)
Local Open Scope C_scope.
Lemma carries_trans d A B j i k : (j < d)%nat -> (i < d)%nat -> carries d A j i -> carries d B i k -> carries d (mmul d B A) j k.
Proof.
  intros Hj Hi (c & C & M) (c' & C' & M'). exists (Cmul c' c). split.
  - rewrite Cconj_mul. replace (c' * c * (Cconj c' * Cconj c)) with ((c' * Cconj c') * (c * Cconj c)) by ring.
    rewrite C, C'. ring.
  - unfold maps_ket in *. intros x Hx. rewrite (mapply_mmul d B A (ket j) x Hx).
    rewrite (mapply_ext d B B _ _ (meq_refl d B) M x Hx).
    transitivity (c * mapply d B (ket i) x).
    + unfold mapply. rewrite <- csum_mul_l. apply csum_ext. intros; ring.
    + rewrite (M' x Hx). ring.
Qed.
Lemma carries_id d j : (j < d)%nat -> carries d mid j j.
Proof.
  intros Hj. exists C1. split; [rewrite Cconj_C1; ring|]. intros i Hi. rewrite (mapply_id d (ket j) i Hi). ring.
Qed.

Lemma pi_half t : pi_angle t -> cos (t / 2) = 0%R /\ (sin (t / 2) * sin (t / 2) = 1)%R.
Proof.
  intros [->| ->].
  - rewrite cos_PI2, sin_PI2. split; ring.
  - replace (- PI / 2)%R with (- (PI / 2))%R by field. rewrite cos_neg, sin_neg, cos_PI2, sin_PI2. split; ring.
Qed.
Lemma unit_entry t f : (t * t = 1)%R -> Cmul (- (Ci * RtoC t * cis f)) (Cconj (- (Ci * RtoC t * cis f))) = C1.
Proof.
  intros H. rewrite Cconj_opp, !Cconj_mul, Cconj_i, Cconj_RtoC.
  replace (- (Ci * RtoC t * cis f) * - (- Ci * RtoC t * Cconj (cis f)))
    with (- (Ci * Ci) * (RtoC t * RtoC t) * (cis f * Cconj (cis f))) by ring.
  rewrite cis_conj_mul. replace (RtoC t * RtoC t) with C1 by (rewrite <- RtoC_mul, H; reflexivity).
  apply Ceq; cbn; ring.
Qed.

Lemma pulse_carries d a b t f : (a < d)%nat -> (b < d)%nat -> a <> b -> pi_angle t ->
  carries d (r_array d a b t f) a b /\ carries d (r_array d a b t f) b a /\
  forall p, (p < d)%nat -> p <> a -> p <> b -> carries d (r_array d a b t f) p p.
Proof.
  intros Ha Hb Hab Ht. destruct (pi_half t Ht) as [HC HS].
  assert (E := r_array_rotation d a b t f Hab).
  split; [|split].
  - exists (- (Ci * RtoC (sin (t / 2)) * cis f)). split; [apply unit_entry; exact HS|].
    intros i Hi. rewrite mapply_ket by exact Ha. rewrite (E i a Hi Ha). unfold rotation, two_level, ket, mid.
    rewrite HC, !Nat.eqb_refl. destruct (Nat.eqb_spec i a) as [->|E1].
    + rewrite (proj2 (Nat.eqb_neq a b) Hab). apply Ceq; cbn; ring.
    + destruct (Nat.eqb_spec i b) as [->|E2]; [ring|]. ring.
  - exists (- (Ci * RtoC (sin (t / 2)) * cis (- f))). split; [apply unit_entry; exact HS|].
    intros i Hi. rewrite mapply_ket by exact Hb. rewrite (E i b Hi Hb). unfold rotation, two_level, ket, mid.
    rewrite HC, !Nat.eqb_refl. assert (E0 : Nat.eqb b a = false) by (apply Nat.eqb_neq; congruence). rewrite E0.
    destruct (Nat.eqb_spec i a) as [->|E1]; [ring|].
    destruct (Nat.eqb_spec i b) as [->|E2]; [apply Ceq; cbn; ring|]. ring.
  - intros p Hp Pa Pb. exists C1. split; [rewrite Cconj_C1; ring|].
    intros i Hi. rewrite mapply_ket by exact Hp. rewrite (E i p Hi Hp).
    destruct (rotation_outside a b t f p i Pa Pb) as [E1 E2]. unfold ket.
    destruct (Nat.eqb_spec i p) as [->|E3].
    + rewrite E1. unfold mid. rewrite Nat.eqb_refl. ring.
    + rewrite E2 by congruence. ring.
Qed.

Lemma on_levels_carries d r x y : on_levels d r x y ->
  let M := r_array d (lev_a r) (lev_b r) (r_theta r) (r_phi r) in
  carries d M (Z.to_nat x) (Z.to_nat y) /\ carries d M (Z.to_nat y) (Z.to_nat x) /\
  forall p, (0 <= p < Z.of_nat d)%Z -> p <> x -> p <> y -> carries d M (Z.to_nat p) (Z.to_nat p).
Proof.
  intros (A & B & Hx & Hy & Hxy & Ht). cbn zeta. rewrite A, B.
  destruct (pulse_carries d (Z.to_nat (Z.min x y)) (Z.to_nat (Z.max x y)) (r_theta r) (r_phi r)) as (P1 & P2 & P3); trivial; try lia.
  destruct (Z.le_gt_cases x y) as [H|H].
  - rewrite Z.min_l, Z.max_r in * by lia. split; [exact P1|]. split; [exact P2|]. intros p Hp H1 H2. apply P3; lia.
  - rewrite Z.min_r, Z.max_l in * by lia. split; [exact P2|]. split; [exact P1|]. intros p Hp H1 H2. apply P3; lia.
Qed.

(** *** The loop *)
Local Open Scope nat_scope.
Definition tracked (d : nat) (g0 g : lgraph) (ps : list rot) : Prop :=
  forall n p q, placed g0 n p -> placed g n q -> carries d (pulses_matrix d ps) (Z.to_nat p) (Z.to_nat q).

Lemma pulses_snoc d ps r : pulses_matrix d (ps ++ [r]) = mmul d (r_array d (lev_a r) (lev_b r) (r_theta r) (r_phi r)) (pulses_matrix d ps).
Proof. unfold pulses_matrix. rewrite fold_left_app. reflexivity. Qed.

Lemma tracked_step d g0 g ps m t x y r g' : routable d g -> placement_ok g ->
  (forall p, (exists n, placed g0 n p) <-> (exists n, placed g n p)) ->
  tracked d g0 g ps -> swapped t m g g' -> placed g m x -> placed g t y -> m <> t -> on_levels d r x y ->
  (forall n p, placed g0 n p -> is_node g n) ->
  tracked d g0 g' (ps ++ [r]).
Proof.
  intros RT (P1 & P2) SC T S Hx Hy MT O ND n p q Hp Hq. rewrite pulses_snoc.
  assert (W := rt_wf d g RT).
  assert (BP : forall n p, placed g n p -> (0 <= p < Z.of_nat d)%Z) by (intros; eapply rt_physical; eassumption).
  assert (Bp : (0 <= p < Z.of_nat d)%Z).
  { assert (Q : exists k, placed g k p) by (apply SC; eauto). destruct Q as (k & Hk). eapply BP. exact Hk. }
  destruct (P1 n (ND n p Hp)) as (s & Hs). assert (Bs := BP _ _ Hs).
  assert (C := T n p s Hp Hs).
  apply (sw_placed t m g g' W S) in Hq. assert (Bq := BP _ _ Hq).
  destruct (on_levels_carries d r x y O) as (C1 & C2 & C3).
  assert (U : forall k a b, placed g k a -> placed g k b -> a = b).
  { intros k a b Ha Hb. apply (has_attr_alook g W) in Ha, Hb. congruence. }
  eapply carries_trans; [| |exact C|]; [lia|lia|].
  destruct (tau_cases t m n) as [E|[[-> E]|[-> E]]]; rewrite E in Hq.
  - rewrite (U n q s Hq Hs). destruct (Z.eq_dec n m) as [->|Nm].
    { rewrite tau_r in E. congruence. }
    destruct (Z.eq_dec n t) as [->|Nt].
    { rewrite tau_l in E. congruence. }
    apply C3; [exact Bs| |]; intros ->; [apply Nm|apply Nt]; eapply P2; eassumption.
  - rewrite (U t s y Hs Hy), (U m q x Hq Hx). exact C2.
  - rewrite (U m s x Hs Hx), (U t q y Hq Hy). exact C1.
Qed.

Lemma route_loop_ok sp d g0 (SP : finds_shortest sp) (RT0 : routable d g0) : forall pre m t rest g ps cost,
  routable d g -> same_couplings g0 g -> (forall n, is_node g0 n <-> is_node g n) ->
  tracked d g0 g ps -> Forall (legal_pulse g0) ps ->
  NoDup (pre ++ [m; t]) -> (forall l1 x y l2, pre ++ [m; t] = l1 ++ x :: y :: l2 -> linked g x y) ->
  exists c ps' g', route_loop sp d (List.length pre) (pre ++ m :: t :: rest) g ps cost = Ok (c, ps', g') /\
    Forall (legal_pulse g0) ps' /\ linked g' (hd m pre) t /\ same_couplings g0 g' /\
    (forall n, is_node g0 n <-> is_node g' n) /\ routable d g' /\ tracked d g0 g' ps' /\
    List.length ps' = List.length ps + List.length pre.
Proof.
  intros pre. remember (List.length pre) as k eqn:Ek. revert pre Ek.
  induction k as [|k IH]; intros pre Ek m t rest g ps cost RT SC NN T F ND CH.
  - destruct pre; [|discriminate]. cbn [route_loop hd]. exists cost, ps, g. split; [reflexivity|]. split; [exact F|].
    split; [apply (CH [] m t []); reflexivity|]. split; [exact SC|]. split; [exact NN|]. split; [exact RT|]. split; [exact T|]. cbn. lia.
  - destruct (exists_last (l := pre)) as (pre' & x & ->); [intros ->; discriminate|].
    rewrite app_length in Ek. cbn in Ek. assert (Ek' : k = List.length pre') by lia.
    assert (MT : m <> t).
    { apply NoDup_remove_2 in ND. intros ->. apply ND. apply in_or_app. right. left. reflexivity. }
    assert (LK : linked g m t) by (apply (CH (pre' ++ [x]) m t []); reflexivity).
    destruct (route_step_ok sp d g (pre' ++ [x]) m t rest ps cost SP RT LK MT) as (c & r & g' & px & py & E & S & Hx & Hy & O).
    cbn [route_loop]. replace (Datatypes.S k) with (List.length (pre' ++ [x])) by (rewrite app_length; cbn; lia).
    rewrite E. cbn [bindr].
    assert (W := rt_wf d g RT). destruct (linked_nodes g m t W LK) as [Hm Ht].
    assert (SC' : same_couplings g0 g') by (eapply same_couplings_trans; [exact SC|apply (sw_same_couplings t m g g' W S)]).
    assert (LP : legal_pulse g0 r).
    { assert (PA : pi_angle (r_theta r)) by apply O. split; [|exact PA].
      destruct LK as (dat & J). exists dat. apply (proj1 SC). destruct O as (A & B & Bx & By & _). rewrite A, B, !Z2Nat.id by lia.
      destruct (Z.le_gt_cases px py) as [H|H].
      - rewrite Z.min_l, Z.max_r by lia. exists m, t. auto.
      - rewrite Z.min_r, Z.max_l by lia. exists t, m. split; [|auto]. apply (wf_sym g W). exact J. }
    replace ((pre' ++ [x]) ++ t :: m :: rest) with (pre' ++ x :: t :: m :: rest) by (rewrite <- app_assoc; reflexivity).
    assert (NDx : NoDup (pre' ++ [x; t])).
    { replace ((pre' ++ [x]) ++ [m; t]) with ((pre' ++ [x]) ++ m :: [t]) in ND by reflexivity.
      apply NoDup_remove_1 in ND. rewrite <- app_assoc in ND. exact ND. }
    assert (Nm : ~ In m (pre' ++ [x])).
    { replace ((pre' ++ [x]) ++ [m; t]) with ((pre' ++ [x]) ++ m :: [t]) in ND by reflexivity. apply NoDup_remove_2 in ND.
      intros H. apply ND. apply in_or_app. left. exact H. }
    assert (Nt : ~ In t (pre' ++ [x])).
    { replace (pre' ++ [x; t]) with ((pre' ++ [x]) ++ [t]) in NDx by (rewrite <- app_assoc; reflexivity).
      apply NoDup_remove_2 in NDx. rewrite app_nil_r in NDx. exact NDx. }
    destruct (IH pre' Ek' x t (m :: rest) g' (ps ++ [r]) (cost + c)%R) as (c' & ps' & g'' & E2 & F2 & L2 & SC2 & NN2 & RT2 & T2 & LEN).
    + exact (sw_routable t m g g' W Ht Hm S d RT).
    + exact SC'.
    + intros n. rewrite NN. symmetry. apply (sw_node t m g g' S).
    + eapply (tracked_step d g0 g ps m t px py r g'); trivial; try (apply RT); try apply SC.
      intros n p Hp. apply NN. destruct Hp as (A & HA & _). eapply in_keys. exact HA.
    + apply Forall_app. split; [exact F|]. constructor; [exact LP|constructor].
    + exact NDx.
    + intros l1 u v l2 E3. apply (sw_linked t m g g' W S).
      destruct (exists_last (l := v :: l2)) as (w & z & Ew); [discriminate|].
      assert (E4 : (pre' ++ [x]) ++ [t] = (l1 ++ u :: w) ++ [z]).
      { rewrite <- !app_assoc. cbn. rewrite <- Ew. exact E3. }
      apply app_inj_tail in E4. destruct E4 as [E4 <-].
      destruct w as [|v' w].
      * cbn in Ew. injection Ew as -> ->. apply app_inj_tail in E4. destruct E4 as [_ ->].
        rewrite tau_l, tau_other; [|intros ->; apply Nt; apply in_or_app; right; left; reflexivity|intros ->; apply Nm; apply in_or_app; right; left; reflexivity].
        apply (CH pre' u m [t]). rewrite <- app_assoc. reflexivity.
      * cbn in Ew. injection Ew as <- ->.
        assert (Iu : In u (pre' ++ [x])) by (rewrite E4; apply in_or_app; right; left; reflexivity).
        assert (Iv : In v (pre' ++ [x])) by (rewrite E4; apply in_or_app; right; right; left; reflexivity).
        rewrite !tau_other; try (intros ->; contradiction).
        apply (CH l1 u v (w ++ [m; t])). rewrite E4, <- app_assoc. reflexivity.
    + exists c', ps', g''. rewrite <- Ek' in *. split; [exact E2|]. split; [exact F2|]. split.
      * destruct pre'; exact L2.
      * split; [exact SC2|]. split; [exact NN2|]. split; [exact RT2|]. split; [exact T2|].
        rewrite LEN, !app_length. cbn. lia.
Qed.

Theorem route_ok sp d r g : finds_shortest sp -> routable d g ->
  is_node g (orig_a r) -> is_node g (orig_b r) -> orig_a r <> orig_b r ->
  exists c ps g', route_states2rotate_basic sp d r g = Ok (c, ps, g') /\
    Forall (legal_pulse g) ps /\
    linked g' (orig_a r) (orig_b r) /\
    same_couplings g g' /\
    (forall n, is_node g n <-> is_node g' n) /\
    routable d g' /\
    (forall n p q, placed g n p -> placed g' n q -> carries d (pulses_matrix d ps) (Z.to_nat p) (Z.to_nat q)) /\
    (forall q, walk g q (orig_a r) (orig_b r) -> List.length ps + 2 <= List.length q).
Proof.
  intros SP RT Ha Hb Hab. unfold route_states2rotate_basic.
  destruct (SP g _ _ (rt_wf d g RT) (rt_connected d g RT) Ha Hb) as (p & -> & Sh). cbn [bindr].
  assert (ND := shortest_NoDup _ _ _ _ Sh). destruct Sh as [WK Min].
  destruct (walk_nonempty _ _ _ _ WK) as (q & Eq).
  assert (WL := walk_last _ _ _ _ 0%Z WK).
  assert (Q : q <> []) by (intros ->; subst p; cbn in WL; congruence).
  destruct (exists_last Q) as (q' & t & Eq'). subst q.
  assert (Et : t = orig_b r) by (rewrite Eq in WL; replace (orig_a r :: q' ++ [t]) with ((orig_a r :: q') ++ [t]) in WL by reflexivity; rewrite last_last in WL; exact WL).
  destruct (exists_last (l := orig_a r :: q')) as (pre & m & Em); [discriminate|].
  assert (Ep : p = pre ++ [m; t]).
  { rewrite Eq. replace (orig_a r :: q' ++ [t]) with ((orig_a r :: q') ++ [t]) by reflexivity. rewrite Em, <- app_assoc. reflexivity. }
  replace (List.length p - 2) with (List.length pre) by (rewrite Ep, app_length; cbn; lia).
  destruct (route_loop_ok sp d g SP RT pre m t [] g [] 0%R) as (c & ps & g' & E & F & L & SC & NN & RT' & T & LEN); trivial.
  - apply same_couplings_refl.
  - reflexivity.
  - intros n x y Hx Hy. assert (X : x = y).
    { apply (has_attr_alook g (rt_wf d g RT)) in Hx, Hy. congruence. }
    subst. apply carries_id. assert (B := rt_physical d g RT _ _ Hy). lia.
  - rewrite <- Ep. exact ND.
  - rewrite <- Ep. eapply walk_consec. exact WK.
  - rewrite Ep. exists c, ps, g'. split; [exact E|]. split; [exact F|].
    assert (Hh : hd m pre = orig_a r) by (destruct pre; cbn in Em |- *; congruence).
    rewrite Hh, Et in L. split; [exact L|]. split; [exact SC|]. split; [exact NN|]. split; [exact RT'|]. split; [exact T|].
    intros q2 W2. apply Min in W2. rewrite Ep, app_length in W2. cbn in W2, LEN. lia.
Qed.
