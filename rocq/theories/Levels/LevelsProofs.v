(** Couplings under swaps, and the constructor. *)
From Coq Require Import Reals Permutation.
From Verif.Base Require Import Py PyFacts.
From Verif.Levels Require Import LevelsModel LevelsSpec GraphProofs.
Local Open Scope string_scope.
Local Open Scope list_scope.
Local Open Scope nat_scope.

Section Swapped.
  Variables (a b : Z) (g g' : lgraph).
  Hypothesis W : well_formed g.
  Hypothesis Ha : is_node g a.
  Hypothesis Hb : is_node g b.
  Hypothesis S : swapped a b g g'.
  Let W' := sw_wf a b g g' S.

  Lemma sw_node n : is_node g' n <-> is_node g n.
  Proof. unfold is_node. rewrite (sw_nodes a b g g' S). reflexivity. Qed.
  Lemma tau_node n : is_node g n <-> is_node g (tau a b n).
  Proof.
    assert (H : forall x, is_node g x -> is_node g (tau a b x)).
    { intros x Hx. destruct (tau_cases a b x) as [->|[[-> ->]|[-> ->]]]; assumption. }
    split; [apply H|]. intros H1. apply H in H1. rewrite tau_invol in H1. exact H1.
  Qed.
  Lemma sw_has n k v : has_attr g' n k v <-> has_attr g (tau a b n) k v.
  Proof. rewrite (has_attr_alook g' W'), (has_attr_alook g W), (sw_attr a b g g' S). reflexivity. Qed.
  Lemma sw_joined u v d : joined g' u v d <-> joined g (tau a b u) (tau a b v) d.
  Proof. rewrite (joined_data g' W'), (joined_data g W), (sw_edge a b g g' S). reflexivity. Qed.
  Lemma sw_linked u v : linked g' u v <-> linked g (tau a b u) (tau a b v).
  Proof. unfold linked. split; intros (d & H); exists d; apply sw_joined; exact H. Qed.
  Lemma sw_placed n p : placed g' n p <-> placed g (tau a b n) p.
  Proof. apply sw_has. Qed.
  Lemma sw_coupled p q d : coupled g p q d <-> coupled g' p q d.
  Proof.
    split; intros (u & v & J & P & Q).
    - exists (tau a b u), (tau a b v). rewrite sw_joined, !sw_placed, !tau_invol. auto.
    - exists (tau a b u), (tau a b v). rewrite sw_joined, !sw_placed in *. auto.
  Qed.
  Lemma sw_same_couplings : same_couplings g g'.
  Proof.
    split; [exact sw_coupled|]. intros p. split; intros (n & H); exists (tau a b n).
    - apply sw_placed. rewrite tau_invol. exact H.
    - apply sw_placed. exact H.
  Qed.
  Lemma sw_uniform : uniform g -> uniform g'.
  Proof.
    intros U n m k v H Hm. apply sw_has in H. apply sw_node in Hm. apply tau_node in Hm.
    destruct (U _ _ _ _ H Hm) as (w & Hw). exists w. apply sw_has. exact Hw.
  Qed.
  Lemma sw_placement : placement_ok g -> placement_ok g'.
  Proof.
    intros (P1 & P2). split.
    - intros n Hn. apply sw_node in Hn. apply tau_node in Hn. destruct (P1 _ Hn) as (p & Hp). exists p. apply sw_placed. exact Hp.
    - intros n m p Hn Hm. apply sw_placed in Hn, Hm. apply (tau_inj a b). eapply P2; eassumption.
  Qed.
  Lemma sw_walk p s t : walk g p s t -> walk g' (map (tau a b) p) (tau a b s) (tau a b t).
  Proof.
    induction 1 as [s|s m t p L _ IH]; cbn; [constructor|].
    econstructor; [|exact IH]. apply sw_linked. rewrite !tau_invol. exact L.
  Qed.
  Lemma sw_connected : connected g -> connected g'.
  Proof.
    intros C s t Hs Ht. apply sw_node in Hs, Ht. apply tau_node in Hs, Ht.
    destruct (C _ _ Hs Ht) as (p & Hp). apply sw_walk in Hp. rewrite !tau_invol in Hp. eauto.
  Qed.
  Lemma sw_routable d : routable d g -> routable d g'.
  Proof.
    intros R. constructor.
    - exact W'.
    - apply sw_uniform, R.
    - apply sw_placement, R.
    - apply sw_connected, R.
    - intros n Hn. apply sw_node in Hn. apply (rt_logical d g R n Hn).
    - intros n p H. apply sw_placed in H. eapply (rt_physical d g R). exact H.
    - intros n Hn. apply sw_node in Hn. apply tau_node in Hn. destruct (rt_level d g R _ Hn) as (v & Hv).
      exists v. apply sw_has. exact Hv.
    - destruct (rt_initial d g R) as (n & Hn). exists (tau a b n). apply sw_has. rewrite tau_invol. exact Hn.
    - intros n v H. apply sw_has in H. eapply (rt_phases d g R). exact H.
  Qed.
End Swapped.

Lemma same_couplings_refl g : same_couplings g g.
Proof. split; intros; reflexivity. Qed.
Lemma same_couplings_trans g1 g2 g3 : same_couplings g1 g2 -> same_couplings g2 g3 -> same_couplings g1 g3.
Proof.
  intros [A B] [A' B']. split.
  - intros p q d. rewrite (A p q d). exact (A' p q d).
  - intros p. rewrite (B p). exact (B' p).
Qed.

Lemma swap_all_spec l : forall g, well_formed g -> uniform g -> placement_ok g ->
  (forall a b, In (a, b) l -> is_node g a /\ is_node g b) ->
  exists g', swap_all g l = Ok g' /\ well_formed g' /\ uniform g' /\ placement_ok g' /\
    map fst (nd g') = map fst (nd g) /\ same_couplings g g'.
Proof.
  induction l as [|(a, b) r IH]; intros g W U P H; cbn [swap_all].
  - exists g. split; [reflexivity|]. split; [exact W|]. split; [exact U|]. split; [exact P|]. split; [reflexivity|apply same_couplings_refl].
  - destruct (H a b (or_introl eq_refl)) as [Ha Hb].
    destruct (swap_nodes_spec g a b W U Ha Hb) as (g1 & E & S & _). rewrite E. cbn [bindr].
    destruct (IH g1) as (g2 & E2 & W2 & U2 & P2 & N2 & C2).
    + apply (sw_wf a b g g1 S).
    + exact (sw_uniform a b g g1 W Ha Hb S U).
    + exact (sw_placement a b g g1 W Ha Hb S P).
    + intros x y Hxy. destruct (H x y (or_intror Hxy)) as [Hx Hy].
      split; apply (sw_node a b g g1 S); assumption.
    + exists g2. split; [exact E2|]. split; [exact W2|]. split; [exact U2|]. split; [exact P2|]. split.
      * rewrite N2. apply (sw_nodes a b g g1 S).
      * apply (same_couplings_trans g g1 g2); [apply (sw_same_couplings a b g g1 W S)|exact C2].
Qed.

Lemma swap_all_missing g a b : well_formed g -> ~ is_node g a \/ ~ is_node g b -> swap_nodes g a b = Err ValueError.
Proof.
  intros W H. unfold swap_nodes, swap_node_attributes.
  destruct (in_dec Z.eq_dec a (map fst (nd g))) as [Ha|Ha].
  - destruct (node_index_ok _ _ Ha) as (i & ->). cbn [bindr]. destruct H as [H|H]; [contradiction|].
    rewrite (node_index_err _ _ H). reflexivity.
  - rewrite (node_index_err _ _ Ha). reflexivity.
Qed.

(** Swapping the same two levels twice. *)
Lemma swap_twice g a b g1 g2 : well_formed g -> uniform g ->
  swap_nodes g a b = Ok g1 -> swap_nodes g1 a b = Ok g2 ->
  map fst (nd g2) = map fst (nd g) /\ (forall n k v, has_attr g2 n k v <-> has_attr g n k v) /\
  (forall u v d, joined g2 u v d <-> joined g u v d).
Proof.
  intros W U E1 E2.
  assert (Hn : is_node g a /\ is_node g b).
  { destruct (in_dec Z.eq_dec a (map fst (nd g))) as [Ha|Ha]; [destruct (in_dec Z.eq_dec b (map fst (nd g))) as [Hb|Hb]; [split; assumption|]|];
      rewrite (swap_all_missing g a b W) in E1; try discriminate; unfold is_node; auto. }
  destruct Hn as [Ha Hb].
  destruct (swap_nodes_spec g a b W U Ha Hb) as (x & X1 & S1 & _). rewrite E1 in X1. injection X1 as <-.
  assert (W1 := sw_wf a b g g1 S1). assert (U1 : uniform g1) by (exact (sw_uniform a b g g1 W Ha Hb S1 U)).
  assert (Ha1 : is_node g1 a) by (apply (sw_node a b g g1 S1); exact Ha).
  assert (Hb1 : is_node g1 b) by (apply (sw_node a b g g1 S1); exact Hb).
  destruct (swap_nodes_spec g1 a b W1 U1 Ha1 Hb1) as (x & X1 & S2 & _). rewrite E2 in X1. injection X1 as <-.
  split; [|split].
  - rewrite (sw_nodes a b g1 g2 S2). apply (sw_nodes a b g g1 S1).
  - intros n k v. rewrite (sw_has a b g1 g2 W1 S2), (sw_has a b g g1 W S1), tau_invol. reflexivity.
  - intros u v d. rewrite (sw_joined a b g1 g2 W1 S2), (sw_joined a b g g1 W S1), !tau_invol. reflexivity.
Qed.

(** Exactly the two levels change place. *)
Lemma swap_effect g a b : well_formed g -> uniform g -> is_node g a -> is_node g b ->
  exists g', swap_nodes g a b = Ok g' /\
    (forall k v, has_attr g' a k v <-> has_attr g b k v) /\
    (forall k v, has_attr g' b k v <-> has_attr g a k v) /\
    (forall n k v, n <> a -> n <> b -> (has_attr g' n k v <-> has_attr g n k v)).
Proof.
  intros W U Ha Hb. destruct (swap_nodes_spec g a b W U Ha Hb) as (g' & E & S & _). exists g'.
  split; [exact E|]. repeat split; intros; rewrite (sw_has a b g g' W S) in *; rewrite ?tau_l, ?tau_r, ?tau_other in * by assumption; assumption.
Qed.

(** *** log_phy_map *)
Lemma mapr_ok {A B} (f : A -> res B) l : (forall x, In x l -> exists y, f x = Ok y) -> exists ys, mapr f l = Ok ys.
Proof.
  induction l as [|x r IH]; intros H; cbn; [eauto|].
  destruct (H x (or_introl eq_refl)) as (y & ->). destruct IH as (ys & ->); [intros; apply H; right; assumption|].
  cbn. eauto.
Qed.
Lemma mapr_map {A B} (f : A -> res B) l ys : mapr f l = Ok ys -> map Ok ys = map f l.
Proof.
  revert ys. induction l as [|x r IH]; intros ys; cbn.
  - intros H. injection H as <-. reflexivity.
  - destruct (f x) as [y|] eqn:E; cbn; [|discriminate]. destruct (mapr f r) as [zs|] eqn:E2; cbn; [|discriminate].
    intros H. injection H as <-. cbn. rewrite (IH zs eq_refl). reflexivity.
Qed.

Lemma flat_filter {V} (l : list (Z * V)) : NoDup (map fst l) ->
  flat_map (fun key => filter (fun N => (fst N =? key)%Z) l) (map fst l) = l.
Proof.
  intros ND. transitivity (flat_map (fun p => [p]) l); [|induction l; cbn; [reflexivity|f_equal; apply IHl; inversion ND; assumption]].
  rewrite flat_map_concat_map, flat_map_concat_map, map_map. f_equal. apply map_ext_in. intros (n, v) H. cbn.
  assert (G : forall l', NoDup (map fst l') -> In (n, v) l' -> filter (fun N : Z * V => (fst N =? n)%Z) l' = [(n, v)]).
  { clear. induction l' as [|(m, w) r IH]; cbn; intros ND H; [tauto|]. apply NoDup_cons_iff in ND. destruct ND as [Hm ND].
    destruct H as [H|H].
    - injection H as -> ->. rewrite Z.eqb_refl. f_equal.
      destruct (filter (fun N : Z * V => (fst N =? n)%Z) r) as [|(x, y) q] eqn:E; [reflexivity|].
      assert (I : In (x, y) (filter (fun N : Z * V => (fst N =? n)%Z) r)) by (rewrite E; left; reflexivity).
      apply filter_In in I. destruct I as [I1 I2]. cbn in I2. apply Z.eqb_eq in I2. subst. exfalso. apply Hm. eapply in_keys. exact I1.
    - destruct (Z.eqb_spec m n) as [->|E]; [exfalso; apply Hm; eapply in_keys; exact H|]. apply IH; assumption. }
  apply G; assumption.
Qed.

Lemma log_phy_map_spec g : well_formed g -> placement_ok g ->
  exists l, log_phy_map g = Ok l /\ map Some l = map (fun n => alook (nd g) n "lpmap") (map fst (nd g)).
Proof.
  intros W (P1 & P2). unfold log_phy_map. rewrite (flat_filter (nd g) (wf_nodes g W)).
  assert (A : forall na, In na (nd g) -> exists v, aget (snd na) "lpmap" = Some v).
  { intros (n, A) H. destruct (P1 n) as (p & Hp); [eapply in_keys; exact H|].
    apply (has_attr_alook g W) in Hp. unfold alook in Hp. rewrite (dget_complete Z.eqb zeq _ n A (wf_nodes g W) H) in Hp. eauto. }
  destruct (mapr_ok (fun n : Z * attrs => getk (aget (snd n) "lpmap")) (nd g)) as (l & El).
  { intros na H. destruct (A na H) as (v & ->). cbn. eauto. }
  exists l. split; [exact El|]. apply mapr_map in El.
  rewrite map_map. transitivity (map (fun r => match r with Ok v => Some v | Err _ => None end) (map Ok l)).
  - rewrite map_map. reflexivity.
  - rewrite El, map_map. apply map_ext_in. intros (n, A0) H. cbn. destruct (A _ H) as (v & Hv). cbn in Hv. rewrite Hv. cbn.
    unfold alook. rewrite (dget_complete Z.eqb zeq _ n A0 (wf_nodes g W) H). congruence.
Qed.

Lemma perm_unsome {A} (l1 l2 : list A) : Permutation (map Some l1) (map Some l2) -> Permutation l1 l2.
Proof.
  destruct l1 as [|d r].
  - cbn. intros H. apply Permutation_nil in H. destruct l2; [constructor|discriminate].
  - intros H. apply (Permutation_map (fun o => match o with Some x => x | None => d end)) in H.
    rewrite !map_map in H. cbn in H. rewrite !map_id in H. exact H.
Qed.

Lemma log_phy_map_swap g a b g' : well_formed g -> uniform g -> placement_ok g -> is_node g a -> is_node g b ->
  swap_nodes g a b = Ok g' ->
  exists l l', log_phy_map g = Ok l /\ log_phy_map g' = Ok l' /\ Permutation l l'.
Proof.
  intros W U P Ha Hb E. destruct (swap_nodes_spec g a b W U Ha Hb) as (x & X & S & _). rewrite E in X. injection X as <-.
  destruct (log_phy_map_spec g W P) as (l & L1 & L2).
  destruct (log_phy_map_spec g' (sw_wf a b g g' S)) as (l' & L1' & L2'); [exact (sw_placement a b g g' W Ha Hb S P)|].
  exists l, l'. split; [exact L1|]. split; [exact L1'|]. apply perm_unsome. rewrite L2, L2', (sw_nodes a b g g' S).
  transitivity (map (fun n => alook (nd g) n "lpmap") (map (tau a b) (map fst (nd g)))).
  - apply Permutation_map. apply NoDup_Permutation.
    + apply (wf_nodes g W).
    + apply FinFun.Injective_map_NoDup; [|apply (wf_nodes g W)]. intros x y. apply tau_inj.
    + intros x. rewrite (in_map_iff (tau a b)). split.
      * intros H. exists (tau a b x). rewrite tau_invol. split; [reflexivity|]. apply (proj1 (tau_node a b g Ha Hb x)). exact H.
      * intros (y & <- & H). apply (proj1 (tau_node a b g Ha Hb y)). exact H.
  - rewrite map_map. apply Permutation_refl'. apply map_ext. intros n. symmetry. apply (sw_attr a b g g' S).
Qed.
Lemma log_phy_map_all l : forall g g', well_formed g -> uniform g -> placement_ok g ->
  (forall a b, In (a, b) l -> is_node g a /\ is_node g b) -> swap_all g l = Ok g' ->
  exists m m', log_phy_map g = Ok m /\ log_phy_map g' = Ok m' /\ Permutation m m'.
Proof.
  induction l as [|(a, b) r IH]; intros g g' W U P H E; cbn [swap_all] in E.
  - injection E as <-. destruct (log_phy_map_spec g W P) as (m & M & _). exists m, m. auto.
  - destruct (H a b (or_introl eq_refl)) as [Ha Hb].
    destruct (swap_nodes_spec g a b W U Ha Hb) as (g1 & E1 & S & _).
    destruct (log_phy_map_swap g a b g1 W U P Ha Hb E1) as (m & m1 & M & M1 & Q1).
    rewrite E1 in E. cbn [bindr] in E.
    destruct (IH g1 g') as (m1' & m2 & M1' & M2 & Q2); trivial.
    + apply (sw_wf a b g g1 S).
    + exact (sw_uniform a b g g1 W Ha Hb S U).
    + exact (sw_placement a b g g1 W Ha Hb S P).
    + intros x y Hxy. destruct (H x y (or_intror Hxy)) as [Hx Hy]. split; apply (sw_node a b g g1 S); assumption.
    + exists m, m2. rewrite M1 in M1'. injection M1' as <-. split; [exact M|]. split; [exact M2|].
      eapply Permutation_trans; eassumption.
Qed.

(** *** The constructor *)
Lemma add_nodes_spec og qi l2 : forall l1, NoDup (l1 ++ l2) ->
  fold_left (fun g n => add_node g n []) l2 (LG (map (fun n => (n, [])) l1) (map (fun n => (n, [])) l1) og qi)
  = LG (map (fun n => (n, [])) (l1 ++ l2)) (map (fun n => (n, [])) (l1 ++ l2)) og qi.
Proof.
  induction l2 as [|n r IH]; intros l1 H; cbn [fold_left].
  - rewrite app_nil_r. reflexivity.
  - assert (Hn : ~ In n l1) by (apply NoDup_remove_2 in H; intros Hi; apply H; apply in_or_app; auto).
    assert (K : forall V (v : V), map fst (map (fun n : Z => (n, v)) l1) = l1) by (intros; rewrite map_map; apply map_id).
    assert (E : add_node (LG (map (fun n => (n, [])) l1) (map (fun n => (n, [])) l1) og qi) n []
                = LG (map (fun n => (n, [])) (l1 ++ [n])) (map (fun n => (n, [])) (l1 ++ [n])) og qi).
    { unfold add_node. cbn [nd adj og_dims LevelsModel.qudit_index].
      rewrite (proj2 (dget_None Z.eqb zeq _ n)) by (unfold dkeys; rewrite K; exact Hn).
      rewrite !(dset_fresh Z.eqb zeq) by (unfold dkeys; rewrite K; exact Hn). rewrite !map_app. reflexivity. }
    rewrite E. replace (l1 ++ n :: r) with ((l1 ++ [n]) ++ r) by (rewrite <- app_assoc; reflexivity).
    apply IH. rewrite <- app_assoc. exact H.
Qed.

Lemma set_attr_look name g nv n k :
  alook (nd (set_attr name g nv)) n k =
    if ((n =? fst nv)%Z && String.eqb k name)%bool then (match nget (nd g) n with Some _ => Some (snd nv) | None => None end)
    else alook (nd g) n k.
Proof.
  unfold set_attr. destruct nv as (m, v). cbn [fst snd].
  destruct (nget (nd g) m) as [A|] eqn:E.
  - cbn [nd]. rewrite (alook_nset _ _ _ _ _ _ _ E). destruct (Z.eqb_spec n m) as [->|H]; cbn [andb]; [|reflexivity].
    destruct (String.eqb k name); [rewrite E|]; reflexivity.
  - destruct (Z.eqb_spec n m) as [->|H]; cbn [andb]; [|reflexivity].
    destruct (String.eqb_spec k name) as [->|H2]; [rewrite E; unfold alook; rewrite E|]; reflexivity.
Qed.
Definition attrs_ok (g : lgraph) : Prop := forall n A, In (n, A) (nd g) -> NoDup (map fst A).
Lemma set_attr_keep name g nv : attrs_ok g ->
  map fst (nd (set_attr name g nv)) = map fst (nd g) /\ adj (set_attr name g nv) = adj g /\
  attrs_ok (set_attr name g nv) /\ og_dims (set_attr name g nv) = og_dims g /\
  LevelsModel.qudit_index (set_attr name g nv) = LevelsModel.qudit_index g.
Proof.
  intros H. unfold set_attr. destruct (nget (nd g) (fst nv)) as [A|] eqn:E; [|auto]. cbn [nd adj og_dims LevelsModel.qudit_index].
  split; [apply keys_nset_present; apply nget_key; eauto|]. split; [reflexivity|]. split; [|auto].
  intros n B HB. cbn [nd] in HB. apply nset_In in HB. destruct HB as [[-> ->]|HB]; [|apply (H n B HB)].
  apply (dset_NoDup String.eqb seq'). apply (H (fst nv)). apply (dget_In Z.eqb zeq). exact E.
Qed.

Lemma set_attrs_spec name kvs : forall g, attrs_ok g ->
  map fst (nd (fold_left (set_attr name) kvs g)) = map fst (nd g) /\ adj (fold_left (set_attr name) kvs g) = adj g /\
  attrs_ok (fold_left (set_attr name) kvs g) /\
  forall n k, alook (nd (fold_left (set_attr name) kvs g)) n k =
    if String.eqb k name then
      match nget (rev kvs) n with
      | Some v => match nget (nd g) n with Some _ => Some v | None => None end
      | None => alook (nd g) n k
      end
    else alook (nd g) n k.
Proof.
  induction kvs as [|nv r IH] using rev_ind; intros g H.
  - cbn. repeat split; trivial. intros n k. destruct (String.eqb k name); reflexivity.
  - rewrite fold_left_app. cbn [fold_left]. destruct (IH g H) as (K1 & K2 & K3 & K4).
    destruct (set_attr_keep name (fold_left (set_attr name) r g) nv K3) as (L1 & L2 & L3 & _).
    split; [congruence|]. split; [congruence|]. split; [exact L3|].
    intros n k. rewrite set_attr_look, K4, rev_unit. destruct nv as (m, v). cbn [fst snd dget].
    assert (KK : forall n, (exists x, nget (nd (fold_left (set_attr name) r g)) n = Some x) <-> (exists x, nget (nd g) n = Some x))
      by (intros x; rewrite <- !nget_key, K1; reflexivity).
    destruct (String.eqb_spec k name) as [->|Hk]; rewrite ?Bool.andb_true_r, ?Bool.andb_false_r; [|reflexivity].
    destruct (Z.eqb_spec n m) as [->|Hn]; [|reflexivity].
    destruct (nget (nd g) m) as [x|] eqn:E1; destruct (nget (nd (fold_left (set_attr name) r g)) m) as [y|] eqn:E2; trivial.
    + assert (Q := proj2 (KK m) (ex_intro _ x E1)). destruct Q as (z & Hz). congruence.
    + assert (Q := proj1 (KK m) (ex_intro _ y E2)). destruct Q as (z & Hz). congruence.
Qed.

Lemma nget_rev {V} (l : list (Z * V)) n : NoDup (map fst l) -> nget (rev l) n = nget l n.
Proof.
  intros ND. assert (ND' : NoDup (dkeys (rev l))) by (unfold dkeys; rewrite map_rev; apply NoDup_rev; exact ND).
  destruct (nget l n) as [v|] eqn:E.
  - apply (dget_complete Z.eqb zeq); [exact ND'|]. apply -> in_rev. apply (dget_In Z.eqb zeq). exact E.
  - apply (dget_None Z.eqb zeq). apply (dget_None Z.eqb zeq) in E. unfold dkeys in *. rewrite map_rev. intros H. apply E. apply in_rev. exact H.
Qed.
Lemma nget_const {V} (l : list Z) (c : V) n : nget (map (fun x => (x, c)) l) n = if existsb (Z.eqb n) l then Some c else None.
Proof. induction l as [|x r IH]; cbn; [reflexivity|]. destruct (n =? x)%Z; [reflexivity|exact IH]. Qed.
Lemma nget_rev_const {V} (l : list Z) (c : V) n : nget (rev (map (fun x => (x, c)) l)) n = if existsb (Z.eqb n) l then Some c else None.
Proof.
  rewrite <- map_rev, nget_const. replace (existsb (Z.eqb n) (rev l)) with (existsb (Z.eqb n) l); [reflexivity|].
  apply Bool.eq_true_iff_eq. rewrite !existsb_exists. split; intros (x & H1 & H2); exists x; (split; [|exact H2]).
  - apply -> in_rev. exact H1.
  - apply in_rev. exact H1.
Qed.

Lemma map_fst_combine (l l' : list Z) : List.length l = List.length l' -> map fst (combine l l') = l.
Proof. revert l'. induction l; destruct l'; cbn; try discriminate; [reflexivity|]. intros H. f_equal. apply IHl. congruence. Qed.

Lemma phys_dict (l l' : list Z) : NoDup l -> List.length l = List.length l' ->
  fold_left (fun d np => nset d (fst np) (AInt (snd np))) (combine l l') [] = map (fun np => (fst np, AInt (snd np))) (combine l l').
Proof.
  intros ND HL.
  assert (H : forall c2 c1, NoDup (map fst (c1 ++ c2)) ->
     fold_left (fun d np => nset d (fst np) (AInt (snd np))) c2 (map (fun np : Z * Z => (fst np, AInt (snd np))) c1)
     = map (fun np => (fst np, AInt (snd np))) (c1 ++ c2)).
  { induction c2 as [|(n, p) r IH]; intros c1 Hc; cbn [fold_left].
    - rewrite app_nil_r. reflexivity.
    - assert (Hn : ~ In n (map fst c1)) by (rewrite map_app in Hc; cbn in Hc; apply NoDup_remove_2 in Hc; intros Hi; apply Hc; apply in_or_app; auto).
      rewrite (dset_fresh Z.eqb zeq) by (unfold dkeys; rewrite map_map; exact Hn).
      replace (c1 ++ (n, p) :: r) with ((c1 ++ [(n, p)]) ++ r) in * by (rewrite <- app_assoc; reflexivity).
      rewrite <- IH by exact Hc. rewrite map_app. reflexivity. }
  apply (H _ []). cbn. rewrite map_fst_combine; assumption.
Qed.

Theorem new_graph_spec edges nodes phys init qi og :
  NoDup nodes -> nodes <> [] -> List.length phys = List.length nodes -> good_edges nodes edges ->
  let g := new_graph edges nodes phys (Some init) qi og in
  well_formed g /\ uniform g /\ map fst (nd g) = nodes /\
  (forall n p, placed g n p <-> In (n, p) (combine nodes phys)) /\
  (forall u v d, joined g u v d <-> In (u, v, d) edges \/ In (v, u, d) edges) /\
  (forall n v, has_attr g n "level" v <-> In n nodes /\ v = AStr (if in_dec Z.eq_dec n init then "i" else "r")) /\
  (forall n v, ~ has_attr g n "phase_storage" v).
Proof.
  intros ND NE HL (GE1 & GE2). unfold new_graph. cbn zeta.
  change (LG [] [] og qi) with (LG (map (fun n : Z => (n, @nil (string * aval))) []) (map (fun n : Z => (n, @nil (Z * attrs))) []) og qi).
  rewrite (add_nodes_spec og qi nodes []) by exact ND. cbn [app].
  set (g0 := LG _ _ og qi).
  assert (K0 : map fst (nd g0) = nodes) by (unfold g0; cbn [nd]; rewrite map_map; apply map_id).
  assert (A0 : adj g0 = map (fun n => (n, [])) nodes) by reflexivity.
  assert (L0 : forall n k, alook (nd g0) n k = None).
  { intros n k. unfold alook, g0. cbn [nd]. rewrite nget_const. destruct (existsb (Z.eqb n) nodes); reflexivity. }
  assert (O0 : attrs_ok g0).
  { intros n A H. unfold g0 in H. cbn in H. apply in_map_iff in H. destruct H as (x & H & _). injection H as <- <-. constructor. }
  set (g1 := match phys with [] => g0 | _ => logic_physical_map g0 nodes phys end).
  assert (G1 : g1 = logic_physical_map g0 nodes phys) by (unfold g1; destruct phys; [destruct nodes; [congruence|discriminate]|reflexivity]).
  destruct (set_attrs_spec "lpmap" (map (fun np => (fst np, AInt (snd np))) (combine nodes phys)) g0 O0) as (K1 & A1 & O1 & L1).
  unfold logic_physical_map in G1. rewrite phys_dict in G1 by (trivial; symmetry; exact HL). rewrite <- G1 in K1, A1, O1, L1.
  assert (KC : map fst (map (fun np : Z * Z => (fst np, AInt (snd np))) (combine nodes phys)) = nodes).
  { rewrite map_map. cbn. rewrite <- (map_fst_combine nodes phys) at 2 by (symmetry; exact HL). reflexivity. }
  assert (NG : forall n, In n nodes <-> exists x, nget (nd g0) n = Some x) by (intros; rewrite <- nget_key, K0; reflexivity).
  assert (L1' : forall n k v, alook (nd g1) n k = Some v <-> k = "lpmap" /\ exists p, v = AInt p /\ In (n, p) (combine nodes phys)).
  { intros n k v. rewrite L1. destruct (String.eqb_spec k "lpmap") as [->|Hk].
    - rewrite nget_rev by (rewrite KC; exact ND).
      destruct (nget (map (fun np : Z * Z => (fst np, AInt (snd np))) (combine nodes phys)) n) as [w|] eqn:E.
      + assert (E' := dget_In Z.eqb zeq _ _ _ E). apply in_map_iff in E'. destruct E' as ((n', p) & E1 & E2). cbn in E1. injection E1 as <- <-.
        assert (Hn : In n' nodes) by (rewrite <- (map_fst_combine nodes phys) by (symmetry; exact HL); eapply in_keys; exact E2).
        apply NG in Hn. destruct Hn as (x & ->). split.
        * intros H. injection H as <-. split; [reflexivity|]. eauto.
        * intros (_ & p' & -> & Hp). f_equal. f_equal.
          assert (NC : NoDup (dkeys (combine nodes phys))) by (unfold dkeys; rewrite map_fst_combine by (symmetry; exact HL); exact ND).
          assert (Q1 := dget_complete Z.eqb zeq _ _ _ NC E2). assert (Q2 := dget_complete Z.eqb zeq _ _ _ NC Hp). congruence.
      + rewrite L0. split; [discriminate|]. intros (_ & p & -> & Hp). exfalso. apply (dget_None Z.eqb zeq) in E. apply E.
        unfold dkeys. rewrite KC. rewrite <- (map_fst_combine nodes phys) by (symmetry; exact HL). eapply in_keys; exact Hp.
    - rewrite L0. split; [discriminate|]. intros (H & _). contradiction. }
  clear L1. rewrite K0 in K1. rewrite A0 in A1.
  destruct (add_edges_spec edges g1) as (N2 & A2 & B2 & _ & _ & P2).
  { split; [rewrite K1; exact ND|]. rewrite A1, K1, map_map. apply map_id. }
  { intros u l H. rewrite A1 in H. apply in_map_iff in H. destruct H as (x & H & _). injection H as <- <-. constructor. }
  { intros u v a H. rewrite Forall_forall in GE1. destruct (GE1 _ H) as (H1 & H2 & H3). cbn in H1, H2, H3.
    unfold is_node. rewrite K1. repeat split; trivial; unfold edge_data, neighbours; rewrite A1, nget_const;
      match goal with |- context [existsb ?f ?l] => destruct (existsb f l) end; reflexivity. }
  { clear -GE2. unfold distinct_pairs. apply FOP_map. eapply FOP_impl; [|exact GE2]. cbn. intros e f H [S|[S1 S2]]; apply H; auto. }
  set (g2 := fold_left add_edge edges g1) in *.
  assert (E1 : forall x y, edge_data g1 x y = None).
  { intros x y. unfold edge_data, neighbours. rewrite A1, nget_const. destruct (existsb (Z.eqb x) nodes); reflexivity. }
  unfold define_states. rewrite N2, K1.
  assert (O2 : attrs_ok g2) by (unfold attrs_ok; rewrite N2; exact O1).
  destruct (set_attrs_spec "level" (map (fun n => (n, AStr "r")) (filter (fun x => negb (existsb (Z.eqb x) init)) nodes)) g2 O2) as (K3 & A3 & O3 & L3).
  set (g3 := fold_left (set_attr "level") (map (fun n => (n, AStr "r")) _) g2) in *.
  destruct (set_attrs_spec "level" (map (fun n => (n, AStr "i")) init) g3 O3) as (K4 & A4 & O4 & L4).
  set (g4 := fold_left (set_attr "level") (map (fun n => (n, AStr "i")) init) g3) in *.
  assert (N4 : map fst (nd g4) = nodes) by (rewrite K4, K3, N2, K1; reflexivity).
  assert (ED : forall x y, edge_data g4 x y = edge_data g2 x y) by (intros; unfold edge_data, neighbours; rewrite A4, A3; reflexivity).
  assert (AL : forall n k v, alook (nd g4) n k = Some v <->
     (k = "lpmap" /\ exists p, v = AInt p /\ In (n, p) (combine nodes phys)) \/
     (k = "level" /\ In n nodes /\ v = AStr (if in_dec Z.eq_dec n init then "i" else "r"))).
  { intros n k v. rewrite L4, L3, !nget_rev_const.
    assert (X3 : forall n, In n nodes <-> exists x, nget (nd g3) n = Some x) by (intros; rewrite <- nget_key, K3, N2, K1; reflexivity).
    assert (X2 : forall n, In n nodes <-> exists x, nget (nd g2) n = Some x) by (intros; rewrite <- nget_key, N2, K1; reflexivity).
    destruct (String.eqb_spec k "level") as [->|Hk].
    - assert (Q : alook (nd g2) n "level" = None).
      { rewrite N2. destruct (alook (nd g1) n "level") eqn:E; [|reflexivity]. apply L1' in E. destruct E as [E _]. discriminate. }
      rewrite Q. destruct (existsb (Z.eqb n) init) eqn:Ei.
      + assert (Hi : In n init) by (apply existsb_exists in Ei; destruct Ei as (x & Hx & E); apply Z.eqb_eq in E; rewrite E; exact Hx).
        destruct (in_dec Z.eq_dec n init); [|contradiction].
        destruct (nget (nd g3) n) as [x|] eqn:E.
        * split; [intros H; injection H as <-; right; split; [reflexivity|split; [apply X3; eauto|reflexivity]]|].
          intros [[H _]|(_ & _ & ->)]; [discriminate|reflexivity].
        * split; [discriminate|]. intros [[H _]|(_ & H & _)]; [discriminate|]. apply X3 in H. destruct H as (y & H). congruence.
      + assert (Hi : ~ In n init).
        { intros H. rewrite <- Bool.not_true_iff_false in Ei. apply Ei. apply existsb_exists. exists n. split; [exact H|apply Z.eqb_refl]. }
        destruct (in_dec Z.eq_dec n init); [contradiction|].
        destruct (existsb (Z.eqb n) (filter (fun x => negb (existsb (Z.eqb x) init)) nodes)) eqn:Er.
        * apply existsb_exists in Er. destruct Er as (x & Hx & E). apply Z.eqb_eq in E. subst x. apply filter_In in Hx. destruct Hx as [Hx _].
          assert (Hx' := Hx). apply X2 in Hx. destruct Hx as (y & ->).
          split; [intros H; injection H as <-; auto|]. intros [[H _]|(_ & _ & ->)]; [discriminate|reflexivity].
        * split; [discriminate|]. intros [[H _]|(_ & H & _)]; [discriminate|]. exfalso.
          rewrite <- Bool.not_true_iff_false in Er. apply Er. apply existsb_exists. exists n. split; [|apply Z.eqb_refl].
          apply filter_In. split; [exact H|]. rewrite Ei. reflexivity.
    - rewrite N2, L1'. split; [tauto|]. intros [H|[H _]]; [exact H|contradiction]. }
  assert (W : well_formed g4).
  { assert (JD : forall u v d, joined g4 u v d <-> edge_data g4 u v = Some d).
    { intros u v d. assert (NA : NoDup (dkeys (adj g4))) by (unfold dkeys; rewrite A4, A3; destruct A2 as [X Y]; rewrite Y; exact X).
      unfold joined, edge_data, neighbours. split.
      - intros (nb & H1 & H2). rewrite (dget_complete Z.eqb zeq _ u nb NA H1).
        apply (dget_complete Z.eqb zeq); [apply (B2 u nb); rewrite <- A3, <- A4; exact H1|exact H2].
      - destruct (nget (adj g4) u) as [nb|] eqn:E; [|discriminate]. intros H. exists nb.
        split; apply (dget_In Z.eqb zeq); assumption. }
    assert (JE : forall u v d, joined g4 u v d <-> In (u, v, d) edges \/ In (v, u, d) edges).
    { intros u v d. rewrite JD, ED, P2, E1. split; [intros [H|H]; [discriminate|exact H]|tauto]. }
    rewrite Forall_forall in GE1.
    constructor.
    - rewrite N4. exact ND.
    - rewrite A4, A3, N4. destruct A2 as [X Y]. rewrite Y, N2. exact K1.
    - exact O4.
    - intros u l H. rewrite A4, A3 in H. apply (B2 u l H).
    - intros u v d H. apply JE in H. destruct H as [H|H]; apply (GE1 _ H).
    - intros u v d H. apply JE. apply JE in H. tauto.
    - intros u v d H. apply JE in H. unfold is_node. rewrite N4. destruct H as [H|H]; apply (GE1 _ H). }
  split; [exact W|].
  assert (HA : forall n k v, has_attr g4 n k v <->
     (k = "lpmap" /\ exists p, v = AInt p /\ In (n, p) (combine nodes phys)) \/
     (k = "level" /\ In n nodes /\ v = AStr (if in_dec Z.eq_dec n init then "i" else "r"))).
  { intros. rewrite (has_attr_alook g4 W). apply AL. }
  split; [|split; [exact N4|split; [|split; [|split]]]].
  - intros n m k v H Hm. unfold is_node in Hm. rewrite N4 in Hm. apply HA in H. destruct H as [(-> & _)|(-> & _)].
    + rewrite <- (map_fst_combine nodes phys) in Hm by (symmetry; exact HL). apply in_map_iff in Hm. destruct Hm as ((m', p) & <- & Hp).
      exists (AInt p). apply HA. left. split; [reflexivity|]. exists p. auto.
    + eexists. apply HA. right. split; [reflexivity|]. split; [exact Hm|reflexivity].
  - intros n p. unfold placed. rewrite HA. split.
    + intros [(_ & q & E & H)|(H & _)]; [injection E as ->; exact H|discriminate].
    + intros H. left. split; [reflexivity|]. eauto.
  - intros u v d. rewrite (joined_data g4 W), ED, P2, E1. split; [intros [H|H]; [discriminate|exact H]|tauto].
  - intros n v. rewrite HA. split; [|tauto]. intros [(H & _)|H]; [discriminate|tauto].
  - intros n v H. apply HA in H. destruct H as [(H & _)|(H & _)]; discriminate.
Qed.
