(** Lookups in level graphs, and what swap_nodes does to them. *)
From Coq Require Import Reals Permutation.
From Verif.Base Require Import Py PyFacts.
From Verif.Levels Require Import LevelsModel LevelsSpec.
Local Open Scope string_scope.
Local Open Scope list_scope.
Local Open Scope nat_scope.

Notation zeq := Z.eqb_eq.
Notation seq' := String.eqb_eq.

Definition alook (l : list (Z * attrs)) (n : Z) (k : string) : option aval :=
  match nget l n with Some a => aget a k | None => None end.

Lemma getk_some {V} (o : option V) v : getk o = Ok v <-> o = Some v.
Proof. destruct o; cbn; split; congruence. Qed.

Lemma in_keys {K V} (l : list (K * V)) k v : In (k, v) l -> In k (map fst l).
Proof. intros H. apply (in_map fst) in H. exact H. Qed.

Lemma nget_key {V} (l : list (Z * V)) n : In n (map fst l) <-> exists a, nget l n = Some a.
Proof.
  destruct (nget l n) as [a|] eqn:E.
  - split; [eauto|]. intros _. apply (dget_In Z.eqb zeq) in E. eapply in_keys. exact E.
  - split; [|intros (a & A); discriminate]. intros H. apply (dget_None Z.eqb zeq) in E. contradiction.
Qed.
Lemma aget_key {V} (l : list (string * V)) n : In n (map fst l) <-> exists a, aget l n = Some a.
Proof.
  destruct (aget l n) as [a|] eqn:E.
  - split; [eauto|]. intros _. apply (dget_In String.eqb seq') in E. eapply in_keys. exact E.
  - split; [|intros (a & A); discriminate]. intros H. apply (dget_None String.eqb seq') in E. contradiction.
Qed.

Section WF.
  Variable g : lgraph.
  Hypothesis W : well_formed g.

  Lemma has_attr_alook n k v : has_attr g n k v <-> alook (nd g) n k = Some v.
  Proof.
    unfold has_attr, alook. split.
    - intros (a & Ha & Hv). rewrite (dget_complete Z.eqb zeq _ _ _ (wf_nodes g W) Ha).
      apply (dget_complete String.eqb seq'); [eapply (wf_attrs g W); exact Ha|exact Hv].
    - destruct (nget (nd g) n) as [a|] eqn:E; [|discriminate]. intros H. exists a.
      split; [apply (dget_In Z.eqb zeq); exact E|apply (dget_In String.eqb seq'); exact H].
  Qed.
  Lemma joined_data u v d : joined g u v d <-> edge_data g u v = Some d.
  Proof.
    unfold joined, edge_data, neighbours. split.
    - intros (l & Hl & Hv). rewrite (dget_complete Z.eqb zeq (adj g) u l); [|unfold dkeys; rewrite (wf_adj g W); apply (wf_nodes g W)|exact Hl].
      apply (dget_complete Z.eqb zeq); [eapply (wf_neighbours g W); exact Hl|exact Hv].
    - destruct (nget (adj g) u) as [l|] eqn:E; [|discriminate]. intros H. exists l.
      split; apply (dget_In Z.eqb zeq); assumption.
  Qed.
  Lemma data_sym u v d : edge_data g u v = Some d -> edge_data g v u = Some d.
  Proof. rewrite <- !joined_data. apply (wf_sym g W). Qed.
  Lemma data_sym_eq u v : edge_data g u v = edge_data g v u.
  Proof.
    destruct (edge_data g u v) as [d|] eqn:E.
    - symmetry. apply data_sym. exact E.
    - destruct (edge_data g v u) as [d|] eqn:E2; [|reflexivity]. apply data_sym in E2. congruence.
  Qed.
  Lemma data_nodes u v d : edge_data g u v = Some d -> is_node g u /\ is_node g v.
  Proof.
    intros H. split; [apply data_sym in H|]; apply joined_data in H; eapply (wf_ends g W); exact H.
  Qed.
  Lemma uniform_alook : uniform g -> forall n m k, is_node g n -> is_node g m ->
    (alook (nd g) n k = None <-> alook (nd g) m k = None).
  Proof.
    intros U. assert (H : forall n m k, is_node g n -> is_node g m -> alook (nd g) n k = None -> alook (nd g) m k = None).
    { intros n m k Hn Hm E. destruct (alook (nd g) m k) as [v|] eqn:E2; [|reflexivity].
      apply has_attr_alook in E2. destruct (U m n k v E2 Hn) as (w & Hw). apply has_attr_alook in Hw. congruence. }
    intros; split; apply H; assumption.
  Qed.
End WF.

(** *** Exchanging attributes *)

Definition tau (a b x : Z) : Z := if (x =? a)%Z then b else if (x =? b)%Z then a else x.
Lemma tau_invol a b x : tau a b (tau a b x) = x.
Proof.
  unfold tau. destruct (Z.eqb_spec x a) as [->|Ha].
  - rewrite Z.eqb_refl. destruct (Z.eqb_spec b a); congruence.
  - destruct (Z.eqb_spec x b) as [->|Hb].
    + rewrite Z.eqb_refl. reflexivity.
    + rewrite (proj2 (Z.eqb_neq x a) Ha), (proj2 (Z.eqb_neq x b) Hb). reflexivity.
Qed.
Lemma tau_inj a b x y : tau a b x = tau a b y -> x = y.
Proof. intros H. rewrite <- (tau_invol a b x), H. apply tau_invol. Qed.
Lemma tau_cases a b x : tau a b x = x \/ (x = a /\ tau a b x = b) \/ (x = b /\ tau a b x = a).
Proof. unfold tau. destruct (Z.eqb_spec x a); [auto|]. destruct (Z.eqb_spec x b); auto. Qed.
Lemma tau_sym a b x : tau a b x = tau b a x.
Proof. unfold tau. repeat match goal with |- context [Z.eqb ?x ?y] => destruct (Z.eqb_spec x y) end; congruence. Qed.
Lemma tau_l a b : tau a b a = b.
Proof. unfold tau. rewrite Z.eqb_refl. reflexivity. Qed.
Lemma tau_r a b : tau a b b = a.
Proof. rewrite tau_sym. apply tau_l. Qed.
Lemma tau_other a b x : x <> a -> x <> b -> tau a b x = x.
Proof. intros H1 H2. unfold tau. rewrite (proj2 (Z.eqb_neq x a) H1), (proj2 (Z.eqb_neq x b) H2). reflexivity. Qed.

Lemma node_index_ok {V} (l : list (Z * V)) n : In n (map fst l) -> exists i, node_index l n = Ok i.
Proof.
  induction l as [|(m, v) r IH]; cbn; [tauto|]. destruct (Z.eqb_spec m n); [eauto|].
  intros [H|H]; [congruence|]. destruct (IH H) as (i & Hi). rewrite Hi. cbn. eauto.
Qed.
Lemma node_index_err {V} (l : list (Z * V)) n : ~ In n (map fst l) -> node_index l n = Err ValueError.
Proof.
  induction l as [|(m, v) r IH]; cbn; [reflexivity|]. intros H.
  destruct (Z.eqb_spec m n); [exfalso; auto|]. rewrite IH by tauto. reflexivity.
Qed.
Lemma node_index_keys {V V'} (l : list (Z * V)) (l' : list (Z * V')) n : map fst l = map fst l' -> node_index l n = node_index l' n.
Proof.
  revert l'. induction l as [|(m, v) r IH]; intros [|(m', v') r']; cbn; try discriminate; [reflexivity|].
  intros H. injection H as -> H. rewrite (IH r' H). reflexivity.
Qed.
Lemma attrs_at_index l n i : node_index l n = Ok i -> nget l n = Some (attrs_at l i).
Proof.
  unfold attrs_at. revert i. induction l as [|(m, v) r IH]; cbn; [discriminate|]. intros i.
  rewrite Z.eqb_sym. destruct (Z.eqb_spec n m).
  - intros H. injection H as <-. reflexivity.
  - destruct (node_index r n) as [j|]; cbn; [|discriminate]. intros H. injection H as <-. apply IH. reflexivity.
Qed.
Lemma set_attr_at_index l n i k v : node_index l n = Ok i ->
  set_attr_at l i k v = nset l n (aset (attrs_at l i) k v).
Proof.
  unfold set_attr_at, attrs_at. revert i. induction l as [|(m, w) r IH]; cbn; [discriminate|]. intros i.
  rewrite Z.eqb_sym. destruct (Z.eqb_spec n m).
  - intros H. injection H as <-. reflexivity.
  - destruct (node_index r n) as [j|]; cbn; [|discriminate]. intros H. injection H as <-. cbn.
    f_equal. apply IH. reflexivity.
Qed.

Lemma alook_nset l n m k k' v A : nget l n = Some A ->
  alook (nset l n (aset A k v)) m k' = if ((m =? n)%Z && String.eqb k' k)%bool then Some v else alook l m k'.
Proof.
  intros HA. unfold alook. destruct (Z.eqb_spec m n) as [->|E]; cbn [andb].
  - rewrite (dget_dset_same Z.eqb zeq). destruct (String.eqb_spec k' k) as [->|E2].
    + apply (dget_dset_same String.eqb seq').
    + rewrite (dget_dset_other String.eqb seq') by exact E2. rewrite HA. reflexivity.
  - rewrite (dget_dset_other Z.eqb zeq) by exact E. reflexivity.
Qed.

Lemma keys_nset_present {V} (l : list (Z * V)) n v : In n (map fst l) -> map fst (nset l n v) = map fst l.
Proof. apply (dkeys_dset_present Z.eqb zeq l). Qed.

(** One attribute exchanged. *)
Definition keyset (l : list (Z * attrs)) (n : Z) : list string :=
  match nget l n with Some A => map fst A | None => [] end.

Lemma swap_attr_spec l a b ia ib k va vb :
  node_index l a = Ok ia -> node_index l b = Ok ib -> alook l a k = Some va -> alook l b k = Some vb ->
  exists l', swap_attr ia ib (Ok l) k = Ok l' /\ map fst l' = map fst l /\
    (forall n k', alook l' n k' = if String.eqb k' k then alook l (tau a b n) k' else alook l n k') /\
    (forall n, keyset l' n = keyset l n).
Proof.
  intros Ia Ib Ea Eb.
  assert (Na := attrs_at_index l a ia Ia). assert (Nb := attrs_at_index l b ib Ib).
  unfold swap_attr. cbn [bindr].
  assert (Ea' : aget (attrs_at l ia) k = Some va) by (unfold alook in Ea; rewrite Na in Ea; exact Ea).
  assert (Eb' : aget (attrs_at l ib) k = Some vb) by (unfold alook in Eb; rewrite Nb in Eb; exact Eb).
  rewrite Ea', Eb'. cbn [getk bindr].
  assert (Ka : In a (map fst l)) by (apply nget_key; eauto).
  assert (Kb : In b (map fst l)) by (apply nget_key; eauto).
  rewrite (set_attr_at_index l a ia _ _ Ia).
  set (l1 := nset l a (aset (attrs_at l ia) k vb)).
  assert (F1 : map fst l1 = map fst l) by (apply keys_nset_present; exact Ka).
  assert (Ib1 : node_index l1 b = Ok ib) by (rewrite (node_index_keys l1 l b F1); exact Ib).
  assert (Nb1 := attrs_at_index l1 b ib Ib1).
  rewrite (set_attr_at_index l1 b ib _ _ Ib1).
  assert (P1 : forall n k', alook l1 n k' = if ((n =? a)%Z && String.eqb k' k)%bool then Some vb else alook l n k')
    by (intros n k'; apply alook_nset; exact Na).
  eexists. split; [reflexivity|]. split; [|split].
  - rewrite keys_nset_present; [exact F1|]. rewrite F1. exact Kb.
  - intros n k'. rewrite (alook_nset _ _ _ _ _ _ _ Nb1). rewrite P1. unfold tau.
    destruct (String.eqb_spec k' k) as [->|_]; rewrite ?Bool.andb_false_r, ?Bool.andb_true_r; [|reflexivity].
    destruct (Z.eqb_spec n b) as [Hb|Hb]; destruct (Z.eqb_spec n a) as [Ha|Ha]; subst; congruence.
  - assert (KS : forall l0 n A v, nget l0 n = Some A -> In k (map fst A) -> forall m, keyset (nset l0 n (aset A k v)) m = keyset l0 m).
    { intros l0 n A v HA Hk m. unfold keyset. destruct (Z.eq_dec m n) as [->|E].
      - rewrite (dget_dset_same Z.eqb zeq), HA. apply (dkeys_dset_present String.eqb seq' A). exact Hk.
      - rewrite (dget_dset_other Z.eqb zeq) by exact E. reflexivity. }
    assert (Hka : In k (map fst (attrs_at l ia))) by (apply aget_key; eauto).
    intros n. rewrite (KS l1 b _ _ Nb1).
    + apply (KS l a); assumption.
    + apply aget_key. assert (Q := P1 b k). unfold alook in Q at 1. rewrite Nb1 in Q. rewrite Q.
      rewrite String.eqb_refl, Bool.andb_true_r. destruct (b =? a)%Z; eauto.
Qed.

Lemma swap_attrs_spec ks : forall l a b ia ib, NoDup ks ->
  node_index l a = Ok ia -> node_index l b = Ok ib ->
  (forall k, In k ks -> alook l a k <> None /\ alook l b k <> None) ->
  exists l', fold_left (swap_attr ia ib) ks (Ok l) = Ok l' /\ map fst l' = map fst l /\
    (forall n k, alook l' n k = if existsb (String.eqb k) ks then alook l (tau a b n) k else alook l n k) /\
    (forall n, keyset l' n = keyset l n).
Proof.
  induction ks as [|k ks IH]; intros l a b ia ib ND Ia Ib Hk; cbn [fold_left existsb].
  - exists l. auto.
  - destruct (Hk k (or_introl eq_refl)) as [Ha Hb].
    destruct (alook l a k) as [va|] eqn:Ea; [|congruence]. destruct (alook l b k) as [vb|] eqn:Eb; [|congruence].
    destruct (swap_attr_spec l a b ia ib k va vb Ia Ib Ea Eb) as (l1 & E1 & F1 & P1 & S1).
    rewrite E1. apply NoDup_cons_iff in ND. destruct ND as [Hn ND].
    destruct (IH l1 a b ia ib ND) as (l2 & E2 & F2 & P2 & S2).
    + rewrite (node_index_keys l1 l a F1). exact Ia.
    + rewrite (node_index_keys l1 l b F1). exact Ib.
    + intros k' Hk'. rewrite !P1. destruct (String.eqb_spec k' k) as [->|_]; [contradiction|]. apply Hk. right. exact Hk'.
    + exists l2. split; [exact E2|]. split; [congruence|]. split; [|intros n; rewrite S2; apply S1].
      intros n k'. rewrite P2, !P1. destruct (String.eqb_spec k' k) as [->|E].
      * cbn [orb]. replace (existsb (String.eqb k) ks) with false; [reflexivity|].
        symmetry. apply Bool.not_true_iff_false. intros H. apply existsb_exists in H. destruct H as (x & Hx & Ex).
        apply String.eqb_eq in Ex. subst. contradiction.
      * cbn [orb]. reflexivity.
Qed.

Lemma swap_node_attributes_spec g a b : well_formed g -> uniform g -> is_node g a -> is_node g b ->
  exists l, swap_node_attributes g a b = Ok l /\ map fst l = map fst (nd g) /\
    (forall n k, alook l n k = alook (nd g) (tau a b n) k) /\
    (forall n A, In (n, A) l -> NoDup (map fst A)).
Proof.
  intros W U Ha Hb. unfold swap_node_attributes.
  destruct (node_index_ok (nd g) a Ha) as (ia & Ia). destruct (node_index_ok (nd g) b Hb) as (ib & Ib).
  rewrite Ia, Ib. cbn [bindr].
  destruct (nd g) as [|(n0, A0) r] eqn:E0; [discriminate Ia|]. rewrite <- E0 in *.
  assert (H0 : In (n0, A0) (nd g)) by (rewrite E0; left; reflexivity).
  assert (N0 : is_node g n0) by (eapply in_keys; exact H0).
  assert (G0 : nget (nd g) n0 = Some A0) by (apply (dget_complete Z.eqb zeq); [apply (wf_nodes g W)|exact H0]).
  replace (attrs_at (nd g) 0) with A0 by (rewrite E0; reflexivity).
  assert (K0 : forall k, In k (map fst A0) <-> alook (nd g) n0 k <> None).
  { intros k. unfold alook. rewrite G0, aget_key. split; [intros (v & ->); discriminate|].
    destruct (aget A0 k); [eauto|congruence]. }
  assert (UA := uniform_alook g W U).
  destruct (swap_attrs_spec (map fst A0) (nd g) a b ia ib (wf_attrs g W n0 A0 H0) Ia Ib) as (l & El & Fl & Pl & Sl).
  { intros k Hk. apply K0 in Hk. split; intros E; apply Hk; [apply (UA a n0 k Ha N0)|apply (UA b n0 k Hb N0)]; exact E. }
  exists l. split; [exact El|]. split; [exact Fl|]. split.
  - intros n k. rewrite Pl. destruct (existsb (String.eqb k) (map fst A0)) eqn:Ex; [reflexivity|].
    assert (N : alook (nd g) n0 k = None).
    { destruct (alook (nd g) n0 k) eqn:E; [|reflexivity]. exfalso.
      assert (In k (map fst A0)) by (apply K0; congruence).
      rewrite <- Bool.not_true_iff_false in Ex. apply Ex. apply existsb_exists. exists k. split; [assumption|apply String.eqb_refl]. }
    destruct (tau_cases a b n) as [->|[[-> ->]|[-> ->]]]; [reflexivity| |];
      rewrite (proj2 (UA a n0 k Ha N0) N), (proj2 (UA b n0 k Hb N0) N); reflexivity.
  - intros n A HA. assert (HA' : nget l n = Some A).
    { apply (dget_complete Z.eqb zeq); [unfold dkeys; rewrite Fl; apply (wf_nodes g W)|exact HA]. }
    assert (S := Sl n). unfold keyset in S. rewrite HA' in S. rewrite S.
    destruct (nget (nd g) n) as [B|] eqn:EB; [|constructor]. apply (dget_In Z.eqb zeq) in EB. eapply (wf_attrs g W). exact EB.
Qed.

(** *** Building a graph *)

Lemma update_app a b : NoDup (map fst a ++ map fst b) -> update a b = a ++ b.
Proof.
  unfold update. revert a. induction b as [|(k, v) r IH]; intros a H; cbn.
  - symmetry. apply app_nil_r.
  - assert (Hk : ~ In k (map fst a)).
    { intros Hi. cbn in H. apply NoDup_remove_2 in H. apply H. apply in_or_app. auto. }
    rewrite (dset_fresh String.eqb seq') by exact Hk. rewrite IH.
    + rewrite <- app_assoc. reflexivity.
    + rewrite map_app, <- app_assoc. exact H.
Qed.
Lemma update_nil b : NoDup (map fst b) -> update [] b = b.
Proof. intros H. apply (update_app [] b). exact H. Qed.

Lemma new_graph_attrs_spec l : NoDup (map fst l) -> (forall n A, In (n, A) l -> NoDup (map fst A)) ->
  new_graph_attrs l = LG l (map (fun na => (fst na, [])) l) None None.
Proof.
  intros ND HA. unfold new_graph_attrs.
  assert (H : forall l2 l1, l = l1 ++ l2 ->
    fold_left (fun g na => add_node g (fst na) (snd na)) l2 (LG l1 (map (fun na => (fst na, [])) l1) None None)
    = LG l (map (fun na => (fst na, [])) l) None None).
  { induction l2 as [|(n, A) r IH]; intros l1 E; cbn [fold_left].
    - rewrite app_nil_r in E. subst. reflexivity.
    - assert (Hn : ~ In n (map fst l1)).
      { rewrite E, map_app in ND. cbn in ND. apply NoDup_remove_2 in ND. intros Hi. apply ND. apply in_or_app. auto. }
      unfold add_node. cbn [nd adj og_dims LevelsModel.qudit_index fst snd].
      rewrite (proj2 (dget_None Z.eqb zeq l1 n) Hn).
      rewrite (dset_fresh Z.eqb zeq l1) by exact Hn.
      rewrite (dset_fresh Z.eqb zeq).
      2:{ unfold dkeys. rewrite map_map. exact Hn. }
      rewrite update_nil by (apply (HA n); rewrite E; apply in_or_app; right; left; reflexivity).
      assert (E2 : l = (l1 ++ [(n, A)]) ++ r) by (rewrite <- app_assoc; exact E).
      rewrite <- (IH (l1 ++ [(n, A)]) E2). rewrite map_app. reflexivity. }
  apply (H l []). reflexivity.
Qed.

(** Nodes present: adding an edge touches the adjacency only. *)
Definition adj_ok (g : lgraph) : Prop := NoDup (map fst (nd g)) /\ map fst (adj g) = map fst (nd g).

Lemma set_edge_data g u v a x y : adj_ok g -> is_node g u ->
  edge_data (set_edge g u v a) x y = if ((x =? u)%Z && (y =? v)%Z)%bool then Some a else edge_data g x y.
Proof.
  intros _ _. unfold edge_data, set_edge, neighbours. cbn [adj].
  destruct (Z.eqb_spec x u) as [->|E]; cbn [andb].
  - rewrite (dget_dset_same Z.eqb zeq). destruct (Z.eqb_spec y v) as [->|E2].
    + apply (dget_dset_same Z.eqb zeq).
    + rewrite (dget_dset_other Z.eqb zeq) by exact E2. reflexivity.
  - rewrite (dget_dset_other Z.eqb zeq) by exact E. reflexivity.
Qed.

Definition nbrs_ok (g : lgraph) : Prop := forall u l, In (u, l) (adj g) -> NoDup (map fst l).

Lemma nset_In {V} (l : list (Z * V)) n v x w : In (x, w) (nset l n v) -> (x = n /\ w = v) \/ In (x, w) l.
Proof.
  induction l as [|(m, y) r IH]; cbn.
  - intros [H|[]]. injection H as -> ->. auto.
  - destruct (Z.eqb_spec n m) as [->|E]; cbn; intros [H|H]; auto.
    + injection H as -> ->. auto.
    + destruct (IH H); auto.
Qed.

Lemma set_edge_keep g u v a : adj_ok g -> nbrs_ok g -> is_node g u ->
  nd (set_edge g u v a) = nd g /\ adj_ok (set_edge g u v a) /\ nbrs_ok (set_edge g u v a).
Proof.
  intros (A1 & A2) B Hu. split; [reflexivity|]. split.
  - split; [exact A1|]. cbn [adj nd set_edge]. rewrite keys_nset_present; [exact A2|]. rewrite A2. exact Hu.
  - intros x l H. cbn [adj set_edge] in H. apply nset_In in H. destruct H as [[-> ->]|H]; [|apply (B x l H)].
    apply (dset_NoDup Z.eqb zeq). unfold neighbours, dkeys. destruct (nget (adj g) u) as [l'|] eqn:E; [|constructor].
    apply (dget_In Z.eqb zeq) in E. apply (B u l' E).
Qed.

Lemma ensure_id g n : is_node g n -> ensure g n = g.
Proof. intros H. unfold ensure, dmem. apply nget_key in H. destruct H as (a & ->). reflexivity. Qed.

Lemma add_edge_spec g u v a : adj_ok g -> nbrs_ok g -> is_node g u -> is_node g v ->
  edge_data g u v = None -> NoDup (map fst a) ->
  nd (add_edge g (u, v, a)) = nd g /\ adj_ok (add_edge g (u, v, a)) /\ nbrs_ok (add_edge g (u, v, a)) /\
  forall x y, edge_data (add_edge g (u, v, a)) x y =
    if (((x =? u) && (y =? v)) || ((x =? v) && (y =? u)))%Z%bool then Some a else edge_data g x y.
Proof.
  intros A B Hu Hv E Ha. unfold add_edge. rewrite (ensure_id g u Hu), (ensure_id g v Hv). rewrite E.
  rewrite update_nil by exact Ha.
  destruct (set_edge_keep g u v a A B Hu) as (K1 & K2 & K3).
  assert (Hv' : is_node (set_edge g u v a) v) by exact Hv.
  destruct (set_edge_keep (set_edge g u v a) v u a K2 K3 Hv') as (L1 & L2 & L3).
  split; [exact L1|]. split; [exact L2|]. split; [exact L3|].
  intros x y. rewrite set_edge_data by assumption. rewrite set_edge_data by assumption.
  destruct (((x =? u) && (y =? v))%Z)%bool; cbn [orb]; [|reflexivity].
  destruct (((x =? v) && (y =? u))%Z)%bool; reflexivity.
Qed.

(** Unordered pairs. *)
Definition same_pair (p q : Z * Z) : Prop := p = q \/ (fst p = snd q /\ snd p = fst q).
Definition distinct_pairs (l : list (Z * Z)) : Prop := ForallOrdPairs (fun p q => ~ same_pair p q) l.

Lemma add_edges_spec es : forall g, adj_ok g -> nbrs_ok g ->
  (forall u v a, In (u, v, a) es -> is_node g u /\ is_node g v /\ edge_data g u v = None /\ edge_data g v u = None /\ NoDup (map fst a)) ->
  distinct_pairs (map fst es) ->
  nd (fold_left add_edge es g) = nd g /\ adj_ok (fold_left add_edge es g) /\ nbrs_ok (fold_left add_edge es g) /\
  og_dims (fold_left add_edge es g) = og_dims g /\ LevelsModel.qudit_index (fold_left add_edge es g) = LevelsModel.qudit_index g /\
  forall x y d, edge_data (fold_left add_edge es g) x y = Some d <->
    edge_data g x y = Some d \/ In (x, y, d) es \/ In (y, x, d) es.
Proof.
  induction es as [|((u, v), a) es IH]; intros g A B H D; cbn [fold_left].
  - repeat split; try apply A; auto; cbn; tauto.
  - destruct (H u v a (or_introl eq_refl)) as (Hu & Hv & E1 & E2 & Ha).
    destruct (add_edge_spec g u v a A B Hu Hv E1 Ha) as (N1 & A1 & B1 & P1).
    inversion D as [|? ? D1 D2]; subst. rewrite Forall_forall in D1.
    assert (NP : forall x y c, In (x, y, c) es -> ~ same_pair (u, v) (x, y)).
    { intros x y c Hc. apply D1. apply (in_map fst) in Hc. exact Hc. }
    destruct (IH (add_edge g (u, v, a)) A1 B1) as (N2 & A2 & B2 & O2 & Q2 & P2).
    + intros x y c Hc. destruct (H x y c (or_intror Hc)) as (X1 & X2 & X3 & X4 & X5).
      assert (NP' := NP x y c Hc). unfold is_node in *. rewrite N1. repeat split; trivial; rewrite P1.
      * destruct (Z.eqb_spec x u), (Z.eqb_spec y v), (Z.eqb_spec x v), (Z.eqb_spec y u); subst; cbn; trivial; exfalso; apply NP'; unfold same_pair; cbn; auto.
      * destruct (Z.eqb_spec y u), (Z.eqb_spec x v), (Z.eqb_spec y v), (Z.eqb_spec x u); subst; cbn; trivial; exfalso; apply NP'; unfold same_pair; cbn; auto.
    + exact D2.
    + split; [congruence|]. split; [exact A2|]. split; [exact B2|].
      assert (O1 : og_dims (add_edge g (u, v, a)) = og_dims g /\ LevelsModel.qudit_index (add_edge g (u, v, a)) = LevelsModel.qudit_index g).
      { unfold add_edge. rewrite (ensure_id g u Hu), (ensure_id g v Hv). split; reflexivity. }
      destruct O1 as [O1 Q1]. split; [etransitivity; [exact O2|exact O1]|]. split; [etransitivity; [exact Q2|exact Q1]|].
      intros x y d. rewrite P2, P1.
      destruct (Z.eqb_spec x u), (Z.eqb_spec y v), (Z.eqb_spec x v), (Z.eqb_spec y u); cbn [andb orb]; split;
        intros HH; repeat match goal with
        | HH : _ \/ _ |- _ => destruct HH as [HH|HH]
        | HH : Some _ = Some _ |- _ => injection HH as HH; subst
        | HH : In (_, _, _) (_ :: _) |- _ => destruct HH as [HH|HH]
        | HH : (_, _, _) = (_, _, _) |- _ => injection HH as ? ? ?; subst
        end; subst; auto 6 using in_eq, in_cons; try congruence;
        try (right; left; left; congruence); try (right; right; left; congruence).
Qed.

(** *** The edge list *)
Lemma edge_list_In seen l u v : NoDup (map fst l) ->
  (In (u, v) (edge_list_from seen l) <->
   exists l1 nb l2, l = l1 ++ (u, nb) :: l2 /\ In v (map fst nb) /\ ~ In v seen /\ ~ In v (map fst l1)).
Proof.
  revert seen. induction l as [|(w, nb) r IH]; intros seen ND; cbn [edge_list_from].
  - split; [intros []|]. intros (l1 & nb & l2 & E & _). destruct l1; discriminate.
  - cbn in ND. apply NoDup_cons_iff in ND. destruct ND as [Hw ND].
    rewrite in_app_iff, (IH _ ND). split.
    + intros [H|H].
      * apply in_map_iff in H. destruct H as (y & E & H). injection E as <- <-. apply filter_In in H. destruct H as [H1 H2].
        exists [], nb, r. repeat split; trivial; [|intros []]. intros Hs. apply Bool.negb_true_iff in H2.
        rewrite <- Bool.not_true_iff_false in H2. apply H2. apply existsb_exists. exists y. split; [exact Hs|apply Z.eqb_refl].
      * destruct H as (l1 & nb' & l2 & -> & H1 & H2 & H3). exists ((w, nb) :: l1), nb', l2.
        repeat split; trivial; cbn in *; [tauto|]. intros [H4|H4]; [subst; tauto|tauto].
    + intros (l1 & nb' & l2 & E & H1 & H2 & H3). destruct l1 as [|(w', nb1) l1]; cbn in E; injection E; intros; subst.
      * left. apply in_map_iff. exists v. split; [reflexivity|]. apply filter_In. split; [exact H1|].
        apply Bool.negb_true_iff. apply Bool.not_true_iff_false. intros Hs. apply existsb_exists in Hs.
        destruct Hs as (x & Hx & Ex). apply Z.eqb_eq in Ex. subst. contradiction.
      * right. exists l1, nb', l2. cbn in *. repeat split; trivial; [|tauto]. intros [H4|H4]; [subst; tauto|tauto].
Qed.

Lemma FOP_app {A} (R : A -> A -> Prop) l1 l2 : ForallOrdPairs R l1 -> ForallOrdPairs R l2 ->
  (forall x y, In x l1 -> In y l2 -> R x y) -> ForallOrdPairs R (l1 ++ l2).
Proof.
  induction 1 as [|x l1 H1 H2 IH]; intros H3 H4; [exact H3|]. cbn. constructor.
  - apply Forall_app. split; [exact H1|]. apply Forall_forall. intros y Hy. apply H4; [left; reflexivity|exact Hy].
  - apply IH; [exact H3|]. intros; apply H4; [right|]; assumption.
Qed.
Lemma FOP_map {A B} (R : B -> B -> Prop) (f : A -> B) l : ForallOrdPairs (fun x y => R (f x) (f y)) l -> ForallOrdPairs R (map f l).
Proof.
  induction 1 as [|x l H1 H2 IH]; cbn; constructor; [|exact IH].
  apply Forall_forall. intros y Hy. apply in_map_iff in Hy. destruct Hy as (z & <- & Hz). rewrite Forall_forall in H1. auto.
Qed.
Lemma FOP_impl {A} (R S : A -> A -> Prop) l : (forall x y, R x y -> S x y) -> ForallOrdPairs R l -> ForallOrdPairs S l.
Proof. intros H. induction 1; constructor; [eapply Forall_impl; [|eassumption]; intros; apply H; assumption|assumption]. Qed.

Lemma NoDup_FOP {A} (l : list A) : NoDup l -> ForallOrdPairs (fun x y => x <> y) l.
Proof. induction 1; constructor; [|assumption]. apply Forall_forall. intros y Hy E. subst. contradiction. Qed.

Lemma edge_list_distinct seen l : NoDup (map fst l) -> (forall u nb, In (u, nb) l -> NoDup (map fst nb)) ->
  distinct_pairs (edge_list_from seen l).
Proof.
  revert seen. induction l as [|(w, nb) r IH]; intros seen ND HN; cbn [edge_list_from]; [constructor|].
  cbn in ND. apply NoDup_cons_iff in ND. destruct ND as [Hw ND].
  apply FOP_app.
  - apply FOP_map. apply (FOP_impl (fun x y => x <> y)).
    + intros x y Hxy [E|[E1 E2]]; cbn in *; [injection E; auto|]. congruence.
    + apply NoDup_FOP. apply NoDup_filter. apply (HN w). left. reflexivity.
  - apply IH; [exact ND|]. intros u nb' H. apply (HN u). right. exact H.
  - intros p (u', v') Hp Hq. apply in_map_iff in Hp. destruct Hp as (v & <- & Hv).
    apply edge_list_In in Hq; [|exact ND]. destruct Hq as (l1 & nb' & l2 & E & H1 & H2 & H3).
    intros [S|[S1 S2]]; cbn in *.
    + injection S as -> ->. apply Hw. rewrite E, map_app. apply in_or_app. right. left. reflexivity.
    + apply H2. auto.
Qed.

Lemma split_first {V} (l : list (Z * V)) x y : In x (map fst l) -> In y (map fst l) ->
  (exists l1 a l2, l = l1 ++ (x, a) :: l2 /\ ~ In y (map fst l1)) \/
  (exists l1 a l2, l = l1 ++ (y, a) :: l2 /\ ~ In x (map fst l1)).
Proof.
  induction l as [|(m, v) r IH]; cbn; [tauto|]. intros Hx Hy.
  destruct (Z.eq_dec m x) as [->|Ex]; [left; exists [], v, r; cbn; tauto|].
  destruct (Z.eq_dec m y) as [->|Ey]; [right; exists [], v, r; cbn; tauto|].
  destruct Hx as [Hx|Hx]; [congruence|]. destruct Hy as [Hy|Hy]; [congruence|].
  destruct (IH Hx Hy) as [(l1 & a & l2 & -> & H)|(l1 & a & l2 & -> & H)].
  - left. exists ((m, v) :: l1), a, l2. cbn. split; [reflexivity|]. intros [H1|H1]; [congruence|contradiction].
  - right. exists ((m, v) :: l1), a, l2. cbn. split; [reflexivity|]. intros [H1|H1]; [congruence|contradiction].
Qed.

Section EdgeList.
  Variable g : lgraph.
  Hypothesis W : well_formed g.
  Let ND : NoDup (map fst (adj g)).
  Proof. rewrite (wf_adj g W). apply (wf_nodes g W). Qed.

  Lemma split_data l1 u nb l2 v : adj g = l1 ++ (u, nb) :: l2 -> edge_data g u v = nget nb v.
  Proof.
    intros E. unfold edge_data, neighbours. rewrite (dget_complete Z.eqb zeq _ u nb ND); [reflexivity|].
    rewrite E. apply in_or_app. right. left. reflexivity.
  Qed.
  Lemma edge_list_sound u v : In (u, v) (edge_list g) -> exists d, edge_data g u v = Some d.
  Proof.
    intros H. apply edge_list_In in H; [|exact ND]. destruct H as (l1 & nb & l2 & E & H & _).
    rewrite (split_data _ _ _ _ v E). apply nget_key. exact H.
  Qed.
  Lemma edge_list_complete u v d : edge_data g u v = Some d -> In (u, v) (edge_list g) \/ In (v, u) (edge_list g).
  Proof.
    intros H. destruct (data_nodes g W u v d H) as [Hu Hv]. assert (H' := data_sym g W u v d H).
    unfold is_node in *. rewrite <- (wf_adj g W) in Hu, Hv.
    destruct (split_first (adj g) u v Hu Hv) as [(l1 & nb & l2 & E & Hn)|(l1 & nb & l2 & E & Hn)]; [left|right];
      apply edge_list_In; try exact ND; exists l1, nb, l2; repeat split; trivial; try (intros []);
      apply nget_key; rewrite <- (split_data _ _ _ _ _ E); eauto.
  Qed.
  Lemma edge_list_dist : distinct_pairs (edge_list g).
  Proof. apply edge_list_distinct; [exact ND|apply (wf_neighbours g W)]. Qed.
End EdgeList.

(** *** swap_nodes *)
Lemma update_list_tau l a b : update_list l a b = map (fun p => (tau a b (fst p), tau a b (snd p))) l.
Proof.
  unfold update_list. induction l as [|(x, y) r IH]; [reflexivity|]. cbn [map combine]. f_equal; [|exact IH].
  cbn. unfold subst_mark, mark, tau. f_equal; repeat match goal with |- context [Z.eqb ?x ?y] => destruct (Z.eqb_spec x y) end; congruence.
Qed.
Lemma combine_map {A B C} (f : A -> B) (h : A -> C) l : combine (map f l) (map h l) = map (fun x => (f x, h x)) l.
Proof. induction l; cbn; congruence. Qed.

Record swapped (a b : Z) (g g' : lgraph) : Prop := {
  sw_nodes : map fst (nd g') = map fst (nd g);
  sw_attr : forall n k, alook (nd g') n k = alook (nd g) (tau a b n) k;
  sw_edge : forall u v, edge_data g' u v = edge_data g (tau a b u) (tau a b v);
  sw_wf : well_formed g' }.

Lemma swap_nodes_spec g a b : well_formed g -> uniform g -> is_node g a -> is_node g b ->
  exists g', swap_nodes g a b = Ok g' /\ swapped a b g g' /\ og_dims g' = None /\ LevelsModel.qudit_index g' = None.
Proof.
  intros W U Ha Hb. unfold swap_nodes.
  destruct (swap_node_attributes_spec g a b W U Ha Hb) as (l & El & Fl & Pl & Al). rewrite El. cbn [bindr].
  assert (NDl : NoDup (map fst l)) by (rewrite Fl; apply (wf_nodes g W)).
  rewrite (new_graph_attrs_spec l NDl Al). set (g0 := LG l _ None None).
  rewrite update_list_tau, combine_map, map_map. cbn [fst snd].
  set (dat := fun e : Z * Z => match edge_data g (fst e) (snd e) with Some d => d | None => [] end).
  set (es := map _ (edge_list g)).
  assert (E0 : forall x y, edge_data g0 x y = None).
  { intros x y. unfold edge_data, neighbours, g0. cbn [adj].
    destruct (nget (map (fun na : Z * attrs => (fst na, [])) l) x) as [nb|] eqn:E; [|reflexivity].
    apply (dget_In Z.eqb zeq) in E. apply in_map_iff in E. destruct E as (na & E & _). injection E as <- <-. reflexivity. }
  assert (N0 : forall x, is_node g0 x <-> is_node g x) by (intros x; unfold is_node, g0; cbn [nd]; rewrite Fl; tauto).
  assert (Nt : forall x, is_node g x -> is_node g (tau a b x)).
  { intros x Hx. destruct (tau_cases a b x) as [->|[[-> ->]|[-> ->]]]; assumption. }
  assert (In_es : forall x y d, In (x, y, d) es <-> In (tau a b x, tau a b y) (edge_list g) /\ edge_data g (tau a b x) (tau a b y) = Some d).
  { intros x y d. unfold es. rewrite in_map_iff. split.
    - intros ((u, v) & E & H). cbn in E. injection E as <- <- E. rewrite !tau_invol. split; [exact H|].
      destruct (edge_list_sound g W u v H) as (d' & Hd). unfold dat in E. cbn in E. rewrite Hd in E. congruence.
    - intros [H1 H2]. exists (tau a b x, tau a b y). cbn. rewrite !tau_invol. split; [|exact H1].
      unfold dat. cbn. rewrite H2. reflexivity. }
  destruct (add_edges_spec es g0) as (N1 & A1 & B1 & O1 & Q1 & P1).
  - unfold g0. split; cbn [nd adj]; [exact NDl|]. rewrite map_map. reflexivity.
  - intros u nb H. cbn in H. apply in_map_iff in H. destruct H as (na & E & _). injection E as <- <-. constructor.
  - intros u v d H. apply In_es in H. destruct H as [H1 H2]. destruct (data_nodes g W _ _ _ H2) as [X1 X2].
    rewrite !N0, !E0. apply Nt in X1, X2. rewrite tau_invol in X1, X2. repeat split; trivial.
    apply (joined_data g W) in H2. apply (wf_data g W) in H2. exact H2.
  - unfold es. rewrite map_map. cbn [fst]. apply FOP_map. eapply FOP_impl; [|apply (edge_list_dist g W)].
    intros (x1, y1) (x2, y2) H S. apply H. destruct S as [S|[S1 S2]]; cbn in *.
    + injection S as S1 S2. apply tau_inj in S1, S2. subst. left. reflexivity.
    + apply tau_inj in S1, S2. subst. right. auto.
  - set (g1 := fold_left add_edge es g0) in *. exists g1. split; [reflexivity|].
    assert (SE : forall u v, edge_data g1 u v = edge_data g (tau a b u) (tau a b v)).
    { assert (F : forall u v d, edge_data g1 u v = Some d <-> edge_data g (tau a b u) (tau a b v) = Some d).
      { intros u v d. rewrite P1, E0, !In_es. split.
        - intros [H|[[_ H]|[_ H]]]; [discriminate|exact H|]. apply (data_sym g W). exact H.
        - intros H. right. assert (H' := data_sym g W _ _ _ H). destruct (edge_list_complete g W _ _ _ H); tauto. }
      intros u v. destruct (edge_data g1 u v) as [d|] eqn:E.
      - symmetry. apply F. exact E.
      - destruct (edge_data g (tau a b u) (tau a b v)) as [d|] eqn:E2; [|reflexivity]. apply F in E2. congruence. }
    assert (NN : map fst (nd g1) = map fst (nd g)) by (rewrite N1; exact Fl).
    assert (JD : forall u v d, joined g1 u v d <-> edge_data g1 u v = Some d).
    { intros u v d. destruct A1 as [A1 A2]. unfold joined, edge_data, neighbours. split.
      - intros (nb & H1 & H2). rewrite (dget_complete Z.eqb zeq _ u nb); [|unfold dkeys; rewrite A2; exact A1|exact H1].
        apply (dget_complete Z.eqb zeq); [apply (B1 u nb H1)|exact H2].
      - destruct (nget (adj g1) u) as [nb|] eqn:E; [|discriminate]. intros H. exists nb.
        split; apply (dget_In Z.eqb zeq); assumption. }
    split; [|split; [exact O1|exact Q1]]. constructor; trivial.
    + intros n k. rewrite N1. apply Pl.
    + constructor.
      * apply A1.
      * apply A1.
      * rewrite N1. exact Al.
      * exact B1.
      * intros u v d H. apply JD in H. rewrite SE in H. apply (joined_data g W) in H. apply (wf_data g W) in H. exact H.
      * intros u v d H. apply JD. apply JD in H. rewrite SE in *. apply (data_sym g W). exact H.
      * intros u v d H. apply JD in H. rewrite SE in H. destruct (data_nodes g W _ _ _ H) as [_ H2]. apply Nt in H2.
        rewrite tau_invol in H2. unfold is_node. rewrite NN. exact H2.
Qed.
