(** The memory of the decision diagram simulator stands for the diagrams without memory. *)
From Coq Require Import String Arith Lia Reals Lra Bool FunctionalExtensionality List.
From Verif Require Import Base.Cplx Base.Matrix Base.Radix Sim.TnModel Misim.MisimModel Misim.DdModel Misim.DdSpec Misim.DdProofs Misim.DdGateProofs Misim.NodeModel Misim.NodeSpec Misim.NodeShapeProofs.
Import ListNotations.
Local Open Scope nat_scope.

(** ** equality of trees *)
Lemma node_induction (P : node -> Prop) : P Term -> (forall v es, Forall (fun e => P (snd e)) es -> P (Node v es)) -> forall n, P n.
Proof.
  intros A B. fix IH 1. intros [|v es]; [exact A|]. apply B. induction es as [|[w n] es IHes]; constructor; [apply IH|exact IHes].
Qed.
Lemma node_eqb_spec : forall x y, node_eqb x y = true <-> x = y.
Proof.
  induction x as [|v es IH] using node_induction; intros [|u fs]; try (split; [discriminate|discriminate]); [split; reflexivity|]. cbn [node_eqb].
  set (go := fix go (es fs : list edge) : bool := match es, fs with [], [] => true | e :: es', f :: fs' => is_eq (fst e) (fst f) && node_eqb (snd e) (snd f) && go es' fs' | _, _ => false end).
  assert (G : forall gs, go es gs = true <-> es = gs).
  { induction IH as [|e r He Hr IHr]; intros [|g gs]; try (split; [discriminate|discriminate]); [split; reflexivity|].
    change (go (e :: r) (g :: gs)) with (is_eq (fst e) (fst g) && node_eqb (snd e) (snd g) && go r gs). rewrite !andb_true_iff, is_eq_spec, He, IHr.
    destruct e as [a b], g as [a' b']. cbn. split; [intros [[-> ->] ->]; reflexivity|intros Q; injection Q as -> -> ->; auto]. }
  rewrite andb_true_iff, Nat.eqb_eq, G. split; [intros [-> ->]; reflexivity|intros Q; injection Q as -> ->; auto].
Qed.
Lemma node_eqb_false x y : node_eqb x y = false <-> x <> y.
Proof. rewrite <- node_eqb_spec. destruct (node_eqb x y); split; congruence. Qed.

(** ** normalisation does not look at the nodes *)
Section Rel.
Variables (N N' : Type) (t : N) (t' : N') (P : N -> N' -> Prop).
Hypothesis Pt : P t t'.
Definition rele (e : C * N) (f : C * N') : Prop := fst e = fst f /\ P (snd e) (snd f).
Notation rell := (Forall2 rele).
Lemma rele_zero : rele (C0, t) (C0, t'). Proof. split; [reflexivity|exact Pt]. Qed.
Lemma rell_at es fs i : rell es fs -> rele (g_at N t es i) (g_at N' t' fs i).
Proof. intros H. revert i. induction H as [|e f es fs He H IH]; intros [|i]; try apply rele_zero; [exact He|apply IH]. Qed.
Lemma rell_length es fs : rell es fs -> length es = length fs. Proof. intros H. induction H; cbn; congruence. Qed.
Lemma rell_tab n f g : (forall i, i < n -> rele (f i) (g i)) -> rell (tab n f) (tab n g).
Proof.
  intros H. unfold tab. assert (K : forall l, (forall i, In i l -> i < n) -> rell (map f l) (map g l)).
  { induction l as [|a l IH]; intros L; constructor; [apply H, L; left; reflexivity|apply IH; intros; apply L; right; assumption]. }
  apply K. intros i Hi. apply in_seq in Hi. lia.
Qed.
Lemma rell_clear tol c es fs : rell es fs -> rell (g_clear N t tol c es) (g_clear N' t' tol c fs).
Proof.
  intros H. unfold g_clear. destruct c; [|exact H]. induction H as [|e f es fs He H IH]; constructor; [|exact IH].
  destruct He as [E F]. rewrite E. destruct (near_zero tol (fst f)); [apply rele_zero|split; assumption].
Qed.
Lemma rell_mag2 es fs : rell es fs -> g_mag2 N t es = g_mag2 N' t' fs.
Proof. intros H. apply functional_extensionality. intros i. unfold g_mag2. rewrite (proj1 (rell_at es fs i H)). reflexivity. Qed.
Lemma rell_vpivot tol es fs : rell es fs -> g_vpivot N t tol es = g_vpivot N' t' tol fs.
Proof. intros H. unfold g_vpivot. rewrite (rell_mag2 es fs H), (rell_length es fs H). reflexivity. Qed.
Lemma rell_sum es fs : rell es fs -> forall n, g_sum_mag2 N t n es = g_sum_mag2 N' t' n fs.
Proof. intros H. induction n as [|n IH]; [reflexivity|]. cbn [g_sum_mag2]. rewrite IH, (rell_mag2 es fs H). reflexivity. Qed.
Lemma rell_weights es fs : rell es fs -> (fun i => fst (g_at N t es i)) = (fun i => fst (g_at N' t' fs i)).
Proof. intros H. apply functional_extensionality. intros i. apply (rell_at es fs i H). Qed.
Definition relo (x : option (C * list (C * N))) (y : option (C * list (C * N'))) : Prop :=
  match x, y with None, None => True | Some (w, es), Some (u, fs) => w = u /\ rell es fs | _, _ => False end.
Lemma rell_vnormalise tol c es fs : rell es fs -> relo (g_vnormalise N t tol c es) (g_vnormalise N' t' tol c fs).
Proof.
  intros H. unfold g_vnormalise. pose proof (rell_clear tol c es fs H) as K. set (cs := g_clear N t tol c es) in *. set (cf := g_clear N' t' tol c fs) in *.
  rewrite <- (rell_length es fs H), <- (rell_length cs cf K), <- (rell_vpivot tol cs cf K), <- (rell_sum cs cf K), <- (rell_mag2 cs cf K).
  assert (F : (fun i => negb (near_zero tol (fst (g_at N t es i)))) = (fun i => negb (near_zero tol (fst (g_at N' t' fs i))))).
  { apply functional_extensionality. intros i. rewrite (proj1 (rell_at es fs i H)). reflexivity. }
  rewrite <- F. destruct (filter _ _) as [|k [|k' rest]]; [exact I| |].
  - split; [apply (rell_at cs cf k K)|]. apply rell_tab. intros i _. destruct (Nat.eqb i k); [split; [reflexivity|apply (rell_at cs cf i K)]|apply rell_at; exact K].
  - set (p := g_vpivot N t tol cs). rewrite <- (proj1 (rell_at cs cf p K)). cbv zeta.
    destruct (negb (c && negb (is_one (fst (g_at N t cs p)))) && _); [exact I|]. split; [reflexivity|]. apply rell_tab. intros i _.
    rewrite <- (proj1 (rell_at cs cf i K)). match goal with |- context [is_zero ?z] => destruct (is_zero z) end; [apply rele_zero|]. split; [reflexivity|apply (rell_at cs cf i K)].
Qed.
Lemma rell_mpivot tol es fs : rell es fs -> g_mpivot N t tol es = g_mpivot N' t' tol fs.
Proof.
  intros H. unfold g_mpivot. rewrite (rell_mag2 es fs H), (rell_length es fs H). f_equal. apply functional_extensionality. intros a. apply functional_extensionality. intros i.
  rewrite (proj1 (rell_at es fs i H)). reflexivity.
Qed.
Lemma rell_mnormalise tol c es fs : rell es fs -> relo (g_mnormalise N t tol c es) (g_mnormalise N' t' tol c fs).
Proof.
  intros H. unfold g_mnormalise. pose proof (rell_clear tol c es fs H) as K. set (cs := g_clear N t tol c es) in *. set (cf := g_clear N' t' tol c fs) in *.
  rewrite <- (rell_mpivot tol cs cf K), <- (rell_length cs cf K). destruct (g_mpivot N t tol cs) as [k|]; [|exact I]. cbv zeta. split; [apply (rell_at cs cf k K)|].
  apply rell_tab. intros i _. rewrite <- (proj1 (rell_at cs cf i K)), <- (proj1 (rell_at cs cf k K)). destruct (Nat.eqb i k); (split; [reflexivity|apply (rell_at cs cf i K)]).
Qed.
End Rel.

Lemma g_vnormalise_eq c es : g_vnormalise node Term 0 c es = vnormalise 0 c es. Proof. reflexivity. Qed.
Lemma g_mnormalise_eq c es : g_mnormalise node Term 0 c es = mnormalise 0 c es. Proof. reflexivity. Qed.

(** ** what a pointer stands for *)
Lemma dene_rele h e f : dene h e f <-> rele ref node (den h) e f. Proof. reflexivity. Qed.
Lemma den_fun h : forall t t' r, den h r t -> den h r t' -> t = t'.
Proof.
  induction t as [|v es IH] using node_induction; intros t' r A B.
  - inversion A; subst. inversion B; subst. reflexivity.
  - inversion A as [|a fs T F]; subst. inversion B as [|a' fs' T' F']; subst. f_equal.
    clear A B T T'. revert fs' F'. induction F as [|c e cs es [E D] F IHF]; intros fs' F'; inversion F' as [|c' e' cs' es' [E' D'] F'']; subst; [reflexivity|].
    inversion IH as [|e0 r0 H1 H2]; subst. f_equal; [|apply IHF; assumption]. destruct e as [w n], e' as [w' n']. cbn in *. f_equal; [congruence|]. eapply H1; eassumption.
Qed.
Definition hext (h h' : heap) : Prop := forall a, in_table h a -> in_table h' a /\ cell h' a = cell h a.
Lemma hext_refl h : hext h h. Proof. intros a T. auto. Qed.
Lemma hext_trans h h' h'' : hext h h' -> hext h' h'' -> hext h h''.
Proof. intros A B a T. destruct (A a T) as [T' E]. destruct (B a T') as [T'' E']. split; [exact T''|congruence]. Qed.
Lemma den_ext h h' : hext h h' -> forall t r, den h r t -> den h' r t.
Proof.
  intros X. induction t as [|v es IH] using node_induction; intros r A.
  - inversion A; subst. constructor.
  - inversion A as [|a fs T F]; subst. destruct (X a T) as [T' E]. rewrite <- E. constructor; [exact T'|]. rewrite E.
    clear A T T' E. revert IH F. generalize (snd (cell h a)). induction es as [|e es IHes]; intros l IH F; inversion F as [|c e' cs es' [E1 D1] F1]; subst; constructor.
    + inversion IH; subst. split; [exact E1|auto].
    + inversion IH; subst. apply IHes; assumption.
Qed.
Lemma dene_ext h h' e f : hext h h' -> dene h e f -> dene h' e f.
Proof. intros X [A B]. split; [exact A|]. eapply den_ext; eassumption. Qed.
Lemma denes_ext h h' es fs : hext h h' -> Forall2 (dene h) es fs -> Forall2 (dene h') es fs.
Proof. intros X H. induction H; constructor; [eapply dene_ext; eassumption|assumption]. Qed.
Lemma denes_at h es fs i : Forall2 (dene h) es fs -> dene h (at_a es i) (edge_at fs i).
Proof. intros H. apply (rell_at ref node None Term (den h) (den_term h)). exact H. Qed.
Lemma dene_zero h : dene h zero_a zero_edge. Proof. split; [reflexivity|constructor]. Qed.
Lemma den_edges h a v fs : den h (Some a) (Node v fs) -> Forall2 (dene h) (snd (cell h a)) fs.
Proof. intros H. inversion H; subst. assumption. Qed.
Lemma den_reg h a v fs : den h (Some a) (Node v fs) -> fst (cell h a) = v. Proof. intros H. inversion H; subst. reflexivity. Qed.
Lemma den_in h a t : den h (Some a) t -> in_table h a. Proof. intros H. inversion H; subst. assumption. Qed.

Definition unique (h : heap) : Prop := forall a b, in_table h a -> in_table h b -> cell h a = cell h b -> a = b.
Lemma den_inj h : unique h -> forall t r r', den h r t -> den h r' t -> r = r'.
Proof.
  intros U. induction t as [|v es IH] using node_induction; intros r r' A B.
  - inversion A; subst. inversion B; subst. reflexivity.
  - inversion A as [|a fs T F Ea]; subst. inversion B as [|b fs' T' F' Eb]; subst. f_equal. apply U; [exact T|exact T'|].
    assert (E : snd (cell h a) = snd (cell h b)).
    { clear - IH F F'. revert F'. generalize (snd (cell h b)). induction F as [|c e cs es [E D] F IHF]; intros l F'; inversion F' as [|c' e' cs' es' [E' D'] F'']; subst; [reflexivity|].
      inversion IH as [|e0 r0 H1 H2]; subst. f_equal; [|apply IHF; assumption]. destruct c as [w n], c' as [w' n']. cbn in *. f_equal; [congruence|]. eapply H1; eassumption. }
    destruct (cell h a), (cell h b). cbn in *. congruence.
Qed.

Lemma forallb_ext_in {A} (f g : A -> bool) : forall l, (forall a, In a l -> f a = g a) -> forallb f l = forallb g l.
Proof. induction l as [|a l IH]; intros H; [reflexivity|]. cbn. rewrite (H a (or_introl eq_refl)), IH; [reflexivity|]. intros b Hb. apply H. right. exact Hb. Qed.

Section Machine.
Variable dims : list nat.
Hypothesis pos : forall d, In d dims -> 0 < d.
Variable uhash : bool -> list aedge -> nat.
Variable ahash : bool -> aedge -> aedge -> nat.
Variable mhash : bool -> ref -> ref -> nat.
Variable chash : aedge -> nat.
Notation sizes := (sizes_below dims).
Notation same := node_eqb.

(** ** the invariant *)
Definition mirror (ds : list nat) (n : node) : Prop := forall p q, valid ds p -> valid ds q -> val n (entry true ds p q) = val n (entry true ds q p).
Record node_good (m : bool) (h : heap) (a : nat) (n : node) : Prop := NG {
  ng_den : den h (Some a) n;
  ng_reg : fst (cell h a) < length dims;
  ng_ok : exists t, okn m t (sizes (S (fst (cell h a)))) n;
  ng_id : m = true -> idn h a = is_ident (sizes (S (fst (cell h a)))) n;
  ng_sym : m = true -> forall t, S (fst (cell h a)) <= t -> okn true t (sizes (S (fst (cell h a)))) n -> sym h a = true;
  ng_mir : m = true -> sym h a = true -> mirror (sizes (S (fst (cell h a)))) n }.
Record hgood (m : bool) (h : heap) : Prop := HG {
  hg_place : forall a v k, In a (bucket h v k) -> v = fst (cell h a) /\ k = uhash m (snd (cell h a));
  hg_fresh : forall a, in_table h a -> a < fresh h;
  hg_avail : forall a, In a (avail h) -> a < fresh h /\ ~ in_table h a;
  hg_nodup : NoDup (avail h);
  hg_unique : unique h;
  hg_node : forall a, in_table h a -> exists n, node_good m h a n }.
Definition add_good (s : store) (m : bool) (x y r : aedge) : Prop := exists fx fy k es,
  dene (heaps s m) x fx /\ dene (heaps s m) y fy /\ snd fx = Node k es /\ dene (heaps s m) r (add2 0 same m (S k) fx fy).
Definition mul_good (s : store) (m : bool) (x y : ref) (e : aedge) : Prop := exists fx fy k es,
  den (heaps s true) x fx /\ den (heaps s m) y fy /\ fx = Node k es /\ dene (heaps s m) e (multiply2 0 same m (sizes (S k)) (C1, fx) (C1, fy)).
Definition adj_good (s : store) (x r : aedge) : Prop := exists fx k es,
  dene (heaps s true) x fx /\ snd fx = Node k es /\ dene (heaps s true) r (conj_transpose 0 (sizes (S k)) fx).
Record sgood (s : store) : Prop := SG {
  sg_heap : forall m, hgood m (heaps s m);
  sg_add : forall m k x y r, add_table s m k = Some (x, y, r) -> add_good s m x y r;
  sg_mul : forall m k x y e, mul_table s m k = Some (x, y, e) -> mul_good s m x y e;
  sg_adj : forall k x r, adj_table s k = Some (x, r) -> adj_good s x r;
  sg_id : forall v e, id_table s v = Some e -> v < length dims -> dene (heaps s true) e (make_ident 0 (sizes (S v))) }.
Definition sext (s s' : store) : Prop := forall m, hext (heaps s m) (heaps s' m).
Lemma sext_refl s : sext s s. Proof. intros m. apply hext_refl. Qed.
Lemma sext_trans s s' s'' : sext s s' -> sext s' s'' -> sext s s''. Proof. intros A B m. eapply hext_trans; [apply A|apply B]. Qed.

(** ** tables *)
Lemma edge_eqb_spec e f : edge_eqb 0 e f = true <-> e = f.
Proof.
  unfold edge_eqb. rewrite andb_true_iff, near_spec. destruct e as [w [a|]], f as [u [b|]]; cbn; (split; [intros [A B]|intros Q; injection Q]); subst; auto; try discriminate.
  - apply Nat.eqb_eq in A. congruence.
  - intros -> ->. split; [apply Nat.eqb_refl|reflexivity].
Qed.
Lemma ref_eqb_spec r q : ref_eqb r q = true <-> r = q.
Proof. destruct r as [a|], q as [b|]; cbn; try (split; [discriminate|discriminate]); [rewrite Nat.eqb_eq; split; congruence|split; reflexivity]. Qed.
Lemma edges_eqb_spec : forall es fs, edges_eqb 0 es fs = true <-> es = fs.
Proof.
  induction es as [|e es IH]; intros [|f fs]; cbn; try (split; [discriminate|discriminate]); [split; reflexivity|]. rewrite andb_true_iff, edge_eqb_spec, IH. split; [intros [-> ->]; reflexivity|intros Q; injection Q; auto].
Qed.

Lemma good_grow s m h : sgood s -> hgood m h -> hext (heaps s m) h -> sgood (with_heap s m h) /\ sext s (with_heap s m h).
Proof.
  intros G Hh X.
  assert (SX : sext s (with_heap s m h)).
  { intros b. cbn. destruct (Bool.eqb b m) eqn:E; [apply eqb_prop in E; subst; exact X|apply hext_refl]. }
  split; [|exact SX]. split.
  - intros b. cbn. destruct (Bool.eqb b m) eqn:E; [apply eqb_prop in E; subst; exact Hh|apply (sg_heap s G)].
  - intros b k x y r E. destruct (sg_add s G b k x y r E) as (fx & fy & j & es & A & B & D & F). exists fx, fy, j, es.
    split; [eapply dene_ext; [apply SX|exact A]|]. split; [eapply dene_ext; [apply SX|exact B]|]. split; [exact D|eapply dene_ext; [apply SX|exact F]].
  - intros b k x y r E. destruct (sg_mul s G b k x y r E) as (fx & fy & j & es & A & B & D & F). exists fx, fy, j, es.
    split; [eapply den_ext; [apply SX|exact A]|]. split; [eapply den_ext; [apply SX|exact B]|]. split; [exact D|eapply dene_ext; [apply SX|exact F]].
  - intros k x r E. destruct (sg_adj s G k x r E) as (fx & j & es & A & D & F). exists fx, j, es.
    split; [eapply dene_ext; [apply SX|exact A]|]. split; [exact D|eapply dene_ext; [apply SX|exact F]].
  - intros v e E Hv. eapply dene_ext; [apply (SX true)|]. apply (sg_id s G v e E Hv).
Qed.

(** ** the judgement: the computation ends, keeps the invariant, and its edge stands for [f] *)
Definition refines (s : store) (m : bool) (c : M aedge) (f : edge) : Prop := exists e s', c s = Done (e, s') /\ sgood s' /\ sext s s' /\ dene (heaps s' m) e f.
Definition refines_list (s : store) (m : bool) (c : M (list aedge)) (fs : list edge) : Prop :=
  exists es s', c s = Done (es, s') /\ sgood s' /\ sext s s' /\ Forall2 (dene (heaps s' m)) es fs.
Lemma refines_ret s m e f : sgood s -> dene (heaps s m) e f -> refines s m (ret e) f.
Proof. intros G D. exists e, s. split; [reflexivity|]. split; [exact G|]. split; [apply sext_refl|exact D]. Qed.
Lemma refines_bind s m m' c f k g : refines s m c f -> (forall e s', sgood s' -> sext s s' -> dene (heaps s' m) e f -> refines s' m' (k e) g) -> refines s m' (bind c k) g.
Proof.
  intros (e & s' & E & G & X & D) H. destruct (H e s' G X D) as (e2 & s2 & E2 & G2 & X2 & D2). exists e2, s2. unfold bind. rewrite E. split; [exact E2|]. split; [exact G2|]. split; [eapply sext_trans; eassumption|exact D2].
Qed.
Lemma refines_bind_list s m m' c fs k g : refines_list s m c fs -> (forall es s', sgood s' -> sext s s' -> Forall2 (dene (heaps s' m)) es fs -> refines s' m' (k es) g) -> refines s m' (bind c k) g.
Proof.
  intros (e & s' & E & G & X & D) H. destruct (H e s' G X D) as (e2 & s2 & E2 & G2 & X2 & D2). exists e2, s2. unfold bind. rewrite E. split; [exact E2|]. split; [exact G2|]. split; [eapply sext_trans; eassumption|exact D2].
Qed.
Lemma each_refines {A} m (f : A -> M aedge) (g : A -> edge) : forall l s, sgood s ->
  (forall i s', In i l -> sgood s' -> sext s s' -> refines s' m (f i) (g i)) -> refines_list s m (each f l) (map g l).
Proof.
  induction l as [|a l IH]; intros s G H.
  - exists [], s. split; [reflexivity|]. split; [exact G|]. split; [apply sext_refl|constructor].
  - destruct (H a s (or_introl eq_refl) G (sext_refl s)) as (e & s1 & E1 & G1 & X1 & D1).
    destruct (IH s1 G1) as (es & s2 & E2 & G2 & X2 & D2).
    { intros i s' Hi G' X'. apply H; [right; exact Hi|exact G'|eapply sext_trans; eassumption]. }
    exists (e :: es), s2. cbn [each]. unfold bind. rewrite E1, E2. split; [reflexivity|]. split; [exact G2|]. split; [eapply sext_trans; eassumption|].
    constructor; [eapply dene_ext; [apply X2|exact D1]|exact D2].
Qed.
Lemma tab_refines m n (f : nat -> M aedge) (g : nat -> edge) s : sgood s ->
  (forall i s', i < n -> sgood s' -> sext s s' -> refines s' m (f i) (g i)) -> refines_list s m (tab_m n f) (tab n g).
Proof. intros G H. apply each_refines; [exact G|]. intros i s' Hi. apply in_seq in Hi. apply H. lia. Qed.

(** ** making a node *)
Lemma get_node_ok m h a h1 : hgood m h -> get_node h = (a, h1) -> ~ in_table h a /\ a < fresh h1 /\ cell h1 = cell h /\ sym h1 = sym h /\ idn h1 = idn h /\ bucket h1 = bucket h /\ fresh h <= fresh h1 /\
  (forall b, In b (avail h1) -> b < fresh h1 /\ ~ in_table h b) /\ ~ In a (avail h1) /\ NoDup (avail h1).
Proof.
  intros G E. unfold get_node in E. pose proof (hg_nodup m h G) as ND. destruct (avail h) as [|b r] eqn:A.
  - injection E as <- <-. cbn. split; [intros T; apply (hg_fresh m h G) in T; lia|]. repeat split; try lia; try (intros; contradiction); auto.
  - injection E as <- <-. cbn. destruct (hg_avail m h G b) as [L T]; [rewrite A; left; reflexivity|]. inversion ND; subst. split; [exact T|]. repeat split; try lia; try assumption; (destruct (hg_avail m h G b0) as [L' T']; [rewrite A; right; assumption|assumption]).
Qed.

(** a heap with the same table and the same nodes in it *)
Lemma hgood_frame m h h' : hgood m h -> bucket h' = bucket h -> (forall a, in_table h a -> cell h' a = cell h a /\ sym h' a = sym h a /\ idn h' a = idn h a) ->
  fresh h <= fresh h' -> (forall b, In b (avail h') -> b < fresh h' /\ ~ in_table h b) -> NoDup (avail h') -> hgood m h' /\ hext h h'.
Proof.
  intros G Bk K F A ND.
  assert (T : forall a, in_table h' a <-> in_table h a) by (intros a; unfold in_table; rewrite Bk; reflexivity).
  assert (X : hext h h') by (intros a Ta; split; [apply T; exact Ta|apply K; exact Ta]).
  split; [|exact X]. split.
  - intros a v k I. rewrite Bk in I. assert (Ta : in_table h a) by (exists v, k; exact I). destruct (K a Ta) as (-> & _). apply (hg_place m h G). exact I.
  - intros a Ta. apply T in Ta. pose proof (hg_fresh m h G a Ta). lia.
  - intros a Ia. destruct (A a Ia) as [L Nt]. split; [exact L|]. rewrite T. exact Nt.
  - exact ND.
  - intros a b Ta Tb E. apply T in Ta, Tb. rewrite (proj1 (K a Ta)), (proj1 (K b Tb)) in E. apply (hg_unique m h G); assumption.
  - intros a Ta. apply T in Ta. destruct (hg_node m h G a Ta) as [n Gn]. exists n. destruct (K a Ta) as (Kc & Ks & Ki). destruct Gn as [g1 g2 g3 g4 g5 g6].
    split; rewrite ?Kc, ?Ks, ?Ki; try assumption. eapply den_ext; eassumption.
Qed.

Lemma diag_symmetric m h r n v t : m = true -> hgood m h -> den h r n -> okn true t (sizes v) n -> v <= length dims -> v <= t -> symmetric h r = true.
Proof.
  intros -> G D O L T. destruct r as [a|]; [|reflexivity]. cbn [symmetric]. pose proof (den_in _ _ _ D) as Ta. destruct (hg_node true h G a Ta) as [n' [g1 g2 g3 g4 g5 g6]].
  assert (n' = n) by (eapply den_fun; eassumption). subst n'.
  assert (E : S (fst (cell h a)) = v).
  { inversion D as [|a' fs T' F]; subst. destruct v as [|v]; [cbn in O; destruct O|]. rewrite sizes_S in O by lia. apply okn_cons in O. destruct O as [O _]. rewrite sizes_length in O by lia. congruence. }
  apply (g5 eq_refl t); rewrite E; assumption.
Qed.
Lemma identity_spec h r n v : hgood true h -> den h r n -> (exists t, okn true t (sizes v) n) -> v <= length dims -> identity h r = is_ident (sizes v) n.
Proof.
  intros G D [t O] L. destruct r as [a|].
  - cbn [identity]. pose proof (den_in _ _ _ D) as Ta. destruct (hg_node true h G a Ta) as [n' [g1 g2 g3 g4 g5 g6]]. assert (n' = n) by (eapply den_fun; eassumption). subst n'.
    assert (E : S (fst (cell h a)) = v).
    { inversion D as [|a' fs T' F]; subst. destruct v as [|v]; [cbn in O; destruct O|]. rewrite sizes_S in O by lia. apply okn_cons in O. destruct O as [O _]. rewrite sizes_length in O by lia. congruence. }
    rewrite (g4 eq_refl), E. reflexivity.
  - inversion D; subst. destruct v as [|v]; [reflexivity|]. rewrite sizes_S in O by lia. destruct O.
Qed.

Lemma symmetric_spec h r n v : hgood true h -> den h r n -> (exists t, okn true t (sizes v) n) -> v <= length dims -> symmetric h r = true -> mirror (sizes v) n.
Proof.
  intros G D [t O] L Sy. destruct r as [a|].
  - cbn [symmetric] in Sy. pose proof (den_in _ _ _ D) as Ta. destruct (hg_node true h G a Ta) as [n' [g1 g2 g3 g4 g5 g6]]. assert (n' = n) by (eapply den_fun; eassumption). subst n'.
    assert (E : S (fst (cell h a)) = v).
    { inversion D as [|a' fs T' F]; subst. destruct v as [|v]; [cbn in O; destruct O|]. rewrite sizes_S in O by lia. apply okn_cons in O. destruct O as [O _]. rewrite sizes_length in O by lia. congruence. }
    rewrite <- E. exact (g6 eq_refl Sy).
  - inversion D; subst. intros p q Vp Vq. destruct v as [|v].
    + destruct p, q; reflexivity.
    + rewrite sizes_S in O by lia. destruct O.
Qed.
Lemma mirrored_inv h d es : forall ps, mirrored 0 h d es ps = Some true -> forall p, In p ps -> p / d <> p mod d ->
  symmetric h (snd (at_a es p)) = true /\ at_a es p = at_a es (p mod d * d + p / d).
Proof.
  induction ps as [|p r IH]; intros H q I N; [destruct I|]. cbn [mirrored] in H. destruct (Nat.eqb_spec (p / d) (p mod d)) as [E|Np].
  - destruct I as [<- |I]; [contradiction|]. apply IH; assumption.
  - destruct (symmetric h (snd (at_a es p))) eqn:Sy; [|discriminate]. destruct (edge_eqb 0 _ _) eqn:Q; [|discriminate].
    destruct I as [<- |I]; [|apply IH; assumption]. split; [exact Sy|]. apply edge_eqb_spec. exact Q.
Qed.
Lemma mirrored_some h d es : forall ps, (forall p, In p ps -> p / d <> p mod d -> symmetric h (snd (at_a es p)) = true) -> exists b, mirrored 0 h d es ps = Some b.
Proof.
  induction ps as [|p r IH]; intros H; [exists true; reflexivity|]. cbn [mirrored]. assert (H' : forall q, In q r -> q / d <> q mod d -> symmetric h (snd (at_a es q)) = true) by (intros; apply H; [right; assumption|assumption]).
  destruct (Nat.eqb_spec (p / d) (p mod d)); [apply IH; exact H'|]. rewrite (H p (or_introl eq_refl)) by assumption. destruct (edge_eqb 0 _ _); [apply IH; exact H'|exists false; reflexivity].
Qed.
Lemma mirrored_true h d es : 0 < d -> (forall p, p < d * d -> p / d <> p mod d -> at_a es p = zero_a) -> forall ps, (forall p, In p ps -> p < d * d) -> mirrored 0 h d es ps = Some true.
Proof.
  intros Hd H. induction ps as [|p r IH]; intros L; [reflexivity|]. cbn [mirrored]. destruct (Nat.eqb_spec (p / d) (p mod d)) as [E|N]; [apply IH; intros; apply L; right; assumption|].
  assert (Lp : p < d * d) by (apply L; left; reflexivity).
  rewrite (H p Lp N). cbn [symmetric snd zero_a]. assert (A : p / d < d) by (apply Nat.div_lt_upper_bound; lia). assert (B : p mod d < d) by (apply Nat.mod_upper_bound; lia).
  rewrite (H (p mod d * d + p / d)); [|nia|destruct (index_split d (p mod d) (p / d) A) as [Q1 Q2]; rewrite Q1, Q2; auto].
  replace (edge_eqb 0 zero_a zero_a) with true by (symmetry; apply edge_eqb_spec; reflexivity). apply IH. intros; apply L; right; assumption.
Qed.
Lemma zero_inv h e : dene h e zero_edge -> e = zero_a.
Proof. destruct e as [w r]. intros [A B]. cbn in A, B. inversion B. subst. reflexivity. Qed.

Lemma check_special_ok h h3 a v es fs t : hgood true h -> ~ in_table h a -> sym h3 = sym h -> idn h3 = idn h -> cell h3 a = (v, es) -> Forall2 (dene h) es fs ->
  v < length dims -> okl true t (nth v dims 0) (sizes v) fs -> exists sy ib, check_special 0 dims h3 a = Some (set_flags h3 a sy ib) /\
  ib = is_ident (sizes (S v)) (Node v fs) /\ (forall t', S v <= t' -> okn true t' (sizes (S v)) (Node v fs) -> sy = true) /\ (sy = true -> mirror (sizes (S v)) (Node v fs)).
Proof.
  intros G Ta Es Ei Ec F Hv O. set (d := nth v dims 0) in *. assert (Hd : 0 < d) by (apply pos, nth_In; exact Hv).
  set (h0 := set_flags h3 a false false).
  assert (S0 : forall i, symmetric h0 (snd (at_a es i)) = symmetric h (snd (at_a es i)) /\ identity h0 (snd (at_a es i)) = identity h (snd (at_a es i))).
  { intros i. pose proof (denes_at h es fs i F) as [_ D]. destruct (snd (at_a es i)) as [b|]; [|split; reflexivity]. apply den_in in D. cbn. unfold upd. rewrite Es, Ei. destruct (Nat.eqb_spec b a) as [-> |N]; [contradiction|split; reflexivity]. }
  destruct O as [L O]. change (cols true d) with d in *.
  assert (Sy : forall p t', p < d * d -> v <= t' -> okn true t' (sizes v) (snd (edge_at fs p)) -> symmetric h0 (snd (at_a es p)) = true).
  { intros p t' Hp Ht On. rewrite (proj1 (S0 p)). eapply (diag_symmetric true h _ _ v t'); [reflexivity|exact G|apply (denes_at h es fs p F)|exact On|lia|exact Ht]. }
  assert (Sz : forall p, edge_at fs p = zero_edge -> at_a es p = zero_a).
  { intros p Z. pose proof (denes_at h es fs p F) as D. rewrite Z in D. eapply zero_inv; exact D. }
  assert (Diag : forall t', S v <= t' -> okn true t' (sizes (S v)) (Node v fs) -> forallb (fun i => symmetric h0 (snd (at_a es (i * d + i)))) (seq 0 d) = true /\ mirrored 0 h0 d es (seq 0 (d * d)) = Some true).
  { intros t' Ht On. rewrite sizes_S in On by exact Hv. apply okn_cons in On. destruct On as [_ [_ On]]. fold d in On. change (cols true d) with d in On. split.
    - apply forallb_forall. intros i Hi. apply in_seq in Hi. destruct (On (i * d + i) ltac:(nia)) as [Z|(_ & _ & On')]; [rewrite (Sz _ Z); reflexivity|]. apply (Sy _ t'); [nia|lia|exact On'].
    - apply mirrored_true; [exact Hd| |intros p Hp; apply in_seq in Hp; lia]. intros p Hp Np. apply Sz. destruct (On p Hp) as [Z|(_ & D & _)]; [exact Z|]. rewrite sizes_length in D by lia. destruct (D eq_refl) as [D'|D']; [contradiction|lia]. }
  assert (Okt : okn true t (sizes (S v)) (Node v fs)).
  { rewrite sizes_S by exact Hv. apply okn_cons. rewrite sizes_length by lia. split; [reflexivity|]. split; [exact L|exact O]. }
  assert (Idn : is_ident (sizes (S v)) (Node v fs) = true -> okn true (S v) (sizes (S v)) (Node v fs)) by (intros I; eapply okn_ident; eassumption).
  assert (Mir : exists b, mirrored 0 h0 d es (seq 0 (d * d)) = Some b).
  { apply mirrored_some. intros p Hp Np. apply in_seq in Hp. destruct (O p ltac:(lia)) as [Z|(_ & D & On)]; [rewrite (Sz p Z); reflexivity|]. destruct (D eq_refl) as [D'|D']; [contradiction|].
    rewrite sizes_length in D' by lia. apply (Sy p t); [lia|lia|exact On]. }
  assert (Mirr : forallb (fun i => symmetric h0 (snd (at_a es (i * d + i)))) (seq 0 d) = true -> mirrored 0 h0 d es (seq 0 (d * d)) = Some true -> mirror (sizes (S v)) (Node v fs)).
  { intros Fb Mb p q Vp Vq. rewrite (sizes_S dims v Hv) in Vp, Vq |- *. fold d in Vp, Vq |- *. destruct p as [|i p]; [inversion Vp|]. destruct q as [|j q]; [inversion Vq|]. assert (A : i < d /\ valid (sizes v) p) by (inversion Vp; auto). assert (B : j < d /\ valid (sizes v) q) by (inversion Vq; auto). clear Vp Vq. destruct A as [Hi Vp], B as [Hj Vq].
    cbn [entry val]. change (cols true d) with d. change (nth ?k fs (C0, Term)) with (edge_at fs k).
    assert (Ch : forall k, k < d * d -> symmetric h0 (snd (at_a es k)) = true -> edge_at fs k = zero_edge \/ mirror (sizes v) (snd (edge_at fs k))).
    { intros k Hk Sk. destruct (O k Hk) as [Z|(_ & _ & On)]; [left; exact Z|right]. apply (symmetric_spec h (snd (at_a es k)) _ v); [exact G|apply (denes_at h es fs k F)|exists t; exact On|lia|]. rewrite <- (proj1 (S0 k)). exact Sk. }
    assert (Fin : forall e, e = zero_edge \/ mirror (sizes v) (snd e) -> Cmul (fst e) (val (snd e) (entry true (sizes v) p q)) = Cmul (fst e) (val (snd e) (entry true (sizes v) q p))).
    { intros e [-> |Me]; [cbn [fst zero_edge]; rewrite !Cmul_0_l; reflexivity|]. rewrite (Me p q Vp Vq). reflexivity. }
    destruct (Nat.eq_dec i j) as [<- |Nij].
    - apply Fin, Ch; [nia|]. rewrite forallb_forall in Fb. apply (Fb i). apply in_seq. lia.
    - destruct (index_split d i j Hj) as [Q1 Q2]. destruct (mirrored_inv _ _ _ _ Mb (i * d + j)) as [Sk Ek]; [apply in_seq; nia|rewrite Q1, Q2; exact Nij|]. rewrite Q1, Q2 in Ek.
      assert (Ee : edge_at fs (i * d + j) = edge_at fs (j * d + i)).
      { pose proof (denes_at h es fs (i * d + j) F) as [A1 A2]. pose proof (denes_at h es fs (j * d + i) F) as [B1 B2]. rewrite <- Ek in B1, B2.
        rewrite (surjective_pairing (edge_at fs (i * d + j))), (surjective_pairing (edge_at fs (j * d + i))). f_equal; [congruence|eapply den_fun; eassumption]. }
      rewrite <- Ee. apply Fin, Ch; [nia|exact Sk]. }
  unfold check_special. rewrite Ec. cbn [fst snd]. fold d. fold h0. destruct (forallb (fun i => symmetric h0 (snd (at_a es (i * d + i)))) (seq 0 d)) eqn:Fb.
  - destruct Mir as [[|] Mb]; rewrite Mb.
    + eexists; eexists. split; [reflexivity|]. split; [|split; [intros; reflexivity|intros _; apply Mirr; [reflexivity|exact Mb]]]. rewrite sizes_S by exact Hv. fold d. cbn [is_ident]. apply forallb_ext_in.
      intros p Hp. apply in_seq in Hp. cbv zeta. pose proof (denes_at h es fs p F) as [W D]. rewrite W. destruct (Nat.eqb (p / d) (p mod d)); [|reflexivity]. rewrite (proj2 (S0 p)).
      destruct (O p ltac:(lia)) as [Z|(_ & _ & On)]; [rewrite Z; replace (is_one (fst zero_edge)) with false; [rewrite !andb_false_r; reflexivity|]|].
      * symmetry. destruct (is_one (fst zero_edge)) eqn:Q; [|reflexivity]. apply is_one_spec in Q. cbn in Q. symmetry in Q. apply C1_neq_0 in Q. contradiction.
      * f_equal. apply (identity_spec h _ _ v); [exact G|exact D|exists t; exact On|lia].
    + exists false, false. split; [reflexivity|]. split.
      * symmetry. apply not_true_is_false. intros I. destruct (Diag (S v) (le_n _) (Idn I)) as [_ Q]. congruence.
      * split; [|discriminate]. intros t' Ht On. destruct (Diag t' Ht On) as [_ Q]. congruence.
  - exists false, false. split; [reflexivity|]. split.
    + symmetry. apply not_true_is_false. intros I. destruct (Diag (S v) (le_n _) (Idn I)) as [Q _]. congruence.
    + split; [|discriminate]. intros t' Ht On. destruct (Diag t' Ht On) as [Q _]. congruence.
Qed.

Lemma in_link h v k a b : in_table (link h v k a) b <-> b = a \/ in_table h b.
Proof.
  unfold in_table, link. cbn. split.
  - intros (v' & k' & I). destruct (Nat.eqb v' v && Nat.eqb k' k); [destruct I as [I|I]; [left; congruence|right; exists v, k'; exact I]|right; exists v', k'; exact I].
  - intros [-> |(v' & k' & I)].
    + exists v, k. rewrite !Nat.eqb_refl. left. reflexivity.
    + exists v', k'. destruct (Nat.eqb_spec v' v) as [-> |]; [destruct (Nat.eqb_spec k' k) as [-> |]|]; cbn; [right; exact I|exact I|exact I].
Qed.

Lemma make_refines s m cached t v es fs : sgood s -> v < length dims -> Forall2 (dene (heaps s m)) es fs -> okl m t (nth v dims 0) (sizes v) fs ->
  refines s m (make_node 0 dims uhash m cached v es) (make 0 m cached v fs).
Proof.
  intros G Hv F O. unfold refines, make_node, make. pose proof (sg_heap s G m) as Gh. destruct (get_node (heaps s m)) as [a h1] eqn:Eg.
  destruct (get_node_ok m _ _ _ Gh Eg) as (Na & La & Ec & Es & Ei & Eb & Ef & Av & Nia & ND). set (h := heaps s m) in *.
  assert (R : relo ref node (den h) (if m then g_mnormalise ref None 0 cached es else g_vnormalise ref None 0 cached es) (if m then mnormalise 0 cached fs else vnormalise 0 cached fs)).
  { destruct m; [rewrite <- g_mnormalise_eq; apply rell_mnormalise|rewrite <- g_vnormalise_eq; apply rell_vnormalise]; (constructor || exact F). }
  pose proof (make_shape m cached t _ _ fs O) as Sh.
  assert (Put : forall es0, let h2 := put_node h1 a v es0 in bucket h2 = bucket h /\ (forall b, in_table h b -> cell h2 b = cell h b /\ sym h2 b = sym h b /\ idn h2 b = idn h b)).
  { intros es0. cbn. split; [exact Eb|]. intros b Tb. unfold upd. destruct (Nat.eqb_spec b a) as [-> |]; [contradiction|]. rewrite Ec, Es, Ei. auto. }
  destruct (if m then g_mnormalise ref None 0 cached es else g_vnormalise ref None 0 cached es) as [[w es']|]; destruct (if m then mnormalise 0 cached fs else vnormalise 0 cached fs) as [[u fs']|]; try destruct R.
  - subst u. rename H0 into R. destruct Sh as [W Ok]. destruct (Put es') as [Pb Pk]. set (h2 := put_node h1 a v es') in *.
    change (Forall2 (dene h) es' fs') in R.
    destruct (find (fun p => edges_eqb 0 es' (snd (cell h2 p))) (bucket h2 v (uhash m es'))) as [p|] eqn:Fd.
    + apply find_some in Fd. destruct Fd as [Ip Ep]. apply edges_eqb_spec in Ep. rewrite Pb in Ip. assert (Tp : in_table h p) by (exists v, (uhash m es'); exact Ip).
      destruct (Pk p Tp) as (Cp & _). rewrite Cp in Ep. destruct (hg_place m h Gh p _ _ Ip) as [Vp _].
      assert (Np : Nat.eqb p a = false) by (apply Nat.eqb_neq; intros ->; contradiction). rewrite Np.
      destruct (hgood_frame m h (return_node h2 a) Gh Pb Pk) as [Gh' X].
      { cbn. lia. }
      { cbn. intros b [<- |Ib]; [split; [exact La|exact Na]|apply Av; exact Ib]. }
      { cbn. constructor; assumption. }
      destruct (good_grow s m _ G Gh' X) as [G' SX]. eexists; eexists. split; [reflexivity|]. split; [exact G'|]. split; [exact SX|].
      eapply dene_ext; [apply SX|]. split; [reflexivity|]. cbn [snd]. rewrite Vp. constructor; [exact Tp|]. rewrite <- Ep. exact R.
    + set (h3 := link h2 v (uhash m es') a).
      assert (Ca : cell h3 a = (v, es')) by (cbn; unfold upd; rewrite Nat.eqb_refl; reflexivity).
      assert (T3 : forall b, in_table h3 b <-> b = a \/ in_table h b) by (intros b; unfold h3; rewrite in_link; unfold in_table; rewrite Pb; reflexivity).
      assert (X3 : forall sy ib, hext h (set_flags h3 a sy ib)).
      { intros sy ib b Tb. split; [apply T3; right; exact Tb|]. apply (Pk b Tb). }
      assert (Den : forall sy ib, den (set_flags h3 a sy ib) (Some a) (Node v fs')).
      { intros sy ib. replace v with (fst (cell (set_flags h3 a sy ib) a)) by (change (cell (set_flags h3 a sy ib)) with (cell h3); rewrite Ca; reflexivity). constructor; [apply T3; left; reflexivity|].
        change (cell (set_flags h3 a sy ib)) with (cell h3). rewrite Ca. cbn [snd]. apply (denes_ext h _ es' fs' (X3 sy ib) R). }
      assert (Okn : okn m t (sizes (S v)) (Node v fs')) by (rewrite sizes_S by exact Hv; apply okn_cons; rewrite sizes_length by lia; split; [reflexivity|exact Ok]).
      assert (Gd : forall sy ib, (m = true -> ib = is_ident (sizes (S v)) (Node v fs') /\ (forall t', S v <= t' -> okn true t' (sizes (S v)) (Node v fs') -> sy = true) /\ (sy = true -> mirror (sizes (S v)) (Node v fs'))) -> hgood m (set_flags h3 a sy ib)).
      { intros sy ib Fl. pose proof (X3 sy ib) as X. set (h4 := set_flags h3 a sy ib) in *.
        assert (C4 : forall b, in_table h b -> cell h4 b = cell h b) by (intros b Tb; apply (Pk b Tb)).
        assert (T4 : forall b, in_table h4 b <-> b = a \/ in_table h b) by exact T3.
        split.
        - intros b v' k' I. change (bucket h4 v' k') with (if Nat.eqb v' v && Nat.eqb k' (uhash m es') then a :: bucket h2 v k' else bucket h2 v' k') in I.
          assert (Old : forall v0 k0, In b (bucket h2 v0 k0) -> v0 = fst (cell h4 b) /\ k0 = uhash m (snd (cell h4 b))).
          { intros v0 k0 I0. rewrite Pb in I0. rewrite C4 by (exists v0, k0; exact I0). apply (hg_place m h Gh). exact I0. }
          destruct (Nat.eqb_spec v' v) as [E1|]; [destruct (Nat.eqb_spec k' (uhash m es')) as [E2|]|]; cbn [andb] in I; try (apply Old; exact I).
          destruct I as [I|I]; [|rewrite E1; apply Old; exact I]. rewrite <- I. change (cell h4) with (cell h3). rewrite Ca. split; [exact E1|exact E2].
        - intros b Tb. change (fresh h4) with (fresh h1). apply T4 in Tb. destruct Tb as [-> |Tb]; [exact La|]. pose proof (hg_fresh m h Gh b Tb). lia.
        - intros b Ib. change (avail h4) with (avail h1) in Ib. change (fresh h4) with (fresh h1). destruct (Av b Ib) as [Lb Nb]. split; [exact Lb|]. rewrite T4. intros [-> |Tb]; [|contradiction].
          contradiction.
        - exact ND.
        - intros b c Tb Tc E. apply T4 in Tb, Tc.
          assert (New : forall b, in_table h b -> cell h4 b = cell h4 a -> False).
          { intros b0 T0 E0. rewrite (C4 b0 T0) in E0. change (cell h4) with (cell h3) in E0. rewrite Ca in E0. pose proof T0 as T0'. destruct T0 as (v0 & k0 & I0).
            destruct (hg_place m h Gh b0 v0 k0 I0) as [P1 P2]. rewrite E0 in P1, P2. cbn in P1, P2. subst v0 k0.
            eapply find_none in Fd; [|rewrite Pb; exact I0]. cbv beta in Fd. rewrite (proj1 (Pk b0 T0')), E0 in Fd. cbn [snd] in Fd.
            assert (Q : edges_eqb 0 es' es' = true) by (apply edges_eqb_spec; reflexivity). congruence. }
          destruct Tb as [-> |Tb], Tc as [-> |Tc]; [reflexivity|exfalso; apply (New c Tc); auto|exfalso; apply (New b Tb); auto|].
          rewrite (C4 b Tb), (C4 c Tc) in E. apply (hg_unique m h Gh); assumption.
        - intros b Tb. apply T4 in Tb. destruct (Nat.eq_dec b a) as [-> |Nb].
          + exists (Node v fs'). assert (Cv : fst (cell h4 a) = v) by (change (cell h4) with (cell h3); rewrite Ca; reflexivity). split; rewrite ?Cv.
            * apply Den.
            * exact Hv.
            * exists t. exact Okn.
            * intros Em. change (idn h4 a) with (upd (idn h3) a ib a). unfold upd. rewrite Nat.eqb_refl. apply (Fl Em).
            * intros Em. change (sym h4 a) with (upd (sym h3) a sy a). unfold upd. rewrite Nat.eqb_refl. apply (Fl Em).
            * intros Em. change (sym h4 a) with (upd (sym h3) a sy a). unfold upd. rewrite Nat.eqb_refl. apply (Fl Em).
          + destruct Tb as [Tb|Tb]; [contradiction|]. destruct (hg_node m h Gh b Tb) as [n [g1 g2 g3 g4 g5 g6]]. exists n.
            assert (Si : sym h4 b = sym h b /\ idn h4 b = idn h b).
            { change (sym h4 b) with (upd (sym h3) a sy b). change (idn h4 b) with (upd (idn h3) a ib b). unfold upd. destruct (Nat.eqb_spec b a); [contradiction|]. apply (Pk b Tb). }
            destruct Si as [Sb Ib]. split; rewrite ?(C4 b Tb), ?Sb, ?Ib; try assumption. eapply den_ext; eassumption. }
      destruct m.
      * destruct (check_special_ok h h3 a v es' fs' t Gh Na) as (sy & ib & Ck & F1 & F2); [cbn; exact Es|cbn; exact Ei|exact Ca|exact R|exact Hv|exact Ok|].
        rewrite Ck. destruct (good_grow s true _ G (Gd sy ib (fun _ => conj F1 F2)) (X3 sy ib)) as [G' SX].
        eexists; eexists. split; [reflexivity|]. split; [exact G'|]. split; [exact SX|]. split; [reflexivity|]. cbn. apply Den.
      * assert (E3 : h3 = set_flags h3 a (sym h3 a) (idn h3 a)).
        { unfold set_flags. destruct h3 as [c3 s3 i3 b3 a3 f3]. cbn. f_equal; apply functional_extensionality; intros i; unfold upd; destruct (Nat.eqb_spec i a) as [-> |]; reflexivity. }
        rewrite E3. destruct (good_grow s false _ G (Gd (sym h3 a) (idn h3 a) ltac:(discriminate)) (X3 _ _)) as [G' SX].
        eexists; eexists. split; [reflexivity|]. split; [exact G'|]. split; [exact SX|]. split; [reflexivity|]. cbn. apply Den.
  - destruct (Put es) as [Pb Pk]. set (h2 := put_node h1 a v es) in *.
    assert (Gx : forall l, NoDup l -> (forall b, In b l -> b < fresh h2 /\ ~ in_table h b) -> hgood m (H (cell h2) (sym h2) (idn h2) (bucket h2) l (fresh h2)) /\ hext h (H (cell h2) (sym h2) (idn h2) (bucket h2) l (fresh h2))).
    { intros l Nl Hl. apply hgood_frame; [exact Gh|exact Pb|exact Pk|cbn; lia|exact Hl|exact Nl]. }
    set (hr := if negb cached && forallb (fun e => near_zero 0 (fst e)) es then return_node h2 a else h2).
    assert (Gr : hgood m hr /\ hext h hr).
    { unfold hr. destruct (negb cached && forallb _ es); [apply Gx; [constructor; assumption|intros b [<- |Ib]; [split; [exact La|exact Na]|apply Av; exact Ib]]|].
      apply (Gx (avail h2)); [exact ND|exact Av]. }
    destruct (good_grow s m _ G (proj1 Gr) (proj2 Gr)) as [G' SX]. eexists; eexists. split; [reflexivity|]. split; [exact G'|]. split; [exact SX|apply dene_zero].
Qed.

(** ** storing results *)
Lemma good_id s v e : sgood s -> (v < length dims -> dene (heaps s true) e (make_ident 0 (sizes (S v)))) -> sgood (id_insert s v e).
Proof.
  intros [g1 g2 g3 g4 g5] D. split; [exact g1|exact g2|exact g3|exact g4|]. intros u f E Hu. cbn in E. unfold upd in E. destruct (Nat.eqb_spec u v) as [-> |]; [injection E as <-; apply D; exact Hu|apply g5; assumption].
Qed.
Lemma good_add s m x y r : sgood s -> add_good s m x y r -> sgood (add_insert ahash s m x y r).
Proof.
  intros [g1 g2 g3 g4 g5] D. split; [exact g1| |exact g3|exact g4|exact g5]. intros b k x' y' r' E. cbn in E. destruct (Bool.eqb b m) eqn:B; [|apply (g2 b k x' y' r' E)]. apply eqb_prop in B. subst b.
  unfold upd in E. destruct (Nat.eqb k (ahash m x y)); [injection E as <- <- <-; exact D|apply (g2 m k x' y' r' E)].
Qed.
Lemma good_mul s m x y r : sgood s -> mul_good s m x y r -> sgood (mul_insert mhash s m x y r).
Proof.
  intros [g1 g2 g3 g4 g5] D. split; [exact g1|exact g2| |exact g4|exact g5]. intros b k x' y' r' E. cbn in E. destruct (Bool.eqb b m) eqn:B; [|apply (g3 b k x' y' r' E)]. apply eqb_prop in B. subst b.
  unfold upd in E. destruct (Nat.eqb k (mhash m x y)); [injection E as <- <- <-; exact D|apply (g3 m k x' y' r' E)].
Qed.
Lemma good_adj s x r : sgood s -> adj_good s x r -> sgood (adj_insert chash s x r).
Proof.
  intros [g1 g2 g3 g4 g5] D. split; [exact g1|exact g2|exact g3| |exact g5]. intros k x' r' E. cbn in E.
  unfold upd in E. destruct (Nat.eqb k (chash x)); [injection E as <- <-; exact D|apply (g4 k x' r' E)].
Qed.

(** ** identities and the zero state *)
Lemma denes_tab h n (f : nat -> aedge) g : (forall i, i < n -> dene h (f i) (g i)) -> Forall2 (dene h) (tab n f) (tab n g).
Proof. intros H. apply (rell_tab ref node (den h)). exact H. Qed.
Lemma ident_S v : v < length dims -> make_ident 0 (sizes (S v)) = make 0 true false v (tab (nth v dims 0 * nth v dims 0) (fun p => if Nat.eqb (p / nth v dims 0) (p mod nth v dims 0) then make_ident 0 (sizes v) else zero_edge)).
Proof. intros Hv. rewrite sizes_S by exact Hv. cbn [make_ident]. rewrite sizes_length by lia. reflexivity. Qed.
Lemma layer_refines s v e : sgood s -> v < length dims -> dene (heaps s true) e (make_ident 0 (sizes v)) -> refines s true (ident_layer 0 dims uhash v e) (make_ident 0 (sizes (S v))).
Proof.
  intros G Hv D. rewrite ident_S by exact Hv. unfold ident_layer. apply (make_refines s true false 0); [exact G|exact Hv| |].
  - apply denes_tab. intros i _. destruct (Nat.eqb _ _); [exact D|apply dene_zero].
  - apply (diag_layer dims 0 v (fun _ => make_ident 0 (sizes v))); [exact Hv|]. intros p _ _. apply ident_oke; [exact pos|lia].
Qed.
Lemma layers_refines : forall k v s e, v + k <= length dims -> sgood s -> dene (heaps s true) e (make_ident 0 (sizes v)) -> refines s true (ident_layers 0 dims uhash (seq v k) e) (make_ident 0 (sizes (v + k))).
Proof.
  induction k as [|k IH]; intros v s e Hv G D; cbn [seq ident_layers]; [rewrite Nat.add_0_r; apply refines_ret; assumption|].
  eapply refines_bind; [apply layer_refines; [exact G|lia|exact D]|]. intros e' s' G' X' D'. replace (v + S k) with (S v + k) by lia. apply IH; [lia|exact G'|exact D'].
Qed.
Lemma ident_refines s k : sgood s -> k <= length dims -> refines s true (ident_m 0 dims uhash k) (make_ident 0 (sizes k)).
Proof.
  intros G Hk. destruct k as [|v].
  - exists one_a, s. split; [reflexivity|]. split; [exact G|]. split; [apply sext_refl|]. split; [reflexivity|constructor].
  - assert (Keep : forall c, refines s true c (make_ident 0 (sizes (S v))) -> refines s true (bind c (fun e => fun s => Done (e, id_insert s v e))) (make_ident 0 (sizes (S v)))).
    { intros c Hc. eapply refines_bind; [exact Hc|]. intros e s' G' X D. exists e, (id_insert s' v e). split; [reflexivity|]. split; [apply good_id; [exact G'|intros _; exact D]|]. split; [intros m; apply hext_refl|exact D]. }
    unfold refines, ident_m. destruct (id_table s v) as [e|] eqn:E.
    + exists e, s. split; [reflexivity|]. split; [exact G|]. split; [apply sext_refl|]. apply (sg_id s G v e E). lia.
    + destruct v as [|u]; [|destruct (id_table s u) as [e|] eqn:Eu].
      * apply Keep. apply (layers_refines 1 0); [lia|exact G|split; [reflexivity|constructor]].
      * apply Keep. apply layer_refines; [exact G|lia|]. apply (sg_id s G u e Eu). lia.
      * apply Keep. apply (layers_refines (S (S u)) 0); [lia|exact G|split; [reflexivity|constructor]].
Qed.

Lemma repeat_zeros h n : Forall2 (dene h) (repeat zero_a n) (repeat zero_edge n).
Proof. induction n; constructor; [apply dene_zero|assumption]. Qed.
Lemma zero_refines : forall k v s e, v + k <= length dims -> sgood s ->
  let z v := fold_left (fun first v => make 0 false false v (first :: repeat zero_edge (nth v dims 0 - 1))) (seq 0 v) one_edge in
  dene (heaps s false) e (z v) -> refines s false (zero_layers 0 dims uhash (seq v k) e) (z (v + k)).
Proof.
  induction k as [|k IH]; intros v s e Hv G z D; cbn [seq zero_layers]; [rewrite Nat.add_0_r; apply refines_ret; assumption|].
  eapply (refines_bind s false false _ (z (S v))).
  - unfold z. rewrite seq_S, fold_left_app. cbn [fold_left plus]. fold (z v). apply (make_refines s false false 0); [exact G|lia|constructor; [exact D|apply repeat_zeros]|].
    assert (Hd : 0 < nth v dims 0) by (apply pos, nth_In; lia). split; [cbn [length]; rewrite repeat_length; cbn; lia|]. intros [|i] Hi.
    + destruct (zero_state_oke dims pos v ltac:(lia)) as [E|[N O]]; [left; exact E|right; split; [exact N|split; [discriminate|exact O]]].
    + left. change (edge_at (z v :: repeat zero_edge (nth v dims 0 - 1)) (S i)) with (nth i (repeat zero_edge (nth v dims 0 - 1)) zero_edge). apply nth_repeat.
  - intros e' s' G' X' D'. replace (v + S k) with (S v + k) by lia. apply IH; [lia|exact G'|exact D'].
Qed.
Lemma zero_state_refines s : sgood s -> refines s false (zero_state_m 0 dims uhash) (zero_state 0 dims).
Proof. intros G. apply (zero_refines (length dims) 0 s one_a); [lia|exact G|split; [reflexivity|constructor]]. Qed.

(** ** addition *)
Lemma near_zero_is_zero w : near_zero 0 w = is_zero w.
Proof. destruct (is_zero w) eqn:Z; [apply near_zero_spec; apply is_zero_spec; exact Z|apply near_zero_false; apply is_zero_false; exact Z]. Qed.
Lemma dene_fun h e f f' : dene h e f -> dene h e f' -> f = f'.
Proof. intros [A B] [A' B']. destruct f, f'. cbn in *. f_equal; [congruence|eapply den_fun; eassumption]. Qed.
Lemma dene_scaled h e f x : dene h e f -> dene h (if is_zero (fst e) then e else (Cmul (fst e) x, snd e)) (if is_zero (fst f) then f else (Cmul (fst f) x, snd f)).
Proof. intros [A B]. rewrite A. destruct (is_zero (fst f)); split; cbn; try assumption; reflexivity. Qed.
Lemma ok_ref m t h r n v : den h r n -> okn m t (sizes (S v)) n -> v < length dims -> exists a es, r = Some a /\ n = Node v es /\ okl m t (nth v dims 0) (sizes v) es /\ Forall2 (dene h) (snd (cell h a)) es /\ fst (cell h a) = v.
Proof.
  intros D O Hv. rewrite sizes_S in O by exact Hv. destruct n as [|u es]; [destruct O|]. apply okn_cons in O. destruct O as [Eu O]. rewrite sizes_length in Eu by lia. subst u.
  inversion D as [|a fs T F]; subst. exists a, es. split; [reflexivity|]. split; [f_equal; assumption|]. split; [exact O|]. split; [exact F|]. reflexivity.
Qed.
Lemma sums_okl m t v (x y : edge) es fs : v < length dims -> fst x <> C0 -> fst y <> C0 -> okl m t (nth v dims 0) (sizes v) es -> okl m t (nth v dims 0) (sizes v) fs ->
  okl m t (nth v dims 0) (sizes v) (tab (length es) (fun i => add2 0 same m v (if is_zero (fst (edge_at es i)) then edge_at es i else (Cmul (fst (edge_at es i)) (fst x), snd (edge_at es i)))
    (if is_zero (fst (edge_at fs i)) then edge_at fs i else (Cmul (fst (edge_at fs i)) (fst y), snd (edge_at fs i))))).
Proof.
  intros Hv Zx Zy [Lx Nx] [Ly Ny]. rewrite Lx. apply okl_tab. intros i Hi. replace (add2 0 same m v) with (add2 0 same m (length (sizes v))) by (rewrite sizes_length; [reflexivity|lia]).
  destruct (Nx i Hi) as [E1|(A1 & B1 & D1)]; destruct (Ny i Hi) as [E2|(A2 & B2 & D2)].
  - left. rewrite E1, E2, is_zero_0. apply add2_zero_l.
  - right. split; [exact B2|]. apply add2_oke; apply scaled_oke; try assumption; [rewrite E1; apply oke_zero|right; auto].
  - right. split; [exact B1|]. apply add2_oke; apply scaled_oke; try assumption; [right; auto|rewrite E2; apply oke_zero].
  - right. split; [exact B1|]. apply add2_oke; apply scaled_oke; try assumption; right; auto.
Qed.
Lemma add2_step m n x y v es u fs : is_zero (fst x) = false -> is_zero (fst y) = false -> snd x = Node v es -> snd y = Node u fs -> same (snd x) (snd y) = false ->
  add2 0 same m (S n) x y = make 0 m true v (tab (length es) (fun i => add2 0 same m n (if is_zero (fst (edge_at es i)) then edge_at es i else (Cmul (fst (edge_at es i)) (fst x), snd (edge_at es i)))
    (if is_zero (fst (edge_at fs i)) then edge_at fs i else (Cmul (fst (edge_at fs i)) (fst y), snd (edge_at fs i))))).
Proof. intros Zx Zy Ex Ey Sm. cbn [add2]. rewrite Zx, Zy, Sm, Ex, Ey. reflexivity. Qed.
Lemma add2_same m n x y : is_zero (fst x) = false -> is_zero (fst y) = false -> snd x = snd y -> add2 0 same m n x y = if near_zero 0 (Cadd (fst x) (fst y)) then zero_edge else (Cadd (fst x) (fst y), snd y).
Proof.
  intros Zx Zy E. assert (Sm : same (snd x) (snd y) = true) by (apply node_eqb_spec; exact E).
  destruct n; cbn [add2]; rewrite Zx, Zy, Sm; rewrite E; destruct (snd y); reflexivity.
Qed.

Lemma add_refines m t : forall n s x y fx fy, n <= length dims -> sgood s -> dene (heaps s m) x fx -> dene (heaps s m) y fy -> oke m t (sizes n) fx -> oke m t (sizes n) fy ->
  refines s m (add_m 0 dims uhash ahash m n x y) (add2 0 same m n fx fy).
Proof.
  induction n as [|n IH]; intros s x y fx fy Hn G Dx Dy Ox Oy.
  - destruct Dx as [Wx Dx], Dy as [Wy Dy]. unfold refines. cbn [add_m]. rewrite Wx, Wy. destruct (is_zero (fst fx)) eqn:Zx.
    { exists y, s. split; [reflexivity|]. split; [exact G|]. split; [apply sext_refl|]. cbn [add2]. rewrite Zx. split; assumption. }
    destruct (is_zero (fst fy)) eqn:Zy.
    { exists x, s. split; [reflexivity|]. split; [exact G|]. split; [apply sext_refl|]. cbn [add2]. rewrite Zx, Zy. split; assumption. }
    pose proof (oke_node _ _ _ _ Ox (proj1 (is_zero_false _) Zx)) as Nx. pose proof (oke_node _ _ _ _ Oy (proj1 (is_zero_false _) Zy)) as Ny. cbn in Nx, Ny.
    destruct (snd fx) eqn:Ex; [|destruct Nx]. destruct (snd fy) eqn:Ey; [|destruct Ny]. inversion Dx as [Rx|]. inversion Dy as [Ry|]. cbn [ref_eqb].
    eexists; eexists. split; [reflexivity|]. split; [exact G|]. split; [apply sext_refl|]. rewrite add2_same by congruence. destruct (near_zero 0 _); [apply dene_zero|]. split; [reflexivity|]. cbn [snd]. rewrite Ey. constructor.
  - pose proof Dx as Dx0. pose proof Dy as Dy0. destruct Dx as [Wx Dx], Dy as [Wy Dy]. unfold refines. cbn [add_m]. rewrite Wx, Wy. destruct (is_zero (fst fx)) eqn:Zx.
    { exists y, s. split; [reflexivity|]. split; [exact G|]. split; [apply sext_refl|]. cbn [add2]. rewrite Zx. split; assumption. }
    destruct (is_zero (fst fy)) eqn:Zy.
    { exists x, s. split; [reflexivity|]. split; [exact G|]. split; [apply sext_refl|]. cbn [add2]. rewrite Zx, Zy. split; assumption. }
    pose proof (proj1 (is_zero_false _) Zx) as Zx'. pose proof (proj1 (is_zero_false _) Zy) as Zy'.
    pose proof (oke_node _ _ _ _ Ox Zx') as Nx. pose proof (oke_node _ _ _ _ Oy Zy') as Ny.
    destruct (ref_eqb (snd x) (snd y)) eqn:Re.
    { apply ref_eqb_spec in Re. assert (E : snd fx = snd fy) by (eapply den_fun; [exact Dx|rewrite Re; exact Dy]).
      eexists; eexists. split; [reflexivity|]. split; [exact G|]. split; [apply sext_refl|]. rewrite add2_same by assumption. destruct (near_zero 0 _); [apply dene_zero|]. split; [reflexivity|exact Dy]. }
    assert (Ne : snd fx <> snd fy).
    { intros E. assert (Q : snd x = snd y) by (eapply (den_inj _ (hg_unique m _ (sg_heap s G m))); [exact Dx|rewrite E; exact Dy]). apply ref_eqb_spec in Q. congruence. }
    apply node_eqb_false in Ne.
    destruct (ok_ref m t _ _ _ n Dx Nx Hn) as (a & es & Ea & En & Oes & Fes & Ra). destruct (ok_ref m t _ _ _ n Dy Ny Hn) as (b & fs & Eb & Em & Ofs & Ffs & Rb).
    destruct (add_lookup 0 ahash s m x y) as [r|] eqn:Lk.
    + unfold add_lookup in Lk. destruct (add_table s m (ahash m x y)) as [[[x' y'] r']|] eqn:Tb; [|discriminate]. destruct (edge_eqb 0 x' x && edge_eqb 0 y' y) eqn:Q; [|discriminate]. injection Lk as <-.
      apply andb_true_iff in Q. destruct Q as [Q1 Q2]. apply edge_eqb_spec in Q1, Q2. subst x' y'.
      destruct (sg_add s G m _ _ _ _ Tb) as (gx & gy & k & es' & A & B & D & F). assert (gx = fx) by (eapply dene_fun; eassumption). assert (gy = fy) by (eapply dene_fun; eassumption). subst gx gy.
      assert (k = n) by congruence. subst k. eexists; eexists. split; [reflexivity|]. split; [exact G|]. split; [apply sext_refl|].
      pose proof (add2_oke same m t (sizes (S n)) fx fy Ox Oy) as K. rewrite sizes_length in K by lia. destruct F as [F1 F2]. rewrite F1, near_zero_is_zero. destruct (is_zero (fst (add2 0 same m (S n) fx fy))) eqn:Z; [|split; assumption].
      apply is_zero_spec in Z. rewrite (oke_fst _ _ _ _ K Z). apply dene_zero.
    + rewrite Ea, Eb. change (refines s m (bind (tab_m (length (edges s m a)) (fun i s0 => add_m 0 dims uhash ahash m n
          (if is_zero (fst (at_a (edges s0 m a) i)) then at_a (edges s0 m a) i else (Cmul (fst (at_a (edges s0 m a) i)) (fst fx), snd (at_a (edges s0 m a) i)))
          (if is_zero (fst (at_a (edges s0 m b) i)) then at_a (edges s0 m b) i else (Cmul (fst (at_a (edges s0 m b) i)) (fst fy), snd (at_a (edges s0 m b) i))) s0))
        (fun rs => bind (make_node 0 dims uhash m true (fst (cell (heaps s m) a)) rs) (fun e s0 => Done (e, add_insert ahash s0 m x y e)))) (add2 0 same m (S n) fx fy)).
      rewrite (add2_step m n fx fy n es n fs Zx Zy En Em Ne). unfold edges at 1. rewrite (rell_length ref node (den (heaps s m)) _ _ Fes). rewrite Ra.
      eapply refines_bind_list; [eapply (tab_refines m (length es) _ (fun i => add2 0 same m n (if is_zero (fst (edge_at es i)) then edge_at es i else (Cmul (fst (edge_at es i)) (fst fx), snd (edge_at es i)))
    (if is_zero (fst (edge_at fs i)) then edge_at fs i else (Cmul (fst (edge_at fs i)) (fst fy), snd (edge_at fs i))))); [exact G|]|].
      * intros i s1 Hi G1 X1.
        assert (Fe : Forall2 (dene (heaps s1 m)) (edges s1 m a) es) by (unfold edges; rewrite (proj2 (X1 m a (den_in _ _ _ ltac:(rewrite Ea in Dx; exact Dx)))); eapply denes_ext; [apply X1|exact Fes]).
        assert (Ff : Forall2 (dene (heaps s1 m)) (edges s1 m b) fs) by (unfold edges; rewrite (proj2 (X1 m b (den_in _ _ _ ltac:(rewrite Eb in Dy; exact Dy)))); eapply denes_ext; [apply X1|exact Ffs]).
        pose proof (denes_at _ _ _ i Fe) as De. pose proof (denes_at _ _ _ i Ff) as Df.
        apply IH; [lia|exact G1| | | |].
        -- apply dene_scaled. exact De.
        -- apply dene_scaled. exact Df.
        -- apply scaled_oke; [|exact Zx']. apply (okl_edge m t _ _ _ _ Oes). rewrite <- (proj1 Oes). exact Hi.
        -- apply scaled_oke; [|exact Zy']. apply (okl_edge m t _ _ _ _ Ofs). rewrite <- (proj1 Oes). exact Hi.
      * intros rs s1 G1 X1 F1. eapply refines_bind; [apply (make_refines s1 m true t n); [exact G1|exact Hn|exact F1|apply sums_okl; assumption]|].
        intros e s2 G2 X2 D2. exists e, (add_insert ahash s2 m x y e). split; [reflexivity|]. split; [|split; [intros b'; apply hext_refl|exact D2]].
        apply good_add; [exact G2|]. exists fx, fy, n, es. split; [eapply dene_ext; [apply X2|eapply dene_ext; [apply X1|exact Dx0]]|]. split; [eapply dene_ext; [apply X2|eapply dene_ext; [apply X1|exact Dy0]]|]. split; [exact En|].
        rewrite (add2_step m n fx fy n es n fs Zx Zy En Em Ne). exact D2.
Qed.

Lemma sum_refines m t n : forall ks (f : nat -> M aedge) g s acc facc, n <= length dims -> sgood s -> dene (heaps s m) acc facc -> oke m t (sizes n) facc ->
  (forall k s', In k ks -> sgood s' -> sext s s' -> refines s' m (f k) (g k)) -> (forall k, In k ks -> oke m t (sizes n) (g k)) ->
  refines s m (sum_m 0 dims uhash ahash m n f ks acc) (fold_left (fun acc t => if is_zero (fst acc) then t else if is_zero (fst t) then acc else add2 0 same m n acc t) (map g ks) facc).
Proof.
  induction ks as [|k ks IH]; intros f g s acc facc Hn G D O Hf Hg; cbn [sum_m map fold_left]; [apply refines_ret; assumption|].
  eapply refines_bind; [apply Hf; [left; reflexivity|exact G|apply sext_refl]|]. intros e s1 G1 X1 D1.
  assert (D' : dene (heaps s1 m) acc facc) by (eapply dene_ext; [apply X1|exact D]). pose proof (Hg k (or_introl eq_refl)) as Ok.
  eapply (refines_bind s1 m m _ (if is_zero (fst facc) then g k else if is_zero (fst (g k)) then facc else add2 0 same m n facc (g k))).
  - rewrite (proj1 D'), (proj1 D1). destruct (is_zero (fst facc)); [apply refines_ret; assumption|]. destruct (is_zero (fst (g k))); [apply refines_ret; assumption|]. eapply add_refines; eassumption.
  - intros e2 s2 G2 X2 D2. apply IH; [exact Hn|exact G2|exact D2| | |].
    + destruct (is_zero (fst facc)); [exact Ok|]. destruct (is_zero (fst (g k))); [exact O|]. pose proof (add2_oke same m t (sizes n) facc (g k) O Ok) as K. rewrite sizes_length in K by lia. exact K.
    + intros k' s' Hk' G' X'. apply Hf; [right; exact Hk'|exact G'|]. eapply sext_trans; [exact X1|]. eapply sext_trans; eassumption.
    + intros k' Hk'. apply Hg. right. exact Hk'.
Qed.

(** ** multiplication *)
Lemma mul_refines m t : forall n s x y fx fy, n <= length dims -> sgood s -> dene (heaps s true) x fx -> dene (heaps s m) y fy -> oke true t (sizes n) fx -> oke m t (sizes n) fy ->
  refines s m (mul_m 0 dims uhash ahash mhash m (sizes n) x y) (multiply2 0 same m (sizes n) fx fy).
Proof.
  induction n as [|n IH]; intros s x y fx fy Hn G Dx Dy Ox Oy.
  - destruct Dx as [Wx Dx], Dy as [Wy Dy]. unfold refines, sizes_below. cbn [firstn rev mul_m multiply2]. rewrite Wx, Wy. destruct (is_zero (fst fx) || is_zero (fst fy)).
    + eexists; eexists. split; [reflexivity|]. split; [exact G|]. split; [apply sext_refl|apply dene_zero].
    + eexists; eexists. split; [reflexivity|]. split; [exact G|]. split; [apply sext_refl|]. split; [reflexivity|constructor].
  - pose proof Dx as Dx0. pose proof Dy as Dy0. destruct Dx as [Wx Dx], Dy as [Wy Dy].
    destruct (is_zero (fst fx) || is_zero (fst fy)) eqn:Zxy.
    { exists zero_a, s. rewrite sizes_S by lia. cbn [mul_m]. rewrite multiply2_eq, Wx, Wy, Zxy. split; [reflexivity|]. split; [exact G|]. split; [apply sext_refl|apply dene_zero]. }
    assert (Zx : fst fx <> C0) by (apply orb_false_iff in Zxy; apply is_zero_false, Zxy). assert (Zy : fst fy <> C0) by (apply orb_false_iff in Zxy; apply is_zero_false, Zxy).
    pose proof (oke_node _ _ _ _ Ox Zx) as Nx. pose proof (oke_node _ _ _ _ Oy Zy) as Ny.
    destruct (ok_ref true t _ _ _ n Dx Nx Hn) as (a & es & Ea & En & Oes & Fes & Ra). destruct (ok_ref m t _ _ _ n Dy Ny Hn) as (b & fs & Eb & Em & Ofs & Ffs & Rb).
    pose proof (multiply2_weights same m t (sizes (S n)) fx fy (sizes_pos dims _ pos) ltac:(rewrite sizes_S by lia; discriminate) Ox Oy Zx Zy) as Wt. cbv zeta in Wt.
    set (E1 := multiply2 0 same m (sizes (S n)) (C1, snd fx) (C1, snd fy)) in *.
    assert (O1 : oke m t (sizes (S n)) E1) by (apply multiply2_oke; [apply sizes_pos; exact pos|right; split; [exact C1_neq_0|exact Nx]|right; split; [exact C1_neq_0|exact Ny]]).
    (* what is returned for the stored edge e *)
    assert (Fin : forall h e r, dene h e E1 -> (fst e = C0 -> r = zero_a) -> (fst e <> C0 -> r = (Cmul (Cmul (fst e) (fst fx)) (fst fy), snd e)) -> dene h r (multiply2 0 same m (sizes (S n)) fx fy)).
    { intros h e r De Hz Hnz. rewrite Wt. destruct (is_zero (fst E1)) eqn:Z.
      - rewrite Hz; [apply dene_zero|]. rewrite (proj1 De). apply is_zero_spec. exact Z.
      - apply is_zero_false in Z. rewrite Hnz by (rewrite (proj1 De); exact Z). destruct De as [W D]. split; [cbn; rewrite W; reflexivity|exact D]. }
    assert (Sto : forall s' e, sgood s' -> sext s s' -> dene (heaps s' m) e E1 -> sgood (mul_insert mhash s' m (snd x) (snd y) e)).
    { intros s' e G' X' De. apply good_mul; [exact G'|]. exists (snd fx), (snd fy), n, es. split; [eapply den_ext; [apply X'|exact Dx]|]. split; [eapply den_ext; [apply X'|exact Dy]|]. split; [exact En|exact De]. }
    assert (One : is_zero C1 = false) by (apply is_zero_false, C1_neq_0). assert (One' : near_zero 0 C1 = false) by (apply near_zero_false, C1_neq_0).
    assert (Pw : near_zero 0 (Cmul (fst fx) (fst fy)) = false) by (apply near_zero_false, Cmul_neq_0; assumption).
    assert (S1 : forall w : C, Cmul (Cmul w C1) C1 = w) by (intros w; ring).
    assert (C1w : forall u v : C, Cmul (Cmul C1 u) v = Cmul u v) by (intros; ring).
    assert (Idx : identity (heaps s true) (snd x) = is_ident (sizes (S n)) (snd fx)) by (apply identity_spec; [apply (sg_heap s G)|exact Dx|exists t; exact Nx|lia]).
    assert (Idy : m = true -> identity (heaps s true) (snd y) = is_ident (sizes (S n)) (snd fy)) by (intros Mt; rewrite Mt in *; apply identity_spec; [apply (sg_heap s G)|exact Dy|exists t; exact Ny|lia]).
    assert (Idm : m && identity (heaps s true) (snd y) = m && is_ident (sizes (S n)) (snd fy)) by (destruct m; [cbn; apply Idy; reflexivity|reflexivity]).
    assert (Em_S : mul_m 0 dims uhash ahash mhash m (sizes (S n)) x y = mul_m 0 dims uhash ahash mhash m (nth n dims 0 :: sizes n) x y) by (rewrite sizes_S by lia; reflexivity).
    destruct (mul_lookup mhash s m (snd x) (snd y)) as [e|] eqn:Lk.
    + assert (De : dene (heaps s m) e E1).
      { unfold mul_lookup in Lk. destruct (mul_table s m (mhash m (snd x) (snd y))) as [[[x' y'] r']|] eqn:Tb; [|discriminate]. destruct (ref_eqb x' (snd x) && ref_eqb y' (snd y)) eqn:Q; [|discriminate]. injection Lk as <-.
        apply andb_true_iff in Q. destruct Q as [Q1 Q2]. apply ref_eqb_spec in Q1, Q2. subst x' y'.
        destruct (sg_mul s G m _ _ _ _ Tb) as (gx & gy & k & es' & A & B & D & F). assert (gx = snd fx) by (eapply den_fun; eassumption). assert (gy = snd fy) by (eapply den_fun; eassumption). subst gx gy.
        assert (k = n) by congruence. subst k. unfold E1. rewrite <- H. exact F. }
      unfold refines. rewrite Em_S. cbn [mul_m]. rewrite Wx, Wy, Zxy, Lk. eexists; exists s. split; [reflexivity|]. split; [exact G|]. split; [apply sext_refl|].
      apply (Fin _ e _ De).
      * intros Z. rewrite (proj2 (near_zero_spec (fst e)) Z). reflexivity.
      * intros Z. rewrite (proj2 (near_zero_false (fst e)) Z). rewrite (proj2 (near_zero_false _)); [reflexivity|]. apply Cmul_neq_0; [apply Cmul_neq_0|]; assumption.
    + unfold refines. rewrite Em_S. cbn [mul_m]. rewrite Wx, Wy, Zxy, Lk, Idx, Idm. rewrite sizes_length by lia.
      destruct (is_ident (sizes (S n)) (snd fx)) eqn:Ix.
      * assert (E1x : E1 = (C1, snd (if m && is_ident (sizes (S n)) (snd fy) then make_ident 0 (sizes (S n)) else fy))).
        { unfold E1. rewrite (sizes_S dims n) in Ix |- * by lia. rewrite multiply2_eq. cbn [fst snd]. rewrite One, Ix. cbn [orb fst snd]. rewrite S1, One'. f_equal. destruct (m && is_ident (nth n dims 0 :: sizes n) (snd fy)); reflexivity. }
        destruct (m && is_ident (sizes (S n)) (snd fy)) eqn:Iy.
        -- apply andb_true_iff in Iy. destruct Iy as [Mt Iy]. rewrite Mt in *.
           change (refines s true (bind (ident_m 0 dims uhash (S n)) (fun e s0 => Done (if near_zero 0 (Cmul (fst fx) (fst fy)) then zero_a else (Cmul (fst fx) (fst fy), snd e), mul_insert mhash s0 true (snd x) (snd y) e))) (multiply2 0 same true (sizes (S n)) fx fy)).
           eapply refines_bind; [apply ident_refines; [exact G|lia]|]. intros e s' G' X' D'.
           assert (De : dene (heaps s' true) e E1). { rewrite E1x. destruct D' as [D1 D2]. split; [rewrite D1; apply make_ident_one, sizes_pos, pos|exact D2]. }
           eexists; eexists. split; [reflexivity|]. split; [apply Sto; assumption|]. split; [intros b'; apply hext_refl|]. apply (Fin _ e _ De).
           ++ intros Z. rewrite (proj1 De), E1x in Z. contradiction (C1_neq_0 Z).
           ++ intros _. rewrite Pw, (proj1 De), E1x. cbn [fst]. rewrite C1w. reflexivity.
        -- change (refines s m (bind (ret (C1, snd y)) (fun e s0 => Done (if near_zero 0 (Cmul (fst fx) (fst fy)) then zero_a else (Cmul (fst fx) (fst fy), snd e), mul_insert mhash s0 m (snd x) (snd y) e))) (multiply2 0 same m (sizes (S n)) fx fy)).
           assert (De : dene (heaps s m) (C1, snd y) E1) by (rewrite E1x; split; [reflexivity|exact Dy]).
           eexists; eexists. split; [reflexivity|]. split; [apply Sto; [exact G|apply sext_refl|exact De]|]. split; [intros b'; apply hext_refl|]. apply (Fin _ (C1, snd y) _ De).
           ++ intros Z. contradiction (C1_neq_0 Z).
           ++ intros _. rewrite Pw. cbn [fst snd]. rewrite C1w. reflexivity.
      * destruct (m && is_ident (sizes (S n)) (snd fy)) eqn:Iy.
        -- assert (E1x : E1 = (C1, snd fx)).
           { unfold E1. rewrite (sizes_S dims n) in Ix, Iy |- * by lia. rewrite multiply2_eq. cbn [fst snd]. rewrite One, Ix, Iy. cbn [orb fst snd]. rewrite S1, One'. reflexivity. }
           apply andb_true_iff in Iy. destruct Iy as [Mt Iy]. rewrite Mt in *.
           assert (De : dene (heaps s true) (C1, snd x) E1) by (rewrite E1x; split; [reflexivity|exact Dx]).
           eexists; eexists. split; [reflexivity|]. split; [apply Sto; [exact G|apply sext_refl|exact De]|]. split; [intros b'; apply hext_refl|]. apply (Fin _ (C1, snd x) _ De).
           ++ intros Z. contradiction (C1_neq_0 Z).
           ++ intros _. rewrite Pw. cbn [fst snd]. rewrite C1w. reflexivity.
        -- set (d := nth n dims 0) in *.
           assert (Hd : 0 < d) by (apply pos, nth_In; lia).
           assert (E1x : E1 = make 0 m true n (rows same m d (sizes n) es fs)).
           { unfold E1. rewrite (sizes_S dims n) in Ix, Iy |- * by lia. rewrite multiply2_eq. cbn [fst snd]. rewrite One, Ix, Iy, En, Em. cbn [orb]. cbv zeta. rewrite sizes_length by lia. fold d.
             assert (Ko : oke m t (d :: sizes n) (make 0 m true n (rows same m d (sizes n) es fs))).
             { pose proof (make_oke m true t d (sizes n) (rows same m d (sizes n) es fs)) as K. rewrite sizes_length in K by lia. apply K. apply rows_okl; [exact Hd| |exact Oes|exact Ofs].
               intros x0 y0. apply multiply2_oke. apply sizes_pos. exact pos. }
             rewrite S1. set (E0 := make 0 m true n (rows same m d (sizes n) es fs)) in *. destruct (is_zero (fst E0)) eqn:Z; [reflexivity|]. rewrite near_zero_is_zero, Z. destruct E0; reflexivity. }
           rewrite Ea, Eb.
           change (refines s m (bind (tab_m (d * cols m d) (fun p => sum_m 0 dims uhash ahash m n (fun k s0 => mul_m 0 dims uhash ahash mhash m (sizes n) (at_a (edges s0 true a) (d * (p / cols m d) + k)) (at_a (edges s0 m b) (p mod cols m d + cols m d * k)) s0) (seq 0 d) zero_a))
             (fun rs => bind (make_node 0 dims uhash m true n rs) (fun e s0 => Done (if is_zero (fst e) || (is_one (fst fx) && is_one (fst fy)) then e
               else if near_zero 0 (Cmul (Cmul (fst e) (fst fx)) (fst fy)) then zero_a else (Cmul (Cmul (fst e) (fst fx)) (fst fy), snd e), mul_insert mhash s0 m (Some a) (Some b) e)))) (multiply2 0 same m (sizes (S n)) fx fy)).
           eapply refines_bind_list; [apply (tab_refines m (d * cols m d) _ (fun p => accumulate 0 same m n (tab d (fun k => multiply2 0 same m (sizes n) (edge_at es (d * (p / cols m d) + k)) (edge_at fs (p mod cols m d + cols m d * k)))))); [exact G|]|].
           ++ intros p s1 Hp G1 X1. rewrite accumulate_fold.
              assert (Ic : p / cols m d < d) by (apply Nat.div_lt_upper_bound; [destruct m; cbn; lia|lia]).
              assert (Jc : p mod cols m d < cols m d) by (apply Nat.mod_upper_bound; destruct m; cbn; lia).
              assert (Ok : forall k, k < d -> oke true t (sizes n) (edge_at es (d * (p / cols m d) + k)) /\ oke m t (sizes n) (edge_at fs (p mod cols m d + cols m d * k))).
              { intros k Hk. split; [apply (okl_edge true t _ _ _ _ Oes); cbn [cols]; fold d; nia|apply (okl_edge m t _ _ _ _ Ofs); fold d; nia]. }
              apply (sum_refines m t n (seq 0 d)); [lia|exact G1|apply dene_zero|apply oke_zero| |].
              ** intros k s2 Hk G2 X2. apply in_seq in Hk. assert (X3 : sext s s2) by (eapply sext_trans; eassumption).
                 apply IH; [lia|exact G2| | |apply Ok; lia|apply Ok; lia].
                 --- apply denes_at. unfold edges. rewrite (proj2 (X3 true a (den_in _ _ _ ltac:(rewrite Ea in Dx; exact Dx)))). eapply denes_ext; [apply X3|exact Fes].
                 --- apply denes_at. unfold edges. rewrite (proj2 (X3 m b (den_in _ _ _ ltac:(rewrite Eb in Dy; exact Dy)))). eapply denes_ext; [apply X3|exact Ffs].
              ** intros k Hk. apply in_seq in Hk. apply multiply2_oke; [apply sizes_pos; exact pos|apply Ok; lia|apply Ok; lia].
           ++ intros rs s1 G1 X1 F1.
              assert (Er : rows same m d (sizes n) es fs = tab (d * cols m d) (fun p => accumulate 0 same m n (tab d (fun k => multiply2 0 same m (sizes n) (edge_at es (d * (p / cols m d) + k)) (edge_at fs (p mod cols m d + cols m d * k))))))
                by (unfold rows; rewrite sizes_length by lia; reflexivity).
              rewrite <- Er in F1. eapply refines_bind; [apply (make_refines s1 m true t n); [exact G1|exact Hn|exact F1|]|].
              ** fold d. apply rows_okl; [exact Hd| |exact Oes|exact Ofs]. intros x0 y0. apply multiply2_oke. apply sizes_pos. exact pos.
              ** intros e s2 G2 X2 D2. rewrite <- E1x in D2. assert (X3 : sext s s2) by (eapply sext_trans; eassumption).
                 eexists; eexists. split; [reflexivity|]. split; [rewrite <- Ea, <- Eb; apply Sto; assumption|]. split; [intros b'; apply hext_refl|]. apply (Fin _ e _ D2).
                 --- intros Z. rewrite (proj2 (is_zero_spec (fst e)) Z). cbn [orb]. rewrite (proj1 D2) in Z. rewrite (oke_fst _ _ _ _ O1 Z) in D2. eapply zero_inv. exact D2.
                 --- intros Z. rewrite (proj2 (is_zero_false (fst e)) Z). cbn [orb]. destruct (is_one (fst fx) && is_one (fst fy)) eqn:Oo.
                     +++ apply andb_true_iff in Oo. destruct Oo as [O1x O1y]. apply is_one_spec in O1x, O1y. rewrite O1x, O1y, S1. destruct e; reflexivity.
                     +++ rewrite (proj2 (near_zero_false _)); [reflexivity|]. apply Cmul_neq_0; [apply Cmul_neq_0|]; assumption.
Qed.

(** ** the adjoint *)
Lemma adj_okl t v es : v < length dims -> okl true t (nth v dims 0) (sizes v) es -> okl true t (nth v dims 0) (sizes v) (tab (length es) (fun p => conj_transpose 0 (sizes v) (edge_at es (nth v dims 0 * (p mod nth v dims 0) + p / nth v dims 0)))).
Proof.
  intros Hv [L O]. set (d := nth v dims 0) in *. assert (Hd : 0 < d) by (apply pos, nth_In; exact Hv). rewrite L. apply (okl_tab true t d). intros i Hi. change (cols true d) with d in *.
  assert (Ic : i / d < d) by (apply Nat.div_lt_upper_bound; lia). assert (Jc : i mod d < d) by (apply Nat.mod_upper_bound; lia).
  destruct (O (d * (i mod d) + i / d) ltac:(nia)) as [E|(A & B & On)].
  - left. rewrite E. unfold zero_edge. destruct (sizes v); cbn; f_equal; unfold Cconj, C0; cbn; f_equal; lra.
  - right. split; [|apply conj_transpose_oke; [apply sizes_pos; exact pos|right; auto]]. intros _. destruct (B eq_refl) as [B'|B']; [left|right; exact B'].
    replace (d * (i mod d) + i / d) with (i mod d * d + i / d) in B' by lia. destruct (index_split d (i mod d) (i / d) Ic) as [Q1 Q2]. rewrite Q1, Q2 in B'. auto.
Qed.
Lemma adjoint_refines t : forall n s e f, n <= length dims -> sgood s -> dene (heaps s true) e f -> oke true t (sizes n) f ->
  refines s true (adjoint_m 0 dims uhash chash (sizes n) e) (conj_transpose 0 (sizes n) f).
Proof.
  induction n as [|n IH]; intros s e f Hn G D O.
  - exists (Cconj (fst e), snd e), s. split; [reflexivity|]. split; [exact G|]. split; [apply sext_refl|]. destruct D as [W D]. split; [cbn; rewrite W; reflexivity|exact D].
  - destruct O as [-> |[Z O]].
    { rewrite (zero_inv _ _ D). exists (Cconj C0, None), s. rewrite sizes_S by lia. split; [reflexivity|]. split; [exact G|]. split; [apply sext_refl|]. split; [reflexivity|constructor]. }
    destruct D as [W D]. destruct (ok_ref true t _ _ _ n D O Hn) as (a & es & Ea & En & Oes & Fes & Ra). assert (Ea_S : adjoint_m 0 dims uhash chash (sizes (S n)) e = adjoint_m 0 dims uhash chash (nth n dims 0 :: sizes n) e) by (rewrite sizes_S by lia; reflexivity).
    unfold refines. rewrite Ea_S. cbn [adjoint_m]. rewrite Ea.
    destruct (adj_lookup 0 chash s e) as [r|] eqn:Lk.
    + unfold adj_lookup in Lk. destruct (adj_table s (chash e)) as [[x' r']|] eqn:Tb; [|discriminate]. destruct (edge_eqb 0 x' e) eqn:Q; [|discriminate]. injection Lk as <-. apply edge_eqb_spec in Q. subst x'.
      destruct (sg_adj s G _ _ _ Tb) as (g & k & es' & A & B & F). assert (g = f) by (eapply dene_fun; [exact A|split; assumption]). subst g. assert (k = n) by congruence. subst k.
      exists r', s. split; [reflexivity|]. split; [exact G|]. split; [apply sext_refl|exact F].
    + set (d := nth n dims 0) in *.
      change (refines s true (bind (tab_m (length (edges s true a)) (fun p s0 => adjoint_m 0 dims uhash chash (sizes n) (at_a (edges s0 true a) (d * (p mod d) + p / d)) s0))
        (fun rs => bind (make_node 0 dims uhash true false (fst (cell (heaps s true) a)) rs) (fun r s0 => Done ((Cmul (fst r) (Cconj (fst e)), snd r), adj_insert chash s0 e (Cmul (fst r) (Cconj (fst e)), snd r))))) (conj_transpose 0 (sizes (S n)) f)).
      unfold edges at 1. rewrite (rell_length ref node (den (heaps s true)) _ _ Fes), Ra.
      assert (Ef : conj_transpose 0 (sizes (S n)) f = let r := make 0 true false n (tab (length es) (fun p => conj_transpose 0 (sizes n) (edge_at es (d * (p mod d) + p / d)))) in (Cmul (fst r) (Cconj (fst f)), snd r)).
      { rewrite (sizes_S dims n) by lia. fold d. cbn [conj_transpose]. rewrite En. reflexivity. }
      eapply refines_bind_list; [apply (tab_refines true (length es) _ (fun p => conj_transpose 0 (sizes n) (edge_at es (d * (p mod d) + p / d)))); [exact G|]|].
      * intros p s1 Hp G1 X1. apply IH; [lia|exact G1| |].
        -- apply denes_at. unfold edges. rewrite (proj2 (X1 true a (den_in _ _ _ ltac:(rewrite Ea in D; exact D)))). eapply denes_ext; [apply X1|exact Fes].
        -- apply (okl_edge true t _ _ _ _ Oes). rewrite (proj1 Oes) in Hp. fold d in Hp |- *. change (cols true d) with d in *. assert (Hd : 0 < d) by nia.
           assert (p / d < d) by (apply Nat.div_lt_upper_bound; lia). assert (p mod d < d) by (apply Nat.mod_upper_bound; lia). nia.
      * intros rs s1 G1 X1 F1. eapply refines_bind; [apply (make_refines s1 true false t n); [exact G1|exact Hn|exact F1|apply adj_okl; assumption]|].
        intros r s2 G2 X2 D2. assert (X3 : sext s s2) by (eapply sext_trans; eassumption).
        assert (Dr : dene (heaps s2 true) (Cmul (fst r) (Cconj (fst e)), snd r) (conj_transpose 0 (sizes (S n)) f)).
        { rewrite Ef. cbv zeta. destruct D2 as [W2 D2]. split; [cbn; rewrite W2, W; reflexivity|exact D2]. }
        eexists; eexists. split; [reflexivity|]. split; [|split; [intros b; apply hext_refl|exact Dr]].
        apply good_adj; [exact G2|]. exists f, n, es. split; [eapply dene_ext; [apply X3|split; assumption]|]. split; [exact En|exact Dr].
Qed.

(** ** gates *)
Definition matches (s : store) (m : bool) (c : M aedge) (g : cres edge) : Prop := match g with Done f => refines s m c f | Throw x => c s = Throw x end.
Lemma below_refines tg t es fs cs v s : v < length dims -> sgood s -> Forall2 (dene (heaps s true)) es fs -> entries_ok dims tg t v fs ->
  match below_target 0 dims t (fs, cs) v with None => below_m 0 dims uhash t es cs v s = Throw OutOfRange
  | Some (fs', cs') => refines_list s true (below_m 0 dims uhash t es cs v) fs' /\ cs' = next_control cs v end.
Proof.
  intros Hv G F [L O]. unfold below_target, below_m. destruct (match on_register cs v with Some l => Nat.leb (nth v dims 0) l && Nat.ltb 1 t | None => false end); [reflexivity|]. split; [|reflexivity].
  apply tab_refines; [exact G|]. intros entry s1 He G1 X1. set (d := nth v dims 0).
  set (g := fun p => match on_register cs v with Some l => if Nat.eqb (p / d) l then edge_at fs entry else if Nat.eqb (entry / t) (entry mod t) then make_ident 0 (sizes v) else zero_edge | None => edge_at fs entry end).
  assert (De : forall s2, sext s1 s2 -> dene (heaps s2 true) (at_a es entry) (edge_at fs entry)).
  { intros s2 X2. apply denes_at. eapply denes_ext; [|exact F]. eapply hext_trans; [apply X1|apply X2]. }
  eapply refines_bind_list; [apply (tab_refines true (d * d) _ (fun p => if Nat.eqb (p / d) (p mod d) then g p else zero_edge)); [exact G1|]|].
  - intros p s2 Hp G2 X2. destruct (Nat.eqb (p / d) (p mod d)); [|apply refines_ret; [exact G2|apply dene_zero]]. unfold g.
    destruct (on_register cs v) as [l|]; [|apply refines_ret; [exact G2|apply De; exact X2]]. destruct (Nat.eqb (p / d) l); [apply refines_ret; [exact G2|apply De; exact X2]|].
    destruct (Nat.eqb (entry / t) (entry mod t)); [apply ident_refines; [exact G2|lia]|apply refines_ret; [exact G2|apply dene_zero]].
  - intros qs s2 G2 X2 F2. apply (make_refines s2 true false tg); [exact G2|exact Hv|exact F2|]. apply (diag_layer dims tg v g); [exact Hv|]. intros p _ _. unfold g.
    destruct (on_register cs v) as [l|]; [|apply O; exact He]. destruct (Nat.eqb (p / d) l); [apply O; exact He|]. destruct (Nat.eqb (entry / t) (entry mod t)); [apply ident_oke; [exact pos|lia]|apply oke_zero].
Qed.
Lemma all_below_refines tg t : forall k v es fs cs s, v + k <= length dims -> sgood s -> Forall2 (dene (heaps s true)) es fs -> entries_ok dims tg t v fs ->
  match all_below 0 dims t (fs, cs) (seq v k) with None => all_below_m 0 dims uhash t es cs (seq v k) s = Throw OutOfRange
  | Some (fs', cs') => exists es' s', all_below_m 0 dims uhash t es cs (seq v k) s = Done ((es', cs'), s') /\ sgood s' /\ sext s s' /\ Forall2 (dene (heaps s' true)) es' fs' end.
Proof.
  induction k as [|k IH]; intros v es fs cs s Hv G F O; cbn [seq all_below all_below_m].
  - exists es, s. split; [reflexivity|]. split; [exact G|]. split; [apply sext_refl|exact F].
  - pose proof (below_refines tg t es fs cs v s ltac:(lia) G F O) as B. destruct (below_target 0 dims t (fs, cs) v) as [[fs1 cs1]|] eqn:E1.
    + destruct B as [(es1 & s1 & Q1 & G1 & X1 & F1) ->]. pose proof (below_oke dims pos tg t v (fs, cs) (fs1, next_control cs v) ltac:(lia) O E1) as O1. cbn [fst] in O1.
      specialize (IH (S v) es1 fs1 (next_control cs v) s1 ltac:(lia) G1 F1 O1). unfold bind. rewrite Q1. destruct (all_below 0 dims t (fs1, next_control cs v) (seq (S v) k)) as [[fs2 cs2]|]; [|exact IH].
      destruct IH as (es2 & s2 & Q2 & G2 & X2 & F2). exists es2, s2. split; [exact Q2|]. split; [exact G2|]. split; [eapply sext_trans; eassumption|exact F2].
    + unfold bind. rewrite B. reflexivity.
Qed.
Lemma above_refines tg : forall k v e f cs s, v + k <= length dims -> sgood s -> dene (heaps s true) e f -> oke true tg (sizes v) f ->
  refines s true (above_m 0 dims uhash e cs (seq v k)) (fst (fold_left (above_target 0 dims) (seq v k) (f, cs))).
Proof.
  induction k as [|k IH]; intros v e f cs s Hv G D O; cbn [seq fold_left above_m]; [apply refines_ret; assumption|]. set (d := nth v dims 0).
  set (g := fun p => match on_register cs v with Some l => if Nat.eqb (p / d) l then f else make_ident 0 (sizes v) | None => f end).
  assert (Og : okl true tg d (sizes v) (tab (d * d) (fun p => if Nat.eqb (p / d) (p mod d) then g p else zero_edge))).
  { apply (diag_layer dims tg v g); [lia|]. intros p _ _. unfold g. destruct (on_register cs v) as [l|]; [|exact O]. destruct (Nat.eqb (p / d) l); [exact O|apply ident_oke; [exact pos|lia]]. }
  eapply refines_bind_list; [apply (tab_refines true (d * d) _ (fun p => if Nat.eqb (p / d) (p mod d) then g p else zero_edge)); [exact G|]|].
  - intros p s1 Hp G1 X1. assert (De : dene (heaps s1 true) e f) by (eapply dene_ext; [apply X1|exact D]). destruct (Nat.eqb (p / d) (p mod d)); [|apply refines_ret; [exact G1|apply dene_zero]]. unfold g.
    destruct (on_register cs v) as [l|]; [|apply refines_ret; assumption]. destruct (Nat.eqb (p / d) l); [apply refines_ret; assumption|apply ident_refines; [exact G1|lia]].
  - intros qs s1 G1 X1 F1. eapply refines_bind; [apply (make_refines s1 true false tg); [exact G1|lia|exact F1|exact Og]|]. intros e' s2 G2 X2 D2.
    replace (above_target 0 dims (f, cs) v) with (make 0 true false v (tab (d * d) (fun p => if Nat.eqb (p / d) (p mod d) then g p else zero_edge)), next_control cs v) by reflexivity.
    apply IH; [lia|exact G2|exact D2|]. apply make_layer; [lia|exact Og].
Qed.
Lemma gate_matches s d A cs tg : sgood s -> matches s true (gate_m 0 dims uhash d A cs tg) (gate_dd 0 dims d A cs tg).
Proof.
  intros G. unfold gate_dd, make_gate, gate_m. destruct (nth_error dims tg) as [t|] eqn:E; [|reflexivity].
  assert (Ht : tg < length dims) by (apply nth_error_Some; rewrite E; discriminate). apply (nth_error_nth dims tg 0) in E. destruct (Nat.ltb (d * d) (t * t)); [reflexivity|].
  set (es := tab (t * t) (fun i => let w := A (i / d) (i mod d) in if is_zero w then zero_a else (w, None))). set (fs := tab (t * t) (fun i => let w := A (i / d) (i mod d) in if is_zero w then zero_edge else (w, Term))).
  assert (F : Forall2 (dene (heaps s true)) es fs) by (apply denes_tab; intros i _; cbv zeta; destruct (is_zero (A (i / d) (i mod d))); [apply dene_zero|split; [reflexivity|constructor]]).
  pose proof (all_below_refines tg t tg 0 es fs cs s ltac:(lia) G F (entries_oke dims tg t d A)) as B.
  destruct (all_below 0 dims t (fs, cs) (seq 0 tg)) as [[fs1 cs1]|] eqn:E1.
  - pose proof (all_below_oke dims pos tg t tg 0 (fs, cs) (fs1, cs1) ltac:(lia) (entries_oke dims tg t d A) E1) as O1. cbn [fst plus] in O1.
    pose proof (target_okl dims tg t fs1 Ht E O1) as Ot. rewrite <- E in Ot at 1.
    destruct B as (es1 & s1 & Q1 & G1 & X1 & F1). change (refines s true (bind (all_below_m 0 dims uhash t es cs (seq 0 tg)) (fun st => bind (make_node 0 dims uhash true false tg (fst st)) (fun e => above_m 0 dims uhash e (snd st) (seq (S tg) (length dims - S tg))))) (fst (fold_left (above_target 0 dims) (seq (S tg) (length dims - S tg)) (make 0 true false tg fs1, cs1)))).
    assert (K : refines s1 true (bind (make_node 0 dims uhash true false tg es1) (fun e => above_m 0 dims uhash e cs1 (seq (S tg) (length dims - S tg)))) (fst (fold_left (above_target 0 dims) (seq (S tg) (length dims - S tg)) (make 0 true false tg fs1, cs1)))).
    { eapply refines_bind; [apply (make_refines s1 true false tg); [exact G1|exact Ht|exact F1|exact Ot]|]. intros e s2 G2 X2 D2. apply (above_refines tg); [lia|exact G2|exact D2|]. apply make_layer; [exact Ht|exact Ot]. }
    destruct K as (e & s2 & Q2 & G2 & X2 & D2). exists e, s2. unfold bind at 1. rewrite Q1. split; [exact Q2|]. split; [exact G2|]. split; [eapply sext_trans; eassumption|exact D2].
  - cbv zeta. unfold matches, bind. rewrite B. reflexivity.
Qed.
Lemma gate_oke d A cs tg f : gate_dd 0 dims d A cs tg = Done f -> oke true tg (rev dims) f.
Proof. unfold gate_dd. destruct (make_gate 0 dims d A cs tg) eqn:E; [|discriminate]. intros Q. injection Q as <-. eapply make_gate_oke; eassumption. Qed.

(** ** the simulation *)
Lemma dag_refines s tg b e f : sgood s -> dene (heaps s true) e f -> oke true tg (rev dims) f -> refines s true (dag_m 0 dims uhash chash b e) (dag_dd 0 dims b f).
Proof.
  intros G D O. unfold dag_m, dag_dd. destruct b; [|apply refines_ret; assumption]. rewrite <- sizes_all in *. eapply adjoint_refines; [lia|exact G|exact D|exact O].
Qed.
Lemma dag_oke tg b f : oke true tg (rev dims) f -> oke true tg (rev dims) (dag_dd 0 dims b f).
Proof. intros O. unfold dag_dd. destruct b; [|exact O]. apply conj_transpose_oke; [|exact O]. intros d Hd. apply pos. apply in_rev. exact Hd. Qed.
Definition all_matches (s : store) (c : M aedge) (g : cres edge) : Prop := matches s true c g /\ forall f, g = Done f -> exists tg, oke true tg (rev dims) f.
Lemma gate_dag_matches s d A cs tg b : sgood s -> all_matches s (bind (gate_m 0 dims uhash d A cs tg) (dag_m 0 dims uhash chash b)) (let! e := gate_dd 0 dims d A cs tg in Done (dag_dd 0 dims b e)).
Proof.
  intros G. pose proof (gate_matches s d A cs tg G) as K. split.
  - destruct (gate_dd 0 dims d A cs tg) as [f|x] eqn:E; cbn [matches cbind] in *.
    + eapply refines_bind; [exact K|]. intros e s1 G1 X1 D1. apply (dag_refines s1 tg); [exact G1|exact D1|]. eapply gate_oke. exact E.
    + unfold bind. rewrite K. reflexivity.
  - intros f. destruct (gate_dd 0 dims d A cs tg) as [f0|x] eqn:E; cbn; [|discriminate]. intros Q. injection Q as <-. exists tg. apply dag_oke. eapply gate_oke. exact E.
Qed.
Lemma cex_matches s level phi a b c t dag : sgood s -> all_matches s (cex_m 0 dims uhash chash level phi a b c t dag) (cex_dd 0 dims level phi a b c t dag).
Proof.
  intros G. unfold cex_m, cex_dd. destruct (nth_error dims t) as [d|]; [|split; [reflexivity|discriminate]]. destruct (supported d); [|split; [reflexivity|discriminate]].
  destruct (cpp_emb_x d phi a b) as [A|x]; [|split; [reflexivity|discriminate]]. apply (gate_dag_matches s d A [(c, level)] t dag G).
Qed.
Lemma times_oke tg : forall n fg fr, oke true tg (rev dims) fg -> oke true tg (rev dims) fr -> oke true tg (rev dims) (times 0 same n dims fg fr).
Proof.
  induction n as [|n IH]; intros fg fr Og Or; cbn [times]; [exact Or|]. apply IH; [exact Og|]. apply multiply2_oke; [intros d Hd; apply pos; apply in_rev; exact Hd|exact Or|exact Og].
Qed.
Lemma times_refines tg : forall n s g r fg fr, sgood s -> dene (heaps s true) g fg -> dene (heaps s true) r fr -> oke true tg (rev dims) fg -> oke true tg (rev dims) fr ->
  refines s true (times_m 0 dims uhash ahash mhash n g r) (times 0 same n dims fg fr).
Proof.
  induction n as [|n IH]; intros s g r fg fr G Dg Dr Og Or; cbn [times_m times]; [apply refines_ret; assumption|].
  eapply refines_bind.
  - pose proof (mul_refines true tg (length dims) s r g fr fg (le_n _) G Dr Dg) as K. rewrite sizes_all in K. apply K; assumption.
  - intros e s1 G1 X1 D1. apply (IH s1 g e fg); [exact G1|eapply dene_ext; [apply X1|exact Dg]|exact D1|exact Og|].
    apply multiply2_oke; [intros d Hd; apply pos; apply in_rev; exact Hd|exact Or|exact Og].
Qed.
Lemma csum_levels_matches d c t : forall ls s r fr, sgood s -> dene (heaps s true) r fr -> oke true t (rev dims) fr ->
  matches s true (csum_levels_m 0 dims uhash ahash mhash d c t ls r) (csum_levels 0 same dims d c t ls fr) /\ forall f, csum_levels 0 same dims d c t ls fr = Done f -> oke true t (rev dims) f.
Proof.
  induction ls as [|i ls IH]; intros s r fr G D O; cbn [csum_levels_m csum_levels]; [split; [apply refines_ret; assumption|intros f Q; injection Q as <-; exact O]|].
  pose proof (gate_matches s d (cpp_x d) [(c, i)] t G) as K. destruct (gate_dd 0 dims d (cpp_x d) [(c, i)] t) as [fg|x] eqn:E; cbn [cbind].
  - pose proof (gate_oke _ _ _ _ _ E) as Og. destruct K as (g & s1 & Q1 & G1 & X1 & D1).
    destruct (times_refines t i s1 g r fg fr G1 D1 ltac:(eapply dene_ext; [apply X1|exact D]) Og O) as (r2 & s2 & Q2 & G2 & X2 & D2).
    destruct (IH s2 r2 _ G2 D2 (times_oke t i fg fr Og O)) as [M' O']. split; [|exact O']. unfold matches in *.
    destruct (csum_levels 0 same dims d c t ls (times 0 same i dims fg fr)) as [f|x].
    + destruct M' as (r3 & s3 & Q3 & G3 & X3 & D3). exists r3, s3. unfold bind. rewrite Q1, Q2. split; [exact Q3|]. split; [exact G3|]. split; [eapply sext_trans; [exact X1|]; eapply sext_trans; eassumption|exact D3].
    + unfold bind. rewrite Q1, Q2. exact M'.
  - split; [|discriminate]. cbn [matches]. unfold bind. cbn in K. rewrite K. reflexivity.
Qed.
Lemma csum_matches s c t dag : sgood s -> all_matches s (csum_m 0 dims uhash ahash mhash chash c t dag) (csum_dd 0 same dims c t dag).
Proof.
  intros G. destruct (ident_refines s (length dims) G (le_n _)) as (r & s1 & Q1 & G1 & X1 & D1). rewrite sizes_all in D1.
  unfold all_matches, matches, csum_m, csum_dd. destruct (nth_error dims t) as [d|]; [|split; [unfold bind; rewrite Q1; reflexivity|discriminate]]. destruct (supported d); [|split; [unfold bind; rewrite Q1; reflexivity|discriminate]].
  destruct (nth_error dims c) as [dc|]; [|split; [unfold bind; rewrite Q1; reflexivity|discriminate]].
  assert (Oi : oke true t (rev dims) (make_ident 0 (rev dims))) by (rewrite <- sizes_all; apply ident_oke; [exact pos|lia]).
  destruct (csum_levels_matches d c t (seq 0 dc) s1 r _ G1 D1 Oi) as [M' O']. destruct (csum_levels 0 same dims d c t (seq 0 dc) (make_ident 0 (rev dims))) as [f|x]; cbn [cbind].
  - specialize (O' f eq_refl). split; [|intros f' Q; injection Q as <-; exists t; apply dag_oke; exact O'].
    destruct M' as (r2 & s2 & Q2 & G2 & X2 & D2). destruct (dag_refines s2 t dag r2 f G2 D2 O') as (r3 & s3 & Q3 & G3 & X3 & D3). exists r3, s3. unfold bind. rewrite Q1, Q2. split; [exact Q3|]. split; [exact G3|]. split; [eapply sext_trans; [exact X1|]; eapply sext_trans; eassumption|exact D3].
  - split; [|discriminate]. unfold bind. cbn in M'. rewrite Q1, M'. reflexivity.
Qed.
Lemma lift_matches {A} s (x : cres A) k g : (forall a, x = Done a -> all_matches s (k a) (g a)) -> all_matches s (bind (lift x) k) (cbind x g).
Proof.
  destruct x as [a|e]; intros H; [|split; [reflexivity|discriminate]]. destruct (H a eq_refl) as [M' O']. split; [|exact O']. exact M'.
Qed.
Lemma get_gate_matches s i : sgood s -> all_matches s (get_gate_m 0 dims uhash ahash mhash chash i) (get_gate 0 same dims i).
Proof.
  intros G. unfold get_gate_m, get_gate. destruct (i_targets i) as [|t more]; [split; [reflexivity|discriminate]|].
  destruct (String.eqb (i_tag i) "cx"%string).
  - apply lift_matches. intros l _. apply lift_matches. intros a _. apply lift_matches. intros b _. apply lift_matches. intros level _. apply lift_matches. intros phi _.
    destruct more as [|t1 more]; [split; [reflexivity|discriminate]|]. apply cex_matches. exact G.
  - destruct (String.eqb (i_tag i) "csum"%string).
    + destruct more as [|t1 more]; [split; [reflexivity|discriminate]|]. apply csum_matches. exact G.
    + apply lift_matches. intros mm _. destruct mm as [A|]; [|split; [reflexivity|discriminate]]. destruct (i_dims i) as [|d r]; [split; [reflexivity|discriminate]|]. apply gate_dag_matches. exact G.
Qed.
Lemma oke_vector t t' ds f : oke false t ds f -> oke false t' ds f.
Proof. intros [E|[N O]]; [left; exact E|right; split; [exact N|eapply okn_vector; exact O]]. Qed.
Lemma run_matches : forall is s psi f, sgood s -> dene (heaps s false) psi f -> oke false 0 (rev dims) f ->
  matches s false (run_m 0 dims uhash ahash mhash chash is psi) (run_dd 0 same dims is f) /\ forall f', run_dd 0 same dims is f = Done f' -> oke false 0 (rev dims) f'.
Proof.
  induction is as [|i is IH]; intros s psi f G D O; cbn [run_m run_dd]; [split; [apply refines_ret; assumption|intros f' Q; injection Q as <-; exact O]|].
  destruct (get_gate_matches s i G) as [K Og]. destruct (get_gate 0 same dims i) as [fg|x] eqn:E; cbn [cbind].
  - destruct (Og fg eq_refl) as [tg Oi]. destruct K as (g & s1 & Q1 & G1 & X1 & D1).
    pose proof (mul_refines false tg (length dims) s1 g psi fg f (le_n _) G1 D1 ltac:(eapply dene_ext; [apply X1|exact D])) as K. rewrite sizes_all in K. specialize (K Oi (oke_vector _ _ _ _ O)).
    destruct K as (r2 & s2 & Q2 & G2 & X2 & D2).
    assert (O2 : oke false 0 (rev dims) (multiply2 0 same false (rev dims) fg f)).
    { apply (oke_vector tg). apply multiply2_oke; [intros d Hd; apply pos; apply in_rev; exact Hd|exact Oi|eapply oke_vector; exact O]. }
    destruct (IH s2 r2 _ G2 D2 O2) as [M' O']. split; [|exact O']. unfold matches in *.
    destruct (run_dd 0 same dims is (multiply2 0 same false (rev dims) fg f)) as [f3|x].
    + destruct M' as (r3 & s3 & Q3 & G3 & X3 & D3). exists r3, s3. unfold bind. rewrite Q1, Q2. split; [exact Q3|]. split; [exact G3|]. split; [eapply sext_trans; [exact X1|]; eapply sext_trans; eassumption|exact D3].
    + unfold bind. rewrite Q1, Q2. exact M'.
  - split; [|discriminate]. cbn [matches]. unfold bind. cbn in K. rewrite K. reflexivity.
Qed.

Lemma init_good : sgood init_store.
Proof.
  assert (T : forall a, ~ in_table empty_heap a) by (intros a (v & k & I); exact I).
  split; [|discriminate|discriminate|discriminate|discriminate].
  intros m. change (heaps init_store m) with empty_heap. split.
  - intros a v k I. destruct I.
  - intros a Ta. destruct (T a Ta).
  - intros a I. destruct I.
  - constructor.
  - intros a b Ta. destruct (T a Ta).
  - intros a Ta. destruct (T a Ta).
Qed.
Lemma read_write s : forall n e f amp i next v, dene (heaps s false) e f -> read 0 s n e amp i next v = write 0 n f amp i next v.
Proof.
  induction n as [|n IH]; intros e f amp i next v [W D].
  - cbn [read write]. rewrite W. destruct (snd e); destruct (snd f); reflexivity.
  - cbn [read write]. rewrite W. inversion D as [Er Ef|a fs Ta F Er Ef]; [reflexivity|].
    unfold edges. rewrite (rell_length ref node (den (heaps s false)) _ _ F). set (off := (next - i) / length fs). generalize (seq 0 (length fs)) as ks. revert v.
    intros v ks. revert v. induction ks as [|k ks IHk]; intros v; [reflexivity|]. cbn [fold_left]. pose proof (denes_at (heaps s false) _ fs k F) as Dk. rewrite (proj1 Dk).
    destruct (near_zero 0 (fst (edge_at fs k))); [apply IHk|]. rewrite (IH _ _ _ _ _ _ Dk). apply IHk.
Qed.
Lemma circuit_matches is : matches init_store false (circuit_m 0 dims uhash ahash mhash chash is) (run_dd 0 same dims is (zero_state 0 dims)).
Proof.
  pose proof init_good as G0. destruct (zero_state_refines init_store G0) as (psi & s1 & Q1 & G1 & X1 & D1).
  assert (Oz : oke false 0 (rev dims) (zero_state 0 dims)) by (rewrite <- sizes_all; apply (zero_state_oke dims pos); lia).
  destruct (run_matches is s1 psi _ G1 D1 Oz) as [K _]. unfold matches in *. destruct (run_dd 0 same dims is (zero_state 0 dims)) as [f|x].
  - destruct K as (r & s2 & Q2 & G2 & X2 & D2). exists r, s2. unfold circuit_m, bind. rewrite Q1. split; [exact Q2|]. split; [exact G2|]. split; [eapply sext_trans; eassumption|exact D2].
  - unfold circuit_m, bind. rewrite Q1. exact K.
Qed.
Theorem ddsimulator_same is : ddsimulator_m 0 dims uhash ahash mhash chash is = ddsimulator 0 same dims is.
Proof.
  unfold ddsimulator_m, ddsimulator. pose proof (circuit_matches is) as K. unfold matches in K. destruct (run_dd 0 same dims is (zero_state 0 dims)) as [f|x]; cbn [cbind].
  - destruct K as (r & s & Q & _ & _ & D). rewrite Q. f_equal. unfold get_vector. apply read_write. exact D.
  - rewrite K. reflexivity.
Qed.
Theorem misim_same nm draw is : misim_m 0 dims uhash ahash mhash chash nm draw is = misim 0 same dims nm draw is.
Proof.
  unfold misim_m, misim, simulate. destruct (physical nm); [reflexivity|]. destruct (generate dims nm draw 0 is) as [noisy|x]; [|reflexivity]. cbn [cbind]. rewrite ddsimulator_same. reflexivity.
Qed.

(** ** the memory after a circuit *)
Lemma reached_good psi s : reached dims uhash ahash mhash chash psi s -> sgood s /\ exists f, dene (heaps s false) psi f.
Proof.
  intros [is Q]. pose proof (circuit_matches is) as K. unfold matches in K. destruct (run_dd 0 same dims is (zero_state 0 dims)) as [f|x]; [|congruence].
  destruct K as (r & s' & Q' & G & _ & D). rewrite Q in Q'. injection Q' as <- <-. split; [exact G|]. exists f. exact D.
Qed.
Lemma circuit_root is psi s : circuit_m 0 dims uhash ahash mhash chash is init_store = Done (psi, s) -> dims <> [] ->
  (exists a, snd psi = Some a /\ in_table (heaps s false) a) \/ exists v, ddsimulator_m 0 dims uhash ahash mhash chash is = Done v /\ forall k, v k = C0.
Proof.
  intros Q Nd. pose proof (circuit_matches is) as K. pose proof init_good as G0. destruct (zero_state_refines init_store G0) as (psi0 & s1 & Q1 & G1 & X1 & D1).
  assert (Oz : oke false 0 (rev dims) (zero_state 0 dims)) by (rewrite <- sizes_all; apply (zero_state_oke dims pos); lia).
  destruct (run_matches is s1 psi0 _ G1 D1 Oz) as [_ O]. unfold matches in K. destruct (run_dd 0 same dims is (zero_state 0 dims)) as [f|x] eqn:E; [|congruence]. specialize (O f eq_refl).
  destruct K as (r & s' & Q' & G & _ & D). rewrite Q in Q'. injection Q' as <- <-. destruct O as [-> |[N O]].
  - right. eexists. split; [unfold ddsimulator_m; rewrite Q; reflexivity|]. intros k. rewrite (read_write s _ _ _ _ _ _ _ D). destruct (length dims); cbn; unfold update; destruct (Nat.eqb k 0); try reflexivity; unfold Cmul, C0, C1; cbn; f_equal; ring.
  - left. destruct D as [_ D]. destruct (snd psi) as [a|]; [exists a; split; [reflexivity|eapply den_in; exact D]|]. assert (Et : snd f = Term) by (inversion D; congruence). rewrite Et in O. destruct (rev dims) as [|d r] eqn:Er; [|destruct O]. exfalso. apply Nd. apply (f_equal (@rev nat)) in Er. rewrite rev_involutive in Er. exact Er.
Qed.
Lemma good_children s m a e : sgood s -> in_table (heaps s m) a -> In e (snd (cell (heaps s m) a)) ->
  snd e = None \/ exists b, snd e = Some b /\ in_table (heaps s m) b /\ S (fst (cell (heaps s m) b)) = fst (cell (heaps s m) a).
Proof.
  intros G Ta I. destruct (hg_node m _ (sg_heap s G m) a Ta) as [n [g1 g2 [t g3] g4 g5]]. destruct (ok_ref m t _ _ _ _ g1 g3 g2) as (a' & es & Ea & En & O & F & _). injection Ea as <-.
  apply (In_nth _ _ zero_a) in I. destruct I as (i & Hi & <-). pose proof (denes_at _ _ _ i F) as D. change (at_a (snd (cell (heaps s m) a)) i) with (nth i (snd (cell (heaps s m) a)) zero_a) in D. set (e := nth i _ zero_a) in *.
  rewrite (rell_length ref node (den (heaps s m)) _ _ F) in Hi. rewrite (proj1 O) in Hi. pose proof (okl_edge m t _ _ _ i O Hi) as Oe. destruct D as [W D].
  destruct (snd e) as [b|] eqn:Eb; [right|left; reflexivity]. exists b. split; [reflexivity|]. split; [eapply den_in; exact D|].
  destruct Oe as [Z|[N On]]; [rewrite Z in D; inversion D|]. destruct (fst (cell (heaps s m) a)) as [|v] eqn:Ev; [cbn in On; inversion D as [|b' fs Tb Fb Eq1 Eq2]; rewrite <- Eq2 in On; destruct On|].
  destruct (ok_ref m t _ _ _ v D On ltac:(lia)) as (b' & fs & Q1 & _ & _ & _ & Q2). injection Q1 as <-. rewrite Q2. reflexivity.
Qed.
Lemma good_flag s a n : sgood s -> in_table (heaps s true) a -> den (heaps s true) (Some a) n -> idn (heaps s true) a = is_ident (sizes (S (fst (cell (heaps s true) a)))) n.
Proof.
  intros G Ta D. destruct (hg_node true _ (sg_heap s G true) a Ta) as [n' [g1 g2 g3 g4 g5 g6]]. rewrite (den_fun _ _ _ _ D g1). apply g4. reflexivity.
Qed.
Lemma good_mirror s a n : sgood s -> in_table (heaps s true) a -> den (heaps s true) (Some a) n -> sym (heaps s true) a = true -> mirror (sizes (S (fst (cell (heaps s true) a)))) n.
Proof.
  intros G Ta D Sy. destruct (hg_node true _ (sg_heap s G true) a Ta) as [n' [g1 g2 g3 g4 g5 g6]]. rewrite (den_fun _ _ _ _ D g1). apply g6; [reflexivity|exact Sy].
Qed.
Lemma good_den s m a : sgood s -> in_table (heaps s m) a -> exists n, den (heaps s m) (Some a) n.
Proof. intros G Ta. destruct (hg_node m _ (sg_heap s G m) a Ta) as [n [g1 _ _ _ _ _]]. exists n. exact g1. Qed.

End Machine.

(** a node that is not symmetric above the diagonal makes the check throw *)
Lemma mirrored_throws tol h d es p r : p / d <> p mod d -> symmetric h (snd (at_a es p)) = false -> forall ps,
  (forall q, In q ps -> q / d <> q mod d -> symmetric h (snd (at_a es q)) = true -> edge_eqb tol (at_a es q) (at_a es (q mod d * d + q / d)) = true) -> mirrored tol h d es (ps ++ p :: r) = None.
Proof.
  intros N S. induction ps as [|q ps IH]; intros H; cbn [app mirrored].
  - destruct (Nat.eqb_spec (p / d) (p mod d)) as [E|_]; [contradiction|]. rewrite S. reflexivity.
  - assert (H' : mirrored tol h d es (ps ++ p :: r) = None) by (apply IH; intros; apply H; [right; assumption|assumption|assumption]).
    destruct (Nat.eqb_spec (q / d) (q mod d)) as [E|Nq]; [exact H'|]. destruct (symmetric h (snd (at_a es q))) eqn:Sq; [|reflexivity]. rewrite (H q (or_introl eq_refl) Nq Sq). exact H'.
Qed.
