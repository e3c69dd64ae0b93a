(** Constructed graphs are routable; stored phases. *)
From Coq Require Import Reals Permutation Lra.
From Verif.Base Require Import Py PyFacts Cplx Matrix.
From Verif.Gates Require Import AnglesSpec AnglesModel AnglesProofs AnglesModel AnglesProofs SingleModel SingleSpec SingleProofs.
From Verif.Levels Require Import LevelsModel LevelsSpec GraphProofs LevelsProofs RouteProofs.
Local Open Scope string_scope.
Local Open Scope list_scope.
Local Open Scope nat_scope.

Lemma search_walk g s t k : well_formed g -> forall n p, search g s t n k = Ok p -> walk g p s t.
Proof.
  intros W. induction k as [|k IH]; intros n p; cbn [search]; [discriminate|].
  destruct (find (fun q => (last q s =? t)%Z) (walks g n s)) as [r|] eqn:F; [|apply IH].
  intros H. injection H as ->. apply find_some in F. destruct F as [F1 F2]. apply walks_In in F1; [|exact W].
  destruct F1 as (_ & t' & F1). apply Z.eqb_eq in F2. rewrite (walk_last _ _ _ _ s F1) in F2. subst. exact F1.
Qed.
Definition connectedb (g : lgraph) : bool :=
  forallb (fun s => forallb (fun t => is_ok (search_shortest g s t)) (map fst (nd g))) (map fst (nd g)).
Lemma connectedb_ok g : well_formed g -> connectedb g = true -> connected g.
Proof.
  intros W H s t Hs Ht. unfold connectedb in H. rewrite forallb_forall in H. specialize (H s Hs).
  rewrite forallb_forall in H. specialize (H t Ht). unfold search_shortest in H.
  destruct (search g s t 0 (List.length (nd g))) as [p|] eqn:E; [|discriminate]. exists p. eapply search_walk; eassumption.
Qed.

Lemma new_graph_routable d edges nodes phys init qi og :
  NoDup nodes -> List.length phys = List.length nodes -> NoDup phys -> good_edges nodes edges ->
  (forall n, In n nodes -> (0 <= n < Z.of_nat d)%Z) -> (forall p, In p phys -> (0 <= p < Z.of_nat d)%Z) ->
  (exists n, In n init /\ In n nodes) ->
  connected (new_graph edges nodes phys (Some init) qi og) ->
  routable d (new_graph edges nodes phys (Some init) qi og).
Proof.
  intros ND HL NP GE BN BP (i & Hi & Hin) C.
  assert (NE : nodes <> []) by (intros ->; destruct Hin).
  destruct (new_graph_spec edges nodes phys init qi og ND NE HL GE) as (W & U & N & P & J & L & F). cbn zeta in *.
  set (g := new_graph edges nodes phys (Some init) qi og) in *.
  constructor; trivial.
  - split.
    + intros n Hn. unfold is_node in Hn. rewrite N in Hn.
      assert (Q : exists p, In (n, p) (combine nodes phys)).
      { assert (M := map_fst_combine nodes phys (eq_sym HL)). rewrite <- M in Hn. apply in_map_iff in Hn.
        destruct Hn as ((m, p) & <- & Hp). eauto. }
      destruct Q as (p & Hp). exists p. apply P. exact Hp.
    + intros n m p Hn Hm. apply P in Hn, Hm. clear -Hn Hm NP HL.
      revert phys NP HL Hn Hm. induction nodes as [|x r IH]; intros [|y q] NP HL; cbn; try tauto.
      apply NoDup_cons_iff in NP. destruct NP as [Ny NP].
      assert (SC : forall k, In (k, p) (combine r q) -> In p q) by (intros k Hk; eapply in_combine_r; exact Hk).
      intros [E1|H1] [E2|H2].
      * congruence.
      * injection E1 as <- <-. exfalso. apply Ny. eapply SC. exact H2.
      * injection E2 as <- <-. exfalso. apply Ny. eapply SC. exact H1.
      * eapply IH; [exact NP| |exact H1|exact H2]. cbn in HL. congruence.
  - intros n Hn. unfold is_node in Hn. rewrite N in Hn. apply BN. exact Hn.
  - intros n p H. apply P in H. apply BP. eapply in_combine_r. exact H.
  - intros n Hn. unfold is_node in Hn. rewrite N in Hn. eexists. apply L. split; [exact Hn|reflexivity].
  - exists i. apply L. split; [exact Hin|]. destruct (in_dec Z.eq_dec i init); [reflexivity|contradiction].
  - intros n v H. exfalso. apply (F n v H).
Qed.

Fixpoint nodupb {A} (eqb : A -> A -> bool) (l : list A) : bool :=
  match l with [] => true | x :: r => negb (existsb (eqb x) r) && nodupb eqb r end.
Lemma nodupb_ok {A} (eqb : A -> A -> bool) l : (forall x y, eqb x y = true <-> x = y) -> nodupb eqb l = true -> NoDup l.
Proof.
  intros E. induction l as [|x r IH]; cbn; intros H; [constructor|]. apply Bool.andb_true_iff in H. destruct H as [H1 H2].
  constructor; [|apply IH; exact H2]. intros Hx. apply Bool.negb_true_iff in H1.
  assert (Q : existsb (eqb x) r = true) by (apply existsb_exists; exists x; split; [exact Hx|apply E; reflexivity]). congruence.
Qed.
Definition good_edgesb (nodes : list Z) (edges : list (Z * Z * attrs)) : bool :=
  forallb (fun e => existsb (Z.eqb (fst (fst e))) nodes && existsb (Z.eqb (snd (fst e))) nodes &&
                    nodupb String.eqb (map fst (snd e))) edges &&
  (fix go l := match l with
   | [] => true
   | e :: r => forallb (fun f => negb ((fst (fst e) =? fst (fst f))%Z && (snd (fst e) =? snd (fst f))%Z) &&
                                 negb ((fst (fst e) =? snd (fst f))%Z && (snd (fst e) =? fst (fst f))%Z)) r && go r
   end) edges.
Lemma existsb_Z x l : existsb (Z.eqb x) l = true -> In x l.
Proof. intros H. apply existsb_exists in H. destruct H as (y & Hy & E). apply Z.eqb_eq in E. subst. exact Hy. Qed.
Lemma good_edgesb_ok nodes edges : good_edgesb nodes edges = true -> good_edges nodes edges.
Proof.
  unfold good_edgesb. rewrite Bool.andb_true_iff. intros [H1 H2]. split.
  - apply Forall_forall. rewrite forallb_forall in H1. intros e He. specialize (H1 e He).
    rewrite !Bool.andb_true_iff in H1. destruct H1 as [[A B] C]. apply existsb_Z in A, B.
    split; [exact A|]. split; [exact B|]. apply (nodupb_ok String.eqb); [intros x y; apply String.eqb_eq|exact C].
  - clear H1. induction edges as [|e r IH]; [constructor|]. rewrite Bool.andb_true_iff in H2. destruct H2 as [A B].
    constructor; [|apply IH; exact B]. apply Forall_forall. rewrite forallb_forall in A. intros f Hf. specialize (A f Hf).
    rewrite Bool.andb_true_iff, !Bool.negb_true_iff, !Bool.andb_false_iff, !Z.eqb_neq in A.
    intros [E|[E1 E2]]; destruct A as [A1 A2].
    + rewrite E in A1. destruct A1; congruence.
    + destruct A2; congruence.
Qed.

(** *** phase_storing_setup *)
Lemma phase_setup_spec g : well_formed g ->
  let g' := phase_storing_setup g in
  well_formed g' /\ (forall u v d, joined g' u v d <-> joined g u v d) /\
  (forall n k v, k <> "phase_storage" -> (has_attr g' n k v <-> has_attr g n k v)) /\
  (forall n v, has_attr g' n "phase_storage" v <->
     has_attr g n "phase_storage" v \/ (is_node g n /\ (forall w, ~ has_attr g n "phase_storage" w) /\ v = AInt 0)).
Proof.
  intros W. cbn zeta. set (g' := phase_storing_setup g).
  assert (N : map fst (nd g') = map fst (nd g)) by (unfold g'; cbn; rewrite map_map; reflexivity).
  assert (A : adj g' = adj g) by reflexivity.
  assert (J : forall u v d, joined g' u v d <-> joined g u v d) by (intros; unfold joined; rewrite A; reflexivity).
  assert (G : forall n, nget (nd g') n = match nget (nd g) n with
      | Some a => Some (if dmem String.eqb a "phase_storage" then a else aset a "phase_storage" (AInt 0)) | None => None end).
  { intros n. clear. unfold g'. cbn [nd phase_storing_setup]. induction (nd g) as [|(m, a) r IH]; cbn; [reflexivity|].
    destruct (n =? m)%Z; [reflexivity|exact IH]. }
  assert (W' : well_formed g').
  { constructor.
    - rewrite N. apply (wf_nodes g W).
    - rewrite A, N. apply (wf_adj g W).
    - intros n a H. unfold g' in H. cbn in H. apply in_map_iff in H. destruct H as ((m, b) & E & H). cbn in E. injection E as <- <-.
      assert (Q := wf_attrs g W m b H). destruct (dmem String.eqb b "phase_storage"); [exact Q|]. apply (dset_NoDup String.eqb seq'). exact Q.
    - intros u l. rewrite A. apply (wf_neighbours g W).
    - intros u v d H. apply J in H. eapply (wf_data g W). exact H.
    - intros u v d H. apply J. apply J in H. apply (wf_sym g W). exact H.
    - intros u v d H. apply J in H. unfold is_node. rewrite N. eapply (wf_ends g W). exact H. }
  split; [exact W'|]. split; [exact J|]. split.
  - intros n k v Hk. rewrite (has_attr_alook g' W'), (has_attr_alook g W). unfold alook. rewrite G.
    destruct (nget (nd g) n) as [a|]; [|reflexivity]. destruct (dmem String.eqb a "phase_storage"); [reflexivity|].
    rewrite (dget_dset_other String.eqb seq') by exact Hk. reflexivity.
  - intros n v. rewrite (has_attr_alook g' W'), (has_attr_alook g W). unfold alook at 1. rewrite G.
    assert (NN : is_node g n <-> exists a, nget (nd g) n = Some a) by (unfold is_node; apply nget_key).
    assert (HW : forall w, has_attr g n "phase_storage" w <-> alook (nd g) n "phase_storage" = Some w) by (intros; apply (has_attr_alook g W)).
    unfold alook in *. destruct (nget (nd g) n) as [a|] eqn:E.
    + unfold dmem. destruct (aget a "phase_storage") as [w|] eqn:E2.
      * rewrite E2. split; [auto|]. intros [H|(_ & H & _)]; [exact H|]. exfalso. apply (H w). apply HW. reflexivity.
      * rewrite (dget_dset_same String.eqb seq'). split.
        -- intros H. injection H as <-. right. split; [apply NN; eauto|]. split; [|reflexivity]. intros w H. apply HW in H. discriminate.
        -- intros [H|(_ & _ & ->)]; [discriminate|reflexivity].
    + split; [discriminate|]. intros [H|(H & _)]; [discriminate|]. apply NN in H. destruct H as (a & H). discriminate.
Qed.

Lemma phase_setup_routable d g : routable d g -> routable d (phase_storing_setup g).
Proof.
  intros R. destruct (phase_setup_spec g (rt_wf d g R)) as (W & J & A & P). cbn zeta in *. set (g' := phase_storing_setup g) in *.
  assert (N : forall n, is_node g' n <-> is_node g n) by (intros; unfold is_node, g'; cbn; rewrite map_map; reflexivity).
  assert (PL : forall n p, placed g' n p <-> placed g n p) by (intros; apply A; discriminate).
  assert (WK : forall p s t, walk g p s t -> walk g' p s t).
  { induction 1 as [|s m t p (e & L) _ IH]; [constructor|]. econstructor; [|exact IH]. exists e. apply J. exact L. }
  constructor; trivial.
  - intros n m k v H Hm. apply N in Hm. destruct (string_dec k "phase_storage") as [->|Hk].
    + destruct (Classical_Prop.classic (exists w, has_attr g m "phase_storage" w)) as [(w & Hw)|Hw].
      * exists w. apply P. auto.
      * exists (AInt 0). apply P. right. split; [exact Hm|]. split; [|reflexivity]. intros w H'. apply Hw. eauto.
    + apply (A n k v Hk) in H. destruct (rt_uniform d g R _ _ _ _ H Hm) as (w & Hw). exists w. apply A; assumption.
  - destruct (rt_placement d g R) as [P1 P2]. split.
    + intros n Hn. apply N in Hn. destruct (P1 n Hn) as (p & Hp). exists p. apply PL. exact Hp.
    + intros n m p Hn Hm. apply PL in Hn, Hm. eapply P2; eassumption.
  - intros s t Hs Ht. apply N in Hs, Ht. destruct (rt_connected d g R s t Hs Ht) as (p & Hp). eauto.
  - intros n Hn. apply N in Hn. apply (rt_logical d g R n Hn).
  - intros n p H. apply PL in H. eapply (rt_physical d g R). exact H.
  - intros n Hn. apply N in Hn. destruct (rt_level d g R n Hn) as (v & Hv). exists v. apply A; [discriminate|exact Hv].
  - destruct (rt_initial d g R) as (n & Hn). exists n. apply A; [discriminate|exact Hn].
  - intros n v H. apply P in H. destruct H as [H|(_ & _ & ->)]; [eapply (rt_phases d g R); exact H|]. cbn. eauto.
Qed.

(** *** Rotations seen through stored phases *)
Lemma find_logic_spec d g la lb na nb : routable d g -> find_logic_from_phys la lb g = Ok (na, nb) ->
  (placed g na la \/ (na = (-1)%Z /\ forall n, ~ placed g n la)) /\
  (placed g nb lb \/ (nb = (-1)%Z /\ forall n, ~ placed g n lb)).
Proof.
  intros RT. assert (W := rt_wf d g RT). unfold find_logic_from_phys.
  set (f := fun acc (na : Z * attrs) => _).
  assert (H : forall l2 l1 x y, nd g = l1 ++ l2 ->
    (placed g x la \/ (x = (-1)%Z /\ forall n, In n (map fst l1) -> ~ placed g n la)) ->
    (placed g y lb \/ (y = (-1)%Z /\ forall n, In n (map fst l1) -> ~ placed g n lb)) ->
    fold_left f l2 (Ok (x, y)) = Ok (na, nb) ->
    (placed g na la \/ (na = (-1)%Z /\ forall n, ~ placed g n la)) /\
    (placed g nb lb \/ (nb = (-1)%Z /\ forall n, ~ placed g n lb))).
  { induction l2 as [|(n, A) r IH]; intros l1 x y E Hx Hy; cbn [fold_left].
    - intros F. injection F as <- <-. rewrite app_nil_r in E. subst l1.
      assert (IN : forall n p, placed g n p -> In n (map fst (nd g))) by (intros n p (a & Ha & _); eapply in_keys; exact Ha).
      split; [destruct Hx as [Hx|[-> Hx]]|destruct Hy as [Hy|[-> Hy]]]; auto; right; (split; [reflexivity|]); intros n Hn; [apply (Hx n)|apply (Hy n)]; eauto.
    - assert (HA : In (n, A) (nd g)) by (rewrite E; apply in_or_app; right; left; reflexivity).
      destruct (proj1 (rt_placement d g RT) n) as (p & Hp); [eapply in_keys; exact HA|].
      assert (Hp' := proj1 (has_attr_alook g W n "lpmap" (AInt p)) Hp). unfold alook in Hp'.
      rewrite (dget_complete Z.eqb zeq _ n A (wf_nodes g W) HA) in Hp'.
      unfold f at 2. cbn [bindr snd]. rewrite Hp'. cbn [getk bindr fst snd].
      intros F. apply (IH (l1 ++ [(n, A)]) _ _) in F; [exact F|rewrite <- app_assoc; exact E| |].
      + destruct (Z.eqb_spec p la) as [->|NE]; [left; exact Hp|]. destruct Hx as [Hx|[-> Hx]]; [auto|]. right. split; [reflexivity|].
        intros m Hm. rewrite map_app in Hm. apply in_app_or in Hm. destruct Hm as [Hm|[<-|[]]]; [apply Hx; exact Hm|].
        cbn. intros Hq. apply (has_attr_alook g W) in Hp, Hq. rewrite Hp in Hq. congruence.
      + destruct (Z.eqb_spec p lb) as [->|NE]; [left; exact Hp|]. destruct Hy as [Hy|[-> Hy]]; [auto|]. right. split; [reflexivity|].
        intros m Hm. rewrite map_app in Hm. apply in_app_or in Hm. destruct Hm as [Hm|[<-|[]]]; [apply Hy; exact Hm|].
        cbn. intros Hq. apply (has_attr_alook g W) in Hp, Hq. rewrite Hp in Hq. congruence. }
  intros F. apply (H (nd g) [] (-1)%Z (-1)%Z); trivial; right; (split; [reflexivity|intros n []]).
Qed.

Local Open Scope C_scope.
Lemma diag_rotation d a b t p (f : nat -> R) : a <> b ->
  meq d (mmul d (mdiag (fun l => cis (- f l))) (rotation a b t (p - f a + f b)))
        (mmul d (rotation a b t p) (mdiag (fun l => cis (- f l)))).
Proof.
  intros Hab i j Hi Hj. rewrite (mdiag_mul_l d _ _ i j Hi Hj), (mdiag_mul_r d _ _ i j Hi Hj).
  unfold rotation, two_level, mid.
  destruct (Nat.eqb_spec i a) as [->|Ia]; [|destruct (Nat.eqb_spec i b) as [->|Ib]];
    (destruct (Nat.eqb_spec j a) as [->|Ja]; [|destruct (Nat.eqb_spec j b) as [->|Jb]]);
    try congruence; try ring.
  - replace (cis (- f a) * - (Ci * RtoC (sin (t / 2)) * cis (- (p - f a + f b))))
      with (- (Ci * RtoC (sin (t / 2)) * (cis (- f a) * cis (- (p - f a + f b))))) by ring.
    replace (- (Ci * RtoC (sin (t / 2)) * cis (- p)) * cis (- f b))
      with (- (Ci * RtoC (sin (t / 2)) * (cis (- p) * cis (- f b)))) by ring.
    rewrite <- !cis_add. do 2 f_equal. f_equal. ring.
  - replace (cis (- f b) * - (Ci * RtoC (sin (t / 2)) * cis (p - f a + f b)))
      with (- (Ci * RtoC (sin (t / 2)) * (cis (- f b) * cis (p - f a + f b)))) by ring.
    replace (- (Ci * RtoC (sin (t / 2)) * cis p) * cis (- f a))
      with (- (Ci * RtoC (sin (t / 2)) * (cis p * cis (- f a)))) by ring.
    rewrite <- !cis_add. do 2 f_equal. f_equal. ring.
  - match goal with |- context[Nat.eqb ?x ?y] => destruct (Nat.eqb_spec x y) as [E|E]; [try congruence|]; rewrite ?E; ring end.
  - match goal with |- context[Nat.eqb ?x ?y] => destruct (Nat.eqb_spec x y) as [E|E]; [try congruence|]; rewrite ?E; ring end.
  - match goal with |- context[Nat.eqb ?x ?y] => destruct (Nat.eqb_spec x y) as [E|E]; [try congruence|]; rewrite ?E; ring end.
Qed.

Lemma ongate_pending d r g r' f : routable d g -> (lev_a r < d)%nat -> (lev_b r < d)%nat -> lev_a r <> lev_b r ->
  pending g f -> graph_rule_ongate d r g = Ok r' ->
  (Z.of_nat (lev_a r') = Z.min (Z.of_nat (lev_a r)) (Z.of_nat (lev_b r)) /\
   Z.of_nat (lev_b r') = Z.max (Z.of_nat (lev_a r)) (Z.of_nat (lev_b r)) \/ r' = r) /\
  (lev_a r < lev_b r ->
  meq d (mmul d (mdiag (fun l => cis (- f l))) (r_array d (lev_a r') (lev_b r') (r_theta r') (r_phi r')))
        (mmul d (r_array d (lev_a r) (lev_b r) (r_theta r) (r_phi r)) (mdiag (fun l => cis (- f l)))))%nat.
Proof.
  intros RT Ha Hb Hab (P1 & P2) E. assert (W := rt_wf d g RT). unfold graph_rule_ongate in E.
  destruct (fst_inode_ok d g RT) as (i & Ei & Hi). rewrite Ei in E. cbn [bindr] in E.
  destruct (node_attrs_ok d g RT i (has_node _ _ _ _ Hi)) as (A & EA & HA). rewrite EA in E. cbn [bindr] in E.
  destruct (dmem String.eqb A "phase_storage") eqn:EM; cbn [negb] in E.
  - apply HA in EM. destruct EM as (v & Hv).
    assert (PS : forall n, is_node g n -> exists w x, has_attr g n "phase_storage" w /\ node_attr g n "phase_storage" = Ok w /\ num w = Ok x).
    { intros n Hn. destruct (rt_uniform d g RT _ _ _ _ Hv Hn) as (w & Hw). destruct (rt_phases d g RT n w Hw) as (x & Hx).
      exists w, x. split; [exact Hw|]. split; [apply (node_attr_ok d g RT); exact Hw|exact Hx]. }
    destruct (find_logic_ok d g RT (Z.of_nat (lev_a r)) (Z.of_nat (lev_b r))) as (na & nb & EF & _ & _).
    rewrite EF in E. cbn [bindr] in E. destruct (find_logic_spec d g _ _ _ _ RT EF) as [Na Nb].
    assert (F1 : (if (na =? -1)%Z then Ok (r_phi r)
              else let? v := node_attr g na "phase_storage" in let? x := num v in Ok (r_phi r - x)%R) = Ok (r_phi r - f (lev_a r))%R).
    { destruct Na as [Na|[-> Na]].
      - assert (Hn : is_node g na) by (eapply has_node; exact Na). assert (B := rt_logical d g RT na Hn).
        destruct (Z.eqb_spec na (-1)); [lia|]. destruct (PS na Hn) as (w & x & Hw & -> & Hx). cbn [bindr]. rewrite Hx. cbn [bindr].
        rewrite <- (P1 na _ w x Na Hw Hx), Nat2Z.id. reflexivity.
      - cbn. rewrite (P2 (lev_a r)); [|intros n w Hn; exfalso; apply (Na n Hn)]. f_equal. ring. }
    rewrite F1 in E. cbn [bindr] in E.
    assert (F2 : (if (nb =? -1)%Z then Ok (r_phi r - f (lev_a r))%R
              else let? v := node_attr g nb "phase_storage" in let? x := num v in Ok (r_phi r - f (lev_a r) + x)%R)
              = Ok (r_phi r - f (lev_a r) + f (lev_b r))%R).
    { destruct Nb as [Nb|[-> Nb]].
      - assert (Hn : is_node g nb) by (eapply has_node; exact Nb). assert (B := rt_logical d g RT nb Hn).
        destruct (Z.eqb_spec nb (-1)); [lia|]. destruct (PS nb Hn) as (w & x & Hw & -> & Hx). cbn [bindr]. rewrite Hx. cbn [bindr].
        rewrite <- (P1 nb _ w x Nb Hw Hx), Nat2Z.id. reflexivity.
      - cbn. rewrite (P2 (lev_b r)); [|intros n w Hn; exfalso; apply (Nb n Hn)]. f_equal. ring. }
    rewrite F2 in E. cbn [bindr] in E. rewrite new_R_ok in E by lia. injection E as <-. cbn [lev_a lev_b r_theta r_phi].
    split; [left; split; rewrite Z2Nat.id by lia; reflexivity|]. intros L.
    rewrite Z.min_l, Z.max_r, !Nat2Z.id by lia.
    eapply meq_trans; [|eapply meq_trans; [apply (diag_rotation d (lev_a r) (lev_b r) (r_theta r) (r_phi r) f Hab)|]].
    + apply mmul_ext; [apply meq_refl|]. eapply meq_trans; [apply r_array_rotation; exact Hab|]. apply rotation_regulated.
    + apply mmul_ext; [|apply meq_refl]. apply meq_sym. apply r_array_rotation. exact Hab.
  - injection E as <-. split; [right; reflexivity|]. intros L.
    assert (F0 : forall l, f l = 0%R).
    { intros l. apply P2. intros n w _ Hw. assert (NI : is_node g i) by (eapply has_node; exact Hi).
      destruct (rt_uniform d g RT _ _ _ _ Hw NI) as (w' & Hw'). assert (Q : dmem String.eqb A "phase_storage" = true) by (apply HA; eauto). congruence. }
    assert (D : meq d (mdiag (fun l => cis (- f l))) mid).
    { intros x y Hx Hy. unfold mdiag, mid. destruct (Nat.eqb_spec x y); [|reflexivity]. rewrite F0, Ropp_0. apply cis_0. }
    eapply meq_trans; [apply mmul_ext; [exact D|apply meq_refl]|].
    eapply meq_trans; [apply mmul_id_l|]. apply meq_sym.
    eapply meq_trans; [apply mmul_ext; [apply meq_refl|exact D]|]. apply mmul_id_r.
Qed.

(** *** swap_node_attr_simple *)
Local Open Scope nat_scope.
Lemma index_seq {V} (l : list (Z * V)) n k : map fst l = map Z.of_nat (List.seq k (List.length l)) ->
  k <= n < k + List.length l -> node_index l (Z.of_nat n) = Ok (n - k).
Proof.
  revert k. induction l as [|(m, v) r IH]; intros k E H; cbn in *; [lia|]. injection E as -> E.
  destruct (Z.eqb_spec (Z.of_nat k) (Z.of_nat n)) as [E2|E2].
  - f_equal. lia.
  - rewrite (IH (Datatypes.S k) E) by lia. cbn. f_equal. lia.
Qed.

Lemma write_attr_ok d g n v v0 x : routable d g -> has_attr g n "phase_storage" v0 -> num v = Ok x ->
  exists g', write_attr g n "phase_storage" v = Ok g' /\ map fst (nd g') = map fst (nd g) /\ adj g' = adj g /\ routable d g' /\
   forall m k', alook (nd g') m k' = if ((m =? n)%Z && String.eqb k' "phase_storage")%bool then Some v else alook (nd g) m k'.
Proof.
  intros RT Hp Hv. assert (W := rt_wf d g RT). assert (H : is_node g n) by (eapply has_node; exact Hp).
  assert (Hp' := proj1 (has_attr_alook g W _ _ _) Hp).
  apply nget_key in H. destruct H as (A & HA). unfold write_attr, node_attrs. rewrite HA. cbn [bindr getk].
  eexists. split; [reflexivity|]. cbn [nd adj].
  assert (K : map fst (nset (nd g) n (aset A "phase_storage" v)) = map fst (nd g)) by (apply keys_nset_present; apply nget_key; eauto).
  assert (L : forall m k', alook (nset (nd g) n (aset A "phase_storage" v)) m k' =
     if ((m =? n)%Z && String.eqb k' "phase_storage")%bool then Some v else alook (nd g) m k') by (intros m k'; apply alook_nset; exact HA).
  split; [exact K|]. split; [reflexivity|]. split; [|exact L].
  set (g' := LG _ _ _ _).
  assert (J : forall u w e, joined g' u w e <-> joined g u w e) by reflexivity.
  assert (LK : forall u w, linked g' u w <-> linked g u w) by reflexivity.
  assert (N : forall m, is_node g' m <-> is_node g m) by (intros m; unfold is_node, g'; cbn [nd]; rewrite K; reflexivity).
  assert (W' : well_formed g').
  { constructor.
    - unfold g'; cbn [nd]. rewrite K. apply (wf_nodes g W).
    - unfold g'; cbn [nd adj]. rewrite K. apply (wf_adj g W).
    - intros m B HB. unfold g' in HB. cbn [nd] in HB. apply nset_In in HB. destruct HB as [[-> ->]|HB]; [|apply (wf_attrs g W m B HB)].
      apply (dset_NoDup String.eqb seq'). apply (wf_attrs g W n). apply (dget_In Z.eqb zeq). exact HA.
    - apply (wf_neighbours g W).
    - apply (wf_data g W).
    - apply (wf_sym g W).
    - intros u w e He. apply N. apply (wf_ends g W u w e He). }
  assert (H1 : forall m k w, k <> "phase_storage" -> (has_attr g' m k w <-> has_attr g m k w)).
  { intros m k w Hk. rewrite (has_attr_alook g' W'), (has_attr_alook g W). unfold g'. cbn [nd]. rewrite L.
    destruct (String.eqb_spec k "phase_storage"); [congruence|]. rewrite Bool.andb_false_r. reflexivity. }
  assert (H2 : forall m k, (exists w, has_attr g' m k w) <-> exists w, has_attr g m k w).
  { intros m k. destruct (string_dec k "phase_storage") as [->|Hk].
    - split; intros (w & Hw).
      + apply (has_attr_alook g' W') in Hw. unfold g' in Hw. cbn [nd] in Hw. rewrite L in Hw.
        destruct (Z.eqb_spec m n) as [->|]; cbn in Hw; [eauto|]. exists w. apply (has_attr_alook g W). exact Hw.
      + destruct (Z.eq_dec m n) as [->|Hm].
        * exists v. apply (has_attr_alook g' W'). unfold g'. cbn [nd]. rewrite L, Z.eqb_refl. reflexivity.
        * exists w. apply (has_attr_alook g' W'). unfold g'. cbn [nd]. rewrite L. destruct (Z.eqb_spec m n); [contradiction|]. cbn.
          apply (has_attr_alook g W). exact Hw.
    - split; intros (w & Hw); exists w; apply (H1 m k w Hk); exact Hw. }
  assert (NE : "lpmap"%string <> "phase_storage"%string /\ "level"%string <> "phase_storage"%string) by (split; discriminate).
  destruct NE as [NE1 NE2].
  assert (PL : forall m p, placed g' m p <-> placed g m p) by (intros m p; apply H1; exact NE1).
  constructor.
  - exact W'.
  - intros a b k w Hw Hb. apply H2. assert (Hw' : exists u, has_attr g a k u) by (apply H2; eauto). destruct Hw' as (u & Hu).
    apply (rt_uniform d g RT a b k u Hu). apply N. exact Hb.
  - split.
    + intros m Hm. apply N in Hm. destruct (proj1 (rt_placement d g RT) m Hm) as (p & Hpp). exists p. apply PL. exact Hpp.
    + intros a b p Pa Pb. apply PL in Pa, Pb. apply (proj2 (rt_placement d g RT) a b p Pa Pb).
  - intros s t Hs Ht. apply N in Hs, Ht. destruct (rt_connected d g RT s t Hs Ht) as (p & P). exists p.
    clear -P LK. induction P; [constructor|]. econstructor; [apply LK; eassumption|assumption].
  - intros m Hm. apply N in Hm. apply (rt_logical d g RT m Hm).
  - intros m p Pm. apply PL in Pm. apply (rt_physical d g RT m p Pm).
  - intros m Hm. apply N in Hm. destruct (rt_level d g RT m Hm) as (w & Hw). exists w. apply H1; assumption.
  - destruct (rt_initial d g RT) as (m & Hm). exists m. apply H1; assumption.
  - intros m w Hw. apply (has_attr_alook g' W') in Hw. unfold g' in Hw. cbn [nd] in Hw. rewrite L in Hw.
    destruct ((m =? n)%Z && _)%bool; [injection Hw as <-; eauto|]. apply (rt_phases d g RT m w). apply (has_attr_alook g W). exact Hw.
Qed.

Lemma swap_simple_spec d g a b va vb : routable d g ->
  map fst (nd g) = map Z.of_nat (List.seq 0 (List.length (nd g))) ->
  has_attr g a "phase_storage" va -> has_attr g b "phase_storage" vb ->
  exists g', swap_node_attr_simple g a b = Ok g' /\ map fst (nd g') = map fst (nd g) /\ adj g' = adj g /\ routable d g' /\
    forall m k, alook (nd g') m k = if String.eqb k "phase_storage" then alook (nd g) (tau a b m) k else alook (nd g) m k.
Proof.
  intros RT SQ Ha Hb. assert (W := rt_wf d g RT).
  assert (Na : is_node g a) by (eapply has_node; exact Ha). assert (Nb : is_node g b) by (eapply has_node; exact Hb).
  assert (IX : forall n, is_node g n -> node_index (nd g) n = Ok (Z.to_nat n) /\ (0 <= n)%Z).
  { intros n Hn. unfold is_node in Hn. rewrite SQ in Hn. apply in_map_iff in Hn. destruct Hn as (k & <- & Hk). apply in_seq in Hk.
    split; [|lia]. rewrite (index_seq (nd g) k 0 SQ) by lia. rewrite Nat2Z.id. f_equal. lia. }
  unfold swap_node_attr_simple. destruct (IX a Na) as [-> Pa]. destruct (IX b Nb) as [-> Pb]. cbn [bindr].
  rewrite !Z2Nat.id by assumption.
  destruct (fst_inode_ok d g RT) as (i & -> & Hi). cbn [bindr].
  destruct (node_attrs_ok d g RT i (has_node _ _ _ _ Hi)) as (A & -> & HA). cbn [bindr].
  assert (EM : dmem String.eqb A "phase_storage" = true).
  { apply HA. apply (rt_uniform d g RT _ _ _ _ Ha). eapply has_node. exact Hi. }
  rewrite EM. rewrite (node_attr_ok d g RT _ _ _ Ha), (node_attr_ok d g RT _ _ _ Hb). cbn [bindr].
  destruct (rt_phases d g RT a va Ha) as (xa & Xa). destruct (rt_phases d g RT b vb Hb) as (xb & Xb).
  destruct (write_attr_ok d g a vb va xb RT Ha Xb) as (g1 & -> & N1 & A1 & R1 & L1). cbn [bindr].
  assert (Hb1 : exists w, has_attr g1 b "phase_storage" w).
  { destruct (Z.eq_dec b a) as [->|Hn].
    - exists vb. apply (has_attr_alook g1 (rt_wf d g1 R1)). rewrite L1, Z.eqb_refl. reflexivity.
    - exists vb. apply (has_attr_alook g1 (rt_wf d g1 R1)). rewrite L1. destruct (Z.eqb_spec b a); [contradiction|]. cbn.
      apply (has_attr_alook g W). exact Hb. }
  destruct Hb1 as (w & Hw).
  destruct (write_attr_ok d g1 b va w xa R1 Hw Xa) as (g2 & -> & N2 & A2 & R2 & L2). exists g2.
  split; [reflexivity|]. split; [congruence|]. split; [congruence|]. split; [exact R2|].
  intros m k. rewrite L2, L1.
  apply (has_attr_alook g W) in Ha, Hb.
  destruct (String.eqb_spec k "phase_storage") as [->|Hk]; rewrite ?Bool.andb_false_r, ?Bool.andb_true_r; [|reflexivity].
  unfold tau. destruct (Z.eqb_spec m b) as [E1|E1]; destruct (Z.eqb_spec m a) as [E2|E2]; subst; congruence.
Qed.

Lemma add_pi_spec d g n v x : routable d g -> has_attr g n "phase_storage" v -> num v = Ok x ->
  exists g', add_pi g n = Ok g' /\ map fst (nd g') = map fst (nd g) /\ adj g' = adj g /\ routable d g' /\
   forall m k', alook (nd g') m k' = if ((m =? n)%Z && String.eqb k' "phase_storage")%bool
     then Some (AFlt (new_mod (x + PI) (2 * PI))) else alook (nd g) m k'.
Proof.
  intros RT H X. unfold add_pi. rewrite (node_attr_ok d g RT _ _ _ H). cbn [bindr]. rewrite X. cbn [bindr].
  apply (write_attr_ok d g n _ v (new_mod (x + PI) (2 * PI)) RT H). reflexivity.
Qed.

(** Reading the stored phases through the placement. *)
Lemma pending_change d g g' f na nb a b wa wb xa xb : routable d g -> routable d g' ->
  map fst (nd g') = map fst (nd g) ->
  placed g na (Z.of_nat a) -> placed g nb (Z.of_nat b) -> a <> b ->
  (forall m k, alook (nd g') m k = if String.eqb k "phase_storage"
     then (if (m =? nb)%Z then Some wb else if (m =? na)%Z then Some wa else alook (nd g) m k) else alook (nd g) m k) ->
  num wa = Ok xa -> num wb = Ok xb -> pending g f ->
  pending g' (fun l => if Nat.eqb l b then xb else if Nat.eqb l a then xa else f l).
Proof.
  intros RT RT' K Pa Pb Hab L Xa Xb (P1 & P2). assert (W := rt_wf d g RT). assert (W' := rt_wf d g' RT').
  assert (PL : forall m p, placed g' m p <-> placed g m p).
  { intros m p. unfold placed. rewrite (has_attr_alook g' W'), (has_attr_alook g W), L. reflexivity. }
  assert (U : forall n p q, placed g n p -> placed g n q -> p = q).
  { intros n p q Hp Hq. apply (has_attr_alook g W) in Hp, Hq. congruence. }
  assert (I := proj2 (rt_placement d g RT)).
  split.
  - intros n p v x Hp Hv Hx. apply PL in Hp. assert (Bp := rt_physical d g RT n p Hp).
    apply (has_attr_alook g' W') in Hv. rewrite L in Hv. cbn in Hv.
    destruct (Z.eqb_spec n nb) as [->|Nb].
    + rewrite (U _ _ _ Hp Pb), Nat2Z.id, Nat.eqb_refl. congruence.
    + destruct (Nat.eqb_spec (Z.to_nat p) b) as [E|E].
      { exfalso. apply Nb. apply (I n nb p Hp). replace p with (Z.of_nat b) by lia. exact Pb. }
      destruct (Z.eqb_spec n na) as [->|Na].
      * rewrite (U _ _ _ Hp Pa), Nat2Z.id, Nat.eqb_refl. congruence.
      * destruct (Nat.eqb_spec (Z.to_nat p) a) as [E2|E2].
        { exfalso. apply Na. apply (I n na p Hp). replace p with (Z.of_nat a) by lia. exact Pa. }
        apply (P1 n p v x Hp); [apply (has_attr_alook g W); exact Hv|exact Hx].
  - intros l Hl.
    destruct (Nat.eqb_spec l b) as [->|Lb].
    { exfalso. apply (Hl nb wb); [apply PL; exact Pb|]. apply (has_attr_alook g' W'). rewrite L, Z.eqb_refl. reflexivity. }
    destruct (Nat.eqb_spec l a) as [->|La].
    { exfalso. apply (Hl na wa); [apply PL; exact Pa|]. apply (has_attr_alook g' W'). rewrite L, Z.eqb_refl. cbn.
      destruct (Z.eqb_spec na nb) as [->|]; [|reflexivity]. exfalso. apply Hab. apply Nat2Z.inj. apply (U nb); assumption. }
    apply P2. intros n v Hn Hv. apply (Hl n v); [apply PL; exact Hn|]. apply (has_attr_alook g' W'). rewrite L. cbn.
    destruct (Z.eqb_spec n nb) as [->|]; [exfalso; apply Lb; apply Nat2Z.inj; apply (U nb); assumption|].
    destruct (Z.eqb_spec n na) as [->|]; [exfalso; apply La; apply Nat2Z.inj; apply (U na); assumption|].
    apply (has_attr_alook g W). exact Hv.
Qed.

Local Open Scope R_scope.

Lemma pulse_phases d a b s (f : nat -> R) xa xb : a <> b -> (s = 1 \/ s = -1) ->
  cis (- xa) = (if Rlt_dec 0 s then cis (- f b) else - cis (- f b))%C ->
  cis (- xb) = (if Rlt_dec 0 s then - cis (- f a) else cis (- f a))%C ->
  meq d (mmul d (two_level a b C0 (RtoC (- s)) (RtoC s) C0) (mdiag (fun l => cis (- (if Nat.eqb l b then xb else if Nat.eqb l a then xa else f l)))))
        (mmul d (mdiag (fun l => cis (- f l))) (exchange a b)).
Proof.
  intros Hab Hs Ha Hb i j Hi Hj. rewrite (mdiag_mul_l d _ _ i j Hi Hj), (mdiag_mul_r d _ _ i j Hi Hj).
  unfold exchange, two_level, mid.
  destruct (Nat.eqb_spec i a) as [->|Ia]; [|destruct (Nat.eqb_spec i b) as [->|Ib]];
    (destruct (Nat.eqb_spec j a) as [->|Ja]; [|destruct (Nat.eqb_spec j b) as [->|Jb]]);
    rewrite ?Nat.eqb_refl; try congruence; try ring;
    repeat match goal with |- context[Nat.eqb ?x ?y] => destruct (Nat.eqb_spec x y) as [?E|?E]; try congruence end;
    rewrite ?Ha, ?Hb; try (subst; ring); destruct Hs as [-> | ->]; destruct (Rlt_dec 0 _); try lra; csolve.
Qed.

Lemma quarter_pulse d a b t p s : a <> b -> (t = PI \/ t = - PI) -> (p = PI / 2 \/ p = - PI / 2) ->
  (s = 1 /\ 0 < t * p \/ s = -1 /\ t * p < 0) ->
  meq d (rotation a b t p) (two_level a b C0 (RtoC (- s)) (RtoC s) C0).
Proof.
  intros Hab Ht Hp Hs i j Hi Hj. pose proof PI_RGT_0 as HP.
  assert (Sg : (s = 1 /\ (t = PI /\ p = PI / 2 \/ t = - PI /\ p = - PI / 2)) \/ (s = -1 /\ (t = PI /\ p = - PI / 2 \/ t = - PI /\ p = PI / 2))).
  { destruct Ht as [-> | ->], Hp as [-> | ->], Hs as [[-> Hs]|[-> Hs]]; try (exfalso; nra); auto. }
  unfold rotation, two_level.
  assert (Q : RtoC (cos (t / 2)) = C0 /\ (- (Ci * RtoC (sin (t / 2)) * cis (- p)))%C = RtoC (- s) /\
              (- (Ci * RtoC (sin (t / 2)) * cis p))%C = RtoC s).
  { assert (S1 : - PI / 2 = - (PI / 2)) by field.
    destruct Sg as [[-> [[-> ->]|[-> ->]]]|[-> [[-> ->]|[-> ->]]]];
      rewrite ?S1, ?Ropp_involutive, ?cos_neg, ?sin_neg, ?cos_PI2, ?sin_PI2;
      unfold cis; rewrite ?cos_neg, ?sin_neg, ?cos_PI2, ?sin_PI2; (split; [reflexivity|split; csolve]). }
  destruct Q as (-> & -> & ->). reflexivity.
Qed.

Lemma rotation_phi_mod a b t p q d : same_mod (2 * PI) p q -> meq d (rotation a b t p) (rotation a b t q).
Proof.
  intros H. assert (E : cis p = cis q) by (apply cis_same_mod; exact H).
  assert (E' : cis (- p) = cis (- q)).
  { apply cis_same_mod. destruct H as (k & Hk). exists (- k)%Z. rewrite Hk, opp_IZR. ring. }
  unfold rotation. rewrite E, E'. apply meq_refl.
Qed.

(** What graph_rule_update stores, for every half turn. *)
Lemma update_values d r g f na nb : routable d g ->
  map fst (nd g) = map Z.of_nat (List.seq 0 (List.length (nd g))) ->
  (exists n v, has_attr g n "phase_storage" v) ->
  placed g na (Z.of_nat (lev_a r)) -> placed g nb (Z.of_nat (lev_b r)) -> lev_a r <> lev_b r ->
  Rabs (Rabs (r_theta r) - PI) < 1 / 100 -> pending g f ->
  exists g' xa xb, graph_rule_update r g = Ok g' /\ routable d g' /\ map fst (nd g') = map fst (nd g) /\ adj g' = adj g /\
    (forall n p, placed g' n p <-> placed g n p) /\
    pending g' (fun l => if Nat.eqb l (lev_b r) then xb else if Nat.eqb l (lev_a r) then xa else f l) /\
    cis (- xa) = (if Rlt_dec (r_theta r * pi_mod (r_phi r)) 0 then - cis (- f (lev_b r)) else cis (- f (lev_b r)))%C /\
    cis (- xb) = (if Rlt_dec 0 (r_theta r * pi_mod (r_phi r)) then - cis (- f (lev_a r)) else cis (- f (lev_a r)))%C.
Proof.
  intros RT SQ (n0 & v0 & H0) Pa Pb Hab TH PF. pose proof PI_RGT_0 as HP. assert (W := rt_wf d g RT).
  unfold graph_rule_update. destruct (Rlt_dec (Rabs (Rabs (r_theta r) - PI)) (1 / 100)) as [_|N]; [|contradiction].
  destruct (fst_inode_ok d g RT) as (i & -> & Hi). cbn [bindr].
  destruct (node_attrs_ok d g RT i (has_node _ _ _ _ Hi)) as (A & -> & HA). cbn [bindr].
  assert (EM : dmem String.eqb A "phase_storage" = true).
  { apply HA. apply (rt_uniform d g RT _ _ _ _ H0). eapply has_node. exact Hi. }
  rewrite EM. cbn [negb].
  destruct (find_logic_ok d g RT (Z.of_nat (lev_a r)) (Z.of_nat (lev_b r))) as (na' & nb' & EF & _ & _).
  rewrite EF. cbn [bindr]. destruct (find_logic_spec d g _ _ _ _ RT EF) as [Qa Qb].
  assert (na' = na). { destruct Qa as [Qa|[_ Qa]]; [apply (proj2 (rt_placement d g RT) _ _ _ Qa Pa)|exfalso; apply (Qa na Pa)]. } subst na'.
  assert (nb' = nb). { destruct Qb as [Qb|[_ Qb]]; [apply (proj2 (rt_placement d g RT) _ _ _ Qb Pb)|exfalso; apply (Qb nb Pb)]. } subst nb'.
  assert (Na : is_node g na) by (eapply has_node; exact Pa). assert (Nb : is_node g nb) by (eapply has_node; exact Pb).
  assert (Ba := rt_logical d g RT na Na). assert (Bb := rt_logical d g RT nb Nb).
  destruct (Z.eqb_spec na (-1)); [lia|]. destruct (Z.eqb_spec nb (-1)); [lia|]. cbn [negb andb].
  destruct (rt_uniform d g RT _ _ _ _ H0 Na) as (va & Va). destruct (rt_uniform d g RT _ _ _ _ H0 Nb) as (vb & Vb).
  destruct (rt_phases d g RT na va Va) as (xa & Xa). destruct (rt_phases d g RT nb vb Vb) as (xb & Xb).
  destruct (swap_simple_spec d g na nb va vb RT SQ Va Vb) as (g1 & -> & K1 & A1 & R1 & L1). cbn [bindr].
  assert (W1 := rt_wf d g1 R1).
  assert (Nab : na <> nb). { intros E. apply Hab. apply Nat2Z.inj. rewrite E in Pa. apply (has_attr_alook g W) in Pa, Pb. congruence. }
  assert (Va' := proj1 (has_attr_alook g W _ _ _) Va). assert (Vb' := proj1 (has_attr_alook g W _ _ _) Vb).
  assert (Va1 : has_attr g1 na "phase_storage" vb).
  { apply (has_attr_alook g1 W1). rewrite L1. cbn. unfold tau. rewrite Z.eqb_refl. exact Vb'. }
  assert (Vb1 : has_attr g1 nb "phase_storage" va).
  { apply (has_attr_alook g1 W1). rewrite L1. cbn. unfold tau. rewrite Z.eqb_refl. destruct (Z.eqb_spec nb na); [congruence|exact Va']. }
  assert (Fa : f (lev_a r) = xa). { rewrite <- (proj1 PF na _ va xa Pa Va Xa), Nat2Z.id. reflexivity. }
  assert (Fb : f (lev_b r) = xb). { rewrite <- (proj1 PF nb _ vb xb Pb Vb Xb), Nat2Z.id. reflexivity. }
  assert (CP : forall x, cis (- new_mod (x + PI) (2 * PI)) = (- cis (- x))%C).
  { intros x. transitivity (cis (- x + - PI)).
    - apply cis_same_mod. destruct (new_mod_spec (x + PI) (2 * PI)) as ((k & Hk) & _); [lra|]. exists (- k)%Z. rewrite Hk, opp_IZR. ring.
    - rewrite cis_add. unfold cis at 2. rewrite cos_neg, sin_neg, cos_PI, sin_PI. csolve. }
  destruct (Rlt_dec 0 (r_theta r * pi_mod (r_phi r))) as [Pos|NPos].
  - destruct (Rlt_dec (r_theta r * pi_mod (r_phi r)) 0) as [?|_]; [lra|].
    destruct (add_pi_spec d g1 nb va xa R1 Vb1 Xa) as (g' & -> & K' & A' & R' & L').
    assert (LL : forall m k, alook (nd g') m k = if String.eqb k "phase_storage"
       then (if (m =? nb)%Z then Some (AFlt (new_mod (xa + PI) (2 * PI))) else if (m =? na)%Z then Some vb else alook (nd g) m k) else alook (nd g) m k).
    { intros m k. rewrite L', L1. destruct (String.eqb_spec k "phase_storage") as [->|]; rewrite ?Bool.andb_false_r, ?Bool.andb_true_r; [|reflexivity].
      unfold tau. destruct (Z.eqb_spec m nb) as [->|]; [reflexivity|]. destruct (Z.eqb_spec m na) as [->|]; [exact Vb'|reflexivity]. }
    exists g', xb, (new_mod (xa + PI) (2 * PI)). split; [reflexivity|]. split; [exact R'|]. split; [congruence|]. split; [congruence|]. split.
    { intros m p. unfold placed. rewrite (has_attr_alook g' (rt_wf d g' R')), (has_attr_alook g W), LL. reflexivity. }
    split; [eapply (pending_change d g g' f na nb _ _ _ _ xb (new_mod (xa + PI) (2 * PI)) RT R'); [congruence|exact Pa|exact Pb|exact Hab|exact LL|exact Xb|reflexivity|exact PF]|].
    rewrite Fa, Fb. split; [reflexivity|apply CP].
  - destruct (Rlt_dec (r_theta r * pi_mod (r_phi r)) 0) as [Neg|NNeg].
    + destruct (add_pi_spec d g1 na vb xb R1 Va1 Xb) as (g' & -> & K' & A' & R' & L').
      assert (LL : forall m k, alook (nd g') m k = if String.eqb k "phase_storage"
         then (if (m =? nb)%Z then Some va else if (m =? na)%Z then Some (AFlt (new_mod (xb + PI) (2 * PI))) else alook (nd g) m k) else alook (nd g) m k).
      { intros m k. rewrite L', L1. destruct (String.eqb_spec k "phase_storage") as [->|]; rewrite ?Bool.andb_false_r, ?Bool.andb_true_r; [|reflexivity].
        unfold tau. destruct (Z.eqb_spec m na) as [->|].
        - destruct (Z.eqb_spec na nb); [congruence|reflexivity].
        - destruct (Z.eqb_spec m nb) as [->|]; [exact Va'|reflexivity]. }
      exists g', (new_mod (xb + PI) (2 * PI)), xa. split; [reflexivity|]. split; [exact R'|]. split; [congruence|]. split; [congruence|]. split.
      { intros m p. unfold placed. rewrite (has_attr_alook g' (rt_wf d g' R')), (has_attr_alook g W), LL. reflexivity. }
      split; [eapply (pending_change d g g' f na nb _ _ _ _ (new_mod (xb + PI) (2 * PI)) xa RT R'); [congruence|exact Pa|exact Pb|exact Hab|exact LL|reflexivity|exact Xa|exact PF]|].
      rewrite Fa, Fb. split; [apply CP|reflexivity].
    + assert (LL : forall m k, alook (nd g1) m k = if String.eqb k "phase_storage"
         then (if (m =? nb)%Z then Some va else if (m =? na)%Z then Some vb else alook (nd g) m k) else alook (nd g) m k).
      { intros m k. rewrite L1. destruct (String.eqb_spec k "phase_storage") as [->|]; [|reflexivity].
        unfold tau. destruct (Z.eqb_spec m na) as [->|].
        - destruct (Z.eqb_spec na nb); [congruence|exact Vb'].
        - destruct (Z.eqb_spec m nb) as [->|]; [exact Va'|reflexivity]. }
      exists g1, xb, xa. split; [reflexivity|]. split; [exact R1|]. split; [congruence|]. split; [congruence|]. split.
      { intros m p. unfold placed. rewrite (has_attr_alook g1 W1), (has_attr_alook g W), LL. reflexivity. }
      split; [eapply (pending_change d g g1 f na nb _ _ _ _ xb xa RT R1); [congruence|exact Pa|exact Pb|exact Hab|exact LL|exact Xb|exact Xa|exact PF]|].
      rewrite Fa, Fb. split; reflexivity.
Qed.

Lemma half_turn t : t = PI \/ t = - PI -> Rabs (Rabs t - PI) < 1 / 100.
Proof.
  intros Ht. pose proof PI_RGT_0 as HP.
  assert (TH : Rabs t = PI) by (destruct Ht as [-> | ->]; rewrite ?Rabs_Ropp; apply Rabs_right; lra).
  rewrite TH. replace (PI - PI) with 0 by ring. rewrite Rabs_R0. lra.
Qed.

Lemma update_pending d r g f na nb : routable d g ->
  map fst (nd g) = map Z.of_nat (List.seq 0 (List.length (nd g))) ->
  (exists n v, has_attr g n "phase_storage" v) ->
  placed g na (Z.of_nat (lev_a r)) -> placed g nb (Z.of_nat (lev_b r)) -> lev_a r <> lev_b r ->
  (r_theta r = PI \/ r_theta r = - PI) -> (pi_mod (r_phi r) = PI / 2 \/ pi_mod (r_phi r) = - PI / 2) ->
  pending g f ->
  exists g' f', graph_rule_update r g = Ok g' /\ routable d g' /\ map fst (nd g') = map fst (nd g) /\ adj g' = adj g /\
    (forall n p, placed g' n p <-> placed g n p) /\ pending g' f' /\
    meq d (mmul d (r_array d (lev_a r) (lev_b r) (r_theta r) (r_phi r)) (mdiag (fun l => cis (- f' l))))
          (mmul d (mdiag (fun l => cis (- f l))) (exchange (lev_a r) (lev_b r))).
Proof.
  intros RT SQ H0 Pa Pb Hab Ht Hp PF. pose proof PI_RGT_0 as HP.
  destruct (update_values d r g f na nb RT SQ H0 Pa Pb Hab (half_turn _ Ht) PF) as (g' & xa & xb & E & R' & K & A & PL & PF' & Xa & Xb).
  exists g'. eexists. split; [exact E|]. split; [exact R'|]. split; [exact K|]. split; [exact A|]. split; [exact PL|].
  split; [exact PF'|].
  destruct (pi_mod_spec (r_phi r)) as [SM _].
  assert (RM : meq d (r_array d (lev_a r) (lev_b r) (r_theta r) (r_phi r)) (rotation (lev_a r) (lev_b r) (r_theta r) (pi_mod (r_phi r)))).
  { eapply meq_trans; [apply r_array_rotation; exact Hab|]. apply meq_sym. apply rotation_phi_mod. exact SM. }
  assert (NZ : 0 < r_theta r * pi_mod (r_phi r) \/ r_theta r * pi_mod (r_phi r) < 0).
  { destruct Ht as [-> | ->], Hp as [-> | ->]; [left|right|right|left]; nra. }
  eapply meq_trans; [apply mmul_ext; [exact RM|apply meq_refl]|].
  destruct NZ as [NZ|NZ].
  - eapply meq_trans; [apply mmul_ext; [apply (quarter_pulse d _ _ _ _ 1 Hab Ht Hp); left; split; [reflexivity|exact NZ]|apply meq_refl]|].
    apply pulse_phases; [exact Hab|left; reflexivity| |]; destruct (Rlt_dec 0 1) as [_|N]; [|exfalso; apply N; lra| |exfalso; apply N; lra].
    + rewrite Xa. destruct (Rlt_dec _ 0); [exfalso; lra|reflexivity].
    + rewrite Xb. destruct (Rlt_dec 0 _); [reflexivity|exfalso; lra].
  - eapply meq_trans; [apply mmul_ext; [apply (quarter_pulse d _ _ _ _ (-1) Hab Ht Hp); right; split; [reflexivity|exact NZ]|apply meq_refl]|].
    apply pulse_phases; [exact Hab|right; reflexivity| |]; destruct (Rlt_dec 0 (-1)) as [N|_]; [exfalso; lra| |exfalso; lra|].
    + rewrite Xa. destruct (Rlt_dec _ 0); [reflexivity|exfalso; lra].
    + rewrite Xb. destruct (Rlt_dec 0 _); [exfalso; lra|reflexivity].
Qed.

Lemma pending_unique d g f f' n p : routable d g -> pending g f -> pending g f' -> placed g n p -> f (Z.to_nat p) = f' (Z.to_nat p).
Proof.
  intros RT (P & P0) (P' & P0') Hp. assert (W := rt_wf d g RT). assert (B := rt_physical d g RT n p Hp).
  destruct (alook (nd g) n "phase_storage") as [w|] eqn:E.
  - apply (has_attr_alook g W) in E. destruct (rt_phases d g RT n w E) as (x & Hx).
    rewrite (P n p w x Hp E Hx), (P' n p w x Hp E Hx). reflexivity.
  - assert (N : forall m v, placed g m (Z.of_nat (Z.to_nat p)) -> ~ has_attr g m "phase_storage" v).
    { intros m v Hm Hv. rewrite Z2Nat.id in Hm by lia. rewrite (proj2 (rt_placement d g RT) m n p Hm Hp) in Hv.
      apply (has_attr_alook g W) in Hv. congruence. }
    rewrite (P0 _ N), (P0' _ N). reflexivity.
Qed.

(** With any other azimuth the stored phases are wrong. *)
Lemma update_pending_wrong d r g f na nb : routable d g ->
  map fst (nd g) = map Z.of_nat (List.seq 0 (List.length (nd g))) ->
  (exists n v, has_attr g n "phase_storage" v) ->
  placed g na (Z.of_nat (lev_a r)) -> placed g nb (Z.of_nat (lev_b r)) -> lev_a r <> lev_b r ->
  (r_theta r = PI \/ r_theta r = - PI) -> cos (r_phi r) <> 0 ->
  pending g f ->
  exists g', graph_rule_update r g = Ok g' /\ forall f', pending g' f' ->
    ~ meq d (mmul d (r_array d (lev_a r) (lev_b r) (r_theta r) (r_phi r)) (mdiag (fun l => cis (- f' l))))
          (mmul d (mdiag (fun l => cis (- f l))) (exchange (lev_a r) (lev_b r))).
Proof.
  intros RT SQ H0 Pa Pb Hab Ht Hp PF.
  destruct (update_values d r g f na nb RT SQ H0 Pa Pb Hab (half_turn _ Ht) PF) as (g' & xa & xb & E & R' & K & A & PL & PF' & Xa & Xb).
  exists g'. split; [exact E|]. intros f' Pf' M.
  set (a := lev_a r) in *. set (b := lev_b r) in *.
  assert (Ba : (a < d)%nat). { assert (B := rt_physical d g RT _ _ Pa). lia. }
  assert (Bb : (b < d)%nat). { assert (B := rt_physical d g RT _ _ Pb). lia. }
  assert (Fa : f' a = xa).
  { assert (U := pending_unique d g' _ _ na _ R' Pf' PF' (proj2 (PL _ _) Pa)). rewrite Nat2Z.id in U. rewrite U.
    destruct (Nat.eqb_spec a b); [congruence|]. rewrite Nat.eqb_refl. reflexivity. }
  assert (Q := M b a Bb Ba). rewrite (mdiag_mul_l d _ _ b a Bb Ba), (mdiag_mul_r d _ _ b a Bb Ba) in Q.
  rewrite (r_array_rotation d a b _ _ Hab b a Bb Ba), Fa, Xa in Q.
  unfold rotation, exchange, two_level in Q. rewrite !Nat.eqb_refl in Q.
  destruct (Nat.eqb_spec b a); [congruence|].
  assert (Q2 : exists e, (e = 1 \/ e = -1) /\ (- (Ci * RtoC (sin (r_theta r / 2)) * cis (r_phi r)) * RtoC e = C1)%C).
  { exists (if Rlt_dec (r_theta r * pi_mod (r_phi r)) 0 then -1 else 1).
    split; [destruct (Rlt_dec _ 0); auto|].
    transitivity (- (Ci * RtoC (sin (r_theta r / 2)) * cis (r_phi r)) *
       (if Rlt_dec (r_theta r * pi_mod (r_phi r)) 0 then - cis (- f b) else cis (- f b)) * cis (f b))%C.
    - destruct (Rlt_dec _ 0).
      + replace (RtoC (-1)) with (- (cis (- f b) * cis (f b)))%C; [ring|]. rewrite <- cis_add. replace (- f b + f b) with 0 by ring. rewrite cis_0. csolve.
      + replace (RtoC 1) with (cis (- f b) * cis (f b))%C; [ring|]. rewrite <- cis_add. replace (- f b + f b) with 0 by ring. rewrite cis_0. csolve.
    - rewrite Q. replace (cis (- f b) * C1 * cis (f b))%C with (cis (- f b) * cis (f b))%C by ring.
      rewrite <- cis_add. replace (- f b + f b) with 0 by ring. apply cis_0. }
  destruct Q2 as (e & He & Q2).
  assert (SN : sin (r_theta r / 2) = 1 \/ sin (r_theta r / 2) = -1).
  { destruct Ht as [-> | ->]; [left; apply sin_PI2|right]. replace (- PI / 2) with (- (PI / 2)) by field. rewrite sin_neg, sin_PI2. reflexivity. }
  apply (f_equal snd) in Q2. unfold Cmul, Copp, Ci, RtoC, cis, C1 in Q2. cbn in Q2.
  destruct He as [-> | ->], SN as [SN|SN]; rewrite SN in Q2; apply Hp; lra.
Qed.

(** *** get_vrz_gates *)

Lemma vrz_spec d g dims qi : routable d g -> og_dims g = Some dims -> LevelsModel.qudit_index g = Some qi -> pyindex dims qi = Ok d ->
  (forall n v, has_attr g n "phase_storage" v -> v = AInt 0 \/ exists x, v = AFlt x) ->
  exists l, get_vrz_gates g = Ok l /\ ~ In None l /\
    forall p t, In (Some (p, t)) l <->
      exists n x, placed g n (Z.of_nat p) /\ has_attr g n "phase_storage" (AFlt x) /\ noticed x /\ t = regulate_theta x.
Proof.
  intros RT HO HQ HD HV. assert (W := rt_wf d g RT). unfold get_vrz_gates. rewrite HO, HQ. cbn [bindr]. rewrite HD. cbn [bindr].
  set (F := fun acc (na : Z * attrs) => _).
  assert (H : forall l2 l1 out, nd g = l1 ++ l2 -> ~ In None out ->
    (forall p t, In (Some (p, t)) out <->
      exists n x, In n (map fst l1) /\ placed g n (Z.of_nat p) /\ has_attr g n "phase_storage" (AFlt x) /\ noticed x /\ t = regulate_theta x) ->
    exists l, fold_left F l2 (Ok out) = Ok l /\ ~ In None l /\
    (forall p t, In (Some (p, t)) l <->
      exists n x, In n (map fst (nd g)) /\ placed g n (Z.of_nat p) /\ has_attr g n "phase_storage" (AFlt x) /\ noticed x /\ t = regulate_theta x)).
  { induction l2 as [|(n, A) r IH]; intros l1 out E NN S0; cbn [fold_left].
    - exists out. rewrite app_nil_r in E. rewrite E. auto.
    - assert (HA : In (n, A) (nd g)) by (rewrite E; apply in_or_app; right; left; reflexivity).
      destruct (proj1 (rt_placement d g RT) n) as (p & Hp); [eapply in_keys; exact HA|].
      assert (Bp := rt_physical d g RT n p Hp).
      assert (AL : forall k, alook (nd g) n k = aget A k).
      { intros k. unfold alook. rewrite (dget_complete Z.eqb zeq _ n A (wf_nodes g W) HA). reflexivity. }
      assert (Hp' := proj1 (has_attr_alook g W n "lpmap" (AInt p)) Hp). rewrite AL in Hp'.
      assert (Skip : (forall x, has_attr g n "phase_storage" (AFlt x) -> ~ noticed x) ->
        exists l, fold_left F r (Ok out) = Ok l /\ ~ In None l /\
        (forall p t, In (Some (p, t)) l <->
          exists n x, In n (map fst (nd g)) /\ placed g n (Z.of_nat p) /\ has_attr g n "phase_storage" (AFlt x) /\ noticed x /\ t = regulate_theta x)).
      { intros SK. apply (IH (l1 ++ [(n, A)])); [rewrite <- app_assoc; exact E|exact NN|].
        intros q t. rewrite S0, map_app. split; intros (m & x & Hm & H1 & H2 & H3 & H4); exists m, x; (split; [|auto]).
        - apply in_or_app. left. exact Hm.
        - apply in_app_or in Hm. destruct Hm as [Hm|[<-|[]]]; [exact Hm|]. exfalso. apply (SK x H2 H3). }
      unfold F at 2. cbn [bindr snd].
      destruct (aget A "phase_storage") as [v|] eqn:EV.
      2:{ apply Skip. intros x Hx. apply (has_attr_alook g W) in Hx. rewrite AL in Hx. congruence. }
      assert (Hv : has_attr g n "phase_storage" v) by (apply (has_attr_alook g W); rewrite AL; exact EV).
      assert (UV : forall x, has_attr g n "phase_storage" (AFlt x) -> v = AFlt x).
      { intros x Hx. apply (has_attr_alook g W) in Hx. rewrite AL, EV in Hx. congruence. }
      destruct (HV n v Hv) as [->|(x & ->)].
      + cbn [num bindr]. destruct (Rlt_dec (1 / 1000) 0) as [?|_]; [lra|].
        destruct (Rlt_dec (1 / 1000) (rmod 0 (2 * PI))) as [Q|_].
        { exfalso. pose proof PI_RGT_0. rewrite rmod_small in Q by lra. lra. }
        apply Skip. intros x Hx. apply UV in Hx. discriminate.
      + cbn [num bindr]. rewrite Hp'. cbn [getk bindr].
        assert (VP : virtrz_params d (AInt p) (AFlt x) = Some (Z.to_nat p, regulate_theta x)).
        { unfold virtrz_params. destruct (Z.leb_spec 0 p); [|lia]. destruct (Z.ltb_spec p (Z.of_nat d)); [|lia]. reflexivity. }
        assert (Put : noticed x -> exists l, fold_left F r (Ok (out ++ [virtrz_params d (AInt p) (AFlt x)])) = Ok l /\ ~ In None l /\
        (forall p t, In (Some (p, t)) l <->
          exists n x, In n (map fst (nd g)) /\ placed g n (Z.of_nat p) /\ has_attr g n "phase_storage" (AFlt x) /\ noticed x /\ t = regulate_theta x)).
        { intros NT. rewrite VP. apply (IH (l1 ++ [(n, A)])); [rewrite <- app_assoc; exact E| |].
          - intros Hn. apply in_app_or in Hn. destruct Hn as [Hn|[Hn|[]]]; [contradiction|discriminate].
          - intros q t. rewrite map_app. split.
            + intros Hn. apply in_app_or in Hn. destruct Hn as [Hn|[Hn|[]]].
              * apply S0 in Hn. destruct Hn as (m & y & Hm & R0). exists m, y. split; [apply in_or_app; left; exact Hm|exact R0].
              * injection Hn as <- <-. exists n, x. split; [apply in_or_app; right; left; reflexivity|].
                rewrite Z2Nat.id by lia. auto.
            + intros (m & y & Hm & H1 & H2 & H3 & H4). apply in_app_or in Hm. apply in_or_app. destruct Hm as [Hm|[<-|[]]].
              * left. apply S0. exists m, y. auto.
              * right. left. cbn in *. assert (EQ := UV y H2). injection EQ as <-.
                assert (EP : p = Z.of_nat q). { apply (has_attr_alook g W) in H1, Hp. rewrite Hp in H1. congruence. }
                rewrite EP, Nat2Z.id, H4. reflexivity. }
        destruct (Rlt_dec (1 / 1000) x) as [Q|Q]; [apply Put; left; exact Q|].
        destruct (Rlt_dec (1 / 1000) (rmod x (2 * PI))) as [Q2|Q2]; [apply Put; right; exact Q2|].
        apply Skip. intros y Hy. apply UV in Hy. injection Hy as <-. intros [?|?]; contradiction. }
  destruct (H (nd g) [] []) as (l & El & Nl & Sl); [reflexivity|intros []| |].
  - intros p t. split; [intros []|intros (n & x & [] & _)].
  - exists l. split; [exact El|]. split; [exact Nl|]. intros p t. rewrite Sl. split; intros (n & x & H1); exists n, x.
    + tauto.
    + split; [|tauto]. eapply has_node. apply (proj1 H1).
Qed.

Lemma vrz_swapped g a b g' : well_formed g -> uniform g -> swap_nodes g a b = Ok g' -> get_vrz_gates g' = Ok [].
Proof.
  intros W U H. unfold get_vrz_gates.
  assert (E : og_dims g' = None).
  { destruct (in_dec Z.eq_dec a (map fst (nd g))) as [Ha|Ha].
    - destruct (in_dec Z.eq_dec b (map fst (nd g))) as [Hb|Hb].
      + destruct (swap_nodes_spec g a b W U Ha Hb) as (g2 & E & _ & O & _). rewrite H in E. injection E as <-. exact O.
      + rewrite (swap_all_missing g a b W) in H; [discriminate|right; exact Hb].
    - rewrite (swap_all_missing g a b W) in H; [discriminate|left; exact Ha]. }
  rewrite E. reflexivity.
Qed.

(** *** In the words of the specification *)
Lemma swap_simple_attrs d g a b va vb : routable d g ->
  map fst (nd g) = map Z.of_nat (List.seq 0 (List.length (nd g))) ->
  has_attr g a "phase_storage" va -> has_attr g b "phase_storage" vb ->
  exists g', swap_node_attr_simple g a b = Ok g' /\ adj g' = adj g /\
    has_attr g' a "phase_storage" vb /\ has_attr g' b "phase_storage" va /\
    (forall n v, n <> a -> n <> b -> (has_attr g' n "phase_storage" v <-> has_attr g n "phase_storage" v)) /\
    (forall n k v, k <> "phase_storage" -> (has_attr g' n k v <-> has_attr g n k v)).
Proof.
  intros RT SQ Ha Hb. destruct (swap_simple_spec d g a b va vb RT SQ Ha Hb) as (g' & E & K & A & R' & L).
  assert (W := rt_wf d g RT). assert (W' := rt_wf d g' R'). apply (has_attr_alook g W) in Ha, Hb.
  exists g'. split; [exact E|]. split; [exact A|].
  split; [apply (has_attr_alook g' W'); rewrite L; cbn; unfold tau; rewrite Z.eqb_refl; exact Hb|].
  split. { apply (has_attr_alook g' W'). rewrite L. cbn. unfold tau. rewrite Z.eqb_refl. destruct (Z.eqb_spec b a) as [->|]; [congruence|exact Ha]. }
  split.
  - intros n v Na Nb. rewrite (has_attr_alook g' W'), (has_attr_alook g W), L. cbn. unfold tau.
    destruct (Z.eqb_spec n a); [contradiction|]. destruct (Z.eqb_spec n b); [contradiction|]. reflexivity.
  - intros n k v Hk. rewrite (has_attr_alook g' W'), (has_attr_alook g W), L. destruct (String.eqb_spec k "phase_storage"); [contradiction|reflexivity].
Qed.

Lemma rule_ongate_any d g (RT : routable d g) r : (lev_a r < d)%nat -> (lev_b r < d)%nat -> lev_a r <> lev_b r ->
  exists r', graph_rule_ongate d r g = Ok r'.
Proof.
  intros La Lb Hab. unfold graph_rule_ongate. destruct (fst_inode_ok d g RT) as (i & -> & Hi). cbn [bindr].
  destruct (node_attrs_ok d g RT i (has_node _ _ _ _ Hi)) as (A & -> & HA). cbn [bindr].
  destruct (dmem String.eqb A "phase_storage") eqn:E; cbn [negb]; [|eauto].
  apply HA in E. destruct E as (v & Hv).
  assert (PS : forall n, is_node g n -> exists w f, node_attr g n "phase_storage" = Ok w /\ num w = Ok f).
  { intros n Hn. destruct (rt_uniform d g RT _ _ _ _ Hv Hn) as (w & Hw). destruct (rt_phases d g RT n w Hw) as (f & Hf).
    exists w, f. split; [apply (node_attr_ok d g RT); exact Hw|exact Hf]. }
  destruct (find_logic_ok d g RT (Z.of_nat (lev_a r)) (Z.of_nat (lev_b r))) as (na & nb & -> & Na & Nb). cbn [bindr].
  assert (F1 : exists f1, (if (na =? -1)%Z then Ok (r_phi r)
            else let? v := node_attr g na "phase_storage" in let? x := num v in Ok (r_phi r - x)%R) = Ok f1).
  { destruct (Z.eqb_spec na (-1)); [eauto|]. destruct Na as [Na|Na]; [contradiction|].
    destruct (PS na Na) as (w & f & -> & Hf). cbn [bindr]. rewrite Hf. cbn. eauto. }
  destruct F1 as (f1 & ->). cbn [bindr].
  assert (F2 : exists f2, (if (nb =? -1)%Z then Ok f1
            else let? v := node_attr g nb "phase_storage" in let? x := num v in Ok (f1 + x)%R) = Ok f2).
  { destruct (Z.eqb_spec nb (-1)); [eauto|]. destruct Nb as [Nb|Nb]; [contradiction|].
    destruct (PS nb Nb) as (w & f & -> & Hf). cbn [bindr]. rewrite Hf. cbn. eauto. }
  destruct F2 as (f2 & ->). cbn [bindr]. rewrite new_R_ok by lia. eauto.
Qed.

Lemma ongate_phases d r g f : routable d g -> (lev_a r < lev_b r < d)%nat -> pending g f ->
  exists r', graph_rule_ongate d r g = Ok r' /\ lev_a r' = lev_a r /\ lev_b r' = lev_b r /\
  meq d (mmul d (phases f) (r_array d (lev_a r') (lev_b r') (r_theta r') (r_phi r')))
        (mmul d (r_array d (lev_a r) (lev_b r) (r_theta r) (r_phi r)) (phases f)).
Proof.
  intros RT [H1 H2] PF.
  assert (X : exists r', graph_rule_ongate d r g = Ok r').
  { destruct (rule_ongate_any d g RT r) as (r' & E); [lia|lia|lia|]. eauto. }
  destruct X as (r' & E). exists r'. split; [exact E|].
  destruct (ongate_pending d r g r' f RT ltac:(lia) ltac:(lia) ltac:(lia) PF E) as [Q M].
  assert (L : lev_a r' = lev_a r /\ lev_b r' = lev_b r) by (destruct Q as [[Q1 Q2]| ->]; [lia|auto]).
  split; [apply L|]. split; [apply L|]. apply M. exact H1.
Qed.

(** *** The backends *)
Lemma nodup_check (l : list Z) : nodupb Z.eqb l = true -> NoDup l.
Proof. apply nodupb_ok. intros x y. apply Z.eqb_eq. Qed.
Ltac routable_case := 
  apply new_graph_routable;
  [ apply nodup_check; vm_compute; reflexivity
  | reflexivity
  | apply nodup_check; vm_compute; reflexivity
  | apply good_edgesb_ok; vm_compute; reflexivity
  | cbn; intros n H; intuition lia
  | cbn; intros n H; intuition lia
  | exists 1%Z; cbn; auto
  | apply connectedb_ok; [|vm_compute; reflexivity] ].
Lemma three_routable : routable 3 traps_three.
Proof.
  unfold traps_three. routable_case. apply new_graph_spec; [apply nodup_check; vm_compute; reflexivity|discriminate|reflexivity|apply good_edgesb_ok; vm_compute; reflexivity].
Qed.
Lemma six_routable : routable 6 traps_six.
Proof.
  unfold traps_six. routable_case. apply new_graph_spec; [apply nodup_check; vm_compute; reflexivity|discriminate|reflexivity|apply good_edgesb_ok; vm_compute; reflexivity].
Qed.
Lemma innsbruck_routable : routable 3 innsbruck.
Proof.
  unfold innsbruck. routable_case. apply new_graph_spec; [apply nodup_check; vm_compute; reflexivity|discriminate|reflexivity|apply good_edgesb_ok; vm_compute; reflexivity].
Qed.

(** A graph whose nodes are listed in the order 0, 2, 1, with phases 5, 0, 7. *)
Definition shuffled : lgraph := new_graph [link 0 1 3 []; link 1 2 3 []]%Z [0; 2; 1]%Z [0; 2; 1]%Z (Some [1]%Z) None None.
Lemma shuffled_routable : routable 3 shuffled.
Proof.
  unfold shuffled. routable_case. apply new_graph_spec; [apply nodup_check; vm_compute; reflexivity|discriminate|reflexivity|apply good_edgesb_ok; vm_compute; reflexivity].
Qed.
Lemma swap_simple_wrong :
  exists d g a b va vb g', routable d g /\
    has_attr g a "phase_storage" va /\ has_attr g b "phase_storage" vb /\ va <> vb /\
    swap_node_attr_simple g a b = Ok g' /\
    ~ has_attr g' a "phase_storage" vb /\
    exists c, c <> a /\ c <> b /\ exists v, has_attr g' c "phase_storage" v /\ ~ has_attr g c "phase_storage" v.
Proof.
  assert (R0 := phase_setup_routable 3 _ shuffled_routable). set (g0 := phase_storing_setup shuffled) in *.
  assert (W0 := rt_wf _ _ R0).
  destruct (write_attr_ok 3 g0 0 (AInt 5) (AInt 0) (IZR 5) R0) as (g1 & E1 & _ & _ & R1 & L1); [|reflexivity|].
  { apply (has_attr_alook g0 W0). vm_compute. reflexivity. }
  assert (W1 := rt_wf _ _ R1).
  destruct (write_attr_ok 3 g1 1 (AInt 7) (AInt 0) (IZR 7) R1) as (g2 & E2 & _ & _ & R2 & L2); [|reflexivity|].
  { apply (has_attr_alook g1 W1). rewrite L1. vm_compute. reflexivity. }
  assert (W2 := rt_wf _ _ R2).
  assert (V : (let? g := write_attr g0 0 "phase_storage" (AInt 5) in write_attr g 1 "phase_storage" (AInt 7)) = Ok g2).
  { rewrite E1. cbn [bindr]. exact E2. }
  vm_compute in V. injection V as V.
  assert (NS : forall n k v w, alook (nd g2) n k = Some v -> v <> w -> ~ has_attr g2 n k w).
  { intros n k v w H1 H2 H3. apply (has_attr_alook g2 W2) in H3. congruence. }
  assert (S : exists g3, swap_node_attr_simple g2 0 2 = Ok g3 /\ alook (nd g3) 0 "phase_storage" = Some (AInt 7) /\
     (forall w, has_attr g3 0 "phase_storage" w -> w = AInt 7) /\ has_attr g3 1 "phase_storage" (AInt 5)).
  { rewrite <- V. eexists. split; [vm_compute; reflexivity|]. split; [vm_compute; reflexivity|]. split.
    - intros w (a & Ha & Hw). cbn in Ha. destruct Ha as [Ha|[Ha|[Ha|[]]]]; injection Ha; intros; try discriminate; subst a.
      cbn in Hw. destruct Hw as [Hw|[Hw|[Hw|[]]]]; congruence.
    - eexists. split; [right; right; left; reflexivity|]. cbn. auto. }
  destruct S as (g3 & E3 & _ & A3 & B3).
  exists 3%nat, g2, 0%Z, 2%Z, (AInt 5), (AInt 0), g3.
  split; [exact R2|]. split; [apply (has_attr_alook g2 W2); rewrite <- V; vm_compute; reflexivity|].
  split; [apply (has_attr_alook g2 W2); rewrite <- V; vm_compute; reflexivity|]. split; [discriminate|]. split; [exact E3|].
  split; [intros H; apply A3 in H; discriminate|].
  exists 1%Z. split; [discriminate|]. split; [discriminate|]. exists (AInt 5). split; [exact B3|].
  apply (NS 1%Z _ (AInt 7)); [rewrite <- V; vm_compute; reflexivity|discriminate].
Qed.

(** *** Concrete cases *)
Lemma case_pending : let g := phase_storing_setup traps_three in
  routable 3 g /\ pending g (fun _ => 0) /\ (exists n v, has_attr g n "phase_storage" v) /\
  map fst (nd g) = map Z.of_nat (List.seq 0 (List.length (nd g))) /\
  placed g 1 2 /\ placed g 2 1 /\ linked g 1 0 /\ ~ linked g 1 2.
Proof.
  cbn zeta. assert (RT := phase_setup_routable 3 _ three_routable). set (g := phase_storing_setup traps_three) in *.
  assert (W := rt_wf _ _ RT). split; [exact RT|]. split.
  { split; [|reflexivity]. intros n p v x _ Hv Hx. apply (has_attr_alook g W) in Hv.
    assert (E : v = AInt 0).
    { unfold alook in Hv. destruct (nget (nd g) n) as [A|] eqn:EA; [|discriminate]. apply (dget_In Z.eqb zeq) in EA.
      vm_compute in EA. destruct EA as [EA|[EA|[EA|[]]]]; injection EA as _ <-; vm_compute in Hv; congruence. }
    subst v. cbn in Hx. congruence. }
  split; [exists 0%Z, (AInt 0); apply (has_attr_alook g W); vm_compute; reflexivity|].
  split; [vm_compute; reflexivity|].
  split; [apply (has_attr_alook g W); vm_compute; reflexivity|].
  split; [apply (has_attr_alook g W); vm_compute; reflexivity|].
  split; [eexists; apply (joined_data g W); vm_compute; reflexivity|].
  intros (dat & J). apply (joined_data g W) in J. vm_compute in J. discriminate.
Qed.
Lemma case_update :
  let g := phase_storing_setup traps_three in let r := Rot 1 2 PI (PI / 2) 1 2 in
  exists g' f', graph_rule_update r g = Ok g' /\ pending g' f' /\
    meq 3 (mmul 3 (r_array 3 1 2 PI (PI / 2)) (phases f')) (mmul 3 (phases (fun _ => 0)) (exchange 1 2)).
Proof.
  destruct case_pending as (RT & PF & PS & SQ & P1 & P2 & _). cbn zeta.
  destruct (update_pending 3 (Rot 1 2 PI (PI / 2) 1 2) _ (fun _ => 0) 2 1 RT SQ PS P2 P1) as (g' & f' & E & _ & _ & _ & _ & Pf & M); trivial.
  - cbn. lia.
  - left. reflexivity.
  - left. cbn. apply pi_mod_fix. pose proof PI_RGT_0. lra.
  - exists g', f'. auto.
Qed.
(** The three level trap as qudit 0 of a circuit, with phase 1 stored for logical level 1. *)
Definition trap_in_circuit : lgraph :=
  new_graph [link 1 0 3 []; link 0 2 3 []]%Z [0; 1; 2]%Z [0; 2; 1]%Z (Some [1]%Z) (Some 0%Z) (Some [3%nat]).
Lemma case_vrz : exists g, write_attr (phase_storing_setup trap_in_circuit) 1 "phase_storage" (AFlt 1) = Ok g /\
  routable 3 g /\ og_dims g = Some [3%nat] /\ LevelsModel.qudit_index g = Some 0%Z /\
  (forall n v, has_attr g n "phase_storage" v -> v = AInt 0 \/ exists x, v = AFlt x) /\
  exists l, get_vrz_gates g = Ok l /\ In (Some (2%nat, regulate_theta 1)) l /\ ~ In None l.
Proof.
  assert (R0 : routable 3 trap_in_circuit).
  { unfold trap_in_circuit. routable_case. apply new_graph_spec; [apply nodup_check; vm_compute; reflexivity|discriminate|reflexivity|apply good_edgesb_ok; vm_compute; reflexivity]. }
  assert (R1 := phase_setup_routable 3 _ R0). set (g0 := phase_storing_setup trap_in_circuit) in *.
  assert (W := rt_wf _ _ R1).
  destruct (write_attr_ok 3 g0 1 (AFlt 1) (AInt 0) 1 R1) as (g & E & _ & _ & R2 & L); [|reflexivity|].
  { apply (has_attr_alook g0 W). vm_compute. reflexivity. }
  assert (W2 := rt_wf _ _ R2).
  assert (O : og_dims g = Some [3%nat] /\ LevelsModel.qudit_index g = Some 0%Z).
  { unfold write_attr in E. destruct (node_attrs g0 1) as [A|e]; cbn [bindr] in E; [|inversion E]. inversion E. split; reflexivity. }
  destruct O as [O1 O2].
  assert (V : forall n v, has_attr g n "phase_storage" v -> v = AInt 0 \/ exists x, v = AFlt x).
  { intros n v Hv. apply (has_attr_alook g W2) in Hv. rewrite L in Hv. destruct (n =? 1)%Z; cbn [andb] in Hv; [cbn in Hv; injection Hv as <-; eauto|left].
    unfold alook in Hv. destruct (nget (nd g0) n) as [A|] eqn:EA; [|discriminate]. apply (dget_In Z.eqb zeq) in EA.
    vm_compute in EA. destruct EA as [EA|[EA|[EA|[]]]]; injection EA as _ <-; vm_compute in Hv; congruence. }
  exists g. split; [exact E|]. split; [exact R2|]. split; [exact O1|]. split; [exact O2|]. split; [exact V|].
  destruct (vrz_spec 3 g [3%nat] 0 R2 O1 O2 eq_refl V) as (l & El & Nl & Sl). exists l. split; [exact El|]. split; [|exact Nl].
  apply Sl. exists 1%Z, 1. split; [apply (has_attr_alook g W2); rewrite L; vm_compute; reflexivity|].
  split; [apply (has_attr_alook g W2); rewrite L; reflexivity|]. split; [left; lra|reflexivity].
Qed.
