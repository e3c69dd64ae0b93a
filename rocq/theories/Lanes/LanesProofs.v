(** Lanes of a circuit: filing, reassembly, groups of local gates. *)
From Coq Require Import List ZArith Arith Bool Lia Sorted Permutation.
From Verif Require Import Base.Py Base.PyFacts.
From Verif Require Import Circuit.GateModel Circuit.GateProofs Lanes.LanesModel Lanes.LanesSpec Lanes.ExtractProofs.
Import ListNotations.
Local Open Scope nat_scope.

Section L.
Context {A : Type}.
Implicit Types (x y : entry A) (es : list (entry A)) (l : list (obj A)) (d : list (Z * list (entry A))).

(** ** Numbering *)
Definition R x y := fst x <= fst y /\ (e_single y = false -> fst x < fst y).
Lemma number_snd c l : map snd (number_ops c l) = l.
Proof. revert c. induction l as [|g l IH]; intros c; [reflexivity|]. cbn. destruct (negb _); cbn; now rewrite IH. Qed.
Lemma number_ge c l x : In x (number_ops c l) -> c <= fst x /\ (e_single x = false -> c < fst x).
Proof.
  revert c. induction l as [|g l IH]; intros c; cbn; [easy|].
  destruct (is_single (g_type (snd g))) eqn:E; cbn; intros [<-|H].
  - cbn. split; [lia|]. unfold e_single, e_gate. cbn. congruence.
  - now apply IH.
  - cbn. lia.
  - apply IH in H. lia.
Qed.
Lemma number_sorted c l : StronglySorted R (number_ops c l).
Proof.
  revert c. induction l as [|g l IH]; intros c; cbn; [constructor|].
  destruct (is_single (g_type (snd g))) eqn:E; cbn; constructor; try apply IH; apply Forall_forall; intros y Hy; apply number_ge in Hy; exact Hy.
Qed.

(** ** Filing *)
Lemma plain_filed x : plain (e_gate x) -> filed x = Ok (target_lines (e_gate x)).
Proof.
  intros [_ [[T [t E]]|[T [ts [E _]]]]]; unfold filed, e_single, target_lines; rewrite E.
  - now rewrite T.
  - destruct (g_type (e_gate x)); [congruence|reflexivity..].
Qed.
Lemma plain_nodup (g : gate A) : plain g -> NoDup (target_lines g) /\ target_lines g <> [].
Proof.
  intros [_ [[T [t E]]|[T [ts [E [N D]]]]]]; unfold target_lines; rewrite E.
  - split; [repeat constructor; easy|discriminate].
  - split; assumption.
Qed.
Lemma plain_single_line (g : gate A) : plain g -> is_single (g_type g) = true -> exists t, target_lines g = [t].
Proof.
  intros [_ [[T [t E]]|[T _]]] H; [exists t; unfold target_lines; now rewrite E|]. destruct (g_type g); easy.
Qed.
Lemma on_line_in t (o : obj A) : on_line t o = true <-> In t (target_lines (snd o)).
Proof.
  unfold on_line. rewrite existsb_exists. split; [intros [u [H E]]; apply Z.eqb_eq in E; now subst|intros H; exists t; split; [exact H|apply Z.eqb_refl]].
Qed.
Lemma onb_in t x : onb t x = true <-> In t (target_lines (e_gate x)).
Proof. apply on_line_in. Qed.

Lemma lane_dset {V} (d : list (Z * V)) (k k2 : Z) (v : V) :
  dget Z.eqb (dset Z.eqb d k v) k2 = if Z.eqb k2 k then Some v else dget Z.eqb d k2.
Proof.
  destruct (Z.eqb_spec k2 k) as [->|N]; [apply dget_dset_same; apply Z.eqb_eq|apply dget_dset_other; [apply Z.eqb_eq|exact N]].
Qed.
Lemma lane_add_lane d t x t' : lane (lane_add d t x) t' = if Z.eqb t' t then lane d t' ++ [x] else lane d t'.
Proof.
  unfold lane, lane_add. rewrite lane_dset. destruct (Z.eqb_spec t' t) as [->|N]; [|reflexivity].
  destruct (dget Z.eqb d t); reflexivity.
Qed.
Lemma lane_add_fold ts d x t : NoDup ts ->
  lane (fold_left (fun d t => lane_add d t x) ts d) t = lane d t ++ (if existsb (Z.eqb t) ts then [x] else []).
Proof.
  revert d. induction ts as [|u ts IH]; intros d N; cbn [fold_left existsb].
  - now rewrite app_nil_r.
  - inversion N; subst. rewrite IH by assumption. rewrite lane_add_lane. destruct (Z.eqb_spec t u) as [->|Ne]; [|reflexivity].
    cbn. assert (existsb (Z.eqb u) ts = false) as ->.
    { apply not_true_iff_false. rewrite existsb_exists. intros [w [Hw E]]. apply Z.eqb_eq in E. now subst. }
    now rewrite app_nil_r.
Qed.
Lemma lane_add_nodup d t x : NoDup (map fst d) -> NoDup (map fst (lane_add d t x)).
Proof. unfold lane_add. intros H. apply dset_NoDup; [apply Z.eqb_eq|exact H]. Qed.
Lemma lane_add_fold_nodup ts d x : NoDup (map fst d) -> NoDup (map fst (fold_left (fun d t => lane_add d t x) ts d)).
Proof. revert d. induction ts as [|t ts IH]; intros d H; [exact H|]. cbn. apply IH. now apply lane_add_nodup. Qed.

Lemma dset_key_incl {V} (d : list (Z * V)) k v k2 : In k2 (map fst (dset Z.eqb d k v)) <-> k2 = k \/ In k2 (map fst d).
Proof.
  induction d as [|[k' v'] r IH]; cbn; [intuition congruence|].
  destruct (Z.eqb_spec k k') as [->|N]; cbn; [intuition congruence|]. rewrite IH. intuition congruence.
Qed.
Lemma lane_add_keys ts d x t : In t (map fst (fold_left (fun d t => lane_add d t x) ts d)) <-> In t (map fst d) \/ In t ts.
Proof.
  revert d. induction ts as [|u ts IH]; intros d; cbn; [tauto|]. rewrite IH. unfold lane_add. rewrite dset_key_incl. intuition congruence.
Qed.

Lemma index_lanes_spec es d : (forall x, In x es -> plain (e_gate x)) -> NoDup (map fst d) ->
  exists d', index_lanes d es = Ok d' /\ NoDup (map fst d') /\ (forall t, lane d' t = lane d t ++ filter (onb t) es) /\
    (forall t, In t (map fst d') <-> In t (map fst d) \/ exists x, In x es /\ onb t x = true).
Proof.
  revert d. induction es as [|x es IH]; intros d P N.
  - exists d. cbn. split; [reflexivity|]. split; [exact N|]. split; [intros; now rewrite app_nil_r|].
    intros t. split; [tauto|]. intros [H|[x [[] _]]]. exact H.
  - cbn [index_lanes]. rewrite plain_filed by (apply P; now left). cbn [bindr].
    pose proof (plain_nodup _ (P x (or_introl eq_refl))) as [Nx _].
    destruct (IH (fold_left (fun d t => lane_add d t x) (target_lines (e_gate x)) d)) as [d' [E [N' [L Kk]]]].
    { intros; apply P; now right. } { now apply lane_add_fold_nodup. }
    exists d'. split; [exact E|]. split; [exact N'|]. split.
    + intros t. rewrite L, lane_add_fold by exact Nx. cbn [filter]. rewrite <- app_assoc. f_equal.
      unfold onb, on_line. fold (e_gate x). destruct (existsb _ _); reflexivity.
    + intros t. rewrite Kk, lane_add_keys. split.
      * intros [[H|H]|[y [Hy Oy]]]; [now left|right; exists x; split; [now left|now apply onb_in]|right; exists y; split; [now right|exact Oy]].
      * intros [H|[y [[<-|Hy] Oy]]]; [tauto|left; right; now apply onb_in|right; now exists y].
Qed.

Lemma filter_R p es : StronglySorted R es -> StronglySorted R (filter p es).
Proof.
  induction 1 as [|x l H IH F]; cbn; [constructor|]. destruct (p x); [|exact IH].
  constructor; [exact IH|]. rewrite Forall_forall in *. intros y Hy. apply filter_In in Hy as [Hy _]. now apply F.
Qed.
Lemma R_klt es : StronglySorted R es -> StronglySorted klt es.
Proof. induction 1 as [|x l H IH F]; constructor; [exact IH|]. eapply Forall_impl; [|exact F]. intros y [K _]. exact K. Qed.
Lemma R_app p x q : StronglySorted R (p ++ x :: q) -> forall y, In y q -> R x y.
Proof.
  induction p as [|z p IH]; cbn; intros H; inversion H; subst.
  - rewrite Forall_forall in H3. exact H3.
  - now apply IH.
Qed.
Lemma R_ent es x y : StronglySorted R es -> In x es -> In y es -> e_single x = false -> e_single y = false -> fst x = fst y -> x = y.
Proof.
  intros S Hx Hy Ex Ey E. apply in_split in Hx as [p [q ->]].
  apply in_app_or in Hy. destruct Hy as [Hy|[Hy|Hy]]; [|exact Hy|].
  - apply in_split in Hy as [p1 [p2 ->]]. rewrite <- app_assoc in S. cbn in S.
    destruct (R_app _ _ _ S x) as [_ H]; [apply in_or_app; right; now left|]. specialize (H Ex). lia.
  - destruct (R_app _ _ _ S y Hy) as [_ H]. specialize (H Ey). lia.
Qed.

Lemma initial_ok es d : (forall x, In x es -> plain (e_gate x)) -> NoDup (map (e_id (A:=A)) es) -> StronglySorted R es ->
  NoDup (map fst d) -> (forall t, lane d t = filter (onb t) es) -> lanes_ok d.
Proof.
  intros P N S K L.
  assert (I : forall x, in_lanes d x -> In x es).
  { intros x [t H]. rewrite L in H. now apply filter_In in H. }
  constructor.
  - exact K.
  - intros t x H. rewrite L in H. now apply filter_In in H.
  - intros t t' x H H'. rewrite L in *. apply filter_In in H. apply filter_In. tauto.
  - intros x t t' H E O O'. apply onb_in in O, O'.
    destruct (plain_single_line _ (P x (I x H)) E) as [u Eu]. rewrite Eu in O, O'. destruct O as [<-|[]], O' as [<-|[]]. reflexivity.
  - intros x y Hx Hy E. apply (NoDup_map_inj _ _ N); auto.
  - intros t. rewrite L. now apply NoDup_map_filter.
  - intros t. rewrite L. now apply R_klt, filter_R.
  - intros x y Hx Hy. apply R_ent with es; auto.
  - intros t p x q y E Hy Ex Ey. rewrite L in E.
    pose proof (filter_R (onb t) es S) as S'. rewrite E in S'. destruct (R_app _ _ _ S' y Hy) as [_ H]. now apply H.
Qed.

(** ** Traces *)
Lemma swaps_sym l l' : swaps l l' -> swaps l' l.
Proof.
  induction 1; [constructor| |econstructor 3; eauto]. constructor. intros t H1 H2. exact (H t H2 H1).
Qed.
Lemma swaps_cons o l l' : swaps l l' -> swaps (o :: l) (o :: l').
Proof.
  induction 1; [constructor| |econstructor 3; eauto]. exact (sw_swap (o :: p) x y q H).
Qed.
Lemma swaps_front (o : obj A) (p q : list (obj A)) : (forall y : obj A, In y p -> disjoint_ops o y) -> swaps (o :: p ++ q) (p ++ o :: q).
Proof.
  induction p as [|z p IH]; intros H; cbn; [constructor|].
  econstructor 3; [apply (sw_swap [] o z (p ++ q)); apply H; now left|]. cbn. apply swaps_cons. apply IH. intros; apply H; now right.
Qed.
Lemma swaps_perm l l' : swaps l l' -> Permutation l l'.
Proof.
  induction 1; [reflexivity| |etransitivity; eauto]. apply Permutation_app_head. apply perm_swap.
Qed.
Lemma traces l l' : (forall o, In o l -> target_lines (snd o) <> []) -> (forall o, In o l' -> target_lines (snd o) <> []) ->
  (forall t, line_ops t l = line_ops t l') -> swaps l l'.
Proof.
  revert l'. induction l as [|o l IH]; intros l' N N' F.
  - destruct l' as [|o l']; [constructor|]. exfalso. pose proof (N' o (or_introl eq_refl)) as H.
    destruct (target_lines (snd o)) as [|t ts] eqn:E; [easy|]. specialize (F t). cbn in F.
    rewrite (proj2 (on_line_in t o)) in F by (rewrite E; now left). discriminate.
  - pose proof (N o (or_introl eq_refl)) as H. destruct (target_lines (snd o)) as [|t ts] eqn:E; [easy|]. clear H.
    assert (Ot : on_line t o = true) by (apply on_line_in; rewrite E; now left).
    assert (exists p q, l' = p ++ o :: q /\ forall y : obj A, In y p -> on_line t y = false) as [p [q [-> Hp]]].
    { pose proof (F t) as Ft. unfold line_ops in Ft. cbn in Ft. rewrite Ot in Ft. clear -Ft.
      revert Ft. induction l' as [|z l' IHl]; cbn; intros Ft; [discriminate|].
      destruct (on_line t z) eqn:Oz.
      - injection Ft as -> Ft. exists [], l'. split; [reflexivity|easy].
      - destruct (IHl Ft) as [p [q [-> Hp]]]. exists (z :: p), q. split; [reflexivity|]. intros y [<-|Hy]; auto. }
    assert (D : forall u, on_line u o = true -> line_ops u p = []).
    { intros u Ou. unfold obj in *. pose proof (F u) as Fu. unfold line_ops in Fu. rewrite filter_app in Fu. cbn in Fu. rewrite Ou in Fu.
      unfold line_ops. destruct (filter (on_line u) p) as [|z r] eqn:Ez; [reflexivity|]. rewrite ?Ez in Fu. cbn in Fu. injection Fu as -> _.
      exfalso. assert (In z p) by (apply (filter_In (on_line u) z p); rewrite Ez; now left). apply Hp in H. congruence. }
    econstructor 3; [|apply swaps_front].
    + apply swaps_cons. apply IH.
      * intros y Hy. apply N. now right.
      * intros y Hy. apply N'. apply in_app_or in Hy. apply in_or_app. destruct Hy; [now left|right; now right].
      * intros u. specialize (F u). unfold line_ops in *. rewrite filter_app in *. cbn in F. destruct (on_line u o) eqn:Ou; [|exact F].
        pose proof (D u Ou) as Du. unfold line_ops, obj in *. rewrite Du in *. cbn in *. congruence.
    + intros y Hy u Hu Hy'. pose proof (filter_nil_inv _ _ (D u Hu) y Hy). congruence.
Qed.

(** ** Reassembly *)
Lemma line_ops_snd t es : line_ops t (map snd es) = map snd (filter (onb t) es).
Proof. unfold line_ops. now rewrite <- filter_map_snd. Qed.
Lemma entangling_snd es : entangling (map snd es) = map snd (filter (fun y => negb (e_single y)) es).
Proof.
  induction es as [|x es IH]; [reflexivity|]. cbn. unfold local, e_single, e_gate in *. destruct (is_single _); cbn; [exact IH|f_equal; exact IH].
Qed.
Lemma ids_snd es : map (e_id (A:=A)) es = map fst (map snd es).
Proof. now rewrite map_map. Qed.
Lemma plain_all l : (forall o, In o l -> plain (snd o)) -> forall x, In x (pre_process_ops l) -> plain (e_gate x).
Proof.
  intros P x H. apply (P (snd x)). unfold pre_process_ops in H. rewrite <- (number_snd 0 l). now apply in_map.
Qed.
Lemma plain_lines l : (forall o, In o l -> plain (snd o)) -> forall o, In o l -> target_lines (snd o) <> [].
Proof. intros P o H. now apply plain_nodup, P. Qed.

Lemma ents_fibers es es' : StronglySorted klt es -> StronglySorted klt es' ->
  NoDup es -> NoDup es' -> (forall x, In x es <-> In x es') ->
  (forall x y, In x es -> In y es -> fst x = fst y -> x = y) -> es = es'.
Proof.
  intros S S' N N' I U. apply fibers_determine; [exact S|exact S'|]. intros k.
  assert (O : forall es0, NoDup es0 -> (forall x y, In x es0 -> In y es0 -> fst x = fst y -> x = y) ->
     forall x, In x es0 -> fst x = k -> filter (keyb k) es0 = [x]).
  { clear. induction es0 as [|z es0 IH]; intros N U x H E; [easy|]. inversion N; subst. cbn. unfold keyb at 1.
    destruct H as [<-|H].
    - rewrite Nat.eqb_refl. f_equal. apply filter_none. intros y Hy. apply Nat.eqb_neq. intros E.
      apply H2. rewrite <- (U y z); [exact Hy|now right|now left|exact E].
    - destruct (Nat.eqb_spec (fst z) (fst x)) as [Ez|Ez].
      + exfalso. apply H2. rewrite (U z x); [exact H|now left|now right|exact Ez].
      + apply IH; auto. intros u v Hu Hv. apply U; now right. }
  destruct (filter (keyb k) es) as [|x r] eqn:F.
  - symmetry. apply filter_none. intros y Hy. apply I in Hy. eapply filter_nil_inv in F; eauto.
  - assert (Hx : In x (filter (keyb k) es)) by (rewrite F; now left). apply filter_In in Hx as [Hx Kx].
    unfold keyb in Kx. apply Nat.eqb_eq in Kx. rewrite <- F. rewrite (O es N U x Hx Kx). symmetry. apply O; auto; try now apply I.
    intros u v Hu Hv. apply U; now apply I.
Qed.
Lemma NoDup_of_map {T U} (f : T -> U) (l : list T) : NoDup (map f l) -> NoDup l.
Proof. apply NoDup_map_inv. Qed.

Definition idents l := map fst l.
Lemma group_loop_ok es : (forall x, In x es -> plain (e_gate x)) -> forall (v : list (Z * list (list (entry A)))), exists v', group_loop v es = Ok v'.
Proof.
  induction es as [|x es IH]; intros P v; [now exists v|]. cbn. rewrite plain_filed by (apply P; now left).
  apply IH. intros; apply P; now right.
Qed.
Lemma new_lanes_ok l : (forall o, In o l -> plain (snd o)) -> exists x : lanes A, new_lanes l = Ok x /\
  l_entries x = pre_process_ops l /\ index_lanes [] (pre_process_ops l) = Ok (l_dict x) /\
  consecutive (pre_process_ops l) = Ok (l_view x) /\ l_fast x = build_index [] (l_view x) /\
  NoDup (map fst (l_dict x)) /\
  (forall t, lane (l_dict x) t = filter (onb t) (pre_process_ops l)) /\
  (forall t, In t (map fst (l_dict x)) <-> exists o, In o l /\ on_line t o = true).
Proof.
  intros P. pose proof (plain_all l P) as P'. destruct (index_lanes_spec (pre_process_ops l) [] P') as [d [E [N [L Kk]]]]; [constructor|].
  unfold new_lanes. rewrite E. cbn [bindr]. unfold consecutive.
  destruct (group_loop_ok _ P' []) as [g Eg]. rewrite Eg. cbn [bindr]. eexists. split; [reflexivity|]. cbn.
  repeat (split; [first [reflexivity|assumption]|]). intros t. rewrite Kk. cbn. split.
  - intros [[]|[x [H O]]]. exists (snd x). split; [|exact O]. rewrite <- (number_snd 0 l). now apply in_map.
  - intros [o [H O]]. right. rewrite <- (number_snd 0 l) in H. apply in_map_iff in H as [x [<- H]]. now exists x.
Qed.

Lemma sorted_ents d es : StronglySorted R es -> NoDup (map (e_id (A:=A)) es) -> lanes_ok d ->
  (forall x, e_single x = false -> (in_lanes d x <-> In x es)) ->
  filter (fun x => negb (e_single x)) (entries d) = filter (fun x => negb (e_single x)) es.
Proof.
  intros S N K I. apply ents_fibers.
  - apply filter_sorted. apply sort_sorted.
  - apply filter_sorted. now apply R_klt.
  - apply NoDup_filter. apply (NoDup_of_map (e_id (A:=A))). apply entries_nodup.
  - apply NoDup_filter. now apply (NoDup_of_map (e_id (A:=A))).
  - intros x. rewrite !filter_In, entries_in by exact K. split; intros [H E]; (split; [|exact E]); apply I; auto; now apply negb_true_iff in E.
  - intros x y Hx Hy E. apply filter_In in Hx as [Hx Ex]. apply filter_In in Hy as [Hy Ey].
    apply negb_true_iff in Ex, Ey. apply entries_in in Hx; [|exact K]. apply entries_in in Hy; [|exact K]. apply (lk_ent d K); auto.
Qed.

Lemma reassembly l : NoDup (map fst l) -> (forall o, In o l -> plain (snd o)) -> exists x : lanes A, new_lanes l = Ok x /\
  Permutation (extract_instructions x) l /\ (forall t, line_ops t (extract_instructions x) = line_ops t l) /\
  entangling (extract_instructions x) = entangling l.
Proof.
  intros N P. destruct (new_lanes_ok l P) as [x [E [_ [_ [_ [_ [Nk [L _]]]]]]]]. exists x. split; [exact E|].
  pose proof (plain_all l P) as P'. pose proof (number_sorted 0 l) as S. fold (pre_process_ops l) in S.
  assert (Nes : NoDup (map (e_id (A:=A)) (pre_process_ops l))).
  { unfold pre_process_ops. now rewrite ids_snd, number_snd. }
  assert (K : lanes_ok (l_dict x)) by (eapply initial_ok; eauto).
  assert (I : forall y, in_lanes (l_dict x) y <-> In y (pre_process_ops l)).
  { intros y. split; [intros [t H]; rewrite L in H; now apply filter_In in H|]. intros H.
    destruct (plain_nodup _ (P' y H)) as [_ Ny]. destruct (target_lines (e_gate y)) as [|t ts] eqn:Et; [easy|].
    exists t. rewrite L. apply filter_In. split; [exact H|]. apply onb_in. rewrite Et. now left. }
  assert (Lo : forall t, line_ops t (extract_instructions x) = line_ops t l).
  { intros t. unfold extract_instructions. rewrite extract_entries, line_ops_snd, lane_entries, L by exact K.
    rewrite <- line_ops_snd. unfold pre_process_ops. now rewrite number_snd. }
  split; [|split; [exact Lo|]].
  - apply Permutation_sym, swaps_perm, swaps_sym. apply traces; [|now apply plain_lines|exact Lo].
    intros o Ho. unfold extract_instructions in Ho. rewrite extract_entries in Ho. apply in_map_iff in Ho as [y [<- Hy]].
    apply entries_in in Hy; [|exact K]. apply I in Hy. now apply plain_nodup, P'.
  - unfold extract_instructions. rewrite extract_entries, entangling_snd.
    rewrite (sorted_ents _ (pre_process_ops l) S Nes K); [|intros y _; apply I].
    rewrite <- entangling_snd. unfold pre_process_ops. now rewrite number_snd.
Qed.
Lemma reassembly_swaps l (x : lanes A) : (forall o, In o l -> plain (snd o)) -> NoDup (map fst l) -> new_lanes l = Ok x ->
  swaps l (extract_instructions x).
Proof.
  intros P N E. destruct (reassembly l N P) as [x' [E' [Pm [Lo _]]]]. rewrite E in E'. injection E' as <-.
  apply traces; [now apply plain_lines| |intros; now rewrite Lo].
  intros o Ho. eapply Permutation_in in Ho; [|exact Pm]. now apply plain_nodup, P.
Qed.
Lemma swaps_semantics {S : Type} (eqv : S -> S -> Prop) (act : gate A -> S -> S) :
  (forall s, eqv s s) -> (forall a b c, eqv a b -> eqv b c -> eqv a c) ->
  (forall g a b, eqv a b -> eqv (act g a) (act g b)) ->
  forall l l' : list (obj A), swaps l l' ->
  (forall o1 o2, In o1 l -> In o2 l -> disjoint_ops o1 o2 -> forall s, eqv (act (snd o1) (act (snd o2) s)) (act (snd o2) (act (snd o1) s))) ->
  forall s s', eqv s s' -> eqv (fold_left (fun s o => act (snd o) s) l s) (fold_left (fun s o => act (snd o) s) l' s').
Proof.
  intros Rf Tr Cg. assert (F : forall l s s', eqv s s' -> eqv (fold_left (fun s o => act (snd o) s) l s) (fold_left (fun s o => act (snd o) s) l s')).
  { induction l as [|o l IH]; intros s s' H; [exact H|]. cbn. apply IH. now apply Cg. }
  induction 1 as [l|p x y q D|a b c S1 IH1 S2 IH2]; intros C s s' E.
  - now apply F.
  - rewrite !fold_left_app. cbn. apply F. eapply Tr.
    + apply C; [apply in_or_app; right; right; now left|apply in_or_app; right; now left|]. intros t H1 H2. exact (D t H2 H1).
    + apply Cg, Cg, F, E.
  - eapply Tr; [apply IH1; [exact C|apply E]|]. apply IH2; [|apply Rf].
    intros o1 o2 H1 H2. apply C; (eapply Permutation_in; [apply Permutation_sym, swaps_perm, S1|assumption]).
Qed.

(** controlled gates *)
Lemma index_lanes_fail es d : (exists x, In x es /\ filed x = Err TypeError) -> (forall x, In x es -> filed x = Err TypeError \/ exists ts, filed x = Ok ts) -> index_lanes d es = Err TypeError.
Proof.
  revert d. induction es as [|x es IH]; intros d [y [Hy E]] T; [easy|]. cbn.
  destruct (T x (or_introl eq_refl)) as [E'|[ts E']]; rewrite E'; cbn; [reflexivity|].
  apply IH; [|intros; apply T; now right]. exists y. split; [|exact E]. destruct Hy as [->|Hy]; [congruence|exact Hy].
Qed.
Lemma filed_total x : filed x = Err TypeError \/ exists ts, filed x = Ok ts.
Proof. unfold filed. destruct (e_single x), (g_target (e_gate x)); eauto. Qed.
Lemma controlled_fails l o t : In o l -> local o = false -> g_target (snd o) = TInt t -> new_lanes l = Err TypeError.
Proof.
  intros H E T. unfold new_lanes. rewrite index_lanes_fail; [reflexivity| |intros; apply filed_total].
  rewrite <- (number_snd 0 l) in H. apply in_map_iff in H as [x [<- H]]. exists x. split; [exact H|].
  unfold filed, e_single, e_gate. unfold local in E. now rewrite E, T.
Qed.

(** repeated objects *)
Lemma extract_once l (x : lanes A) : new_lanes l = Ok x -> NoDup (map fst (extract_instructions x)).
Proof.
  intros _. unfold extract_instructions. rewrite extract_entries, <- ids_snd. apply entries_nodup.
Qed.
Lemma extract_sub l (x : lanes A) : (forall o, In o l -> plain (snd o)) -> new_lanes l = Ok x -> forall o, In o (extract_instructions x) -> In o l.
Proof.
  intros P E o H. destruct (new_lanes_ok l P) as [x' [E' [_ [_ [_ [_ [_ [L _]]]]]]]]. rewrite E in E'. injection E' as <-.
  unfold extract_instructions in H. rewrite extract_entries in H. apply in_map_iff in H as [y [<- H]].
  unfold entries in H. apply sort_in, collect_in in H as [H _]. apply gathered_in in H as [t H]. rewrite L in H.
  apply filter_In in H as [H _]. rewrite <- (number_snd 0 l). now apply in_map.
Qed.
Lemma extract_ids l (x : lanes A) : (forall o, In o l -> plain (snd o)) -> new_lanes l = Ok x -> forall n, In n (map fst (extract_instructions x)) <-> In n (map fst l).
Proof.
  intros P E n. split.
  - intros H. apply in_map_iff in H as [o [<- H]]. apply in_map. eapply extract_sub; eauto.
  - intros H. destruct (new_lanes_ok l P) as [x' [E' [_ [_ [_ [_ [_ [L _]]]]]]]]. rewrite E in E'. injection E' as <-.
    rewrite <- (number_snd 0 l), map_map in H. apply in_map_iff in H as [y [Ey H]].
    destruct (collect_ids [] (gathered (l_dict x)) y) as [z [Hz Ez]]; [|easy|].
    + apply gathered_in. destruct (plain_nodup _ (plain_all l P y H)) as [_ Ny].
      destruct (target_lines (e_gate y)) as [|t ts] eqn:Et; [easy|]. exists t. rewrite L. apply filter_In. split; [exact H|].
      apply onb_in. rewrite Et. now left.
    + unfold extract_instructions. rewrite extract_entries, map_map. apply in_map_iff. exists z. split; [unfold e_id in Ez; congruence|].
      now apply sort_in.
Qed.
Lemma repeated_lost l (x : lanes A) : (forall o, In o l -> plain (snd o)) -> new_lanes l = Ok x -> ~ NoDup (map fst l) ->
  List.length (extract_instructions x) < List.length l.
Proof.
  intros P E D. enough (Hl : List.length (map fst (extract_instructions x)) < List.length (map fst l)) by (rewrite !map_length in Hl; exact Hl).
  pose proof (extract_once l x E) as N. pose proof (extract_ids l x P E) as I.
  destruct (Nat.lt_ge_cases (List.length (map fst (extract_instructions x))) (List.length (map fst l))) as [H|H]; [exact H|].
  exfalso. apply D. eapply NoDup_incl_NoDup; [exact N|exact H|]. intros n Hn. now apply I.
Qed.
End L.
