(** Lemmas on the lanes: filing, sorting, collecting, and the reassembly of a circuit. *)
From Coq Require Import List ZArith Arith Bool Lia Sorted Permutation.
From Verif Require Import Base.Py Base.PyFacts.
From Verif Require Import Circuit.GateModel Circuit.GateProofs Lanes.LanesModel Lanes.LanesSpec.
Import ListNotations.
Local Open Scope nat_scope.

(** ** Lists *)
Lemma filter_all {T} (p : T -> bool) l : (forall x, In x l -> p x = true) -> filter p l = l.
Proof. induction l as [|x l IH]; intros H; [reflexivity|]. cbn. rewrite (H x (or_introl eq_refl)). f_equal. apply IH. intros; apply H; now right. Qed.
Lemma filter_none {T} (p : T -> bool) l : (forall x, In x l -> p x = false) -> filter p l = [].
Proof. induction l as [|x l IH]; intros H; [reflexivity|]. cbn. rewrite (H x (or_introl eq_refl)). apply IH. intros; apply H; now right. Qed.
Lemma filter_nil_inv {T} (p : T -> bool) l : filter p l = [] -> forall x, In x l -> p x = false.
Proof.
  induction l as [|y l IH]; intros H x Hx; [easy|]. cbn in H. destruct (p y) eqn:E; [discriminate|].
  destruct Hx as [<-|Hx]; [exact E|now apply IH].
Qed.
Lemma filter_concat {T} (p : T -> bool) ls : filter p (concat ls) = concat (map (filter p) ls).
Proof. induction ls as [|l ls IH]; [reflexivity|]. cbn. now rewrite filter_app, IH. Qed.
Lemma filter_comm {T} (p q : T -> bool) l : filter p (filter q l) = filter q (filter p l).
Proof. induction l as [|x l IH]; [reflexivity|]. cbn. destruct (q x) eqn:Q, (p x) eqn:P; cbn; rewrite ?P, ?Q, ?IH; reflexivity. Qed.
Lemma filter_map_snd {T U} (p : U -> bool) (l : list (T * U)) : map snd (filter (fun x => p (snd x)) l) = filter p (map snd l).
Proof. induction l as [|x l IH]; [reflexivity|]. cbn. destruct (p (snd x)); cbn; now rewrite IH. Qed.
Lemma NoDup_app_inv {T} (a b : list T) : NoDup (a ++ b) -> NoDup a /\ NoDup b /\ (forall x, In x a -> In x b -> False).
Proof.
  induction a as [|x a IH]; cbn; intros H; [split; [constructor|split; [exact H|intros ? []]]|].
  inversion H; subst. destruct (IH H3) as [Ha [Hb Hd]]. split; [|split; [exact Hb|]].
  - constructor; [|exact Ha]. intros K. apply H2. apply in_or_app. now left.
  - intros y [<-|Hy] Hyb; [apply H2; apply in_or_app; now right|eapply Hd; eauto].
Qed.
Lemma NoDup_filter' {T} (p : T -> bool) l : NoDup l -> NoDup (filter p l).
Proof. apply NoDup_filter. Qed.
Lemma NoDup_map_inj {T U} (f : T -> U) l : NoDup (map f l) -> forall x y, In x l -> In y l -> f x = f y -> x = y.
Proof.
  induction l as [|z l IH]; cbn; intros H x y; [easy|]. inversion H; subst.
  intros [<-|Hx] [<-|Hy] E; [reflexivity| | |now apply IH].
  - exfalso. apply H2. rewrite E. now apply in_map.
  - exfalso. apply H2. rewrite <- E. now apply in_map.
Qed.
Lemma NoDup_map_filter {T U} (f : T -> U) (p : T -> bool) l : NoDup (map f l) -> NoDup (map f (filter p l)).
Proof.
  induction l as [|x l IH]; cbn; intros H; [constructor|]. inversion H; subst.
  destruct (p x); [|now apply IH]. cbn. constructor; [|now apply IH].
  intros K. apply H2. apply in_map_iff in K as [y [E Hy]]. apply filter_In in Hy as [Hy _]. rewrite <- E. now apply in_map.
Qed.

Section Extract.
Context {A : Type}.
Implicit Types (x y : entry A) (l es : list (entry A)) (d : list (Z * list (entry A))).
Definition onb (t : Z) x : bool := on_line t (snd x).
Definition keyb (k : nat) x : bool := Nat.eqb (fst x) k.

(** ** Stable sorting by the ordering number *)
Definition klt x y := fst x <= fst y.
Lemma insert_in x l y : In y (insert_by x l) <-> y = x \/ In y l.
Proof.
  induction l as [|z l IH]; cbn; [firstorder|]. destruct (Nat.leb (fst x) (fst z)); cbn; [firstorder|].
  rewrite IH. firstorder.
Qed.
Lemma sort_in l y : In y (sort_by l) <-> In y l.
Proof. induction l as [|x l IH]; [reflexivity|]. cbn. rewrite insert_in, IH. firstorder. Qed.
Lemma insert_perm x l : Permutation (x :: l) (insert_by x l).
Proof.
  induction l as [|z l IH]; cbn; [reflexivity|]. destruct (Nat.leb _ _); [reflexivity|].
  rewrite perm_swap. now constructor.
Qed.
Lemma sort_perm l : Permutation l (sort_by l).
Proof. induction l as [|x l IH]; cbn; [constructor|]. rewrite <- insert_perm. now constructor. Qed.
Lemma insert_sorted' x l : StronglySorted klt l -> StronglySorted klt (insert_by x l).
Proof.
  induction l as [|z l IH]; intros H; cbn; [constructor; constructor|].
  inversion H; subst. destruct (Nat.leb_spec (fst x) (fst z)).
  - constructor; [exact H|]. constructor; [exact H0|]. eapply Forall_impl; [|exact H3]. unfold klt. intros; lia.
  - constructor; [now apply IH|]. apply Forall_forall. intros y Hy. apply insert_in in Hy as [->|Hy]; [unfold klt; lia|].
    rewrite Forall_forall in H3. now apply H3.
Qed.
Lemma sort_sorted l : StronglySorted klt (sort_by l).
Proof. induction l; cbn; [constructor|now apply insert_sorted']. Qed.
Lemma filter_sorted p l : StronglySorted klt l -> StronglySorted klt (filter p l).
Proof.
  induction 1 as [|x l H IH F]; cbn; [constructor|]. destruct (p x); [|exact IH].
  constructor; [exact IH|]. rewrite Forall_forall in *. intros y Hy. apply filter_In in Hy as [Hy _]. now apply F.
Qed.
Lemma filter_insert p x l : StronglySorted klt l ->
  filter p (insert_by x l) = if p x then insert_by x (filter p l) else filter p l.
Proof.
  induction l as [|z l IH]; intros H; cbn; [destruct (p x); reflexivity|].
  inversion H; subst. destruct (Nat.leb_spec (fst x) (fst z)).
  - cbn. destruct (p x) eqn:Px; [|reflexivity].
    destruct (p z) eqn:Pz; [cbn; now destruct (Nat.leb_spec (fst x) (fst z)); [|lia]|].
    clear -H0 H3. destruct (filter p l) as [|w r] eqn:E; [reflexivity|]. cbn.
    destruct (Nat.leb_spec (fst x) (fst w)); [reflexivity|].
    assert (In w l) by (apply (filter_In p w l); rewrite E; now left).
    rewrite Forall_forall in H3. apply H3 in H1. unfold klt in H1. lia.
  - cbn. rewrite IH by assumption. destruct (p x) eqn:Px; destruct (p z) eqn:Pz; try reflexivity.
    cbn. destruct (Nat.leb_spec (fst x) (fst z)); [lia|reflexivity].
Qed.
Lemma filter_sort p l : filter p (sort_by l) = sort_by (filter p l).
Proof.
  induction l as [|x l IH]; [reflexivity|]. cbn. rewrite filter_insert by apply sort_sorted. rewrite IH.
  destruct (p x); reflexivity.
Qed.
Lemma sort_const l k : (forall x, In x l -> fst x = k) -> sort_by l = l.
Proof.
  induction l as [|x l IH]; intros H; [reflexivity|]. cbn. rewrite IH by (intros; apply H; now right).
  destruct l as [|y r]; [reflexivity|]. cbn. rewrite (H x), (H y) by (cbn; auto). now rewrite Nat.leb_refl.
Qed.
Lemma sort_fiber k l : filter (keyb k) (sort_by l) = filter (keyb k) l.
Proof.
  rewrite filter_sort. apply sort_const with k. intros x Hx. apply filter_In in Hx as [_ Hx]. now apply Nat.eqb_eq.
Qed.
Lemma fibers_determine l l' : StronglySorted klt l -> StronglySorted klt l' ->
  (forall k, filter (keyb k) l = filter (keyb k) l') -> l = l'.
Proof.
  revert l'. induction l as [|x l IH]; intros l' S S' F.
  - destruct l' as [|y l']; [reflexivity|]. specialize (F (fst y)). cbn in F. unfold keyb at 1 in F. rewrite Nat.eqb_refl in F. discriminate.
  - destruct l' as [|y l'].
    { specialize (F (fst x)). cbn in F. unfold keyb at 1 in F. rewrite Nat.eqb_refl in F. discriminate. }
    inversion S; inversion S'; subst. rewrite Forall_forall in *.
    assert (E : fst x = fst y).
    { assert (In x (filter (keyb (fst x)) (y :: l'))) by (rewrite <- F; apply filter_In; split; [now left|apply Nat.eqb_refl]).
      assert (In y (filter (keyb (fst y)) (x :: l))) by (rewrite F; apply filter_In; split; [now left|apply Nat.eqb_refl]).
      apply filter_In in H as [[<-|H] _]; [reflexivity|]. apply filter_In in H0 as [[<-|H0] _]; [reflexivity|].
      apply H2 in H0. apply H6 in H. unfold klt in *. lia. }
    assert (x = y). { specialize (F (fst x)). cbn in F. unfold keyb in F. rewrite <- E, Nat.eqb_refl in F. congruence. }
    subst y. f_equal. apply IH; [assumption..|]. intros k. specialize (F k). cbn in F. destruct (keyb k x); congruence.
Qed.
Lemma sort_fibers l l' : StronglySorted klt l' -> (forall k, filter (keyb k) l = filter (keyb k) l') -> sort_by l = l'.
Proof. intros S F. apply fibers_determine; [apply sort_sorted|exact S|]. intros k. now rewrite sort_fiber. Qed.

(** ** Collecting each object once *)
Lemma seen_in n seen : existsb (Nat.eqb n) seen = true <-> In n seen.
Proof.
  rewrite existsb_exists. split; [intros [m [H E]]; apply Nat.eqb_eq in E; now subst|intros H; exists n; split; [exact H|apply Nat.eqb_refl]].
Qed.
Lemma seen_notin n seen : existsb (Nat.eqb n) seen = false <-> ~ In n seen.
Proof. rewrite <- seen_in. destruct (existsb _ _); split; congruence. Qed.
Lemma collect_in seen l x : In x (collect seen l) -> In x l /\ ~ In (e_id x) seen.
Proof.
  revert seen. induction l as [|y l IH]; intros seen; cbn; [easy|].
  destruct (existsb _ seen) eqn:E.
  - intros H. apply IH in H. tauto.
  - intros [<-|H]; [split; [now left|now apply seen_notin]|]. apply IH in H. cbn in H. tauto.
Qed.
Lemma collect_ids seen l x : In x l -> ~ In (e_id x) seen -> exists y, In y (collect seen l) /\ e_id y = e_id x.
Proof.
  revert seen. induction l as [|z l IH]; intros seen Hx Hn; [easy|]. cbn.
  destruct (existsb (Nat.eqb (e_id z)) seen) eqn:E.
  - destruct Hx as [<-|Hx]; [apply seen_in in E; tauto|]. now apply IH.
  - destruct (Nat.eq_dec (e_id z) (e_id x)) as [E'|E']; [exists z; split; [now left|exact E']|].
    destruct Hx as [<-|Hx]; [congruence|].
    destruct (IH (e_id z :: seen) Hx) as [y [Hy Ey]]; [intros [K|K]; congruence|]. exists y. split; [now right|exact Ey].
Qed.
Lemma collect_nodup seen l : NoDup (map (e_id (A:=A)) (collect seen l)).
Proof.
  revert seen. induction l as [|y l IH]; intros seen; cbn; [constructor|].
  destruct (existsb _ seen); [apply IH|]. cbn. constructor; [|apply IH].
  intros H. apply in_map_iff in H as [z [E Hz]]. apply collect_in in Hz as [_ Hz]. apply Hz. left. congruence.
Qed.
Lemma collect_app seen a b : exists s', (forall n, In n s' <-> In n seen \/ In n (map (e_id (A:=A)) a)) /\
  collect seen (a ++ b) = collect seen a ++ collect s' b.
Proof.
  revert seen. induction a as [|x a IH]; intros seen; cbn.
  - exists seen. split; [intros; tauto|reflexivity].
  - destruct (existsb _ seen) eqn:E.
    + destruct (IH seen) as [s' [H1 H2]]. exists s'. split; [|exact H2]. intros n. rewrite H1.
      apply seen_in in E. split; [tauto|]. intros [K|[K|K]]; subst; tauto.
    + destruct (IH (e_id x :: seen)) as [s' [H1 H2]]. exists s'. rewrite H2. split; [|reflexivity].
      intros n. rewrite H1. cbn. tauto.
Qed.
Lemma collect_skip seen l : (forall x, In x l -> In (e_id x) seen) -> collect seen l = [].
Proof.
  induction l as [|x l IH]; intros H; [reflexivity|]. cbn.
  rewrite (proj2 (seen_in _ _)) by (apply H; now left). apply IH. intros; apply H; now right.
Qed.
Lemma collect_fresh seen l : NoDup (map (e_id (A:=A)) l) -> (forall x, In x l -> ~ In (e_id x) seen) -> collect seen l = l.
Proof.
  revert seen. induction l as [|x l IH]; intros seen N H; [reflexivity|]. cbn. inversion N; subst.
  rewrite (proj2 (seen_notin _ _)) by (apply H; now left). f_equal. apply IH; [assumption|].
  intros y Hy [K|K]; [|eapply H; [right; exact Hy|exact K]]. apply H2. rewrite K. now apply in_map.
Qed.
Lemma collect_seen_ext s s' l : (forall n, In n s <-> In n s') -> collect s l = collect s' l.
Proof.
  revert s s'. induction l as [|x l IH]; intros s s' H; [reflexivity|]. cbn.
  assert (E : existsb (Nat.eqb (e_id x)) s = existsb (Nat.eqb (e_id x)) s').
  { apply eq_true_iff_eq. now rewrite !seen_in. }
  rewrite E. destruct (existsb _ s'); [now apply IH|]. f_equal. apply IH. intros n. cbn. now rewrite H.
Qed.
Lemma collect_seen_ext' s s' l : (forall x, In x l -> In (e_id x) s <-> In (e_id x) s') -> collect s l = collect s' l.
Proof.
  revert s s'. induction l as [|x l IH]; intros s s' H; [reflexivity|]. cbn.
  assert (E : existsb (Nat.eqb (e_id x)) s = existsb (Nat.eqb (e_id x)) s').
  { apply eq_true_iff_eq. rewrite !seen_in. apply H. now left. }
  rewrite E. destruct (existsb _ s'); [apply IH; intros; apply H; now right|]. f_equal. apply IH.
  intros y Hy. cbn. rewrite (H y) by now right. tauto.
Qed.
Lemma filter_collect p seen l : (forall x y, In x l -> In y l -> e_id x = e_id y -> p x = p y) ->
  filter p (collect seen l) = collect seen (filter p l).
Proof.
  revert seen. induction l as [|x l IH]; intros seen H; [reflexivity|]. cbn.
  assert (IH' : forall s, filter p (collect s l) = collect s (filter p l)).
  { intros s. apply IH. intros y z Hy Hz. apply H; now right. }
  destruct (existsb _ seen) eqn:E.
  - rewrite IH'. destruct (p x); [|reflexivity]. cbn. now rewrite E.
  - cbn. rewrite IH'. destruct (p x) eqn:P; [cbn; now rewrite E|].
    apply collect_seen_ext'. intros y Hy. apply filter_In in Hy as [Hy Py]. cbn. split; [|tauto].
    intros [K|K]; [|exact K]. exfalso. rewrite (H x y) in P; [congruence|now left|now right|exact K].
Qed.

(** ** Lanes as a whole *)
Definition in_lanes d x := exists t, In x (lane d t).
Record lanes_ok d : Prop := {
  lk_keys : NoDup (map fst d);
  lk_on : forall t x, In x (lane d t) -> onb t x = true;
  lk_all : forall t t' x, In x (lane d t) -> onb t' x = true -> In x (lane d t');
  lk_single : forall x t t', in_lanes d x -> e_single x = true -> onb t x = true -> onb t' x = true -> t = t';
  lk_id : forall x y, in_lanes d x -> in_lanes d y -> e_id x = e_id y -> x = y;
  lk_nodup : forall t, NoDup (map (e_id (A:=A)) (lane d t));
  lk_sorted : forall t, StronglySorted klt (lane d t);
  lk_ent : forall x y, in_lanes d x -> in_lanes d y -> e_single x = false -> e_single y = false -> fst x = fst y -> x = y;
  lk_first : forall t p x q y, lane d t = p ++ x :: q -> In y q -> e_single x = true -> e_single y = false -> fst x < fst y
}.
Definition gathered d : list (entry A) := concat (map (lane d) (sortedZ (map fst d))).
Definition entries d : list (entry A) := sort_by (collect [] (gathered d)).
Lemma extract_entries d : extract d = map snd (entries d).
Proof. reflexivity. Qed.
Lemma lane_key d t x : In x (lane d t) -> In t (map fst d).
Proof.
  unfold lane. destruct (dget Z.eqb d t) eqn:E; [|easy]. intros _. apply dget_In in E; [|apply Z.eqb_eq].
  now apply (in_map fst) in E.
Qed.
Lemma gathered_in d x : In x (gathered d) <-> in_lanes d x.
Proof.
  unfold gathered, in_lanes. rewrite in_concat. split.
  - intros [l [H K]]. apply in_map_iff in H as [t [<- _]]. now exists t.
  - intros [t H]. exists (lane d t). split; [|exact H]. apply in_map. 
    eapply Permutation_in; [symmetry; apply sortedZ_perm|]. eapply lane_key; eauto.
Qed.
Lemma entries_in d : lanes_ok d -> forall x, In x (entries d) <-> in_lanes d x.
Proof.
  intros K x. unfold entries. rewrite sort_in. split.
  - intros H. apply collect_in in H as [H _]. now apply gathered_in.
  - intros H. destruct (collect_ids [] (gathered d) x) as [y [Hy E]]; [now apply gathered_in|easy|].
    assert (x = y); [|now subst]. apply (lk_id d K); [exact H| |easy].
    apply collect_in in Hy as [Hy _]. now apply gathered_in.
Qed.
Lemma entries_nodup d : NoDup (map (e_id (A:=A)) (entries d)).
Proof. eapply Permutation_NoDup; [apply Permutation_map, sort_perm|apply collect_nodup]. Qed.

Lemma lane_entries d : lanes_ok d -> forall t, filter (onb t) (entries d) = lane d t.
Proof.
  intros K t. unfold entries. rewrite filter_sort. apply sort_fibers; [apply (lk_sorted d K)|]. intros k.
  assert (Hid : forall x y, In x (gathered d) -> In y (gathered d) -> e_id x = e_id y -> x = y).
  { intros x y Hx Hy. apply (lk_id d K); now apply gathered_in. }
  rewrite (filter_collect (onb t)) by (intros x y Hx Hy E; now rewrite (Hid x y)).
  rewrite (filter_collect (keyb k)).
  2:{ intros x y Hx Hy E. apply filter_In in Hx as [Hx _]. apply filter_In in Hy as [Hy _]. now rewrite (Hid x y). }
  set (F := filter (keyb k) (lane d t)).
  assert (NF : NoDup (map (e_id (A:=A)) F)) by (apply NoDup_map_filter, (lk_nodup d K)).
  (* the other lanes contribute only the entangling gate of number k *)
  assert (O : forall t' y, t' <> t -> In y (filter (keyb k) (filter (onb t) (lane d t'))) ->
     e_single y = false /\ In y F).
  { intros t' y N Hy. apply filter_In in Hy as [Hy Ky]. apply filter_In in Hy as [Hy Ty].
    assert (In y (lane d t)) by (eapply (lk_all d K); eauto).
    split; [|apply filter_In; split; assumption].
    destruct (e_single y) eqn:E; [|reflexivity]. exfalso. apply N.
    apply (lk_single d K y); [now exists t|exact E|now apply (lk_on d K)|exact Ty]. }
  assert (Keyof : In t (map fst d) \/ F = []).
  { destruct F as [|y r] eqn:E; [now right|]. left. apply (lane_key d t y). 
    assert (H : In y F) by (rewrite E; now left). unfold F in H. apply filter_In in H. tauto. }
  assert (G : filter (keyb k) (filter (onb t) (gathered d)) =
     concat (map (fun t' => filter (keyb k) (filter (onb t) (lane d t'))) (sortedZ (map fst d)))).
  { unfold gathered. now rewrite !filter_concat, !map_map. }
  rewrite G. clear G.
  assert (ND : NoDup (sortedZ (map fst d))).
  { eapply Permutation_NoDup; [symmetry; apply sortedZ_perm|apply (lk_keys d K)]. }
  assert (FT : filter (keyb k) (filter (onb t) (lane d t)) = F).
  { rewrite (filter_all (onb t)); [reflexivity|]. apply (lk_on d K). }
  destruct (in_dec Z.eq_dec t (map fst d)) as [It|It].
  - assert (Is : In t (sortedZ (map fst d))) by (eapply Permutation_in; [symmetry; apply sortedZ_perm|exact It]).
    apply in_split in Is as [ka [kb Ek]]. rewrite Ek in *. apply NoDup_remove_2 in ND.
    rewrite map_app, concat_app. cbn [map concat]. rewrite FT.
    set (a := concat (map _ ka)). set (b := concat (map _ kb)).
    assert (Ha : forall y, In y (a ++ b) -> e_single y = false /\ In y F).
    { intros y Hy. apply in_app_or in Hy. destruct Hy as [Hy|Hy]; apply in_concat in Hy as [l [Hl Hy]];
        apply in_map_iff in Hl as [t' [<- Ht']]; apply (O t'); auto; intros ->; apply ND; apply in_or_app; auto. }
    clearbody a b. clear O.
    assert (Hone : forall y, In y (a ++ b) -> exists S, F = y :: S).
    { intros y Hy. apply Ha in Hy as [Ey Hy]. apply in_split in Hy as [p [q E]].
      destruct p as [|z p]; [now exists q|]. exfalso.
      (* z precedes y in the lane and has the same number *)
      assert (Fz : In z F) by (rewrite E; now left). assert (Fy : In y F) by (rewrite E; apply in_or_app; right; now left).
      unfold F in Fz, Fy. apply filter_In in Fz as [Lz Kz]. apply filter_In in Fy as [Ly Ky].
      unfold keyb in Kz, Ky. apply Nat.eqb_eq in Kz, Ky.
      destruct (e_single z) eqn:Ez.
      - apply in_split in Lz as [p1 [q1 E1]].
        assert (In y q1).
        { unfold F in E. rewrite E1, filter_app in E. cbn in E. 
          assert (Kz' : keyb k z = true) by (unfold keyb; now apply Nat.eqb_eq). rewrite Kz' in E.
          assert (filter (keyb k) p1 = []).
          { destruct (filter (keyb k) p1) as [|w r] eqn:W; [reflexivity|]. cbn in E. injection E as -> E'.
            pose proof (lk_nodup d K t) as N. rewrite E1, map_app in N. cbn in N. apply NoDup_remove_2 in N.
            exfalso. apply N. apply in_or_app. left. apply in_map.
            apply (filter_In (keyb k) z p1). rewrite W. now left. }
          rewrite H in E. cbn in E. injection E as E. 
          apply (filter_In (keyb k) y q1). rewrite E. apply in_or_app. right. now left. }
        pose proof (lk_first d K t p1 z q1 y E1 H Ez Ey). lia.
      - assert (z = y). { apply (lk_ent d K); [now exists t|now exists t|exact Ez|exact Ey|congruence]. }
        subst z. rewrite E in NF. cbn in NF. inversion NF; subst. apply H1. rewrite map_app. apply in_or_app. right. now left. }
    destruct (a ++ b) as [|y0 r0] eqn:Eab.
    + apply app_eq_nil in Eab as [-> ->]. cbn. rewrite app_nil_r. apply collect_fresh; [exact NF|auto].
    + destruct (Hone y0) as [S ES]; [now left|].
      assert (Hall : forall y, In y (a ++ b) -> y = y0).
      { intros y Hy. rewrite Eab in Hy. destruct (Hone y Hy) as [S' ES']. congruence. }
      clear Hone Ha Keyof FT. clearbody F. rewrite ES in *. clear ES F. inversion NF as [|? ? H1 H2]; subst.
      assert (Hskip : forall seen, In (e_id y0) seen -> (forall z, In z S -> ~ In (e_id z) seen) -> collect seen (y0 :: S ++ b) = S).
      { intros seen Hs Hd. cbn. rewrite (proj2 (seen_in _ _) Hs).
        destruct (collect_app seen S b) as [s' [H3 H4]]. rewrite H4, (collect_fresh seen S) by assumption.
        rewrite collect_skip; [now rewrite app_nil_r|]. intros z Hz. apply H3. left. rewrite (Hall z); [exact Hs|]. apply in_or_app. now right. }
      destruct a as [|y1 a].
      * cbn [app]. change (y0 :: S) with ([y0] ++ S) at 1. cbn. f_equal.
        destruct (collect_app [e_id y0] S b) as [s' [H3 H4]]. rewrite H4, (collect_fresh _ S).
        -- rewrite collect_skip; [now rewrite app_nil_r|]. intros z Hz. apply H3. left. left. rewrite (Hall z); [reflexivity|exact Hz].
        -- assumption.
        -- intros z Hz [E|[]]. apply H1. rewrite E. now apply in_map.
      * assert (y1 = y0) by (apply Hall; now left). subst y1. cbn. f_equal.
        destruct (collect_app [e_id y0] a (y0 :: S ++ b)) as [s' [H3 H4]]. rewrite H4.
        rewrite (collect_skip _ a).
        -- cbn. apply Hskip; [apply H3; left; now left|]. intros z Hz Hs. apply H3 in Hs. destruct Hs as [[E|[]]|Hs].
           ++ apply H1. rewrite E. now apply in_map.
           ++ apply in_map_iff in Hs as [w [E Hw]]. rewrite (Hall w) in E by (cbn; right; apply in_or_app; now left).
              apply H1. rewrite E. now apply in_map.
        -- intros z Hz. left. rewrite (Hall z); [reflexivity|]. cbn. right. apply in_or_app. now left.
  - assert (F = []).
    { destruct Keyof; [contradiction|assumption]. }
    rewrite H. assert (Z0 : forall ks : list Z, ~ In t ks -> concat (map (fun t' => filter (keyb k) (filter (onb t) (lane d t'))) ks) = []).
    { induction ks as [|t' ks IH]; intros N; [reflexivity|]. cbn. rewrite IH by (intros ?; apply N; now right).
      destruct (filter (keyb k) (filter (onb t) (lane d t'))) as [|y r] eqn:E; [reflexivity|].
      destruct (O t' y) as [_ Hy]; [intros ->; apply N; now left|rewrite E; now left|]. rewrite H in Hy. destruct Hy. }
    rewrite Z0; [reflexivity|]. intros Hk. apply It. eapply Permutation_in; [apply sortedZ_perm|exact Hk].
Qed.
End Extract.
