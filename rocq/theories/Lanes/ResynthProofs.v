(** The local resynthesis pass preserves the unitary. *)
From Coq Require Import List ZArith Arith Bool Lia Sorted Permutation.
From Verif Require Import Base.Py Base.PyFacts Base.Cplx Base.Matrix Base.Radix.
From Verif Require Import Circuit.GateModel Circuit.GateProofs Gates.FactoryModel Gates.FactorySpec Gates.Embed Gates.FactoryMain.
From Verif Require Import Lanes.LanesModel Lanes.LanesSpec Lanes.ExtractProofs Lanes.LanesProofs Lanes.GroupProofs Lanes.UnitaryProofs.
Import ListNotations.
Local Open Scope nat_scope.

Section Rs.
Variable dims : list nat.
Hypothesis Hpos : forall d, In d dims -> 0 < d.
Let D := prodl dims.
Notation fitsd := (fits dims).
Notation act := (gact dims).
Notation run := (grun dims).

(** ** One group *)
Definition on1 (t : Z) (x : entry mat) : Prop := fitsd (e_gate x) /\ target_lines (e_gate x) = [t].
Lemma new_single (t : Z) (m : mat) : (0 <= t < Z.of_nat (List.length dims))%Z ->
  exists u, new_gate (List.length dims) dims "CUm" SINGLE (TInt t) None m = Ok u /\ g_type u = SINGLE /\ target_lines u = [t] /\ core u = m /\ fitsd u.
Proof.
  intros H. unfold new_gate. cbn. eexists. split; [reflexivity|]. cbn. split; [reflexivity|]. split; [reflexivity|]. split; [reflexivity|].
  split; [split; cbn; [discriminate|split; [repeat constructor; easy|split; [intros t0 [<-|[]]; exact H|exact I]]]|].
  split; [reflexivity|]. left. split; [reflexivity|now exists t].
Qed.
Lemma group_matrix_run t g : (forall x, In x g -> on1 t x) -> forall m, exists m',
  group_matrix dims (nth (Z.to_nat t) dims 0) m g = Ok m' /\
  forall u u', fitsd u -> fitsd u' -> target_lines u = [t] -> target_lines u' = [t] ->
    core u = m -> core u' = m' -> forall s, meq D (act u' s) (run (map snd g) (act u s)).
Proof.
  set (d := nth (Z.to_nat t) dims 0). induction g as [|x g IH]; intros H m.
  - exists m. split; [reflexivity|]. intros u u' Fu Fu' Tu Tu' Cu Cu' s. cbn.
    unfold gact. apply mmul_ext; [|apply meq_refl]. 
    assert (E : meq D (act u' mid) (act u mid)).
    { assert (exists i, fitsd i /\ target_lines i = [t] /\ core i = mid) as [i [Fi [Ti Ci]]].
      { destruct (new_single t mid) as [i [_ [_ [Ti [Ci Fi]]]]]; [destruct Fu as [W _]; apply W; rewrite Tu; now left|]. exists i. auto. }
      eapply meq_trans; [apply (line_multiply dims Hpos u i u' t); auto|].
      - fold d. rewrite Cu', Cu, Ci. apply meq_sym, mmul_id_r.
      - apply gact_ext. apply (line_identity dims Hpos i t); auto. rewrite Ci. apply meq_refl. }
    eapply meq_trans; [apply meq_sym, mmul_id_r|]. eapply meq_trans; [exact E|]. apply mmul_id_r.
  - destruct (H x (or_introl eq_refl)) as [Fx Tx]. cbn [group_matrix].
    rewrite gen_bare; [|apply Fx|apply Fx]. cbn [bindr].
    destruct (IH (fun y Hy => H y (or_intror Hy)) (mmul d (core (e_gate x)) m)) as [m' [E Rn]]. exists m'. split; [exact E|].
    intros u u' Fu Fu' Tu Tu' Cu Cu' s.
    assert (exists w, fitsd w /\ target_lines w = [t] /\ core w = mmul d (core (e_gate x)) m) as [w [Fw [Tw Cw]]].
    { destruct (new_single t (mmul d (core (e_gate x)) m)) as [w [_ [_ [Tw [Cw Fw]]]]]; [destruct Fu as [W _]; apply W; rewrite Tu; now left|]. exists w. auto. }
    eapply meq_trans; [apply (Rn w u'); auto|]. cbn. apply grun_ext.
    apply (line_multiply dims Hpos (e_gate x) u w t); auto. fold d. rewrite Cw, Cu. apply meq_refl.
Qed.

(** ** One line *)
Variable f0 : nat.
Definition expand (G : nat -> list (obj mat)) (e : entry mat) : list (obj mat) :=
  if e_id e <? f0 then [snd e] else G (e_id e).
Definition merged_ok (G : nat -> list (obj mat)) (e : entry mat) : Prop :=
  fitsd (e_gate e) /\
  (f0 <= e_id e -> e_single e = true /\ exists t, target_lines (e_gate e) = [t] /\
    (forall o, In o (G (e_id e)) -> fitsd (snd o) /\ target_lines (snd o) = [t]) /\
    forall s, meq D (act (e_gate e) s) (run (G (e_id e)) s)).
Definition no_two_local (es : list (entry mat)) : Prop :=
  forall p x y q, es = p ++ x :: y :: q -> e_single x = true -> e_single y = true -> False.

Lemma plain_ent (x : entry mat) t : fitsd (e_gate x) -> e_single x = true -> onb t x = true -> target_lines (e_gate x) = [t].
Proof.
  intros [_ P] S O. destruct (plain_single_line _ P S) as [u E]. apply onb_in in O. rewrite E in *. destruct O as [->|[]]. reflexivity.
Qed.

Lemma StronglySorted_app_r {T} (P : T -> T -> Prop) (a b : list T) : StronglySorted P (a ++ b) -> StronglySorted P b.
Proof. induction a as [|x a IH]; [easy|]. cbn. intros H. inversion H; subst. now apply IH. Qed.
Lemma StronglySorted_app_in {T} (P : T -> T -> Prop) (a b : list T) : StronglySorted P (a ++ b) -> forall x y, In x a -> In y b -> P x y.
Proof.
  induction a as [|z a IH]; [easy|]. cbn. intros H. inversion H; subst. intros x y [<-|Hx] Hy; [|now apply IH].
  rewrite Forall_forall in H3. apply H3. apply in_or_app. now right.
Qed.

Lemma merge_spec t gs : (0 <= t < Z.of_nat (List.length dims))%Z ->
  (forall g, In g gs -> g <> [] /\ (singles g \/ exists x, g = [x] /\ e_single x = false)) ->
  (forall p g1 g2 q, gs = p ++ g1 :: g2 :: q -> singles g1 -> singles g2 -> False) ->
  (forall x, In x (concat gs) -> fitsd (e_gate x) /\ onb t x = true /\ e_id x < f0) ->
  StronglySorted R (concat gs) -> NoDup (map (e_id (A:=mat)) (concat gs)) ->
  forall fresh, f0 <= fresh -> exists fresh' new G, merge_groups dims t fresh gs = Ok (fresh', new) /\ fresh <= fresh' /\
    flat_map (expand G) new = map snd (concat gs) /\
    (forall e, In e new -> merged_ok G e /\ onb t e = true) /\
    (forall e, In e new -> (e_single e = false /\ In e (concat gs)) \/ (e_single e = true /\ fresh <= e_id e < fresh')) /\
    (forall e, In e (concat gs) -> e_single e = false -> In e new) /\
    NoDup (map (e_id (A:=mat)) new) /\ StronglySorted R new /\ no_two_local new /\
    (forall e, In e new -> exists x, In x (concat gs) /\ fst x = fst e /\ e_single x = e_single e).
Proof.
  intros Ht. induction gs as [|g gs IH]; intros Kd Mx Fx Sx Nx fresh Hf.
  - exists fresh, [], (fun _ => []). split; [reflexivity|]. split; [lia|]. split; [reflexivity|].
    split; [easy|]. split; [easy|]. split; [easy|]. split; [constructor|]. split; [constructor|]. split; [|easy].
    intros p x y q E. destruct p; discriminate.
  - assert (IH' : forall fresh, f0 <= fresh -> exists fresh' new G, merge_groups dims t fresh gs = Ok (fresh', new) /\ fresh <= fresh' /\
      flat_map (expand G) new = map snd (concat gs) /\
      (forall e, In e new -> merged_ok G e /\ onb t e = true) /\
      (forall e, In e new -> (e_single e = false /\ In e (concat gs)) \/ (e_single e = true /\ fresh <= e_id e < fresh')) /\
      (forall e, In e (concat gs) -> e_single e = false -> In e new) /\
      NoDup (map (e_id (A:=mat)) new) /\ StronglySorted R new /\ no_two_local new /\
      (forall e, In e new -> exists x, In x (concat gs) /\ fst x = fst e /\ e_single x = e_single e)).
    { cbn in Sx, Nx. apply IH.
      - intros h Hh. apply Kd. now right.
      - intros p g1 g2 q E. apply (Mx (g :: p) g1 g2 q). now rewrite E.
      - intros x Hx. apply Fx. cbn. apply in_or_app. now right.
      - now apply StronglySorted_app_r in Sx.
      - rewrite map_app in Nx. apply NoDup_app_inv in Nx. tauto. }
    clear IH. destruct (Kd g (or_introl eq_refl)) as [Ng Kg].
    destruct g as [|x g]; [congruence|].
    destruct Kg as [Sg|[x' [Eg Ex]]].
    + (* local gates *)
      assert (Ex : e_single x = true) by (apply Sg; now left).
      cbn [merge_groups]. rewrite Ex.
      assert (Hn : pyindex dims t = Ok (nth (Z.to_nat t) dims 0)).
      { rewrite <- (Z2Nat.id t) at 1 by lia. rewrite pyindex_nat. rewrite (nth_error_nth' dims 0) by lia. reflexivity. }
      rewrite Hn. cbn [bindr].
      assert (O1 : forall y, In y (x :: g) -> on1 t y).
      { intros y Hy. destruct (Fx y) as [Fy [Oy _]]; [cbn [concat]; apply in_or_app; now left|]. split; [exact Fy|].
        apply plain_ent; auto. }
      destruct (group_matrix_run t (x :: g) O1 mid) as [m [Em Rm]]. rewrite Em. cbn [bindr].
      destruct (new_single t m Ht) as [u [Eu [Tu [Lu [Cu Fu]]]]]. rewrite Eu. cbn [bindr].
      destruct (IH' (S fresh)) as [fresh' [new [G [E [Hle [Hfl [Hm [Hk [He [Hnd [Hs [Hno Hx]]]]]]]]]]]]; [lia|].
      rewrite E. cbn [bindr fst snd].
      set (e := (fst x, (fresh, u))) in *.
      set (G' := fun n => if Nat.eqb n fresh then map snd (x :: g) else G n).
      exists fresh', (e :: new), G'.
      assert (Hid : forall e', In e' new -> e_id e' <> fresh).
      { intros e' He'. destruct (Hk e' He') as [[_ Hc]|[_ Hc]]; [|lia].
        destruct (Fx e') as [_ [_ Hlt]]; [cbn [concat]; apply in_or_app; now right|]. lia. }
      assert (HG : forall e', In e' new -> G' (e_id e') = G (e_id e')).
      { intros e' He'. unfold G'. destruct (Nat.eqb_spec (e_id e') fresh); [|reflexivity]. exfalso. eapply Hid; eauto. }
      split; [reflexivity|]. split; [lia|]. split; [|split; [|split; [|split; [|split; [|split; [|split]]]]]].
      * cbn [flat_map concat]. rewrite map_app. f_equal.
        -- unfold expand, e, e_id. cbn [fst snd]. destruct (Nat.ltb_spec fresh f0); [lia|]. unfold G'. now rewrite Nat.eqb_refl.
        -- etransitivity; [|exact Hfl]. rewrite !flat_map_concat_map. f_equal. apply map_ext_in. intros e' He'. unfold expand. now rewrite HG.
      * intros e' [<-|He'].
        -- split; [|unfold onb, e; cbn; unfold on_line; cbn [snd]; rewrite Lu; cbn; now rewrite Z.eqb_refl].
           split; [exact Fu|]. intros _. split; [unfold e_single, e_gate, e; cbn; now rewrite Tu|].
           exists t. split; [exact Lu|]. unfold e, e_id. cbn [fst snd]. unfold G'. rewrite Nat.eqb_refl. split.
           ++ intros o Ho. apply in_map_iff in Ho as [y [<- Hy]]. exact (O1 y Hy).
           ++ intros s. unfold e_gate. cbn [snd].
              assert (exists i, fitsd i /\ target_lines i = [t] /\ core i = mid) as [i [Fi [Ti Ci]]].
              { destruct (new_single t mid Ht) as [i [_ [_ [Ti [Ci Fi]]]]]. exists i. auto. }
              eapply meq_trans; [apply (Rm i u); auto|]. apply grun_ext. apply (line_identity dims Hpos i t); auto. rewrite Ci. apply meq_refl.
        -- destruct (Hm e' He') as [[Fe Me] Oe]. split; [|exact Oe]. split; [exact Fe|]. intros Hge. rewrite HG by exact He'. now apply Me.
      * intros e' [<-|He'].
        -- right. split; [unfold e_single, e_gate, e; cbn; now rewrite Tu|]. unfold e, e_id. cbn. lia.
        -- destruct (Hk e' He') as [[H1 H2]|[H1 H2]]; [left; split; [exact H1|cbn [concat]; apply in_or_app; now right]|right; split; [exact H1|lia]].
      * intros y Hy Ey. cbn [concat] in Hy. apply in_app_or in Hy as [Hy|Hy]; [apply Sg in Hy; congruence|right; now apply He].
      * cbn [map]. constructor; [|exact Hnd]. intros Hc. apply in_map_iff in Hc as [e' [Ee' He']]. apply (Hid e' He'). exact Ee'.
      * constructor; [exact Hs|]. apply Forall_forall. intros e' He'. destruct (Hx e' He') as [y [Hy [Ky Sy]]].
        cbn [concat] in Sx. pose proof (StronglySorted_app_in R (x :: g) (concat gs) Sx x y (or_introl eq_refl) Hy) as [R1 R2].
        unfold R, e. cbn [fst]. rewrite <- Ky. split; [exact R1|]. intros Hs'. apply R2. congruence.
      * intros p a b q Eab Sa Sb. destruct p as [|z p]; cbn in Eab; injection Eab as E1 E2; [|exact (Hno p a b q E2 Sa Sb)].
        (* the next group starts with a local gate *)
        destruct gs as [|g2 gs]; [cbn in E; injection E as _ <-; discriminate|].
        destruct (Kd g2) as [Ng2 K2]; [right; now left|]. destruct K2 as [S2|[z [-> Ez]]].
        -- apply (Mx [] (x :: g) g2 gs); [reflexivity|exact Sg|exact S2].
        -- cbn [merge_groups] in E. rewrite Ez in E. destruct (merge_groups dims t (S fresh) gs) as [[f2 n2]|]; [|discriminate].
           cbn in E. injection E as _ <-. injection E2 as <- _. congruence.
      * intros e' [<-|He'].
        -- exists x. split; [now left|]. split; [reflexivity|]. rewrite Ex. unfold e_single, e_gate, e. cbn. now rewrite Tu.
        -- destruct (Hx e' He') as [y [Hy Hy']]. exists y. split; [cbn [concat]; apply in_or_app; now right|exact Hy'].
    + (* an entangling gate *)
      injection Eg as -> ->. cbn [merge_groups]. rewrite Ex.
      destruct (IH' fresh Hf) as [fresh' [new [G [E [Hle [Hfl [Hm [Hk [He [Hnd [Hs [Hno Hx]]]]]]]]]]]].
      rewrite E. cbn [bindr fst snd]. exists fresh', (x' :: new), G.
      destruct (Fx x') as [Fx' [Ox' Lx']]; [now left|].
      split; [reflexivity|]. split; [lia|]. split; [|split; [|split; [|split; [|split; [|split; [|split]]]]]].
      * cbn. rewrite Hfl. unfold expand. destruct (Nat.ltb_spec (e_id x') f0); [reflexivity|lia].
      * intros e [<-|He']; [split; [split; [exact Fx'|lia]|exact Ox']|now apply Hm].
      * intros e [<-|He']; [left; split; [exact Ex|now left]|].
        destruct (Hk e He') as [[H1 H2]|H1]; [left; split; [exact H1|now right]|now right].
      * intros e [<-|He'] Ee; [now left|right; now apply He].
      * cbn [map]. constructor; [|exact Hnd]. intros Hc. apply in_map_iff in Hc as [e' [Ee' He']].
        cbn in Nx. inversion Nx; subst. apply H1. destruct (Hk e' He') as [[_ Hc]|[_ Hc]]; [rewrite <- Ee'; now apply in_map|lia].
      * constructor; [exact Hs|]. apply Forall_forall. intros e' He'. destruct (Hx e' He') as [y [Hy [Ky Sy]]].
        cbn in Sx. inversion Sx; subst. rewrite Forall_forall in H2. destruct (H2 y Hy) as [R1 R2].
        unfold R. rewrite <- Ky. split; [exact R1|]. intros Hs'. apply R2. congruence.
      * intros p a b q Eab Sa Sb. destruct p as [|z p]; cbn in Eab; injection Eab as E1 E2; [congruence|exact (Hno p a b q E2 Sa Sb)].
      * intros e [<-|He']; [exists x'; split; [now left|auto]|]. destruct (Hx e He') as [y [Hy Hy']]. exists y. split; [now right|exact Hy'].
Qed.

(** ** All lines *)
Variable l : list (obj mat).
Hypothesis Hfits : forall o, In o l -> fitsd (snd o).
Hypothesis Hids : NoDup (map fst l).
Hypothesis Hf0 : forall o, In o l -> fst o < f0.
Let es := pre_process_ops l.

Record inv (todo : list Z) (fresh : nat) (d : list (Z * list (entry mat))) (G : nat -> list (obj mat)) : Prop := {
  iv_fresh : f0 <= fresh;
  iv_ok : lanes_ok d;
  iv_R : forall t, StronglySorted R (lane d t);
  iv_ids : forall x, in_lanes d x -> e_id x < fresh;
  iv_todo : forall t, In t todo -> In t (map fst d) /\ lane d t = filter (onb t) es /\ lane d t <> [];
  iv_merged : forall x, in_lanes d x -> merged_ok G x;
  iv_expand : forall t, flat_map (expand G) (lane d t) = line_ops t l;
  iv_done : forall t, ~ In t todo -> no_two_local (lane d t);
  iv_ents : forall t x, e_single x = false -> (In x (lane d t) <-> In x (filter (onb t) es));
  iv_old : forall t x, e_single x = false -> In x (lane d t) -> e_id x < f0
}.

Lemma es_plain x : In x es -> plain (e_gate x).
Proof. apply plain_all. intros o Ho. apply Hfits. exact Ho. Qed.
Lemma es_in x : In x es -> In (snd x) l.
Proof. intros H. unfold es, pre_process_ops in H. rewrite <- (number_snd 0 l). now apply in_map. Qed.
Lemma es_ids : NoDup (map (e_id (A:=mat)) es).
Proof. unfold es, pre_process_ops. now rewrite ids_snd, number_snd. Qed.

Lemma step_inv t todo fresh d G : inv (t :: todo) fresh d G -> ~ In t todo ->
  exists gr gs fresh' new G', consecutive (lane d t) = Ok gr /\ dget Z.eqb gr t = Some gs /\
    merge_groups dims t fresh gs = Ok (fresh', new) /\ inv todo fresh' (dset Z.eqb d t new) G'.
Proof.
  intros I Nt. destruct (iv_todo _ _ _ _ I t (or_introl eq_refl)) as [Kt [Lt Ne]].
  assert (Pl : forall x, In x (lane d t) -> plain (e_gate x)).
  { intros x Hx. rewrite Lt in Hx. apply filter_In in Hx as [Hx _]. now apply es_plain. }
  assert (Ce : exists gr, consecutive (lane d t) = Ok gr).
  { unfold consecutive. destruct (group_loop_ok (lane d t) Pl []) as [v Ev]. rewrite Ev. cbn. eauto. }
  destruct Ce as [gr Egr]. destruct (consecutive_spec _ _ Pl Egr) as [_ [Gr Kr]].
  pose proof (iv_ok _ _ _ _ I) as K.
  assert (Fl : filter (onb t) (lane d t) = lane d t) by (apply filter_all, (lk_on d K)).
  assert (Kg : In t (map fst gr)).
  { apply Kr. destruct (lane d t) as [|x r] eqn:El; [congruence|]. exists x. split; [now left|].
    apply (lk_on d K). rewrite El. now left. }
  apply dget_some in Kg as [gs Egs]. pose proof (Gr t gs Egs) as Er. rewrite Fl in Er.
  assert (Cg : concat gs = lane d t) by (rewrite Er; apply runs_concat).
  destruct (merge_spec t gs) with (fresh := fresh) as [fresh' [new [Gn [E [Hle [Hfl [Hm [Hk [He [Hnd [Hs [Hno Hx]]]]]]]]]]]].
  - destruct (lane d t) as [|x r] eqn:El; [congruence|].
    assert (Hx : In x (lane d t)) by (rewrite El; now left).
    destruct (iv_merged _ _ _ _ I x) as [[W _] _]; [now exists t|]. apply W. apply onb_in. now apply (lk_on d K).
  - rewrite Er. apply runs_kind.
  - rewrite Er. apply runs_maximal.
  - rewrite Cg. intros x Hx. split; [apply (iv_merged _ _ _ _ I); now exists t|]. split; [now apply (lk_on d K)|].
    rewrite Lt in Hx. apply filter_In in Hx as [Hx _]. apply Hf0. now apply es_in.
  - rewrite Cg. apply (iv_R _ _ _ _ I).
  - rewrite Cg. apply (lk_nodup d K).
  - apply (iv_fresh _ _ _ _ I).
  - rewrite Cg in *. pose proof (iv_fresh _ _ _ _ I) as Hf.
    set (G' := fun n => if n <? fresh then G n else Gn n).
    exists gr, gs, fresh', new, G'. split; [exact Egr|]. split; [exact Egs|]. split; [exact E|].
    assert (L : forall t', lane (dset Z.eqb d t new) t' = if Z.eqb t' t then new else lane d t').
    { intros t'. unfold lane. rewrite lane_dset. now destruct (Z.eqb t' t). }
    assert (In' : forall x, in_lanes (dset Z.eqb d t new) x -> In x new \/ in_lanes d x).
    { intros x [t' Hx']. rewrite L in Hx'. destruct (Z.eqb t' t); [now left|right; now exists t']. }
    assert (Mo : forall x, in_lanes (dset Z.eqb d t new) x -> merged_ok G' x).
    { intros x Hx'. apply In' in Hx' as [Hx'|Hx'].
      - destruct (Hm x Hx') as [[Fx Mx] _]. split; [exact Fx|]. intros Hge.
        destruct (Hk x Hx') as [[Sx Hin]|[Sx Hr]].
        + exfalso. pose proof (iv_old _ _ _ _ I t x Sx Hin). lia.
        + unfold G'. destruct (Nat.ltb_spec (e_id x) fresh); [lia|]. now apply Mx.
      - pose proof (iv_ids _ _ _ _ I x Hx') as Hlt. destruct (iv_merged _ _ _ _ I x Hx') as [Fx Mx]. split; [exact Fx|]. intros Hge.
        unfold G'. destruct (Nat.ltb_spec (e_id x) fresh); [|lia]. now apply Mx. }
    assert (Ents : forall t' x, e_single x = false -> (In x (lane (dset Z.eqb d t new) t') <-> In x (filter (onb t') es))).
    { intros t' x Sx. rewrite L. destruct (Z.eqb_spec t' t) as [->|N]; [|now apply (iv_ents _ _ _ _ I)].
      rewrite <- (iv_ents _ _ _ _ I t x Sx). split.
      - intros Hx'. destruct (Hk x Hx') as [[_ H]|[H _]]; [exact H|congruence].
      - intros Hx'. now apply He. }
    assert (Rs' : forall t', StronglySorted R (lane (dset Z.eqb d t new) t')).
    { intros t'. rewrite L. destruct (Z.eqb t' t); [exact Hs|apply (iv_R _ _ _ _ I)]. }
    assert (On : forall t' x, In x (lane (dset Z.eqb d t new) t') -> onb t' x = true).
    { intros t' x. rewrite L. destruct (Z.eqb_spec t' t) as [->|N]; [intros Hx'; now apply Hm|apply (lk_on d K)]. }
    assert (Sl : forall x t1 t2, in_lanes (dset Z.eqb d t new) x -> e_single x = true -> onb t1 x = true -> onb t2 x = true -> t1 = t2).
    { intros x t1 t2 Hx' Sx O1 O2. apply Mo in Hx' as [[_ Px] _]. destruct (plain_single_line _ Px Sx) as [u Eu].
      apply onb_in in O1, O2. rewrite Eu in *. destruct O1 as [<-|[]], O2 as [<-|[]]. reflexivity. }
    constructor; auto.
    + lia.
    + constructor; auto.
      * apply (dset_NoDup Z.eqb Z.eqb_eq). apply (lk_keys d K).
      * intros t1 t2 x H1 O2. destruct (e_single x) eqn:Sx.
        -- rewrite <- (Sl x t1 t2); [exact H1|now exists t1|exact Sx|now apply On|exact O2].
        -- apply Ents; [exact Sx|]. apply Ents in H1; [|exact Sx]. apply filter_In in H1 as [H1 _]. apply filter_In. auto.
      * intros x y [tx Hx'] [ty Hy'] Eid. rewrite L in Hx', Hy'.
        assert (Q : forall a, In a new -> in_lanes d a \/ fresh <= e_id a).
        { intros a Ha. destruct (Hk a Ha) as [[_ H]|[_ H]]; [left; now exists t|right; lia]. }
        destruct (Z.eqb tx t), (Z.eqb ty t).
        -- apply (NoDup_map_inj (e_id (A:=mat)) new); auto.
        -- assert (Hy2 : in_lanes d y) by now exists ty. destruct (Q x Hx') as [H|H]; [now apply (lk_id d K)|].
           apply (iv_ids _ _ _ _ I) in Hy2. lia.
        -- assert (Hx2 : in_lanes d x) by now exists tx. destruct (Q y Hy') as [H|H]; [now apply (lk_id d K)|].
           apply (iv_ids _ _ _ _ I) in Hx2. lia.
        -- apply (lk_id d K); [now exists tx|now exists ty|exact Eid].
      * intros t'. rewrite L. destruct (Z.eqb t' t); [exact Hnd|apply (lk_nodup d K)].
      * intros t'. now apply R_klt.
      * intros x y [tx Hx'] [ty Hy'] Sx Sy. apply Ents in Hx'; [|exact Sx]. apply Ents in Hy'; [|exact Sy].
        apply filter_In in Hx' as [Hx' _]. apply filter_In in Hy' as [Hy' _]. apply (R_ent es); auto. apply number_sorted.
      * intros t' p x q y El Hy Sx Sy. pose proof (Rs' t') as S'. rewrite El in S'. destruct (R_app _ _ _ S' y Hy) as [_ H]. now apply H.
    + intros x Hx'. apply In' in Hx' as [Hx'|Hx'].
      * destruct (Hk x Hx') as [[_ H]|[_ H]]; [|lia]. assert (in_lanes d x) by now exists t. apply (iv_ids _ _ _ _ I) in H0. lia.
      * apply (iv_ids _ _ _ _ I) in Hx'. lia.
    + intros t' Ht'. assert (t' <> t) by (intros ->; contradiction). destruct (iv_todo _ _ _ _ I t' (or_intror Ht')) as [A1 A2].
      split; [apply dset_key_incl; now right|]. rewrite L. destruct (Z.eqb_spec t' t); [contradiction|exact A2].
    + intros t'. rewrite L. destruct (Z.eqb_spec t' t) as [->|N].
      * transitivity (flat_map (expand Gn) new).
        -- rewrite !flat_map_concat_map. f_equal. apply map_ext_in. intros e He'. unfold expand, G'.
           destruct (Nat.ltb_spec (e_id e) f0); [reflexivity|]. destruct (Hk e He') as [[Se Hin]|[Se Hr]].
           ++ exfalso. pose proof (iv_old _ _ _ _ I t e Se Hin). lia.
           ++ destruct (Nat.ltb_spec (e_id e) fresh); [lia|reflexivity].
        -- rewrite Hfl, Lt. rewrite <- line_ops_snd. unfold es, pre_process_ops. now rewrite number_snd.
      * rewrite <- (iv_expand _ _ _ _ I t'). rewrite !flat_map_concat_map. f_equal. apply map_ext_in. intros e He'. unfold expand, G'.
        destruct (Nat.ltb_spec (e_id e) f0); [reflexivity|]. assert (Hin : in_lanes d e) by now exists t'. apply (iv_ids _ _ _ _ I) in Hin.
        destruct (Nat.ltb_spec (e_id e) fresh); [reflexivity|lia].
    + intros t' Ht'. rewrite L. destruct (Z.eqb_spec t' t) as [->|N]; [exact Hno|]. apply (iv_done _ _ _ _ I). intros [->|H]; [congruence|contradiction].
    + intros t' x Sx Hx'. rewrite L in Hx'. destruct (Z.eqb_spec t' t) as [->|N]; [|now apply (iv_old _ _ _ _ I t' x)].
      destruct (Hk x Hx') as [[_ H]|[H _]]; [now apply (iv_old _ _ _ _ I t x)|congruence].
Qed.

Lemma loop_inv todo : NoDup todo -> forall fresh d G, inv todo fresh d G -> exists d' fresh' G', resynth_lines dims fresh d todo = Ok d' /\ inv [] fresh' d' G'.
Proof.
  induction todo as [|t todo IH]; intros N fresh d G I; [now exists d, fresh, G|]. inversion N; subst.
  destruct (step_inv t todo fresh d G I H1) as [gr [gs [fresh' [new [G' [E1 [E2 [E3 I']]]]]]]].
  cbn [resynth_lines]. rewrite E1. cbn [bindr]. rewrite E2, E3. cbn [bindr fst snd]. eapply IH; eauto.
Qed.

Lemma resynth_spec : exists out, resynth dims f0 l = Ok out /\ same_unitary dims l out /\ entangling out = entangling l /\
  (forall t p o1 o2 q, line_ops t out = p ++ o1 :: o2 :: q -> ~ (local o1 = true /\ local o2 = true)) /\
  (forall o, In o out -> fitsd (snd o)) /\ NoDup (map fst out).
Proof.
  assert (Pl : forall o, In o l -> plain (snd o)) by (intros o Ho; now apply Hfits).
  destruct (new_lanes_ok l Pl) as [x [Ex [_ [_ [_ [_ [Nk [L Kk]]]]]]]].
  assert (K : lanes_ok (l_dict x)).
  { eapply initial_ok; eauto; [apply es_plain|apply es_ids|apply number_sorted]. }
  assert (Ies : forall y, in_lanes (l_dict x) y -> In y es).
  { intros y [t Hy]. rewrite L in Hy. now apply filter_In in Hy. }
  assert (I : inv (sortedZ (map fst (l_dict x))) f0 (l_dict x) (fun _ => [])).
  { constructor; auto.
    - intros t. rewrite L. apply filter_R, number_sorted.
    - intros y Hy. apply Hf0, es_in, Ies, Hy.
    - intros t Ht. assert (Ht' : In t (map fst (l_dict x))) by (eapply Permutation_in; [apply sortedZ_perm|exact Ht]).
      split; [exact Ht'|]. split; [apply L|]. rewrite L. apply Kk in Ht' as [o [Ho Oo]].
      rewrite <- (number_snd 0 l) in Ho. apply in_map_iff in Ho as [y [<- Hy]]. intros Hnil.
      pose proof (filter_nil_inv _ _ Hnil y Hy). unfold onb in H. congruence.
    - intros y Hy. split; [apply Hfits, es_in, Ies, Hy|]. intros Hge. exfalso.
      pose proof (Hf0 _ (es_in _ (Ies y Hy))). unfold e_id in Hge. lia.
    - intros t. rewrite L. transitivity (map snd (filter (onb t) es)).
      + rewrite flat_map_concat_map. fold es.
        assert (Hall : forall y, In y (filter (onb t) es) -> expand (fun _ => []) y = [snd y]).
        { intros y Hy. apply filter_In in Hy as [Hy _]. unfold expand. pose proof (Hf0 _ (es_in _ Hy)).
          destruct (Nat.ltb_spec (e_id y) f0); [reflexivity|]. unfold e_id in *. lia. }
        revert Hall. induction (filter (onb t) es) as [|z r IHr]; intros Hall; [reflexivity|]. cbn. rewrite Hall by now left.
        cbn. f_equal. apply IHr. intros; apply Hall; now right.
      + rewrite <- line_ops_snd. unfold es, pre_process_ops. now rewrite number_snd.
    - intros t Ht p a b q E. exfalso. apply Ht. eapply Permutation_in; [symmetry; apply sortedZ_perm|].
      apply (lane_key _ t a). rewrite E. apply in_or_app. right. now left.
    - intros t y Sy. now rewrite L.
    - intros t y Sy Hy. apply Hf0, es_in, Ies. now exists t. }
  destruct (loop_inv _ ltac:(eapply Permutation_NoDup; [symmetry; apply sortedZ_perm|exact Nk]) _ _ _ I) as [d' [fresh' [G [E J]]]].
  unfold resynth. rewrite Ex. cbn [bindr]. rewrite E. cbn [bindr]. exists (extract d'). split; [reflexivity|].
  pose proof (iv_ok _ _ _ _ J) as K'.
  assert (Mo : forall e, In e (entries d') -> merged_ok G e).
  { intros e He. apply (iv_merged _ _ _ _ J). now apply entries_in in He. }
  assert (Fo : forall o, In o (extract d') -> fitsd (snd o)).
  { intros o Ho. rewrite extract_entries in Ho. apply in_map_iff in Ho as [e [<- He]]. now apply (Mo e). }
  (* the expanded circuit *)
  set (big := flat_map (expand G) (entries d')).
  assert (Fb : forall o, In o big -> fitsd (snd o)).
  { intros o Ho. apply in_flat_map in Ho as [e [He Ho]]. destruct (Mo e He) as [Fe Me]. unfold expand in Ho.
    destruct (Nat.ltb_spec (e_id e) f0); [destruct Ho as [<-|[]]; exact Fe|]. destruct (Me H) as [_ [t [_ [Hg _]]]]. now apply Hg. }
  assert (Lb : forall t, line_ops t big = line_ops t l).
  { intros t. rewrite <- (iv_expand _ _ _ _ J t), <- (lane_entries d' K' t). unfold big. clear -Mo.
    induction (entries d') as [|e r IHr]; [reflexivity|]. cbn [flat_map filter]. unfold line_ops, obj in *. rewrite filter_app.
    specialize (IHr (fun e' H => Mo e' (or_intror H))). rewrite IHr.
    assert (He : filter (on_line t) (expand G e) = if onb t e then expand G e else []).
    { destruct (Mo e (or_introl eq_refl)) as [Fe Me]. unfold expand. destruct (Nat.ltb_spec (e_id e) f0).
      - cbn. unfold onb. destruct (on_line t (snd e)); reflexivity.
      - destruct (Me H) as [_ [u [Tu [Hg _]]]].
        assert (Hon : onb t e = Z.eqb t u) by (unfold onb, on_line; fold (e_gate e); rewrite Tu; cbn; now rewrite orb_false_r).
        assert (Hoo : forall o, In o (G (e_id e)) -> on_line t o = Z.eqb t u).
        { intros o Ho. unfold on_line. rewrite (proj2 (Hg o Ho)). cbn. now rewrite orb_false_r. }
        rewrite Hon. destruct (Z.eqb t u); [apply filter_all|apply filter_none]; exact Hoo. }
    unfold obj in *. rewrite He. destruct (onb t e); reflexivity. }
  assert (Sw : swaps l big).
  { apply traces; [now apply plain_lines|intros o Ho; apply plain_nodup; now apply Fb|intros; now rewrite Lb]. }
  split; [|split; [|split; [|split]]].
  - apply same_of_run; [exact Hfits|exact Fo|]. eapply meq_trans; [apply (swaps_run dims Hpos l big Sw Hfits)|].
    unfold big. rewrite extract_entries. clear -Mo. revert Mo. generalize (@mid) as s.
    induction (entries d') as [|e r IHr]; intros s Mo; [apply meq_refl|].
    cbn [flat_map map]. rewrite grun_app. change (run (snd e :: map snd r) s) with (run (map snd r) (act (snd (snd e)) s)).
    eapply meq_trans; [apply IHr; intros; apply Mo; now right|]. apply grun_ext.
    destruct (Mo e (or_introl eq_refl)) as [Fe Me]. unfold expand. destruct (Nat.ltb_spec (e_id e) f0); [apply meq_refl|].
    destruct (Me H) as [_ [u [_ [_ Hr]]]]. apply meq_sym. apply Hr.
  - rewrite extract_entries, entangling_snd. rewrite (sorted_ents d' es); [| |apply es_ids|exact K'|].
    + rewrite <- entangling_snd. unfold es, pre_process_ops. now rewrite number_snd.
    + apply number_sorted.
    + intros y Sy. split.
      * intros [t Hy]. apply (iv_ents _ _ _ _ J t y Sy) in Hy. now apply filter_In in Hy.
      * intros Hy. destruct (plain_nodup _ (es_plain y Hy)) as [_ Ny]. destruct (target_lines (e_gate y)) as [|t ts] eqn:Et; [easy|].
        exists t. apply (iv_ents _ _ _ _ J t y Sy). apply filter_In. split; [exact Hy|]. apply onb_in. rewrite Et. now left.
  - intros t p o1 o2 q Eo [L1 L2]. rewrite extract_entries, line_ops_snd, (lane_entries d' K') in Eo.
    apply map_eq_app in Eo as [p' [r [E1 [<- E2]]]]. destruct r as [|a [|b q']]; try discriminate. cbn in E2. injection E2 as <- <- <-.
    exact (iv_done _ _ _ _ J t (fun H => H) p' a b q' E1 L1 L2).
  - exact Fo.
  - rewrite extract_entries, <- ids_snd. apply entries_nodup.
Qed.
End Rs.
