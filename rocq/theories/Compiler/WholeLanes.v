(** Where the gates of the local resynthesis come from (for C93). *)
From Coq Require Import Reals List Arith ZArith Lia Sorted Permutation.
From Verif.Base Require Import Py PyFacts Cplx Matrix Radix.
From Verif.Circuit Require Import GateModel GateProofs.
From Verif.Gates Require Import FactoryModel FactorySpec.
From Verif.Lanes Require Import LanesModel LanesSpec ExtractProofs LanesProofs GroupProofs.
Import ListNotations.
Local Open Scope nat_scope.

Lemma lane_dset_e (d : list (Z * list (entry mat))) (k k2 : Z) (v : list (entry mat)) :
  lane (dset Z.eqb d k v) k2 = if Z.eqb k2 k then v else lane d k2.
Proof. unfold lane. rewrite lane_dset. destruct (Z.eqb k2 k); reflexivity. Qed.
Lemma runs_in es x g : In g (runs es) -> In x g -> In (x : entry mat) es.
Proof. intros H1 H2. rewrite <- (runs_concat es). apply in_concat. eauto. Qed.

Section Origin.
  Variables (dims : list nat) (l : list (obj mat)) (f0 : nat).
  Notation n := (List.length dims).
  (** A local gate on line q of the register with a unitary. *)
  Definition local_unitary (g : gate mat) : Prop := exists q, q < n /\ g_type g = SINGLE /\ g_target g = TInt (Z.of_nat q) /\ g_controls g = None /\
    unitary (nth q dims 0) (if g_dagger g then madj (g_data g) else g_data g).
  Hypothesis HP : forall o, In o l -> plain (snd o).
  Hypothesis HU : forall o, In o l -> g_type (snd o) = SINGLE -> local_unitary (snd o).
  Definition origin (o : obj mat) : Prop := In o l \/ f0 <= fst o /\ local_unitary (snd o) /\ g_dagger (snd o) = false.

  Lemma origin_plain o : origin o -> plain (snd o).
  Proof.
    intros [H|[_ [(q & _ & T & G & C & _) _]]]; [apply HP; exact H|]. split; [exact C|]. left. split; [exact T|]. eauto.
  Qed.
  Lemma origin_local o : origin o -> g_type (snd o) = SINGLE -> local_unitary (snd o).
  Proof. intros [H|[_ [H _]]]; [apply HU; exact H|intros _; exact H]. Qed.

  Lemma group_unitary t g m m' : (forall x, In x g -> local_unitary (e_gate x) /\ target_lines (e_gate x) = [t]) -> unitary (nth (Z.to_nat t) dims 0) m ->
    group_matrix dims (nth (Z.to_nat t) dims 0) m g = Ok m' -> unitary (nth (Z.to_nat t) dims 0) m'.
  Proof.
    revert m. induction g as [|x g IH]; intros m H Hm E; [injection E as <-; exact Hm|]. cbn [group_matrix] in E.
    destruct (generate_matrix dims 0 (e_gate x)) as [a|] eqn:Ea; [|discriminate]. cbn [bindr] in E. apply (IH _ (fun y Hy => H y (or_intror Hy))) in E; [exact E|].
    apply unitary_mmul; [|exact Hm]. destruct (H x (or_introl eq_refl)) as [(q & _ & T & G & C & U) L]. unfold generate_matrix in Ea.
    unfold target_lines in L. rewrite G in L. injection L as L. rewrite <- L, Nat2Z.id. unfold reference_lines, control_lines, target_lines in Ea. rewrite G, C in Ea.
    cbn [bindr] in Ea. rewrite ?C in Ea. cbn in Ea. injection Ea as <-. exact U.
  Qed.
  Lemma merge_origin t gs : (0 <= t < Z.of_nat n)%Z ->
    (forall g, In g gs -> g <> [] /\ (singles g \/ exists x, g = [x] /\ e_single x = false)) ->
    (forall g x, In g gs -> In x g -> origin (snd x) /\ onb t x = true) ->
    forall f f' new, f0 <= f -> merge_groups dims t f gs = Ok (f', new) -> f0 <= f' /\ forall x, In x new -> origin (snd x).
  Proof.
    intros Ht. induction gs as [|g gs IH]; intros K H f f' new Hf E; cbn [merge_groups] in E.
    - injection E as <- <-. split; [exact Hf|intros x []].
    - destruct g as [|x g]; [discriminate|]. destruct (K _ (or_introl eq_refl)) as [_ Kg].
      assert (IH' := IH (fun g' Hg => K g' (or_intror Hg)) (fun g' y Hg => H g' y (or_intror Hg))).
      destruct (e_single x) eqn:Sx.
      + assert (Sg : singles (x :: g)) by (destruct Kg as [Kg|(y & Ey & Sy)]; [exact Kg|injection Ey as -> _; congruence]).
        rewrite <- (Z2Nat.id t) in E at 1 by lia. rewrite pyindex_nat in E.
        destruct (nth_error dims (Z.to_nat t)) as [dt|] eqn:Et; [|discriminate]. cbn [bindr] in E.
        assert (Ed : nth (Z.to_nat t) dims 0 = dt) by (apply nth_error_nth; exact Et). rewrite <- Ed in E.
        destruct (group_matrix dims (nth (Z.to_nat t) dims 0) mid (x :: g)) as [m|] eqn:Em; [|discriminate]. cbn [bindr] in E.
        unfold new_gate in E. cbn [check_long_range bindr] in E.
        match type of E with context [check_long_range ?g0] => destruct (check_long_range g0) as [b|] eqn:Eb; [|cbn in E; discriminate] end. cbn [bindr] in E.
        destruct (merge_groups dims t (S f) gs) as [[f1 new1]|] eqn:E1; [|discriminate]. cbn [bindr fst snd] in E. injection E as <- <-.
        destruct (IH' (S f) f1 new1 ltac:(lia) E1) as [F1 N1]. split; [exact F1|]. intros y [<-|Hy]; [|apply N1; exact Hy].
        right. cbn [snd fst]. split; [exact Hf|]. split; [|reflexivity]. exists (Z.to_nat t). split; [lia|]. split; [reflexivity|]. split; [cbn; f_equal; lia|]. split; [reflexivity|]. cbn.
        refine (group_unitary t (x :: g) mid m _ (unitary_id _) Em). intros y Hy. destruct (H _ y (or_introl eq_refl) Hy) as [Oy Ty].
        assert (Sy := Sg y Hy). unfold e_single, is_single in Sy. assert (LU : local_unitary (e_gate y)).
        { apply (origin_local (snd y) Oy). unfold e_gate in Sy. destruct (g_type (snd (snd y))); [reflexivity|discriminate|discriminate]. }
        split; [exact LU|]. destruct LU as (q & _ & _ & G & _). apply onb_in in Ty. unfold target_lines in *. rewrite G in *. destruct Ty as [->|[]]. reflexivity.
      + destruct (merge_groups dims t f gs) as [[f1 new1]|] eqn:E1; [|discriminate]. cbn [bindr fst snd] in E. injection E as <- <-.
        destruct (IH' f f1 new1 Hf E1) as [F1 N1]. split; [exact F1|]. intros y [<-|Hy]; [|apply N1; exact Hy].
        apply (H (x :: g) x (or_introl eq_refl) (or_introl eq_refl)).
  Qed.
  Lemma lines_origin ts : (forall t, In t ts -> (0 <= t < Z.of_nat n)%Z) -> forall f d d', f0 <= f -> (forall x, in_lanes d x -> origin (snd x)) ->
    resynth_lines dims f d ts = Ok d' -> forall x, in_lanes d' x -> origin (snd x).
  Proof.
    induction ts as [|t ts IH]; intros Ht f d d' Hf H E; cbn [resynth_lines] in E; [injection E as <-; exact H|].
    destruct (consecutive (lane d t)) as [gr|] eqn:Ec; [|discriminate]. cbn [bindr] in E. destruct (dget Z.eqb gr t) as [gs|] eqn:Eg; [|discriminate].
    destruct (merge_groups dims t f gs) as [[f1 new]|] eqn:Em; [|discriminate]. cbn [bindr fst snd] in E.
    destruct (consecutive_spec (lane d t) gr) as [_ [Gs _]]; [intros x Hx; apply (origin_plain (snd x)), H; exists t; exact Hx|exact Ec|].
    assert (Er := Gs t gs Eg). subst gs.
    assert (Ho : forall g x, In g (runs (filter (onb t) (lane d t))) -> In x g -> origin (snd x) /\ onb t x = true).
    { intros g x Hg Hx. assert (Hi := runs_in _ x g Hg Hx). apply filter_In in Hi as [Hi Ho]. split; [apply H; exists t; exact Hi|exact Ho]. }
    destruct (merge_origin t _ (Ht t (or_introl eq_refl)) (runs_kind _) Ho f f1 new Hf Em) as [F1 N1].
    eapply (IH (fun u Hu => Ht u (or_intror Hu)) f1 _ d' F1); [|exact E]. intros x [u Hu]. rewrite lane_dset_e in Hu.
    destruct (Z.eqb u t); [apply N1; exact Hu|apply H; exists u; exact Hu].
  Qed.
  Hypothesis HL : forall o t, In o l -> In t (target_lines (snd o)) -> (0 <= t < Z.of_nat n)%Z.
  Lemma resynth_origin out : resynth dims f0 l = Ok out -> forall o, In o out -> origin o.
  Proof.
    intros E. destruct (new_lanes_ok l HP) as [x [Ex [_ [_ [_ [_ [_ [L K]]]]]]]]. unfold resynth in E. rewrite Ex in E. cbn [bindr] in E.
    destruct (resynth_lines dims f0 (l_dict x) (sortedZ (map fst (l_dict x)))) as [d'|] eqn:Ed; [|discriminate]. cbn [bindr] in E. injection E as <-.
    intros o Ho. rewrite extract_entries in Ho. apply in_map_iff in Ho as [y [<- Hy]]. unfold entries in Hy. apply sort_in, collect_in in Hy as [Hy _]. apply gathered_in in Hy.
    refine (lines_origin (sortedZ (map fst (l_dict x))) _ f0 (l_dict x) d' (le_n f0) _ Ed y Hy).
    - intros t Ht. assert (Ht' : In t (map fst (l_dict x))) by (eapply Permutation_in; [apply sortedZ_perm|exact Ht]). apply K in Ht' as [o' [Ho' Oo]].
      apply (HL o' t Ho'). unfold on_line in Oo. apply existsb_exists in Oo as [u [Hu Eu]]. apply Z.eqb_eq in Eu. subst u. exact Hu.
    - intros z [t Hz]. rewrite L in Hz. apply filter_In in Hz as [Hz _]. left. rewrite <- (number_snd 0 l). apply in_map. exact Hz.
  Qed.
End Origin.

(** Merging does not add to a sum over the local gates of a circuit. *)
Section Weight.
  Variables (dims : list nat) (k : Z -> Rdefinitions.R).
  Hypothesis Hk : forall t, (0 <= k t)%R.
  Definition weight (g : gate mat) : Rdefinitions.R := if is_single (g_type g) then match g_target g with TInt t => k t | TList _ => 0%R end else 0%R.
  Definition Wt (l : list (entry mat)) : Rdefinitions.R := fold_right (fun x s => (weight (e_gate x) + s)%R) 0%R l.
  Lemma Wt_cons x l : Wt (x :: l) = (weight (e_gate x) + Wt l)%R.
  Proof. reflexivity. Qed.
  Lemma weight_nonneg g : (0 <= weight g)%R.
  Proof. unfold weight. destruct (is_single _); [destruct (g_target g); [apply Hk|apply Rle_refl]|apply Rle_refl]. Qed.
  Lemma Wt_nonneg l : (0 <= Wt l)%R.
  Proof. induction l as [|x l IH]; [apply Rle_refl|]. rewrite Wt_cons. assert (H := weight_nonneg (e_gate x)). apply Rplus_le_le_0_compat; assumption. Qed.
  Lemma Wt_app a b : Wt (a ++ b) = (Wt a + Wt b)%R.
  Proof. induction a as [|x a IH]; cbn [app]; [cbn; now rewrite Rplus_0_l|]. rewrite !Wt_cons, IH. ring. Qed.
  Lemma Wt_filter p l : (Wt (filter p l) <= Wt l)%R.
  Proof.
    induction l as [|x l IH]; [apply Rle_refl|]. cbn [filter]. assert (H := weight_nonneg (e_gate x)).
    destruct (p x); rewrite ?Wt_cons; [apply Rplus_le_compat_l; exact IH|]. rewrite <- (Rplus_0_l (Wt (filter p l))). apply Rplus_le_compat; assumption.
  Qed.
  Lemma Wt_perm a b : Permutation a b -> Wt a = Wt b.
  Proof. induction 1; rewrite ?Wt_cons; [reflexivity|now rewrite IHPermutation|ring|congruence]. Qed.
  Lemma Wt_collect s l : (Wt (collect s l) <= Wt l)%R.
  Proof.
    revert s. induction l as [|x l IH]; intros s; [apply Rle_refl|]. cbn [collect]. assert (H := weight_nonneg (e_gate x)).
    destruct (existsb _ s); rewrite ?Wt_cons; [|apply Rplus_le_compat_l; apply IH]. rewrite <- (Rplus_0_l (Wt (collect s l))). apply Rplus_le_compat; [exact H|apply IH].
  Qed.
  Lemma Wt_concat (ls : list (list (entry mat))) : Wt (concat ls) = fold_right (fun a s => (Wt a + s)%R) 0%R ls.
  Proof. induction ls as [|a ls IH]; [reflexivity|]. cbn [concat fold_right]. rewrite Wt_app, IH. reflexivity. Qed.

  Lemma merge_weight t gs : (forall g x, In g gs -> In x g -> plain (e_gate x) /\ onb t x = true) ->
    forall f f' new, merge_groups dims t f gs = Ok (f', new) -> (Wt new <= Wt (concat gs))%R.
  Proof.
    induction gs as [|g gs IH]; intros H f f' new E; cbn [merge_groups] in E.
    - injection E as <- <-. apply Rle_refl.
    - destruct g as [|x g]; [discriminate|]. assert (IH' := IH (fun g' y Hg => H g' y (or_intror Hg))). cbn [concat]. rewrite Wt_app. destruct (e_single x) eqn:Sx.
      + destruct (pyindex dims t) as [d|]; [|discriminate]. cbn [bindr] in E. destruct (group_matrix dims d mid (x :: g)) as [m|]; [|discriminate]. cbn [bindr] in E.
        unfold new_gate in E. cbn [bindr] in E.
        match type of E with context [check_long_range ?g0] => destruct (check_long_range g0) as [b|]; [|cbn in E; discriminate] end. cbn [bindr] in E.
        destruct (merge_groups dims t (S f) gs) as [[f1 new1]|] eqn:E1; [|discriminate]. cbn [bindr fst snd] in E. injection E as <- <-.
        rewrite !Wt_cons. unfold e_gate at 1. cbn [snd]. unfold weight at 1. cbn [with_long g_type g_target is_single].
        apply Rplus_le_compat; [|apply (IH' _ _ _ E1)]. assert (Wx : weight (e_gate x) = k t).
        { destruct (H _ x (or_introl eq_refl) (or_introl eq_refl)) as [[_ [[T (u & G)]|[T _]]] O].
          - apply onb_in in O. unfold target_lines in O. rewrite G in O. destruct O as [<-|[]]. unfold weight. rewrite T, G. reflexivity.
          - unfold e_single, is_single in Sx. destruct (g_type (e_gate x)); [congruence|discriminate|discriminate]. }
        rewrite Wx. rewrite <- (Rplus_0_r (k t)) at 1. apply Rplus_le_compat_l. apply Wt_nonneg.
      + destruct (merge_groups dims t f gs) as [[f1 new1]|] eqn:E1; [|discriminate]. cbn [bindr fst snd] in E. injection E as <- <-.
        rewrite !Wt_cons. rewrite Rplus_assoc. apply Rplus_le_compat_l. rewrite <- (Rplus_0_l (Wt new1)). apply Rplus_le_compat; [apply Wt_nonneg|apply (IH' _ _ _ E1)].
  Qed.
  Lemma dset_keys {V} (d : list (Z * V)) (t : Z) v : In t (map fst d) -> map fst (dset Z.eqb d t v) = map fst d.
  Proof.
    induction d as [|[u w] d IH]; cbn; [easy|]. intros H. destruct (Z.eqb_spec t u) as [->|N]; [reflexivity|]. cbn. f_equal. apply IH. destruct H as [H|H]; [congruence|exact H].
  Qed.
  Lemma lines_weight l f0 (HP : forall o, In o l -> plain (snd o)) (HU : forall o, In o l -> g_type (snd o) = SINGLE -> local_unitary dims (snd o)) ts :
    (forall t, In t ts -> (0 <= t < Z.of_nat (List.length dims))%Z) -> forall f d d', f0 <= f -> (forall x, in_lanes d x -> origin dims l f0 (snd x)) ->
    (forall t, In t ts -> In t (map fst d)) ->
    resynth_lines dims f d ts = Ok d' -> map fst d' = map fst d /\ forall t, (Wt (lane d' t) <= Wt (lane d t))%R.
  Proof.
    induction ts as [|t ts IH]; intros Ht f d d' Hf H Hk' E; cbn [resynth_lines] in E; [injection E as <-; split; [reflexivity|intros t; apply Rle_refl]|].
    destruct (consecutive (lane d t)) as [gr|] eqn:Ec; [|discriminate]. cbn [bindr] in E. destruct (dget Z.eqb gr t) as [gs|] eqn:Eg; [|discriminate].
    destruct (merge_groups dims t f gs) as [[f1 new]|] eqn:Em; [|discriminate]. cbn [bindr fst snd] in E.
    destruct (consecutive_spec (lane d t) gr) as [_ [Gs _]]; [intros x Hx; apply (origin_plain dims l f0 HP (snd x)), H; exists t; exact Hx|exact Ec|].
    assert (Er := Gs t gs Eg). subst gs.
    assert (Ho : forall g x, In g (runs (filter (onb t) (lane d t))) -> In x g -> origin dims l f0 (snd x) /\ onb t x = true).
    { intros g x Hg Hx. assert (Hi := runs_in _ x g Hg Hx). apply filter_In in Hi as [Hi Ho]. split; [apply H; exists t; exact Hi|exact Ho]. }
    destruct (merge_origin dims l f0 HU t _ (Ht t (or_introl eq_refl)) (runs_kind _) Ho f f1 new Hf Em) as [F1 N1].
    assert (Kt := dset_keys d t new (Hk' t (or_introl eq_refl))).
    destruct (IH (fun u Hu => Ht u (or_intror Hu)) f1 (dset Z.eqb d t new) d' F1) as [K1 W1]; [| |exact E|].
    - intros x [u Hu]. rewrite lane_dset_e in Hu. destruct (Z.eqb u t); [apply N1; exact Hu|apply H; exists u; exact Hu].
    - intros u Hu. rewrite Kt. apply Hk'. right. exact Hu.
    - split; [rewrite K1; exact Kt|]. intros u. eapply Rle_trans; [apply W1|]. rewrite lane_dset_e. destruct (Z.eqb_spec u t) as [->|]; [|apply Rle_refl].
      eapply Rle_trans; [eapply merge_weight; [|exact Em]|rewrite runs_concat; apply Wt_filter].
      intros g x Hg Hx. destruct (Ho g x Hg Hx) as [O1 O2]. split; [apply (origin_plain dims l f0 HP (snd x) O1)|exact O2].
  Qed.
  Notation lsum f ks := (fold_right (fun t s => (f t + s)%R) 0%R ks).
  Lemma lsum_le (f g : Z -> Rdefinitions.R) ks : (forall t, (f t <= g t)%R) -> (lsum f ks <= lsum g ks)%R.
  Proof. intros H. induction ks as [|t ks IH]; cbn; [apply Rle_refl|]. apply Rplus_le_compat; [apply H|exact IH]. Qed.
  Lemma lsum_perm (f : Z -> Rdefinitions.R) a b : Permutation a b -> lsum f a = lsum f b.
  Proof. induction 1; cbn; [reflexivity|now rewrite IHPermutation|ring|congruence]. Qed.
  Lemma lsum_one x ks : NoDup ks -> plain (e_gate (x : entry mat)) -> (lsum (fun t => if onb t x then weight (e_gate x) else 0%R) ks <= weight (e_gate x))%R.
  Proof.
    intros N [_ [[T (u & G)]|[T _]]].
    - assert (O : forall t, onb t x = true -> t = u).
      { intros t Ht. apply onb_in in Ht. unfold target_lines in Ht. rewrite G in Ht. destruct Ht as [->|[]]. reflexivity. }
      assert (Z0 : forall l, ~ In u l -> lsum (fun t => if onb t x then weight (e_gate x) else 0%R) l = 0%R).
      { induction l as [|t l IH]; [reflexivity|]. intros H. cbn. rewrite IH by (intros Hu; apply H; right; exact Hu).
        destruct (onb t x) eqn:Et; [|ring]. exfalso. apply H. left. apply O. exact Et. }
      induction N as [|t ks Nt N IH]; [cbn; apply weight_nonneg|]. cbn. destruct (onb t x) eqn:Et.
      + rewrite (O t Et) in Nt. rewrite (Z0 ks Nt). rewrite Rplus_0_r. apply Rle_refl.
      + rewrite Rplus_0_l. exact IH.
    - assert (W0 : weight (e_gate x) = 0%R) by (unfold weight, is_single; destruct (g_type (e_gate x)); [congruence|reflexivity|reflexivity]).
      rewrite W0. clear N. induction ks as [|t ks IH]; cbn; [apply Rle_refl|]. destruct (onb t x); rewrite Rplus_0_l; exact IH.
  Qed.
  Lemma lsum_lines ks es : NoDup ks -> (forall x, In x es -> plain (e_gate x)) -> (lsum (fun t => Wt (filter (onb t) es)) ks <= Wt es)%R.
  Proof.
    intros N. induction es as [|x es IH]; intros H.
    - cbn. clear N. induction ks as [|t ks IH]; cbn; [apply Rle_refl|]. rewrite Rplus_0_l. exact IH.
    - assert (E : lsum (fun t => Wt (filter (onb t) (x :: es))) ks = (lsum (fun t => if onb t x then weight (e_gate x) else 0) ks + lsum (fun t => Wt (filter (onb t) es)) ks)%R).
      { clear. induction ks as [|t ks IH]; cbn [fold_right]; [now rewrite Rplus_0_l|]. rewrite IH. cbn [filter]. destruct (onb t x); rewrite ?Wt_cons; ring. }
      rewrite E, Wt_cons. apply Rplus_le_compat; [apply lsum_one; [exact N|apply H; left; reflexivity]|apply IH; intros y Hy; apply H; right; exact Hy].
  Qed.
  Lemma resynth_weight l f0 out : (forall o, In o l -> plain (snd o)) -> (forall o, In o l -> g_type (snd o) = SINGLE -> local_unitary dims (snd o)) ->
    (forall o t, In o l -> In t (target_lines (snd o)) -> (0 <= t < Z.of_nat (List.length dims))%Z) -> resynth dims f0 l = Ok out ->
    (fold_right (fun o s => weight (snd o) + s) 0 out <= fold_right (fun o s => weight (snd o) + s) 0 l)%R.
  Proof.
    intros HP HU HL E. destruct (new_lanes_ok l HP) as [x [Ex [_ [_ [_ [_ [ND [L K]]]]]]]]. unfold resynth in E. rewrite Ex in E. cbn [bindr] in E.
    destruct (resynth_lines dims f0 (l_dict x) (sortedZ (map fst (l_dict x)))) as [d'|] eqn:Ed; [|discriminate]. cbn [bindr] in E. injection E as <-.
    destruct (lines_weight l f0 HP HU (sortedZ (map fst (l_dict x)))) with (5 := Ed) as [K1 W1].
    - intros t Ht. assert (Ht' : In t (map fst (l_dict x))) by (eapply Permutation_in; [apply sortedZ_perm|exact Ht]). apply K in Ht' as [o' [Ho' Oo]].
      apply (HL o' t Ho'). unfold on_line in Oo. apply existsb_exists in Oo as [u [Hu Eu]]. apply Z.eqb_eq in Eu. subst u. exact Hu.
    - apply le_n.
    - intros z [t Hz]. rewrite L in Hz. apply filter_In in Hz as [Hz _]. left. rewrite <- (number_snd 0 l). apply in_map. exact Hz.
    - intros t Ht. eapply Permutation_in; [apply sortedZ_perm|exact Ht].
    - assert (A : forall (es : list (entry mat)), fold_right (fun o s => (weight (snd o) + s)%R) 0%R (map snd es) = Wt es).
      { induction es as [|y es IH]; [reflexivity|]. cbn [map fold_right]. rewrite IH. reflexivity. }
      rewrite extract_entries, A. unfold entries. rewrite <- (Wt_perm _ _ (sort_perm _)). eapply Rle_trans; [apply Wt_collect|].
      unfold gathered. rewrite Wt_concat.
      assert (B : forall ks, fold_right (fun a s => (Wt a + s)%R) 0%R (map (lane d') ks) = lsum (fun t => Wt (lane d' t)) ks).
      { induction ks as [|t ks IH]; [reflexivity|]. cbn. rewrite IH. reflexivity. }
      rewrite B, K1. eapply Rle_trans; [apply lsum_le; exact W1|].
      replace (fold_right (fun o s => (weight (snd o) + s)%R) 0%R l) with (Wt (pre_process_ops l)) by (rewrite <- A; unfold pre_process_ops; now rewrite number_snd).
      eapply Rle_trans; [|apply (lsum_lines (sortedZ (map fst (l_dict x))) (pre_process_ops l))].
      + apply lsum_le. intros t. rewrite L. apply Rle_refl.
      + eapply Permutation_NoDup; [symmetry; apply sortedZ_perm|exact ND].
      + apply (plain_all l HP).
  Qed.
End Weight.
