(** Facts about the conventions in [Py]. *)
From Verif Require Import Base.Py.

Section DictFacts.
  Context {K V : Type} (eqb : K -> K -> bool).
  Hypothesis eqb_spec : forall a b, eqb a b = true <-> a = b.

  Lemma eqb_refl' a : eqb a a = true.
  Proof. apply eqb_spec. reflexivity. Qed.

  Lemma eqb_neq a b : a <> b -> eqb a b = false.
  Proof.
    intros H. destruct (eqb a b) eqn:E; [|reflexivity].
    apply eqb_spec in E. contradiction.
  Qed.

  Lemma dget_dset_same d k (v : V) : dget eqb (dset eqb d k v) k = Some v.
  Proof.
    induction d as [|[k' v'] r IH]; cbn.
    - rewrite eqb_refl'. reflexivity.
    - destruct (eqb k k') eqn:E; cbn; rewrite E; [reflexivity|exact IH].
  Qed.

  Lemma dget_dset_other d k k2 (v : V) : k2 <> k -> dget eqb (dset eqb d k v) k2 = dget eqb d k2.
  Proof.
    intros Hn. induction d as [|[k' v'] r IH]; cbn.
    - rewrite (eqb_neq _ _ Hn). reflexivity.
    - destruct (eqb k k') eqn:E; cbn.
      + apply eqb_spec in E. subst k'. rewrite (eqb_neq _ _ Hn). reflexivity.
      + destruct (eqb k2 k'); [reflexivity|exact IH].
  Qed.

  Lemma dget_In d k (v : V) : dget eqb d k = Some v -> In (k, v) d.
  Proof.
    induction d as [|[k' v'] r IH]; cbn; [discriminate|].
    destruct (eqb k k') eqn:E; intros H.
    - injection H as ->. apply eqb_spec in E. subst. left. reflexivity.
    - right. apply IH. exact H.
  Qed.

  Lemma dget_None d k : dget eqb d k = None <-> ~ In k (dkeys (V:=V) d).
  Proof.
    induction d as [|[k' v'] r IH]; cbn.
    - split; [intros _ []|reflexivity].
    - destruct (eqb k k') eqn:E.
      + apply eqb_spec in E. subst. split; [discriminate|]. intros H. exfalso. apply H. left. reflexivity.
      + rewrite IH. split.
        * intros H [H2|H2]; [subst; rewrite eqb_refl' in E; discriminate|contradiction].
        * intros H H2. apply H. right. exact H2.
  Qed.

  Lemma dset_fresh d k (v : V) : ~ In k (dkeys d) -> dset eqb d k v = d ++ [(k, v)].
  Proof.
    induction d as [|[k' v'] r IH]; cbn; [reflexivity|].
    intros H. rewrite eqb_neq by (intros ->; apply H; left; reflexivity).
    rewrite IH; [reflexivity|]. intros H2. apply H. right. exact H2.
  Qed.

  Lemma dkeys_dset_present d k (v : V) : In k (dkeys d) -> dkeys (dset eqb d k v) = dkeys d.
  Proof.
    induction d as [|[k' v'] r IH]; cbn; [intros []|].
    intros H. destruct (eqb k k') eqn:E; cbn; [reflexivity|].
    f_equal. apply IH. destruct H as [->|H]; [rewrite eqb_refl' in E; discriminate|exact H].
  Qed.

  Lemma dset_NoDup d k (v : V) : NoDup (dkeys d) -> NoDup (dkeys (dset eqb d k v)).
  Proof.
    intros H. destruct (dget eqb d k) eqn:E.
    - rewrite dkeys_dset_present; [exact H|].
      apply dget_In in E. apply in_map_iff. eexists; split; [|exact E]; reflexivity.
    - apply dget_None in E. rewrite dset_fresh by exact E.
      unfold dkeys. rewrite map_app. cbn.
      assert (Hp : forall l : list K, NoDup l -> ~ In k l -> NoDup (l ++ [k])).
      { intros l Hl Hk. induction Hl as [|x l Hx Hl IHl]; cbn.
        - constructor; [intros []|constructor].
        - constructor.
          + intros Hi. apply in_app_or in Hi. destruct Hi as [Hi|[->|[]]]; [contradiction|].
            apply Hk. left. reflexivity.
          + apply IHl. intros Hi. apply Hk. right. exact Hi. }
      apply Hp; [exact H|exact E].
  Qed.

  Lemma dget_complete d k (v : V) : NoDup (dkeys d) -> In (k, v) d -> dget eqb d k = Some v.
  Proof.
    induction d as [|[k' v'] r IH]; cbn; [intros _ []|].
    intros Hnd [H|H].
    - injection H as -> ->. rewrite eqb_refl'. reflexivity.
    - inversion Hnd as [|? ? Hni Hnd']; subst.
      rewrite eqb_neq.
      + apply IH; assumption.
      + intros ->. apply Hni. apply in_map_iff. exists (k', v). split; [reflexivity|exact H].
  Qed.
End DictFacts.

Lemma slice_pos_nonneg n i : (0 <= i <= Z.of_nat n)%Z -> slice_pos n i = Z.to_nat i.
Proof.
  intros H. unfold slice_pos. destruct (Z.ltb_spec i 0); [lia|].
  f_equal. lia.
Qed.

Lemma pyindex_nat {A} (l : list A) (i : nat) :
  pyindex l (Z.of_nat i) = match nth_error l i with Some x => Ok x | None => Err IndexError end.
Proof.
  unfold pyindex.
  destruct (Z.ltb_spec (Z.of_nat i) 0); [lia|].
  destruct (Nat.lt_ge_cases i (length l)) as [Hlt|Hge].
  - replace ((0 <=? Z.of_nat i)%Z) with true by (symmetry; apply Z.leb_le; lia).
    replace ((Z.of_nat i <? Z.of_nat (length l))%Z) with true by (symmetry; apply Z.ltb_lt; lia).
    cbn [andb]. rewrite Nat2Z.id. reflexivity.
  - replace ((Z.of_nat i <? Z.of_nat (length l))%Z) with false by (symmetry; apply Z.ltb_ge; lia).
    rewrite andb_false_r. rewrite (proj2 (nth_error_None l i)) by lia. reflexivity.
Qed.
