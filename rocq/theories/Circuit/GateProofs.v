From Coq Require Import Sorted Permutation.
From Verif Require Import Base.Py.
From Verif Require Import Circuit.GateModel Circuit.GateSpec.

Section G.
Context {A : Type}.
Implicit Types g : gate A.

Lemma existsb_false {B} (f : B -> bool) l : existsb f l = false <-> forall x, In x l -> f x = false.
Proof.
  induction l as [|a r IH]; cbn; [intuition|].
  rewrite orb_false_iff, IH. split.
  - intros [H1 H2] x [<-|Hx]; auto.
  - intros H. split; [apply H; auto|]. intros x Hx; apply H; auto.
Qed.

Lemma control_rejected num dims g i s e : snd (control num dims g i s) = Some e -> fst (control num dims g i s) = g.
Proof.
  unfold control.
  destruct (_ || _)%bool; [cbn; auto|]. destruct (negb _); [cbn; auto|].
  destruct (_ || _)%bool; [cbn; auto|]. destruct (existsb _ _); [cbn; auto|].
  destruct (levels_beyond _ _ _) as [[]|]; cbn; auto. discriminate.
Qed.

Lemma levels_beyond_ok dims states : forall k,
  levels_beyond dims k states = Ok false <->
  forall j c, nth_error states j = Some c -> exists d, nth_error dims (k + j) = Some d /\ (c < Z.of_nat d)%Z.
Proof.
  induction states as [|c r IH]; intros k; cbn.
  - split; [|reflexivity]. intros _ j c H. destruct j; discriminate.
  - destruct (nth_error dims k) as [d|] eqn:E.
    + destruct (Z.leb_spec (Z.of_nat d) c) as [Hle|Hlt].
      * split; [discriminate|]. intros H. destruct (H 0 c eq_refl) as (d' & E' & Hd').
        rewrite Nat.add_0_r, E in E'. injection E' as <-. lia.
      * rewrite IH. split.
        -- intros H j c' Hj. destruct j as [|j]; cbn in Hj.
           ++ injection Hj as <-. exists d. rewrite Nat.add_0_r. auto.
           ++ replace (k + S j) with (S k + j) by lia. apply H; exact Hj.
        -- intros H j c' Hj. replace (S k + j) with (k + S j) by lia. apply H. exact Hj.
    + split; [discriminate|]. intros H. destruct (H 0 c eq_refl) as (d' & E' & _).
      rewrite Nat.add_0_r, E in E'. discriminate.
Qed.

Lemma control_accept_iff num dims g i s :
  i <> [] -> s <> [] -> g_type g = SINGLE ->
  (snd (control num dims g i s) = None <->
   List.length i <= num /\ (forall x, In x i -> (x < Z.of_nat num)%Z) /\
   (forall x, In x i -> ~ In x (target_lines g)) /\
   (forall k c, nth_error s k = Some c -> exists d, nth_error dims k = Some d /\ (c < Z.of_nat d)%Z)).
Proof.
  intros Hi Hs Hg. unfold control. rewrite Hg. cbn [is_single negb].
  destruct (Nat.eqb_spec (List.length i) 0) as [E|_]; [destruct i; [congruence|discriminate]|].
  destruct (Nat.eqb_spec (List.length s) 0) as [E|_]; [destruct s; [congruence|discriminate]|].
  cbn [orb].
  destruct (Nat.ltb_spec num (List.length i)) as [Hl|Hl]; cbn [orb].
  { cbn. split; [discriminate|]. intros (H & _). lia. }
  destruct (existsb (fun i0 => (Z.of_nat num <=? i0)%Z) i) eqn:E1.
  { cbn. split; [discriminate|]. intros (_ & H & _). apply existsb_exists in E1.
    destruct E1 as (x & Hx & Hle). apply Z.leb_le in Hle. specialize (H x Hx). lia. }
  destruct (existsb (fun i0 => existsb (Z.eqb i0) (target_lines g)) i) eqn:E2.
  { cbn. split; [discriminate|]. intros (_ & _ & H & _). apply existsb_exists in E2.
    destruct E2 as (x & Hx & He). apply existsb_exists in He. destruct He as (y & Hy & Hxy).
    apply Z.eqb_eq in Hxy. subst y. exfalso. exact (H x Hx Hy). }
  assert (H1 : forall x, In x i -> (x < Z.of_nat num)%Z).
  { intros x Hx. rewrite existsb_false in E1. specialize (E1 x Hx). apply Z.leb_gt in E1. exact E1. }
  assert (H2 : forall x, In x i -> ~ In x (target_lines g)).
  { intros x Hx Ht. rewrite existsb_false in E2. specialize (E2 x Hx).
    rewrite existsb_false in E2. specialize (E2 x Ht). rewrite Z.eqb_refl in E2. discriminate. }
  pose proof (levels_beyond_ok dims s 0) as HL. cbn [Nat.add] in HL.
  destruct (levels_beyond dims 0 s) as [[]|e]; cbn.
  - split; [discriminate|]. intros (_ & _ & _ & H). apply HL in H. discriminate.
  - split; [|reflexivity]. intros _. repeat split; auto. apply HL. reflexivity.
  - split; [discriminate|]. intros (_ & _ & _ & H). apply HL in H. discriminate.
Qed.

Lemma control_accepted num dims g i s t :
  g_target g = TInt t -> i <> [] -> s <> [] -> snd (control num dims g i s) = None ->
  let g' := fst (control num dims g i s) in
  g_controls g' = Some (i, s) /\ g_target g' = g_target g /\ g_dagger g' = g_dagger g /\ g_data g' = g_data g /\
  g_type g' = (match i with [_] => TWO | _ => MULTI end).
Proof.
  intros Ht Hi Hs. unfold control.
  destruct (Nat.eqb_spec (List.length i) 0) as [E|_]; [destruct i; [congruence|discriminate]|].
  destruct (Nat.eqb_spec (List.length s) 0) as [E|_]; [destruct s; [congruence|discriminate]|].
  cbn [orb]. destruct (negb _); [discriminate|].
  destruct (_ || _)%bool; [discriminate|]. destruct (existsb _ _); [discriminate|].
  destruct (levels_beyond _ _ _) as [[]|]; try discriminate.
  intros _. cbn. unfold target_lines. rewrite Ht. repeat split. cbn [List.length].
  destruct i as [|a [|b r]]; [congruence|reflexivity|]. cbn.
  replace (List.length r + 1) with (S (List.length r)) by lia. reflexivity.
Qed.

Lemma control_empty num dims g i s : i = [] \/ s = [] -> control num dims g i s = (g, None).
Proof.
  intros [-> | ->]; unfold control; cbn; [reflexivity|]. rewrite orb_true_r. reflexivity.
Qed.

Lemma NoDup_bounded_length (l : list Z) n :
  NoDup l -> (forall x, In x l -> (0 <= x < Z.of_nat n)%Z) -> List.length l <= n.
Proof.
  intros Hnd H. rewrite <- (seq_length n 0), <- (map_length Z.of_nat (seq 0 n)).
  apply NoDup_incl_length; [exact Hnd|]. intros x Hx. specialize (H x Hx).
  apply in_map_iff. exists (Z.to_nat x). split; [lia|]. apply in_seq. lia.
Qed.

Lemma control_uniform n d g t i s :
  g_type g = SINGLE -> g_target g = TInt t ->
  i <> [] -> s <> [] -> List.length s = List.length i -> NoDup i ->
  (forall x, In x i -> (0 <= x)%Z) -> (forall x, In x s -> (0 <= x)%Z) ->
  (snd (control n (repeat d n) g i s) = None <-> legal_controls (repeat d n) [t] i s).
Proof.
  intros Hg Ht Hi Hs Hlen Hnd Hpi Hps. rewrite control_accept_iff by assumption.
  unfold target_lines. rewrite Ht. unfold legal_controls. split.
  - intros (H1 & H2 & H3 & H4). repeat split; auto.
    + apply Hpi. eapply nth_error_In; eassumption.
    + exists d. rewrite nth_error_repeat.
      * split; [reflexivity|]. destruct (H4 k c H0) as (d' & E & Hc).
        assert (Hk : k < n).
        { assert (nth_error (repeat d n) k <> None) by congruence.
          apply nth_error_Some in H5. rewrite repeat_length in H5. exact H5. }
        rewrite nth_error_repeat in E by exact Hk. injection E as <-. split; [|exact Hc].
        apply Hps. eapply nth_error_In; eassumption.
      * apply nth_error_In in H. specialize (H2 i0 H). specialize (Hpi i0 H). lia.
  - intros (_ & _ & H3 & H4).
    assert (Hin : forall x, In x i -> (0 <= x < Z.of_nat n)%Z).
    { intros x Hx. apply In_nth_error in Hx. destruct Hx as (k & Hk).
      destruct (nth_error s k) as [c|] eqn:Ec.
      - destruct (H4 k x c Hk Ec) as (Hx0 & d' & E & _).
        assert (Hne : nth_error (repeat d n) (Z.to_nat x) <> None) by congruence.
        apply nth_error_Some in Hne. rewrite repeat_length in Hne. lia.
      - apply nth_error_None in Ec. assert (Hne : nth_error i k <> None) by congruence.
        apply nth_error_Some in Hne. lia. }
    assert (Hlin : List.length i <= n) by (apply NoDup_bounded_length; assumption).
    repeat split.
    + exact Hlin.
    + intros x Hx. apply Hin in Hx. lia.
    + exact H3.
    + intros k c Hk. exists d.
      assert (Hkl : k < List.length s) by (apply nth_error_Some; congruence).
      rewrite nth_error_repeat by lia. split; [reflexivity|].
      destruct (nth_error i k) as [x|] eqn:Ex; [|apply nth_error_None in Ex; lia].
      destruct (H4 k x c Ex Hk) as (Hx0 & d' & E & Hc).
      assert (Hne : nth_error (repeat d n) (Z.to_nat x) <> None) by congruence.
      apply nth_error_Some in Hne. rewrite repeat_length in Hne.
      rewrite nth_error_repeat in E by exact Hne. injection E as <-. lia.
Qed.

(** *** long range *)
Lemma insert_sorted_perm x l : Permutation (insert_sorted x l) (x :: l).
Proof.
  induction l as [|y r IH]; cbn; [reflexivity|]. destruct (x <=? y)%Z; [reflexivity|].
  rewrite IH. constructor.
Qed.
Lemma sortedZ_perm l : Permutation (sortedZ l) l.
Proof. induction l as [|x r IH]; cbn; [reflexivity|]. rewrite insert_sorted_perm, IH. reflexivity. Qed.
Lemma insert_sorted_sorted x l : StronglySorted Z.le l -> StronglySorted Z.le (insert_sorted x l).
Proof.
  induction 1 as [|y r Hr IH Hall]; cbn; [repeat constructor|].
  destruct (Z.leb_spec x y).
  - constructor; [constructor; assumption|]. constructor; [assumption|].
    eapply Forall_impl; [|exact Hall]. cbn. intros; lia.
  - constructor; [exact IH|]. apply Forall_forall. intros z Hz.
    apply (Permutation_in z (insert_sorted_perm x r)) in Hz. destruct Hz as [<-|Hz]; [lia|].
    rewrite Forall_forall in Hall. auto.
Qed.
Lemma sortedZ_sorted l : StronglySorted Z.le (sortedZ l).
Proof. induction l; cbn; [constructor|]. apply insert_sorted_sorted; assumption. Qed.

Lemma any_gap_cons a b r : any_gap (a :: b :: r) = ((1 <? b - a)%Z || any_gap (b :: r))%bool.
Proof. reflexivity. Qed.

Lemma any_gap_spec l : StronglySorted Z.le l -> (any_gap l = true <-> spans_gap l).
Proof.
  induction 1 as [|a r Hr IH Hall].
  - cbn. split; [discriminate|]. intros (a & m & b & [] & _).
  - destruct r as [|b r].
    { cbn. split; [discriminate|]. intros (x & m & y & [<-|[]] & [<-|[]] & H & _). lia. }
    rewrite any_gap_cons, orb_true_iff, IH. rewrite Forall_forall in Hall.
    assert (Hb : forall z, In z (b :: r) -> (b <= z)%Z).
    { inversion Hr as [|? ? _ Hall']; subst. rewrite Forall_forall in Hall'.
      intros z [<-|Hz]; [lia|auto]. }
    split.
    + intros [H|(x & m & y & Hx & Hy & Hm & Hn)].
      * apply Z.ltb_lt in H. exists a, (a + 1)%Z, b. repeat split; cbn; auto; try lia.
        intros [He|[He|Hin]]; try lia. assert (b <= a + 1)%Z by (apply Hb; right; exact Hin). lia.
      * exists x, m, y. repeat split; try lia; try (right; assumption).
        intros [He|Hin]; [|contradiction]. subst m. assert (a <= x)%Z by (apply Hall; exact Hx). lia.
    + intros (x & m & y & Hx & Hy & Hm & Hn).
      destruct (Z.ltb_spec 1 (b - a)) as [Hlt|Hge]; [left; reflexivity|right].
      assert (Ha : (a <= b)%Z) by (apply Hall; left; reflexivity).
      exists b, m, y.
      assert (Hmb : m <> b) by (intros ->; apply Hn; right; left; reflexivity).
      assert (Hma : m <> a) by (intros ->; apply Hn; left; reflexivity).
      assert (Hxa : (a <= x)%Z) by (destruct Hx as [<-|Hx]; [lia|auto]).
      repeat split; [left; reflexivity| |lia|lia|].
      * destruct Hy as [<-|Hy]; [lia|exact Hy].
      * intros Hin. apply Hn. right. exact Hin.
Qed.

Lemma spans_gap_perm l l' : Permutation l l' -> spans_gap l -> spans_gap l'.
Proof.
  intros Hp (a & m & b & Ha & Hb & H & Hn). exists a, m, b. repeat split; try lia.
  - eapply Permutation_in; eassumption.
  - eapply Permutation_in; eassumption.
  - intros Hin. apply Hn. eapply Permutation_in; [symmetry; exact Hp|exact Hin].
Qed.

Lemma gate_lines_eq g : gate_lines g = control_lines g ++ target_lines g.
Proof. reflexivity. Qed.

Lemma check_long_range_spec g b :
  check_long_range g = Ok b -> (b = true <-> spans_gap (gate_lines g)).
Proof.
  unfold check_long_range, reference_lines. rewrite gate_lines_eq.
  destruct (control_lines g ++ target_lines g) as [|a r] eqn:E; [discriminate|].
  intros H. injection H as <-. destruct r as [|c r].
  - cbn. split; [discriminate|]. intros (x & m & y & [<-|[]] & [<-|[]] & H & _). lia.
  - cbn [List.length Nat.ltb Nat.leb]. rewrite (any_gap_spec _ (sortedZ_sorted (a :: c :: r))). split.
    + apply spans_gap_perm. apply (sortedZ_perm (a :: c :: r)).
    + apply spans_gap_perm. symmetry. apply (sortedZ_perm (a :: c :: r)).
Qed.

Lemma new_gate_long num dims name t tg ctl data g :
  new_gate (A:=A) num dims name t tg ctl data = Ok g -> (g_long g = true <-> spans_gap (gate_lines g)).
Proof.
  unfold new_gate.
  destruct (match ctl with Some (i, s) => _ | None => _ end) as [g1 [e|]]; [discriminate|].
  destruct (check_long_range g1) as [b|] eqn:E; cbn; [|discriminate].
  intros H. injection H as <-. cbn. exact (check_long_range_spec g1 b E).
Qed.

Lemma new_gate_accepts num dims name t tg ctl data g :
  new_gate (A:=A) num dims name t tg ctl data = Ok g ->
  g_target g = tg /\ g_dagger g = false /\ g_data g = data /\
  (match ctl with Some (i, s) => snd (control num dims (Gate name t tg None false false data) i s) = None | None => g_controls g = None /\ g_type g = t end).
Proof.
  unfold new_gate.
  destruct ctl as [[i s]|].
  - destruct (control _ _ _ i s) as [g1 e1] eqn:E. destruct e1 as [e|]; [discriminate|].
    assert (Hg1 : g_target g1 = tg /\ g_dagger g1 = false /\ g_data g1 = data).
    { revert E. unfold control. destruct (_ || _)%bool.
      { intros E; injection E as <-; auto. }
      destruct (negb _); [discriminate|]. destruct (_ || _)%bool; [discriminate|].
      destruct (existsb _ _); [discriminate|]. destruct (levels_beyond _ _ _) as [[]|]; try discriminate.
      intros E; injection E as <-; auto. }
    destruct (check_long_range g1) as [b|]; cbn; [|discriminate].
    intros H. injection H as <-. cbn. tauto.
  - cbn. destruct (check_long_range _) as [b|]; cbn; [|discriminate].
    intros H. injection H as <-. cbn. repeat split.
Qed.
End G.

(** witnesses *)
Lemma C04_legal_rejected_witness :
  exists (dims : list nat) (g : gate unit) i s,
    g_type g = SINGLE /\ legal_controls dims (target_lines g) i s /\
    snd (control (List.length dims) dims g i s) = Some IndexError.
Proof.
  exists [2;3;2], (Gate "x" SINGLE (TInt 2) None false false tt), [1%Z], [2%Z].
  split; [reflexivity|]. split; [|reflexivity].
  repeat split.
  - repeat constructor. intros [].
  - intros i [<-|[]] [H|[]]. discriminate.
  - destruct k as [|[|k]]; cbn in *; try discriminate. injection H as <-. lia.
  - destruct k as [|[|k]]; cbn in *; try discriminate. injection H as <-. injection H0 as <-.
    exists 3. split; [reflexivity|lia].
Qed.
Lemma C04_illegal_accepted_witness :
  exists (dims : list nat) (g : gate unit) i s,
    g_type g = SINGLE /\ i <> [] /\ s <> [] /\ ~ legal_controls dims (target_lines g) i s /\
    snd (control (List.length dims) dims g i s) = None.
Proof.
  exists [3;2;2], (Gate "x" SINGLE (TInt 2) None false false tt), [1%Z], [2%Z].
  split; [reflexivity|]. split; [discriminate|]. split; [discriminate|]. split; [|reflexivity].
  intros (_ & _ & _ & H). destruct (H 0 1%Z 2%Z eq_refl eq_refl) as (_ & d & E & Hd).
  cbn in E. injection E as <-. lia.
Qed.
Lemma C04_unchecked_witness :
  exists (g : gate unit), g_type g = SINGLE /\
    snd (control 3 [2;2;2] g [0%Z; 0%Z] [1%Z; 1%Z]) = None /\
    snd (control 3 [2;2;2] g [(-3)%Z] [1%Z]) = None /\
    snd (control 3 [2;2;2] g [0%Z] [(-1)%Z]) = None /\
    snd (control 3 [2;2;2] g [0%Z; 1%Z] [1%Z]) = None.
Proof. exists (Gate "x" SINGLE (TInt 2) None false false tt). repeat split. Qed.
Lemma C05_stale_witness :
  exists (g g' : gate unit),
    new_gate 3 [2;2;2] "x" SINGLE (TInt 2) None tt = Ok g /\
    control 3 [2;2;2] g [0%Z] [1%Z] = (g', None) /\
    g_long g' = false /\ spans_gap (gate_lines g').
Proof.
  eexists; eexists. split; [reflexivity|]. split; [reflexivity|]. split; [reflexivity|].
  exists 0%Z, 1%Z, 2%Z. cbn. repeat split; auto; try lia. all: try (intros [H|[H|[]]]; discriminate).
Qed.
