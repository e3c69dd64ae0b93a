(** Proofs about noise tables and noise models. *)
From Coq Require Import Reals Lra Lia Bool.
From Verif.Base Require Import Py PyFacts.
From Verif.Noise Require Import NoiseModel NoiseSpec.
Local Open Scope list_scope.

Lemma pair_eq (x y : Z * Z) : pair_eqb x y = true <-> x = y.
Proof.
  unfold pair_eqb. rewrite andb_true_iff, !Z.eqb_eq. destruct x, y. cbn. split; [intros [-> ->]; reflexivity|]. intros H. now injection H.
Qed.
Lemma dmem_false {V} (t : list ((Z * Z) * V)) k : dmem pair_eqb t k = false <-> ~ In k (map fst t).
Proof. unfold dmem. pose proof (dget_None pair_eqb pair_eq t k) as H. unfold dkeys in H. destruct (dget pair_eqb t k); split; intros X; [discriminate| | |reflexivity].
  - exfalso. destruct H as [_ H]. specialize (H X). discriminate.
  - now apply H.
Qed.

Lemma NoDup_app_l {A} (l : list A) x : NoDup l -> ~ In x l -> NoDup (l ++ [x]).
Proof.
  intros N H. induction l as [|y l IH]; cbn; [constructor; [intros []|constructor]|]. inversion N; subst. constructor.
  - rewrite in_app_iff. intros [X|[X|[]]]; [contradiction|]. subst. apply H. now left.
  - apply IH; [assumption|]. intros X. apply H. now right.
Qed.

(** *** C38 *)
Lemma add_accepted t a b n t' : add_noise t a b n = Ok t' <->
  a <> b /\ ~ In (Z.min a b, Z.max a b) (map fst t) /\ ((0 <= a /\ 0 <= b)%Z \/ t = []) /\ (forall k, In k (map fst t) -> ~ dynamic k) /\
  t' = t ++ [((Z.min a b, Z.max a b), n)].
Proof.
  unfold add_noise.
  assert (E : (if (b <? a)%Z then (b, a) else (a, b)) = (Z.min a b, Z.max a b)) by (destruct (Z.ltb_spec b a); f_equal; lia).
  rewrite E. clear E. destruct (Z.eqb_spec (Z.min a b) (Z.max a b)) as [Q|Q]; [split; [discriminate|intros (H & _); lia]|].
  destruct (dmem pair_eqb t _) eqn:M.
  { split; [discriminate|]. intros (_ & H & _). apply dmem_false in H. congruence. }
  apply dmem_false in M.
  destruct (((Z.min a b <? 0) || (Z.max a b <? 0)) && negb (Z.of_nat (List.length t) =? 0))%Z eqn:G.
  { split; [discriminate|]. intros (_ & _ & [H|H] & _).
    - apply andb_true_iff in G. destruct G as [G _]. apply orb_true_iff in G. destruct G as [G|G]; apply Z.ltb_lt in G; lia.
    - subst t. cbn in G. rewrite andb_false_r in G. discriminate. }
  assert (G' : (0 <= a /\ 0 <= b)%Z \/ t = []).
  { apply andb_false_iff in G. destruct G as [G|G].
    - apply orb_false_iff in G. destruct G as [G1 G2]. apply Z.ltb_ge in G1, G2. left. lia.
    - right. apply negb_false_iff, Z.eqb_eq in G. destruct t; [reflexivity|cbn in G; lia]. }
  destruct (existsb _ t) eqn:X.
  { split; [discriminate|]. intros (_ & _ & _ & H & _). apply existsb_exists in X. destruct X as (e & He & Hd). apply andb_true_iff in Hd. destruct Hd as [H1 H2].
    apply Z.ltb_lt in H1, H2. exfalso. apply (H (fst e)); [now apply in_map|split; assumption]. }
  assert (X' : forall k, In k (map fst t) -> ~ dynamic k).
  { intros k Hk [D1 D2]. apply in_map_iff in Hk. destruct Hk as (e & <- & He).
    assert (true = false); [|discriminate]. rewrite <- X. symmetry. apply existsb_exists. exists e. split; [exact He|].
    apply andb_true_iff. split; apply Z.ltb_lt; assumption. }
  rewrite (dset_fresh pair_eqb pair_eq) by exact M. split.
  - intros H. injection H as <-. split; [lia|]. auto.
  - intros (_ & _ & _ & _ & ->). reflexivity.
Qed.
Lemma wf_add t a b n t' : unmixed a b -> well_formed t -> add_noise t a b n = Ok t' -> well_formed t'.
Proof.
  intros U (N & O & K) H. apply add_accepted in H. destruct H as (H1 & H2 & H3 & H4 & ->). split; [|split].
  - rewrite map_app. cbn. apply NoDup_app_l; [exact N|exact H2].
  - intros k. rewrite map_app, in_app_iff. intros [Hk|[<-|[]]]; [now apply O|]. cbn. lia.
  - destruct K as [K|(k & m & -> & D)]; [|exfalso; apply (H4 k); [now left|exact D]].
    destruct U as [U|U].
    + destruct H3 as [H3| ->]; [lia|]. right. eexists _, n. split; [reflexivity|]. split; cbn; lia.
    + left. intros k. rewrite map_app, in_app_iff. intros [Hk|[<-|[]]]; [now apply K|]. split; cbn; lia.
Qed.
Lemma wf_adds l : forall t, (forall k n, In (k, n) l -> unmixed (fst k) (snd k)) -> well_formed t -> well_formed (fst (add_noises t l)).
Proof.
  induction l as [|[[a b] n] l IH]; intros t U W; [exact W|]. cbn [add_noises]. destruct (add_noise t a b n) as [t'|] eqn:E; [|exact W].
  apply IH; [intros; eapply U; right; eassumption|]. eapply wf_add; [apply (U (a, b) n); now left|exact W|exact E].
Qed.
Lemma wf_empty : well_formed [].
Proof. split; [constructor|]. split; [intros k []|]. left. intros k []. Qed.
Lemma wf_history ops : Forall top_unmixed ops -> well_formed (fold_left trun ops []).
Proof.
  generalize wf_empty. generalize (@nil ((Z * Z) * noise)) as t. induction ops as [|o ops IH]; intros t W F; [exact W|].
  inversion F as [|? ? F1 F2]; subst. cbn [fold_left]. apply IH; [|exact F2]. destruct o as [a b n|l]; cbn [trun].
  - destruct (add_noise t a b n) as [t'|] eqn:E; [|exact W]. eapply wf_add; eassumption.
  - now apply wf_adds.
Qed.
Lemma adds_accepted t l t' : add_noises t l = (t', None) -> exists l', t' = t ++ l' /\
  Forall2 (fun e e' => fst e' = (Z.min (fst (fst e)) (snd (fst e)), Z.max (fst (fst e)) (snd (fst e))) /\ snd e' = snd e) l l'.
Proof.
  revert t. induction l as [|[[a b] n] l IH]; intros t; cbn [add_noises]; [intros H; injection H as <-; exists []; rewrite app_nil_r; split; [reflexivity|constructor]|].
  destruct (add_noise t a b n) as [t1|] eqn:E; [|discriminate]. intros H. destruct (IH _ H) as (l' & -> & F).
  apply add_accepted in E. destruct E as (_ & _ & _ & _ & ->). eexists (_ :: l'). split; [rewrite <- app_assoc; reflexivity|]. constructor; [|exact F]. split; reflexivity.
Qed.
Lemma adds_app l1 : forall t l2, add_noises t (l1 ++ l2) = match add_noises t l1 with (t', None) => add_noises t' l2 | (t', Some e) => (t', Some e) end.
Proof. induction l1 as [|[[a b] n] l1 IH]; intros t l2; [reflexivity|]. cbn [app add_noises]. destruct (add_noise t a b n); [apply IH|reflexivity]. Qed.
Lemma adds_partial t l1 t1 a b n l2 e : add_noises t l1 = (t1, None) -> add_noise t1 a b n = Err e ->
  add_noises t (l1 ++ ((a, b), n) :: l2) = (t1, Some e) /\ (l1 <> [] -> t1 <> t).
Proof.
  intros H E. rewrite adds_app, H. cbn [add_noises]. rewrite E. split; [reflexivity|]. intros NE X.
  apply adds_accepted in H. destruct H as (l' & -> & F). destruct l1; [contradiction|]. inversion F; subst.
  rewrite <- (app_nil_r t) in X at 2. apply app_inv_head in X. discriminate.
Qed.
Lemma mixed_sign a b c d n m : (a < 0 <= b)%Z -> (0 <= c < d)%Z ->
  exists t t', add_noise [] a b n = Ok t /\ add_noise t c d m = Ok t' /\ In (a, b) (map fst t') /\ In (c, d) (map fst t').
Proof.
  intros H1 H2. eexists _, _. split; [apply add_accepted; repeat split; [lia|intros []|now right|intros k []]|]. split.
  - apply add_accepted. split; [lia|]. split; [|split; [left; lia|split; [|reflexivity]]].
    + cbn. intros [E|[]]. injection E. lia.
    + cbn. intros k [<-|[]] [D1 D2]. cbn in *. lia.
  - rewrite !map_app. cbn. replace (Z.min a b) with a by lia. replace (Z.max a b) with b by lia.
    replace (Z.min c d) with c by lia. replace (Z.max c d) with d by lia. auto.
Qed.
Lemma new_dynamic pd pf : new_subspace pd pf (LList []) = Ok [((-2, -1)%Z, Noise pd pf)].
Proof. reflexivity. Qed.
Lemma new_pair pd pf a b t : new_subspace pd pf (LPair (a, b)) = Ok t <-> a <> b /\ t = [((Z.min a b, Z.max a b), Noise pd pf)].
Proof.
  cbn. rewrite add_accepted. split; [intros (H & _ & _ & _ & E); auto|]. intros [H E]. split; [exact H|]. split; [intros []|]. split; [now right|]. split; [intros k []|exact E].
Qed.
Lemma new_list pd pf l t : l <> [] -> (forall k, In k l -> explicit k /\ (fst k < snd k)%Z) ->
  new_subspace pd pf (LList l) = Ok t <-> NoDup l /\ t = map (fun k => (k, Noise pd pf)) l.
Proof.
  intros NE EX. destruct l as [|k0 l0]; [contradiction|]. cbn [new_subspace]. set (l := k0 :: l0) in *. clearbody l. clear NE k0 l0.
  assert (K : forall (l : list (Z * Z)) (s : table), (forall k, In k l -> explicit k /\ (fst k < snd k)%Z) -> (forall k, In k (map fst s) -> explicit k) -> NoDup (map fst s) ->
    match add_noises s (map (fun ab => (ab, Noise pd pf)) l) with
    | (t, None) => NoDup (map fst s ++ l) /\ t = s ++ map (fun k => (k, Noise pd pf)) l
    | (_, Some _) => ~ NoDup (map fst s ++ l) end).
  { clear. induction l as [|[a b] l IH]; intros s EX ES N; cbn [map add_noises]; [rewrite !app_nil_r; auto|].
    destruct (EX (a, b) (or_introl eq_refl)) as [[E1 E2] E3]. cbn in E1, E2, E3.
    destruct (add_noise s a b (Noise pd pf)) as [s'|e] eqn:E.
    - apply add_accepted in E. destruct E as (_ & E4 & _ & _ & ->). replace (Z.min a b) with a in * by lia. replace (Z.max a b) with b in * by lia.
      specialize (IH (s ++ [((a, b), Noise pd pf)])). rewrite map_app in IH. cbn [map fst] in IH. rewrite <- !app_assoc in IH. cbn [app] in IH. apply IH.
      + intros k Hk. apply EX. now right.
      + intros k. rewrite in_app_iff. intros [Hk|[<-|[]]]; [now apply ES|split; assumption].
      + now apply NoDup_app_l.
    - intros ND. assert (X : add_noise s a b (Noise pd pf) = Ok (s ++ [((a, b), Noise pd pf)])); [|congruence].
      apply add_accepted. replace (Z.min a b) with a by lia. replace (Z.max a b) with b by lia. split; [lia|]. split.
      + apply NoDup_remove_2 in ND. rewrite in_app_iff in ND. tauto.
      + split; [left; lia|]. split; [|reflexivity]. intros k Hk [D1 D2]. apply ES in Hk. destruct Hk. lia. }
  specialize (K l [] EX (fun k H => match H with end) (NoDup_nil _)). destruct (add_noises [] _) as [t' [e|]]; cbn in K.
  - split; [discriminate|]. intros [N _]. contradiction.
  - destruct K as [K1 ->]. split; [intros H; injection H as <-; auto|]. intros [_ ->]. reflexivity.
Qed.

(** *** C39 *)
Definition eqs := String.eqb_eq.
Lemma slot_set h errs g d m v g' m' : sget errs g = Some d ->
  slot (State h (sset errs g (sset d m v))) g' m' = if (String.eqb g' g && String.eqb m' m)%bool then Some v else match sget errs g' with Some d => sget d m' | None => None end.
Proof.
  intros E. unfold slot. cbn [errors]. destruct (String.eqb_spec g' g) as [->|N].
  - rewrite (dget_dset_same String.eqb eqs). cbn [andb]. destruct (String.eqb_spec m' m) as [->|M].
    + apply (dget_dset_same String.eqb eqs).
    + rewrite E. apply (dget_dset_other String.eqb eqs). exact M.
  - cbn [andb]. now rewrite (dget_dset_other String.eqb eqs) by exact N.
Qed.
Lemma slot_errs s g m : forall g', match sget (if dmem String.eqb (errors s) g then errors s else sset (errors s) g []) g' with Some d => sget d m | None => None end = slot s g' m.
Proof.
  intros g'. unfold slot, dmem. destruct (sget (errors s) g) as [d|] eqn:E; [reflexivity|]. destruct (string_dec g' g) as [->|N].
  - rewrite (dget_dset_same String.eqb eqs), E. reflexivity.
  - now rewrite (dget_dset_other String.eqb eqs) by exact N.
Qed.
Lemma errs_some s g : exists d, sget (if dmem String.eqb (errors s) g then errors s else sset (errors s) g []) g = Some d /\ forall m, sget d m = slot s g m.
Proof.
  unfold slot, dmem. destruct (sget (errors s) g) as [d|] eqn:E; [exists d; rewrite E; auto|]. exists []. rewrite (dget_dset_same String.eqb eqs). auto.
Qed.
Lemma nth_set_heap (h : list table) a t b : a < List.length h -> nth_error (set_heap h a t) b = if Nat.eqb b a then Some t else nth_error h b.
Proof.
  intros L. unfold set_heap. destruct (Nat.eqb_spec b a) as [->|N].
  - rewrite nth_error_app2; rewrite firstn_length, Nat.min_l by lia; [|lia]. now rewrite Nat.sub_diag.
  - rewrite <- (firstn_skipn a h) at 3. assert (Lf : List.length (firstn a h) = a) by (rewrite firstn_length; lia).
    destruct (Nat.lt_ge_cases b a) as [H|H].
    + rewrite !nth_error_app1 by lia. reflexivity.
    + rewrite !nth_error_app2 by lia. rewrite Lf. destruct (b - a) as [|k] eqn:E; [lia|]. cbn [nth_error].
      destruct (skipn a h) as [|x r] eqn:Es; [exfalso; assert (X : List.length (skipn a h) = 0) by (rewrite Es; reflexivity); rewrite skipn_length in X; lia|].
      replace (skipn (S a) h) with r; [reflexivity|]. clear - Es. revert h Es. induction a as [|a IH]; intros [|y h] Es; cbn in *; try discriminate; [now injection Es|now apply IH].
Qed.
Lemma set_heap_length (h : list table) a t : a < List.length h -> List.length (set_heap h a t) = List.length h.
Proof. intros L. unfold set_heap. rewrite app_length. cbn [List.length]. rewrite firstn_length, skipn_length. lia. Qed.

(** One gate. *)
Lemma add_gate_empty s v m g : slot s g m = None ->
  exists s', add_to_gate s v m g = (s', None) /\ heap s' = heap s /\
    forall g' m', slot s' g' m' = if (String.eqb g' g && String.eqb m' m)%bool then Some v else slot s g' m'.
Proof.
  intros H. unfold add_to_gate. destruct (errs_some s g) as (d & E & D). rewrite E, D, H. eexists. split; [reflexivity|]. split; [reflexivity|].
  intros g' m'. rewrite slot_set by exact E. now rewrite slot_errs.
Qed.
Lemma add_gate_full s v m g old : slot s g m = Some old ->
  exists s' x, add_to_gate s v m g = (s', x) /\ (forall g' m', slot s' g' m' = slot s g' m') /\
    match v, old with
    | Math _, _ => heap s' = heap s /\ x = Some ValueError
    | Sub _, Math _ => heap s' = heap s /\ x = Some AssertionError
    | Sub a, Sub e => match nth_error (heap s) e, nth_error (heap s) a with
        | Some te, Some ta => heap s' = set_heap (heap s) e (fst (add_noises te ta)) /\ x = snd (add_noises te ta)
        | _, _ => heap s' = heap s /\ x = Some AttributeError end
    end.
Proof.
  intros H. unfold add_to_gate. destruct (errs_some s g) as (d & E & D). rewrite E, D, H.
  assert (S : forall h g' m', slot (State h (if dmem String.eqb (errors s) g then errors s else sset (errors s) g [])) g' m' = slot s g' m') by (intros; apply slot_errs).
  destruct v as [n|a], old as [n'|e].
  - eexists _, _. split; [reflexivity|]. split; [apply S|]. auto.
  - eexists _, _. split; [reflexivity|]. split; [apply S|]. auto.
  - eexists _, _. split; [reflexivity|]. split; [apply S|]. auto.
  - destruct (nth_error (heap s) e) as [te|], (nth_error (heap s) a) as [ta|].
    + destruct (add_noises te ta) as [te' x] eqn:A. eexists _, _. split; [reflexivity|]. split; [apply S|]. auto.
    + eexists _, _. split; [reflexivity|]. split; [apply S|]. auto.
    + eexists _, _. split; [reflexivity|]. split; [apply S|]. auto.
    + eexists _, _. split; [reflexivity|]. split; [apply S|]. auto.
Qed.

(** The objects of the slots exist and are different. *)
Definition inv (s : state) : Prop :=
  (forall g m a, slot s g m = Some (Sub a) -> a < List.length (heap s)) /\
  (forall g m g' m' a, slot s g m = Some (Sub a) -> slot s g' m' = Some (Sub a) -> g = g' /\ m = m').
Lemma eq2 (a b c d : string) : (String.eqb a b && String.eqb c d)%bool = true <-> a = b /\ c = d.
Proof. rewrite andb_true_iff, !String.eqb_eq. reflexivity. Qed.
Lemma ideal_gate_ext i i' c g m : (forall g m, i g m = i' g m) -> snd (ideal_gate i c g m) = snd (ideal_gate i' c g m) /\
  forall g' m', fst (ideal_gate i c g m) g' m' = fst (ideal_gate i' c g m) g' m'.
Proof.
  intros E. unfold ideal_gate. rewrite E. destruct (i' g m) as [[n|t]|], c as [n'|t']; cbn; auto; try (split; [reflexivity|]; intros; unfold put; now rewrite E).
  destruct (add_noises t t') as [t2 x]. cbn. split; [reflexivity|]. intros; unfold put; now rewrite E.
Qed.
Lemma ideal_add_ext l : forall i i' c m, (forall g m, i g m = i' g m) -> snd (ideal_add i c l m) = snd (ideal_add i' c l m) /\
  forall g' m', fst (ideal_add i c l m) g' m' = fst (ideal_add i' c l m) g' m'.
Proof.
  induction l as [|g l IH]; intros i i' c m E; cbn [ideal_add]; [auto|].
  destruct (ideal_gate_ext i i' c g m E) as [H1 H2]. destruct (ideal_gate i c g m) as [j x], (ideal_gate i' c g m) as [j' x']. cbn in H1, H2. subst x'.
  destruct x; [auto|]. now apply IH.
Qed.
Definition step_ok (s s' : state) (x : option exn) (i : ideal) (y : option exn) : Prop :=
  inv s' /\ x = y /\ forall g m, holds s' g m = i g m.
Lemma math_gate s n m g : inv s -> let '(s', x) := add_to_gate s (Math n) m g in
  step_ok s s' x (fst (ideal_gate (holds s) (HMath n) g m)) (snd (ideal_gate (holds s) (HMath n) g m)) /\ heap s' = heap s.
Proof.
  intros [I1 I2]. destruct (slot s g m) as [old|] eqn:E.
  - destruct (add_gate_full s (Math n) m g old E) as (s' & x & -> & S & H & X).
    assert (exists c, holds s g m = Some c).
    { unfold holds. rewrite E. destruct old as [n'|a]; [cbn; eauto|]. cbn. destruct (nth_error (heap s) a) eqn:Q; [eauto|]. apply nth_error_None in Q. apply I1 in E. lia. }
    destruct H0 as (c & Hc). unfold ideal_gate. rewrite Hc. split; [|exact H]. split; [|split].
    + split; [intros ? ? ?; rewrite S, H; apply I1|intros ? ? ? ? ?; rewrite !S; apply I2].
    + rewrite X. now destruct c.
    + intros g' m'. unfold holds. rewrite S, H. now destruct c.
  - destruct (add_gate_empty s (Math n) m g E) as (s' & -> & H & S). unfold ideal_gate. assert (Hc : holds s g m = None) by (unfold holds; now rewrite E). rewrite Hc.
    split; [|exact H]. split; [|split; [reflexivity|]].
    + split.
      * intros g' m' a. rewrite S, H. destruct (String.eqb g' g && String.eqb m' m)%bool; [discriminate|apply I1].
      * intros g1 m1 g2 m2 a. rewrite !S. destruct (String.eqb g1 g && String.eqb m1 m)%bool; [discriminate|]. destruct (String.eqb g2 g && String.eqb m2 m)%bool; [discriminate|apply I2].
    + intros g' m'. unfold holds. rewrite S, H. unfold put. cbn [fst]. destruct (String.eqb g' g && String.eqb m' m)%bool; reflexivity.
Qed.
Lemma math_gates n m l : forall s, inv s -> let '(s', x) := add_error s (Math n) l m in
  step_ok s s' x (fst (ideal_add (holds s) (HMath n) l m)) (snd (ideal_add (holds s) (HMath n) l m)).
Proof.
  induction l as [|g l IH]; intros s I; cbn [add_error ideal_add]; [split; [exact I|auto]|].
  pose proof (math_gate s n m g I) as M. destruct (add_to_gate s (Math n) m g) as [s1 x]. destruct M as [(I1 & X & H) _].
  destruct (ideal_gate (holds s) (HMath n) g m) as [i1 y]. cbn in X, H. subst y. destruct x as [e|]; [split; [exact I1|split; [reflexivity|exact H]]|].
  specialize (IH s1 I1). destruct (add_error s1 (Math n) l m) as [s2 x2]. destruct IH as (I2 & X2 & H2).
  destruct (ideal_add_ext l i1 (holds s1) (HMath n) m) as [E1 E2]; [intros; symmetry; apply H|]. split; [exact I2|]. split; [now rewrite E1|].
  intros g' m'. now rewrite E2.
Qed.
Lemma sub_gate s a ta m g : inv s -> ~ in_use s a -> nth_error (heap s) a = Some ta -> let '(s', x) := add_to_gate s (Sub a) m g in
  step_ok s s' x (fst (ideal_gate (holds s) (HSub ta) g m)) (snd (ideal_gate (holds s) (HSub ta) g m)).
Proof.
  intros [I1 I2] U Ha. assert (La : a < List.length (heap s)) by (apply nth_error_Some; congruence).
  destruct (slot s g m) as [[n|e]|] eqn:E.
  - destruct (add_gate_full s (Sub a) m g _ E) as (s' & x & -> & S & H & X). unfold ideal_gate.
    assert (Hc : holds s g m = Some (HMath n)) by (unfold holds; now rewrite E). rewrite Hc. split; [|split; [exact X|]].
    + split; [intros ? ? ?; rewrite S, H; apply I1|intros ? ? ? ? ?; rewrite !S; apply I2].
    + intros g' m'. unfold holds. now rewrite S, H.
  - destruct (add_gate_full s (Sub a) m g _ E) as (s' & x & -> & S & H). pose proof (I1 _ _ _ E) as Le.
    destruct (nth_error (heap s) e) as [te|] eqn:Te; [|apply nth_error_None in Te; lia]. rewrite Ha in H. destruct H as [H X]. unfold ideal_gate.
    assert (Hc : holds s g m = Some (HSub te)) by (unfold holds; rewrite E; cbn; now rewrite Te). rewrite Hc. destruct (add_noises te ta) as [te' y]. cbn [fst snd] in *.
    split; [|split; [exact X|]].
    + split; [intros ? ? ?; rewrite S, H, set_heap_length by exact Le; apply I1|intros ? ? ? ? ?; rewrite !S; apply I2].
    + intros g' m'. unfold holds. rewrite S, H. unfold put. destruct (String.eqb g' g && String.eqb m' m)%bool eqn:Q.
      * apply eq2 in Q. destruct Q as [-> ->]. rewrite E. cbn [read]. rewrite nth_set_heap, Nat.eqb_refl by exact Le. reflexivity.
      * destruct (slot s g' m') as [[n|b]|] eqn:Eb; try reflexivity. cbn [read]. rewrite nth_set_heap by exact Le.
        destruct (Nat.eqb_spec b e) as [->|N]; [|reflexivity]. exfalso. destruct (I2 _ _ _ _ _ E Eb) as [<- <-]. rewrite !String.eqb_refl in Q. discriminate.
  - destruct (add_gate_empty s (Sub a) m g E) as (s' & -> & H & S). unfold ideal_gate. assert (Hc : holds s g m = None) by (unfold holds; now rewrite E). rewrite Hc.
    split; [|split; [reflexivity|]].
    + split.
      * intros g' m' b. rewrite S, H. destruct (String.eqb g' g && String.eqb m' m)%bool; [intros X; injection X as <-; exact La|apply I1].
      * intros g1 m1 g2 m2 b. rewrite !S. destruct (String.eqb g1 g && String.eqb m1 m)%bool eqn:Q1, (String.eqb g2 g && String.eqb m2 m)%bool eqn:Q2.
        -- apply eq2 in Q1, Q2. destruct Q1 as [-> ->], Q2 as [-> ->]. auto.
        -- intros X Y. injection X as <-. exfalso. apply U. exists g2, m2. exact Y.
        -- intros X Y. injection Y as <-. exfalso. apply U. exists g1, m1. exact X.
        -- apply I2.
    + intros g' m'. unfold holds. rewrite S, H. unfold put. cbn [fst]. destruct (String.eqb g' g && String.eqb m' m)%bool; [cbn; now rewrite Ha|reflexivity].
Qed.
Lemma sep_step s c : inv s -> separate_call s c -> let '(s', x) := run_call s c in
  step_ok s s' x (fst (ideal_call s (holds s) c)) (snd (ideal_call s (holds s) c)).
Proof.
  intros I C. destruct c as [pd pf ls|a x y n|v gates m]; cbn [run_call ideal_call].
  - destruct (new_subspace pd pf ls) as [t|]; cbn; [|split; [exact I|auto]]. destruct I as [I1 I2]. split; [|split; [reflexivity|]].
    + split; [|exact I2]. intros g m a H. cbn [heap]. rewrite app_length. apply I1 in H. lia.
    + intros g m. unfold holds. change (slot (State (heap s ++ [t]) (errors s)) g m) with (slot s g m). destruct (slot s g m) as [[n|a]|] eqn:E; try reflexivity.
      cbn [heap read]. apply I1 in E. now rewrite nth_error_app1.
  - cbn [separate_call] in C. destruct (nth_error (heap s) a) as [t|] eqn:E; [|split; [exact I|auto]].
    destruct (add_noise t x y n) as [t'|]; [|split; [exact I|auto]]. cbn. assert (La : a < List.length (heap s)) by (apply nth_error_Some; congruence).
    destruct I as [I1 I2]. split; [|split; [reflexivity|]].
    + split; [|exact I2]. intros g m b H. cbn [heap]. rewrite set_heap_length by exact La. now apply (I1 g m).
    + intros g m. unfold holds. change (slot (State (set_heap (heap s) a t') (errors s)) g m) with (slot s g m). destruct (slot s g m) as [[n'|b]|] eqn:Eb; try reflexivity.
      cbn [heap read]. rewrite nth_set_heap by exact La. destruct (Nat.eqb_spec b a) as [->|N]; [|reflexivity]. exfalso. apply C. exists g, m. exact Eb.
  - destruct v as [n|a].
    + cbn [read]. exact (math_gates n m gates s I).
    + destruct C as (U & La & (g & ->)). cbn [read]. destruct (nth_error (heap s) a) as [ta|] eqn:Ha; [|apply nth_error_None in Ha; lia].
      cbn [add_error ideal_add]. pose proof (sub_gate s a ta m g I U Ha) as G. destruct (add_to_gate s (Sub a) m g) as [s' [e|]];
      destruct (ideal_gate (holds s) (HSub ta) g m) as [i [e'|]]; destruct G as (G1 & G2 & G3); cbn in G2, G3; try discriminate; (split; [exact G1|split; [exact G2|exact G3]]).
Qed.
Lemma ideal_call_ext s i i' c : (forall g m, i g m = i' g m) -> snd (ideal_call s i c) = snd (ideal_call s i' c) /\ forall g m, fst (ideal_call s i c) g m = fst (ideal_call s i' c) g m.
Proof. intros E. destruct c as [| |v gates m]; cbn; auto. destruct (read (heap s) v); [now apply ideal_add_ext|auto]. Qed.
Lemma sep_run l : forall s i, inv s -> (forall g m, holds s g m = i g m) -> separate_calls s l -> forall g m, holds (run_calls s l) g m = ideal_run s i l g m.
Proof.
  induction l as [|c l IH]; intros s i I H S; cbn [run_calls ideal_run]; [exact H|]. inversion S as [|? ? ? S1 S2]; subst.
  pose proof (sep_step s c I S1) as Q. destruct (run_call s c) as [s' x]. destruct Q as (Q1 & _ & Q3). cbn [fst] in *.
  apply IH; [exact Q1| |exact S2]. intros g m. rewrite Q3. now apply ideal_call_ext.
Qed.
Lemma separate_history l : separate_calls new_model l -> forall g m, holds (run_calls new_model l) g m = ideal_run new_model (fun _ _ => None) l g m.
Proof.
  apply sep_run; [|reflexivity]. split; intros; discriminate.
Qed.
(** The exceptions are those of the ideal model as well. *)
Lemma separate_inv s : separate_reached s -> inv s.
Proof.
  induction 1 as [|s c R IH C]; [split; intros; discriminate|]. pose proof (sep_step s c IH C) as Q. destruct (run_call s c). apply Q.
Qed.
Lemma separate_result s c : separate_reached s -> separate_call s c ->
  snd (run_call s c) = snd (ideal_call s (holds s) c) /\ forall g m, holds (fst (run_call s c)) g m = fst (ideal_call s (holds s) c) g m.
Proof. intros R C. pose proof (sep_step s c (separate_inv s R) C) as Q. destruct (run_call s c). apply Q. Qed.

(** Sharing *)
Lemma shared_object s a b ta tb g1 g2 m : g1 <> g2 -> a <> b -> nth_error (heap s) a = Some ta -> nth_error (heap s) b = Some tb ->
  slot s g1 m = None -> slot s g2 m = None -> snd (add_noises ta tb) = None ->
  exists s1 s2, add_error s (Sub a) [g1; g2] m = (s1, None) /\ holds s1 g2 m = Some (HSub ta) /\
    add_error s1 (Sub b) [g1] m = (s2, None) /\ holds s2 g2 m = Some (HSub (fst (add_noises ta tb))).
Proof.
  intros N Nab Ha Hb E1 E2 X. cbn [add_error]. destruct (add_gate_empty s (Sub a) m g1 E1) as (s1 & -> & H1 & S1).
  assert (E2' : slot s1 g2 m = None). { rewrite S1. destruct (String.eqb_spec g2 g1); [congruence|exact E2]. }
  destruct (add_gate_empty s1 (Sub a) m g2 E2') as (s2 & Q2 & H2 & S2). rewrite Q2. exists s2.
  assert (F1 : slot s2 g1 m = Some (Sub a)). { rewrite S2. destruct (String.eqb_spec g1 g2); [congruence|]. cbn. rewrite S1, !String.eqb_refl. reflexivity. }
  assert (F2 : slot s2 g2 m = Some (Sub a)) by (rewrite S2, !String.eqb_refl; reflexivity).
  destruct (add_gate_full s2 (Sub b) m g1 _ F1) as (s3 & x & Q3 & S3 & H3). rewrite H2, H1, Ha, Hb in H3. destruct H3 as [H3 ->]. rewrite X in Q3. exists s3.
  split; [reflexivity|]. split; [unfold holds; rewrite F2; cbn; now rewrite H2, H1, Ha|]. split; [now rewrite Q3|].
  unfold holds. rewrite S3, F2. cbn [read]. rewrite H3. rewrite nth_set_heap, Nat.eqb_refl; [reflexivity|]. apply nth_error_Some. congruence.
Qed.
Lemma changed_later s a t t' x y n g m : nth_error (heap s) a = Some t -> slot s g m = None -> add_noise t x y n = Ok t' ->
  exists s1 s2, add_error s (Sub a) [g] m = (s1, None) /\ holds s1 g m = Some (HSub t) /\
    run_call s1 (CAddNoise a x y n) = (s2, None) /\ holds s2 g m = Some (HSub t') /\ t' <> t.
Proof.
  intros Ha E A. cbn [add_error]. destruct (add_gate_empty s (Sub a) m g E) as (s1 & -> & H1 & S1). exists s1. eexists.
  assert (F : slot s1 g m = Some (Sub a)) by (rewrite S1, !String.eqb_refl; reflexivity).
  split; [reflexivity|]. split; [unfold holds; rewrite F; cbn; now rewrite H1, Ha|]. cbn [run_call]. rewrite H1, Ha, A. split; [reflexivity|]. split.
  - unfold holds. change (slot (State (set_heap (heap s) a t') (errors s1)) g m) with (slot s1 g m). rewrite F. cbn [read heap].
    rewrite nth_set_heap, Nat.eqb_refl; [reflexivity|]. apply nth_error_Some. congruence.
  - apply add_accepted in A. destruct A as (_ & _ & _ & _ & ->). intros X. rewrite <- (app_nil_r t) in X at 2. apply app_inv_head in X. discriminate.
Qed.

(** basis_gates *)
Definition listed (s : state) : Prop := NoDup (map fst (errors s)) /\ forall g d, In (g, d) (errors s) -> exists m v, sget d m = Some v.
Lemma listed_gate s v m g : listed s -> listed (fst (add_to_gate s v m g)).
Proof.
  intros [N L]. assert (NE : NoDup (map fst (if dmem String.eqb (errors s) g then errors s else sset (errors s) g []))).
  { destruct (dmem String.eqb (errors s) g); [exact N|]. apply (dset_NoDup String.eqb eqs). exact N. }
  destruct (slot s g m) as [old|] eqn:E.
  - destruct (add_gate_full s v m g old E) as (s' & x & Q & _ & _). assert (errors s' = errors s).
    { revert Q. unfold add_to_gate. unfold slot in E. assert (D : dmem String.eqb (errors s) g = true) by (unfold dmem; destruct (sget (errors s) g); [reflexivity|discriminate]).
      rewrite D. destruct (sget (errors s) g) as [d|]; [|discriminate]. rewrite E. intros Q.
      repeat match type of Q with context [match ?y with _ => _ end] => destruct y end; injection Q as <- _; reflexivity. }
    rewrite Q. cbn [fst]. unfold listed. rewrite H. auto.
  - unfold add_to_gate. destruct (errs_some s g) as (d & Ed & D). rewrite Ed, D, E. cbn [fst errors]. split; [apply (dset_NoDup String.eqb eqs); exact NE|].
    cbn [errors]. intros g' d' H. destruct (string_dec g' g) as [->|Ng].
    + apply (dget_complete String.eqb eqs) in H; [|apply (dset_NoDup String.eqb eqs); exact NE]. rewrite (dget_dset_same String.eqb eqs) in H. injection H as <-.
      exists m, v. apply (dget_dset_same String.eqb eqs).
    + apply (L g'). apply (dget_complete String.eqb eqs) in H; [|apply (dset_NoDup String.eqb eqs); exact NE]. rewrite (dget_dset_other String.eqb eqs) in H by exact Ng.
      apply (dget_In String.eqb eqs). unfold dmem in H. destruct (sget (errors s) g); [exact H|]. now rewrite (dget_dset_other String.eqb eqs) in H by exact Ng.
Qed.
Lemma listed_error v m l : forall s, listed s -> listed (fst (add_error s v l m)).
Proof.
  induction l as [|g l IH]; intros s H; [exact H|]. cbn [add_error]. pose proof (listed_gate s v m g H) as G. destruct (add_to_gate s v m g) as [s' [e|]]; [exact G|]. apply IH. exact G.
Qed.
Lemma listed_run l : forall s, listed s -> listed (run_calls s l).
Proof.
  induction l as [|c l IH]; intros s H; [exact H|]. cbn [run_calls]. apply IH. destruct c as [pd pf ls|a x y n|v gates m]; cbn [run_call].
  - destruct (new_subspace pd pf ls); exact H.
  - destruct (nth_error (heap s) a) as [t|]; [|exact H]. destruct (add_noise t x y n); exact H.
  - now apply listed_error.
Qed.
Lemma basis_spec l g : In g (basis_gates (run_calls new_model l)) <-> exists m v, slot (run_calls new_model l) g m = Some v.
Proof.
  assert (H : listed (run_calls new_model l)) by (apply listed_run; split; [constructor|intros ? ? []]). destruct H as [N L].
  unfold basis_gates. split.
  - intros I. apply in_map_iff in I. destruct I as ((g' & d) & E & I). cbn in E. subst g'. destruct (L g d I) as (m & v & Q). exists m, v.
    unfold slot. now rewrite (dget_complete String.eqb eqs _ _ _ N I).
  - intros (m & v & H). unfold slot in H. destruct (sget (errors (run_calls new_model l)) g) as [d|] eqn:E; [|discriminate].
    apply (dget_In String.eqb eqs) in E. apply in_map_iff. exists (g, d). auto.
Qed.

(** The first noise of some gates, in any state. *)
Lemma first_noise v m gates : forall s, NoDup gates -> (forall g, In g gates -> slot s g m = None) ->
  exists s', add_error s v gates m = (s', None) /\ heap s' = heap s /\
    (forall g, In g gates -> slot s' g m = Some v) /\ (forall g m', (In g gates -> m' <> m) -> slot s' g m' = slot s g m').
Proof.
  induction gates as [|g gates IH]; intros s N E; cbn [add_error].
  - exists s. split; [reflexivity|]. split; [reflexivity|]. split; [intros g []|auto].
  - inversion N as [|? ? N1 N2]; subst. destruct (add_gate_empty s v m g (E g (or_introl eq_refl))) as (s1 & -> & H1 & S1).
    destruct (IH s1 N2) as (s2 & -> & H2 & A & B).
    { intros g' I. rewrite S1. destruct (String.eqb_spec g' g) as [->|D]; [contradiction|]. cbn. apply E. now right. }
    exists s2. split; [reflexivity|]. split; [congruence|]. split.
    + intros g' [<-|I]; [|now apply A]. rewrite B by (intros I; contradiction). rewrite S1, !String.eqb_refl. reflexivity.
    + intros g' m' D. rewrite B by (intros I; apply D; now right). rewrite S1. destruct (String.eqb_spec g' g) as [->|]; [|reflexivity].
      destruct (String.eqb_spec m' m) as [->|]; [|reflexivity]. exfalso. apply D; [now left|reflexivity].
Qed.
(** A second mathematical noise is refused and nothing that was held changes. *)
Lemma math_twice s n m g r old : slot s g m = Some old -> exists s', add_error s (Math n) (g :: r) m = (s', Some ValueError) /\ heap s' = heap s /\ forall g' m', slot s' g' m' = slot s g' m'.
Proof.
  intros E. cbn [add_error]. destruct (add_gate_full s (Math n) m g old E) as (s' & x & -> & S & H & ->). exists s'. auto.
Qed.
