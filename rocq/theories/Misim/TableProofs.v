From Coq Require Import List Arith ZArith Reals Bool Lia Lra Sorted.
From Verif Require Import Base.Cplx Misim.TableModel Misim.TableSpec.
Import ListNotations.
Local Open Scope nat_scope.

Section Proofs.
Variable tol : R.
Variable mask : nat.
Variable root : R.
Variable limit0 : nat.
Hypothesis settings : sound_settings tol mask.
Notation close := (close tol).
Notation hash := (hash mask).
Notation hit := (hit tol).
Notation lookup := (lookup tol mask root).
Notation find_or_insert := (find_or_insert tol).
Notation collect := (collect mask limit0).

Lemma tol_pos : (0 < tol)%R. Proof. apply settings. Qed.
Lemma narrow : (2 * tol * INR mask < 1)%R. Proof. apply settings. Qed.

Lemma close_iff x y : close x y = true <-> (Rabs (x - y) <= tol)%R.
Proof. unfold TableModel.close. destruct Rle_dec; split; intros; try easy. Qed.
Lemma close_not x y : close x y = false <-> (tol < Rabs (x - y))%R.
Proof. unfold TableModel.close. destruct Rle_dec; split; intros; try easy; lra. Qed.
Lemma close_sym x y : close x y = close y x.
Proof. unfold TableModel.close. rewrite Rabs_minus_sym. reflexivity. Qed.
Lemma within x y : close x y = true <-> (y - tol <= x <= y + tol)%R.
Proof.
  rewrite close_iff. pose proof tol_pos as P. split; intros H.
  - unfold Rabs in H. destruct Rcase_abs in H; lra.
  - unfold Rabs. destruct Rcase_abs; lra.
Qed.

(** rounding *)
Lemma nearbyint_half x : (Rabs (IZR (nearbyint x) - x) <= 1 / 2)%R.
Proof.
  unfold nearbyint. pose proof (base_Int_part x) as [A B].
  destruct Rlt_dec; [unfold Rabs; destruct Rcase_abs; lra|].
  destruct Rlt_dec; [rewrite plus_IZR; unfold Rabs; destruct Rcase_abs; lra|].
  destruct Z.even; [unfold Rabs; destruct Rcase_abs; lra|rewrite plus_IZR; unfold Rabs; destruct Rcase_abs; lra].
Qed.
Lemma half_bounds x : (IZR (nearbyint x) - 1 / 2 <= x <= IZR (nearbyint x) + 1 / 2)%R.
Proof. pose proof (nearbyint_half x) as H. unfold Rabs in H. destruct Rcase_abs in H; lra. Qed.
Lemma nearbyint_mono x y : (x <= y)%R -> (nearbyint x <= nearbyint y)%Z.
Proof.
  intros H. destruct (Z.le_gt_cases (nearbyint x) (nearbyint y)) as [|G]; [assumption|exfalso].
  pose proof (half_bounds x) as [A _]. pose proof (half_bounds y) as [_ B].
  apply Zlt_le_succ in G. apply IZR_le in G. rewrite succ_IZR in G.
  assert (E : x = y) by lra. subst y. assert (IZR (nearbyint x) + 1 <= IZR (nearbyint x))%R by lra. lra.
Qed.
Lemma nearbyint_nonneg x : (0 <= x)%R -> (0 <= nearbyint x)%Z.
Proof.
  intros H. pose proof (half_bounds x) as [_ B]. destruct (Z.le_gt_cases 0 (nearbyint x)) as [|G]; [assumption|].
  assert (nearbyint x <= -1)%Z as L by lia. apply IZR_le in L. lra.
Qed.
Lemma hash_mono x y : (x <= y)%R -> hash x <= hash y.
Proof.
  intros H. unfold TableModel.hash.
  assert (nearbyint (x * INR mask) <= nearbyint (y * INR mask))%Z.
  { apply nearbyint_mono. apply Rmult_le_compat_r; [apply pos_INR|assumption]. }
  lia.
Qed.
Lemma hash_lt x y : hash x < hash y -> (x < y)%R.
Proof. intros H. destruct (Rlt_le_dec x y) as [|G]; [assumption|]. apply hash_mono in G. lia. Qed.
Lemma hash_bound x : hash x <= mask.
Proof. unfold TableModel.hash. lia. Qed.
(** a window touches at most two buckets *)
Lemma hash_window v : hash (v + tol) <= S (hash (v - tol)).
Proof.
  unfold TableModel.hash. assert (nearbyint ((v + tol) * INR mask) <= nearbyint ((v - tol) * INR mask) + 1)%Z; [|lia].
  pose proof (half_bounds ((v + tol) * INR mask)) as [A _]. pose proof (half_bounds ((v - tol) * INR mask)) as [_ B].
  pose proof narrow as N. assert (IZR (nearbyint ((v + tol) * INR mask)) < IZR (nearbyint ((v - tol) * INR mask)) + 2)%R as L by lra.
  rewrite <- plus_IZR in L. apply lt_IZR in L. lia.
Qed.

(** the invariant *)
Definition apart (vs : nat -> R) := StronglySorted (fun a b => vs a + tol < vs b)%R.
Record good (t : table) : Prop := G {
  g_sorted : forall k, apart (vals t) (bucket t k);
  g_key : forall k a, In a (bucket t k) -> hash (vals t a) = k;
  g_tail : forall k, tail t k = last_of (bucket t k);
  g_far : forall a b, stored t a -> stored t b -> a <> b -> (tol < Rabs (vals t a - vals t b))%R;
  g_range : forall a, stored t a -> (tol < vals t a)%R /\ close (vals t a) 1 = false /\ close (vals t a) root = false;
  g_old : forall a, stored t a -> a < fresh t;
  g_free : forall a, In a (available t) -> a < fresh t /\ ~ stored t a;
  g_once : NoDup (available t) }.

Lemma apart_ext vs ws l : (forall a, In a l -> vs a = ws a) -> apart vs l -> apart ws l.
Proof.
  induction l as [|c r IH]; intros E H; [constructor|]. inversion H as [|? ? S F]; subst. constructor.
  - apply IH; [intros; apply E; cbn; auto|exact S].
  - rewrite Forall_forall in F |- *. intros x Hx. rewrite <- !E by (cbn; auto). apply F, Hx.
Qed.
Lemma apart_filter vs f l : apart vs l -> apart vs (filter f l).
Proof.
  induction 1 as [|c r S IH F]; [constructor|]. cbn. destruct (f c); [|exact IH]. constructor; [exact IH|].
  rewrite Forall_forall in F |- *. intros x Hx. apply filter_In in Hx. apply F, Hx.
Qed.
Lemma apart_nodup vs l : apart vs l -> NoDup l.
Proof.
  induction 1 as [|c r S IH F]; constructor; [|exact IH]. intros H. rewrite Forall_forall in F. specialize (F c H).
  cbv beta in F. pose proof tol_pos. lra.
Qed.

(** the loop of findOrInsert *)
Lemma hit_some vs v l c : apart vs l -> hit vs v l = Some c -> In c l /\ close (vs c) v = true.
Proof.
  induction 1 as [|x r S IH F]; cbn [TableModel.hit]; [discriminate|].
  destruct Rle_dec as [L|]; [|discriminate]. destruct (close (vs x) v) eqn:Cx.
  - destruct r as [|n r']; [intros [= <-]; cbn; auto|].
    destruct Rle_dec as [L'|]; [|intros [= <-]; cbn; auto].
    destruct Rlt_dec as [D|]; [|intros [= <-]; cbn; auto].
    intros [= <-]. split; [cbn; auto|]. apply close_iff. apply close_iff in Cx. lra.
  - intros H. destruct (IH H). cbn; auto.
Qed.
Lemma hit_none vs v l : apart vs l -> hit vs v l = None -> forall c, In c l -> close (vs c) v = false.
Proof.
  induction 1 as [|x r S IH F]; cbn [TableModel.hit]; [easy|].
  pose proof tol_pos as P. destruct Rle_dec as [L|L].
  - destruct (close (vs x) v) eqn:Cx.
    + destruct r as [|n r']; [discriminate|]. destruct Rle_dec; [|discriminate]. destruct Rlt_dec; discriminate.
    + intros H c [<- | Hc]; [exact Cx|apply IH; assumption].
  - intros _ c [<- | Hc].
    + destruct (close (vs x) v) eqn:Cx; [|reflexivity]. apply within in Cx. lra.
    + destruct (close (vs c) v) eqn:Cx; [|reflexivity]. apply within in Cx. rewrite Forall_forall in F. specialize (F c Hc). cbv beta in F. lra.
Qed.

Lemma put_in vs b a l x : In x (put vs b a l) <-> x = a \/ In x l.
Proof.
  induction l as [|c r IH]; cbn; [intuition congruence|]. destruct Rle_dec; cbn; rewrite ?IH; intuition congruence.
Qed.
Lemma put_sorted vs b a v l : apart vs l -> ~ In a l -> (forall c, In c l -> close (vs c) v = false) -> (v <= b <= v + tol)%R ->
  apart (upd vs a v) (put vs b a l).
Proof.
  intros S. induction S as [|c r S IH F]; intros Na Far B; cbn.
  - constructor; constructor.
  - assert (Ea : upd vs a v a = v) by (unfold upd; rewrite Nat.eqb_refl; reflexivity).
    assert (Eo : forall x, In x (c :: r) -> upd vs a v x = vs x).
    { intros x Hx. unfold upd. destruct (Nat.eqb_spec x a); [subst; contradiction|reflexivity]. }
    assert (Sr : apart (upd vs a v) (c :: r)).
    { apply (apart_ext vs); [intros; symmetry; auto|]. constructor; assumption. }
    pose proof tol_pos as P. pose proof (Far c (or_introl eq_refl)) as Fc.
    destruct Rle_dec as [L|L].
    + inversion Sr as [|? ? Sr' Fr]; subst. constructor.
      * apply IH; [cbn in Na; tauto|intros; apply Far; cbn; auto|exact B].
      * apply Forall_forall. intros x Hx. apply put_in in Hx. destruct Hx as [-> | Hx].
        -- rewrite Ea, (Eo c) by (cbn; auto). apply close_not in Fc. unfold Rabs in Fc. destruct Rcase_abs in Fc; lra.
        -- rewrite Forall_forall in Fr. apply Fr, Hx.
    + constructor; [exact Sr|]. apply Forall_forall. intros x Hx. rewrite Ea, (Eo x Hx).
      assert (v + tol < vs c)%R. { apply close_not in Fc. unfold Rabs in Fc. destruct Rcase_abs in Fc; lra. }
      destruct Hx as [<- | Hx]; [assumption|]. rewrite Forall_forall in F. specialize (F x Hx). cbv beta in F. lra.
Qed.
Lemma last_cons a l : last_of (a :: l) = match last_of l with Some b => Some b | None => Some a end.
Proof.
  revert a. induction l as [|b r IH]; intros a; [reflexivity|]. change (last_of (a :: b :: r)) with (last_of (b :: r)).
  rewrite IH. destruct (last_of r); reflexivity.
Qed.
Lemma last_none l : last_of l = None -> l = [].
Proof. destruct l as [|a r]; [reflexivity|]. rewrite last_cons. destruct (last_of r); discriminate. Qed.
Lemma put_last vs b a l : last_of (put vs b a l) = if at_end vs b l then Some a else last_of l.
Proof.
  induction l as [|c r IH]; [reflexivity|]. cbn [put at_end]. destruct Rle_dec.
  - rewrite last_cons, IH. destruct (at_end vs b r) eqn:E; [reflexivity|]. rewrite last_cons. reflexivity.
  - reflexivity.
Qed.
Lemma last_in l a : last_of l = Some a -> In a l.
Proof.
  induction l as [|c r IH]; [discriminate|]. rewrite last_cons. destruct (last_of r) eqn:E.
  - intros [= <-]. right. apply IH. reflexivity.
  - intros [= <-]. left. reflexivity.
Qed.
Lemma last_max vs l a : apart vs l -> last_of l = Some a -> forall x, In x l -> (vs x <= vs a)%R.
Proof.
  induction 1 as [|c r S IH F]; [discriminate|]. rewrite last_cons. intros H x [<- | Hx].
  - destruct (last_of r) eqn:E; injection H as <-; [|lra]. rewrite Forall_forall in F. specialize (F _ (last_in _ _ E)). cbv beta in F. pose proof tol_pos. lra.
  - destruct (last_of r) eqn:E; [injection H as <-; apply IH; auto|]. apply last_none in E. subst r. destruct Hx.
Qed.
Lemma head_min vs l a : apart vs l -> hd_error l = Some a -> forall x, In x l -> (vs a <= vs x)%R.
Proof.
  destruct l as [|c r]; [discriminate|]. intros S [= <-] x [<- | Hx]; [lra|]. inversion S as [|? ? _ F]; subst. rewrite Forall_forall in F. specialize (F x Hx). cbv beta in F. pose proof tol_pos. lra.
Qed.

(** a new cell *)
Lemma get_entry_good t a t1 : good t -> get_entry t = (a, t1) ->
  ~ stored t a /\ a < fresh t1 /\ fresh t <= fresh t1 /\ bucket t1 = bucket t /\ tail t1 = tail t /\ vals t1 = vals t /\
  (forall x, In x (available t1) -> x < fresh t1 /\ ~ stored t x /\ x <> a) /\ NoDup (available t1) /\ gc_limit t1 = gc_limit t.
Proof.
  intros H. unfold get_entry. destruct (available t) as [|x r] eqn:E; intros [= <- <-]; cbn.
  - repeat split; try lia; try easy; try constructor. intros S. apply (g_old t H) in S. lia.
  - pose proof (g_once t H) as N. rewrite E in N. inversion N as [|? ? Nx Nr]; subst.
    assert (Fr : forall y, In y (x :: r) -> y < fresh t /\ ~ stored t y). { intros y Hy. apply (g_free t H). rewrite E. exact Hy. }
    repeat split; try (apply Fr; cbn; auto; fail); try lia; try assumption; try (apply (Fr x); cbn; auto).
    intros ->. contradiction.
Qed.
Lemma stored_upd t t' key a b l : bucket t' = upd (bucket t) key (put (vals t) b a l) -> l = bucket t key -> forall x, stored t' x <-> x = a \/ stored t x.
Proof.
  intros B -> x. unfold stored. rewrite B. split.
  - intros [k Hk]. unfold upd in Hk. destruct (Nat.eqb_spec k key); [|right; eauto]. apply put_in in Hk. destruct Hk; [auto|right; subst; eauto].
  - intros [-> | [k Hk]].
    + exists key. unfold upd. rewrite Nat.eqb_refl. apply put_in. auto.
    + exists k. unfold upd. destruct (Nat.eqb_spec k key); [apply put_in; subst; auto|exact Hk].
Qed.
Lemma insert_good t v b a t' : good t -> (0 <= v)%R -> close v 0 = false -> close v 1 = false -> close v root = false ->
  (forall c, stored t c -> close (vals t c) v = false) -> (v <= b <= v + tol)%R -> insert t (hash v) v b = (a, t') ->
  good t' /\ stored t' a /\ vals t' a = v /\ (forall c, stored t c -> stored t' c /\ vals t' c = vals t c) /\ (forall c, stored t' c -> c = a \/ stored t c).
Proof.
  intros H Nv V0 V1 Vr Far B. unfold insert. destruct (get_entry t) as [x t1] eqn:E.
  destruct (get_entry_good t x t1 H E) as (Nx & Fx & Ff & Eb & Et & Ev & Av & Nd & _). rewrite Eb, Ev, Et. intros [= <- <-].
  set (t' := T _ _ _ _ _ _ _ _).
  assert (Ex : vals t' x = v) by (cbn; unfold upd; rewrite Nat.eqb_refl; reflexivity).
  assert (Eo : forall c, stored t c -> vals t' c = vals t c).
  { intros c Hc. cbn. unfold upd. destruct (Nat.eqb_spec c x) as [-> |]; [contradiction|reflexivity]. }
  assert (St : forall c, stored t' c <-> c = x \/ stored t c).
  { apply (stored_upd t t' (hash v) x b (bucket t (hash v))); reflexivity. }
  assert (Gt : (tol < v)%R). { apply close_not in V0. unfold Rabs in V0. destruct Rcase_abs in V0; lra. }
  split; [|split; [apply St; auto|split; [exact Ex|split; [intros c Hc; split; [apply St; auto|apply Eo, Hc]|intros c Hc; apply St in Hc; exact Hc]]]].
  constructor.
  - intros k. cbn [vals bucket t']. unfold upd at 2. destruct (Nat.eqb_spec k (hash v)) as [->|].
    + apply put_sorted; [apply H| |intros c Hc; apply Far; exists (hash v); exact Hc|exact B]. intros S. apply Nx. exists (hash v). exact S.
    + apply (apart_ext (vals t)); [|apply H]. intros c Hc. unfold upd. destruct (Nat.eqb_spec c x) as [-> |]; [exfalso; apply Nx; exists k; exact Hc|reflexivity].
  - intros k c. cbn [bucket t']. unfold upd at 1. destruct (Nat.eqb_spec k (hash v)) as [->|].
    + rewrite put_in. intros [-> | Hc]; [rewrite Ex; reflexivity|]. rewrite Eo by (exists (hash v); exact Hc). apply (g_key t H), Hc.
    + intros Hc. rewrite Eo by (exists k; exact Hc). apply (g_key t H), Hc.
  - intros k. cbn [tail bucket t']. unfold upd at 2. destruct (Nat.eqb_spec k (hash v)) as [->|D].
    + rewrite put_last. destruct (at_end (vals t) b (bucket t (hash v))); [unfold upd; rewrite Nat.eqb_refl; reflexivity|apply (g_tail t H)].
    + destruct at_end; [unfold upd; destruct (Nat.eqb_spec k (hash v)); [contradiction|]|]; apply (g_tail t H).
  - intros c d Hc Hd D. apply St in Hc. apply St in Hd. destruct Hc as [-> | Hc], Hd as [-> | Hd]; [contradiction| | |].
    + rewrite Ex, Eo by exact Hd. rewrite Rabs_minus_sym. apply close_not, Far, Hd.
    + rewrite Ex, Eo by exact Hc. apply close_not, Far, Hc.
    + rewrite !Eo by assumption. apply (g_far t H); assumption.
  - intros c Hc. apply St in Hc. destruct Hc as [-> | Hc]; [rewrite Ex; auto|]. rewrite Eo by exact Hc. apply (g_range t H), Hc.
  - intros c Hc. apply St in Hc. cbn. destruct Hc as [-> | Hc]; [exact Fx|]. apply (g_old t H) in Hc. lia.
  - intros c Hc. cbn in Hc. destruct (Av c Hc) as (L & N & D). split; [exact L|]. rewrite St. intros [-> | S]; [apply D; reflexivity|contradiction].
  - exact Nd.
Qed.

(** what a lookup gives *)
Definition outcome (t : table) (v : R) (p : ptr) (t' : table) : Prop :=
  good t' /\ close (value root t' p) v = true /\ (forall a, p = Cell a -> stored t' a) /\
  (forall c, stored t c -> stored t' c /\ vals t' c = vals t c) /\
  (t' = t \/ ((forall c, stored t c -> close (vals t c) v = false) /\ exists a, p = Cell a /\ vals t' a = v /\ ~ stored t a /\ forall c, stored t' c -> c = a \/ stored t c)).
Lemma found t v a : good t -> stored t a -> close (vals t a) v = true -> outcome t v (Cell a) t.
Proof. intros H S Q. split; [exact H|]. split; [exact Q|]. split; [intros b [= <-]; exact S|]. split; [auto|]. left. reflexivity. Qed.
Lemma inserted t v b a t' : good t -> (0 <= v)%R -> close v 0 = false -> close v 1 = false -> close v root = false ->
  (forall c, stored t c -> close (vals t c) v = false) -> (v <= b <= v + tol)%R -> insert t (hash v) v b = (a, t') -> outcome t v (Cell a) t'.
Proof.
  intros H Nv V0 V1 Vr Far B E. destruct (insert_good t v b a t' H Nv V0 V1 Vr Far B E) as (Gt & S & V & K & O).
  assert (~ stored t a).
  { intros Sa. destruct (K a Sa) as [_ E']. specialize (Far a Sa). rewrite <- E', V in Far. apply close_not in Far. rewrite Rminus_diag_eq in Far by reflexivity. rewrite Rabs_R0 in Far. pose proof tol_pos. lra. }
  split; [exact Gt|]. split; [|split; [intros x [= <-]; exact S|split; [exact K|right; split; [exact Far|exists a; auto]]]].
  cbn. rewrite V. apply within. pose proof tol_pos. lra.
Qed.
Lemma close_refl v : close v v = true. Proof. apply within. pose proof tol_pos. lra. Qed.

Lemma lookup_outcome t v p t' : good t -> (0 <= v)%R -> lookup t v = (p, t') -> outcome t v p t'.
Proof.
  intros H Nv. unfold TableModel.lookup.
  assert (Same : forall q, close v (value root t q) = true -> (forall a, q <> Cell a) -> outcome t v q t).
  { intros q Q Nq. split; [exact H|]. rewrite close_sym. split; [exact Q|]. split; [intros a Ea; destruct (Nq a Ea)|]. split; [auto|]. left. reflexivity. }
  destruct (close v 0) eqn:V0; [intros [= <- <-]; apply Same; [exact V0|discriminate]|].
  destruct (close v 1) eqn:V1; [intros [= <- <-]; apply Same; [exact V1|discriminate]|].
  destruct (close v root) eqn:Vr; [intros [= <- <-]; apply Same; [exact Vr|discriminate]|].
  pose proof tol_pos as P. pose proof (hash_window v) as W.
  pose proof (hash_mono (v - tol) v ltac:(lra)) as M1. pose proof (hash_mono v (v + tol) ltac:(lra)) as M2.
  assert (Key : forall c, stored t c -> close (vals t c) v = true -> exists k, In c (bucket t k) /\ hash (v - tol) <= k <= hash (v + tol)).
  { intros c [k Hk] Q. exists k. split; [exact Hk|]. apply within in Q. rewrite <- (g_key t H k c Hk). split; apply hash_mono; lra. }
  destruct (Nat.eqb_spec (hash (v + tol)) (hash (v - tol))) as [E|D].
  - assert (Ek : hash v = hash (v - tol)) by lia. unfold TableModel.find_or_insert. rewrite <- Ek.
    destruct (hit (vals t) v (bucket t (hash v))) as [c|] eqn:Hi.
    + intros [= <- <-]. apply hit_some in Hi; [|apply H]. apply found; [exact H|exists (hash v); apply Hi|apply Hi].
    + destruct insert as [a t1] eqn:I. intros [= <- <-]. apply (inserted t v (v + tol) a t1); auto; try lra.
      intros c Sc. destruct (close (vals t c) v) eqn:Q; [|reflexivity]. destruct (Key c Sc Q) as (k & Hk & Bk). assert (k = hash v) as -> by lia.
      rewrite <- Q. apply (hit_none _ _ _ (g_sorted t H (hash v)) Hi c Hk).
  - assert (Eu : hash (v + tol) = S (hash (v - tol))) by lia.
    set (key := hash v) in *. set (low := hash (v - tol)) in *. set (up := hash (v + tol)) in *.
    destruct (negb (Nat.eqb low key)) eqn:LK.
    + apply negb_true_iff, Nat.eqb_neq in LK. assert (Ku : key = up) by lia.
      assert (Hl : forall l, tail t low = Some l -> stored t l /\ (vals t l < v)%R /\ forall c, In c (bucket t low) -> (vals t c <= vals t l)%R).
      { intros l El. rewrite (g_tail t H) in El. pose proof (last_in _ _ El) as Il. split; [exists low; exact Il|]. split.
        - apply hash_lt. rewrite (g_key t H low l Il). fold key. lia.
        - apply (last_max _ _ _ (g_sorted t H low) El). }
      assert (Hu : forall u, hd_error (bucket t key) = Some u -> stored t u /\ (v - tol < vals t u)%R /\ forall c, In c (bucket t key) -> (vals t u <= vals t c)%R).
      { intros u Eu'. assert (Iu : In u (bucket t key)) by (destruct (bucket t key); [discriminate|injection Eu' as ->; cbn; auto]). split; [exists key; exact Iu|]. split.
        - apply hash_lt. rewrite (g_key t H key u Iu). fold low. lia.
        - apply (head_min _ _ _ (g_sorted t H key) Eu'). }
      assert (Far : (forall l, tail t low = Some l -> close v (vals t l) = false) -> (forall u, hd_error (bucket t key) = Some u -> close v (vals t u) = false) -> forall c, stored t c -> close (vals t c) v = false).
      { intros Fl Fu c Sc. destruct (close (vals t c) v) eqn:Q; [|reflexivity]. exfalso. destruct (Key c Sc Q) as (k & Hk & Bk). apply within in Q.
        assert (k = low \/ k = key) as [-> | ->] by lia.
        - destruct (tail t low) as [l|] eqn:El.
          + destruct (Hl l eq_refl) as (_ & Lt & Mx). specialize (Mx c Hk). specialize (Fl l eq_refl). rewrite close_sym in Fl. assert (close (vals t l) v = true) by (apply within; lra). congruence.
          + rewrite (g_tail t H) in El. apply last_none in El. rewrite El in Hk. destruct Hk.
        - destruct (bucket t key) as [|u r] eqn:Eb; [destruct Hk|]. destruct (Hu u eq_refl) as (_ & Lt & Mn). specialize (Mn c Hk). specialize (Fu u eq_refl). rewrite close_sym in Fu. assert (close (vals t u) v = true) by (apply within; lra). congruence. }
      destruct (tail t low) as [l|] eqn:El; destruct (hd_error (bucket t key)) as [u|] eqn:Eu2.
      * destruct (close v (vals t l)) eqn:Ql; destruct (close v (vals t u)) eqn:Qu; cbn [andb].
        -- destruct Rlt_dec; intros [= <- <-]; apply found; auto; rewrite ?(close_sym _ v); auto; [apply Hl|apply Hu]; reflexivity.
        -- intros [= <- <-]. apply found; auto; [apply Hl; reflexivity|rewrite close_sym; exact Ql].
        -- intros [= <- <-]. apply found; auto; [apply Hu; reflexivity|rewrite close_sym; exact Qu].
        -- destruct insert as [a t1] eqn:I. intros [= <- <-]. apply (inserted t v v a t1); auto; try lra. apply Far; intros ? [= <-]; assumption.
      * destruct (close v (vals t l)) eqn:Ql.
        -- intros [= <- <-]. apply found; auto; [apply Hl; reflexivity|rewrite close_sym; exact Ql].
        -- destruct insert as [a t1] eqn:I. intros [= <- <-]. apply (inserted t v v a t1); auto; try lra. apply Far; [intros ? [= <-]; assumption|discriminate].
      * destruct (close v (vals t u)) eqn:Qu.
        -- intros [= <- <-]. apply found; auto; [apply Hu; reflexivity|rewrite close_sym; exact Qu].
        -- destruct insert as [a t1] eqn:I. intros [= <- <-]. apply (inserted t v v a t1); auto; try lra. apply Far; [discriminate|intros ? [= <-]; assumption].
      * destruct insert as [a t1] eqn:I. intros [= <- <-]. apply (inserted t v v a t1); auto; try lra. apply Far; discriminate.
    + apply negb_false_iff, Nat.eqb_eq in LK.
      assert (Hl : forall l, tail t key = Some l -> stored t l /\ (vals t l < v + tol)%R /\ forall c, In c (bucket t key) -> (vals t c <= vals t l)%R).
      { intros l El. rewrite (g_tail t H) in El. pose proof (last_in _ _ El) as Il. split; [exists key; exact Il|]. split.
        - apply hash_lt. rewrite (g_key t H key l Il). fold up. lia.
        - apply (last_max _ _ _ (g_sorted t H key) El). }
      assert (Hu : forall u, hd_error (bucket t up) = Some u -> stored t u /\ (v < vals t u)%R /\ forall c, In c (bucket t up) -> (vals t u <= vals t c)%R).
      { intros u Eu'. assert (Iu : In u (bucket t up)) by (destruct (bucket t up); [discriminate|injection Eu' as ->; cbn; auto]). split; [exists up; exact Iu|]. split.
        - apply hash_lt. rewrite (g_key t H up u Iu). fold key. lia.
        - apply (head_min _ _ _ (g_sorted t H up) Eu'). }
      assert (Far : (forall l, tail t key = Some l -> close v (vals t l) = false) -> (forall u, hd_error (bucket t up) = Some u -> close v (vals t u) = false) -> forall c, stored t c -> close (vals t c) v = false).
      { intros Fl Fu c Sc. destruct (close (vals t c) v) eqn:Q; [|reflexivity]. exfalso. destruct (Key c Sc Q) as (k & Hk & Bk). apply within in Q.
        assert (k = key \/ k = up) as [-> | ->] by lia.
        - destruct (tail t key) as [l|] eqn:El.
          + destruct (Hl l eq_refl) as (_ & Lt & Mx). specialize (Mx c Hk). specialize (Fl l eq_refl). rewrite close_sym in Fl. assert (close (vals t l) v = true) by (apply within; lra). congruence.
          + rewrite (g_tail t H) in El. apply last_none in El. rewrite El in Hk. destruct Hk.
        - destruct (bucket t up) as [|u r] eqn:Eb; [destruct Hk|]. destruct (Hu u eq_refl) as (_ & Lt & Mn). specialize (Mn c Hk). specialize (Fu u eq_refl). rewrite close_sym in Fu. assert (close (vals t u) v = true) by (apply within; lra). congruence. }
      destruct (tail t key) as [l|] eqn:El; destruct (hd_error (bucket t up)) as [u|] eqn:Eu2.
      * destruct (close v (vals t l)) eqn:Ql; destruct (close v (vals t u)) eqn:Qu; cbn [andb].
        -- destruct Rlt_dec; intros [= <- <-]; apply found; auto; rewrite ?(close_sym _ v); auto; [apply Hl|apply Hu]; reflexivity.
        -- intros [= <- <-]. apply found; auto; [apply Hl; reflexivity|rewrite close_sym; exact Ql].
        -- intros [= <- <-]. apply found; auto; [apply Hu; reflexivity|rewrite close_sym; exact Qu].
        -- destruct insert as [a t1] eqn:I. intros [= <- <-]. apply (inserted t v v a t1); auto; try lra. apply Far; intros ? [= <-]; assumption.
      * destruct (close v (vals t l)) eqn:Ql.
        -- intros [= <- <-]. apply found; auto; [apply Hl; reflexivity|rewrite close_sym; exact Ql].
        -- destruct insert as [a t1] eqn:I. intros [= <- <-]. apply (inserted t v v a t1); auto; try lra. apply Far; [intros ? [= <-]; assumption|discriminate].
      * destruct (close v (vals t u)) eqn:Qu.
        -- intros [= <- <-]. apply found; auto; [apply Hu; reflexivity|rewrite close_sym; exact Qu].
        -- destruct insert as [a t1] eqn:I. intros [= <- <-]. apply (inserted t v v a t1); auto; try lra. apply Far; [discriminate|intros ? [= <-]; assumption].
      * destruct insert as [a t1] eqn:I. intros [= <- <-]. apply (inserted t v v a t1); auto; try lra. apply Far; discriminate.
Qed.

(** references and collection *)
Lemma refs_good t r : good t -> good (with_refs t r).
Proof. intros [A B D E F H I J]. constructor; assumption. Qed.
Lemma inc_good t p : good t -> good (inc_ref t p).
Proof. destruct p; cbn; auto. apply refs_good. Qed.
Lemma dec_good t p t' : good t -> dec_ref t p = Some t' -> good t'.
Proof. destruct p as [| | |a]; cbn; try (intros H [= <-]; exact H). destruct (refs t a); [discriminate|]. intros H [= <-]. apply refs_good, H. Qed.
Lemma beyond t k : good t -> mask < k -> bucket t k = [].
Proof.
  intros H L. destruct (bucket t k) as [|a r] eqn:E; [reflexivity|]. pose proof (g_key t H k a) as K. rewrite E in K. specialize (K (or_introl eq_refl)).
  pose proof (hash_bound (vals t a)). lia.
Qed.
Lemma freed_in t ks av x : In x (fold_left (fun av k => rev (freed t (bucket t k)) ++ av) ks av) <-> In x av \/ exists k, In k ks /\ In x (bucket t k) /\ refs t x = 0.
Proof.
  revert av. induction ks as [|k r IH]; intros av; cbn.
  - split; [auto|]. intros [|[k [[] _]]]; assumption.
  - rewrite IH, in_app_iff, <- in_rev. unfold freed. rewrite filter_In, Nat.eqb_eq. split.
    + intros [[[A B] | A] | [j [A B]]]; [right; exists k; auto|auto|right; exists j; intuition].
    + intros [A | [j [[<- | A] B]]]; [auto|left; left; exact B|right; exists j; auto].
Qed.
Lemma freed_nodup t ks av : good t -> NoDup ks -> NoDup av -> (forall k x, In k ks -> In x (bucket t k) -> ~ In x av) ->
  NoDup (fold_left (fun av k => rev (freed t (bucket t k)) ++ av) ks av).
Proof.
  intros H. revert av. induction ks as [|k r IH]; intros av Nk Na D; cbn; [exact Na|]. inversion Nk as [|? ? Nk1 Nk2]; subst.
  assert (Nf : NoDup (rev (freed t (bucket t k)))).
  { apply NoDup_rev, NoDup_filter. apply (apart_nodup (vals t)), H. }
  apply IH; [exact Nk2| |].
  - revert Nf. assert (Df : forall x, In x (rev (freed t (bucket t k))) -> ~ In x av).
    { intros x Hx. apply in_rev in Hx. apply filter_In in Hx. apply (D k); [cbn; auto|apply Hx]. }
    revert Df. generalize (rev (freed t (bucket t k))) as l. induction l as [|y l IHl]; intros Df Nl; [exact Na|]. cbn. inversion Nl; subst. constructor.
    + rewrite in_app_iff. intros [A|A]; [contradiction|]. apply (Df y); cbn; auto.
    + apply IHl; [intros; apply Df; cbn; auto|assumption].
  - intros j x Hj Hx. rewrite in_app_iff, <- in_rev. intros [A|A].
    + apply filter_In in A. destruct A as [A _]. assert (j = k) as -> by (rewrite <- (g_key t H j x Hx); apply (g_key t H k x A)). contradiction.
    + revert A. apply (D j); cbn; auto.
Qed.
Lemma collect_good f t : good t -> good (collect f t) /\ (forall a, stored t a -> 0 < refs t a -> stored (collect f t) a) /\
  (forall a, stored (collect f t) a -> stored t a) /\ vals (collect f t) = vals t.
Proof.
  intros H. unfold TableModel.collect. destruct (_ || _); [auto|]. set (t' := T _ _ _ _ _ _ _ _).
  assert (Bk : forall k, bucket t' k = kept t (bucket t k)).
  { intros k. cbn. destruct (Nat.leb_spec k mask); [reflexivity|]. rewrite beyond by assumption. reflexivity. }
  assert (St : forall a, stored t' a <-> stored t a /\ refs t a <> 0).
  { intros a. unfold stored. split.
    - intros [k Hk]. rewrite Bk in Hk. apply filter_In in Hk. destruct Hk as [A B]. apply negb_true_iff, Nat.eqb_neq in B. split; [exists k; exact A|exact B].
    - intros [[k Hk] N]. exists k. rewrite Bk. apply filter_In. split; [exact Hk|]. apply negb_true_iff, Nat.eqb_neq, N. }
  split; [|split; [intros a Sa R; apply St; split; [exact Sa|lia]|split; [intros a Sa; apply St in Sa; apply Sa|reflexivity]]].
  constructor.
  - intros k. rewrite Bk. apply apart_filter, H.
  - intros k a. rewrite Bk. intros Hk. apply filter_In in Hk. apply (g_key t H), Hk.
  - intros k. rewrite Bk. cbn. destruct (Nat.leb_spec k mask).
    + destruct (bucket t k) as [|c r] eqn:E; [rewrite (g_tail t H), E; reflexivity|reflexivity].
    + rewrite (g_tail t H), beyond by assumption. reflexivity.
  - intros a b Sa Sb. apply St in Sa. apply St in Sb. apply (g_far t H); [apply Sa|apply Sb].
  - intros a Sa. apply St in Sa. apply (g_range t H), Sa.
  - intros a Sa. apply St in Sa. apply (g_old t H), Sa.
  - intros a Ha. cbn [available t'] in Ha. apply freed_in in Ha. destruct Ha as [Ha | (k & _ & Hk & R)].
    + apply (g_free t H) in Ha. split; [apply Ha|]. rewrite St. tauto.
    + split; [apply (g_old t H); exists k; exact Hk|]. rewrite St. tauto.
  - apply freed_nodup; [exact H|apply seq_NoDup|apply H|]. intros k x _ Hx Ha. apply (g_free t H) in Ha. apply Ha. exists k. exact Hx.
Qed.

Lemma empty_good : good (empty limit0).
Proof.
  assert (N : forall a, ~ stored (empty limit0) a) by (intros a [k []]).
  constructor; cbn; try (intros; exfalso; eapply N; eassumption); try easy; try constructor.
Qed.
Notation init := (init tol mask root limit0).
Lemma lookup_good t v : good t -> (0 <= v)%R -> outcome t v (fst (lookup t v)) (snd (lookup t v)).
Proof. intros H V. destruct (lookup t v) as [p t'] eqn:E. apply (lookup_outcome t v p t' H V E). Qed.
Lemma init_good : good init.
Proof.
  unfold TableModel.init. pose proof (lookup_good (empty limit0) (1 / 2) empty_good ltac:(lra)) as O.
  destruct (lookup (empty limit0) (1 / 2)) as [p t]. apply inc_good, O.
Qed.
(** the constructor's only number *)
Lemma init_stored a : stored init a -> vals init a = (1 / 2)%R.
Proof.
  unfold TableModel.init. pose proof (lookup_good (empty limit0) (1 / 2) empty_good ltac:(lra)) as O.
  destruct (lookup (empty limit0) (1 / 2)) as [p t]. cbn [fst snd] in O. destruct O as (_ & _ & _ & _ & [-> | (_ & b & -> & V & _ & N)]).
  - intros Sa. exfalso. assert (stored (empty limit0) a) as [k []]. destruct p; exact Sa.
  - cbn [inc_ref]. intros Sa. change (vals t a = (1 / 2)%R). assert (St : stored t a) by exact Sa. apply N in St. destruct St as [-> | [k []]]. exact V.
Qed.
Lemma run_good os : forall t t', good t -> (forall v, In (Lookup v) os -> (0 <= v)%R) -> run tol mask root limit0 t os = Some t' -> good t'.
Proof.
  induction os as [|o r IH]; intros t t' H V; cbn [run]; [intros [= <-]; exact H|].
  assert (Vr : forall v, In (Lookup v) r -> (0 <= v)%R) by (intros; apply V; cbn; auto).
  destruct o as [v|p|p|f]; cbn [step].
  - apply IH; [apply lookup_good; [exact H|apply V; cbn; auto]|exact Vr].
  - apply IH; [apply inc_good, H|exact Vr].
  - destruct (dec_ref t p) as [t1|] eqn:E; [|discriminate]. apply IH; [apply (dec_good t p); assumption|exact Vr].
  - apply IH; [apply collect_good, H|exact Vr].
Qed.
Lemma reachable_good t : reachable tol mask root limit0 t -> good t.
Proof. intros (os & V & R). apply (run_good os init); [apply init_good|exact V|exact R]. Qed.

(** the number itself is found again *)
Lemma again t a : good t -> stored t a -> lookup t (vals t a) = (Cell a, t).
Proof.
  intros H S. pose proof tol_pos as P. destruct (g_range t H a S) as (R0 & R1 & Rr).
  pose proof (lookup_good t (vals t a) H ltac:(lra)) as O. destruct (lookup t (vals t a)) as [p t']. cbn [fst snd] in O.
  destruct O as (_ & Q & C & _ & [-> | (Far & _)]).
  - destruct p as [| | |b]; cbn in Q.
    + apply within in Q. lra.
    + rewrite close_sym in Q. congruence.
    + rewrite close_sym in Q. congruence.
    + destruct (Nat.eq_dec b a) as [-> |D]; [reflexivity|]. pose proof (g_far t H b a (C b eq_refl) S D) as F. apply close_iff in Q. lra.
  - specialize (Far a S). rewrite close_refl in Far. discriminate.
Qed.

(** away from the borders of the buckets the nearest number is found *)
Lemma hit_nearest vs v l c : apart vs l -> hit vs v l = Some c -> forall x, In x l -> (Rabs (vs c - v) <= Rabs (vs x - v))%R.
Proof.
  induction 1 as [|y r S IH F]; cbn [TableModel.hit]; [discriminate|]. pose proof tol_pos as P.
  destruct Rle_dec as [L|]; [|discriminate]. destruct (close (vs y) v) eqn:Cy.
  - rewrite Forall_forall in F. apply within in Cy as Cy'. destruct r as [|n r'].
    + intros [= <-] x [<- | []]. lra.
    + assert (Fn := F n (or_introl eq_refl)). cbv beta in Fn. inversion S as [|? ? S' F']; subst. rewrite Forall_forall in F'.
      assert (Gn : (v < vs n)%R) by lra.
      assert (Far : forall x, In x (n :: r') -> (Rabs (vs n - v) <= Rabs (vs x - v))%R).
      { intros x [<- | Hx]; [lra|]. specialize (F' x Hx). cbv beta in F'. rewrite !Rabs_pos_eq by lra. lra. }
      destruct Rle_dec as [L'|L'].
      * destruct Rlt_dec as [D|D]; intros [= <-] x [<- | Hx]; try lra.
        -- apply Far, Hx.
        -- specialize (Far x Hx). lra.
      * intros [= <-] x [<- | Hx]; [lra|]. specialize (Far x Hx). apply close_iff in Cy. rewrite (Rabs_pos_eq (vs n - v)) in Far by lra. lra.
  - intros Hi x [<- | Hx]; [|apply IH; assumption]. destruct (hit_some vs v r c S Hi) as [_ Q]. apply close_iff in Q. apply close_not in Cy. lra.
Qed.
Lemma nearest t v a t' : good t -> (0 <= v)%R -> hash (v - tol) = hash (v + tol) -> lookup t v = (Cell a, t') ->
  forall c, stored t c -> (Rabs (value root t' (Cell a) - v) <= Rabs (vals t c - v))%R.
Proof.
  intros H Nv E Lk c Sc. pose proof (lookup_outcome t v (Cell a) t' H Nv Lk) as O. destruct O as (_ & Q & _ & _ & [-> | (Far & b & [= <-] & V & _)]).
  - apply close_iff in Q. destruct (close (vals t c) v) eqn:Cc; [|apply close_not in Cc; lra].
    unfold TableModel.lookup in Lk. destruct (close v 0); [discriminate|]. destruct (close v 1); [discriminate|]. destruct (close v root); [discriminate|].
    rewrite (proj2 (Nat.eqb_eq _ _) (eq_sym E)) in Lk. unfold TableModel.find_or_insert in Lk.
    assert (Ic : In c (bucket t (hash (v - tol)))).
    { destruct Sc as [k Hk]. assert (k = hash (v - tol)) as <-; [|exact Hk]. apply within in Cc. rewrite <- (g_key t H k c Hk). apply Nat.le_antisymm; [rewrite E|]; apply hash_mono; lra. }
    destruct (hit (vals t) v (bucket t (hash (v - tol)))) as [x|] eqn:Hi.
    + injection Lk as <-. apply (hit_nearest _ _ _ _ (g_sorted t H _) Hi c Ic).
    + rewrite (hit_none _ _ _ (g_sorted t H _) Hi c Ic) in Cc. discriminate.
  - cbn. rewrite V. rewrite Rminus_diag_eq by reflexivity. rewrite Rabs_R0. apply Rabs_pos.
Qed.

(** numbers stay *)
Lemma lookups_keep vs : forall t t' a, good t -> (forall v, In v vs -> (0 <= v)%R) -> run tol mask root limit0 t (map Lookup vs) = Some t' -> stored t a -> stored t' a /\ vals t' a = vals t a.
Proof.
  induction vs as [|v r IH]; intros t t' a H V; cbn [map run step]; [intros [= <-] S; auto|]. intros R S.
  destruct (lookup_good t v H) as (H1 & _ & _ & K & _); [apply V; cbn; auto|]. destruct (K a S) as [S1 E1].
  destruct (IH _ t' a H1 ltac:(intros; apply V; cbn; auto) R S1) as [S2 E2]. split; [exact S2|congruence].
Qed.

(** signed numbers *)
Lemma slookup_close t x : good t -> good (snd (slookup tol mask root t x)) /\ close (svalue root (snd (slookup tol mask root t x)) (fst (slookup tol mask root t x))) x = true /\
  (forall a, stored t a -> stored (snd (slookup tol mask root t x)) a /\ vals (snd (slookup tol mask root t x)) a = vals t a) /\
  (forall a, snd (fst (slookup tol mask root t x)) = Cell a -> stored (snd (slookup tol mask root t x)) a).
Proof.
  intros H. unfold slookup. destruct Rlt_dec as [N|N].
  - destruct Rlt_dec as [L|L].
    + cbn. split; [exact H|]. split; [|split; [auto|discriminate]]. apply close_iff. rewrite Rabs_minus_sym. unfold Rminus. rewrite Ropp_0, Rplus_0_r. lra.
    + destruct (lookup_good t (Rabs x) H (Rabs_pos x)) as (G1 & Q & C & K & _). destruct (lookup t (Rabs x)) as [p t']. cbn [fst snd] in *.
      split; [exact G1|]. split; [|split; [exact K|exact C]]. unfold svalue. cbn [fst snd]. apply within. apply within in Q. rewrite (Rabs_left x N) in Q. lra.
  - destruct (lookup_good t x H ltac:(lra)) as (G1 & Q & C & K & _). destruct (lookup t x) as [p t']. cbn [fst snd] in *. split; [exact G1|]. split; [exact Q|split; [exact K|exact C]].
Qed.
Lemma svalue_kept t t' p : (forall a, stored t a -> stored t' a /\ vals t' a = vals t a) -> (forall a, snd p = Cell a -> stored t a) -> svalue root t' p = svalue root t p.
Proof.
  intros K S. unfold svalue. assert (E : value root t' (snd p) = value root t (snd p)).
  { destruct (snd p) as [| | |a]; try reflexivity. cbn. apply K, S. reflexivity. }
  rewrite E. reflexivity.
Qed.
Lemma flip_value t p : svalue root t (flip p) = (- svalue root t p)%R.
Proof. destruct p as [[] []]; cbn; unfold svalue; cbn; lra. Qed.

End Proofs.
