(** References, the number of stored cells, and numbers at the border of a bucket. *)
From Coq Require Import List Arith ZArith Reals Lia Lra Bool Sorted.
From Verif Require Import Misim.TableModel Misim.TableSpec Misim.TableProofs.
Import ListNotations.
Local Open Scope nat_scope.

Section Count.
Variable tol : R.
Variable mask : nat.
Variable root : R.
Variable limit0 : nat.
Hypothesis settings : sound_settings tol mask.
Notation good := (good tol mask root).
Notation lookup := (lookup tol mask root).
Notation hash := (hash mask).
Notation insert := insert.

Lemma lookup_form t v p t' : lookup t v = (p, t') -> t' = t \/ exists x b a, insert t (hash x) v b = (a, t') /\ p = Cell a.
Proof.
  unfold TableModel.lookup, find_or_insert. intros H.
  repeat match type of H with
  | (if ?b then _ else _) = _ => destruct b
  | (match ?b with Some _ => _ | None => _ end) = _ => destruct b
  | context [let (_, _) := (if ?b then _ else _) in _] => destruct b
  | context [let (_, _) := match ?b with Some _ => _ | None => _ end in _] => destruct b
  | context [let (_, _) := insert ?a ?b ?c ?d in _] => let E := fresh in destruct (insert a b c d) eqn:E; injection H as <- <-; right; eauto
  | _ => injection H as <- <-; left; reflexivity
  end.
Qed.
Lemma get_entry_same t a t1 : get_entry t = (a, t1) -> count t1 = count t /\ (forall b, b <> a -> refs t1 b = refs t b).
Proof.
  unfold get_entry. destruct (available t); intros [= <- <-]; cbn; (split; [reflexivity|]); intros b N; unfold upd; rewrite (proj2 (Nat.eqb_neq _ _) N); reflexivity.
Qed.
Lemma insert_form t k v b a t' : good t -> insert t k v b = (a, t') ->
  ~ stored t a /\ count t' = S (count t) /\ (forall c, c <> a -> refs t' c = refs t c) /\ exists f, bucket t' = upd (bucket t) k (put f b a (bucket t k)).
Proof.
  intros H. unfold TableModel.insert. destruct (get_entry t) as [x t1] eqn:E. intros [= <- <-]. destruct (get_entry_good tol mask root t x t1 H E) as (N & _ & _ & B & _).
  destruct (get_entry_same t x t1 E) as [C R]. cbn. rewrite B. split; [exact N|]. split; [congruence|]. split; [exact R|]. eauto.
Qed.

(** references *)
Lemma lookup_refs t v p t' a : good t -> (0 <= v)%R -> lookup t v = (p, t') -> stored t a -> refs t' a = refs t a.
Proof.
  intros H V E S. destruct (lookup_form t v p t' E) as [->|(x & b & c & I & _)]; [reflexivity|].
  destruct (insert_form t _ v b c t' H I) as (N & _ & R & _). apply R. intros ->. contradiction.
Qed.
Lemma references a : forall os t t', good t -> stored t a -> (forall v, In (Lookup v) os -> (0 <= v)%R) -> run tol mask root limit0 t os = Some t' ->
  (forall os1 os2, os = os1 ++ os2 -> released a os1 < refs t a + taken a os1) -> stored t' a /\ vals t' a = vals t a /\ refs t' a + released a os = refs t a + taken a os.
Proof.
  induction os as [|o r IH]; intros t t' H S V R P.
  - cbn in R. injection R as <-. cbn. auto.
  - cbn [run] in R. destruct (step tol mask root limit0 t o) as [t1|] eqn:E; [|discriminate].
    assert (P0 : 0 < refs t a) by (specialize (P [] (o :: r) eq_refl); cbn in P; lia).
    assert (K : good t1 /\ stored t1 a /\ vals t1 a = vals t a /\ refs t1 a + released a [o] = refs t a + taken a [o]).
    { destruct o as [v|p|p|f]; cbn [step] in E.
      - injection E as <-. assert (Nv : (0 <= v)%R) by (apply V; left; reflexivity). destruct (lookup t v) as [p t1] eqn:El. cbn [snd].
        destruct (lookup_outcome tol mask root settings t v p t1 H Nv El) as (G1 & _ & _ & K & _). destruct (K a S) as [S1 V1].
        split; [exact G1|]. split; [exact S1|]. split; [exact V1|]. cbn. rewrite (lookup_refs t v p t1 a H Nv El S). reflexivity.
      - injection E as <-. split; [apply inc_good; exact H|]. destruct p as [| | |b]; cbn; auto. unfold taken, released. cbn [filter]. split; [exact S|]. split; [reflexivity|].
        unfold upd. destruct (Nat.eqb_spec a b) as [->|]; cbn; lia.
      - split; [apply (dec_good tol mask root t p t1 H E)|]. destruct p as [| | |b]; cbn in E; try (injection E as <-; auto; fail).
        destruct (refs t b) eqn:Rb; [discriminate|]. injection E as <-. split; [exact S|]. split; [reflexivity|]. unfold taken, released. cbn. unfold upd. destruct (Nat.eqb_spec a b) as [->|]; cbn; lia.
      - injection E as <-. destruct (collect_good tol mask root limit0 settings f t H) as (G1 & K & _ & Ev). split; [exact G1|]. split; [apply K; assumption|]. split; [rewrite Ev; reflexivity|].
        unfold collect. destruct (_ || _); reflexivity. }
    destruct K as (G1 & S1 & V1 & R1). assert (C1 : forall l, released a (o :: l) = released a [o] + released a l) by (intros l; unfold released; cbn [filter]; destruct o as [| |[]|]; cbn; try reflexivity; destruct (Nat.eqb a a0); reflexivity).
    assert (C2 : forall l, taken a (o :: l) = taken a [o] + taken a l) by (intros l; unfold taken; cbn [filter]; destruct o as [|[]| |]; cbn; try reflexivity; destruct (Nat.eqb a a0); reflexivity).
    destruct (IH t1 t' G1 S1) as (S2 & V2 & R2); [intros v Hv; apply V; right; exact Hv|exact R| |].
    + intros os1 os2 ->. specialize (P (o :: os1) os2 eq_refl). rewrite C1, C2 in P. lia.
    + split; [exact S2|]. split; [congruence|]. rewrite C1, C2. lia.
Qed.

(** the count *)
Definition total (b : nat -> list nat) : nat := list_sum (map (fun k => length (b k)) (seq 0 (S mask))).
Definition counted (t : table) : Prop := count t = total (bucket t).
Lemma put_length f b a l : length (put f b a l) = S (length l).
Proof. induction l as [|c r IH]; [reflexivity|]. cbn. destruct Rle_dec; cbn; [rewrite IH|]; reflexivity. Qed.
Lemma sum_upd (b : nat -> list nat) k l : forall ks, NoDup ks -> In k ks -> length l = S (length (b k)) ->
  list_sum (map (fun i => length (upd b k l i)) ks) = S (list_sum (map (fun i => length (b i)) ks)).
Proof.
  assert (N : forall ks, ~ In k ks -> list_sum (map (fun i => length (upd b k l i)) ks) = list_sum (map (fun i => length (b i)) ks)).
  { intros ks Nk. f_equal. apply map_ext_in. intros i Hi. unfold upd. destruct (Nat.eqb_spec i k) as [->|]; [contradiction|reflexivity]. }
  induction ks as [|i r IH]; intros D Hk L; [destruct Hk|]; inversion D as [|? ? D1 D2]; subst; destruct Hk as [->|Hk]; cbn [map list_sum fold_right].
  - change (fold_right Nat.add 0) with list_sum. rewrite N by exact D1. unfold upd. rewrite Nat.eqb_refl, L. reflexivity.
  - change (fold_right Nat.add 0) with list_sum. rewrite IH by assumption. unfold upd at 1. destruct (Nat.eqb_spec i k) as [->|]; [contradiction|]. lia.
Qed.
Lemma insert_counted t x v b a t' : good t -> counted t -> insert t (hash x) v b = (a, t') -> counted t'.
Proof.
  intros H C I. destruct (insert_form t _ v b a t' H I) as (_ & E & _ & f & B). unfold counted, total. rewrite E, C, B. symmetry. apply sum_upd; [apply seq_NoDup| |apply put_length].
  apply in_seq. pose proof (hash_bound mask x). lia.
Qed.
Lemma lookup_counted t v : good t -> counted t -> counted (snd (lookup t v)).
Proof.
  intros H C. destruct (lookup t v) as [p t'] eqn:E. cbn. destruct (lookup_form t v p t' E) as [->|(x & b & a & I & _)]; [exact C|]. apply (insert_counted t x v b a t' H C I).
Qed.
Lemma run_counted os : forall t t', good t -> counted t -> (forall v, In (Lookup v) os -> (0 <= v)%R) -> run tol mask root limit0 t os = Some t' -> counted t'.
Proof.
  induction os as [|o r IH]; intros t t' H C V R; cbn [run] in R; [injection R as <-; exact C|].
  destruct (step tol mask root limit0 t o) as [t1|] eqn:E; [|discriminate].
  assert (G1 : good t1). { apply (run_good tol mask root limit0 settings [o] t t1 H); [intros v [->|[]]; apply V; left; reflexivity|]. cbn [run]. rewrite E. reflexivity. }
  apply (IH t1 t' G1); [|intros v Hv; apply V; right; exact Hv|exact R]. destruct o as [v|p|p|f]; cbn [step] in E.
  - injection E as <-. apply lookup_counted; assumption.
  - injection E as <-. destruct p; exact C.
  - destruct p as [| | |b]; cbn in E; try (injection E as <-; exact C). destruct (refs t b); [discriminate|]. injection E as <-. exact C.
  - injection E as <-. unfold TableModel.collect. destruct (_ || _); [exact C|]. unfold counted, total. cbn [count bucket]. f_equal. apply map_ext_in. intros k Hk. apply in_seq in Hk.
    destruct (Nat.leb_spec k mask); [reflexivity|lia].
Qed.
Lemma reachable_counted t : reachable tol mask root limit0 t -> counted t.
Proof.
  intros (os & V & R). apply (run_counted os (init tol mask root limit0)); [apply init_good; exact settings| |exact V|exact R].
  unfold init. pose proof (lookup_counted (empty limit0) (1 / 2) (empty_good tol mask root limit0)) as C. destruct (lookup (empty limit0) (1 / 2)) as [p t0]. cbn [snd] in C.
  assert (C0 : counted t0). { apply C. unfold counted, total. cbn [count bucket empty]. generalize (seq 0 (S mask)). induction l; [reflexivity|]. cbn. exact IHl. }
  destruct p; exact C0.
Qed.
Lemma cells t : good t -> counted t -> exists l, NoDup l /\ (forall a, In a l <-> stored t a) /\ count t = length l.
Proof.
  intros H C. exists (flat_map (bucket t) (seq 0 (S mask))). split; [|split].
  - generalize (seq_NoDup (S mask) 0). generalize (seq 0 (S mask)). induction l as [|k r IH]; intros D; [constructor|]. inversion D as [|? ? D1 D2]; subst. cbn [flat_map].
    assert (A : NoDup (bucket t k)) by (apply (apart_nodup tol mask settings (vals t)); apply (g_sorted tol mask root t H)).
    specialize (IH D2). assert (X : forall a, In a (bucket t k) -> ~ In a (flat_map (bucket t) r)).
    { intros a Ha Hb. apply in_flat_map in Hb. destruct Hb as (k' & Hk' & Hb). pose proof (g_key tol mask root t H k a Ha). pose proof (g_key tol mask root t H k' a Hb). congruence. }
    revert A X. generalize (bucket t k). induction l as [|a s IHs]; intros A X; [exact IH|]. inversion A; subst. cbn [app]. constructor.
    + rewrite in_app_iff. intros [Q|Q]; [contradiction|]. apply (X a (or_introl eq_refl) Q).
    + apply IHs; [assumption|]. intros b Hb. apply X. right. exact Hb.
  - intros a. rewrite in_flat_map. split; [intros (k & _ & Hk); exists k; exact Hk|]. intros [k Hk]. exists k. split; [|exact Hk]. apply in_seq.
    pose proof (g_key tol mask root t H k a Hk). pose proof (hash_bound mask (vals t a)). lia.
  - rewrite C. unfold total. generalize (seq 0 (S mask)). induction l as [|k r IH]; [reflexivity|]. cbn [map list_sum fold_right flat_map]. rewrite app_length. f_equal. exact IH.
Qed.
Lemma collects t f : good t -> (f = false /\ count t < gc_limit t -> collect mask limit0 f t = t) /\
  (f = true \/ gc_limit t <= count t -> 1 < count t -> forall a, stored (collect mask limit0 f t) a <-> stored t a /\ 0 < refs t a).
Proof.
  intros H. split.
  - intros [-> L]. unfold collect. cbn [negb andb]. rewrite (proj2 (Nat.ltb_lt _ _) L). reflexivity.
  - intros F L a. unfold collect. replace (negb f && Nat.ltb (count t) (gc_limit t) || Nat.leb (count t) 1) with false.
    + unfold stored. cbn [bucket]. split.
      * intros [k Hk]. destruct (Nat.leb_spec k mask) as [Lk|Lk].
        -- apply filter_In in Hk. destruct Hk as [A B]. apply negb_true_iff, Nat.eqb_neq in B. split; [exists k; exact A|lia].
        -- rewrite (beyond tol mask root t k H Lk) in Hk. destruct Hk.
      * intros [[k Hk] R]. exists k. destruct (Nat.leb_spec k mask) as [Lk|Lk]; [|rewrite (beyond tol mask root t k H Lk) in Hk; destruct Hk].
        apply filter_In. split; [exact Hk|]. apply negb_true_iff, Nat.eqb_neq. lia.
    + symmetry. apply orb_false_iff. split; [|apply Nat.leb_gt; exact L]. destruct F as [-> | F]; [reflexivity|]. rewrite (proj2 (Nat.ltb_ge _ _) F). apply andb_false_r.
Qed.

(** numbers of the other bucket *)
Lemma across t v a t' : good t -> (0 <= v)%R -> lookup t v = (Cell a, t') ->
  forall c, stored t c -> hash (vals t c) <> hash (vals t' a) -> (Rabs (vals t' a - v) <= Rabs (vals t c - v))%R.
Proof.
  intros H Nv Lk c Sc D. pose proof (lookup_outcome tol mask root settings t v (Cell a) t' H Nv Lk) as O. destruct O as (_ & Q & Sa & _ & [-> | (Far & b & [= <-] & V & _)]).
  2:{ rewrite V. rewrite Rminus_diag_eq by reflexivity. rewrite Rabs_R0. apply Rabs_pos. }
  specialize (Sa a eq_refl). cbn [value] in Q. apply close_iff in Q. destruct (close tol (vals t c) v) eqn:Cc; [|apply close_not in Cc; lra].
  pose proof (tol_pos tol mask settings) as P. apply (within tol mask settings) in Cc. pose proof (hash_window tol mask settings v) as W.
  pose proof (hash_mono mask (v - tol) v ltac:(lra)) as M1. pose proof (hash_mono mask v (v + tol) ltac:(lra)) as M2.
  assert (Bc : hash (v - tol) <= hash (vals t c) <= hash (v + tol)) by (split; apply hash_mono; lra).
  assert (Qa : (v - tol <= vals t a <= v + tol)%R) by (unfold Rabs in Q; destruct Rcase_abs in Q; lra).
  assert (Ba : hash (v - tol) <= hash (vals t a) <= hash (v + tol)) by (split; apply hash_mono; lra).
  assert (Kc : In c (bucket t (hash (vals t c)))) by (destruct Sc as [k Hk]; rewrite (g_key tol mask root t H k c Hk); exact Hk).
  unfold TableModel.lookup in Lk. destruct (close tol v 0); [discriminate|]. destruct (close tol v 1); [discriminate|]. destruct (close tol v root); [discriminate|].
  destruct (Nat.eqb_spec (hash (v + tol)) (hash (v - tol))) as [E|Ne]; [lia|].
  set (key := hash v) in *. set (low := hash (v - tol)) in *. set (up := hash (v + tol)) in *.
  assert (Hl : forall k l, tail t k = Some l -> In l (bucket t k) /\ forall x, In x (bucket t k) -> (vals t x <= vals t l)%R).
  { intros k l El. rewrite (g_tail tol mask root t H) in El. split; [apply last_in; exact El|]. apply (last_max tol mask settings _ _ _ (g_sorted tol mask root t H k) El). }
  assert (Hl0 : forall k, tail t k = None -> bucket t k = []) by (intros k El; rewrite (g_tail tol mask root t H) in El; apply last_none; exact El).
  assert (Hu : forall k u, hd_error (bucket t k) = Some u -> In u (bucket t k) /\ forall x, In x (bucket t k) -> (vals t u <= vals t x)%R).
  { intros k u Eu. split; [destruct (bucket t k); [discriminate|injection Eu as ->; left; reflexivity]|]. apply (head_min tol mask settings _ _ _ (g_sorted tol mask root t H k) Eu). }
  assert (Hu0 : forall k, hd_error (bucket t k) = None -> bucket t k = []) by (intros k Eu; destruct (bucket t k); [reflexivity|discriminate]).
  assert (Hk : forall k x, In x (bucket t k) -> hash (vals t x) = k) by (apply (g_key tol mask root t H)).
  assert (Fresh : forall k b x s, insert t k v b = (x, s) -> (Cell x, s) = (Cell a, t) -> False).
  { intros k b x s I Eq. injection Eq as -> ->. destruct (insert_form t k v b a t H I) as (N & _). contradiction. }
  assert (Cl : forall x, close tol v x = true <-> (Rabs (x - v) <= tol)%R) by (intros x; rewrite close_iff; rewrite Rabs_minus_sym; reflexivity).
  assert (main : forall pl pu kl, (pl, pu) = (tail t kl, hd_error (bucket t (S kl))) -> kl = low ->
    match pl, pu with
    | Some l, Some u =>
        if close tol v (vals t l) && close tol v (vals t u) then
          if Rlt_dec (Rabs (vals t l - v)) (Rabs (vals t u - v)) then (Cell l, t) else (Cell u, t)
        else if close tol v (vals t l) then (Cell l, t)
        else if close tol v (vals t u) then (Cell u, t)
        else let (x, s) := insert t key v v in (Cell x, s)
    | Some l, None => if close tol v (vals t l) then (Cell l, t) else let (x, s) := insert t key v v in (Cell x, s)
    | None, Some u => if close tol v (vals t u) then (Cell u, t) else let (x, s) := insert t key v v in (Cell x, s)
    | None, None => let (x, s) := insert t key v v in (Cell x, s)
    end = (Cell a, t) -> (Rabs (vals t a - v) <= Rabs (vals t c - v))%R).
  { intros pl pu kl Ep -> . injection Ep as -> ->. 
    assert (Cc' : (Rabs (vals t c - v) <= tol)%R) by (unfold Rabs; destruct Rcase_abs; lra).
    assert (HL : forall l, tail t low = Some l -> a = l -> (forall u, hd_error (bucket t (S low)) = Some u -> (Rabs (vals t u - v) <= tol)%R -> (Rabs (vals t l - v) < Rabs (vals t u - v))%R) -> (Rabs (vals t a - v) <= Rabs (vals t c - v))%R).
    { intros l El -> Hx. destruct (Hl low l El) as [Il Ml]. rewrite (Hk low l Il) in D. assert (Kc' : hash (vals t c) = S low) by lia. rewrite Kc' in Kc.
      destruct (hd_error (bucket t (S low))) as [u|] eqn:Eu; [|apply Hu0 in Eu; rewrite Eu in Kc; destruct Kc]. destruct (Hu (S low) u Eu) as [Iu Mu]. specialize (Mu c Kc). pose proof (Hk _ _ Iu) as Ku.
      assert (Lu : (v - tol < vals t u)%R) by (apply (hash_lt mask); fold low; lia). assert (Llu : (vals t l < vals t u)%R) by (apply (hash_lt mask); rewrite (Hk low l Il), Ku; lia).
      assert (Qu : (Rabs (vals t u - v) <= tol)%R) by (unfold Rabs; destruct Rcase_abs; lra). specialize (Hx u eq_refl Qu).
      destruct (Rlt_le_dec (vals t u) v) as [A|A]; [exfalso; revert Hx; unfold Rabs; destruct Rcase_abs, Rcase_abs; lra|].
      apply Rlt_le, (Rlt_le_trans _ _ _ Hx). rewrite !Rabs_pos_eq by lra. lra. }
    assert (HU : forall u, hd_error (bucket t (S low)) = Some u -> a = u -> (forall l, tail t low = Some l -> (Rabs (vals t l - v) <= tol)%R -> (Rabs (vals t u - v) <= Rabs (vals t l - v))%R) -> (Rabs (vals t a - v) <= Rabs (vals t c - v))%R).
    { intros u Eu -> Hx. destruct (Hu (S low) u Eu) as [Iu Mu]. rewrite (Hk (S low) u Iu) in D. assert (Kc' : hash (vals t c) = low) by lia. rewrite Kc' in Kc.
      destruct (tail t low) as [l|] eqn:El; [|apply Hl0 in El; rewrite El in Kc; destruct Kc]. destruct (Hl low l El) as [Il Ml]. specialize (Ml c Kc). pose proof (Hk _ _ Il) as Kl.
      assert (Ll : (vals t l < v + tol)%R) by (apply (hash_lt mask); fold up; lia). assert (Llu : (vals t l < vals t u)%R) by (apply (hash_lt mask); rewrite (Hk (S low) u Iu), Kl; lia).
      assert (Ql : (Rabs (vals t l - v) <= tol)%R) by (unfold Rabs; destruct Rcase_abs; lra). specialize (Hx l eq_refl Ql).
      destruct (Rle_lt_dec (vals t l) v) as [A|A]; [|exfalso; revert Hx; unfold Rabs; destruct Rcase_abs, Rcase_abs; lra].
      apply (Rle_trans _ _ _ Hx). rewrite !Rabs_left1 by lra. lra. }
    destruct (tail t low) as [l|] eqn:El; destruct (hd_error (bucket t (S low))) as [u|] eqn:Eu.
    - destruct (close tol v (vals t l)) eqn:Ql; destruct (close tol v (vals t u)) eqn:Qu; cbn [andb].
      + destruct Rlt_dec as [L|L]; intros [= Ea]; [apply (HL l eq_refl); [auto|]; intros ? [= <-] _; exact L|apply (HU u eq_refl); [auto|]; intros ? [= <-] _; lra].
      + intros [= Ea]. apply (HL l eq_refl); [auto|]. intros ? [= <-] X. apply Cl in X. congruence.
      + intros [= Ea]. apply (HU u eq_refl); [auto|]. intros ? [= <-] X. apply Cl in X. congruence.
      + destruct insert as [x s] eqn:I. intros X. destruct (Fresh _ _ _ _ I X).
    - destruct (close tol v (vals t l)) eqn:Ql; [intros [= Ea]; apply (HL l eq_refl); [auto|discriminate]|]. destruct insert as [x s] eqn:I. intros X. destruct (Fresh _ _ _ _ I X).
    - destruct (close tol v (vals t u)) eqn:Qu; [intros [= Ea]; apply (HU u eq_refl); [auto|discriminate]|]. destruct insert as [x s] eqn:I. intros X. destruct (Fresh _ _ _ _ I X).
    - destruct insert as [x s] eqn:I. intros X. destruct (Fresh _ _ _ _ I X). }
  destruct (Nat.eqb_spec low key) as [LK|LK]; cbn [negb] in Lk.
  - rewrite <- LK in Lk. replace up with (S low) in Lk by lia. rewrite <- LK in main. apply (main _ _ low eq_refl eq_refl). destruct (tail t low), (hd_error (bucket t (S low))); exact Lk.
  - assert (KS : key = S low) by lia. rewrite KS in Lk, main. apply (main _ _ low eq_refl eq_refl). destruct (tail t low), (hd_error (bucket t (S low))); exact Lk.
Qed.
End Count.
