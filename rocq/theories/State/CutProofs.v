(** The approximation (C35). *)
From Coq Require Import Reals List Arith Lia Lra Sorted Permutation.
From Verif.Base Require Import Py Cplx Matrix Radix.
From Verif.Local Require Import QrMath.
From Verif.Sim Require Import TnSpec TnProofs.
From Verif.State Require Import DdModel DdSpec DdProofs.
Import ListNotations.
Local Open Scope nat_scope.

Definition dead : dd := Term C0 false.

(** *** sums over the basis states *)
Lemma rsum_app n m f : rsum (n + m) f = (rsum n f + rsum m (fun k => f (n + k)%nat))%R.
Proof. induction m as [|m IH]; cbn; [rewrite Nat.add_0_r; ring|]. rewrite Nat.add_succ_r. cbn. rewrite IH. ring. Qed.
Lemma rsum_prod n m f : rsum (n * m) f = rsum n (fun i => rsum m (fun j => f (i * m + j))).
Proof. induction n as [|n IH]; cbn; [reflexivity|]. rewrite Nat.add_comm, rsum_app, IH. reflexivity. Qed.
Lemma rsum_list (l : list R) : forall n, List.length l = n -> rsum n (fun i => nth i l 0%R) = sumR l.
Proof.
  induction l as [|x l IH]; intros n <-; cbn [List.length]; [reflexivity|]. change (S (List.length l)) with (1 + List.length l). rewrite rsum_app. cbn [rsum nth sumR plus]. rewrite (IH _ eq_refl). ring.
Qed.
Lemma digits_cons d r i j : j < prodl r -> digits (d :: r) (i * prodl r + j) = i :: digits r j.
Proof.
  intros H. cbn [digits]. f_equal.
  - rewrite Nat.div_add_l by lia. rewrite Nat.div_small by exact H. lia.
  - f_equal. rewrite Nat.add_comm, Nat.mod_add by lia. apply Nat.mod_small. exact H.
Qed.
Lemma rsum_basis d r (f : list nat -> R) : rsum (prodl (d :: r)) (fun k => f (digits (d :: r) k)) = rsum d (fun i => rsum (prodl r) (fun j => f (i :: digits r j))).
Proof.
  cbn [prodl]. rewrite rsum_prod. apply rsum_ext. intros i Hi. apply rsum_ext. intros j Hj. rewrite digits_cons by exact Hj. reflexivity.
Qed.

Lemma tree_norm dims : forall t, good dims t -> rsum (prodl dims) (fun k => Cnorm2 (path_amp t (digits dims k))) = Cnorm2 (weight t).
Proof.
  induction dims as [|d r IH]; intros t G.
  - cbn. ring.
  - destruct G as [(b & ->)|(x & ch & -> & X & L & U & F)].
    + cbn [weight]. replace (Cnorm2 C0) with 0%R by (unfold Cnorm2, C0; cbn; ring). apply rsum_0. intros k Hk. cbn [digits path_amp weight]. unfold Cnorm2, C0. cbn. ring.
    + rewrite (rsum_basis d r (fun p => Cnorm2 (path_amp (Inner (RtoC x) ch) p))). cbn [weight path_amp].
      rewrite (rsum_ext d _ (fun i => (Cnorm2 (RtoC x) * nth i (map (fun c => Cnorm2 (weight c)) ch) 0)%R)).
      * rewrite rsum_scal, rsum_list by (rewrite map_length; exact L). rewrite U. ring.
      * intros i Hi. rewrite (rsum_ext _ _ (fun j => (Cnorm2 (RtoC x) * Cnorm2 (path_amp (nth i ch dead) (digits r j)))%R)) by (intros j _; apply Cnorm2_mul).
        rewrite rsum_scal. f_equal. rewrite IH by (rewrite Forall_forall in F; apply F; apply nth_In; lia).
        rewrite (nth_indep _ 0%R (Cnorm2 (weight dead))) by (rewrite map_length; lia). symmetry. apply (map_nth (fun c => Cnorm2 (weight c))).
Qed.

Lemma prefixb_cons i p j q : prefixb (i :: p) (j :: q) = Nat.eqb i j && prefixb p q.
Proof.
  unfold prefixb. cbn [List.length firstn]. destruct (Nat.eqb_spec i j) as [->|N]; cbn [andb].
  - destruct (list_eq_dec Nat.eq_dec (firstn (List.length p) q) p) as [E|E]; [rewrite E|]; destruct (list_eq_dec Nat.eq_dec _ _); congruence.
  - destruct (list_eq_dec Nat.eq_dec _ _) as [E|E]; [|reflexivity]. injection E as E1 E2. congruence.
Qed.
Lemma prefixb_nil q : prefixb [] q = true.
Proof. reflexivity. Qed.
Lemma prefixb_spec p q : prefixb p q = true <-> prefix p q.
Proof.
  unfold prefixb, prefix. destruct (list_eq_dec Nat.eq_dec _ _) as [E|E]; split; trivial.
  - intros _. exists (skipn (List.length p) q). rewrite <- E at 1. symmetry. apply firstn_skipn.
  - discriminate.
  - intros (s & ->). exfalso. apply E. rewrite firstn_app, firstn_all, Nat.sub_diag. cbn. apply app_nil_r.
Qed.

(** the probability of a node is that of the basis states below it *)
Lemma node_prob dims : forall t p s, good dims t -> node_at t p = Some s -> prob_below dims (tree_state dims t) p = Cnorm2 (path_amp t p).
Proof.
  unfold prob_below, tree_state. induction dims as [|d r IH]; intros t p s G E.
  - destruct G as (w & b & ->). destruct p as [|i p]; [|discriminate E]. cbn. ring.
  - destruct p as [|i p].
    + rewrite (rsum_ext _ _ (fun k => Cnorm2 (path_amp t (digits (d :: r) k)))) by (intros k _; rewrite prefixb_nil; reflexivity).
      rewrite (tree_norm (d :: r) t G). destruct t; reflexivity.
    + destruct G as [(b & ->)|(x & ch & -> & X & L & U & F)]; [discriminate E|]. cbn [node_at] in E. destruct (nth_error ch i) as [c|] eqn:Q; [|discriminate E].
      assert (Hi : i < d) by (rewrite <- L; apply nth_error_Some; congruence).
      assert (Qn : nth i ch dead = c) by (apply nth_error_nth; exact Q).
      rewrite (rsum_basis d r (fun q => if prefixb (i :: p) q then Cnorm2 (path_amp (Inner (RtoC x) ch) q) else 0%R)).
      rewrite (rsum_single d _ i Hi).
      * rewrite (rsum_ext _ _ (fun j => (Cnorm2 (RtoC x) * (if prefixb p (digits r j) then Cnorm2 (path_amp c (digits r j)) else 0))%R)).
        -- rewrite rsum_scal. rewrite (IH c p s); [|rewrite Forall_forall in F; apply F; apply (nth_error_In _ _ Q)|exact E].
           cbn [path_amp]. unfold dead in Qn. rewrite Qn, Cnorm2_mul. reflexivity.
        -- intros j _. rewrite prefixb_cons, Nat.eqb_refl. cbn [andb path_amp]. unfold dead in Qn. rewrite Qn. destruct (prefixb p _); [apply Cnorm2_mul|ring].
      * intros i' _ N. apply rsum_0. intros j _. rewrite prefixb_cons, (proj2 (Nat.eqb_neq i i')) by congruence. reflexivity.
Qed.

(** *** the contributions *)
Definition listed (root : dd) (e : entry) : Prop :=
  let '(p, prob, t) := e in node_at root p = Some t /\ prob = Cnorm2 (path_amp root p) /\ prob <> 0%R.
Lemma node_at_app p : forall t q s, node_at t p = Some s -> node_at t (p ++ q) = node_at s q.
Proof.
  induction p as [|i p IH]; intros t q s E; cbn in *; [injection E as ->; reflexivity|]. destruct t as [w b|w ch]; [discriminate|]. destruct (nth_error ch i); [|discriminate]. apply IH. exact E.
Qed.
Lemma path_amp_snoc p : forall t w ch i c, node_at t p = Some (Inner w ch) -> nth_error ch i = Some c -> path_amp t (p ++ [i]) = Cmul (path_amp t p) (weight c).
Proof.
  induction p as [|j p IH]; intros t w ch i c E Q; cbn [app] in *.
  - cbn in E. injection E as ->. cbn. rewrite (nth_error_nth _ _ _ Q). destruct c; reflexivity.
  - destruct t as [v b|v l]; [discriminate|]. cbn [node_at] in E. destruct (nth_error l j) as [x|] eqn:X; [|discriminate]. cbn [path_amp]. rewrite (nth_error_nth _ _ _ X), (IH x w ch i c E Q). ring.
Qed.
Lemma combine_seq_in {A} (l : list A) : forall k i x, In (i, x) (combine (seq k (List.length l)) l) -> k <= i /\ nth_error l (i - k) = Some x.
Proof.
  induction l as [|a l IH]; intros k i x H; cbn in H; [contradiction|]. destruct H as [H|H].
  - injection H as -> ->. rewrite Nat.sub_diag. auto.
  - apply IH in H. destruct H as [H1 H2]. split; [lia|]. replace (i - k) with (S (i - S k)) by lia. exact H2.
Qed.
Lemma combine_seq_in2 {A} (l : list A) : forall k i x, nth_error l i = Some x -> In (k + i, x) (combine (seq k (List.length l)) l).
Proof.
  induction l as [|a l IH]; intros k [|i] x H; cbn in *; try discriminate.
  - injection H as ->. left. f_equal. lia.
  - right. replace (k + S i) with (S k + i) by lia. apply IH. exact H.
Qed.
Lemma kids_in e i c : In (i, c) (match snd e with Inner _ ch => combine (seq 0 (List.length ch)) ch | Term _ _ => [] end) -> weight c <> C0 ->
  In (fst (fst e) ++ [i], (snd (fst e) * Cnorm2 (weight c))%R, c) (kids e).
Proof.
  destruct e as [[p prob] t]. cbn. destruct t as [w b|w ch]; [intros []|]. intros H N. apply in_flat_map. exists (i, c). split; [exact H|]. cbn. rewrite (proj2 (is0_false _) N). left. reflexivity.
Qed.
Lemma kids_listed root e : listed root e -> Forall (fun f => listed root f /\ List.length (fst (fst f)) = S (List.length (fst (fst e)))) (kids e).
Proof.
  destruct e as [[p prob] t]. intros (E & Q & Nz). apply Forall_forall. intros f Hf. cbn in Hf. destruct t as [w b|w ch]; [contradiction|].
  apply in_flat_map in Hf. destruct Hf as ((i & c) & Hin & Hf). cbn in Hf. destruct (is0 (weight c)) eqn:Z; [contradiction|]. destruct Hf as [<-|[]]. apply is0_false in Z.
  apply combine_seq_in in Hin. destruct Hin as [_ Hn]. rewrite Nat.sub_0_r in Hn. cbn. split; [|rewrite app_length; cbn; lia].
  assert (A : (prob * Cnorm2 (weight c))%R = Cnorm2 (path_amp root (p ++ [i]))) by (rewrite (path_amp_snoc p root w ch i c E Hn), Cnorm2_mul, Q; reflexivity).
  split; [|split; [exact A|]].
  - rewrite (node_at_app p root [i] (Inner w ch) E). cbn. rewrite Hn. reflexivity.
  - intros X. apply Rmult_integral in X. destruct X as [X|X]; [contradiction|]. apply Z. apply Cnorm2_0. exact X.
Qed.
Lemma walk_listed root n : forall m cur, Forall (fun e => listed root e /\ List.length (fst (fst e)) = m) cur ->
  forall j l, nth_error (walk n cur) j = Some l -> Forall (fun e => listed root e /\ List.length (fst (fst e)) = S (m + j)) l.
Proof.
  induction n as [|n IH]; intros m cur H j l E; [destruct j; discriminate E|].
  assert (N : Forall (fun e => listed root e /\ List.length (fst (fst e)) = S m) (flat_map kids cur)).
  { apply Forall_forall. intros e He. apply in_flat_map in He. destruct He as (f & Hf & He). rewrite Forall_forall in H. destruct (H f Hf) as [Lf Ln].
    pose proof (kids_listed root f Lf) as K. rewrite Forall_forall in K. destruct (K e He) as [K1 K2]. split; [exact K1|lia]. }
  destruct j as [|j]; cbn [walk nth_error] in E.
  - injection E as <-. rewrite Nat.add_0_r. exact N.
  - replace (S (m + S j)) with (S (S m + j)) by lia. apply (IH (S m) (flat_map kids cur) N j l E).
Qed.
Lemma walk_complete root n : forall cur j l q p s, nth_error (walk n cur) j = Some l -> (exists pr t, In (q, pr, t) cur /\ node_at root q = Some t /\ listed root (q, pr, t)) ->
  List.length p = S j -> node_at root (q ++ p) = Some s -> path_amp root (q ++ p) <> C0 -> exists pr, In (q ++ p, pr, s) l.
Proof.
  induction n as [|n IH]; intros cur j l q p s E Q L A Nz; [destruct j; discriminate E|].
  destruct p as [|i p]; [discriminate L|]. destruct Q as (pr & t & Hin & Hq & Hl).
  assert (At : node_at t (i :: p) = Some s) by (rewrite <- (node_at_app q root (i :: p) t Hq); exact A). cbn [node_at] in At. destruct t as [w b|w ch]; [discriminate At|]. destruct (nth_error ch i) as [c|] eqn:Qi; [|discriminate At].
  assert (Ec : path_amp root (q ++ [i]) = Cmul (path_amp root q) (weight c)) by (apply (path_amp_snoc q root w ch i c Hq Qi)).
  assert (Qc : node_at root (q ++ [i]) = Some c) by (rewrite (node_at_app q root [i] _ Hq); cbn; rewrite Qi; reflexivity).
  assert (Rw : path_amp root (q ++ i :: p) = Cmul (Cmul (path_amp root q) (weight c)) (below c p)).
  { clear -Hq Qi. revert root Hq. induction q as [|x q IH]; intros root Hq; cbn [app].
    - cbn in Hq. injection Hq as ->. cbn [path_amp]. rewrite (nth_error_nth _ _ _ Qi), path_amp_below. cbn [weight]. ring.
    - destruct root as [v b|v l]; [discriminate|]. cbn [node_at] in Hq. destruct (nth_error l x) as [y|] eqn:Y; [|discriminate]. cbn [path_amp]. rewrite (nth_error_nth _ _ _ Y), (IH y Hq). ring. }
  assert (Nc : weight c <> C0) by (intros X; apply Nz; rewrite Rw, X; ring).
  assert (K : In (q ++ [i], (pr * Cnorm2 (weight c))%R, c) (flat_map kids cur)).
  { apply in_flat_map. exists (q, pr, Inner w ch). split; [exact Hin|]. apply (kids_in (q, pr, Inner w ch) i c); [|exact Nc]. cbn [snd]. apply (combine_seq_in2 ch 0 i c Qi). }
  assert (Lc : listed root (q ++ [i], (pr * Cnorm2 (weight c))%R, c)).
  { pose proof (kids_listed root _ Hl) as Kl. rewrite Forall_forall in Kl. apply (Kl (q ++ [i], (pr * Cnorm2 (weight c))%R, c)). apply (kids_in (q, pr, Inner w ch) i c); [|exact Nc]. cbn [snd]. apply (combine_seq_in2 ch 0 i c Qi). }
  destruct j as [|j]; cbn [walk nth_error] in E.
  - injection E as <-. destruct p; [|discriminate L]. cbn in At. injection At as ->. eauto.
  - destruct (IH (flat_map kids cur) j l (q ++ [i]) p s E) as (pr' & H'); trivial.
    + exists (pr * Cnorm2 (weight c))%R, c. auto.
    + cbn in L. lia.
    + rewrite <- app_assoc. exact A.
    + rewrite <- app_assoc. exact Nz.
    + exists pr'. rewrite <- app_assoc in H'. exact H'.
Qed.

Lemma insert_perm e l : Permutation (insert_by e l) (e :: l).
Proof. induction l as [|f l IH]; cbn; [reflexivity|]. destruct (Rle_dec _ _); [reflexivity|]. rewrite IH. apply perm_swap. Qed.
Lemma sort_perm l : Permutation (sort_by l) l.
Proof. induction l as [|e l IH]; cbn; [reflexivity|]. rewrite insert_perm. apply perm_skip. exact IH. Qed.
Lemma insert_sorted_by e l : Sorted (fun a b => (snd a <= snd b)%R) l -> Sorted (fun a b => (snd a <= snd b)%R) (insert_by e l).
Proof.
  induction l as [|f l IH]; intros H; cbn; [repeat constructor|]. destruct (Rle_dec (snd e) (snd f)) as [Q|Q]; [constructor; [exact H|constructor; exact Q]|].
  inversion H as [|? ? Hs Hh]; subst. constructor; [apply IH; exact Hs|]. destruct l as [|g l]; cbn; [constructor; lra|]. destruct (Rle_dec (snd e) (snd g)); constructor; [lra|]. inversion Hh; assumption.
Qed.
Lemma sort_sorted l : Sorted (fun a b => (snd a <= snd b)%R) (sort_by l).
Proof. induction l as [|e l IH]; cbn; [constructor|]. apply insert_sorted_by. exact IH. Qed.

Lemma walk_length n : forall cur, List.length (walk n cur) = n.
Proof. induction n as [|n IH]; intros cur; cbn; [reflexivity|]. f_equal. apply IH. Qed.
Lemma contributions_listed root n j l : (weight root <> C0) -> nth_error (contributions root n) j = Some l ->
  Forall (fun e => (exists s, node_at root (fst e) = Some s) /\ snd e = Cnorm2 (path_amp root (fst e)) /\ List.length (fst e) = S j) l.
Proof.
  intros W E. unfold contributions in E. set (W0 := walk n [([], Cnorm2 (weight root), root)]) in E. assert (Q0 : W0 = walk n [([], Cnorm2 (weight root), root)]) by reflexivity. clearbody W0. rewrite nth_error_map in E. destruct (nth_error W0 j) as [l0|] eqn:Q; [|cbn in E; discriminate E]. cbn in E. injection E as <-. rewrite Q0 in Q.
  apply (walk_listed root n 0) in Q.
  - apply Forall_forall. intros e He. apply (Permutation_in _ (sort_perm _)) in He. apply in_map_iff in He. destruct He as (f & <- & Hf). rewrite Forall_forall in Q. destruct (Q f Hf) as [Lf Ln].
    destruct f as [[p prob] t]. cbn in *. destruct Lf as (A & B & _). eauto.
  - constructor; [|constructor]. cbn. split; [|reflexivity]. split; [reflexivity|]. split; [destruct root; reflexivity|]. intros X. apply W. apply Cnorm2_0. exact X.
Qed.
(** a tree whose root has weight 0 is terminal: nothing is listed *)
Lemma contributions_dead w b n j l : nth_error (contributions (Term w b) n) j = Some l -> l = [].
Proof.
  unfold contributions. set (W0 := walk n [([], Cnorm2 (weight (Term w b)), Term w b)]). assert (Q0 : W0 = walk n [([], Cnorm2 (weight (Term w b)), Term w b)]) by reflexivity. clearbody W0. rewrite nth_error_map. assert (K : forall n cur, (forall e, In e cur -> kids e = []) -> forall j l, nth_error (walk n cur) j = Some l -> l = []).
  { clear. induction n as [|n IH]; intros cur H j l E; [destruct j; discriminate E|]. assert (Z : flat_map kids cur = []) by (clear -H; induction cur as [|e cur IH]; cbn; [reflexivity|]; rewrite (H e) by (left; reflexivity); apply IH; intros; apply H; right; assumption).
    cbn [walk] in E. rewrite Z in E. destruct j as [|j]; cbn in E; [congruence|]. apply (IH [] ltac:(intros e []) j l E). }
  destruct (nth_error W0 j) as [l0|] eqn:Q; [|discriminate]. rewrite Q0 in Q. apply K in Q; [|intros e [<-|[]]; reflexivity]. subst l0. cbn. congruence.
Qed.

(** *** cutting *)
Lemma cut_level_spec tol (P : path -> R) l : forall st, Forall (fun e => snd e = P (fst e)) l ->
  exists k, snd (cut_level tol st l) = snd st ++ firstn k (map fst l) /\
    fst (cut_level tol st l) = (fst st + sumR (map P (firstn k (map fst l))))%R /\
    (k = 0 \/ (fst (cut_level tol st l) < tol)%R).
Proof.
  induction l as [|[p pr] l IH]; intros st F; cbn [cut_level].
  - exists 0. cbn. rewrite app_nil_r. split; [reflexivity|]. split; [ring|auto].
  - inversion F as [|? ? E F']; subst. cbn in E. subst pr. destruct (Rlt_dec (fst st + P p) tol) as [T|T]; [destruct (existsb _ _)|]; cbn [andb negb].
    + exists 0. cbn. rewrite app_nil_r. split; [reflexivity|]. split; [ring|auto].
    + destruct (IH ((fst st + P p)%R, snd st ++ [p]) F') as (k & E1 & E2 & E3). exists (S k). cbn [map firstn fst snd] in *. rewrite E1, <- app_assoc. split; [reflexivity|]. rewrite E2. cbn [map sumR]. split; [ring|].
      right. destruct E3 as [->|E3]; [|rewrite <- E2; exact E3]. cbn. lra.
    + exists 0. cbn. rewrite app_nil_r. split; [reflexivity|]. split; [ring|auto].
Qed.
Lemma cut_fold tol (P : path -> R) ls : forall st, Forall (Forall (fun e => snd e = P (fst e))) ls -> (snd st = [] /\ fst st = 0%R \/ (fst st < tol)%R) -> fst st = sumR (map P (snd st)) ->
  let r := fold_left (cut_level tol) ls st in
  fst r = sumR (map P (snd r)) /\ (snd r = [] /\ fst r = 0%R \/ (fst r < tol)%R) /\ incl (snd r) (snd st ++ map fst (concat ls)).
Proof.
  induction ls as [|l ls IH]; intros st F B S; cbn [fold_left concat]; cbv zeta.
  - split; [exact S|]. split; [exact B|]. intros x Hx. apply in_or_app. auto.
  - inversion F as [|? ? Fl Fls]; subst. destruct (cut_level_spec tol P l st Fl) as (k & E1 & E2 & E3).
    destruct (IH (cut_level tol st l) Fls) as (R1 & R2 & R3).
    + destruct E3 as [->|E3]; [|auto]. cbn in E1, E2. rewrite app_nil_r in E1. rewrite E1, E2. destruct B as [[B1 B2]|B]; [left; split; [exact B1|lra]|right; lra].
    + rewrite E1, E2, S, map_app. clear. induction (map P (snd st)) as [|x m IHm]; cbn; [ring|]. rewrite <- IHm. ring.
    + split; [exact R1|]. split; [exact R2|]. intros x Hx. apply R3 in Hx. rewrite E1 in Hx. rewrite map_app. rewrite !in_app_iff in *. destruct Hx as [[Hx|Hx]|Hx]; auto.
      right. left. rewrite <- (firstn_skipn k (map fst l)). apply in_or_app. auto.
Qed.

(** the tree with cut branches *)
Lemma zero_go l p : forall ch k i, nth i ((fix go i ch := match ch with [] => [] | c :: r => zero_at l (p ++ [i]) c :: go (S i) r end) k ch) dead =
  if i <? List.length ch then zero_at l (p ++ [k + i]) (nth i ch dead) else dead.
Proof.
  induction ch as [|c ch IH]; intros k i; [destruct i; reflexivity|]. destruct i as [|i]; [cbn; rewrite Nat.add_0_r; reflexivity|].
  cbn [nth]. rewrite IH. cbn [List.length]. change (S i <? S (List.length ch)) with (i <? List.length ch). replace (S k + i) with (k + S i) by lia. reflexivity.
Qed.
Lemma zero_go_length l p : forall ch k, List.length ((fix go i ch := match ch with [] => [] | c :: r => zero_at l (p ++ [i]) c :: go (S i) r end) k ch) = List.length ch.
Proof. induction ch as [|c ch IH]; intros k; cbn; [reflexivity|]. f_equal. apply IH. Qed.
Lemma path_eqb_in p l : existsb (path_eqb p) l = true <-> In p l.
Proof.
  rewrite existsb_exists. unfold path_eqb. split.
  - intros (x & Hx & E). destruct (list_eq_dec Nat.eq_dec _ _); [subst; exact Hx|discriminate].
  - intros H. exists p. split; [exact H|]. destruct (list_eq_dec Nat.eq_dec _ _); congruence.
Qed.
Lemma zero_at_amp l dims : forall t p q, good dims t -> valid dims q ->
  path_amp (zero_at l p t) q = path_amp t q \/ path_amp (zero_at l p t) q = C0 /\ exists s, prefix s q /\ In (p ++ s) l.
Proof.
  induction dims as [|d r IH]; intros t p q G V.
  - destruct G as (w & b & ->). apply valid_nil_inv in V. subst q. cbn. destruct (existsb (path_eqb p) l) eqn:E; [|auto]. right. split; [reflexivity|]. exists []. split; [exists []; reflexivity|]. rewrite app_nil_r. apply path_eqb_in. exact E.
  - apply valid_cons_ex in V. destruct V as (i & q' & -> & Hi & V). destruct G as [(b & ->)|(x & ch & -> & X & L & U & F)].
    + left. cbn. destruct (existsb _ _); reflexivity.
    + cbn [zero_at path_amp weight]. destruct (existsb (path_eqb p) l) eqn:E.
      * right. split; [ring|]. exists []. split; [exists (i :: q'); reflexivity|]. rewrite app_nil_r. apply path_eqb_in. exact E.
      * change (Term C0 false) with dead. rewrite zero_go. rewrite (proj2 (Nat.ltb_lt i (List.length ch))) by lia. cbn [plus].
        destruct (IH (nth i ch dead) (p ++ [i]) q') as [A|[A (s & (s' & ->) & Hs)]]; trivial.
        -- rewrite Forall_forall in F. apply F. apply nth_In. lia.
        -- left. rewrite A. reflexivity.
        -- right. rewrite A. split; [ring|]. exists (i :: s). split; [exists s'; reflexivity|]. rewrite <- app_assoc in Hs. exact Hs.
Qed.

(** trees as normalize_all finds them *)
Fixpoint shaped (dims : list nat) (t : dd) : Prop :=
  match dims with
  | [] => exists w b, t = Term w b
  | d :: r => (exists b, t = Term C0 b) \/ exists x ch, t = Inner (RtoC x) ch /\ (0 <= x)%R /\ List.length ch = d /\ Forall (shaped r) ch
  end.
Lemma zero_shaped l dims : forall t p, good dims t -> shaped dims (zero_at l p t).
Proof.
  induction dims as [|d r IH]; intros t p G.
  - destruct G as (w & b & ->). cbn. eauto.
  - destruct G as [(b & ->)|(x & ch & -> & X & L & U & F)].
    + left. cbn. destruct (existsb _ _); eauto.
    + right. cbn [zero_at weight]. exists (if existsb (path_eqb p) l then 0%R else x). eexists. split; [f_equal; destruct (existsb _ _); [symmetry; apply RtoC_0|reflexivity]|]. split; [destruct (existsb _ _); lra|].
      split; [rewrite zero_go_length; exact L|]. apply Forall_forall. intros c Hc. apply (In_nth _ _ dead) in Hc. destruct Hc as (i & Hi & <-). rewrite zero_go_length in Hi. rewrite zero_go, (proj2 (Nat.ltb_lt _ _) Hi).
      apply IH. rewrite Forall_forall in F. apply F. apply nth_In. exact Hi.
Qed.
Lemma normalize_all_ok dims : (forall d, In d dims -> 1 < d) -> forall t, shaped dims t ->
  good dims (normalize_all t) /\ forall q, valid dims q -> path_amp (normalize_all t) q = path_amp t q.
Proof.
  induction dims as [|d r IH]; intros D t G.
  - destruct G as (w & b & ->). cbn. eauto.
  - destruct G as [(b & ->)|(x & ch & -> & X & L & F)]; [split; [left; cbn; eauto|intros; reflexivity]|].
    cbn [normalize_all]. set (ch' := map normalize_all ch). assert (L' : List.length ch' = d) by (unfold ch'; rewrite map_length; exact L).
    assert (K : forall i, i < d -> good r (nth i ch' dead) /\ forall q, valid r q -> path_amp (nth i ch' dead) q = path_amp (nth i ch dead) q).
    { intros i Hi. assert (Q : nth i ch' dead = normalize_all (nth i ch dead)) by (unfold ch'; apply (map_nth normalize_all ch dead)). rewrite Q. apply IH; [auto with datatypes|]. rewrite Forall_forall in F. apply F. apply nth_In. lia. }
    assert (F' : Forall (good r) ch') by (apply Forall_forall; intros c Hc; apply (In_nth _ _ dead) in Hc; destruct Hc as (i & Hi & <-); apply K; lia).
    destruct (Req_dec x 0) as [->|Xn].
    + assert (Z : fst (normalize (RtoC 0) (map weight ch')) = C0).
      { unfold normalize. destruct (Req_EM_T _ _); cbn; [reflexivity|]. rewrite RtoC_0. ring. }
      rewrite Z, (proj2 (is0_true C0) eq_refl). split; [left; eauto|]. intros q V. apply valid_cons_ex in V. destruct V as (i & q' & -> & Hi & V). cbn. rewrite RtoC_0. ring.
    + assert (W : RtoC x <> C0) by (intros E; apply Xn; apply RtoC_inj; rewrite E; symmetry; apply RtoC_0).
      destruct (normalize_spec (RtoC x) (map weight ch') W) as [(Nz & -> & Z)|(Np & -> & Nn)]; cbn [fst snd].
      * rewrite (proj2 (is0_true C0) eq_refl). split; [left; eauto|]. intros q V. apply valid_cons_ex in V. destruct V as (i & q' & -> & Hi & V). cbn [path_amp weight]. change (Term C0 false) with dead. rewrite <- (proj2 (K i Hi) q' V), path_amp_below.
        rewrite (Z (weight (nth i ch' dead))); [ring|]. apply in_map. apply nth_In. lia.
      * rewrite (proj2 (is0_false _) Nn). replace (Nat.eqb (List.length ch') 1) with false by (symmetry; apply Nat.eqb_neq; specialize (D d (or_introl eq_refl)); lia).
        rewrite <- RtoC_mul. split; [apply good_node; trivial; apply Rmult_lt_0_compat; lra|]. intros q V. apply valid_cons_ex in V. destruct V as (i & q' & -> & Hi & V). cbn [path_amp]. change (Term C0 false) with dead.
        rewrite reweigh_nth by (rewrite ?map_length; lia). rewrite path_amp_set, <- (proj2 (K i Hi) q' V), (path_amp_below (nth i ch' dead)).
        rewrite map_map. rewrite (nth_indep _ C0 (Cdivr (weight dead) (norm_of (map weight ch')))) by (rewrite map_length; lia).
        rewrite (map_nth (fun t => Cdivr (weight t) (norm_of (map weight ch')))). set (z := weight (nth i ch' dead)). set (n := norm_of (map weight ch')) in *. rewrite RtoC_mul.
        replace (Cmul (Cmul (RtoC x) (RtoC n)) (Cmul (Cdivr z n) (below (nth i ch' dead) q'))) with (Cmul (RtoC x) (Cmul (Cmul (RtoC n) (Cdivr z n)) (below (nth i ch' dead) q'))) by ring.
        rewrite Cdivr_mul by lra. reflexivity.
Qed.

(** *** what is lost *)
Lemma sumR_le_term (l : list path) (f : path -> R) p : (forall q, (0 <= f q)%R) -> In p l -> (f p <= sumR (map f l))%R.
Proof.
  intros N. induction l as [|q l IH]; intros H; cbn; [contradiction|]. assert (S : (0 <= sumR (map f l))%R) by (apply sumR_nonneg; intros x Hx; apply in_map_iff in Hx; destruct Hx as (y & <- & _); apply N).
  pose proof (N q). destruct H as [->|H]; [lra|]. specialize (IH H). lra.
Qed.
Lemma rsum_sumR n (l : list path) (f : path -> nat -> R) : rsum n (fun k => sumR (map (fun p => f p k) l)) = sumR (map (fun p => rsum n (f p)) l).
Proof.
  induction l as [|p l IH]; cbn; [apply rsum_0; reflexivity|]. rewrite rsum_add, IH. reflexivity.
Qed.
Lemma cut_loss dims t tol : good dims t -> (0 < tol)%R -> let t' := cut_branches tol (contributions t (List.length dims)) t in
  (forall k, k < prodl dims -> tree_state dims t' k = tree_state dims t k \/ tree_state dims t' k = C0) /\
  (rsum (prodl dims) (fun k => Cnorm2 (Csub (tree_state dims t k) (tree_state dims t' k))) < tol)%R.
Proof.
  intros G T. cbv zeta. unfold cut_branches, cuts. set (ls := contributions t (List.length dims)).
  assert (F : Forall (Forall (fun e : path * R => (exists s, node_at t (fst e) = Some s) /\ snd e = Cnorm2 (path_amp t (fst e)))) ls).
  { apply Forall_forall. intros l Hl. apply In_nth_error in Hl. destruct Hl as (j & Hj). destruct dims as [|d r].
    - cbn in Hj. destruct j; discriminate Hj.
    - destruct G as [(b & ->)|(x & ch & -> & X & L & U & F)].
      + apply contributions_dead in Hj. subst l. constructor.
      + apply contributions_listed in Hj; [|intros E; cbn in E; apply (RtoC_inj x 0) in E; lra]. eapply Forall_impl; [|exact Hj]. intros e (A & B & _). auto. }
  assert (F1 : Forall (Forall (fun e : path * R => snd e = (fun p => Cnorm2 (path_amp t p)) (fst e))) (rev ls)).
  { apply Forall_rev. eapply Forall_impl; [|exact F]. intros l Hl. eapply Forall_impl; [|exact Hl]. intros e (_ & E). exact E. }
  destruct (cut_fold tol (fun p => Cnorm2 (path_amp t p)) (rev ls) (0%R, []) F1 (or_introl (conj eq_refl eq_refl)) eq_refl) as (S & B & I). cbn [snd app] in I.
  set (res := fold_left (cut_level tol) (rev ls) (0%R, [])) in *.
  assert (A : forall k, k < prodl dims -> tree_state dims (zero_at (snd res) [] t) k = tree_state dims t k \/ tree_state dims (zero_at (snd res) [] t) k = C0 /\ exists s, prefix s (digits dims k) /\ In s (snd res)).
  { intros k Hk. apply (zero_at_amp (snd res) dims t [] (digits dims k) G). apply valid_digits. exact Hk. }
  split; [intros k Hk; destruct (A k Hk) as [E|[E _]]; auto|].
  apply Rle_lt_trans with (sumR (map (fun p => prob_below dims (tree_state dims t) p) (snd res))).
  - unfold prob_below. rewrite <- rsum_sumR. apply rsum_le. intros k Hk. destruct (A k Hk) as [E|(E & s & Hs & Hin)].
    + rewrite E. replace (Csub (tree_state dims t k) (tree_state dims t k)) with C0 by ring. replace (Cnorm2 C0) with 0%R by (unfold Cnorm2, C0; cbn; ring). apply sumR_nonneg. intros x Hx. apply in_map_iff in Hx. destruct Hx as (p & <- & _). destruct (prefixb _ _); [apply Cnorm2_nonneg|lra].
    + rewrite E. replace (Csub (tree_state dims t k) C0) with (tree_state dims t k) by ring.
      eapply Rle_trans; [|apply (sumR_le_term (snd res) (fun p => if prefixb p (digits dims k) then Cnorm2 (tree_state dims t k) else 0%R) s); [|exact Hin]].
      * cbv beta. rewrite (proj2 (prefixb_spec s (digits dims k)) Hs). lra.
      * intros q. destruct (prefixb _ _); [apply Cnorm2_nonneg|lra].
  - assert (Q : map (fun p => prob_below dims (tree_state dims t) p) (snd res) = map (fun p => Cnorm2 (path_amp t p)) (snd res)).
    { apply map_ext_in. intros p Hp. apply I in Hp. apply in_map_iff in Hp. destruct Hp as (e & <- & He). apply in_concat in He. destruct He as (l & Hl & He). apply in_rev in Hl. rewrite Forall_forall in F. specialize (F l Hl). rewrite Forall_forall in F. destruct (F e He) as ((s & Hs) & _). apply (node_prob dims t _ s G Hs). }
    rewrite Q. apply Rle_lt_trans with (fst res); [right; symmetry; exact S|]. destruct B as [[_ B]|B]; lra.
Qed.

(** *** the statements about data *)
From Verif.State Require Import PrepModel.
From Verif.Variational Require Import FidelityProofs.
Lemma created dims data t n : (forall d, In d dims -> 0 < d) -> List.length data = prodl dims -> create_decision_tree dims data = Ok (t, n) ->
  good dims t /\ forall k, k < prodl dims -> tree_state dims t k = nth k data C0.
Proof.
  intros D L E. destruct (create_ok dims data D L) as (t' & E' & G & A). rewrite E' in E. injection E as -> _. split; [exact G|]. intros k Hk. unfold tree_state.
  rewrite A by (apply valid_digits; exact Hk). rewrite undigits_digits by exact Hk. reflexivity.
Qed.
Lemma prob_below_ext dims v w p : (forall k, k < prodl dims -> v k = w k) -> prob_below dims v p = prob_below dims w p.
Proof. intros H. apply rsum_ext. intros k Hk. rewrite (H k Hk). reflexivity. Qed.
Lemma node_exists dims : forall t p s, good dims t -> valid dims (p ++ s) -> path_amp t (p ++ s) <> C0 -> exists u, node_at t p = Some u /\ path_amp t p <> C0.
Proof.
  induction dims as [|d r IH]; intros t p s G V N.
  - apply valid_nil_inv in V. destruct p; [|discriminate V]. cbn in *. destruct s; [|discriminate V]. eauto.
  - destruct p as [|i p].
    + exists t. split; [reflexivity|]. intros X. apply N. rewrite path_amp_below. change (weight t = C0) in X. rewrite X. ring.
    + cbn [app] in V, N. apply valid_cons_inv in V. destruct V as [Hi V]. destruct G as [(b & ->)|(x & ch & -> & X & L & U & F)]; [exfalso; apply N; reflexivity|].
      cbn [path_amp node_at] in *. rewrite <- L in Hi. destruct (nth_error ch i) as [c|] eqn:Q; [|apply nth_error_None in Q; lia]. rewrite (nth_error_nth _ _ _ Q) in *.
      destruct (IH c p s) as (u & E & Nz); trivial.
      * rewrite Forall_forall in F. apply F. apply (nth_error_In _ _ Q).
      * intros Z. apply N. rewrite Z. ring.
      * exists u. split; [exact E|]. intros Z. apply Cmul_integral in Z. destruct Z as [Z|Z]; [apply RtoC_inj in Z; lra|contradiction].
Qed.
Lemma rsum_nonzero n f : rsum n f <> 0%R -> exists k, k < n /\ f k <> 0%R.
Proof.
  induction n as [|n IH]; cbn; intros H; [lra|]. destruct (Req_dec (f n) 0) as [E|E]; [|exists n; auto]. destruct IH as (k & Hk & Q); [lra|]. exists k. split; [lia|exact Q].
Qed.
Lemma contributions_spec dims data t n : (forall d, In d dims -> 0 < d) -> List.length data = prodl dims -> create_decision_tree dims data = Ok (t, n) ->
  forall j l, nth_error (contributions t (List.length dims)) j = Some l ->
    Sorted (fun a b => (snd a <= snd b)%R) l /\
    (forall p prob, In (p, prob) l -> List.length p = S j /\ prob = prob_below dims (vec_of data) p) /\
    (forall p, List.length p = S j -> (exists s, valid dims (p ++ s)) -> prob_below dims (vec_of data) p <> 0%R -> exists prob, In (p, prob) l).
Proof.
  intros D L E j l Hj. destruct (created dims data t n D L E) as [G A].
  assert (PB : forall p, prob_below dims (vec_of data) p = prob_below dims (tree_state dims t) p) by (intros p; apply prob_below_ext; intros k Hk; rewrite (A k Hk); reflexivity).
  split; [|split].
  - unfold contributions in Hj. set (W0 := walk (List.length dims) [([], Cnorm2 (weight t), t)]) in Hj. clearbody W0. rewrite nth_error_map in Hj. destruct (nth_error W0 j) as [l0|] eqn:Q; cbn in Hj; [|discriminate Hj]. injection Hj as <-. apply sort_sorted.
  - intros p prob Hp. destruct dims as [|d r]; [cbn in Hj; destruct j; discriminate Hj|]. pose proof G as G0. destruct G as [(b & ->)|(x & ch & -> & X & Lc & U & F)].
    + apply contributions_dead in Hj. subst l. destruct Hp.
    + apply contributions_listed in Hj; [|intros Z; cbn in Z; apply (RtoC_inj x 0) in Z; lra]. rewrite Forall_forall in Hj. destruct (Hj _ Hp) as ((s & Hs) & E1 & E2). cbn in E1, E2, Hs. split; [exact E2|].
      rewrite PB, (node_prob (d :: r) _ p s G0 Hs). exact E1.
  - intros p Lp (s0 & V) Nz. rewrite PB in Nz. apply rsum_nonzero in Nz. destruct Nz as (k & Hk & Nz). destruct (prefixb p (digits dims k)) eqn:Pk; [|lra]. apply prefixb_spec in Pk. destruct Pk as (s & Es).
    assert (Vk : valid dims (p ++ s)) by (rewrite <- Es; apply valid_digits; exact Hk).
    assert (Nk : path_amp t (p ++ s) <> C0).
    { intros X. apply Nz. unfold tree_state. rewrite Es, X. unfold Cnorm2, C0. cbn. ring. }
    destruct (node_exists dims t p s G Vk Nk) as (u & Hu & Np).
    assert (W : Cnorm2 (weight t) <> 0%R) by (intros X; apply Cnorm2_0 in X; apply Nk; rewrite path_amp_below, X; ring).
    unfold contributions in Hj. set (W0 := walk (List.length dims) [([], Cnorm2 (weight t), t)]) in Hj. assert (Q0 : W0 = walk (List.length dims) [([], Cnorm2 (weight t), t)]) by reflexivity. clearbody W0. rewrite nth_error_map in Hj.
    destruct (nth_error W0 j) as [l0|] eqn:Q; cbn in Hj; [|discriminate Hj]. injection Hj as <-. rewrite Q0 in Q.
    destruct (walk_complete t (List.length dims) _ j l0 [] p u Q) as (pr & Hin); trivial.
    + exists (Cnorm2 (weight t)), t. split; [left; reflexivity|]. split; [reflexivity|]. split; [reflexivity|]. split; [destruct t; reflexivity|exact W].
    + cbn [app] in Hin. exists pr. apply (Permutation_in _ (Permutation_sym (sort_perm _))). change (p, pr) with (fst (p, pr, u)). apply in_map. exact Hin.
Qed.
Lemma cut_data dims data t n tol : (forall d, In d dims -> 0 < d) -> List.length data = prodl dims -> create_decision_tree dims data = Ok (t, n) -> (0 < tol)%R ->
  let t' := cut_branches tol (contributions t (List.length dims)) t in
  (forall k, k < prodl dims -> tree_state dims t' k = nth k data C0 \/ tree_state dims t' k = C0) /\
  (norm2 (prodl dims) (fun k => Csub (nth k data C0) (tree_state dims t' k)) < tol)%R.
Proof.
  intros D L E T. destruct (created dims data t n D L E) as [G A]. destruct (cut_loss dims t tol G T) as [H1 H2]. cbv zeta in *. split.
  - intros k Hk. rewrite <- (A k Hk). apply H1. exact Hk.
  - eapply Rle_lt_trans; [|exact H2]. right. apply rsum_ext. intros k Hk. rewrite (A k Hk). reflexivity.
Qed.
Lemma approx_good tol dims data : (forall d, In d dims -> 1 < d) -> List.length data = prodl dims -> (0 < tol)%R ->
  exists t, state_tree tol dims data true = Ok t /\ good dims t /\
    (forall k, k < prodl dims -> tree_state dims t k = nth k data C0 \/ tree_state dims t k = C0) /\
    (norm2 (prodl dims) (fun k => Csub (nth k data C0) (tree_state dims t k)) < tol)%R.
Proof.
  intros D L T. assert (D0 : forall d, In d dims -> 0 < d) by (intros d Hd; specialize (D d Hd); lia). destruct (create_ok dims data D0 L) as (t & E & G & _). unfold state_tree. rewrite E. cbn [bindr fst].
  destruct (cut_data dims data t _ tol D0 L E T) as [H1 H2]. cbv zeta in *. set (t' := cut_branches tol (contributions t (List.length dims)) t) in *.
  destruct (normalize_all_ok dims D t') as [N1 N2]; [apply zero_shaped; exact G|].
  assert (S : forall k, k < prodl dims -> tree_state dims (normalize_all t') k = tree_state dims t' k) by (intros k Hk; apply N2; apply valid_digits; exact Hk).
  eexists. split; [reflexivity|]. split; [exact N1|]. split.
  - intros k Hk. rewrite (S k Hk). apply H1. exact Hk.
  - eapply Rle_lt_trans; [|exact H2]. right. apply rsum_ext. intros k Hk. rewrite (S k Hk). reflexivity.
Qed.
Lemma approx_data tol dims data : (forall d, In d dims -> 1 < d) -> List.length data = prodl dims -> (0 < tol)%R ->
  exists t, state_tree tol dims data true = Ok t /\ well_formed dims t /\
    (forall k, k < prodl dims -> tree_state dims t k = nth k data C0 \/ tree_state dims t k = C0) /\
    (norm2 (prodl dims) (fun k => Csub (nth k data C0) (tree_state dims t k)) < tol)%R.
Proof.
  intros D L T. destruct (approx_good tol dims data D L T) as (t & E & G & A & B). exists t. split; [exact E|]. split; [apply good_well_formed; exact G|auto].
Qed.
Lemma approx_fidelity tol dims data t : (forall d, In d dims -> 1 < d) -> List.length data = prodl dims -> norm2 (prodl dims) (vec_of data) = 1%R -> (0 < tol <= 1)%R ->
  state_tree tol dims data true = Ok t ->
  (0 < norm2 (prodl dims) (tree_state dims t) /\ 1 - tol < Cnorm2 (ip (prodl dims) (vec_of data) (tree_state dims t)) / norm2 (prodl dims) (tree_state dims t))%R.
Proof.
  intros D L U T E. destruct (approx_good tol dims data D L (proj1 T)) as (t' & E' & G & A & B). rewrite E' in E. injection E as ->. set (N := prodl dims) in *.
  assert (S : norm2 N (tree_state dims t) = (1 - norm2 N (fun k => Csub (nth k data C0) (tree_state dims t k)))%R).
  { rewrite <- U. unfold norm2, vec_of. replace (rsum N (fun k => Cnorm2 (nth k data C0)))%R with (rsum N (fun k => (Cnorm2 (tree_state dims t k) + Cnorm2 (Csub (nth k data C0) (tree_state dims t k)))%R)).
    - rewrite rsum_add. ring.
    - apply rsum_ext. intros k Hk. destruct (A k Hk) as [-> | ->]; unfold Cnorm2, Csub, Cadd, Copp, C0; cbn; ring. }
  assert (I : ip N (vec_of data) (tree_state dims t) = RtoC (norm2 N (tree_state dims t))).
  { rewrite norm2_csum. unfold ip, vec_of. apply csum_ext. intros k Hk. destruct (A k Hk) as [-> | ->]; [reflexivity|ring]. }
  assert (P : (0 < norm2 N (tree_state dims t))%R) by lra. split; [exact P|]. rewrite I. unfold Cnorm2, RtoC. cbn [fst snd].
  replace ((norm2 N (tree_state dims t) * norm2 N (tree_state dims t) + 0 * 0) / norm2 N (tree_state dims t))%R with (norm2 N (tree_state dims t)) by (field; lra). lra.
Qed.

Lemma cut_case : exists t, state_tree code_tol [2] [RtoC (399 / 401); RtoC (40 / 401)] true = Ok t /\ norm2 2 (vec_of [RtoC (399 / 401); RtoC (40 / 401)]) = 1%R /\
  tree_state [2] t 0 = RtoC (399 / 401) /\ tree_state [2] t 1 = C0.
Proof.
  set (a := (399 / 401)%R). set (b := (40 / 401)%R).
  assert (Sq : (a * a + b * b)%R = 1%R) by (unfold a, b; field).
  assert (Pa : (0 < a)%R) by (unfold a; lra). assert (Pb : (0 < b)%R) by (unfold b; lra).
  assert (Small : (b * b < code_tol)%R) by (unfold b, code_tol; lra). assert (Lt : (b * b < a * a)%R) by (unfold a, b; lra).
  assert (Na : Cnorm2 (RtoC a) = (a * a)%R) by (unfold Cnorm2, RtoC; cbn; ring). assert (Nb : Cnorm2 (RtoC b) = (b * b)%R) by (unfold Cnorm2, RtoC; cbn; ring).
  assert (Za : is0 (RtoC a) = false) by (apply is0_false; intros X; apply (RtoC_inj a 0) in X; lra). assert (Zb : is0 (RtoC b) = false) by (apply is0_false; intros X; apply (RtoC_inj b 0) in X; lra).
  assert (N1 : norm_of [RtoC a; RtoC b] = 1%R) by (unfold norm_of; cbn [map fold_right]; rewrite Na, Nb; replace (a * a + (b * b + 0))%R with 1%R by lra; apply sqrt_1).
  assert (D1 : forall z, Cdivr z 1 = z) by (intros [x y]; unfold Cdivr; cbn; apply Ceq; cbn; field).
  assert (Z1 : is0 (RtoC 1) = false) by (apply is0_false; intros X; apply (RtoC_inj 1 0) in X; lra).
  set (t0 := Inner (RtoC 1) [Term (RtoC a) true; Term (RtoC b) true]).
  assert (B : create_decision_tree [2] [RtoC a; RtoC b] = Ok (t0, 3)).
  { unfold create_decision_tree. cbn. rewrite Za, Zb. unfold normalize. rewrite N1. destruct (Req_EM_T 1 0) as [X|_]; [lra|]. cbn [fst snd]. replace (Cmul C1 (RtoC 1)) with (RtoC 1) by ring. rewrite Z1. cbn. unfold t0. rewrite !D1. reflexivity. }
  assert (Cn : contributions t0 1 = [[([1], (Cnorm2 (RtoC 1) * Cnorm2 (RtoC b))%R); ([0], (Cnorm2 (RtoC 1) * Cnorm2 (RtoC a))%R)]]).
  { unfold contributions, t0. cbn [walk flat_map kids combine seq List.length app map weight snd fst]. rewrite Za, Zb. cbn [app map fst sort_by fold_right insert_by snd].
    destruct (Rle_dec _ _) as [X|X]; [|reflexivity]. exfalso. rewrite Na, Nb in X. unfold Cnorm2, RtoC in X. cbn in X. lra. }
  assert (O : Cnorm2 (RtoC 1) = 1%R) by (unfold Cnorm2, RtoC; cbn; ring).
  assert (Cu : cuts code_tol (contributions t0 1) = ((0 + Cnorm2 (RtoC 1) * Cnorm2 (RtoC b))%R, [[1]])).
  { unfold cuts. rewrite Cn. cbn [rev app fold_left cut_level fst snd existsb negb]. rewrite O, Na, Nb.
    destruct (Rlt_dec (0 + 1 * (b * b)) code_tol) as [_|X]; [|exfalso; lra]. cbn [andb fst snd app existsb above negb].
    destruct (Rlt_dec (0 + 1 * (b * b) + 1 * (a * a)) code_tol) as [X|_]; [exfalso; unfold code_tol in X; lra|]. reflexivity. }
  unfold state_tree. rewrite B. cbn [bindr fst List.length]. unfold cut_branches. rewrite Cu. cbn [snd].
  assert (Zt : zero_at [[1]] [] t0 = Inner (RtoC 1) [Term (RtoC a) true; Term C0 true]) by reflexivity. rewrite Zt.
  destruct (normalize_all_ok [2] ltac:(intros d [<-|[]]; lia) (Inner (RtoC 1) [Term (RtoC a) true; Term C0 true])) as [_ A].
  { right. exists 1%R. eexists. split; [reflexivity|]. split; [lra|]. split; [reflexivity|]. repeat constructor; cbn; eauto. }
  eexists. split; [reflexivity|]. split.
  - unfold norm2, vec_of. cbn [rsum nth]. rewrite Na, Nb. lra.
  - unfold tree_state. split; (rewrite A; [cbn; change (RtoC 1) with C1; ring|]); repeat constructor.
Qed.
