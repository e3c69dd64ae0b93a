(** The trees stand for the states (C34). *)
From Coq Require Import Reals List Arith Lia Lra.
From Verif.Base Require Import Py Cplx Matrix Radix.
From Verif.State Require Import DdModel DdSpec.
From Verif.Levels Require LevelsProofs.
From Verif.Variational Require EmitProofs.
Import ListNotations.
Local Open Scope nat_scope.

Lemma is0_true z : is0 z = true <-> z = C0.
Proof.
  unfold is0. destruct (Req_EM_T (Cnorm2 z) 0) as [E|E]; split; intros H; try discriminate; [apply Cnorm2_0; exact E|reflexivity|].
  exfalso. apply E. rewrite H. unfold Cnorm2, C0. cbn. ring.
Qed.
Lemma is0_false z : is0 z = false <-> z <> C0.
Proof. rewrite <- is0_true. destruct (is0 z); split; congruence. Qed.

Lemma weight_set t w : weight (set_weight t w) = w.
Proof. destruct t; reflexivity. Qed.

(** the product below the node *)
Definition below (t : dd) (p : list nat) : C :=
  match p, t with
  | i :: p', Inner _ ch => path_amp (nth i ch (Term C0 false)) p'
  | _, _ => C1
  end.
Lemma path_amp_below t p : path_amp t p = Cmul (weight t) (below t p).
Proof. destruct p, t; cbn; ring. Qed.
Lemma below_set t w p : below (set_weight t w) p = below t p.
Proof. destruct p, t; reflexivity. Qed.
Lemma path_amp_set t w p : path_amp (set_weight t w) p = Cmul w (below t p).
Proof. rewrite path_amp_below, weight_set, below_set. reflexivity. Qed.

Lemma sumR_fold l : fold_right Rplus 0%R l = sumR l.
Proof. induction l as [|x l IH]; cbn; [reflexivity|]. rewrite IH. reflexivity. Qed.
Lemma sumR_nonneg l : (forall x, In x l -> (0 <= x)%R) -> (0 <= sumR l)%R.
Proof. induction l as [|x l IH]; cbn; intros H; [lra|]. pose proof (H x (or_introl eq_refl)). specialize (IH (fun y Hy => H y (or_intror Hy))). lra. Qed.
Lemma sumR_zero l : (forall x, In x l -> (0 <= x)%R) -> sumR l = 0%R -> forall x, In x l -> x = 0%R.
Proof.
  induction l as [|y l IH]; cbn; intros H E x Hx; [contradiction|]. pose proof (H y (or_introl eq_refl)).
  pose proof (sumR_nonneg l (fun z Hz => H z (or_intror Hz))). destruct Hx as [->|Hx]; [lra|]. apply IH; [auto|lra|exact Hx].
Qed.
Lemma sumR_scal c l : sumR (map (Rmult c) l) = (c * sumR l)%R.
Proof. induction l as [|x l IH]; cbn; [ring|]. rewrite IH. ring. Qed.

Lemma norms_nonneg ws x : In x (map Cnorm2 ws) -> (0 <= x)%R.
Proof. intros H. apply in_map_iff in H. destruct H as (z & <- & _). apply Cnorm2_nonneg. Qed.
Lemma norm_of_sqr ws : (norm_of ws * norm_of ws)%R = sumR (map Cnorm2 ws).
Proof. unfold norm_of. rewrite sumR_fold. apply sqrt_sqrt. apply sumR_nonneg. apply norms_nonneg. Qed.
Lemma norm_of_nonneg ws : (0 <= norm_of ws)%R.
Proof. apply sqrt_pos. Qed.
Lemma norm_of_zero ws : norm_of ws = 0%R -> forall z, In z ws -> z = C0.
Proof.
  intros E z Hz. apply Cnorm2_0. apply (sumR_zero (map Cnorm2 ws)); [apply norms_nonneg| |apply in_map; exact Hz].
  rewrite <- norm_of_sqr, E. ring.
Qed.
Lemma Cdivr_mul z x : x <> 0%R -> Cmul (RtoC x) (Cdivr z x) = z.
Proof. intros N. destruct z as [a b]. unfold Cdivr, Cmul, RtoC. cbn. apply Ceq; cbn; field; exact N. Qed.
Lemma Cnorm2_divr z x : x <> 0%R -> Cnorm2 (Cdivr z x) = (/ (x * x) * Cnorm2 z)%R.
Proof. intros N. destruct z as [a b]. unfold Cdivr, Cnorm2. cbn. field. exact N. Qed.
Lemma Cdivr_0 z x : x <> 0%R -> Cdivr z x = C0 -> z = C0.
Proof. intros N E. rewrite <- (Cdivr_mul z x N), E. ring. Qed.

Lemma normalize_spec w ws : w <> C0 ->
  (norm_of ws = 0%R /\ normalize w ws = (C0, ws) /\ forall z, In z ws -> z = C0) \/
  (0 < norm_of ws)%R /\ normalize w ws = (Cmul w (RtoC (norm_of ws)), map (fun z => Cdivr z (norm_of ws)) ws) /\ Cmul w (RtoC (norm_of ws)) <> C0.
Proof.
  intros W. unfold normalize. destruct (Req_EM_T (norm_of ws) 0) as [E|E].
  - left. split; [exact E|]. split; [reflexivity|]. apply norm_of_zero. exact E.
  - right. pose proof (norm_of_nonneg ws). split; [lra|]. split; [reflexivity|]. intros X. apply Cmul_integral in X. destruct X as [X|X]; [contradiction|].
    apply E. apply RtoC_inj. rewrite X. apply RtoC_0.
Qed.
Lemma sum_normalized ws : (0 < norm_of ws)%R -> sumR (map (fun z => Cnorm2 (Cdivr z (norm_of ws))) ws) = 1%R.
Proof.
  intros P. rewrite (map_ext _ (fun z => (/ (norm_of ws * norm_of ws) * Cnorm2 z)%R)) by (intros z; apply Cnorm2_divr; lra).
  rewrite <- (map_map Cnorm2 (Rmult (/ (norm_of ws * norm_of ws)))), sumR_scal, <- norm_of_sqr. field. lra.
Qed.

Lemma reweigh_nth ch ws i t0 : List.length ws = List.length ch -> i < List.length ch -> nth i (reweigh ch ws) t0 = set_weight (nth i ch t0) (nth i ws C0).
Proof.
  revert ch i. induction ws as [|w ws IH]; intros [|c ch] i L H; cbn in *; try lia. destruct i as [|i]; [reflexivity|]. apply IH; lia.
Qed.
Lemma reweigh_length ch ws : List.length ws = List.length ch -> List.length (reweigh ch ws) = List.length ch.
Proof. intros L. unfold reweigh. rewrite map_length, combine_length, L. apply Nat.min_id. Qed.
Lemma reweigh_weights ch ws : List.length ws = List.length ch -> map weight (reweigh ch ws) = ws.
Proof.
  revert ch. induction ws as [|w ws IH]; intros [|c ch] L; cbn in *; try lia; [reflexivity|]. rewrite weight_set. f_equal. apply IH. lia.
Qed.
Lemma reweigh_in ch ws t : In t (reweigh ch ws) -> exists c w, In c ch /\ In w ws /\ t = set_weight c w.
Proof.
  intros H. unfold reweigh in H. apply in_map_iff in H. destruct H as ([c w] & <- & Hin). exists c, w. split; [|split; [|reflexivity]].
  - apply (in_combine_l _ _ _ _ Hin).
  - apply (in_combine_r _ _ _ _ Hin).
Qed.

(** the trees that occur: inner nodes have positive weights *)
Fixpoint good (dims : list nat) (t : dd) : Prop :=
  match dims with
  | [] => exists w b, t = Term w b
  | d :: r => (exists b, t = Term C0 b) \/
      exists x ch, t = Inner (RtoC x) ch /\ (0 < x)%R /\ List.length ch = d /\ sumR (map (fun c => Cnorm2 (weight c)) ch) = 1%R /\ Forall (good r) ch
  end.

Lemma good_inner r d x t w : good (d :: r) t -> (0 < x)%R -> w = Cdivr (weight t) x -> good (d :: r) (set_weight t w).
Proof.
  intros [(b & ->)|(y & ch & -> & Y & L & U & F)] X ->.
  - left. exists b. cbn. f_equal. unfold Cdivr, C0. cbn. apply Ceq; cbn; field; lra.
  - right. exists (y / x)%R, ch. split; [|split; [apply Rdiv_lt_0_compat; assumption|auto]]. cbn. f_equal. unfold Cdivr, RtoC. cbn. apply Ceq; cbn; field; lra.
Qed.
Lemma good_set dims t x w : good dims t -> (0 < x)%R -> w = Cdivr (weight t) x -> good dims (set_weight t w).
Proof.
  destruct dims as [|d r]; [|apply good_inner]. intros (v & b & ->) _ _. cbn. eauto.
Qed.
(** an inner node made of good children *)
Lemma good_node r d ch x : List.length ch = d -> Forall (good r) ch -> (0 < x)%R -> (0 < norm_of (map weight ch))%R ->
  good (d :: r) (Inner (RtoC x) (reweigh ch (map (fun z => Cdivr z (norm_of (map weight ch))) (map weight ch)))).
Proof.
  intros L F X N. right. exists x. eexists. split; [reflexivity|]. split; [exact X|]. split; [rewrite reweigh_length by (rewrite !map_length; reflexivity); exact L|]. split.
  - rewrite <- (map_map weight Cnorm2), reweigh_weights by (rewrite !map_length; reflexivity). rewrite map_map. apply (sum_normalized _ N).
  - apply Forall_forall. intros t Ht. set (n := norm_of (map weight ch)) in *.
    assert (K : exists i, i < List.length ch /\ t = set_weight (nth i ch (Term C0 false)) (Cdivr (weight (nth i ch (Term C0 false))) n)).
    { apply (In_nth _ _ (Term C0 false)) in Ht. destruct Ht as (i & Hi & <-). rewrite reweigh_length in Hi by (rewrite !map_length; reflexivity). exists i. split; [exact Hi|].
      rewrite reweigh_nth by (rewrite ?map_length; trivial). f_equal. rewrite map_map. rewrite (nth_indep _ C0 (Cdivr (weight (Term C0 false)) n)) by (rewrite map_length; exact Hi).
      apply (map_nth (fun t => Cdivr (weight t) n)). }
    destruct K as (i & Hi & ->). apply (good_set r _ n); [|exact N|reflexivity]. rewrite Forall_forall in F. apply F. apply nth_In. exact Hi.
Qed.

(** the parts of the data *)
Lemma part_length n i d (data : list C) : List.length data = d * n -> i < d -> List.length (part n i data) = n.
Proof. intros L H. unfold part. rewrite firstn_length, skipn_length, L. nia. Qed.
Lemma nth_firstn_lt {A} (l : list A) n j x : j < n -> nth j (firstn n l) x = nth j l x.
Proof. revert n j. induction l as [|a l IH]; intros [|n] [|j] H; cbn; try lia; trivial. apply IH. lia. Qed.
Lemma nth_skipn_add {A} (l : list A) n j x : nth j (skipn n l) x = nth (n + j) l x.
Proof. revert n. induction l as [|a l IH]; intros [|n]; cbn; trivial; [destruct j; reflexivity]. Qed.
Lemma part_nth n i j (data : list C) : j < n -> nth j (part n i data) C0 = nth (i * n + j) data C0.
Proof. intros H. unfold part. rewrite nth_firstn_lt by exact H. apply nth_skipn_add. Qed.

Lemma mapr_Forall2 {A B} (f : A -> res B) (P : A -> B -> Prop) l : (forall x, In x l -> exists y, f x = Ok y /\ P x y) -> exists ys, mapr f l = Ok ys /\ Forall2 P l ys.
Proof.
  induction l as [|x l IH]; intros H; cbn; [exists []; auto|]. destruct (H x (or_introl eq_refl)) as (y & E & Py). rewrite E. cbn [bindr].
  destruct IH as (ys & E2 & F); [auto with datatypes|]. rewrite E2. cbn [bindr]. exists (y :: ys). auto.
Qed.
Lemma Forall2_nth {A B} (P : A -> B -> Prop) l ys a b i : Forall2 P l ys -> i < List.length l -> P (nth i l a) (nth i ys b).
Proof. intros F. revert i. induction F as [|x y l ys Px F IH]; cbn; intros [|i] H; try lia; [exact Px|]. apply IH. lia. Qed.
Lemma Forall2_len {A B} (P : A -> B -> Prop) l ys : Forall2 P l ys -> List.length ys = List.length l.
Proof. induction 1; cbn; congruence. Qed.

Lemma valid_cons_inv d r i p : valid (d :: r) (i :: p) -> i < d /\ valid r p.
Proof. intros H. inversion H; subst. auto. Qed.
Lemma valid_nil_inv p : valid [] p -> p = [].
Proof. intros H. inversion H. reflexivity. Qed.
Lemma valid_cons_ex d r p : valid (d :: r) p -> exists i q, p = i :: q /\ i < d /\ valid r q.
Proof. intros H. inversion H; subst. eauto. Qed.

(** full_nodes counts the node itself *)
Lemma sum_count d m : fold_right Nat.add 0 (repeat (S m) d) = d * S m.
Proof. induction d as [|d IH]; cbn; [reflexivity|]. rewrite IH. reflexivity. Qed.
Lemma Forall2_counts {A B} (l : list A) (ys : list (B * nat)) m : Forall2 (fun _ y => snd y = m) l ys -> map (fun cn => 1 + snd cn) ys = repeat (S m) (List.length l).
Proof. induction 1 as [|x y l ys E F IH]; [reflexivity|]. cbn [map List.length repeat]. rewrite IH, E. reflexivity. Qed.

Lemma build_ok dims : forall data, (forall d, In d dims -> 0 < d) -> List.length data = prodl dims ->
  exists t, build dims data = Ok (t, full_nodes dims - 1) /\ good dims t /\ forall p, valid dims p -> path_amp t p = nth (undigits dims p) data C0.
Proof.
  induction dims as [|d r IH]; intros data D L.
  - destruct data as [|x data]; [cbn in L; lia|]. cbn. eexists. split; [reflexivity|]. split; [eauto|]. intros p V. apply valid_nil_inv in V. subst p. reflexivity.
  - cbn [build]. destruct d as [|d']; [pose proof (D 0 (or_introl eq_refl)); lia|]. set (d := S d') in *. cbn [prodl] in L.
    assert (N : List.length data / d = prodl r) by (rewrite L, Nat.mul_comm; apply Nat.div_mul; unfold d; lia). rewrite N.
    destruct (mapr_Forall2 (fun i => build r (part (prodl r) i data))
      (fun i (tn : dd * nat) => (good r (fst tn) /\ forall p, valid r p -> path_amp (fst tn) p = nth (undigits r p) (part (prodl r) i data) C0) /\ snd tn = full_nodes r - 1) (seq 0 d)) as (l & E & F).
    { intros i Hi. apply in_seq in Hi. destruct (IH (part (prodl r) i data)) as (t & B & G & A); [auto with datatypes|apply (part_length _ _ d); [exact L|lia]|].
      exists (t, full_nodes r - 1). auto. }
    rewrite E. cbn [bindr]. pose proof (Forall2_len _ _ _ F) as Ll. rewrite seq_length in Ll.
    set (ch := map fst l). assert (Lc : List.length ch = d) by (unfold ch; rewrite map_length; exact Ll).
    assert (Cn : fold_right Nat.add 0 (map (fun cn : dd * nat => 1 + snd cn) l) = full_nodes (d :: r) - 1).
    { assert (F' : Forall2 (fun (_ : nat) (y : dd * nat) => snd y = full_nodes r - 1) (seq 0 d) l) by (clear -F; induction F; constructor; tauto).
      rewrite (Forall2_counts _ _ _ F'), seq_length, sum_count. cbn [full_nodes]. assert (0 < full_nodes r) by (destruct r; cbn; lia). replace (S (full_nodes r - 1)) with (full_nodes r) by lia. lia. }
    rewrite Cn.
    assert (Ch : forall i, i < d -> good r (nth i ch (Term C0 false)) /\ forall p, valid r p -> path_amp (nth i ch (Term C0 false)) p = nth (i * prodl r + undigits r p) data C0).
    { intros i Hi. pose proof (Forall2_nth _ _ _ 0 (Term C0 false, 0) i F ltac:(rewrite seq_length; exact Hi)) as (( G & A) & _).
      rewrite seq_nth in A by exact Hi. cbn [plus] in A.
      assert (Q : nth i ch (Term C0 false) = fst (nth i l (Term C0 false, 0))) by (unfold ch; apply (map_nth fst l (Term C0 false, 0))). rewrite Q. split; [exact G|].
      intros p V. rewrite (A p V). apply part_nth. apply undigits_lt. exact V. }
    assert (Fc : Forall (good r) ch).
    { apply Forall_forall. intros c Hc. apply (In_nth _ _ (Term C0 false)) in Hc. destruct Hc as (i & Hi & <-). apply Ch. lia. }
    destruct (normalize_spec C1 (map weight ch) C1_neq_C0) as [(Nz & -> & Z)|(Np & -> & Nn)]; cbn [fst snd].
    + rewrite (proj2 (is0_true C0) eq_refl). eexists. split; [reflexivity|]. split; [left; eauto|]. intros p V.
      apply valid_cons_ex in V. destruct V as (i & q & -> & Hi & V). cbn [path_amp weight undigits]. rewrite <- (proj2 (Ch i Hi) q V), path_amp_below.
      rewrite (Z (weight (nth i ch (Term C0 false)))); [ring|]. apply in_map. apply nth_In. lia.
    + rewrite (proj2 (is0_false _) Nn). replace (Cmul C1 (RtoC (norm_of (map weight ch)))) with (RtoC (norm_of (map weight ch))) by ring.
      eexists. split; [reflexivity|]. split; [apply good_node; assumption|]. intros p V.
      apply valid_cons_ex in V. destruct V as (i & q & -> & Hi & V). cbn [path_amp undigits]. rewrite reweigh_nth by (rewrite ?map_length; lia). rewrite path_amp_set, <- (proj2 (Ch i Hi) q V), (path_amp_below (nth i ch _)).
      rewrite map_map. rewrite (nth_indep _ C0 (Cdivr (weight (Term C0 false)) (norm_of (map weight ch)))) by (rewrite map_length; lia).
      rewrite (map_nth (fun t => Cdivr (weight t) (norm_of (map weight ch)))). set (z := weight (nth i ch (Term C0 false))). set (n := norm_of (map weight ch)) in *.
      replace (Cmul (RtoC n) (Cmul (Cdivr z n) (below (nth i ch (Term C0 false)) q))) with (Cmul (Cmul (RtoC n) (Cdivr z n)) (below (nth i ch (Term C0 false)) q)) by ring.
      rewrite Cdivr_mul by lra. reflexivity.
Qed.

Lemma create_ok dims data : (forall d, In d dims -> 0 < d) -> List.length data = prodl dims ->
  exists t, create_decision_tree dims data = Ok (t, full_nodes dims) /\ good dims t /\ forall p, valid dims p -> path_amp t p = nth (undigits dims p) data C0.
Proof.
  intros D L. destruct (build_ok dims data D L) as (t & B & G & A). exists t. split; [|auto]. unfold create_decision_tree. rewrite B. cbn. do 2 f_equal. destruct dims; cbn; lia.
Qed.

Lemma good_well_formed dims : forall t, good dims t -> well_formed dims t.
Proof.
  induction dims as [|d r IH]; intros t G p w ch E.
  - destruct G as (v & b & ->). destruct p; cbn in E; discriminate.
  - destruct G as [(b & ->)|(x & c & -> & X & L & U & F)]; [destruct p; cbn in E; discriminate|]. destruct p as [|i p].
    + cbn in E. injection E as <- <-. cbn. split; [f_equal; symmetry; exact L|exact U].
    + cbn in E. destruct (nth_error c i) as [ci|] eqn:Q; [|discriminate]. apply nth_error_In in Q. rewrite Forall_forall in F. apply (IH ci (F ci Q) p w ch E).
Qed.
