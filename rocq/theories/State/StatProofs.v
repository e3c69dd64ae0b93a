(** Approximation of single branches and statistics (C95, C96). *)
From Coq Require Import Reals List Arith Lia Lra ZArith.
From Verif.Base Require Import Py Cplx Matrix Radix.
From Verif.Sim Require Import TnSpec TnProofs.
From Verif.Local Require Import QrMath.
From Verif.State Require Import DdModel DdSpec DdProofs CutProofs Synth StatModel StatSpec.
Import ListNotations.
Local Open Scope nat_scope.

(** *** the approximation is trimming, then renormalisation *)
Fixpoint trimmed (tol : R) (w : C) (t : dd) : dd :=
  match t with Term _ b => Term w b | Inner _ ch => Inner w (map (fun c => trimmed tol (trim tol (weight c)) c) ch) end.
Lemma dd_ind' (P : dd -> Prop) : (forall w b, P (Term w b)) -> (forall w ch, Forall P ch -> P (Inner w ch)) -> forall t, P t.
Proof.
  intros A B. fix IH 1. intros [w b|w ch]; [apply A|]. apply B. induction ch as [|c ch F]; constructor; [apply IH|exact F].
Qed.
Lemma approximate_split tol : forall t w, approximate tol w t = normalize_all (trimmed tol w t).
Proof.
  induction t as [v b|v ch F] using dd_ind'; intros w; [reflexivity|]. cbn [approximate trimmed normalize_all].
  assert (E : map normalize_all (map (fun c => trimmed tol (trim tol (weight c)) c) ch) = map (fun c => approximate tol (trim tol (weight c)) c) ch).
  { rewrite map_map. apply map_ext_in. intros c Hc. symmetry. rewrite Forall_forall in F. apply F. exact Hc. }
  rewrite E. reflexivity.
Qed.
Lemma trim_cases tol w : trim tol w = w \/ trim tol w = C0 /\ (Cnorm2 w < tol)%R.
Proof. unfold trim. destruct (Rlt_dec (Cnorm2 w) tol); [|auto]. destruct (is0 w); cbn; auto. Qed.
Lemma trim_big tol w : (tol <= Cnorm2 w)%R -> trim tol w = w.
Proof. intros H. destruct (trim_cases tol w) as [E|[_ X]]; [exact E|lra]. Qed.
Lemma trim_small tol w : (Cnorm2 w < tol)%R -> trim tol w = C0.
Proof. intros H. unfold trim. destruct (Rlt_dec (Cnorm2 w) tol); [|lra]. destruct (is0 w) eqn:E; cbn; [apply is0_true; exact E|reflexivity]. Qed.
Lemma trimmed_weight tol w t : weight (trimmed tol w t) = w.
Proof. destruct t; reflexivity. Qed.

Lemma trimmed_shaped tol dims : forall t w, good dims t -> w = weight t \/ w = C0 -> shaped dims (trimmed tol w t).
Proof.
  induction dims as [|d r IH]; intros t w G W.
  - destruct G as (v & b & ->). cbn. eauto.
  - destruct G as [(b & ->)|(x & ch & -> & X & L & U & F)].
    + left. cbn in *. destruct W as [-> | ->]; eauto.
    + right. cbn [trimmed]. cbn [weight] in W. exists (if is0 w then 0%R else x). eexists. split; [f_equal; destruct (is0 w) eqn:E|].
      * apply is0_true in E. rewrite E. symmetry. apply RtoC_0.
      * apply is0_false in E. destruct W as [W|W]; [exact W|contradiction].
      * split; [destruct (is0 w); lra|]. split; [rewrite map_length; exact L|]. apply Forall_forall. intros c Hc. apply in_map_iff in Hc. destruct Hc as (c0 & <- & Hc).
        apply IH; [rewrite Forall_forall in F; apply F; exact Hc|]. destruct (trim_cases tol (weight c0)) as [-> | [-> _]]; auto.
Qed.

(** the amplitudes of the trimmed tree *)
Lemma nth_trimmed tol ch i : i < List.length ch -> nth i (map (fun c => trimmed tol (trim tol (weight c)) c) ch) dead = trimmed tol (trim tol (weight (nth i ch dead))) (nth i ch dead).
Proof. intros H. rewrite (nth_indep _ dead (trimmed tol (trim tol (weight dead)) dead)) by (rewrite map_length; exact H). apply (map_nth (fun c => trimmed tol (trim tol (weight c)) c)). Qed.
(** a branch of little weight on the way down *)
Fixpoint light (tol : R) (t : dd) (q : list nat) : Prop :=
  match q, t with
  | i :: q', Inner _ ch => (Cnorm2 (weight (nth i ch dead)) < tol)%R \/ light tol (nth i ch dead) q'
  | _, _ => False
  end.
Lemma trimmed_below tol dims : forall t w q, good dims t -> valid dims q -> (light tol t q -> path_amp (trimmed tol w t) q = C0) /\ (~ light tol t q -> path_amp (trimmed tol w t) q = Cmul w (below t q)).
Proof.
  induction dims as [|d r IH]; intros t w q G V.
  - destruct G as (v & b & ->). apply valid_nil_inv in V. subst q. cbn. split; [contradiction|intros _; ring].
  - apply valid_cons_ex in V. destruct V as (i & q' & -> & Hi & V). destruct G as [(b & ->)|(x & ch & -> & X & L & U & F)]; [cbn; split; [contradiction|intros _; ring]|].
    cbn [light trimmed path_amp below]. change (Term C0 false) with dead. rewrite nth_trimmed by lia. set (c := nth i ch dead). assert (G : good r c) by (rewrite Forall_forall in F; apply F; apply nth_In; lia).
    split.
    + intros [H|H].
      * rewrite trim_small by exact H. rewrite (path_amp_below (trimmed _ _ _)), trimmed_weight. ring.
      * rewrite (proj1 (IH c _ q' G V) H). ring.
    + intros N. assert (N1 : (tol <= Cnorm2 (weight c))%R) by (destruct (Rlt_le_dec (Cnorm2 (weight c)) tol); [exfalso; apply N; left; assumption|assumption]).
      rewrite trim_big by exact N1. rewrite (proj2 (IH c _ q' G V)) by (intros H; apply N; right; exact H). rewrite (path_amp_below c). reflexivity.
Qed.
Lemma trimmed_amp tol dims t q : good dims t -> valid dims q -> (light tol t q -> path_amp (trimmed tol (weight t) t) q = C0) /\ (~ light tol t q -> path_amp (trimmed tol (weight t) t) q = path_amp t q).
Proof. intros G V. rewrite (path_amp_below t). apply (trimmed_below tol dims t (weight t) q G V). Qed.

(** a branch of little weight is a small branch *)
Lemma light_split tol dims : forall t q, good dims t -> valid dims q ->
  (light tol t q <-> exists p i s w ch, q = p ++ i :: s /\ node_at t p = Some (Inner w ch) /\ i < List.length ch /\ (Cnorm2 (weight (nth i ch dead)) < tol)%R).
Proof.
  induction dims as [|d r IH]; intros t q G V.
  - destruct G as (v & b & ->). apply valid_nil_inv in V. subst q. cbn. split; [contradiction|]. intros (p & i & s & w & ch & E & _). destruct p; discriminate.
  - apply valid_cons_ex in V. destruct V as (i & q' & -> & Hi & V). destruct G as [(b & ->)|(x & ch & -> & X & L & U & F)].
    + cbn. split; [contradiction|]. intros (p & j & s & w & ch & E & N & _). destruct p; discriminate.
    + cbn [light]. assert (G : good r (nth i ch dead)) by (rewrite Forall_forall in F; apply F; apply nth_In; lia). rewrite (IH _ _ G V). assert (Q : nth_error ch i = Some (nth i ch dead)) by (apply nth_error_nth'; lia). split.
      * intros [H|(p & j & s & w & ch' & -> & N & Hj & W)].
        -- exists [], i, q', (RtoC x), ch. repeat split; trivial. lia.
        -- exists (i :: p), j, s, w, ch'. cbn [node_at app]. rewrite Q. auto.
      * intros (p & j & s & w & ch' & E & N & Hj & W). destruct p as [|k p]; cbn [app] in E; injection E as <- ->.
        -- cbn in N. injection N as <- <-. auto.
        -- right. cbn [node_at] in N. rewrite Q in N. eauto 10.
Qed.
Lemma light_small dims t tol q : good dims t -> valid dims q -> path_amp t q <> C0 -> (light tol t q <-> cut_off dims (tree_state dims t) tol q).
Proof.
  intros G V N. rewrite (light_split tol dims t q G V). unfold cut_off, small.
  assert (KEY : forall p i s w ch, q = p ++ i :: s -> node_at t p = Some (Inner w ch) -> i < List.length ch ->
    ((Cnorm2 (weight (nth i ch dead)) < tol)%R <-> (prob_below dims (tree_state dims t) (p ++ [i]) < tol * prob_below dims (tree_state dims t) p)%R)).
  { intros p i s w ch E A Hi. assert (Q : nth_error ch i = Some (nth i ch dead)) by (apply nth_error_nth'; exact Hi).
    rewrite (node_prob dims t p (Inner w ch) G A). rewrite (node_prob dims t (p ++ [i]) (nth i ch dead) G) by (rewrite (node_at_app p t [i] _ A); cbn; rewrite Q; reflexivity).
    rewrite (path_amp_snoc p t w ch i _ A Q), Cnorm2_mul.
    assert (P : (0 < Cnorm2 (path_amp t p))%R).
    { destruct (node_exists dims t p (i :: s) G) as (u & _ & Nz); [rewrite <- E; exact V|rewrite <- E; exact N|]. destruct (Cnorm2_nonneg (path_amp t p)) as [H|H]; [exact H|]. exfalso. apply Nz. apply Cnorm2_0. symmetry. exact H. }
    split; intros H; nra. }
  split.
  - intros (p & i & s & w & ch & E & A & Hi & W). exists p, i. split; [exists s; rewrite E, <- app_assoc; reflexivity|]. apply (KEY p i s w ch E A Hi). exact W.
  - intros (p & i & (s & E) & W). rewrite <- app_assoc in E. cbn [app] in E.
    assert (B := E). destruct (node_exists dims t (p ++ [i]) s G) as (u & A & _); [rewrite <- app_assoc; cbn [app]; rewrite <- E; exact V|rewrite <- app_assoc; cbn [app]; rewrite <- E; exact N|].
    destruct (node_exists dims t p (i :: s) G) as (u' & A' & _); [rewrite <- E; exact V|rewrite <- E; exact N|].
    rewrite (node_at_app p t [i] u' A') in A. destruct u' as [w b|w ch]; [discriminate A|]. cbn in A. destruct (nth_error ch i) as [c|] eqn:Q; [|discriminate A].
    assert (Hi : i < List.length ch) by (apply nth_error_Some; congruence).
    exists p, i, s, w, ch. repeat split; trivial. apply (KEY p i s w ch E A' Hi). exact W.
Qed.

(** *** what is lost *)
Lemma trimmed_loss tol dims : (0 <= tol)%R -> forall t w, good dims t -> 
  (rsum (prodl dims) (fun k => Cnorm2 (Csub (path_amp (set_weight t w) (digits dims k)) (path_amp (trimmed tol w t) (digits dims k)))) <= tol * INR (sum_dims dims) * Cnorm2 w)%R.
Proof.
  intros T. induction dims as [|d r IH]; intros t w G.
  - destruct G as (v & b & ->). cbn. unfold Csub, Cnorm2. cbn. right. ring.
  - destruct G as [(b & ->)|(x & ch & -> & X & L & U & F)].
    + cbn [set_weight trimmed]. rewrite rsum_0; [|intros k Hk; unfold Csub, Cnorm2; cbn; ring].
      apply Rmult_le_pos; [apply Rmult_le_pos; [exact T|apply pos_INR]|apply Cnorm2_nonneg].
    + cbn [set_weight]. rewrite (rsum_basis d r (fun q => Cnorm2 (Csub (path_amp (Inner w ch) q) (path_amp (trimmed tol w (Inner (RtoC x) ch)) q)))). cbn [path_amp trimmed]. change (Term C0 false) with dead.
      apply Rle_trans with (rsum d (fun i => (Cnorm2 w * (tol + tol * INR (sum_dims r) * nth i (map (fun c => Cnorm2 (weight c)) ch) 0))%R)).
      * apply rsum_le. intros i Hi. rewrite nth_trimmed by lia. set (c := nth i ch dead). assert (G : good r c) by (rewrite Forall_forall in F; apply F; apply nth_In; lia).
        rewrite (rsum_ext _ _ (fun j => (Cnorm2 w * Cnorm2 (Csub (path_amp c (digits r j)) (path_amp (trimmed tol (trim tol (weight c)) c) (digits r j))))%R)) by (intros j _; rewrite <- Cnorm2_mul; f_equal; ring).
        rewrite rsum_scal. apply Rmult_le_compat_l; [apply Cnorm2_nonneg|].
        replace (nth i (map (fun c => Cnorm2 (weight c)) ch) 0%R) with (Cnorm2 (weight c)) by (rewrite (nth_indep _ 0%R (Cnorm2 (weight dead))) by (rewrite map_length; lia); symmetry; apply (map_nth (fun c => Cnorm2 (weight c)))).
        assert (S0 : (0 <= tol * INR (sum_dims r) * Cnorm2 (weight c))%R) by (apply Rmult_le_pos; [apply Rmult_le_pos; [exact T|apply pos_INR]|apply Cnorm2_nonneg]).
        destruct (Rlt_le_dec (Cnorm2 (weight c)) tol) as [S|S].
        -- rewrite trim_small by exact S. rewrite (rsum_ext _ _ (fun j => Cnorm2 (path_amp c (digits r j)))).
           ++ rewrite (tree_norm r c G). lra.
           ++ intros j _. f_equal. rewrite (path_amp_below (trimmed _ _ _)), trimmed_weight. ring.
        -- rewrite trim_big by exact S. assert (B := IH c (weight c) G). replace (set_weight c (weight c)) with c in B by (destruct c; reflexivity). lra.
      * rewrite rsum_scal, rsum_add, rsum_scal, rsum_list, U by (rewrite map_length; exact L). rewrite rsum_const. cbn [sum_dims fold_right]. fold (sum_dims r). rewrite plus_INR. right. ring.
Qed.

Theorem approximation_ok dims data t n tol : (forall d, In d dims -> 1 < d) -> List.length data = prodl dims -> create_decision_tree dims data = Ok (t, n) ->
  let t' := dd_approximation tol t in
  well_formed dims t' /\
  (forall k, k < prodl dims -> cut_off dims (vec_of data) tol (digits dims k) -> tree_state dims t' k = C0) /\
  (forall k, k < prodl dims -> ~ cut_off dims (vec_of data) tol (digits dims k) -> tree_state dims t' k = nth k data C0) /\
  ((0 <= tol)%R -> (norm2 (prodl dims) (fun k => Csub (nth k data C0) (tree_state dims t' k)) <= tol * INR (sum_dims dims) * norm2 (prodl dims) (vec_of data))%R).
Proof.
  intros D L E t'. assert (D0 : forall d, In d dims -> 0 < d) by (intros d H; specialize (D d H); lia). destruct (created dims data t n D0 L E) as (G & A).
  assert (SH : shaped dims (trimmed tol (weight t) t)) by (apply trimmed_shaped; auto). destruct (normalize_all_ok dims D _ SH) as (GN & AN).
  assert (T' : t' = normalize_all (trimmed tol (weight t) t)) by (apply approximate_split). rewrite T'. clear t' T'.
  assert (EXT : forall q, cut_off dims (vec_of data) tol q <-> cut_off dims (tree_state dims t) tol q).
  { intros q. unfold cut_off, small. split; intros (p & i & P & W); exists p, i; (split; [exact P|]).
    - rewrite !(prob_below_ext dims (tree_state dims t) (vec_of data)) by exact A. exact W.
    - rewrite !(prob_below_ext dims (tree_state dims t) (vec_of data)) in W by exact A. exact W. }
  assert (AM : forall k, k < prodl dims -> tree_state dims (normalize_all (trimmed tol (weight t) t)) k = path_amp (trimmed tol (weight t) t) (digits dims k)).
  { intros k Hk. unfold tree_state. apply AN. apply valid_digits. exact Hk. }
  assert (CL : forall q, valid dims q -> (light tol t q \/ ~ light tol t q)).
  { intros q Vq. clear. revert t. induction q as [|i q IH]; intros t; [right; cbn; destruct t; auto|]. destruct t as [w b|w ch]; [right; cbn; auto|]. cbn [light].
    destruct (Rlt_le_dec (Cnorm2 (weight (nth i ch dead))) tol); [auto|]. destruct (IH (nth i ch dead)) as [Y|Y]; [auto|]. right. intros [H|H]; [lra|contradiction]. }
  split; [apply good_well_formed; exact GN|]. split; [|split].
  - intros k Hk C. rewrite AM by exact Hk. assert (V := valid_digits dims k Hk). destruct (trimmed_amp tol dims t (digits dims k) G V) as [T1 T2].
    destruct (CL _ V) as [Li|Li]; [apply T1; exact Li|]. rewrite T2 by exact Li. destruct (is0 (path_amp t (digits dims k))) eqn:Z; [apply is0_true; exact Z|]. apply is0_false in Z.
    exfalso. apply Li. apply (light_small dims t tol _ G V Z). apply EXT. exact C.
  - intros k Hk C. rewrite AM by exact Hk. assert (V := valid_digits dims k Hk). destruct (trimmed_amp tol dims t (digits dims k) G V) as [T1 T2].
    rewrite <- (A k Hk). unfold tree_state. destruct (CL _ V) as [Li|Li]; [|apply T2; exact Li]. rewrite T1 by exact Li. destruct (is0 (path_amp t (digits dims k))) eqn:Z; [symmetry; apply is0_true; exact Z|]. apply is0_false in Z.
    exfalso. apply C. apply EXT. apply (light_small dims t tol _ G V Z). exact Li.
  - intros T. assert (B := trimmed_loss tol dims T t (weight t) G). replace (set_weight t (weight t)) with t in B by (destruct t; reflexivity).
    replace (norm2 (prodl dims) (vec_of data)) with (Cnorm2 (weight t)).
    + unfold norm2. rewrite (rsum_ext _ _ (fun k => Cnorm2 (Csub (path_amp t (digits dims k)) (path_amp (trimmed tol (weight t) t) (digits dims k))))); [exact B|].
      intros k Hk. rewrite AM by exact Hk. rewrite <- (A k Hk). reflexivity.
    + rewrite <- (tree_norm dims t G). unfold norm2. apply rsum_ext. intros k Hk. rewrite <- (A k Hk : tree_state dims t k = vec_of data k). reflexivity.
Qed.

(** *** counting after the reduction *)
Lemma good_nonzero_child r d x ch : good (d :: r) (Inner (RtoC x) ch) -> exists c, In c ch /\ weight c <> C0.
Proof.
  intros [(b & E)|(y & ch' & E & _ & L & U & F)]; [discriminate E|]. injection E as _ <-.
  destruct (existsb (fun c => negb (is0 (weight c))) ch) eqn:Q.
  - apply existsb_exists in Q. destruct Q as (c & Hc & N). exists c. split; [exact Hc|]. apply is0_false. destruct (is0 (weight c)); [discriminate N|reflexivity].
  - exfalso. assert (Z : forall c, In c ch -> weight c = C0).
    { intros c Hc. apply is0_true. destruct (is0 (weight c)) eqn:W; [reflexivity|]. assert (X : existsb (fun c => negb (is0 (weight c))) ch = true) by (apply existsb_exists; exists c; rewrite W; auto). congruence. }
    rewrite (map_ext_in _ (fun _ => 0%R)) in U by (intros c Hc; rewrite (Z c Hc); unfold Cnorm2, C0; cbn; ring).
    assert (S : forall l : list dd, sumR (map (fun _ => 0%R) l) = 0%R) by (induction l as [|a l IH]; cbn; [reflexivity|rewrite IH; ring]). rewrite S in U. lra.
Qed.
Lemma sum_le l m : Forall (fun x => x <= m) l -> fold_right Nat.add 0 l <= List.length l * m.
Proof. induction 1 as [|x l H F IH]; cbn; lia. Qed.
Lemma mapr_some {A B} (f : A -> res B) (P : B -> Prop) l : (forall x, In x l -> exists y, f x = Ok y /\ P y) -> exists ys, mapr f l = Ok ys /\ Forall P ys /\ List.length ys = List.length l.
Proof.
  induction l as [|x l IH]; intros H; cbn; [exists []; auto|]. destruct (H x (or_introl eq_refl)) as (y & E & Py). rewrite E. cbn [bindr].
  destruct IH as (ys & Es & F & L); [intros z Hz; apply H; right; exact Hz|]. rewrite Es. cbn [bindr]. exists (y :: ys). cbn. auto.
Qed.
Lemma count_ok hash dims : forall t, good dims t -> exists c, count_nodes_after hash t = Ok c /\ 1 <= c <= full_nodes dims.
Proof.
  induction dims as [|d r IH]; intros t G.
  - destruct G as (w & b & ->). cbn. eauto.
  - assert (G0 := G). destruct G as [(b & ->)|(x & ch & -> & X & L & U & F)]; [exists 1; cbn; split; [reflexivity|lia]|].
    destruct (reduced_ok hash ch (good_nonzero_child r d x ch G0)) as (red & R). cbn [count_nodes_after]. rewrite R. cbn [bindr].
    destruct (mapr_some (fun i => match nth_error (map (count_nodes_after hash) ch) i with Some r0 => r0 | None => Err IndexError end) (fun c => c <= full_nodes r)
      (if red then firstn 1 (children_index hash ch) else children_index hash ch)) as (l & E & Fl & Ll).
    + intros i Hi. assert (Hi' : In i (children_index hash ch)) by (destruct red; [|exact Hi]; destruct (children_index hash ch); [contradiction|]; cbn in Hi; destruct Hi as [<-|[]]; left; reflexivity).
      unfold children_index in Hi'. apply in_map_iff in Hi'. destruct Hi' as (c & <- & Hc). destruct (first_like_spec hash ch c Hc) as (c' & N & _).
      rewrite nth_error_map, N. cbn [option_map]. destruct (IH c') as (n & En & Bn); [rewrite Forall_forall in F; apply F; apply (nth_error_In _ _ N)|]. exists n. split; [exact En|lia].
    + rewrite E. cbn [bindr]. eexists. split; [reflexivity|]. apply sum_le in Fl. assert (List.length l <= d).
      { rewrite Ll. assert (Lc : List.length (children_index hash ch) = d) by (unfold children_index; rewrite map_length; exact L). destruct red; [rewrite firstn_length; lia|lia]. }
      cbn [full_nodes]. nia.
Qed.

(** *** the set of weights *)
Fixpoint flagged (t : dd) : Prop :=
  match t with Term w b => b = negb (is0 w) | Inner _ ch => fold_right (fun c P => flagged c /\ P) True ch end.
Lemma flagged_all ch : fold_right (fun c P => flagged c /\ P) True ch <-> Forall flagged ch.
Proof. induction ch as [|c ch IH]; cbn; split; intros H; [constructor|exact I| |]. - destruct H. constructor; [assumption|apply IH; assumption]. - inversion H; subst. split; [assumption|apply IH; assumption]. Qed.
Lemma is0_divr z x : x <> 0%R -> is0 (Cdivr z x) = is0 z.
Proof.
  intros N. destruct (is0 z) eqn:E.
  - apply is0_true in E. rewrite E. apply is0_true. unfold Cdivr, C0. cbn. f_equal; field; exact N.
  - apply is0_false in E. apply is0_false. intros Z. apply E. exact (DdProofs.Cdivr_0 z x N Z).
Qed.
Lemma flagged_set t x : x <> 0%R -> flagged t -> flagged (set_weight t (Cdivr (weight t) x)).
Proof. intros N. destruct t as [w b|w ch]; cbn; [|trivial]. intros ->. rewrite is0_divr by exact N. reflexivity. Qed.
Lemma flagged_reweigh x ch : x <> 0%R -> Forall flagged ch -> Forall flagged (reweigh ch (map (fun z => Cdivr z x) (map weight ch))).
Proof. intros N. induction 1 as [|c ch Hc F IH]; cbn; constructor; [apply flagged_set; assumption|exact IH]. Qed.
Lemma build_flagged dims : forall data t n, build dims data = Ok (t, n) -> flagged t.
Proof.
  induction dims as [|d r IH]; intros data t n E; cbn [build] in E.
  - destruct data as [|z data]; [discriminate|]. injection E as <- _. reflexivity.
  - destruct d as [|d]; [discriminate|]. set (m := List.length data / S d) in E. destruct (mapr (fun i => build r (part m i data)) (seq 0 (S d))) as [l|] eqn:M; [|discriminate]. cbn [bindr] in E.
    assert (F : Forall flagged (map fst l)).
    { clear E. revert l M. generalize (seq 0 (S d)). induction l as [|i l0 IHl]; intros l M; cbn [mapr] in M; [injection M as <-; constructor|].
      destruct (build r (part m i data)) as [[t' n']|] eqn:B; [|cbn in M; discriminate M]. cbn [bindr] in M. destruct (mapr (fun i => build r (part m i data)) l0) as [l1|] eqn:M1; [|discriminate M]. cbn [bindr] in M. injection M as <-. cbn. constructor; [apply (IH _ _ _ B)|apply IHl; reflexivity]. }
    unfold normalize in E. destruct (Req_EM_T (norm_of (map weight (map fst l))) 0) as [Z|Z]; cbn [fst snd] in E.
    + destruct (is0 C0) eqn:I; [|apply is0_false in I; congruence]. injection E as <- _. cbn. rewrite I. reflexivity.
    + destruct (is0 _) eqn:I in E; injection E as <- _; cbn [flagged]; [rewrite I; reflexivity|]. apply flagged_all. apply flagged_reweigh; assumption.
Qed.
Lemma weights_in z zw t : In z (unique_weights zw t) -> (exists p s, node_at t p = Some s /\ weight s = z) \/ (exists p w b, node_at t p = Some (Term w b) /\ z = if b then C1 else zw).
Proof.
  induction t as [w b|w ch F] using dd_ind'; cbn [unique_weights].
  - intros [<-|[<-|[]]]; [left; exists [], (Term w b); auto|right; exists [], w, b; auto].
  - intros [<-|H]; [left; exists [], (Inner w ch); auto|]. apply in_flat_map in H. destruct H as (c & Hc & H). apply In_nth_error in Hc. destruct Hc as (i & Hi). rewrite Forall_forall in F.
    destruct (F c (nth_error_In _ _ Hi) H) as [(p & s & N & W)|(p & v & b & N & W)].
    + left. exists (i :: p), s. cbn. rewrite Hi. auto.
    + right. exists (i :: p), v, b. cbn. rewrite Hi. auto.
Qed.
Lemma weights_node zw t : forall p s, node_at t p = Some s -> In (weight s) (unique_weights zw t) /\ (forall w b, s = Term w b -> In (if b then C1 else zw) (unique_weights zw t)).
Proof.
  induction t as [w b|w ch F] using dd_ind'; intros p s N.
  - destruct p; [|discriminate]. injection N as <-. cbn. split; [auto|]. intros v b' E. injection E as <- <-. auto.
  - destruct p as [|i p]; cbn in N; [injection N as <-; cbn; split; [auto|discriminate]|]. destruct (nth_error ch i) as [c|] eqn:Q; [|discriminate]. rewrite Forall_forall in F.
    destruct (F c (nth_error_In _ _ Q) p s N) as [A B]. cbn [unique_weights]. split.
    + right. apply in_flat_map. exists c. split; [apply (nth_error_In _ _ Q)|exact A].
    + intros v b E. right. apply in_flat_map. exists c. split; [apply (nth_error_In _ _ Q)|apply (B v b E)].
Qed.
Lemma flagged_node t : forall p w b, flagged t -> node_at t p = Some (Term w b) -> b = negb (is0 w).
Proof.
  induction t as [w b|w ch F] using dd_ind'; intros p v b' H N.
  - destruct p; [|discriminate]. injection N as <- <-. exact H.
  - destruct p as [|i p]; cbn in N; [discriminate|]. destruct (nth_error ch i) as [c|] eqn:Q; [|discriminate]. cbn in H. apply flagged_all in H. rewrite Forall_forall in F, H. apply (F c (nth_error_In _ _ Q) p v b'); [apply H; apply (nth_error_In _ _ Q)|exact N].
Qed.
Lemma leaf_nonzero dims : forall t q, good dims t -> valid dims q -> path_amp t q <> C0 -> exists w b, node_at t q = Some (Term w b) /\ w <> C0.
Proof.
  induction dims as [|d r IH]; intros t q G V N.
  - destruct G as (w & b & ->). apply valid_nil_inv in V. subst q. cbn in *. eauto.
  - apply valid_cons_ex in V. destruct V as (i & q' & -> & Hi & V). destruct G as [(b & ->)|(x & ch & -> & X & L & U & F)]; [exfalso; apply N; reflexivity|].
    cbn [path_amp node_at] in *. change (Term C0 false) with dead in N. assert (Q : nth_error ch i = Some (nth i ch dead)) by (apply nth_error_nth'; lia). rewrite Q.
    apply IH; [rewrite Forall_forall in F; apply F; apply (nth_error_In _ _ Q)|exact V|]. intros Z. apply N. rewrite Z. ring.
Qed.
Theorem unique_ok dims data t n zw : (forall d, In d dims -> 0 < d) -> List.length data = prodl dims -> create_decision_tree dims data = Ok (t, n) ->
  (exists k, k < prodl dims /\ nth k data C0 <> C0) -> zw = C0 \/ zw = C1 ->
  forall z, In z (unique_weights zw t) <-> z = C1 \/ exists p s, node_at t p = Some s /\ weight s = z.
Proof.
  intros D L E (k & Hk & Nk) Z z. destruct (created dims data t n D L E) as (G & A).
  assert (FL : flagged t). { unfold create_decision_tree in E. destruct (build dims data) as [[t' n']|] eqn:B; [|discriminate]. cbn in E. injection E as <- _. apply (build_flagged _ _ _ _ B). }
  assert (ONE : In C1 (unique_weights zw t)).
  { assert (V := valid_digits dims k Hk). rewrite <- (A k Hk) in Nk. destruct (leaf_nonzero dims t _ G V Nk) as (w & b & N & W). destruct (weights_node zw t _ _ N) as [_ B]. specialize (B w b eq_refl).
    rewrite (flagged_node t _ w b FL N), (proj2 (is0_false w) W) in B. exact B. }
  split.
  - intros H. destruct (weights_in z zw t H) as [(p & s & N & W)|(p & w & b & N & ->)]; [right; eauto|].
    assert (Fb := flagged_node t p w b FL N). destruct b; [auto|]. destruct Z as [-> | ->]; [|auto]. right. exists p, (Term w false). split; [exact N|]. cbn. apply is0_true. destruct (is0 w); [reflexivity|discriminate Fb].
  - intros [->|(p & s & N & <-)]; [exact ONE|]. apply (weights_node zw t p s N).
Qed.
