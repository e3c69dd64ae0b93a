(** State preparation (C36): what the gates prepare, and when they are returned. *)
From Coq Require Import Reals List Arith ZArith Lia Lra Sorted.
From Verif.Base Require Import Py Cplx Matrix Radix.
From Verif.Circuit Require Import GateModel.
From Verif.Sim Require Import TnModel TnSpec TnProofs.
From Verif.Local Require Import QrMath.
From Verif.Levels Require Import LevelsProofs.
From Verif.Variational Require Import EmitProofs FidelityProofs.
From Verif.State Require Import DdModel DdSpec DdProofs CutProofs PrepModel PrepSpec OpAct LocalSeq Synth Drop.
Import ListNotations.
Local Open Scope nat_scope.

Section Hash.
Variable hash : list (Z * C) -> Z.
Notation no_clash := (no_clash hash).

Lemma aggregate_ok dims : forall t, good dims t -> aggregate hash dims t = Ok tt.
Proof.
  induction dims as [|d r IH]; intros t G; [reflexivity|]. destruct G as [(b & ->)|(x & ch & -> & X & L & U & F)]; [reflexivity|]. cbn [aggregate]. rewrite Forall_forall in F.
  destruct (mapr_Forall2 (fun i => match nth_error ch i with Some c => aggregate hash r c | None => Err IndexError end) (fun _ _ => True) (nodup Nat.eq_dec (children_index hash ch))) as (us & E & _).
  - intros i Hi. apply nodup_In in Hi. unfold children_index in Hi. apply in_map_iff in Hi. destruct Hi as (c & <- & Hc). destruct (first_like_spec hash ch c Hc) as (c' & E & _). rewrite E. exists tt. split; [|trivial]. apply IH. apply F. apply (nth_error_In _ _ E).
  - rewrite E. cbn [bindr]. destruct (reduced_ok hash ch (sum_nonzero ch U)) as (b & ->). reflexivity.
Qed.

Definition start (xs : list nat) : C := if forallb (Nat.eqb 0) xs then C1 else C0.
Lemma digits_zero dims k : (forall d, In d dims -> 0 < d) -> k < prodl dims -> start (digits dims k) = ket 0 k.
Proof.
  intros D Hk. unfold start, ket. pose proof (valid_digits dims k Hk) as V. destruct (forallb (Nat.eqb 0) (digits dims k)) eqn:E.
  - apply (zeros_spec dims _ V) in E. assert (K : k = 0); [|rewrite K; reflexivity]. rewrite <- (undigits_digits dims k Hk), E. clear. induction dims as [|d r IH]; cbn; [reflexivity|]. unfold zeros in IH. rewrite IH. lia.
  - destruct (Nat.eqb_spec k 0) as [->|]; [|reflexivity]. exfalso. assert (Z : digits dims 0 = zeros dims).
    { rewrite <- (digits_undigits dims (zeros dims)); [|apply zeros_valid; exact D]. f_equal. clear. induction dims as [|d r IH]; cbn; [reflexivity|]. unfold zeros in IH. rewrite <- IH. lia. }
    apply (zeros_spec dims _ V) in Z. congruence.
Qed.

Lemma tree_col dims x ch : good dims (Inner (RtoC x) ch) -> (0 < x)%R -> forall k, k < prodl dims -> unit_of (prodl dims) (tree_state dims (Inner (RtoC x) ch)) k = col (Inner (RtoC x) ch) (digits dims k).
Proof.
  intros G X k Hk. unfold unit_of. pose proof (tree_norm dims _ G) as N. unfold norm2. replace (rsum (prodl dims) (fun k0 => Cnorm2 (tree_state dims (Inner (RtoC x) ch) k0)))%R with (x * x)%R.
  - rewrite sqrt_square by lra. unfold tree_state. rewrite path_amp_below. cbn [weight col]. replace (Cmul (RtoC (/ x)) (Cmul (RtoC x) (below (Inner (RtoC x) ch) (digits dims k)))) with (Cmul (Cmul (RtoC (/ x)) (RtoC x)) (below (Inner (RtoC x) ch) (digits dims k))) by ring.
    rewrite <- RtoC_mul, Rinv_l by lra. change (RtoC 1) with C1. ring.
  - symmetry. unfold tree_state. rewrite N. cbn. unfold Cnorm2. cbn. ring.
Qed.

(** the operations of a tree *)
Lemma tree_ops dims t : (forall d, In d dims -> 1 < d) -> dims <> [] -> good dims t -> norm2 (prodl dims) (tree_state dims t) <> 0%R -> no_clash t -> merges_well t ->
  exists ops, state_ops hash dims t = Ok ops /\ Forall (op_ok dims) ops /\ List.length ops <= full_nodes dims /\ veq (prodl dims) (vrun dims ops (ket 0)) (unit_of (prodl dims) (tree_state dims t)).
Proof.
  intros D NE G NZ NC MW. destruct (synth_ok hash dims [] [] t D G NC MW) as (ops & E & F & Lo & M); [intros c []|]. exists ops. unfold state_ops. rewrite aggregate_ok by exact G. cbn [bindr]. split; [exact E|]. split; [exact F|]. split; [lia|].
  assert (D0 : forall d, In d dims -> 0 < d) by (intros d Hd; specialize (D d Hd); lia).
  intros k Hk. etransitivity; [apply (vrun_veq dims ops (ket 0) (fun k => start (digits dims k))); [intros j Hj; symmetry; apply digits_zero; assumption|exact Hk]|].
  etransitivity; [apply (vrun_run dims ops F start k Hk)|]. pose proof (valid_digits dims k Hk) as V. cbn [app] in M. destruct (M start [] (digits dims k)) as [_ M2]; [constructor|exact V|]. cbn [app] in M2. rewrite M2; [|reflexivity|].
  - assert (S0 : start (zeros dims) = C1) by (unfold start; replace (forallb (Nat.eqb 0) (zeros dims)) with true; [reflexivity|]; symmetry; apply (zeros_spec dims); [apply zeros_valid; exact D0|reflexivity]). rewrite S0.
    destruct dims as [|d r]; [contradiction|]. pose proof G as G0. destruct G0 as [(b & ->)|(x & ch & -> & X & _)].
    + exfalso. apply NZ. etransitivity; [exact (tree_norm _ _ G)|]. cbn. unfold Cnorm2. cbn. ring.
    + rewrite tree_col by assumption. ring.
  - intros s' V' N'. unfold start. destruct (forallb (Nat.eqb 0) s') eqn:Q; [|reflexivity]. exfalso. apply N'. apply (zeros_spec dims s' V'). exact Q.
Qed.

Lemma prepare_tree eps dims t gs : (forall d, In d dims -> 1 < d) -> dims <> [] -> good dims t -> norm2 (prodl dims) (tree_state dims t) <> 0%R -> no_clash t -> merges_well t -> (0 <= eps)%R ->
  (let? ops := state_ops hash dims t in mapr (op_gate dims) (filter (big eps) ops)) = Ok gs -> prepares (INR (full_nodes dims) * (eps / 2)) dims gs (unit_of (prodl dims) (tree_state dims t)).
Proof.
  intros D NE G NZ NC MW E H. destruct (tree_ops dims t D NE G NZ NC MW) as (ops & Eo & F & Lo & V). rewrite Eo in H. cbn [bindr] in H.
  assert (F' : Forall (op_ok dims) (filter (big eps) ops)) by (apply Forall_forall; intros o Ho; apply filter_In in Ho; rewrite Forall_forall in F; apply F; tauto).
  exists (vrun dims (filter (big eps) ops) (ket 0)). split; [apply ops_evolve; assumption|]. change (distance (prodl dims)) with (fun v w => nrm (prodl dims) (vsub v w)). cbv beta.
  rewrite (dist_veq _ _ (vrun dims (filter (big eps) ops) (ket 0)) _ (vrun dims ops (ket 0))); [|intros k _; reflexivity|intros k Hk; symmetry; apply V; exact Hk].
  eapply Rle_trans; [apply drop_bound; assumption|]. assert (N1 : nrm (prodl dims) (ket 0) = 1%R) by (unfold nrm; rewrite norm2_ket; [apply sqrt_1|]; apply prodl_pos; intros d Hd; specialize (D d Hd); lia). rewrite N1, Rmult_1_r.
  apply Rmult_le_compat_r; [lra|]. apply le_INR. exact Lo.
Qed.

Lemma exact_tree tol dims data : (forall d, In d dims -> 0 < d) -> List.length data = prodl dims ->
  exists t, state_tree tol dims data false = Ok t /\ good dims t /\ forall k, k < prodl dims -> tree_state dims t k = nth k data C0.
Proof.
  intros D L. destruct (create_ok dims data D L) as (t & E & G & A). exists t. unfold state_tree. rewrite E. cbn. split; [reflexivity|]. split; [exact G|]. intros k Hk. unfold tree_state. rewrite A by (apply valid_digits; exact Hk). rewrite undigits_digits by exact Hk. reflexivity.
Qed.

Lemma unit_of_veq n v w : veq n v w -> veq n (unit_of n v) (unit_of n w).
Proof. intros H k Hk. unfold unit_of. rewrite (norm2_ext n v w H), (H k Hk). reflexivity. Qed.
Lemma prepares_veq e dims gs v w : veq (prodl dims) v w -> prepares e dims gs v -> prepares e dims gs w.
Proof.
  intros H (phi & E & B). exists phi. split; [exact E|]. change (nrm (prodl dims) (vsub phi w) <= e)%R. rewrite (dist_veq _ phi phi w v); [exact B|intros k _; reflexivity|intros k Hk; symmetry; apply H; exact Hk].
Qed.

Theorem prepare_exact eps tol dims data t gs : (forall d, In d dims -> 1 < d) -> dims <> [] -> List.length data = prodl dims -> norm2 (prodl dims) (vec_of data) <> 0%R -> (0 <= eps)%R ->
  state_tree tol dims data false = Ok t -> no_clash t -> merges_well t -> compile_state hash eps tol dims data false = Ok gs ->
  prepares (INR (full_nodes dims) * (eps / 2)) dims gs (unit_of (prodl dims) (vec_of data)).
Proof.
  intros D NE L NZ E Et NC MW H. destruct (exact_tree tol dims data) as (t' & E' & G & A); [intros d Hd; specialize (D d Hd); lia|exact L|]. rewrite E' in Et. injection Et as ->.
  unfold compile_state in H. rewrite E' in H. cbn [bindr] in H. assert (V : veq (prodl dims) (tree_state dims t) (vec_of data)) by (intros k Hk; apply A; exact Hk).
  apply (prepares_veq _ _ _ _ _ (unit_of_veq _ _ _ V)). apply prepare_tree; trivial. rewrite (norm2_ext _ _ _ V). exact NZ.
Qed.
Theorem prepare_approx eps tol dims data t gs : (forall d, In d dims -> 1 < d) -> dims <> [] -> List.length data = prodl dims -> norm2 (prodl dims) (vec_of data) = 1%R -> (0 <= eps)%R -> (0 < tol <= 1)%R ->
  state_tree tol dims data true = Ok t -> no_clash t -> merges_well t -> compile_state hash eps tol dims data true = Ok gs ->
  prepares (INR (full_nodes dims) * (eps / 2)) dims gs (unit_of (prodl dims) (tree_state dims t)) /\ (1 - tol < Cnorm2 (overlap (prodl dims) (vec_of data) (unit_of (prodl dims) (tree_state dims t))))%R.
Proof.
  intros D NE L U E T Et NC MW H. destruct (approx_fidelity tol dims data t D L U T Et) as [P Fi]. destruct (approx_good tol dims data D L (proj1 T)) as (t' & E' & G & A & B). rewrite E' in Et. injection Et as ->. split.
  - unfold compile_state in H. rewrite E' in H. cbn [bindr] in H. apply prepare_tree; trivial. lra.
  - set (N := prodl dims) in *. set (w := tree_state dims t) in *.
    assert (O : overlap N (vec_of data) (unit_of N w) = Cmul (RtoC (/ sqrt (norm2 N w))) (ip N (vec_of data) w)) by (unfold overlap, ip, unit_of; rewrite <- csum_mul_l; apply csum_ext; intros k _; ring).
    rewrite O, Cnorm2_mul. replace (Cnorm2 (RtoC (/ sqrt (norm2 N w)))) with (/ norm2 N w)%R; [rewrite Rmult_comm; exact Fi|].
    unfold Cnorm2, RtoC. cbn. rewrite <- (sqrt_sqrt (norm2 N w)) at 1 by lra. field. apply Rgt_not_eq. apply sqrt_lt_R0. exact P.
Qed.

(** *** When the gates are returned *)
Lemma synth_sorted : forall cards depth cs t ops, StronglySorted lt (map fst cs) -> (forall c, In c cs -> fst c < depth) -> synthesis hash cards depth cs t = Ok ops -> Forall (fun o => StronglySorted lt (map fst (o_controls o))) ops.
Proof.
  induction cards as [|d r IH]; intros depth cs t ops S B H; destruct t as [w b|w ch]; cbn in H; try discriminate; try (injection H as <-; constructor).
  apply bindr_Ok in H. destruct H as (lo & El & H). apply bindr_Ok in H. destruct H as (red & Er & H).
  assert (Fl : Forall (fun o => StronglySorted lt (map fst (o_controls o))) lo).
  { unfold local_ops in El. apply bindr_Ok in El. destruct El as (cl & _ & El). injection El as <-. constructor; [exact S|]. apply Forall_forall. intros o Ho. apply in_map_iff in Ho. destruct Ho as (x & <- & _). exact S. }
  destruct red.
  - destruct (nth_error ch _) as [c|]; [|discriminate]. apply bindr_Ok in H. destruct H as (l & E & H). injection H as <-. apply Forall_app. split; [exact Fl|]. apply (IH (Datatypes.S depth) cs c l S); [|exact E]. intros x Hx. specialize (B x Hx). lia.
  - apply bindr_Ok in H. destruct H as (ls & E & H). injection H as <-. apply Forall_app. split; [exact Fl|].
    assert (K : forall is ls, mapr (fun i => match nth_error ch (nth i (children_index hash ch) 0) with Some c => synthesis hash r (Datatypes.S depth) (cs ++ [(depth, i)]) c | None => Err IndexError end) is = Ok ls -> Forall (fun o => StronglySorted lt (map fst (o_controls o))) (concat ls)).
    { clear ls E. induction is as [|i is IHi]; intros ls E; cbn in E; [injection E as <-; constructor|]. apply bindr_Ok in E. destruct E as (l & E1 & E). apply bindr_Ok in E. destruct E as (ls' & E2 & E). injection E as <-. cbn. apply Forall_app. split; [|apply IHi; exact E2].
      destruct (nth_error ch _) as [c|]; [|discriminate]. apply (IH (Datatypes.S depth) (cs ++ [(depth, i)]) c l); [| |exact E1].
      - rewrite map_app. cbn. clear -S B. induction cs as [|c cs IHc]; cbn; [constructor; constructor|]. cbn in S. apply StronglySorted_inv in S. destruct S as [S1 S2]. constructor; [apply IHc; [exact S1|auto with datatypes]|]. apply Forall_app. split; [exact S2|]. constructor; [|constructor]. apply B. left. reflexivity.
      - intros x Hx. apply in_app_iff in Hx. destruct Hx as [Hx|[<-|[]]]; [specialize (B x Hx); lia|cbn; lia]. }
    apply (K _ _ E).
Qed.

Lemma noninc_nth dims : nonincreasing dims -> forall i j, i <= j -> j < List.length dims -> nth j dims 0 <= nth i dims 0.
Proof.
  unfold nonincreasing. induction 1 as [|d r S IH F]; intros i j Hij Hj; cbn in Hj; [lia|]. destruct j as [|j]; [replace i with 0 by lia; lia|]. destruct i as [|i]; [|cbn; apply IH; lia]. cbn. rewrite Forall_forall in F. apply F. apply nth_In. lia.
Qed.
Lemma levels_fine dims : nonincreasing dims -> forall cs k, StronglySorted lt (map fst cs) -> (forall c, In c cs -> k <= fst c /\ fst c < List.length dims /\ snd c < nth (fst c) dims 0) ->
  levels_beyond dims k (map (fun c => Z.of_nat (snd c)) cs) = Ok false.
Proof.
  intros ND. induction cs as [|c cs IH]; intros k S B; [reflexivity|]. cbn in S. apply StronglySorted_inv in S. destruct S as [S1 S2]. cbn [map levels_beyond]. destruct (B c (or_introl eq_refl)) as (B1 & B2 & B3).
  rewrite (nth_error_nth' dims 0) by lia. pose proof (noninc_nth dims ND k (fst c) B1 B2). rewrite (proj2 (Z.leb_gt _ _)) by lia. apply IH; [exact S1|].
  intros x Hx. destruct (B x (or_intror Hx)) as (X1 & X2 & X3). split; [|auto]. rewrite Forall_forall in S2. specialize (S2 (fst x) (in_map fst _ _ Hx)). lia.
Qed.
Lemma sorted_bound n : forall l k, StronglySorted lt l -> (forall x, In x l -> k <= x < n) -> k + List.length l <= n \/ l = [].
Proof.
  induction l as [|x l IH]; intros k S B; [right; reflexivity|left]. apply StronglySorted_inv in S. destruct S as [S1 S2]. rewrite Forall_forall in S2. destruct (B x (or_introl eq_refl)). destruct (IH (Datatypes.S k) S1) as [H'| ->]; cbn; try lia.
  intros y Hy. specialize (S2 y Hy). destruct (B y (or_intror Hy)). lia.
Qed.
Lemma op_gate_ok dims o : nonincreasing dims -> op_ok dims o -> StronglySorted lt (map fst (o_controls o)) -> exists g, op_gate dims o = Ok g.
Proof.
  intros ND H S. unfold op_gate. destruct (op_data dims o H) as (m & Em & _). rewrite Em. cbn [bindr]. destruct H as (Hq & _ & Hc). unfold new_gate. cbn. unfold control. destruct (o_controls o) as [|c cs] eqn:Oc; [cbn; eauto|].
  rewrite !map_length. cbn [List.length Nat.eqb orb negb is_single g_type with_long]. rewrite <- Oc in *. replace (Datatypes.S (List.length cs)) with (List.length (o_controls o)) by (rewrite Oc; reflexivity).
  assert (Ln : List.length (o_controls o) <= List.length dims).
  { destruct (sorted_bound (List.length dims) (map fst (o_controls o)) 0 S) as [B|B]; [|rewrite map_length in B; lia|rewrite Oc in B; discriminate]. intros x Hx. apply in_map_iff in Hx. destruct Hx as (y & <- & Hy). destruct (Hc y Hy). lia. }
  rewrite (proj2 (Nat.ltb_ge _ _) Ln). cbn [orb].
  match goal with |- context [existsb ?f ?l] => destruct (existsb f l) eqn:X1 end.
  { exfalso. apply existsb_exists in X1. destruct X1 as (z & Hz & X1). apply in_map_iff in Hz. destruct Hz as (y & <- & Hy). destruct (Hc y Hy). apply Z.leb_le in X1. lia. }
  match goal with |- context [existsb ?f ?l] => destruct (existsb f l) eqn:X2 end.
  { exfalso. apply existsb_exists in X2. destruct X2 as (z & Hz & X2). apply in_map_iff in Hz. destruct Hz as (y & <- & Hy). destruct (Hc y Hy). apply existsb_exists in X2. destruct X2 as (u & [<-|[]] & X2). apply Z.eqb_eq in X2. lia. }
  rewrite levels_fine; trivial; [eauto|]. intros x Hx. destruct (Hc x Hx). split; [lia|]. split; [lia|assumption].
Qed.

Theorem prepare_returns eps tol dims data approx t : (forall d, In d dims -> 1 < d) -> dims <> [] -> List.length data = prodl dims -> (0 < tol)%R -> nonincreasing dims ->
  state_tree tol dims data approx = Ok t -> no_clash t -> merges_well t -> exists gs, compile_state hash eps tol dims data approx = Ok gs.
Proof.
  intros D NE L T ND Et NC MW. assert (G : good dims t).
  { destruct approx; [destruct (approx_good tol dims data D L T) as (t' & E' & G & _)|destruct (exact_tree tol dims data) as (t' & E' & G & _); [intros d Hd; specialize (D d Hd); lia|exact L|]]; rewrite E' in Et; injection Et as ->; exact G. }
  unfold compile_state. rewrite Et. cbn [bindr]. unfold state_ops. rewrite aggregate_ok by exact G. cbn [bindr].
  destruct (synth_ok hash dims [] [] t D G NC MW) as (ops & E & F & _); [intros c []|]. change (List.length (@nil nat)) with 0 in E. rewrite E. cbn [bindr].
  pose proof (synth_sorted dims 0 [] t ops (SSorted_nil lt) ltac:(intros c []) E) as S. rewrite Forall_forall in F, S.
  destruct (mapr_Forall2 (op_gate dims) (fun _ _ => True) (filter (big eps) ops)) as (gs & Eg & _); [|eauto]. intros o Ho. apply filter_In in Ho. destruct Ho as [Ho _]. destruct (op_gate_ok dims o ND (F o Ho) (S o Ho)) as (g & Eg). eauto.
Qed.
End Hash.

(** *** Trees without zero first branches *)
Lemma first_merges t : first_weights t -> merges_well t.
Proof.
  intros H p w ch i j ci cj c0 E N Hi Hj Wi Wj A Al _ H0. apply Al; trivial; [apply (nth_error_In _ _ H0)|apply (nth_error_In _ _ Hi)|]. apply (H p w ch c0 E H0).
Qed.
Lemma full_first dims : (forall d, In d dims -> 0 < d) -> forall t, good dims t -> (forall p, valid dims p -> path_amp t p <> C0) -> first_weights t.
Proof.
  induction dims as [|d r IH]; intros D t G A p w ch c E H0.
  - destruct G as (w' & b & ->). destruct p; discriminate.
  - destruct G as [(b & ->)|(x & ch' & -> & X & L & U & F)]; [destruct p; discriminate|]. assert (Dr : forall e, In e r -> 0 < e) by auto with datatypes. rewrite Forall_forall in F.
    destruct p as [|i p].
    + cbn in E. injection E as <- <-. intros W. apply (A (0 :: zeros r)).
      * constructor; [apply D; left; reflexivity|apply zeros_valid; exact Dr].
      * cbn. rewrite (nth_error_nth _ _ _ H0), path_amp_below, W. ring.
    + cbn in E. destruct (nth_error ch' i) as [ci|] eqn:Qi; [|discriminate]. assert (Ii := nth_error_In _ _ Qi). apply (IH Dr ci (F ci Ii)) with (p := p) (w := w) (ch := ch) (c := c); trivial.
      intros q Vq Z. apply (A (i :: q)).
      * constructor; [rewrite <- L; apply nth_error_Some; congruence|exact Vq].
      * cbn. rewrite (nth_error_nth _ _ _ Qi), Z. ring.
Qed.
Theorem full_support tol dims data t : (forall d, In d dims -> 0 < d) -> List.length data = prodl dims -> (forall k, k < prodl dims -> nth k data C0 <> C0) ->
  state_tree tol dims data false = Ok t -> merges_well t.
Proof.
  intros D L A Et. destruct (create_ok dims data D L) as (t' & E & G & P). unfold state_tree in Et. rewrite E in Et. cbn in Et. injection Et as ->. apply first_merges. apply (full_first dims D t G). intros p V. rewrite P by exact V. apply A. apply undigits_lt. exact V.
Qed.
(** a node of non-zero weight has a path of non-zero amplitude *)
Lemma weight_path dims : forall t, good dims t -> weight t <> C0 -> exists p, valid dims p /\ path_amp t p <> C0.
Proof.
  induction dims as [|d r IH]; intros t G W; [exists []; split; [constructor|]; destruct G as (w & b & ->); exact W|].
  destruct G as [(b & ->)|(x & ch & -> & X & L & U & F)]; [cbn in W; congruence|]. rewrite Forall_forall in F. destruct (sum_nonzero ch U) as (c & Hc & Wc). destruct (IH c (F c Hc) Wc) as (q & Vq & Aq).
  apply In_nth_error in Hc. destruct Hc as (i & Hi). exists (i :: q). split; [constructor; [rewrite <- L; apply nth_error_Some; congruence|exact Vq]|]. cbn. rewrite (nth_error_nth _ _ _ Hi). intros Z. apply Aq.
  assert (Y : Cmul (RtoC (/ x)) (Cmul (RtoC x) (path_amp c q)) = C0) by (rewrite Z; ring). rewrite <- Y. replace (Cmul (RtoC (/ x)) (Cmul (RtoC x) (path_amp c q))) with (Cmul (Cmul (RtoC (/ x)) (RtoC x)) (path_amp c q)) by ring. rewrite <- RtoC_mul, Rinv_l by lra. change (RtoC 1) with C1. ring.
Qed.
Lemma support_merges dims : forall t, good dims t ->
  (forall p i j s s', S (List.length p) < List.length dims -> i <> j -> valid dims (p ++ i :: s) -> valid dims (p ++ j :: s') -> path_amp t (p ++ i :: s) <> C0 -> path_amp t (p ++ j :: s') <> C0 ->
    exists s'', valid dims (p ++ 0 :: s'') /\ path_amp t (p ++ 0 :: s'') <> C0) -> merges_well t.
Proof.
  induction dims as [|d r IH]; intros t G A p w ch i j ci cj c0 E N Hi Hj Wi Wj Aij Al In_ H0.
  - destruct G as (w' & b & ->). destruct p; discriminate.
  - destruct G as [(b & ->)|(x & ch' & -> & X & L & U & F)]; [destruct p; discriminate|]. rewrite Forall_forall in F.
    assert (NZ : forall c q, path_amp c q <> C0 -> Cmul (RtoC x) (path_amp c q) <> C0).
    { intros c q Hq Z. apply Hq. assert (Y : Cmul (RtoC (/ x)) (Cmul (RtoC x) (path_amp c q)) = C0) by (rewrite Z; ring). rewrite <- Y. replace (Cmul (RtoC (/ x)) (Cmul (RtoC x) (path_amp c q))) with (Cmul (Cmul (RtoC (/ x)) (RtoC x)) (path_amp c q)) by ring. rewrite <- RtoC_mul, Rinv_l by lra. change (RtoC 1) with C1. ring. }
    destruct p as [|k p].
    + cbn in E. injection E as <- <-. apply Al; trivial; [apply (nth_error_In _ _ H0)|apply (nth_error_In _ _ Hi)|].
      assert (Lt : forall y c, nth_error ch' y = Some c -> y < d) by (intros y c Q; rewrite <- L; apply nth_error_Some; congruence).
      destruct (weight_path r ci (F ci (nth_error_In _ _ Hi)) Wi) as (s & Vs & As). destruct (weight_path r cj (F cj (nth_error_In _ _ Hj)) Wj) as (s' & Vs' & As').
      destruct (A [] i j s s') as (s'' & V'' & A'').
      * destruct r as [|d2 r2]; [|cbn; lia]. exfalso. destruct In_ as (v & l & ->). destruct (F _ (nth_error_In _ _ Hi)) as (w' & b & Q). discriminate Q.
      * exact N.
      * constructor; [apply (Lt _ _ Hi)|exact Vs].
      * constructor; [apply (Lt _ _ Hj)|exact Vs'].
      * cbn. rewrite (nth_error_nth _ _ _ Hi). apply NZ. exact As.
      * cbn. rewrite (nth_error_nth _ _ _ Hj). apply NZ. exact As'.
      * cbn in A''. rewrite (nth_error_nth _ _ _ H0) in A''. intros W0. apply A''. rewrite path_amp_below, W0. ring.
    + cbn in E. destruct (nth_error ch' k) as [ck|] eqn:Q; [|discriminate]. pose proof (nth_error_In _ _ Q) as Ik. apply (IH ck (F ck Ik)) with (p := p) (w := w) (ch := ch) (i := i) (j := j) (cj := cj); trivial.
      assert (Hk : k < d) by (rewrite <- L; apply nth_error_Some; congruence).
      intros q a b s s' Lq Nab V1 V2 A1 A2. destruct (A (k :: q) a b s s') as (s'' & V'' & A''); trivial; [cbn; lia|constructor; assumption|constructor; assumption| | |].
      * cbn. rewrite (nth_error_nth _ _ _ Q). apply NZ. exact A1.
      * cbn. rewrite (nth_error_nth _ _ _ Q). apply NZ. exact A2.
      * exists s''. cbn in V'', A''. apply valid_cons_inv in V''. split; [apply V''|]. rewrite (nth_error_nth _ _ _ Q) in A''. intros Z. apply A''. rewrite Z. ring.
Qed.
Theorem support_enough tol dims data t : (forall d, In d dims -> 0 < d) -> List.length data = prodl dims -> first_branch_used dims data -> state_tree tol dims data false = Ok t -> merges_well t.
Proof.
  intros D L A Et. destruct (create_ok dims data D L) as (t' & E & G & P). unfold state_tree in Et. rewrite E in Et. cbn in Et. injection Et as ->. apply (support_merges dims t G).
  intros p i j s s' Lp N V V' A1 A2. rewrite P in A1 by exact V. rewrite P in A2 by exact V'. destruct (A p i j s s' Lp N V V' A1 A2) as (s'' & V'' & A''). exists s''. split; [exact V''|]. rewrite P by exact V''. exact A''.
Qed.
(** The zero vector gives no gate. *)
Theorem prepare_zero hash eps tol dims data : (forall d, In d dims -> 0 < d) -> dims <> [] -> List.length data = prodl dims -> norm2 (prodl dims) (vec_of data) = 0%R -> compile_state hash eps tol dims data false = Ok [].
Proof.
  intros D NE L Z. destruct (exact_tree tol dims data D L) as (t & E & G & A). unfold compile_state. rewrite E. cbn [bindr]. unfold state_ops. rewrite aggregate_ok by exact G. cbn [bindr].
  destruct dims as [|d r]; [contradiction|]. pose proof G as G0. destruct G0 as [(b & ->)|(x & ch & -> & X & _)]; [reflexivity|]. exfalso.
  pose proof (tree_norm _ _ G) as N. assert (K : norm2 (prodl (d :: r)) (tree_state (d :: r) (Inner (RtoC x) ch)) = 0%R) by (rewrite <- Z; apply norm2_ext; intros k Hk; apply A; exact Hk).
  unfold norm2, tree_state in K. rewrite N in K. unfold Cnorm2 in K. cbn in K. nra.
Qed.
