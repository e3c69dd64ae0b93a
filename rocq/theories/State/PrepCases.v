(** States that are not prepared, or not compiled (C36), and examples. *)
From Coq Require Import Reals List Arith ZArith Lia Lra Sorted.
From Verif.Base Require Import Py Cplx Matrix Radix Angle.
From Verif.Circuit Require Import GateModel.
From Verif.Gates Require Import SingleModel FactorySpec.
From Verif.Sim Require Import TnModel TnSpec TnProofs.
From Verif.Local Require Import QrMath.
From Verif.Variational Require Import EmitProofs FidelityProofs.
From Verif.State Require Import DdModel DdSpec DdProofs CutProofs PrepModel PrepSpec OpAct LocalSeq Synth Drop PrepOk.
Import ListNotations.
Local Open Scope nat_scope.

Lemma op_gate_placed dims o g : op_ok dims o -> op_gate dims o = Ok g -> well_placed dims g.
Proof.
  intros H E. unfold op_gate in E. destruct (op_data dims o H) as (m & Em & M). rewrite Em in E. cbn [bindr] in E. unfold new_gate in E. cbn in E. destruct H as (Hq & _ & Hc).
  assert (K : forall g' : gate mat, g_target g' = TInt (Z.of_nat (o_qudit o)) -> (match g_controls g' with Some (cs, _) => cs <> [] /\ forall c, In c cs -> (0 <= c < Z.of_nat (List.length dims))%Z /\ ~ In c (target_lines g') | None => True end) -> well_placed dims g').
  { intros g' T X. assert (Tl : target_lines g' = [Z.of_nat (o_qudit o)]) by (unfold target_lines; rewrite T; reflexivity). split; [rewrite Tl; discriminate|]. split; [rewrite Tl; constructor; [intros []|constructor]|]. split; [rewrite Tl; intros t [<-|[]]; lia|exact X]. }
  unfold control in E. destruct (o_controls o) as [|c cs] eqn:Oc.
  - cbn in E. injection E as <-. apply K; cbn; auto.
  - cbn [map List.length Nat.eqb orb negb is_single g_type with_long] in E. destruct (Nat.ltb _ _ || existsb _ _); [discriminate E|]. destruct (existsb _ _); [discriminate E|]. destruct (levels_beyond _ _ _) as [[]|]; try discriminate E. injection E as <-. apply K; [reflexivity|]. cbn [g_controls with_controls]. split; [discriminate|].
    intros x Hx. change (In x (map (fun c0 => Z.of_nat (fst c0)) (c :: cs))) in Hx. apply in_map_iff in Hx. destruct Hx as (y & <- & Hy). destruct (Hc y Hy). split; [lia|]. cbn. intros [X|[]]. lia.
Qed.
Lemma op_gate_error dims o e : op_ok dims o -> op_gate dims o = Err e -> e = IndexError.
Proof.
  intros H E. unfold op_gate in E. destruct (op_data dims o H) as (m & Em & M). rewrite Em in E. cbn [bindr] in E. unfold new_gate in E. cbn in E.
  unfold control in E. destruct (o_controls o) as [|c cs] eqn:Oc; [discriminate E|].
  cbn [map List.length Nat.eqb orb negb is_single g_type with_long] in E. destruct (Nat.ltb _ _ || existsb _ _); [injection E as <-; reflexivity|]. destruct (existsb _ _); [injection E as <-; reflexivity|].
  assert (Lb : forall l k e', levels_beyond dims k l = Err e' -> e' = IndexError).
  { induction l as [|z l IH]; intros k e'; cbn; [discriminate|]. destruct (nth_error dims k); [|congruence]. destruct (Z.leb _ _); [discriminate|apply IH]. }
  destruct (levels_beyond _ _ _) as [[]|e'] eqn:Q; try discriminate E; injection E as <-; [reflexivity|]. apply (Lb _ _ _ Q).
Qed.
Lemma mapr_index dims os : Forall (op_ok dims) os -> (exists o e, In o os /\ op_gate dims o = Err e) -> mapr (op_gate dims) os = Err IndexError.
Proof.
  induction 1 as [|o os H F IH]; intros (o' & e & Hin & E); [contradiction|]. cbn. destruct (op_gate dims o) as [g|e'] eqn:Q.
  - cbn. destruct Hin as [->|Hin]; [congruence|]. rewrite IH by eauto. reflexivity.
  - cbn. rewrite (op_gate_error dims o e' H Q). reflexivity.
Qed.

(** *** Trees of real vectors *)
Lemma RtoC_norm x : Cnorm2 (RtoC x) = (x * x)%R. Proof. unfold Cnorm2, RtoC. cbn. ring. Qed.
Lemma RtoC_is0 x : x <> 0%R -> is0 (RtoC x) = false. Proof. intros N. apply is0_false. intros E. apply (RtoC_inj x 0) in E. contradiction. Qed.
Lemma C0_is0 : is0 C0 = true. Proof. apply is0_true. reflexivity. Qed.
Lemma Cdivr_R x n : Cdivr (RtoC x) n = RtoC (x / n). Proof. unfold Cdivr, RtoC. cbn. f_equal. unfold Rdiv. ring. Qed.
Lemma Cdivr_0 n : Cdivr C0 n = C0. Proof. unfold Cdivr, C0. cbn. f_equal; unfold Rdiv; ring. Qed.
Lemma build_inner d r data l n : 0 < d -> mapr (fun i => build r (part (List.length data / d) i data)) (seq 0 d) = Ok l -> (0 < n)%R -> fold_right Rplus 0%R (map Cnorm2 (map weight (map fst l))) = (n * n)%R ->
  exists c, build (d :: r) data = Ok (Inner (RtoC n) (reweigh (map fst l) (map (fun z => Cdivr z n) (map weight (map fst l)))), c).
Proof.
  intros Hd E P N. destruct d as [|d]; [lia|]. cbn [build]. rewrite E. cbn [bindr]. unfold normalize. assert (Nf : norm_of (map weight (map fst l)) = n) by (unfold norm_of; rewrite N; apply sqrt_square; lra). rewrite Nf.
  destruct (Req_EM_T n 0) as [X|_]; [lra|]. cbn [fst snd]. replace (Cmul C1 (RtoC n)) with (RtoC n) by ring. rewrite RtoC_is0 by lra. eauto.
Qed.
Lemma build_pair a b n : (0 < n)%R -> (a * a + b * b)%R = (n * n)%R ->
  exists c, build [2] [RtoC a; RtoC b] = Ok (Inner (RtoC n) [Term (RtoC (a / n)) (negb (is0 (RtoC a))); Term (RtoC (b / n)) (negb (is0 (RtoC b)))], c).
Proof.
  intros P N. destruct (build_inner 2 [] [RtoC a; RtoC b] [(Term (RtoC a) (negb (is0 (RtoC a))), 0); (Term (RtoC b) (negb (is0 (RtoC b))), 0)] n) as (c & E); [lia|reflexivity|exact P| |].
  - cbn. rewrite !RtoC_norm. lra.
  - exists c. rewrite E. cbn. rewrite !Cdivr_R. reflexivity.
Qed.
Lemma build_null : exists c, build [2] [C0; C0] = Ok (Term C0 false, c).
Proof.
  cbn. unfold normalize. assert (N : norm_of [C0; C0] = 0%R) by (unfold norm_of; cbn; unfold Cnorm2, C0; cbn; replace (0 * 0 + 0 * 0 + (0 * 0 + 0 * 0 + 0))%R with 0%R by ring; apply sqrt_0). rewrite N.
  destruct (Req_EM_T 0 0) as [_|X]; [|contradiction]. cbn. rewrite C0_is0. eauto.
Qed.
Notation "'T' x" := (Term (RtoC x) true) (at level 9, x at level 9).

(** *** The first branch is zero: dimensions 3 and 2, (3/5 |1> + 4/5 |2>) (3/5 |0> + 4/5 |1>) *)
Definition lost_state : list C := [C0; C0; RtoC (9 / 25); RtoC (12 / 25); RtoC (12 / 25); RtoC (16 / 25)].
Definition lost_tree : dd := Inner (RtoC 1) [Term C0 false; Inner (RtoC (3 / 5)) [T (3 / 5); T (4 / 5)]; Inner (RtoC (4 / 5)) [T (3 / 5); T (4 / 5)]].
Lemma lost_build : exists c, create_decision_tree [3; 2] lost_state = Ok (lost_tree, c).
Proof.
  destruct build_null as (c0 & E0). destruct (build_pair (9 / 25) (12 / 25) (3 / 5)) as (c1 & E1); [lra|lra|]. destruct (build_pair (12 / 25) (16 / 25) (4 / 5)) as (c2 & E2); [lra|lra|].
  rewrite !RtoC_is0 in E1, E2 by lra.
  destruct (build_inner 3 [2] lost_state [(Term C0 false, c0); (Inner (RtoC (3 / 5)) [T (9 / 25 / (3 / 5)); T (12 / 25 / (3 / 5))], c1); (Inner (RtoC (4 / 5)) [T (12 / 25 / (4 / 5)); T (16 / 25 / (4 / 5))], c2)] 1) as (c & E).
  - lia.
  - cbn [lost_state seq mapr part List.length Nat.div Nat.divmod fst skipn firstn Nat.mul Nat.add]. unfold part. cbn [skipn firstn Nat.mul Nat.add]. rewrite E0, E1, E2. reflexivity.
  - lra.
  - cbn. rewrite !RtoC_norm. unfold Cnorm2, C0. cbn. lra.
  - unfold create_decision_tree. rewrite E. cbn. eexists. f_equal. f_equal. unfold lost_tree. rewrite Cdivr_0, !Cdivr_R.
    replace (3 / 5 / 1)%R with (3 / 5)%R by field. replace (4 / 5 / 1)%R with (4 / 5)%R by field. replace (9 / 25 / (3 / 5))%R with (3 / 5)%R by field. replace (12 / 25 / (3 / 5))%R with (4 / 5)%R by field. replace (12 / 25 / (4 / 5))%R with (3 / 5)%R by field. replace (16 / 25 / (4 / 5))%R with (4 / 5)%R by field. reflexivity.
Qed.
Lemma lost_reduced hash : reduced hash [Term C0 false; Inner (RtoC (3 / 5)) [T (3 / 5); T (4 / 5)]; Inner (RtoC (4 / 5)) [T (3 / 5); T (4 / 5)]] = Ok true.
Proof.
  rewrite reduced_unfold. cbn [filter nz weight]. unfold nz. cbn [weight]. rewrite C0_is0, !RtoC_is0 by lra. cbn [negb map forallb]. rewrite Nat.eqb_refl. reflexivity.
Qed.

Lemma lost_ops hash : exists lo, state_ops hash [3; 2] lost_tree = Ok lo /\ Forall (fun o => o_controls o = [] /\ o_qudit o = 0 /\ (if o_z o then 1 else o_level o + 1) < 3) lo.
Proof.
  destruct (local_ops_ok [] 0 1 [Term C0 false; Inner (RtoC (3 / 5)) [T (3 / 5); T (4 / 5)]; Inner (RtoC (4 / 5)) [T (3 / 5); T (4 / 5)]]) as (lo & E & _ & F & _).
  - cbn. lia.
  - cbn. rewrite !RtoC_norm. unfold Cnorm2, C0. cbn. lra.
  - lra.
  - exists (lo ++ []). split; [|rewrite app_nil_r; exact F]. unfold state_ops. destruct lost_build as (c & B). destruct (create_ok [3; 2] lost_state) as (t & B' & G & _); [intros d [<-|[<-|[]]]; lia|reflexivity|]. rewrite B' in B. injection B as -> _.
    rewrite aggregate_ok by exact G. cbn [bindr]. unfold lost_tree. cbn [synthesis]. cbn [List.length] in E. rewrite E. cbn [bindr]. rewrite lost_reduced. cbn [bindr]. rewrite (index_first hash _ (Term C0 false)) by reflexivity. reflexivity.
Qed.
Lemma lost_ok o : o_controls o = [] /\ o_qudit o = 0 /\ (if o_z o then 1 else o_level o + 1) < 3 -> op_ok [3; 2] o.
Proof. intros (E1 & E2 & E3). unfold op_ok. rewrite E1, E2. split; [cbn; lia|]. split; [exact E3|intros c []]. Qed.
Theorem lost_first_branch hash eps tol : exists gs, compile_state hash eps tol [3; 2] lost_state false = Ok gs /\
  forall phi, evolves [3; 2] (ket 0) gs phi -> forall x, x < 3 -> phi (2 * x + 1) = C0.
Proof.
  destruct lost_build as (c & B). destruct (lost_ops hash) as (lo & E & F). set (os := filter (big eps) lo).
  assert (Fo : Forall (op_ok [3; 2]) os) by (apply Forall_forall; intros o Ho; apply filter_In in Ho; rewrite Forall_forall in F; apply lost_ok; apply F; tauto).
  assert (Fl : Forall (fun o => o_controls o = [] /\ o_qudit o = 0) os) by (apply Forall_forall; intros o Ho; apply filter_In in Ho; rewrite Forall_forall in F; destruct (F o) as (? & ? & _); tauto).
  destruct (mapr_Forall2 (op_gate [3; 2]) (fun o g => op_gate [3; 2] o = Ok g) os) as (gs & Eg & Fg).
  { intros o Ho. rewrite Forall_forall in Fo, Fl. destruct (op_gate_ok [3; 2] o) as (g & Eg); [repeat constructor|apply Fo; exact Ho|rewrite (proj1 (Fl o Ho)); constructor|]. eauto. }
  exists gs. split; [unfold compile_state, state_tree; rewrite B; cbn [bindr fst]; rewrite E; cbn [bindr]; exact Eg|].
  intros phi Ev x Hx. assert (Ev' := ops_evolve [3; 2] os gs Fo Eg (ket 0)).
  assert (W : forall g, In g gs -> well_placed [3; 2] g).
  { intros g Hg. clear -Fg Fo Hg. induction Fg as [|o g' os' gs' Q Fg IH]; [contradiction|]. inversion Fo; subst. destruct Hg as [->|Hg]; [apply (op_gate_placed _ o); assumption|apply IH; assumption]. }
  assert (Hk : 2 * x + 1 < prodl [3; 2]) by (cbn; lia). rewrite (evolves_unique _ _ W _ _ _ Ev Ev' (2 * x + 1) Hk).
  assert (D0 : forall d, In d [3; 2] -> 0 < d) by (intros d [<-|[<-|[]]]; lia).
  etransitivity; [apply (vrun_veq [3; 2] os (ket 0) (fun k => start (digits [3; 2] k))); [intros j Hj; symmetry; apply digits_zero; assumption|exact Hk]|].
  etransitivity; [apply (vrun_run [3; 2] os Fo start _ Hk)|].
  assert (Dg : digits [3; 2] (2 * x + 1) = [x; 1]) by (destruct x as [|[|[|x]]]; [reflexivity|reflexivity|reflexivity|lia]). rewrite Dg.
  etransitivity; [apply (run_local [] 3 [2] [] os Fl ltac:(intros ? []) start [] x [1] eq_refl Hx)|]. cbn [ctl forallb]. apply lrun_zero; [|exact Hx]. intros b _. unfold start. cbn. destruct b; reflexivity.
Qed.
Lemma entry_distance n v w k : k < n -> (Cmod (Csub (v k) (w k)) <= distance n v w)%R.
Proof.
  intros Hk. unfold distance, Cmod. apply sqrt_le_1_alt. unfold norm2. apply (rsum_term n (fun k => Cnorm2 (Csub (v k) (w k))) k); [intros i _; apply Cnorm2_nonneg|exact Hk].
Qed.
Theorem lost_not_prepared hash eps tol : norm2 6 (vec_of lost_state) = 1%R /\ exists gs, compile_state hash eps tol [3; 2] lost_state false = Ok gs /\ ~ prepares (1 / 2) [3; 2] gs (vec_of lost_state).
Proof.
  split; [unfold norm2, vec_of, lost_state; cbn; rewrite !RtoC_norm; unfold Cnorm2, C0; cbn; lra|].
  destruct (lost_first_branch hash eps tol) as (gs & E & H). exists gs. split; [exact E|]. intros (phi & Ev & B). assert (Z := H phi Ev 2 ltac:(lia)). pose proof (entry_distance 6 phi (vec_of lost_state) 5 ltac:(lia)) as D. change (prodl [3; 2]) with 6 in B. set (X := distance 6 phi (vec_of lost_state)) in *. clearbody X. change (2 * 2 + 1) with 5 in Z. rewrite Z in D.
  unfold vec_of, lost_state in D. cbn [nth] in D. replace (Csub C0 (RtoC (16 / 25))) with (RtoC (- (16 / 25))) in D by (apply Ceq; cbn; ring). unfold Cmod in D. rewrite RtoC_norm in D. replace (- (16 / 25) * - (16 / 25))%R with ((16 / 25) * (16 / 25))%R in D by ring. rewrite sqrt_square in D by lra. lra.
Qed.

(** *** Sufficient conditions, node by node *)
Lemma merges_term w b : merges_well (Term w b).
Proof. intros p ? ? ? ? ? ? ? E. destruct p; discriminate E. Qed.
Lemma merges_inner w ch : (forall c0, nth_error ch 0 = Some c0 -> weight c0 <> C0) \/ (forall c v l, In c ch -> c <> Inner v l) -> Forall merges_well ch -> merges_well (Inner w ch).
Proof.
  intros H F [|i p] w' ch' a b ca cb c0 E N Ha Hb Wa Wb A Al In_ H0.
  - cbn in E. injection E as <- <-. destruct H as [H|H].
    + apply Al; trivial; [apply (nth_error_In _ _ H0)|apply (nth_error_In _ _ Ha)|apply H; exact H0].
    + exfalso. destruct In_ as (v & l & ->). apply (H _ v l (nth_error_In _ _ Ha)). reflexivity.
  - cbn in E. destruct (nth_error ch i) as [c|] eqn:Q; [|discriminate]. rewrite Forall_forall in F. apply (F c (nth_error_In _ _ Q) p w' ch' a b ca cb c0); assumption.
Qed.
Lemma clash_term hash w b : no_clash hash (Term w b).
Proof. intros p ? ? ? ? E. destruct p; discriminate E. Qed.
Lemma clash_inner hash w ch : (forall c c', In c ch -> In c' ch -> hash_of hash c = hash_of hash c' -> alike c c') -> Forall (no_clash hash) ch -> no_clash hash (Inner w ch).
Proof.
  intros H F [|i p] w' ch' c c' E.
  - cbn in E. injection E as <- <-. apply H.
  - cbn in E. destruct (nth_error ch i) as [x|] eqn:Q; [|discriminate]. rewrite Forall_forall in F. apply (F x (nth_error_In _ _ Q) p w' ch' c c'). exact E.
Qed.

(** *** The level of a control is compared with the dimension of another qudit: dimensions 2, 3, 2 and
    (3/5 |0> + 4/5 |1>) (3/5 |00> + 4/5 |21>) *)
Definition far_state : list C := [RtoC (9 / 25); C0; C0; C0; C0; RtoC (12 / 25); RtoC (12 / 25); C0; C0; C0; C0; RtoC (16 / 25)].
Definition Z0 : dd := Term C0 false.
Definition far_children : list dd := [Inner (RtoC (3 / 5)) [T 1; Z0]; Z0; Inner (RtoC (4 / 5)) [Z0; T 1]].
Definition far_tree : dd := Inner (RtoC 1) [Inner (RtoC (3 / 5)) far_children; Inner (RtoC (4 / 5)) far_children].
Lemma far_half a b n : (0 < a)%R -> (0 < b)%R -> (0 < n)%R -> (a * a + b * b)%R = (n * n)%R -> (a / n = 3 / 5)%R -> (b / n = 4 / 5)%R ->
  exists c, build [3; 2] [RtoC a; C0; C0; C0; C0; RtoC b] = Ok (Inner (RtoC n) far_children, c).
Proof.
  intros Pa Pb Pn N Qa Qb. destruct build_null as (c0 & E0). destruct (build_pair a 0 a) as (c1 & E1); [lra|lra|]. destruct (build_pair 0 b b) as (c2 & E2); [lra|lra|].
  rewrite (RtoC_is0 a) in E1 by lra. rewrite (RtoC_is0 b) in E2 by lra. change (RtoC 0) with C0 in E1, E2. rewrite C0_is0 in E1, E2. cbn [negb] in E1, E2.
  replace (a / a)%R with 1%R in E1 by (field; lra). replace (b / b)%R with 1%R in E2 by (field; lra). replace (RtoC (0 / a)) with C0 in E1 by (apply Ceq; cbn; field; lra). replace (RtoC (0 / b)) with C0 in E2 by (apply Ceq; cbn; field; lra).
  destruct (build_inner 3 [2] [RtoC a; C0; C0; C0; C0; RtoC b] [(Inner (RtoC a) [T 1; Z0], c1); (Z0, c0); (Inner (RtoC b) [Z0; T 1], c2)] n) as (c & E).
  - lia.
  - cbn [seq mapr List.length Nat.div Nat.divmod fst]. unfold part. cbn [skipn firstn Nat.mul Nat.add]. change (RtoC 0) with C0 in E1, E2. rewrite E1, E0, E2. reflexivity.
  - exact Pn.
  - cbn. rewrite !RtoC_norm. unfold Cnorm2, C0. cbn. lra.
  - exists c. rewrite E. cbn. rewrite Cdivr_0, !Cdivr_R, Qa, Qb. reflexivity.
Qed.
Lemma far_build : exists c, create_decision_tree [2; 3; 2] far_state = Ok (far_tree, c).
Proof.
  destruct (far_half (9 / 25) (12 / 25) (3 / 5)) as (c1 & E1); try lra. destruct (far_half (12 / 25) (16 / 25) (4 / 5)) as (c2 & E2); try lra.
  destruct (build_inner 2 [3; 2] far_state [(Inner (RtoC (3 / 5)) far_children, c1); (Inner (RtoC (4 / 5)) far_children, c2)] 1) as (c & E).
  - lia.
  - cbn [far_state seq mapr List.length Nat.div Nat.divmod fst]. unfold part. cbn [skipn firstn Nat.mul Nat.add far_state]. rewrite E1, E2. reflexivity.
  - lra.
  - cbn. rewrite !RtoC_norm. lra.
  - unfold create_decision_tree. rewrite E. cbn. eexists. rewrite !Cdivr_R. replace (3 / 5 / 1)%R with (3 / 5)%R by field. replace (4 / 5 / 1)%R with (4 / 5)%R by field. reflexivity.
Qed.
Lemma RtoC_ne x : x <> 0%R -> RtoC x <> C0.
Proof. intros N E. apply N. apply (RtoC_inj x 0). exact E. Qed.
Lemma far_merges : merges_well far_tree.
Proof.
  assert (X : Forall merges_well far_children).
  { repeat constructor; try apply merges_term; (apply merges_inner; [right; intros c v l [<-|[<-|[]]]; discriminate|repeat constructor; apply merges_term]). }
  apply merges_inner; [left; intros c0 E; injection E as <-; apply RtoC_ne; lra|]. repeat constructor; (apply merges_inner; [left; intros c0 E; injection E as <-; apply RtoC_ne; lra|exact X]).
Qed.
Lemma far_apart : ~ alike (Inner (RtoC (3 / 5)) [T 1; Z0]) (Inner (RtoC (4 / 5)) [Z0; T 1]).
Proof. unfold alike. cbn. intros E. injection E. intros. discriminate. Qed.
Theorem far_index hash eps tol : no_clash hash far_tree -> (0 <= eps < 3)%R -> norm2 12 (vec_of far_state) = 1%R /\ compile_state hash eps tol [2; 3; 2] far_state false = Err IndexError.
Proof.
  intros NC Eps. split; [unfold norm2, vec_of, far_state; cbn; rewrite !RtoC_norm; unfold Cnorm2, C0; cbn; lra|].
  destruct far_build as (c & B). destruct (create_ok [2; 3; 2] far_state) as (t & B' & G & _); [intros d [<-|[<-|[<-|[]]]]; lia|reflexivity|]. rewrite B' in B. injection B as -> _.
  unfold compile_state, state_tree. rewrite B'. cbn [bindr fst]. unfold state_ops. rewrite aggregate_ok by exact G. cbn [bindr].
  destruct (synth_ok hash [2; 3; 2] [] [] far_tree) as (ops & E & F & _ & _); [intros d [<-|[<-|[<-|[]]]]; lia|exact G|exact NC|apply far_merges|intros x []|]. cbn [List.length app] in E, F. rewrite E. cbn [bindr].
  apply mapr_index; [apply Forall_forall; intros o Ho; apply filter_In in Ho; rewrite Forall_forall in F; apply F; tauto|].
  (* the rotation of the third qudit *)
  assert (K : exists o, In o ops /\ o_controls o = [(1, 2)] /\ o_qudit o = 2 /\ o_theta o = (- PI)%R).
  { unfold far_tree in E. cbn [synthesis] in E. apply bindr_Ok in E. destruct E as (lo0 & _ & E). apply bindr_Ok in E. destruct E as (red & Er & E).
    assert (R1 : red = true). { rewrite reduced_unfold in Er. cbn [filter nz weight] in Er. unfold nz in Er. cbn [weight] in Er. rewrite !RtoC_is0 in Er by lra. cbn [negb map] in Er. injection Er as <-. cbn [forallb]. rewrite Nat.eqb_refl. reflexivity. }
    subst red. rewrite (index_first hash _ (Inner (RtoC (3 / 5)) far_children)) in E by reflexivity. apply bindr_Ok in E. destruct E as (l1 & E1 & E). injection E as <-.
    cbn [synthesis] in E1. apply bindr_Ok in E1. destruct E1 as (lo1 & _ & E1). apply bindr_Ok in E1. destruct E1 as (red & Er1 & E1).
    assert (Al : forall c c', In c far_children -> In c' far_children -> hash_of hash c = hash_of hash c' -> alike c c') by (intros c1 c2; apply (NC [0] (RtoC (3 / 5)) far_children); reflexivity).
    assert (R2 : red = false). { destruct red; [|reflexivity]. exfalso. destruct (reduced_true hash _ Er1) as [R _]. apply far_apart. apply Al; [left; reflexivity|right; right; left; reflexivity|]. apply R; [left; reflexivity|right; right; left; reflexivity|apply RtoC_ne; lra|apply RtoC_ne; lra]. }
    subst red. apply bindr_Ok in E1. destruct E1 as (ls & E1 & E2). injection E2 as <-. cbn [seq mapr] in E1. apply bindr_Ok in E1. destruct E1 as (la & _ & E1). apply bindr_Ok in E1. destruct E1 as (lb' & E1 & E2). injection E2 as <-. apply bindr_Ok in E1. destruct E1 as (lb & _ & E1). apply bindr_Ok in E1. destruct E1 as (lc' & E1 & E2). injection E2 as <-. apply bindr_Ok in E1. destruct E1 as (lc & Ec & E1). cbn in E1. injection E1 as <-.
    rewrite (index_nth hash far_children 2 (Inner (RtoC (4 / 5)) [Z0; T 1]) eq_refl) in Ec. destruct (first_like_spec hash far_children (Inner (RtoC (4 / 5)) [Z0; T 1])) as (c' & Q & Hh); [right; right; left; reflexivity|]. rewrite Q in Ec.
    assert (Ac : alike c' (Inner (RtoC (4 / 5)) [Z0; T 1])) by (apply Al; [apply (nth_error_In _ _ Q)|right; right; left; reflexivity|exact Hh]).
    assert (Ec' : c' = Inner (RtoC (4 / 5)) [Z0; T 1]) by (apply nth_error_In in Q; destruct Q as [<-|[<-|[<-|[]]]]; [exfalso; exact (far_apart Ac)|discriminate Ac|reflexivity]). subst c'.
    cbn [synthesis] in Ec. apply bindr_Ok in Ec. destruct Ec as (lo & El & Ec).
    assert (In_lo : exists o, In o lo /\ o_controls o = [(1, 2)] /\ o_qudit o = 2 /\ o_theta o = (- PI)%R).
    { unfold local_ops in El. apply bindr_Ok in El. destruct El as (cl & Ecl & El). injection El as <-. cbn [List.length Nat.sub local_loop] in Ecl. apply bindr_Ok in Ecl. destruct Ecl as (m & _ & Ecl). cbn [bindr fst snd app] in Ecl. injection Ecl as <-. cbn [snd map fst].
      eexists. split; [right; left; reflexivity|]. cbn [o_controls o_qudit o_theta]. split; [reflexivity|]. split; [reflexivity|]. f_equal. unfold get_angles. cbn [fst map weight nth Nat.add].
      replace (Cmod (RtoC 1)) with 1%R by (unfold Cmod; rewrite RtoC_norm; rewrite sqrt_square by lra; reflexivity). cbn [weight Z0]. replace (Cmod C0) with 0%R by (symmetry; apply Cmod_0; reflexivity).
      unfold atan2. destruct (Rlt_dec 0 0) as [X|_]; [lra|]. destruct (Rlt_dec 0 1) as [_|X]; [field|lra]. }
    destruct In_lo as (o & Ho & P). exists o. split; [|exact P]. apply in_or_app. right. apply in_or_app. right. cbn. rewrite app_nil_r. apply in_or_app. right. apply in_or_app. right.
    cbn [bindr] in Ec. apply bindr_Ok in Ec. destruct Ec as (rd & _ & Ec). destruct rd; [destruct (nth_error _ _) in Ec; [|discriminate]; apply bindr_Ok in Ec; destruct Ec as (l & _ & Ec)|apply bindr_Ok in Ec; destruct Ec as (l & _ & Ec)]; injection Ec as <-; apply in_or_app; left; exact Ho. }
  destruct K as (o & Ho & Oc & Oq & Ot). exists o. rewrite Forall_forall in F. pose proof (F o Ho) as Fo. destruct (op_data [2; 3; 2] o Fo) as (m & Em & _).
  exists IndexError. split.
  - apply filter_In. split; [exact Ho|]. unfold big. rewrite Ot, Rabs_Ropp. pose proof PI2_3_2. rewrite Rabs_right by lra. destruct (Rlt_dec eps PI); [reflexivity|lra].
  - unfold op_gate. rewrite Em. cbn [bindr]. rewrite Oc, Oq. destruct (o_z o); reflexivity.
Qed.

(** *** Vectors that are too long *)
Lemma part_app n i data junk : (i + 1) * n <= List.length data -> part n i (data ++ junk) = part n i data.
Proof.
  intros H. unfold part. rewrite skipn_app, firstn_app. replace (n - List.length (skipn (i * n) data)) with 0 by (rewrite skipn_length; nia). rewrite firstn_O, app_nil_r. reflexivity.
Qed.
Lemma mapr_ext {A B} (f g : A -> res B) l : (forall x, In x l -> f x = g x) -> mapr f l = mapr g l.
Proof. induction l as [|x l IH]; intros H; cbn; [reflexivity|]. rewrite (H x (or_introl eq_refl)), IH by auto with datatypes. reflexivity. Qed.
Lemma build_junk d r data junk : List.length data = prodl (d :: r) -> List.length junk < d -> build (d :: r) (data ++ junk) = build (d :: r) data.
Proof.
  intros L J. destruct d as [|d]; [lia|]. cbn [build]. assert (Q : List.length (data ++ junk) / S d = List.length data / S d).
  { rewrite app_length, L. cbn [prodl fold_right]. change (fold_right Nat.mul 1 r) with (prodl r). rewrite (Nat.mul_comm (S d)), Nat.div_add_l, Nat.div_small by lia. rewrite Nat.div_mul by lia. lia. }
  rewrite Q. replace (mapr (fun i => build r (part (List.length data / S d) i (data ++ junk))) (seq 0 (S d))) with (mapr (fun i => build r (part (List.length data / S d) i data)) (seq 0 (S d))); [reflexivity|].
  apply mapr_ext. intros i Hi. apply in_seq in Hi. symmetry. rewrite part_app; [reflexivity|]. rewrite L. cbn [prodl fold_right]. change (fold_right Nat.mul 1 r) with (prodl r). rewrite (Nat.mul_comm (S d)), Nat.div_mul by lia. nia.
Qed.
Theorem too_long hash eps tol d r data junk approx : List.length data = prodl (d :: r) -> List.length junk < d -> compile_state hash eps tol (d :: r) (data ++ junk) approx = compile_state hash eps tol (d :: r) data approx.
Proof. intros L J. unfold compile_state, state_tree, create_decision_tree. rewrite build_junk by assumption. reflexivity. Qed.

Lemma build_short dims : (forall d, In d dims -> 0 < d) -> forall data, List.length data < prodl dims -> build dims data = Err IndexError.
Proof.
  induction dims as [|d r IH]; intros D data L; cbn in L.
  - destruct data; [reflexivity|cbn in L; lia].
  - change (fold_right Nat.mul 1 r) with (prodl r) in L. pose proof (D d (or_introl eq_refl)) as Hd. destruct d as [|d]; [lia|]. cbn [build]. cbn [seq mapr].
    assert (Q : List.length data / S d < prodl r) by (apply Nat.div_lt_upper_bound; lia).
    rewrite IH; [reflexivity|auto with datatypes|]. unfold part. rewrite firstn_length, skipn_length. lia.
Qed.
Theorem too_short hash eps tol dims data approx : (forall d, In d dims -> 0 < d) -> List.length data < prodl dims -> compile_state hash eps tol dims data approx = Err IndexError.
Proof. intros D L. unfold compile_state, state_tree, create_decision_tree. rewrite build_short by assumption. reflexivity. Qed.

(** *** Examples *)
Definition bell_state : list C := [RtoC (3 / 5); C0; C0; RtoC (4 / 5)].
Definition bell_tree : dd := Inner (RtoC 1) [Inner (RtoC (3 / 5)) [T 1; Z0]; Inner (RtoC (4 / 5)) [Z0; T 1]].
Definition some_hash (l : list (Z * C)) : Z := match l with [(z, _)] => z | (_, w) :: _ => if is0 w then 2 else 3 | [] => 4 end.
Lemma bell_build : exists c, create_decision_tree [2; 2] bell_state = Ok (bell_tree, c).
Proof.
  destruct (build_pair (3 / 5) 0 (3 / 5)) as (c1 & E1); [lra|lra|]. destruct (build_pair 0 (4 / 5) (4 / 5)) as (c2 & E2); [lra|lra|].
  rewrite (RtoC_is0 (3 / 5)) in E1 by lra. rewrite (RtoC_is0 (4 / 5)) in E2 by lra. change (RtoC 0) with C0 in E1, E2. rewrite C0_is0 in E1, E2. cbn [negb] in E1, E2.
  replace (3 / 5 / (3 / 5))%R with 1%R in E1 by field. replace (4 / 5 / (4 / 5))%R with 1%R in E2 by field. replace (RtoC (0 / (3 / 5))) with C0 in E1 by (apply Ceq; cbn; field). replace (RtoC (0 / (4 / 5))) with C0 in E2 by (apply Ceq; cbn; field).
  destruct (build_inner 2 [2] bell_state [(Inner (RtoC (3 / 5)) [T 1; Z0], c1); (Inner (RtoC (4 / 5)) [Z0; T 1], c2)] 1) as (c & E).
  - lia.
  - cbn [bell_state seq mapr List.length Nat.div Nat.divmod fst]. unfold part. cbn [skipn firstn Nat.mul Nat.add bell_state]. rewrite E1, E2. reflexivity.
  - lra.
  - cbn. rewrite !RtoC_norm. lra.
  - unfold create_decision_tree. rewrite E. cbn. eexists. rewrite !Cdivr_R. replace (3 / 5 / 1)%R with (3 / 5)%R by field. replace (4 / 5 / 1)%R with (4 / 5)%R by field. reflexivity.
Qed.
Lemma leaf_clash : forall c c', In c [T 1; Z0] -> In c' [T 1; Z0] -> hash_of some_hash c = hash_of some_hash c' -> alike c c'.
Proof. intros c c' [<-|[<-|[]]] [<-|[<-|[]]] H; try reflexivity; discriminate H. Qed.
Lemma bell_case tol : state_tree tol [2; 2] bell_state false = Ok bell_tree /\ no_clash some_hash bell_tree /\ merges_well bell_tree /\ nonincreasing [2; 2] /\ norm2 4 (vec_of bell_state) = 1%R.
Proof.
  split; [destruct bell_build as (c & E); unfold state_tree; rewrite E; reflexivity|]. split.
  - assert (L1 : no_clash some_hash (Inner (RtoC (3 / 5)) [T 1; Z0])) by (apply clash_inner; [exact leaf_clash|repeat constructor; apply clash_term]).
    assert (L2 : no_clash some_hash (Inner (RtoC (4 / 5)) [Z0; T 1])) by (apply clash_inner; [intros c c' H H'; apply leaf_clash; cbn in *; tauto|repeat constructor; apply clash_term]).
    apply clash_inner; [|repeat constructor; assumption]. assert (H1 : hash_of some_hash (Inner (RtoC (3 / 5)) [T 1; Z0]) = 3%Z) by (cbn; rewrite RtoC_is0 by lra; reflexivity). assert (H2 : hash_of some_hash (Inner (RtoC (4 / 5)) [Z0; T 1]) = 2%Z) by (cbn; rewrite C0_is0; reflexivity).
    intros c c' [<-|[<-|[]]] [<-|[<-|[]]] H; try reflexivity; rewrite H1, H2 in H; discriminate H.
  - split; [|split; [repeat constructor|unfold norm2, vec_of, bell_state; cbn; rewrite !RtoC_norm; unfold Cnorm2, C0; cbn; lra]].
    apply merges_inner; [left; intros c0 E; injection E as <-; apply RtoC_ne; lra|]. repeat constructor; (apply merges_inner; [right; intros c v l [<-|[<-|[]]]; discriminate|repeat constructor; apply merges_term]).
Qed.
Lemma far_clash : no_clash some_hash far_tree.
Proof.
  assert (L1 : no_clash some_hash (Inner (RtoC (3 / 5)) [T 1; Z0])) by (apply clash_inner; [exact leaf_clash|repeat constructor; apply clash_term]).
  assert (L2 : no_clash some_hash (Inner (RtoC (4 / 5)) [Z0; T 1])) by (apply clash_inner; [intros c c' H H'; apply leaf_clash; cbn in *; tauto|repeat constructor; apply clash_term]).
  assert (H1 : hash_of some_hash (Inner (RtoC (3 / 5)) [T 1; Z0]) = 3%Z) by (cbn; rewrite RtoC_is0 by lra; reflexivity). assert (H2 : hash_of some_hash (Inner (RtoC (4 / 5)) [Z0; T 1]) = 2%Z) by (cbn; rewrite C0_is0; reflexivity).
  assert (H3 : hash_of some_hash Z0 = 0%Z) by reflexivity.
  assert (F : forall w, no_clash some_hash (Inner w far_children)).
  { intros w. apply clash_inner; [|repeat constructor; trivial; apply clash_term]. intros c c' [<-|[<-|[<-|[]]]] [<-|[<-|[<-|[]]]] H; try reflexivity; rewrite ?H1, ?H2, ?H3 in H; discriminate H. }
  apply clash_inner; [|repeat constructor; apply F]. intros c c' [<-|[<-|[]]] [<-|[<-|[]]] H; reflexivity.
Qed.
