(** Cases for C95 and C96. *)
From Coq Require Import Reals List Arith Lia Lra ZArith.
From Verif.Base Require Import Py Cplx Matrix Radix.
From Verif.Sim Require Import TnSpec TnProofs.
From Verif.State Require Import DdModel DdSpec DdProofs CutProofs Synth StatModel StatSpec StatProofs PrepCases.
Import ListNotations.
Local Open Scope nat_scope.

Lemma normalize_val w ws n : (0 < n)%R -> fold_right Rplus 0%R (map Cnorm2 ws) = (n * n)%R -> normalize w ws = (Cmul w (RtoC n), map (fun z => Cdivr z n) ws).
Proof.
  intros P N. unfold normalize. assert (Nf : norm_of ws = n) by (unfold norm_of; rewrite N; apply sqrt_square; lra). rewrite Nf. destruct (Req_EM_T n 0); [lra|reflexivity].
Qed.
Lemma prefix_cases p i q : prefix (p ++ [i]) [q] -> p = [] /\ i = q.
Proof. intros (s & E). destruct p as [|a p]; cbn in E; [injection E as -> _; auto|]. injection E as _ E. destruct p; discriminate. Qed.
Lemma two_levels : cut_off [2] (vec_of [RtoC (399 / 401); RtoC (40 / 401)]) (1 / 100) [1] /\ ~ cut_off [2] (vec_of [RtoC (399 / 401); RtoC (40 / 401)]) (1 / 100) [0].
Proof.
  split.
  - exists [], 1. split; [exists []; reflexivity|]. unfold small, prob_below, vec_of, prefixb. cbn. unfold Cnorm2, RtoC. cbn. lra.
  - intros (p & i & P & S). apply prefix_cases in P. destruct P as [-> ->]. unfold small, prob_below, vec_of, prefixb in S. cbn in S. unfold Cnorm2, RtoC in S. cbn in S. lra.
Qed.
Lemma one_level : exists t n, create_decision_tree [1; 2] [RtoC (399 / 401); RtoC (40 / 401)] = Ok (t, n) /\
  ~ cut_off [1; 2] (vec_of [RtoC (399 / 401); RtoC (40 / 401)]) (1 / 100) [0; 0] /\
  tree_state [1; 2] (dd_approximation (1 / 100) t) 0 = RtoC ((399 / 401) * (399 / 401)).
Proof.
  destruct (build_pair (399 / 401) (40 / 401) 1) as (c1 & E1); [lra|lra|]. rewrite !RtoC_is0 in E1 by lra.
  destruct (build_inner 1 [2] [RtoC (399 / 401); RtoC (40 / 401)] [(Inner (RtoC 1) [Term (RtoC (399 / 401 / 1)) true; Term (RtoC (40 / 401 / 1)) true], c1)] 1) as (c & E).
  - lia.
  - cbn [seq mapr part List.length Nat.div Nat.divmod fst skipn firstn Nat.mul Nat.add]. unfold part. cbn [skipn firstn Nat.mul Nat.add]. cbn [negb] in E1. rewrite E1. reflexivity.
  - lra.
  - cbn. rewrite RtoC_norm. lra.
  - unfold create_decision_tree. rewrite E. cbn [bindr fst snd map weight set_weight]. eexists. eexists. split; [reflexivity|]. split.
    + intros (p & i & (s & P) & S). unfold small, prob_below, vec_of, prefixb in S. destruct p as [|a p]; cbn in P.
      * injection P as <- _. cbn in S. unfold Cnorm2, RtoC in S. cbn in S. lra.
      * injection P as <- P. destruct p as [|b p]; cbn in P; [injection P as <- _; cbn in S; unfold Cnorm2, RtoC in S; cbn in S; lra|]. injection P as _ P. destruct p; discriminate.
    + cbn [reweigh combine map fst snd set_weight]. rewrite !Cdivr_R. replace (399 / 401 / 1)%R with (399 / 401)%R by field. replace (40 / 401 / 1)%R with (40 / 401)%R by field. replace (1 / 1)%R with 1%R by field.
      unfold dd_approximation. cbn [approximate weight map]. rewrite (trim_big (1 / 100) (RtoC 1)) by (rewrite RtoC_norm; lra). rewrite (trim_big (1 / 100) (RtoC (399 / 401))) by (rewrite RtoC_norm; lra).
      rewrite (trim_small (1 / 100) (RtoC (40 / 401))) by (rewrite RtoC_norm; lra). cbn [map weight].
      rewrite (normalize_val (RtoC 1) [RtoC (399 / 401); C0] (399 / 401)) by (try lra; cbn; rewrite RtoC_norm; unfold Cnorm2, C0; cbn; lra). cbn [fst snd].
      replace (Cmul (RtoC 1) (RtoC (399 / 401))) with (RtoC (399 / 401)) by (apply Ceq; cbn; ring). rewrite (RtoC_is0 (399 / 401)) by lra. cbn [List.length Nat.eqb map weight].
      rewrite (normalize_val (RtoC 1) [RtoC (399 / 401)] (399 / 401)) by (try lra; cbn; rewrite RtoC_norm; lra). cbn [fst snd].
      replace (Cmul (RtoC 1) (RtoC (399 / 401))) with (RtoC (399 / 401)) by (apply Ceq; cbn; ring). rewrite (RtoC_is0 (399 / 401)) by lra. cbn [List.length Nat.eqb].
      unfold tree_state. cbn [digits prodl Nat.div Nat.modulo Nat.divmod fst snd Nat.sub Nat.mul Nat.add]. cbn [path_amp nth reweigh combine map fst snd set_weight weight]. rewrite Cdivr_R. apply Ceq; cbn; field.
Qed.
Lemma counted hash dims data t n : (forall d, In d dims -> 0 < d) -> List.length data = prodl dims -> create_decision_tree dims data = Ok (t, n) ->
  exists c, count_nodes_after hash t = Ok c /\ 1 <= c <= n.
Proof.
  intros D L E. destruct (create_ok dims data D L) as (t' & E' & G & _). rewrite E' in E. injection E as -> <-. apply count_ok. exact G.
Qed.
Lemma undercounted hash : exists t n, create_decision_tree [3; 2] lost_state = Ok (t, n) /\ nth 5 lost_state C0 <> C0 /\ count_nodes_after hash t = Ok 2.
Proof.
  destruct lost_build as (n & E). exists lost_tree, n. split; [exact E|]. split.
  - cbn. intros Z. apply (RtoC_inj (16 / 25) 0) in Z. lra.
  - unfold lost_tree. cbn [count_nodes_after]. rewrite lost_reduced. cbn [bindr].
    assert (Q : exists i, firstn 1 (children_index hash [Term C0 false; Inner (RtoC (3 / 5)) [Term (RtoC (3 / 5)) true; Term (RtoC (4 / 5)) true]; Inner (RtoC (4 / 5)) [Term (RtoC (3 / 5)) true; Term (RtoC (4 / 5)) true]]) = [i] /\
      nth_error [Term C0 false; Inner (RtoC (3 / 5)) [Term (RtoC (3 / 5)) true; Term (RtoC (4 / 5)) true]; Inner (RtoC (4 / 5)) [Term (RtoC (3 / 5)) true; Term (RtoC (4 / 5)) true]] i = Some (Term C0 false)).
    { eexists. split; [reflexivity|]. exact (index_first hash [Term C0 false; Inner (RtoC (3 / 5)) [Term (RtoC (3 / 5)) true; Term (RtoC (4 / 5)) true]; Inner (RtoC (4 / 5)) [Term (RtoC (3 / 5)) true; Term (RtoC (4 / 5)) true]] (Term C0 false) eq_refl). }
    destruct Q as (i & -> & Q). cbn [mapr]. match goal with |- context [nth_error ?l i] => change l with (map (count_nodes_after hash) [Term C0 false; Inner (RtoC (3 / 5)) [Term (RtoC (3 / 5)) true; Term (RtoC (4 / 5)) true]; Inner (RtoC (4 / 5)) [Term (RtoC (3 / 5)) true; Term (RtoC (4 / 5)) true]]) end.
    rewrite nth_error_map, Q. reflexivity.
Qed.
Lemma history : exists t n, create_decision_tree [2] [C0; C0] = Ok (t, n) /\ In C1 (unique_weights C1 t) /\ ~ In C1 (unique_weights C0 t).
Proof.
  destruct build_null as (c & E). unfold create_decision_tree. rewrite E. cbn [bindr fst snd]. eexists. eexists. split; [reflexivity|]. cbn. split; [auto|].
  intros [H|[H|[]]]; apply (f_equal fst) in H; cbn in H; lra.
Qed.
Lemma lost_case : exists t n, create_decision_tree [3; 2] lost_state = Ok (t, n) /\ n = 10 /\ exists k, k < prodl [3; 2] /\ nth k lost_state C0 <> C0.
Proof.
  destruct (create_ok [3; 2] lost_state) as (t & E & _); [intros d [<-|[<-|[]]]; lia|reflexivity|]. exists t, 10. split; [exact E|]. split; [reflexivity|]. exists 5. split; [cbn; lia|].
  cbn. intros Z. apply (RtoC_inj (16 / 25) 0) in Z. lra.
Qed.
