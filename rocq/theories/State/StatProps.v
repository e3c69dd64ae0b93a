(** C95: approximation branch by branch.  C96: the statistics of a decision tree. *)
From Coq Require Import Reals List Arith Lia Lra ZArith.
From Verif.Base Require Import Py Cplx Matrix Radix.
From Verif.Sim Require Import TnSpec.
From Verif.State Require Import DdModel DdSpec StatModel StatSpec StatProofs StatCases PrepCases.
Import ListNotations.
Local Open Scope nat_scope.

(** [dd_approximation tol t]: the tree [t] after the call; [tree_state dims t]: the amplitudes that the tree stands for. *)

(** Exactly the amplitudes behind a small branch become zero, all others stay as they are, and the tree is normalised. *)
Theorem C95_approximation : forall dims data t n tol, (forall d, In d dims -> 1 < d) -> List.length data = prodl dims ->
  create_decision_tree dims data = Ok (t, n) ->
  well_formed dims (dd_approximation tol t) /\
  (forall k, k < prodl dims -> cut_off dims (vec_of data) tol (digits dims k) -> tree_state dims (dd_approximation tol t) k = C0) /\
  (forall k, k < prodl dims -> ~ cut_off dims (vec_of data) tol (digits dims k) -> tree_state dims (dd_approximation tol t) k = nth k data C0).
Proof. intros dims data t n tol D L E. destruct (approximation_ok dims data t n tol D L E) as (A & B & C & _). auto. Qed.
Print Assumptions C95_approximation.
(** What is lost: at most the tolerance for each level of each qudit. *)
Theorem C95_loss : forall dims data t n tol, (forall d, In d dims -> 1 < d) -> List.length data = prodl dims ->
  create_decision_tree dims data = Ok (t, n) -> (0 <= tol)%R ->
  (norm2 (prodl dims) (fun k => Csub (nth k data C0) (tree_state dims (dd_approximation tol t) k)) <= tol * INR (sum_dims dims) * norm2 (prodl dims) (vec_of data))%R.
Proof. intros dims data t n tol D L E Q. destruct (approximation_ok dims data t n tol D L E) as (_ & _ & _ & X). apply X. exact Q. Qed.
Print Assumptions C95_loss.
(** With a qudit of one level the weights are not renormalised: the first amplitude, 399/401, is squared. *)
Theorem C95_one_level_refuted : exists t n, create_decision_tree [1; 2] [RtoC (399 / 401); RtoC (40 / 401)] = Ok (t, n) /\
  ~ cut_off [1; 2] (vec_of [RtoC (399 / 401); RtoC (40 / 401)]) (1 / 100) [0; 0] /\
  tree_state [1; 2] (dd_approximation (1 / 100) t) 0 = RtoC ((399 / 401) * (399 / 401)).
Proof. exact one_level. Qed.
Print Assumptions C95_one_level_refuted.
(** Both cases occur. *)
Example C95_case : cut_off [2] (vec_of [RtoC (399 / 401); RtoC (40 / 401)]) (1 / 100) [1] /\ ~ cut_off [2] (vec_of [RtoC (399 / 401); RtoC (40 / 401)]) (1 / 100) [0].
Proof. exact two_levels. Qed.

(** The nodes counted after the reduction are never more than the nodes of the tree, whatever the hash function. *)
Theorem C96_count : forall hash dims data t n, (forall d, In d dims -> 0 < d) -> List.length data = prodl dims -> create_decision_tree dims data = Ok (t, n) ->
  exists c, count_nodes_after hash t = Ok c /\ 1 <= c <= n.
Proof. exact counted. Qed.
Print Assumptions C96_count.
(** The count can leave out most of the tree: this state of two qudits is counted with two nodes, which is less than one path has. *)
Theorem C96_count_refuted : forall hash, exists t n, create_decision_tree [3; 2] lost_state = Ok (t, n) /\ nth 5 lost_state C0 <> C0 /\ count_nodes_after hash t = Ok 2.
Proof. exact undercounted. Qed.
Print Assumptions C96_count_refuted.
(** The set of weights is that of the weights of the nodes, with 1 for the end of the paths. *)
Theorem C96_weights : forall dims data t n zero_weight, (forall d, In d dims -> 0 < d) -> List.length data = prodl dims -> create_decision_tree dims data = Ok (t, n) ->
  (exists k, k < prodl dims /\ nth k data C0 <> C0) -> zero_weight = C0 \/ zero_weight = C1 ->
  forall z, In z (unique_weights zero_weight t) <-> z = C1 \/ exists p s, node_at t p = Some s /\ weight s = z.
Proof. exact unique_ok. Qed.
Print Assumptions C96_weights.
(** For the state that is zero everywhere the set depends on what was built before. *)
Theorem C96_weights_refuted : exists t n, create_decision_tree [2] [C0; C0] = Ok (t, n) /\ In C1 (unique_weights C1 t) /\ ~ In C1 (unique_weights C0 t).
Proof. exact history. Qed.
Print Assumptions C96_weights_refuted.
Example C96_case : exists t n, create_decision_tree [3; 2] lost_state = Ok (t, n) /\ n = 10 /\ exists k, k < prodl [3; 2] /\ nth k lost_state C0 <> C0.
Proof. exact lost_case. Qed.
