(** C34: the decision tree of a state says what the state is.  C35: the approximation loses less than it may. *)
From Coq Require Import Reals List Arith Lia Lra Sorted.
From Verif.Base Require Import Py Cplx Matrix Radix.
From Verif.Local Require Import QrMath.
From Verif.Sim Require Import TnSpec TnProofs.
From Verif.State Require Import DdModel DdSpec DdProofs CutProofs PrepModel.
Import ListNotations.
Local Open Scope nat_scope.

(** The tree is built, and the product of the weights on the path of a basis state is the amplitude of the state. *)
Theorem C34_path_product dims data : (forall d, In d dims -> 0 < d) -> List.length data = prodl dims ->
  exists t n, create_decision_tree dims data = Ok (t, n) /\ forall k, k < prodl dims -> path_amp t (digits dims k) = nth k data C0.
Proof.
  intros D L. destruct (create_ok dims data D L) as (t & E & G & A). exists t, (full_nodes dims). split; [exact E|]. intros k Hk.
  rewrite A by (apply valid_digits; exact Hk). rewrite undigits_digits by exact Hk. reflexivity.
Qed.
Print Assumptions C34_path_product.

(** Every inner node has one child per level, with weights that form a unit vector; the weight of the root is the norm of
    the state. *)
Theorem C34_normalised dims data t n : (forall d, In d dims -> 0 < d) -> List.length data = prodl dims ->
  create_decision_tree dims data = Ok (t, n) -> well_formed dims t /\ Cnorm2 (weight t) = norm2 (prodl dims) (vec_of data).
Proof.
  intros D L E. destruct (create_ok dims data D L) as (t' & E' & G & A). rewrite E' in E. injection E as -> _. split; [apply good_well_formed; exact G|].
  rewrite <- (tree_norm dims t G). apply rsum_ext. intros k Hk. unfold vec_of. rewrite A by (apply valid_digits; exact Hk). rewrite undigits_digits by exact Hk. reflexivity.
Qed.
Print Assumptions C34_normalised.

(** The number of nodes reported is that of the full tree. *)
Theorem C34_count dims data t n : (forall d, In d dims -> 0 < d) -> List.length data = prodl dims ->
  create_decision_tree dims data = Ok (t, n) -> n = full_nodes dims.
Proof. intros D L E. destruct (create_ok dims data D L) as (t' & E' & _). rewrite E' in E. injection E as _ <-. reflexivity. Qed.
Print Assumptions C34_count.

Example C34_case : (forall d, In d [2; 3] -> 0 < d) /\ List.length [C1; C0; Ci; C0; RtoC 2; Copp C1] = prodl [2; 3] /\ full_nodes [2; 3] = 9.
Proof. repeat split. intros d [<-|[<-|[]]]; lia. Qed.

(** The list of contributions: level by level, in ascending order, exactly the nodes of non-zero probability below the root, each
    with the probability that a measurement gives one of the basis states below it. *)
Theorem C35_contributions dims data t n : (forall d, In d dims -> 0 < d) -> List.length data = prodl dims -> create_decision_tree dims data = Ok (t, n) ->
  forall j l, nth_error (contributions t (List.length dims)) j = Some l ->
    Sorted (fun a b => (snd a <= snd b)%R) l /\
    (forall p prob, In (p, prob) l -> List.length p = S j /\ prob = prob_below dims (vec_of data) p) /\
    (forall p, List.length p = S j -> (exists s, valid dims (p ++ s)) -> prob_below dims (vec_of data) p <> 0%R -> exists prob, In (p, prob) l).
Proof. exact (contributions_spec dims data t n). Qed.
Print Assumptions C35_contributions.

(** Cutting keeps each amplitude or makes it zero, and loses less than the tolerance. *)
Theorem C35_cut dims data t n tol : (forall d, In d dims -> 0 < d) -> List.length data = prodl dims -> create_decision_tree dims data = Ok (t, n) -> (0 < tol)%R ->
  let t' := cut_branches tol (contributions t (List.length dims)) t in
  (forall k, k < prodl dims -> tree_state dims t' k = nth k data C0 \/ tree_state dims t' k = C0) /\
  (norm2 (prodl dims) (fun k => Csub (nth k data C0) (tree_state dims t' k)) < tol)%R.
Proof. exact (cut_data dims data t n tol). Qed.
Print Assumptions C35_cut.

(** The renormalisation that follows gives a tree as it should be, for the same amplitudes. *)
Theorem C35_renormalised tol dims data : (forall d, In d dims -> 1 < d) -> List.length data = prodl dims -> (0 < tol)%R ->
  exists t, state_tree tol dims data true = Ok t /\ well_formed dims t /\
    (forall k, k < prodl dims -> tree_state dims t k = nth k data C0 \/ tree_state dims t k = C0) /\
    (norm2 (prodl dims) (fun k => Csub (nth k data C0) (tree_state dims t k)) < tol)%R.
Proof. exact (approx_data tol dims data). Qed.
Print Assumptions C35_renormalised.

(** The fidelity of the approximated state, normalised, with the state asked for. *)
Theorem C35_fidelity tol dims data t : (forall d, In d dims -> 1 < d) -> List.length data = prodl dims -> norm2 (prodl dims) (vec_of data) = 1%R -> (0 < tol <= 1)%R ->
  state_tree tol dims data true = Ok t ->
  (0 < norm2 (prodl dims) (tree_state dims t) /\ 1 - tol < Cnorm2 (overlap (prodl dims) (vec_of data) (tree_state dims t)) / norm2 (prodl dims) (tree_state dims t))%R.
Proof. exact (approx_fidelity tol dims data t). Qed.
Print Assumptions C35_fidelity.

(** With the tolerance of the code the second of these two amplitudes, of probability 0.00995, is cut. *)
Example C35_case : exists t, state_tree code_tol [2] [RtoC (399 / 401); RtoC (40 / 401)] true = Ok t /\ norm2 2 (vec_of [RtoC (399 / 401); RtoC (40 / 401)]) = 1%R /\
  tree_state [2] t 0 = RtoC (399 / 401) /\ tree_state [2] t 1 = C0.
Proof. exact cut_case. Qed.
