(** C30: the search tree of the adaptive compilers. *)
From Coq Require Import Reals List ZArith.
From Verif.Base Require Import Py.
From Verif.Compiler Require Import TreeModel TreeSpec TreeProofs.
Import ListNotations.
Local Open Scope list_scope.
Local Open Scope nat_scope.

(** Lookup returns the first node with the key, or nothing when there is none. *)
Theorem C30_lookup :
  forall {P} (t s : tree P) k, find_node t k = Some s <-> exists a, first_with t k a /\ sub t a = Some s.
Proof. exact @lookup_some. Qed.
Print Assumptions C30_lookup.
Theorem C30_lookup_missing :
  forall {P} (t : tree P) k, find_node t k = None <-> forall a i, node t a = Some i -> key i <> k.
Proof. exact @lookup_none. Qed.
Print Assumptions C30_lookup_missing.

(** Adding puts one leaf behind the children of the first node with the parent key, and changes nothing
    else; with no such node it fails. *)
Theorem C30_add :
  forall {P} (n : ntree P) t k c dc p pk, root n = Some t -> forall a i cs, first_with t pk a -> sub t a = Some (Nd i cs) ->
  exists t', add n k c dc p (Some pk) = Ok (NT (Some t') (size n + 1)) /\
    leaf t' (a ++ [length cs]) (Info k (Some pk) c dc false p) /\
    forall b, b <> a ++ [length cs] -> node t' b = node t b.
Proof. exact @add_found. Qed.
Print Assumptions C30_add.
Theorem C30_add_missing :
  forall {P} (n : ntree P) t k c dc p pk, root n = Some t ->
  (add n k c dc p (Some pk) = Err NodeNotFoundError <-> forall a i, node t a = Some i -> key i <> pk).
Proof. exact @add_missing. Qed.
Print Assumptions C30_add_missing.

(** After any history of additions, marks and retrievals the size is the number of nodes. *)
Theorem C30_size :
  forall {P} l (n : ntree P), history empty_tree l n ->
  match root n with None => size n = 0%Z | Some t => exists m, nodes t m /\ size n = Z.of_nat m end.
Proof. exact @history_size. Qed.
Print Assumptions C30_size.
Theorem C30_total_size :
  forall {P} (n : ntree P) t m, root n = Some t -> nodes t m -> exists n', total_size n = Ok (Z.of_nat m, n') /\ root n' = Some t.
Proof. exact @total_size_spec. Qed.
Print Assumptions C30_total_size.

(** Reading total_size overwrites the size with one less than the number of nodes; a tree that is only a
    root then calls itself empty. *)
Theorem C30_total_size_damages_size_refuted :
  forall {P} (n : ntree P) t m n', root n = Some t -> nodes t m -> total_size n = Ok (Z.of_nat m, n') -> size n' = (Z.of_nat m - 1)%Z.
Proof. exact @total_size_damage. Qed.
Print Assumptions C30_total_size_damages_size_refuted.
Theorem C30_is_empty_refuted :
  forall {P} k c dc (p : P) n n' z, add empty_tree k c dc p None = Ok n -> total_size n = Ok (z, n') ->
  z = 1%Z /\ is_empty n = false /\ is_empty n' = true.
Proof. exact @total_size_empty. Qed.
Print Assumptions C30_is_empty_refuted.

(** The depth of a key is the longest way down from its first node. *)
Theorem C30_depth :
  forall {P} (n : ntree P) t k, root n = Some t -> forall a s h, first_with t k a -> sub t a = Some s -> height s h -> depth n k = Ok h.
Proof. exact @depth_found. Qed.
Print Assumptions C30_depth.
Theorem C30_depth_missing :
  forall {P} (n : ntree P) t k, root n = Some t -> (depth n k = Err NodeNotFoundError <-> forall a i, node t a = Some i -> key i <> k).
Proof. exact @depth_missing. Qed.
Print Assumptions C30_depth_missing.

(** If leaves only are marked finished and nothing is added below a finished leaf, every mark is supported
    by a finished leaf. *)
Theorem C30_histories :
  forall {P} l (n : ntree P) t, legal_history empty_tree l n -> root n = Some t -> supported t.
Proof. exact @legal_supported. Qed.
Print Assumptions C30_histories.

(** Then retrieval returns the nodes from the root to a finished leaf, whose cost is least among all
    finished leaves and which is the first of this cost ... *)
Theorem C30_retrieve :
  forall {P} (t : tree P), supported t -> (exists a i, leaf t a i /\ finished i = true) ->
  exists path a j, snd (retrieve t) = Ok (path, Some (current_cost j, decomp_cost j), payload j) /\
    leaf t a j /\ finished j = true /\ way (fst (retrieve t)) a path /\
    forall b j', leaf t b j' -> finished j' = true ->
      (current_cost j <= current_cost j')%R /\ (current_cost j' = current_cost j -> b = a \/ before a b).
Proof. exact @retrieve_found. Qed.
Print Assumptions C30_retrieve.
(** ... or nothing at infinite cost if no leaf is finished. *)
Theorem C30_retrieve_nothing :
  forall {P} (t : tree P), supported t -> (forall a i, leaf t a i -> finished i = false) ->
  snd (retrieve t) = Ok ([], None, payload (label t)).
Proof. exact @retrieve_none. Qed.
Print Assumptions C30_retrieve_nothing.
(** Retrieval changes finished flags only: a node ends up finished when a finished node is below it. *)
Theorem C30_retrieve_flags :
  forall {P} (t : tree P) a i, node t a = Some i ->
  exists i', node (fst (retrieve t)) a = Some i' /\ same_but_flag i i' /\
    (finished i' = true <-> exists b j, node t (a ++ b) = Some j /\ finished j = true).
Proof. exact @retrieve_flags. Qed.
Print Assumptions C30_retrieve_flags.

(** A mark without a finished leaf, as after adding below a finished leaf, makes retrieval raise. *)
Theorem C30_unsupported_mark_refuted :
  forall {P} (t : tree P), (forall a i, leaf t a i -> finished i = false) -> (exists a i, node t a = Some i /\ finished i = true) ->
  snd (retrieve t) = Err ValueError.
Proof. exact @retrieve_bad. Qed.
Print Assumptions C30_unsupported_mark_refuted.

(** ** The hypotheses are met *)

(** Three finished leaves with costs 3, 5 and 2 on two levels. *)
Example C30_case : legal_history empty_tree sample_ops (NT (Some sample) 5).
Proof. exact sample_history. Qed.
Example C30_case_result : exists path, snd (retrieve sample) = Ok (path, Some (2, 0)%R, tt) /\ map key path = [0; 2; 4]%Z.
Proof. exact sample_result. Qed.
