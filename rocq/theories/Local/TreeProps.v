(** C77: the search tree.  Specification: TreeSpec. *)
From Coq Require Import Reals Lra Lia List Arith ZArith.
From Verif.Base Require Import Py PyFacts.
From Verif.Local Require Import TreeModel TreeSpec TreeProofs.
Import ListNotations.
Local Open Scope list_scope.
Local Open Scope nat_scope.

(** After any history of calls that succeed, total_size is the number of nodes added since the last root. *)
Theorem C77_total_size (A : Type) (cs : list (call A)) t : run_calls new_tree cs = Ok t ->
  match added [] cs with
  | [] => total_size t = Err AttributeError
  | l => exists t', total_size t = Ok (List.length l, t')
  end.
Proof. exact (total_size_ok cs t). Qed.
Print Assumptions C77_total_size.
(** add succeeds exactly for a new root and for parents that are in the tree. *)
Theorem C77_add (A : Type) (cs : list (call A)) t k a p : run_calls new_tree cs = Ok t ->
  (is_ok (tree_add t k a p) = true <-> match p with None => True | Some q => In q (map fst (added [] cs)) end).
Proof. exact (add_ok (fun _ => 0%R) (fun _ => 0%R) (fun _ => tt) cs t k a p). Qed.
Print Assumptions C77_add.
(** depth is the length of the longest way down from a node with the key. *)
Theorem C77_depth (A : Type) (t : @nary A) (r : ntree A) key : tr_root t = Some r ->
  match depth t key with
  | Ok n => exists t0 m, under r t0 m /\ t_key t0 = key /\ (forall t' i, under t0 t' i -> i <= n) /\ (exists t', under t0 t' n)
  | Err e => e = NodeNotFoundError /\ ~ In key (map fst (entries r))
  end.
Proof. exact (depth_ok t r key). Qed.
Print Assumptions C77_depth.
(** What is retrieved is a path from the root to a finished node, with the smallest cost of all of them. *)
Theorem C77_retrieve (A G : Type) (cost dcost : A -> R) (graph : A -> G) (t : ntree A) : leaves_only t ->
  (exists p, leads t p true) ->
  exists p x, retrieve_decomposition cost dcost graph t = Ok (p, Some (cost x, dcost x), graph x) /\ leads t p true /\ last p x = x /\
    (forall q y, leads t q true -> last q y = y -> (cost x <= cost y)%R).
Proof. exact (retrieve_ok cost dcost graph t). Qed.
Print Assumptions C77_retrieve.
(** Without a finished node the answer is the empty path with infinite cost. *)
Theorem C77_retrieve_none (A G : Type) (cost dcost : A -> R) (graph : A -> G) (t : ntree A) : leaves_only t -> (forall p, ~ leads t p true) ->
  retrieve_decomposition cost dcost graph t = Ok ([], None, graph (t_data t)).
Proof. exact (retrieve_none cost dcost graph t). Qed.
Print Assumptions C77_retrieve_none.
(** A tree with one node calls itself empty once its size was asked for. *)
Theorem C77_is_empty_refuted (k : Z) (a : nat) : exists t n t', run_calls new_tree [CAdd k a None] = Ok t /\ is_empty t = false /\
  total_size t = Ok (n, t') /\ n = 1 /\ is_empty t' = true.
Proof. exact (empty_wrong k a). Qed.
Print Assumptions C77_is_empty_refuted.
(** A finished node above unfinished ones is not retrieved: ValueError. *)
Theorem C77_finished_inner_refuted : exists t : ntree R, t_fin t = true /\
  retrieve_decomposition (fun x => x) (fun x => x) (fun _ => tt) t = Err ValueError.
Proof. exact finished_inner_wrong. Qed.
Print Assumptions C77_finished_inner_refuted.

Definition grown : list (call Z) := [CAdd 0 10 None; CAdd 1 11 (Some 0); CTotal; CAdd 2 12 (Some 0); CAdd 3 13 (Some 1)]%Z.
Example C77_case_grown : exists t, run_calls new_tree grown = Ok t /\ added [] grown = [(0, 10); (1, 11); (2, 12); (3, 13)]%Z /\
  depth t 0 = Ok 2 /\ depth t 1 = Ok 1 /\ depth t 7 = Err NodeNotFoundError /\ is_ok (tree_add t 5 0%Z (Some 4%Z)) = false.
Proof. eexists. repeat split. Qed.
Definition forked : ntree R := NT 0 false 0%R [NT 1 true 3%R []; NT 2 false 1%R [NT 3 true 2%R []; NT 4 false 0%R []]].
Example C77_case_forked : leaves_only forked /\ leads forked [0; 3]%R true /\ leads forked [0; 1; 2]%R true /\ leads forked [0; 1; 0]%R false.
Proof.
  split; [|split; [|split]].
  - intros t' n U. unfold forked in U. repeat (match goal with H : In _ (_ :: _) |- _ => destruct H as [<-|H] | H : In _ [] |- _ => destruct H | H : under (NT _ _ _ _) _ _ |- _ => inversion H; subst; clear H end);
      cbn; congruence.
  - apply leads_child with (NT 1 true 3%R []); [left; reflexivity|]. constructor.
  - apply leads_child with (NT 2 false 1%R [NT 3 true 2%R []; NT 4 false 0%R []]); [right; left; reflexivity|].
    apply leads_child with (NT 3 true 2%R []); [left; reflexivity|]. constructor.
  - apply leads_child with (NT 2 false 1%R [NT 3 true 2%R []; NT 4 false 0%R []]); [right; left; reflexivity|].
    apply leads_child with (NT 4 false 0%R []); [right; left; reflexivity|]. constructor.
Qed.
