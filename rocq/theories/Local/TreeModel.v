(** The search tree of the adaptive compilation.
    Source: src/mqt/qudits/core/dfs_tree.py.

    A node carries its key, its finished flag, a payload (rotation, matrix, graph, costs, pulses) and its
    children.  Node.size counts the calls of Node.add and equals the number of children, because no caller
    passes children to the constructor (16-42); it is not stored.  parent_key is only stored and never read.
    print_tree (200-213) only makes a string and is left out. *)
From Coq Require Import Reals.
From Verif.Base Require Import Py.
Local Open Scope list_scope.
Local Open Scope nat_scope.

(** dfs_tree.py:15-42 (Node). *)
Inductive ntree (A : Type) := NT (key : Z) (fin : bool) (a : A) (ch : list (ntree A)).
Arguments NT {A} key fin a ch.

Section Tree.
  Context {A G : Type}.
  (** The fields current_cost, current_decomp_cost and graph of the payload. *)
  Variables (cost dcost : A -> R) (graph : A -> G).

  Definition t_key (t : ntree A) : Z := match t with NT k _ _ _ => k end.
  Definition t_fin (t : ntree A) : bool := match t with NT _ f _ _ => f end.
  Definition t_data (t : ntree A) : A := match t with NT _ _ a _ => a end.
  Definition t_children (t : ntree A) : list (ntree A) := match t with NT _ _ _ l => l end.

  (** dfs_tree.py:44-73 (Node.add): a new node without children at the end of the children. *)
  Definition new_node (k : Z) (a : A) : ntree A := NT k false a [].
  Definition node_add (t : ntree A) (k : Z) (a : A) : ntree A :=
    match t with NT k0 f0 a0 ch => NT k0 f0 a0 (ch ++ [new_node k a]) end.

  (** dfs_tree.py:124-133 (find_node). *)
  Fixpoint find_node (t : ntree A) (key : Z) : option (ntree A) :=
    match t with NT k f a ch =>
      if (k =? key)%Z then Some t else
      (fix go l := match l with [] => None | c :: r => match find_node c key with Some x => Some x | None => go r end end) ch
    end.

  (** The node found by find_node changed in place by h. *)
  Fixpoint update_node (t : ntree A) (key : Z) (h : ntree A -> ntree A) : option (ntree A) :=
    match t with NT k f a ch =>
      if (k =? key)%Z then Some (h t) else
      match (fix go l := match l with
                         | [] => None
                         | c :: r => match update_node c key h with
                                     | Some c' => Some (c' :: r)
                                     | None => match go r with Some r' => Some (c :: r') | None => None end
                                     end
                         end) ch with
      | Some ch' => Some (NT k f a ch')
      | None => None
      end
    end.

  (** dfs_tree.py:82-87: the attribute root does not exist before the first add. *)
  Record nary := NTree { tr_root : option (ntree A); tr_size : Z; tr_counter : Z }.
  Definition new_tree : nary := NTree None 0 0.

  (** dfs_tree.py:89-122 (add). *)
  Definition tree_add (t : nary) (k : Z) (a : A) (parent : option Z) : res nary :=
    match parent with
    | None => Ok (NTree (Some (new_node k a)) 1 (tr_counter t))
    | Some p =>
        match tr_root t with
        | None => Err AttributeError
        | Some r => match update_node r p (fun n => node_add n k a) with
                    | None => Err NodeNotFoundError
                    | Some r' => Ok (NTree (Some r') (tr_size t + 1) (tr_counter t))
                    end
        end
    end.

  (** dfs_tree.py:143-147 (max_depth). *)
  Fixpoint max_depth (t : ntree A) : nat :=
    match t with NT _ _ _ [] => 0 | NT _ _ _ ch => 1 + list_max (map max_depth ch) end.
  (** dfs_tree.py:135-141 (depth). *)
  Definition depth (t : nary) (key : Z) : res nat :=
    match tr_root t with
    | None => Err AttributeError
    | Some r => match find_node r key with None => Err NodeNotFoundError | Some n => Ok (max_depth n) end
    end.
  (** dfs_tree.py:149-156 (size_refresh). *)
  Fixpoint size_refresh (t : ntree A) : nat :=
    match t with NT _ _ _ ch => List.length ch + list_sum (map size_refresh ch) end.
  (** dfs_tree.py:195-198 (total_size): the size stored is one less than the size returned. *)
  Definition total_size (t : nary) : res (nat * nary) :=
    match tr_root t with
    | None => Err AttributeError
    | Some r => Ok (size_refresh r + 1, NTree (Some r) (Z.of_nat (size_refresh r)) (tr_counter t))
    end.
  (** dfs_tree.py:192-193 (is_empty). *)
  Definition is_empty (t : nary) : bool := (tr_size t =? 0)%Z.

  (** dfs_tree.py:158-166 (found_checker): the tree with the flags it leaves; the value returned is the flag of
      its root. *)
  Fixpoint found_checker (t : ntree A) : ntree A :=
    match t with
    | NT k f a [] => NT k f a []
    | NT k f a ch => let ch' := map found_checker ch in NT k (f || existsb t_fin ch') a ch'
    end.

  (** min(l, key = lambda t: t[1][0]): the first of the smallest; ValueError for an empty list. *)
  Definition first_min (l : list (list A * (R * R) * G)) : res (list A * (R * R) * G) :=
    match l with
    | [] => Err ValueError
    | x :: r => Ok (fold_left (fun m y => if Rlt_dec (fst (snd (fst y))) (fst (snd (fst m))) then y else m) r x)
    end.
  (** dfs_tree.py:168-176 (min_cost_decomp). *)
  Fixpoint min_cost_decomp (t : ntree A) : res (list A * (R * R) * G) :=
    match t with
    | NT _ _ a [] => Ok ([a], (cost a, dcost a), graph a)
    | NT _ _ a ch =>
        let? l := (fix go l := match l with
                               | [] => Ok []
                               | c :: r => if t_fin c then let? y := min_cost_decomp c in let? ys := go r in Ok (y :: ys) else go r
                               end) ch in
        let? m := first_min l in
        Ok (a :: fst (fst m), snd (fst m), snd m)
    end.

  (** dfs_tree.py:178-190 (retrieve_decomposition); the cost (inf, inf) is [None]. *)
  Definition retrieve_decomposition (t : ntree A) : res (list A * option (R * R) * G) :=
    let t' := found_checker t in
    if t_fin t' then
      let? m := min_cost_decomp t' in Ok (fst (fst m), Some (snd (fst m)), snd m)
    else Ok ([], None, graph (t_data t)).
End Tree.
