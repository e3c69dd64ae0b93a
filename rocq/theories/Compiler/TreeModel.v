(** The search tree of the adaptive compilers.
    Source: src/mqt/qudits/core/dfs_tree.py.

    A node carries its key, the key of its parent, two costs, a finished flag and a payload (rotation,
    matrix, graph, cost limit and routing pulses), which the tree never looks at.  The children list and
    the [size] counter of a node (its number of children, dfs_tree.py:70-75) are the subtrees.  Methods
    that mutate nodes return the new tree. *)
From Coq Require Import Reals List ZArith.
From Verif.Base Require Import Py.
Import ListNotations.
Local Open Scope list_scope.

Section Tree.
  Context {P : Type}.

  (** dfs_tree.py:16-43 (Node.__init__). *)
  Record info := Info { key : Z; parent_key : option Z; current_cost : R; decomp_cost : R; finished : bool; payload : P }.
  Inductive tree := Nd (i : info) (children : list tree).
  Definition label (t : tree) : info := let 'Nd i _ := t in i.
  Definition children (t : tree) : list tree := let 'Nd _ cs := t in cs.
  Definition finish (i : info) : info := Info (key i) (parent_key i) (current_cost i) (decomp_cost i) true (payload i).
  Definition new_node (k : Z) (parent : option Z) (c dc : R) (p : P) : tree := Nd (Info k parent c dc false p) [].

  (** dfs_tree.py:45-75 (Node.add). *)
  Definition node_add (t : tree) (k : Z) (c dc : R) (p : P) : tree :=
    Nd (label t) (children t ++ [new_node k (Some (key (label t))) c dc p]).

  (** dfs_tree.py:127-137 (find_node): depth first, a node before its children. *)
  Fixpoint find_node (t : tree) (k : Z) : option tree :=
    let 'Nd i cs := t in
    if (key i =? k)%Z then Some t
    else (fix among (l : list tree) : option tree :=
            match l with
            | [] => None
            | c :: r => match find_node c k with Some n => Some n | None => among r end
            end) cs.

  (** The mutation of the node that find_node returns, seen from the root. *)
  Fixpoint update_node (f : tree -> tree) (t : tree) (k : Z) : option tree :=
    let 'Nd i cs := t in
    if (key i =? k)%Z then Some (f t)
    else match (fix among (l : list tree) : option (list tree) :=
                  match l with
                  | [] => None
                  | c :: r => match update_node f c k with
                              | Some c' => Some (c' :: r)
                              | None => match among r with Some r' => Some (c :: r') | None => None end
                              end
                  end) cs with
         | Some cs' => Some (Nd i cs')
         | None => None
         end.

  (** dfs_tree.py:84-88 (NAryTree.__init__): the attribute root does not exist before the first add. *)
  Record ntree := NT { root : option tree; size : Z }.
  Definition empty_tree : ntree := NT None 0.

  (** dfs_tree.py:90-125 (NAryTree.add). *)
  Definition add (n : ntree) (k : Z) (c dc : R) (p : P) (parent : option Z) : res ntree :=
    match parent with
    | None => Ok (NT (Some (new_node k None c dc p)) 1)
    | Some pk =>
        match root n with
        | None => Err AttributeError
        | Some t =>
            match update_node (fun s => node_add s k c dc p) t pk with
            | None => Err NodeNotFoundError
            | Some t' => Ok (NT (Some t') (size n + 1))
            end
        end
    end.

  (** find_node(root, key).finished = True, as the compilers do on a node they hold
      (log_local_adaptive_decomp.py:168, phy_local_adaptive_decomp.py:209). *)
  Definition mark_finished (n : ntree) (k : Z) : res ntree :=
    match root n with
    | None => Err AttributeError
    | Some t =>
        match update_node (fun s => Nd (finish (label s)) (children s)) t k with
        | None => Err NodeNotFoundError
        | Some t' => Ok (NT (Some t') (size n))
        end
    end.

  (** dfs_tree.py:147-151 (max_depth) and 139-145 (depth). *)
  Fixpoint max_depth (t : tree) : nat :=
    match children t with
    | [] => 0
    | _ => let 'Nd _ cs := t in 1 + fold_right Nat.max 0 (map max_depth cs)
    end.
  Definition depth (n : ntree) (k : Z) : res nat :=
    match root n with
    | None => Err AttributeError
    | Some t => match find_node t k with None => Err NodeNotFoundError | Some s => Ok (max_depth s) end
    end.

  (** dfs_tree.py:153-160 (size_refresh): the nodes below a node. *)
  Fixpoint size_refresh (t : tree) : nat :=
    let 'Nd _ cs := t in length cs + fold_right Nat.add 0 (map size_refresh cs).

  (** dfs_tree.py:162-170 (found_checker): the flags are updated bottom up; the value returned is the flag
      of the node. *)
  Fixpoint found_checker (t : tree) : tree :=
    let 'Nd i cs := t in
    let cs' := map found_checker cs in
    Nd (if existsb (fun c => finished (label c)) cs' then finish i else i) cs'.

  (** Python's min with key t[1][0]: the first of the smallest. *)
  Definition result : Type := (list info * (R * R) * P)%type.
  Definition cost_of (x : result) : R := fst (snd (fst x)).
  Fixpoint min_by (best : result) (l : list result) : result :=
    match l with
    | [] => best
    | x :: r => min_by (if Rlt_dec (cost_of x) (cost_of best) then x else best) r
    end.

  (** dfs_tree.py:172-180 (min_cost_decomp). *)
  Fixpoint min_cost_decomp (t : tree) : res result :=
    let 'Nd i cs := t in
    match cs with
    | [] => Ok ([i], (current_cost i, decomp_cost i), payload i)
    | _ =>
        let? l := (fix finished_ones (l : list tree) : res (list result) :=
                     match l with
                     | [] => Ok []
                     | c :: r =>
                         if finished (label c) then let? x := min_cost_decomp c in let? xs := finished_ones r in Ok (x :: xs)
                         else finished_ones r
                     end) cs in
        match l with
        | [] => Err ValueError
        | x :: r => let '(path, cost, g) := min_by x r in Ok (i :: path, cost, g)
        end
    end.

  (** dfs_tree.py:182-195 (retrieve_decomposition); None is the pair of infinite costs. *)
  Definition retrieve (t : tree) : tree * res (list info * option (R * R) * P) :=
    let t' := found_checker t in
    (t', if finished (label t') then let? x := min_cost_decomp t' in let '(path, cost, g) := x in Ok (path, Some cost, g)
         else Ok ([], None, payload (label t'))).

  (** dfs_tree.py:197-198 (is_empty) and 200-203 (total_size), which assigns size. *)
  Definition is_empty (n : ntree) : bool := (size n =? 0)%Z.
  Definition total_size (n : ntree) : res (Z * ntree) :=
    match root n with
    | None => Err AttributeError
    | Some t => let s := Z.of_nat (size_refresh t) in Ok (s + 1, NT (root n) s)%Z
    end.
End Tree.
Arguments info : clear implicits.
Arguments tree : clear implicits.
Arguments ntree : clear implicits.
Arguments result : clear implicits.
