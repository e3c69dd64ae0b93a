(** The decision trees of states.
    Source: src/mqt/qudits/core/micro_dd.py.

    Floats are exact reals.  Simplifications: a node object is a value, its identity is the path that leads to it
    from the root (a list of child numbers); the labels of the levels are 0, 1, 2, ... as compile_state
    passes them (state_preparation.py:171), so the label of a node is its depth minus one and is not stored; the
    attributes [p], [data] and [id] of a node, which nothing reads, are left out, and so are the prints
    (306-323).  dd_approximation (178-196), unique_weights (84-97) and count_nodes_after (297-305) are not used
    by the compiler; they are in StatModel.v. *)
From Coq Require Import Reals.
From Verif.Base Require Import Py Cplx.
Local Open Scope string_scope.
Local Open Scope list_scope.
Local Open Scope nat_scope.

(** micro_dd.py:8-20: a node with its weight; a terminal node has one child, the node [one] (flag true) or the node
    [zero] (flag false). *)
Inductive dd := Term (w : C) (is_one : bool) | Inner (w : C) (children : list dd).
Definition weight (t : dd) : C := match t with Term w _ | Inner w _ => w end.
Definition set_weight (t : dd) (w : C) : dd := match t with Term _ b => Term w b | Inner _ ch => Inner w ch end.

(** a test of a number against 0 + 0j *)
Definition is0 (z : C) : bool := if Req_EM_T (Cnorm2 z) 0 then true else false.

(** micro_dd.py:101-103: the norm of the weights *)
Definition norm_of (ws : list C) : R := sqrt (fold_right Rplus 0%R (map Cnorm2 ws)).
Definition Cdivr (z : C) (x : R) : C := ((fst z / x)%R, (snd z / x)%R).

(** micro_dd.py:100-111 (normalize) *)
Definition normalize (w : C) (ws : list C) : C * list C :=
  if Req_EM_T (norm_of ws) 0 then (C0, ws) else (Cmul w (RtoC (norm_of ws)), map (fun z => Cdivr z (norm_of ws)) ws).

(** assignment of new weights to the children, e.g. micro_dd.py:174-175 *)
Definition reweigh (ch : list dd) (ws : list C) : list dd := map (fun tw => set_weight (fst tw) (snd tw)) (combine ch ws).

(** micro_dd.py:148: the i-th of the parts of length [n] *)
Definition part (n i : nat) (data : list C) : list C := firstn n (skipn (i * n) data).

(** micro_dd.py:125-175 (build_decision_tree): the node and the number of nodes created below it *)
Fixpoint build (cards : list nat) (data : list C) : res (dd * nat) :=
  match cards with
  | [] => match data with [] => Err IndexError | x :: _ => Ok (Term x (negb (is0 x)), 0) end
  | d :: r =>
      match d with
      | O => Err ZeroDivisionError
      | S _ =>
          let n := List.length data / d in
          let? l := mapr (fun i => build r (part n i data)) (seq 0 d) in
          let ch := map fst l in
          let wn := normalize C1 (map weight ch) in
          let count := fold_right Nat.add 0 (map (fun cn => 1 + snd cn) l) in
          if is0 (fst wn) then Ok (Term (fst wn) false, count) else Ok (Inner (fst wn) (reweigh ch (snd wn)), count)
      end
  end.
(** micro_dd.py:114-122 (create_decision_tree) *)
Definition create_decision_tree (cards : list nat) (data : list C) : res (dd * nat) :=
  let? tn := build cards data in Ok (fst tn, 1 + snd tn).

(** *** Approximation *)
Definition path : Type := list nat.
Definition entry : Type := (path * R * dd)%type.
(** micro_dd.py:59-69: the children of a node that are given a probability *)
Definition kids (e : entry) : list entry :=
  let '(p, prob, t) := e in
  match t with
  | Term _ _ => []
  | Inner _ ch => flat_map (fun ic => if is0 (weight (snd ic)) then [] else [(p ++ [fst ic], (prob * Cnorm2 (weight (snd ic)))%R, snd ic)])
      (combine (seq 0 (List.length ch)) ch)
  end.
(** The queue (micro_dd.py:57-69) goes through the tree level by level, each level from left to right. *)
Fixpoint walk (n : nat) (cur : list entry) : list (list entry) :=
  match n with O => [] | S m => let next := flat_map kids cur in next :: walk m next end.
(** sorted(..., key=...) is stable (micro_dd.py:78). *)
Fixpoint insert_by (e : path * R) (l : list (path * R)) : list (path * R) :=
  match l with [] => [e] | f :: r => if Rle_dec (snd e) (snd f) then e :: l else f :: insert_by e r end.
Definition sort_by (l : list (path * R)) : list (path * R) := fold_right insert_by [] l.
(** micro_dd.py:53-81 (get_node_contributions) *)
Definition contributions (root : dd) (n : nat) : list (list (path * R)) :=
  map (fun l : list entry => sort_by (map fst l)) (walk n [([], Cnorm2 (weight root), root)]).

(** p is a proper prefix of q: q is one of the descendants whom remove_children reaches (micro_dd.py:199-202) *)
Fixpoint above (p q : path) : bool :=
  match p, q with
  | [], _ :: _ => true
  | i :: p', j :: q' => Nat.eqb i j && above p' q'
  | _, _ => false
  end.
(** micro_dd.py:208-214: one level; [st] is the sum so far and the paths of the nodes whose weight was set to 0. *)
Fixpoint cut_level (tol : R) (st : R * list path) (l : list (path * R)) : R * list path :=
  match l with
  | [] => st
  | (p, prob) :: r =>
      if (if Rlt_dec (fst st + prob) tol then true else false) && negb (existsb (fun c => above c p) (snd st))
      then cut_level tol ((fst st + prob)%R, snd st ++ [p]) r else st
  end.
(** micro_dd.py:205-214 (cut_branches): what is cut *)
Definition cuts (tol : R) (contr : list (list (path * R))) : R * list path := fold_left (cut_level tol) (rev contr) (0%R, []).
Definition path_eqb (p q : path) : bool := if list_eq_dec Nat.eq_dec p q then true else false.
(** micro_dd.py:210: the tree with the weights of the nodes at these paths set to 0; [p] is the path of [t] *)
Fixpoint zero_at (l : list path) (p : path) (t : dd) : dd :=
  let w := if existsb (path_eqb p) l then C0 else weight t in
  match t with
  | Term _ b => Term w b
  | Inner _ ch => Inner w ((fix go i ch := match ch with [] => [] | c :: r => zero_at l (p ++ [i]) c :: go (S i) r end) 0 ch)
  end.
Definition cut_branches (tol : R) (contr : list (list (path * R))) (root : dd) : dd := zero_at (snd (cuts tol contr)) [] root.

(** micro_dd.py:217-233 (normalize_all).  The trees it is called with have cards[depth] children in each inner node. *)
Fixpoint normalize_all (t : dd) : dd :=
  match t with
  | Term _ _ => t
  | Inner w ch =>
      let ch' := map normalize_all ch in
      let wn := normalize w (map weight ch') in
      if is0 (fst wn) then Term (fst wn) false
      else if Nat.eqb (List.length ch') 1 then Inner (fst wn) ch' else Inner (fst wn) (reweigh ch' (snd wn))
  end.

(** *** Reduction *)
Section Hash.
(** Python's hash of a tuple of pairs of a number and a weight *)
Variable hash : list (Z * C) -> Z.
(** micro_dd.py:236-251 (dd_reduction_hashing), 41-46 *)
Fixpoint hash_of (t : dd) : Z :=
  match t with
  | Term _ b => hash [((if b then 1 else 0)%Z, C1)]
  | Inner _ ch => hash (map (fun c => (hash_of c, weight c)) ch)
  end.
(** micro_dd.py:260-268: for each child the number of the first child with its hash *)
Definition first_like (ch : list dd) (h : Z) : nat :=
  (fix go i l := match l with [] => 0 | c :: r => if Z.eqb (hash_of c) h then i else go (S i) r end) 0 ch.
Definition children_index (ch : list dd) : list nat := map (fun c => first_like ch (hash_of c)) ch.
(** micro_dd.py:279-290 *)
Definition reduced (ch : list dd) : res bool :=
  let idx := map snd (filter (fun ci => negb (is0 (weight (fst ci)))) (combine ch (children_index ch))) in
  match idx with
  | [] => Err IndexError
  | [_] => Ok false
  | first :: rest => Ok (forallb (Nat.eqb first) rest)
  end.
(** micro_dd.py:254-290 (dd_reduction_aggregation): only whether it returns; children_index and reduced are
    computed again where the synthesis reads them.  [cards] is the rest of the cardinalities. *)
Fixpoint aggregate (cards : list nat) (t : dd) : res unit :=
  match cards, t with
  | [], _ => Ok tt
  | _, Term _ _ => Ok tt
  | _ :: r, Inner _ ch =>
      let? us := mapr (fun i => match nth_error ch i with Some c => aggregate r c | None => Err IndexError end) (nodup Nat.eq_dec (children_index ch)) in
      let? b := reduced ch in Ok tt
  end.
End Hash.
