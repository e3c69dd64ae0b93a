(** The approximation of single branches and the statistics of decision trees.
    Source: src/mqt/qudits/core/micro_dd.py.  Simplifications as in DdModel.v. *)
From Coq Require Import Reals.
From Verif.Base Require Import Py Cplx.
From Verif.State Require Import DdModel.
Local Open Scope list_scope.
Local Open Scope nat_scope.

(** micro_dd.py:183-184: the weight of a branch after the test; abs(w) ** 2 is the squared modulus *)
Definition trim (tol : R) (w : C) : C := if (if Rlt_dec (Cnorm2 w) tol then negb (is0 w) else false) then C0 else w.
(** micro_dd.py:178-196 (dd_approximation); [w] is the weight of [t] when it is called, which the caller may have set to 0.
    The trees it is called with have cardinalities[depth] children in each inner node. *)
Fixpoint approximate (tol : R) (w : C) (t : dd) : dd :=
  match t with
  | Term _ b => Term w b
  | Inner _ ch =>
      let ch' := map (fun c => approximate tol (trim tol (weight c)) c) ch in
      let wn := normalize w (map weight ch') in
      if is0 (fst wn) then Term (fst wn) false
      else if Nat.eqb (List.length ch') 1 then Inner (fst wn) ch' else Inner (fst wn) (reweigh ch' (snd wn))
  end.
Definition dd_approximation (tol : R) (root : dd) : dd := approximate tol (weight root) root.

(** micro_dd.py:84-97 (unique_weights): the weights that go into the set.  The nodes [one] and [zero] count as well; the weight
    of [one] is 1, that of [zero] is 1 at first and 0 once a part of a state was found to be zero (172-175): [zero_weight]. *)
Fixpoint unique_weights (zero_weight : C) (t : dd) : list C :=
  match t with
  | Term w b => [w; if b then C1 else zero_weight]
  | Inner w ch => w :: flat_map (unique_weights zero_weight) ch
  end.

Section Hash.
Variable hash : list (Z * C) -> Z.
(** micro_dd.py:297-305 (count_nodes_after), after dd_reduction: the amount by which the counter grows *)
Fixpoint count_nodes_after (t : dd) : res nat :=
  match t with
  | Term _ _ => Ok 1
  | Inner _ ch =>
      let counts := map count_nodes_after ch in
      let idx := children_index hash ch in
      let? red := reduced hash ch in
      let? l := mapr (fun i => match nth_error counts i with Some r => r | None => Err IndexError end) (if red then firstn 1 idx else idx) in
      Ok (1 + fold_right Nat.add 0 l)
  end.
End Hash.
