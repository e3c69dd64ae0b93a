(** Python-level conventions shared by all model files: exceptions as values,
    list indexing and slicing with Python's rules for negative indices. *)
From Coq Require Export String.
From Coq Require Export List Arith ZArith Bool Lia.
Export ListNotations.
Open Scope list_scope.

(** Exceptions raised by the modelled code.  Only the class is kept, not the text. *)
Inductive exn : Type :=
| AssertionError | IndexError | KeyError | TypeError | ValueError | RuntimeError
| NotImplementedError | SyntaxError | AttributeError | StopIteration
| CircuitError | InvalidQuditDimensionError | QuditProviderError | JobError
| JobTimeoutError | BackendNotFoundError | NodeNotFoundError | RoutingError
| FileNotFoundError | NameError | ZeroDivisionError | OutOfFuel.

Inductive res (A : Type) : Type :=
| Ok (a : A)
| Err (e : exn).
Arguments Ok {A} a.
Arguments Err {A} e.

Definition bindr {A B} (x : res A) (f : A -> res B) : res B :=
  match x with Ok a => f a | Err e => Err e end.

Notation "'let?' x ':=' e 'in' k" := (bindr e (fun x => k))
  (at level 200, x pattern, e at level 100, k at level 200).

Definition is_ok {A} (x : res A) : bool :=
  match x with Ok _ => true | Err _ => false end.

(** Python's [assert b]. *)
Definition assert (b : bool) : res unit := if b then Ok tt else Err AssertionError.

Fixpoint mapr {A B} (f : A -> res B) (l : list A) : res (list B) :=
  match l with
  | [] => Ok []
  | x :: r => let? y := f x in let? ys := mapr f r in Ok (y :: ys)
  end.

(** [l[i]] for an int [i] that may be negative. *)
Definition pyindex {A} (l : list A) (i : Z) : res A :=
  let n := Z.of_nat (length l) in
  let j := if (i <? 0)%Z then (i + n)%Z else i in
  if ((0 <=? j) && (j <? n))%Z then
    match nth_error l (Z.to_nat j) with
    | Some x => Ok x
    | None => Err IndexError
    end
  else Err IndexError.

(** Position a slice bound denotes: negative bounds count from the end, everything is clipped
    to [0..len]. *)
Definition slice_pos (n : nat) (i : Z) : nat :=
  let z := Z.of_nat n in
  let j := if (i <? 0)%Z then (i + z)%Z else i in
  Z.to_nat (Z.min z (Z.max 0 j)).

(** [l[i:j]]. *)
Definition pyslice {A} (l : list A) (i j : Z) : list A :=
  let a := slice_pos (length l) i in
  let b := slice_pos (length l) j in
  firstn (b - a) (skipn a l).

(** [l[i:j] = s]: if the stop is before the start, nothing is removed and [s] is inserted at
    the start. *)
Definition pyslice_assign {A} (l : list A) (i j : Z) (s : list A) : list A :=
  let a := slice_pos (length l) i in
  let b := Nat.max a (slice_pos (length l) j) in
  firstn a l ++ s ++ skipn b l.

(** Association lists as Python dicts: insertion order is kept, overwriting keeps the
    position of the key. *)
Section Dict.
  Context {K V : Type} (eqb : K -> K -> bool).
  Fixpoint dget (d : list (K * V)) (k : K) : option V :=
    match d with
    | [] => None
    | (k', v) :: r => if eqb k k' then Some v else dget r k
    end.
  Fixpoint dset (d : list (K * V)) (k : K) (v : V) : list (K * V) :=
    match d with
    | [] => [(k, v)]
    | (k', v') :: r => if eqb k k' then (k', v) :: r else (k', v') :: dset r k v
    end.
  Definition dmem (d : list (K * V)) (k : K) : bool :=
    match dget d k with Some _ => true | None => false end.
  Definition dkeys (d : list (K * V)) : list K := map fst d.
End Dict.
