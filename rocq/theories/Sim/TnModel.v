(** The tensor network simulator and the reordering of the decision diagram simulator's result.
    Source: src/mqt/qudits/simulation/backends/tnsim.py:58-117, misim.py:54-72.

    A tensor is a function from the indices of its legs; the legs of the growing network that are still open are
    one per qudit.  Contracting a network does not depend on the order of the contractions, so every gate is
    contracted when it is connected.  Simplifications: the lines of a gate are different and not negative (with a
    repeated line the network would have a loop); the array of a gate has the size of its target space, as in
    Gates/FactoryModel.v. *)
From Coq Require Import List ZArith Arith.
From Verif Require Import Base.Py Base.Cplx Base.Matrix Base.Radix Circuit.GateModel Gates.FactoryModel.
Import ListNotations.
Local Open Scope nat_scope.

Definition tensor := list nat -> C.

(** np.reshape of an array with the given shape and row-major order: entry xs of the new shape. *)
Definition reshape (A : mat) (cols : nat) (shape xs : list nat) : C :=
  let flat := undigits shape xs in A (flat / cols) (flat mod cols).
Definition mtrans (A : mat) : mat := fun i j => A j i.

Fixpoint set_nth (i v : nat) (l : list nat) : list nat :=
  match l, i with
  | [], _ => []
  | _ :: r, O => v :: r
  | x :: r, S j => x :: set_nth j v r
  end.
Fixpoint put (lines vs x : list nat) : list nat :=
  match lines, vs with l :: ls, v :: r => put ls r (set_nth l v x) | _, _ => x end.
Fixpoint lsum (l : list C) : C := match l with [] => C0 | x :: r => Cadd x (lsum r) end.

(** tnsim.py:70-75 (__apply_gate): input leg i of the gate is joined with the open leg of line i, output leg i is
    the new open leg.  [legs] are the dimensions of the lines. *)
Definition apply_gate (T : tensor) (legs lines : list nat) (psi : tensor) : tensor :=
  fun x => lsum (map (fun ins => Cmul (T (ins ++ map (fun l => nth l x 0) lines)) (psi (put lines ins x))) (product_ranges legs)).

(** tnsim.py:93-113: one operation.  [n] is the number of rows of to_matrix(identities=1), see FactoryModel. *)
Definition sizes (dims lines : list nat) : res (list nat) :=
  mapr (fun l => match nth_error dims l with Some d => Ok d | None => Err IndexError end) lines.
Definition matrix_rows (dims lines : list nat) : nat :=
  match lines with [] => 0 | l0 :: lr => let lo := minl l0 lr in prodl (firstn (maxl l0 lr + 1 - lo) (skipn lo dims)) end.
Definition connect (M : mat) (n : nat) (dims lines : list nat) (psi : tensor) : res tensor :=
  let? legs := sizes dims lines in
  if Nat.eqb (prodl legs) n then Ok (apply_gate (reshape (mtrans M) n (legs ++ legs)) legs lines psi) else Err ValueError.
Definition step (dims : list nat) (g : gate mat) (psi : tensor) : res tensor :=
  let? M := generate_matrix dims 1 g in
  let? zl := reference_lines g in
  let lines := map Z.to_nat zl in
  let n := matrix_rows dims lines in
  match g_type g, g_long g with
  | SINGLE, _ => match lines with [_] => connect M n dims lines psi | _ => Err ValueError end
  | TWO, false => match lines with [_; _] => connect M n dims (sortN lines) psi | _ => Err ValueError end
  | _, _ =>
      match lines with
      | [] => Err ValueError
      | l0 :: lr => connect M n dims (seq (minl l0 lr) (maxl l0 lr + 1 - minl l0 lr)) psi
      end
  end.
Fixpoint steps (dims : list nat) (gs : list (gate mat)) (psi : tensor) : res tensor :=
  match gs with [] => Ok psi | g :: r => let? psi' := step dims g psi in steps dims r psi' end.

(** tnsim.py:83-89: a vector (1, 0, ..., 0) for every qudit; not connected yet. *)
Definition unit_tensor : tensor := fun x => if forallb (Nat.eqb 0) x then C1 else C0.
(** tnsim.py:58-68, 77-117 (execute): the state vector.  A qudit of dimension 0 raises on line 86, an empty network on line 117. *)
Definition execute (dims : list nat) (gs : list (gate mat)) : res vec :=
  if existsb (Nat.eqb 0) dims then Err IndexError
  else let? psi := steps dims gs unit_tensor in
       match dims with [] => Err ValueError | _ => Ok (fun k => psi (digits dims k)) end.

(** misim.py:60-72: the vector is read with the dimensions reversed, its axes are reversed, and it is flattened. *)
Definition reverse_axes (dims : list nat) (state : vec) : vec :=
  fun k => state (undigits (rev dims) (rev (digits dims k))).
