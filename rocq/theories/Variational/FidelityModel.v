(** Distance measures.  Source: src/mqt/qudits/compiler/twodit/variational_twodit_compilation/opt/distance_measures.py
    and opt/optimizer.py:90-102.

    An array is its shape and its entries.  ShapeMismatchError is a ValueError.  Square roots are taken of
    complex numbers in the source; the traces below are real (proved in FidelityProofs.v for the matrices in
    question) and the model takes the root of the real part.  An empty or zero array (0/0 in numpy) is outside
    the model: the quotient is then Coq's. *)
From Coq Require Import Reals.
From Verif.Base Require Import Py Cplx Matrix.
Local Open Scope nat_scope.

Record arr := Arr { rows : nat; cols : nat; ent : mat }.
(** distance_measures.py:16-17 (size_check). *)
Definition size_check (a b : arr) : bool := (rows a =? rows b) && (cols a =? cols b) && (rows a =? cols a).
(** np.trace *)
Definition tr (n : nat) (a : mat) : C := csum n (fun i => a i i).

(** distance_measures.py:20-30 (fidelity_on_operator). *)
Definition fidelity_on_operator (a b : arr) : res R :=
  if size_check a b then
    let n := rows a in
    let num := Cmod (tr n (mmul n (madj (ent a)) (ent b))) in
    let den := sqrt (fst (Cmul (tr n (mmul n (ent a) (madj (ent a)))) (tr n (mmul n (ent b) (madj (ent b)))))) in
    Ok (num / den)%R
  else Err ValueError.
(** distance_measures.py:33-41 (fidelity_on_unitares). *)
Definition fidelity_on_unitares (a b : arr) : res R :=
  if size_check a b then Ok (Cmod (tr (rows a) (mmul (rows a) (madj (ent a)) (ent b))) / INR (rows a))%R
  else Err ValueError.
(** distance_measures.py:44-54 (fidelity_on_density_operator). *)
Definition fidelity_on_density_operator (a b : arr) : res R :=
  if size_check a b then
    let n := rows a in
    Ok (Cmod (tr n (mmul n (ent a) (ent b))) /
        sqrt (fst (Cmul (tr n (mmul n (ent a) (ent a))) (tr n (mmul n (ent b) (ent b))))))%R
  else Err ValueError.
(** distance_measures.py:57-68 (naive_state_fidelity) for vectors with their lengths. *)
Definition naive_state_fidelity (n m : nat) (v w : vec) : res R :=
  if n =? m then Ok ((Cmod (csum n (fun k => Cmul (Cconj (v k)) (w k)))) ^ 2)%R else Err ValueError.

(** optimizer.py:90-102 (obj_fun_core): the number that is minimised. *)
Definition objective (ansatz target : arr) : res R :=
  let? f := fidelity_on_unitares ansatz target in Ok (1 - f)%R.
