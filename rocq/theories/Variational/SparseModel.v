(** The objective of the sparsifier.
    Source: src/mqt/qudits/compiler/twodit/variational_twodit_compilation/sparsifier.py.

    The norms and the density look at the entries of an array, whatever its shape, so an array is the list of its
    entries here.  Floats are exact reals. *)
From Coq Require Import Reals List.
From Verif.Base Require Import Py Cplx Matrix Radix.
From Verif.Variational Require Import AnsatzModel.
Import ListNotations.
Local Open Scope R_scope.

Definition total (l : list R) : R := fold_right Rplus 0 l.

(** sparsifier.py:57-61 (density). *)
Definition density (l : list R) : R :=
  let nz := filter (fun x => if Rlt_dec (1 / 100000000) x then true else false) l in
  if Nat.eqb (length nz) 0 then 0 else INR (length nz) / INR (length l).

(** sparsifier.py:64-65 (manhattan_norm) and 68-69 (frobenius_norm). *)
Definition manhattan_norm (l : list C) : R := total (map Cmod l).
Definition frobenius_norm (l : list C) : R := sqrt (total (map (fun z => Cmod z ^ 2) l)).

(** sparsifier.py:72-98 (compute_f). *)
Definition compute_f (l : list C) : res R :=
  let j := map (fun _ => C1) l in
  let norm_x1 := manhattan_norm l in
  let norm_x2 := frobenius_norm l in
  let norm_j2 := frobenius_norm j in
  let numerator := norm_j2 * norm_x2 - norm_x1 in
  let denominator := norm_j2 * norm_x2 - norm_x2 in
  if Req_EM_T denominator 0 then Err ValueError else Ok (1 - numerator / denominator).

(** The entries of an n x n array, row by row. *)
Definition entries {A} (n : nat) (m : nat -> nat -> A) : list A := flat_map (fun i => map (m i) (seq 0 n)) (seq 0 n).

(** sparsifier.py:101-123 (objective_function). *)
Definition objective_function (expm : nat -> mat -> mat) (thetas : list R) (m : mat) (d0 d1 : nat) : res R :=
  let? m' := apply_rotations expm m thetas d0 d1 in
  let ghost := entries (prodl [d0; d1]) (fun i j => Rabs (Re (m' i j)) + Rabs (Im (m' i j))) in
  let? f := compute_f (map RtoC ghost) in
  Ok (f * density ghost).
