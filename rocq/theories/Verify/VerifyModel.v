(** The small simulators and the verifier of compiled sequences.
    Source: src/mqt/qudits/compiler/compilation_minitools/naive_unitary_verifier.py (below: naive).

    Floats are exact reals.  target.round(3) (naive:101) returns a copy that is dropped.  Broadcasting of arrays
    with one row is not modelled: arrays of different sizes never fit. *)
From Coq Require Import Reals List ZArith Arith.
From Verif.Base Require Import Py Cplx Matrix Radix.
From Verif.Circuit Require Import GateModel.
From Verif.Gates Require Import FactoryModel.
From Verif.Visual Require Import VisModel.
From Verif.Misim Require Import DdModel.
Import ListNotations.
Local Open Scope nat_scope.

(** reduce(operator.mul, dimensions): TypeError for the empty list. *)
Definition total_size (dims : list nat) : res nat := match dims with [] => Err TypeError | _ => Ok (prodl dims) end.

(** naive:20-25 (mini_unitary_sim). *)
Fixpoint unitary_steps (dims : list nat) (gs : list (gate mat)) (U : mat) : res mat :=
  match gs with
  | [] => Ok U
  | g :: r => let? A := generate_matrix dims 2 g in unitary_steps dims r (mmul (prodl dims) A U)
  end.
Definition mini_unitary_sim (dims : list nat) (gs : list (gate mat)) : res mat :=
  let? _ := total_size dims in unitary_steps dims gs mid.

(** naive:28-34 (mini_sim).  With a dimension 0, state[0] does not exist. *)
Fixpoint state_steps (dims : list nat) (gs : list (gate mat)) (v : vec) : res vec :=
  match gs with
  | [] => Ok v
  | g :: r => let? A := generate_matrix dims 2 g in state_steps dims r (mapply (prodl dims) A v)
  end.
Definition mini_sim (dims : list nat) (gs : list (gate mat)) : res vec :=
  let? size := total_size dims in
  if Nat.eqb size 0 then Err IndexError else state_steps dims gs (ket 0).

(** naive:37-47 (phy_sdit_sim): only the first qudit is looked at. *)
Definition phy_sdit_sim (dims : list nat) (mappings : option (list (list Z))) (gs : list (gate mat)) : res vec :=
  match mappings with
  | None => Err AssertionError
  | Some ms =>
      let? dim := pyindex dims 0 in
      let? m := pyindex ms 0 in
      let? e := eye_columns dim m in
      if Nat.eqb dim 0 then Err IndexError else
      if negb (Nat.eqb (cols e) dim) then Err ValueError else
      let v := mapply dim (ent e) (ket 0) in
      match gs with
      | [] => Ok v
      | g :: _ => let? A := generate_matrix dims 2 g in
                  if Nat.eqb (prodl dims) dim then state_steps dims gs v else Err ValueError
      end
  end.

(** An array with its number of rows, as to_matrix(identities=0) returns it. *)
Definition sized := (nat * mat)%type.

(** naive:80-93 (get_perm_matrix). *)
Fixpoint perm_steps (n : nat) (nodes mapping : list Z) (is : list nat) (P : mat) : res mat :=
  match is with
  | [] => Ok P
  | i :: r =>
      let? x := pyindex nodes (Z.of_nat i) in
      let? a := pyindex (seq 0 n) x in
      let? y := pyindex mapping (Z.of_nat i) in
      let? b := pyindex (seq 0 n) y in
      perm_steps n nodes mapping r (fun s t => Cadd (P s t) (if Nat.eqb s b && Nat.eqb t a then C1 else C0))
  end.
Definition get_perm_matrix (n : nat) (nodes mapping : list Z) : res mat := perm_steps n nodes mapping (seq 0 n) (fun _ _ => C0).

(** The fields of the object. *)
Record verifier := Verifier { v_seq : list sized; v_target : sized; v_n : nat; v_final : option mat }.

(** naive:60-78 (__init__): the maps are used only if all three lists are given. *)
Definition new_verifier (seq : list sized) (target : sized) (dims : list nat) (nodes imap fmap : option (list Z)) : res verifier :=
  let? n := total_size dims in
  match nodes, imap, fmap with
  | Some nd, Some im, Some fm =>
      let? P := get_perm_matrix n nd im in
      let? Q := get_perm_matrix n nd fm in
      if Nat.eqb n (fst target) then Ok (Verifier seq (n, mmul n P (snd target)) n (Some Q)) else Err ValueError
  | _, _, _ => Ok (Verifier seq target n None)
  end.

Section Verify.
  (** np.linalg.inv; LinAlgError is a ValueError. *)
  Variable inv : nat -> mat -> res mat.

  Fixpoint run_sequence (seq : list sized) (T : sized) : res sized :=
    match seq with
    | [] => Ok T
    | (k, A) :: r => if Nat.eqb k (fst T) then run_sequence r (k, mmul k A (snd T)) else Err ValueError
    end.
  (** (abs(target - identity) < 1e-4).all() after the division by target[0][0].  Dividing by 0 makes entry (0,0) nan,
      and no comparison with nan is true. *)
  Definition near_identity (n : nat) (T : mat) : bool :=
    negb (is_zero (T 0 0)) &&
    forallb (fun r => forallb (fun c => if Rlt_dec (Cmod (Csub (Cdiv (T r c) (T 0 0)) (mid r c))) (1 / 10000) then true else false) (seq 0 n)) (seq 0 n).
  (** naive:95-109 (verify). *)
  Definition verify (v : verifier) : res bool :=
    let? T := run_sequence (v_seq v) (v_target v) in
    let? U := match v_final v with
              | None => Ok T
              | Some Q => let? Qi := inv (v_n v) Q in
                          if Nat.eqb (v_n v) (fst T) then Ok (v_n v, mmul (v_n v) Qi (snd T)) else Err ValueError
              end in
    if Nat.eqb (fst U) 0 then Err IndexError else
    if Nat.eqb (fst U) (v_n v) then Ok (near_identity (v_n v) (snd U)) else Err ValueError.
End Verify.
