(** Results as density matrices and histograms.
    Source, below src/mqt/qudits/visualisation/: mini_quantum_information.py (below: mini) and
    plot_information.py (plot).

    Floats are exact reals.  The windows of matplotlib are not modelled: what is modelled of a plot is its labels
    and its heights.  NumPy's limits on the number of axes (32 or 64) are left out. *)
From Coq Require Import Reals.
From Verif.Base Require Import Py Cplx Matrix Radix Text.
From Verif.Gates Require Import FactoryModel.
Local Open Scope list_scope.
Local Open Scope nat_scope.

(** plot:84-97 (state_labels): the decimal digits of the levels, one after the other. *)
Definition state_labels (dims : list nat) : list text :=
  map (fun item => concat (map show_nat item)) (product_ranges dims).

(** list.count and Counter *)
Definition count (l : list Z) (i : nat) : nat := List.length (filter (Z.eqb (Z.of_nat i)) l).

(** mini:20-33 (get_density_matrix_from_counts).  For a register with one qudit, from_dirac_to_basis returns a Python
    list, which has no conj().  A register without qudits makes reduce raise TypeError. *)
Definition outer_step (M : nat -> nat -> R) (kp : list nat * R) : nat -> nat -> R :=
  fun r c => (M r c + snd kp * (INR (nth r (fst kp) 0%nat) * INR (nth c (fst kp) 0%nat)))%R.
Definition density_from_counts (results : list Z) (dims : list nat) : res (nat -> nat -> R) :=
  match dims with
  | [] => Err TypeError
  | _ :: more =>
      let n := prodl dims in
      if Nat.eqb (List.length results) 0 && Nat.ltb 0 n then Err ZeroDivisionError else
      let probs := map (fun i => (INR (count results i) / INR (List.length results))%R) (seq 0 n) in
      let? kets := mapr (fun l => from_dirac_to_basis (map digit_val l) dims) (state_labels dims) in
      match more, kets with
      | [], _ :: _ => Err AttributeError
      | _, _ => Ok (fold_left outer_step (combine kets probs) (fun _ _ => 0%R))
      end
  end.

(** np.einsum(T, labels) for an array with the shape [S]: the labels that occur once, in increasing order, are the
    axes of the result; the others are summed over. *)
Definition times (L : list nat) (l : nat) : nat := List.length (filter (Nat.eqb l) L).
Fixpoint index_of (l : nat) (L : list nat) : nat :=
  match L with [] => 0 | x :: r => if Nat.eqb l x then 0 else S (index_of l r) end.
Definition max_label (L : list nat) : nat := fold_right Nat.max 0 L.
Definition out_labels (L : list nat) : list nat := filter (fun l => Nat.eqb (times L l) 1) (seq 0 (S (max_label L))).
Definition sum_labels (L : list nat) : list nat := filter (fun l => Nat.ltb 1 (times L l)) (seq 0 (S (max_label L))).
Definition label_dim (S L : list nat) (l : nat) : nat := nth (index_of l L) S 0.
Definition einsum (T : list nat -> C) (S L : list nat) (xs : list nat) : C :=
  let sd := map (label_dim S L) (sum_labels L) in
  csum (prodl sd) (fun k => T (map (fun l =>
    if memN l (out_labels L) then nth (index_of l (out_labels L)) xs 0
    else nth (index_of l (sum_labels L)) (digits sd k) 0) L)).

(** mini:36-71 (partial_trace) for a square matrix with [n] rows; [optimize] does not change the value. *)
Definition partial_trace (n : nat) (rho : mat) (keep : list Z) (dims : list nat) : res (nat * mat) :=
  let? kd := mapr (pyindex dims) keep in
  let nkeep := prodl kd in
  let nd := List.length dims in
  let kept := fun i => existsb (Z.eqb (Z.of_nat i)) keep in
  let idx1 := seq 0 nd in
  let idx2 := map (fun i => if kept i then nd + i else i) (seq 0 nd) in
  let shape := dims ++ dims in
  if negb (Nat.eqb (n * n) (prodl shape)) then Err ValueError else
  let T := fun xs => let k := undigits shape xs in rho (k / n) (k mod n) in
  let out := map (label_dim shape (idx1 ++ idx2)) (out_labels (idx1 ++ idx2)) in
  if negb (Nat.eqb (prodl out) (nkeep * nkeep)) then Err ValueError else
  Ok (nkeep, fun r c => einsum T shape (idx1 ++ idx2) (digits out (r * nkeep + c))).

(** An array with its numbers of rows and columns. *)
Record arr := Arr { rows : nat; cols : nat; ent : mat }.
(** np.eye(d)[:, m] *)
Definition eye_columns (d : nat) (m : list Z) : res arr :=
  let? js := mapr (pyindex (seq 0 d)) m in
  Ok (Arr d (List.length m) (fun r c => if Nat.eqb r (nth c js 0) then C1 else C0)).
(** np.kron *)
Definition akron (a b : arr) : arr :=
  Arr (rows a * rows b) (cols a * cols b) (fun r c => (ent a (r / rows b) (c / cols b) * ent b (r mod rows b) (c mod cols b))%C).

Section Remap.
  (** np.linalg.inv on square matrices; LinAlgError is a ValueError. *)
  Variable inv : nat -> mat -> res mat.
  Fixpoint kron_columns (dims : list nat) (i : nat) (ms : list (list Z)) (p : arr) : res arr :=
    match ms with
    | [] => Ok p
    | m :: r =>
        let? d := pyindex dims (Z.of_nat i) in
        let? e := eye_columns d m in
        kron_columns dims (S i) r (akron p e)
    end.
  (** plot:17-27 (remap_result); circuit.mappings is None, or a list of lists. *)
  Definition remap_result (result : list C) (dims : list nat) (mappings : option (list (list Z))) : res (list C) :=
    match mappings with
    | None | Some [] => Ok result
    | Some (m :: r) =>
        let? d := pyindex dims 0 in
        let? e := eye_columns d m in
        let? p := kron_columns dims 1 r e in
        if negb (Nat.eqb (rows p) (cols p)) then Err ValueError else
        let? q := inv (rows p) (ent p) in
        if negb (Nat.eqb (List.length result) (rows p)) then Err ValueError else
        Ok (map (fun c => csum (rows p) (fun k => (nth k result C0 * q k c)%C)) (seq 0 (rows p)))
    end.
  (** plot:100-111 (plot_state): the labels and the heights; a vector with two or more entries. *)
  Definition plot_state (v : list C) (dims : list nat) (mappings : option (list (list Z))) : res (list text * list C) :=
    let? h := remap_result (map (fun z => RtoC (Cmod z)) v) dims mappings in
    Ok (state_labels dims, h).
  (** plot:114-123 (plot_counts). *)
  Definition plot_counts (measurements : list Z) (dims : list nat) (mappings : option (list (list Z))) : res (list text * list C) :=
    let? h := remap_result (map (fun i => RtoC (INR (count measurements i))) (seq 0 (List.length (state_labels dims)))) dims mappings in
    Ok (state_labels dims, h).
End Remap.
