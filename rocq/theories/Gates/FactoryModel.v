(** Model of the matrix factory: dagger, controls, identities.
    Source: src/mqt/qudits/quantum_circuit/components/extensions/matrix_factory.py.

    Simplifications: lines are taken to be non-negative; the array of a gate is taken to have the
    size of its target space (a smaller array would raise IndexError); the order in which a
    Python set is iterated is taken to be increasing (only equality of the selected tuples is
    ever used). *)
From Coq Require Import List ZArith Arith String.
From Verif Require Import Base.Py Base.Cplx Base.Matrix Base.Radix.
From Verif Require Import Circuit.GateModel.

(** itertools.product(range(d0), range(d1), ...), used on lines 89 and 94. *)
Fixpoint product_ranges (dims : list nat) : list (list nat) :=
  match dims with
  | [] => [[]]
  | d :: r => flat_map (fun x => map (cons x) (product_ranges r)) (seq 0 d)
  end.

(** operator.itemgetter( *idx)(s), normalised to a list; with no index it raises TypeError. *)
Definition select (idx : list nat) (s : list nat) : res (list nat) :=
  match idx with
  | [] => Err TypeError
  | _ => mapr (fun i => match nth_error s i with Some x => Ok x | None => Err IndexError end) idx
  end.

Definition eqb_listN (a b : list nat) : bool := if list_eq_dec Nat.eq_dec a b then true else false.
Definition eqb_listZ (a b : list Z) : bool := if list_eq_dec Z.eq_dec a b then true else false.

(** The dictionary og_state_to_index (line 91). *)
Fixpoint index_from (k : nat) (key : list nat) (l : list (list nat)) : res nat :=
  match l with
  | [] => Err KeyError
  | x :: r => if eqb_listN x key then Ok k else index_from (S k) key r
  end.

(** The double loop over r and c (lines 99-100): the first exception, else the filled matrix. *)
Fixpoint first_err (l : list (res C)) : option exn :=
  match l with
  | [] => None
  | Ok _ :: r => first_err r
  | Err e :: _ => Some e
  end.
Definition tabulate (n : nat) (e : nat -> nat -> res C) : res mat :=
  match first_err (flat_map (fun r => map (e r) (seq 0 n)) (seq 0 n)) with
  | Some x => Err x
  | None => Ok (fun r c => match e r c with Ok v => v | Err _ => C0 end)
  end.

Fixpoint minl (x : nat) (l : list nat) : nat := match l with [] => x | y :: r => minl (Nat.min x y) r end.
Fixpoint maxl (x : nat) (l : list nat) : nat := match l with [] => x | y :: r => maxl (Nat.max x y) r end.

Fixpoint insN (x : nat) (l : list nat) : list nat :=
  match l with [] => [x] | y :: r => if Nat.leb x y then x :: l else y :: insN x r end.
(** list.sort() *)
Fixpoint sortN (l : list nat) : list nat := match l with [] => [] | x :: r => insN x (sortN r) end.

Definition memN (x : nat) (l : list nat) : bool := existsb (Nat.eqb x) l.

(** matrix_factory.py:53-141 (apply_identities_and_controls).  Line 84 reads
    dimensions[qudits_applied[0]] with the unshifted line index. *)
Definition apply_ids_ctrl (M : mat) (targets dims ref : list nat) (ctl : option (list nat * list Z)) : res mat :=
  let qs := sortN targets in
  match ref with
  | [] => Err ValueError
  | r0 :: rr =>
    let lo := minl r0 rr in
    let slide := map (fun q => (q - lo)%nat) in
    if Nat.eqb (List.length dims) 0 then Err ValueError else
    if Nat.eqb (List.length qs) (List.length ref) && match ctl with None => true | _ => false end then Ok M else
    let cs := match ctl with Some (c, _) => c | None => [] end in
    let rest := slide (filter (fun q => negb (memN q qs) && negb (memN q cs)) ref) in
    let? logic := match qs with
                  | [q] => match nth_error dims q with Some d => Ok [d] | None => Err IndexError end
                  | _ => select (slide qs) dims
                  end in
    let og := product_ranges logic in
    let global := product_ranges dims in
    let state r := nth r global [] in
    let same r c : res bool :=
      if Nat.eqb (List.length rest) 0 then Ok true
      else let? a := select rest (state r) in let? b := select rest (state c) in Ok (eqb_listN a b) in
    let value r c : res C :=
      let? rk := select (slide qs) (state r) in
      let? ck := select (slide qs) (state c) in
      let? i := index_from 0 rk og in
      let? j := index_from 0 ck og in
      Ok (M i j) in
    let entry r c : res C :=
      match ctl with
      | Some (cs, lv) =>
          let? er := select (slide cs) (state r) in
          let? ec := select (slide cs) (state c) in
          if eqb_listZ (map Z.of_nat er) lv && eqb_listN er ec then
            let? s := same r c in if s then value r c else Ok (mid r c)
          else Ok (mid r c)
      | None => let? s := same r c in if s then value r c else Ok (mid r c)
      end in
    tabulate (prodl dims) entry
  end.

(** matrix_factory.py:144-162 (wrap_in_identities); [m] is the size of the matrix. *)
Definition wrap_step (M : mat) (m first last : nat) (sizes : list nat) (A : mat) (i : nat) : mat :=
  if Nat.eqb i first then (if Nat.eqb i 0 then M else mkron m A M)
  else if (Nat.ltb i first && negb (Nat.eqb i 0)) || Nat.ltb last i then mkron (nth i sizes 0%nat) A mid
  else A.
Definition wrap_in_identities (M : mat) (m : nat) (lines sizes : list nat) : res mat :=
  let ix := sortN lines in
  if existsb (fun i => Nat.leb (List.length sizes) i) ix then Err ValueError
  else match ix with
       | [] => Err IndexError
       | first :: _ => Ok (fold_left (wrap_step M m first (last ix 0%nat) sizes) (seq 0 (List.length sizes)) mid)
       end.

(** matrix_factory.py:21-50 (generate_matrix) = Gate.to_matrix(identities = ids), gate.py:91-105.
    The payload of the gate is the array returned by __array__. *)
Definition generate_matrix (dims : list nat) (ids : nat) (g : gate mat) : res mat :=
  let A := if g_dagger g then madj (g_data g) else g_data g in
  let? zl := reference_lines g in
  let lines := map Z.to_nat zl in
  match lines with
  | [] => Err CircuitError
  | l0 :: lr =>
    let lo := minl l0 lr in let hi := maxl l0 lr in
    let ref := seq lo (hi + 1 - lo) in
    let dslice := firstn (hi + 1 - lo) (skipn lo dims) in
    let ts := map Z.to_nat (target_lines g) in
    let? B := match g_controls g with
              | Some (cs, lv) => apply_ids_ctrl A ts dslice ref (Some (map Z.to_nat cs, lv))
              | None => if Nat.ltb 0 ids then apply_ids_ctrl A ts dslice ref None else Ok A
              end in
    if Nat.leb 2 ids then wrap_in_identities B (prodl dslice) lines dims else Ok B
  end.

(** matrix_factory.py:165-180 (from_dirac_to_basis): the list of amplitudes, by repeated np.kron.
    An entry [b] not below [d] raises IndexError (temp[basis] = 1); negative entries are not
    modelled.  [kronl] is np.kron on vectors. *)
Definition unit_vec (d b : nat) : list nat := map (fun i => if Nat.eqb i b then 1%nat else 0%nat) (seq 0 d).
Definition kronl (a b : list nat) : list nat := flat_map (fun x => map (fun y => (x * y)%nat) b) a.
Definition basis_vecs (vd : list (nat * nat)) : res (list (list nat)) :=
  mapr (fun bd => if Nat.ltb (fst bd) (snd bd) then Ok (unit_vec (snd bd) (fst bd)) else Err IndexError) vd.
Definition from_dirac_to_basis (vec d : list nat) : res (list nat) :=
  if Nat.ltb (List.length d) (List.length vec) then Err IndexError
  else let? bs := basis_vecs (combine vec d) in
       match bs with
       | [] => Err IndexError
       | b :: r => Ok (fold_left kronl r b)
       end.

(** matrix_factory.py:183-187 (calculate_q0_q1). *)
Definition calculate_q0_q1 (lev dim : nat) : nat * nat :=
  let q1 := (lev mod dim)%nat in (((lev - q1) / dim)%nat, q1).
