(** The decision diagrams of the C++ simulator: vectors and matrices over a register of qudits.
    Source: include/dd/MDDPackage.hpp (lines given below), Edge.hpp, Control.hpp, ComplexTable.hpp.

    An edge is a weight and the node it points to; a node of register v has one edge per level (vectors) or per
    row and column (matrices, row major), each to a node of register v-1.  Register 0 is at the bottom; below it is
    the terminal node.  The zero edge is weight 0 to the terminal node.

    Simplifications.  Weights are exact complex numbers: complexNumber.lookup, which replaces a number by a stored
    one within the tolerance, is the identity.  [tol] is ComplexTable's tolerance (2.27e-13 in the source) where the
    code compares with it.  The unique tables, compute tables and node flags are left out here; only the comparison of node
    pointers remains, as the oracle [same].  NodeModel.v models them, with the symmetric flag and the transpose it uses
    (lines 1803-1904), and C99 shows that the results are the same.  Node reference counts are left out: no node is ever
    collected.  Register
    numbers are not limited to 8 bits.  Reading an edge that is not there gives the zero edge; in well-formed
    diagrams it does not happen. *)
From Coq Require Import List ZArith Arith Reals Bool.
From Verif Require Import Base.Cplx Base.Matrix.
Import ListNotations.
Local Open Scope nat_scope.

(** MDDPackage.hpp:129-147, 358-381, Edge.hpp. *)
Inductive node := Term | Node (v : nat) (es : list (C * node)).
Notation edge := (C * node)%type.
Definition zero_edge : edge := (C0, Term).
Definition one_edge : edge := (C1, Term).

(** weight == Complex::zero, weight == Complex::one *)
Definition is_eq (x y : C) : bool :=
  if Req_EM_T (fst x) (fst y) then if Req_EM_T (snd x) (snd y) then true else false else false.
Definition is_zero (x : C) : bool := is_eq x C0.
Definition is_one (x : C) : bool := is_eq x C1.
(** ComplexNumbers::div *)
Definition Cinv (z : C) : C := (fst z / Cnorm2 z, - snd z / Cnorm2 z)%R.
Definition Cdiv (x y : C) : C := Cmul x (Cinv y).

Section Package.
Variable tol : R.
Variable same : node -> node -> bool.

(** ComplexTable.hpp:85-97 (approximatelyZero, approximatelyOne), for the real and the imaginary part. *)
Definition near (x y : C) : bool :=
  if Rle_dec (Rabs (fst x - fst y)) tol then if Rle_dec (Rabs (snd x - snd y)) tol then true else false else false.
Definition near_zero (x : C) : bool := near x C0.

Definition edge_at (es : list edge) (i : nat) : edge := nth i es zero_edge.
Definition mag2 (es : list edge) (i : nat) : R := Cnorm2 (fst (edge_at es i)).
(** a list given by its entries *)
Definition tab {A} (n : nat) (f : nat -> A) : list A := map f (seq 0 n).

(** MDDPackage.hpp:164-173, 387-399: with [cached], edges that are nearly but not exactly zero become the zero edge. *)
Definition clear (cached : bool) (es : list edge) : list edge :=
  if cached then map (fun e => if near_zero (fst e) then zero_edge else e) es else es.

(** MDDPackage.hpp:206-225: going down from the last edge, an edge that is not smaller (up to the tolerance) than
    the largest so far takes its place; the comparison starts from edge 0. *)
Definition vpivot (es : list edge) : nat :=
  snd (fold_left (fun (acc : R * nat) i => if Rle_dec (fst acc) (mag2 es i + tol) then (mag2 es i, i) else acc)
    (rev (seq 0 (length es))) (mag2 es 0, 0)).
Fixpoint sum_mag2 (n : nat) (es : list edge) : R := match n with O => 0%R | S m => (sum_mag2 m es + mag2 es m)%R end.

(** MDDPackage.hpp:150-268 (normalize for vectors): the weight of the edge to the node, and the node's edges; None
    is the zero edge. *)
Definition vnormalise (cached : bool) (es0 : list edge) : option (C * list edge) :=
  let nz := filter (fun i => negb (near_zero (fst (edge_at es0 i)))) (seq 0 (length es0)) in
  let es := clear cached es0 in
  match nz with
  | [] => None
  | [k] => Some (fst (edge_at es k), tab (length es) (fun i => if Nat.eqb i k then (C1, snd (edge_at es i)) else edge_at es i))
  | _ =>
      let k := vpivot es in
      let norm := sqrt (sum_mag2 (length es) es) in
      let magmax := sqrt (mag2 es k) in
      let factor := RtoC (norm / magmax) in
      let w := fst (edge_at es k) in
      let top := if cached && negb (is_one w) then Cmul w factor else factor in
      if negb (cached && negb (is_one w)) && near_zero top then None
      else Some (top, tab (length es) (fun i =>
        let e := edge_at es i in
        let c := if Nat.eqb i k then RtoC (magmax / norm) else Cdiv (fst e) top in
        if is_zero c then zero_edge else (c, snd e)))
  end.

(** MDDPackage.hpp:401-421: the first edge whose weight exceeds the weights before it (by more than the tolerance). *)
Definition mpivot (es : list edge) : option nat :=
  fold_left (fun (acc : option nat) i =>
    if near_zero (fst (edge_at es i)) then acc
    else match acc with
         | None => Some i
         | Some k => if Rlt_dec tol (mag2 es i - mag2 es k) then Some i else acc
         end) (seq 0 (length es)) None.

(** MDDPackage.hpp:383-471 (normalize for matrices). *)
Definition mnormalise (cached : bool) (es0 : list edge) : option (C * list edge) :=
  let es := clear cached es0 in
  match mpivot es with
  | None => None
  | Some k =>
      let w := fst (edge_at es k) in
      Some (w, tab (length es) (fun i =>
        let e := edge_at es i in
        if Nat.eqb i k then (C1, snd e)
        else (Cdiv (if near (fst e) C1 then C1 else fst e) w, snd e)))
  end.

(** MDDPackage.hpp:315-354 (makeDDNode): [m] says that the node is a matrix node. *)
Definition make (m cached : bool) (v : nat) (es : list edge) : edge :=
  match (if m then mnormalise cached es else vnormalise cached es) with
  | None => zero_edge
  | Some (w, es') => (w, Node v es')
  end.

(** MDDPackage.hpp:1805-1857 (checkSpecialMatrices): the identity flag of the node; [ds] are the sizes of the
    registers, top register first. *)
Fixpoint is_ident (ds : list nat) (n : node) : bool :=
  match ds, n with
  | [], Term => true
  | d :: r, Node _ es => forallb (fun idx =>
      let e := edge_at es idx in
      if Nat.eqb (idx / d) (idx mod d) then is_ident r (snd e) && is_one (fst e) else is_zero (fst e)) (seq 0 (d * d))
  | _, _ => false
  end.

(** MDDPackage.hpp:606-690 (makeIdent): the identity on the registers with these sizes. *)
Fixpoint make_ident (ds : list nat) : edge :=
  match ds with
  | [] => one_edge
  | d :: r => make true false (length r) (tab (d * d) (fun idx => if Nat.eqb (idx / d) (idx mod d) then make_ident r else zero_edge))
  end.

(** MDDPackage.hpp:272-294 (makeZeroState); [dims] are the sizes of the registers, bottom register first. *)
Definition zero_state (dims : list nat) : edge :=
  fold_left (fun first v => make false false v (first :: repeat zero_edge (nth v dims 0 - 1))) (seq 0 (length dims)) one_edge.

(** MDDPackage.hpp:726-833 (add2); the recursion ends at the terminal node, [n] levels below.  [m] as in [make]. *)
Fixpoint add2 (m : bool) (n : nat) (x y : edge) : edge :=
  if is_zero (fst x) then y
  else if is_zero (fst y) then x
  else
    let merged := let w := Cadd (fst x) (fst y) in if near_zero w then zero_edge else (w, snd y) in
    match snd x, snd y with
    | Term, Term => merged
    | Node v es, Node _ fs =>
        if same (snd x) (snd y) then merged
        else match n with
             | O => zero_edge
             | S n' => make m true v (tab (length es) (fun i =>
                 let e1 := edge_at es i in
                 let e2 := edge_at fs i in
                 add2 m n' (if is_zero (fst e1) then e1 else (Cmul (fst e1) (fst x), snd e1))
                           (if is_zero (fst e2) then e2 else (Cmul (fst e2) (fst y), snd e2))))
             end
    | _, _ => zero_edge
    end.

(** MDDPackage.hpp:961-987: the products for k = 0, 1, ... are added up. *)
Definition accumulate (m : bool) (n : nat) (terms : list edge) : edge :=
  match terms with
  | [] => zero_edge
  | t0 :: r => fold_left (fun acc t =>
      if is_zero (fst acc) then t else if is_zero (fst t) then acc else add2 m n acc t) r t0
  end.

(** MDDPackage.hpp:874-1010 (multiply2): a matrix times a vector, or with [m] times a matrix. *)
Fixpoint multiply2 (m : bool) (ds : list nat) (x y : edge) : edge :=
  if is_zero (fst x) || is_zero (fst y) then zero_edge
  else match ds with
  | [] => (Cmul (fst x) (fst y), Term)
  | d :: r =>
      let scale (e : edge) : edge :=
        let w := Cmul (Cmul (fst e) (fst x)) (fst y) in if near_zero w then zero_edge else (w, snd e) in
      if is_ident ds (snd x) then
        scale (C1, snd (if m && is_ident ds (snd y) then make_ident ds else y))
      else if m && is_ident ds (snd y) then scale (C1, snd x)
      else match snd x, snd y with
      | Node _ xs, Node _ ys =>
          let cols := if m then d else 1 in
          let e := make m true (length r) (tab (d * cols) (fun idx =>
            accumulate m (length r) (tab d (fun k =>
              multiply2 m r (edge_at xs (d * (idx / cols) + k)) (edge_at ys (idx mod cols + cols * k)))))) in
          if is_zero (fst e) then e else scale e
      | _, _ => zero_edge
      end
  end.

(** MDDPackage.hpp:1905-1945 (conjugateTranspose). *)
Fixpoint conj_transpose (ds : list nat) (e : edge) : edge :=
  match ds, snd e with
  | d :: r, Node v es =>
      let t := make true false v (tab (length es) (fun idx => conj_transpose r (edge_at es (d * (idx mod d) + idx / d)))) in
      (Cmul (fst t) (Cconj (fst e)), snd t)
  | _, _ => (Cconj (fst e), snd e)
  end.

(** MDDPackage.hpp:493-600 (makeGateDD).  [M] is an array of d x d entries; [controls] are pairs of a register and a
    level, sorted by register.  None: reading or writing behind the end of an array (std::out_of_range). *)
Definition sizes_below (dims : list nat) (v : nat) : list nat := rev (firstn v dims).
Definition on_register (controls : list (nat * nat)) (v : nat) : option nat :=
  match controls with (r, l) :: _ => if Nat.eqb r v then Some l else None | [] => None end.
Definition next_control (controls : list (nat * nat)) (v : nat) : list (nat * nat) :=
  match on_register controls v with Some _ => tl controls | None => controls end.
(** lines 525-570: one register below the target *)
Definition below_target (dims : list nat) (t : nat) (st : list edge * list (nat * nat)) (v : nat)
  : option (list edge * list (nat * nat)) :=
  let '(es, controls) := st in
  let radix := nth v dims 0 in
  let c := on_register controls v in
  if match c with Some l => Nat.leb radix l && Nat.ltb 1 t | None => false end then None
  else Some (tab (t * t) (fun entry =>
      make true false v (tab (radix * radix) (fun idx =>
        if Nat.eqb (idx / radix) (idx mod radix) then
          match c with
          | Some l => if Nat.eqb (idx / radix) l then edge_at es entry
                      else if Nat.eqb (entry / t) (entry mod t) then make_ident (sizes_below dims v) else zero_edge
          | None => edge_at es entry
          end
        else zero_edge))), next_control controls v).
Fixpoint all_below (dims : list nat) (t : nat) (st : list edge * list (nat * nat)) (vs : list nat)
  : option (list edge * list (nat * nat)) :=
  match vs with
  | [] => Some st
  | v :: r => match below_target dims t st v with Some st' => all_below dims t st' r | None => None end
  end.
(** lines 572-598: one register above the target *)
Definition above_target (dims : list nat) (st : edge * list (nat * nat)) (v : nat) : edge * list (nat * nat) :=
  let '(e, controls) := st in
  let radix := nth v dims 0 in
  (make true false v (tab (radix * radix) (fun idx =>
     if Nat.eqb (idx / radix) (idx mod radix) then
       match on_register controls v with
       | Some l => if Nat.eqb (idx / radix) l then e else make_ident (sizes_below dims v)
       | None => e
       end
     else zero_edge)), next_control controls v).
Definition make_gate (dims : list nat) (d : nat) (M : mat) (controls : list (nat * nat)) (target : nat) : option edge :=
  match nth_error dims target with
  | None => None
  | Some t =>
      if Nat.ltb (d * d) (t * t) then None
      else
        let entries := tab (t * t) (fun i => let w := M (i / d) (i mod d) in if is_zero w then zero_edge else (w, Term)) in
        match all_below dims t (entries, controls) (seq 0 target) with
        | None => None
        | Some (es, rest) =>
            Some (fst (fold_left (above_target dims) (seq (S target) (length dims - S target)) (make true false target es, rest)))
        end
  end.

(** MDDPackage.hpp:1663-1716 (getVector): writes the amplitudes below the edge into the positions i, ..., next-1. *)
Definition update (v : vec) (i : nat) (c : C) : vec := fun k => if Nat.eqb k i then c else v k.
Fixpoint write (n : nat) (e : edge) (amp : C) (i next : nat) (v : vec) : vec :=
  let c := Cmul (fst e) amp in
  match n, snd e with
  | S n', Node _ es =>
      let offset := (next - i) / length es in
      fold_left (fun v k =>
        let ch := edge_at es k in
        if near_zero (fst ch) then v else write n' ch c (i + k * offset) (i + (k + 1) * offset) v) (seq 0 (length es)) v
  | _, _ => update v i c
  end.
Definition get_vector (dims : list nat) (e : edge) : vec :=
  write (length dims) e C1 0 (fold_left Nat.mul dims 1) (fun _ => C0).

End Package.
