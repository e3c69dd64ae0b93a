(** Tensor products of matrices in the decision diagram package, and extending a matrix by identities.
    Source: include/dd/MDDPackage.hpp (lines given below), on the diagrams of DdModel.v.

    Simplifications as in DdModel.v; the compute table matrixKronecker is left out, as the other compute tables are there.
    Only the default incIdx = true is modelled (no caller gives another value).  None is an index behind the end of an array
    (std::out_of_range).  A node that was made before is found in its table and not checked again; here every node is
    checked.  Vectors have no identity flag, so the template cannot be used for them. *)
From Coq Require Import List Arith Reals Bool.
From Verif Require Import Base.Cplx Base.Matrix Misim.DdModel Misim.NodeSpec.
Import ListNotations.
Local Open Scope nat_scope.

Section Kron.
Variable tol : R.
(** registersSizes, register 0 first *)
Variable dims : list nat.

(** varIndx + 1; varIndx is -1 for the terminal node *)
Definition next_register (n : node) : nat := match n with Term => 0 | Node v _ => S v end.
(** Edge.hpp:31-38.  Pointers are equal exactly if the diagrams are (C100_pointers). *)
Definition edge_same (e f : edge) : bool := node_eqb (snd e) (snd f) && near tol (fst e) (fst f).
(** MDDPackage.hpp:1813-1817: are the nodes on the diagonal marked?  [flags] are the marks of the nodes behind the edges. *)
Fixpoint diagonal_marked (d : nat) (flags : list bool) (is : list nat) : option bool :=
  match is with
  | [] => Some true
  | i :: r => match nth_error flags (i * d + i) with
              | None => None
              | Some true => diagonal_marked d flags r
              | Some false => Some false
              end
  end.
(** lines 1822-1832 with transpose (1871-1904), which returns an edge to a marked node unchanged and throws for any other
    edge, because it writes with at() into an empty vector *)
Fixpoint mirror_images (d : nat) (es : list edge) (flags : list bool) (ps : list nat) : option bool :=
  match ps with
  | [] => Some true
  | p :: r =>
      if Nat.eqb (p / d) (p mod d) then mirror_images d es flags r
      else match nth_error flags p, nth_error es p, nth_error es (p mod d * d + p / d) with
           | Some true, Some e, Some f => if edge_same e f then mirror_images d es flags r else Some false
           | _, _, _ => None
           end
  end.
(** lines 1803-1835 (checkSpecialMatrices): the mark "symmetric" of a new node; None if the check throws *)
Definition special (d : nat) (es : list edge) (flags : list bool) : option bool :=
  match diagonal_marked d flags (seq 0 d) with
  | Some true => mirror_images d es flags (seq 0 (d * d))
  | r => r
  end.
(** the mark of a node; the terminal node has it (1975-1983) *)
Fixpoint marked (n : node) : bool :=
  match n with
  | Term => true
  | Node v es => match special (nth v dims 0) es (map (fun e => marked (snd e)) es) with Some b => b | None => false end
  end.
(** MDDPackage.hpp:326-354 (makeDDNode) with the register number checked by registersSizes.at (line 1811) and the check of
    the new node *)
Definition node_at (cached : bool) (v : nat) (es : list edge) : option edge :=
  if Nat.ltb v (length dims) then
    let e := make tol true cached v es in
    match snd e with
    | Term => Some e
    | Node _ fs => match special (nth v dims 0) fs (map (fun f => marked (snd f)) fs) with Some _ => Some e | None => None end
    end
  else None.
(** lines 1198-1209, 1212-1226: [size] edges, of which those on the diagonal of a [radix] x [radix] matrix go to e *)
Definition diagonal_layer (size radix v : nat) (e : edge) : option edge :=
  if Nat.leb (radix * radix) size then
    node_at false v (tab size (fun i => if Nat.ltb i (radix * radix) && Nat.eqb (i / radix) (i mod radix) then e else zero_edge))
  else None.
(** lines 1211-1227: k more layers *)
Fixpoint diagonal_layers (k : nat) (e : edge) : option edge :=
  match k with
  | O => Some e
  | S k' =>
      match snd e with
      | Term => None
      | Node u fs => match diagonal_layer (length fs) (nth u dims 0) (S u) e with Some e' => diagonal_layers k' e' | None => None end
      end
  end.
Fixpoint all_some {A} (l : list (option A)) : option (list A) :=
  match l with
  | [] => Some []
  | Some a :: r => match all_some r with Some s => Some (a :: s) | None => None end
  | None :: _ => None
  end.
(** lines 1176-1249 (kronecker2); the recursion ends at the terminal node, [n] levels below. *)
Fixpoint kron2 (n : nat) (x y : edge) : option edge :=
  if near_zero tol (fst x) || near_zero tol (fst y) then Some zero_edge
  else match snd x with
  | Term => Some (Cmul (fst x) (fst y), snd y)
  | Node v es =>
      if is_ident (sizes_below dims (S v)) (snd x) then
        match diagonal_layer (length es) (nth v dims 0) (next_register (snd y)) y with
        | Some e => match diagonal_layers v e with Some e' => Some (fst y, snd e') | None => None end
        | None => None
        end
      else match n with
      | O => None
      | S n' =>
          match all_some (map (fun e => kron2 n' e y) es) with
          | Some fs => match node_at true (next_register (snd y) + v) fs with
                       | Some e => Some (Cmul (fst e) (fst x), snd e)
                       | None => None
                       end
          | None => None
          end
      end
  end.
(** lines 1150-1160 *)
Definition kronecker (x y : edge) : option edge := kron2 (length dims) x y.
(** lines 604-684 (makeIdent) *)
Definition ident (n : nat) : option edge := if Nat.leb n (length dims) then Some (make_ident tol (sizes_below dims n)) else None.
(** lines 1164-1172 (extend) *)
Definition extend (e : edge) (h l : nat) : option edge :=
  match (if Nat.ltb 0 l then match ident l with Some i => kronecker e i | None => None end else Some e) with
  | None => None
  | Some f => if Nat.ltb 0 h then match ident h with Some i => kronecker i f | None => None end else Some f
  end.

End Kron.
