(** What a program that uses the decision diagram package means: states are functions from levels to amplitudes. *)
From Coq Require Import Arith Reals Bool List Sorted.
From Verif Require Import Base.Cplx Base.Matrix Base.Radix Sim.TnModel Misim.DdModel Misim.DdSpec Misim.MisimModel Misim.NodeModel Misim.NodeSpec Misim.SessionModel.
Import ListNotations.
Local Open Scope nat_scope.

(** a state: the amplitude for a level of every register, register 0 first *)
Definition state := list nat -> C.
Definition basis_state (levels : list nat) : state := fun p => if list_eq_dec Nat.eq_dec p levels then C1 else C0.
Definition plus_state (x y : state) : state := fun p => Cadd (x p) (y p).
(** the levels with another level for one register *)
Fixpoint change (p : list nat) (t j : nat) : list nat :=
  match p, t with [], _ => [] | _ :: r, O => j :: r | i :: r, S t' => i :: change r t' j end.
(** all controls have their level *)
Definition satisfied (controls : list (nat * nat)) (p : list nat) : bool := forallb (fun c => Nat.eqb (nth (fst c) p 0) (snd c)) controls.
(** the matrix on the target, where the controls are satisfied *)
Definition applied (dims : list nat) (A : mat) (controls : list (nat * nat)) (t : nat) (x : state) : state := fun p =>
  if satisfied controls p then csum (nth t dims 0) (fun j => Cmul (A (nth t p 0) j) (x (change p t j))) else x p.
(** an entry of the matrix of the gate *)
Definition gate_entry (A : mat) (controls : list (nat * nat)) (t : nat) (p q : list nat) : C :=
  if satisfied controls p then if list_eq_dec Nat.eq_dec q (change p t (nth t q 0)) then A (nth t p 0) (nth t q 0) else C0
  else if list_eq_dec Nat.eq_dec p q then C1 else C0.
(** the sum of x conj(y) over all basis states *)
Definition overlap (dims : list nat) (x y : state) : C := psum dims (fun p => Cmul (x p) (Cconj (y p))).

(** the operation is used as it is meant, with [n] states made so far *)
Definition gate_fits (dims : list nat) (d : nat) (controls : list (nat * nat)) (t : nat) : Prop :=
  t < length dims /\ d = nth t dims 0 /\ StronglySorted (fun a b => fst a < fst b) controls /\
  forall r l, In (r, l) controls -> r < length dims /\ r <> t /\ l < nth r dims 0.
Definition fits (dims : list nat) (n : nat) (o : op) : Prop :=
  match o with
  | Basis levels => valid dims levels
  | Zero => True
  | Apply d A controls t k => gate_fits dims d controls t /\ k < n
  | Sum j k | Inner j k | Fidelity j k => j < n /\ k < n
  | ByString k codes => k < n /\ exists levels, codes = map (fun l => 48 + l) levels /\ valid dims levels
  | ByLevels k levels => k < n /\ valid (rev dims) levels
  | Listed k i => k < n /\ i < prodl dims
  | Vector k | Count k => k < n
  | Matrix d A controls t => gate_fits dims d controls t
  | Entry d A controls t rows columns => gate_fits dims d controls t /\ valid (rev dims) rows /\ valid (rev dims) columns
  end.
(** the states after the operation *)
Definition at_state (xs : list state) (k : nat) : state := nth k xs (fun _ => C0).
Definition after (dims : list nat) (xs : list state) (o : op) : list state :=
  match o with
  | Basis levels => xs ++ [basis_state levels]
  | Zero => xs ++ [basis_state (repeat 0 (length dims))]
  | Apply d A controls t k => xs ++ [applied dims A controls t (at_state xs k)]
  | Sum j k => xs ++ [plus_state (at_state xs j) (at_state xs k)]
  | _ => xs
  end.
(** the same state up to a factor *)
Definition proportional (dims : list nat) (x y : state) : Prop := exists c, c <> C0 /\ forall p, valid dims p -> x p = Cmul c (y p).

(** Nodes: the levels [q] of the top registers, top register first, leave a state of the registers below.  A diagram has one
    node for each of those states that is not zero, up to a factor, and the terminal node. *)
Definition below (dims q : list nat) : list nat := firstn (length dims - length q) dims.
Definition above (dims q : list nat) : Prop := length q < length dims /\ valid (firstn (length q) (rev dims)) q.
Definition sub_state (x : state) (q p : list nat) : C := x (p ++ rev q).
Definition nonzero (dims : list nat) (x : state) (q : list nat) : Prop := exists p, valid (below dims q) p /\ sub_state x q p <> C0.
Definition alike (dims : list nat) (x : state) (q q' : list nat) : Prop := length q = length q' /\
  exists c, c <> C0 /\ forall p, valid (below dims q) p -> sub_state x q p = Cmul c (sub_state x q' p).
Definition node_number (dims : list nat) (x : state) (n : nat) : Prop := exists l, n = S (length l) /\
  (forall q, In q l -> above dims q /\ nonzero dims x q) /\ ForallOrdPairs (fun q q' => ~ alike dims x q q') l /\
  forall q, above dims q -> nonzero dims x q -> exists q', In q' l /\ alike dims x q q'.

(** What the operation has to return.  The inner product is determined here up to a factor of modulus 1 (C103 says which). *)
Definition right (dims : list nat) (xs : list state) (o : op) (r : output) : Prop :=
  match o, r with
  | (Basis _ | Zero | Apply _ _ _ _ _ | Sum _ _), Nothing => True
  | Inner j k, Number c => Cnorm2 c = Cnorm2 (overlap dims (at_state xs j) (at_state xs k))
  | Fidelity j k, Real f => f = Cnorm2 (overlap dims (at_state xs j) (at_state xs k))
  | ByString k codes, Number c => forall levels, codes = map (fun l => 48 + l) levels -> c = at_state xs k levels
  | ByLevels k levels, Number c => c = at_state xs k (rev levels)
  | Listed k i, Number c => forall levels, valid dims levels -> i = undigits (rev dims) (rev levels) -> c = at_state xs k levels
  | Vector k, Numbers v => forall levels, valid dims levels -> v (undigits (rev dims) (rev levels)) = at_state xs k levels
  | Count k, Size n => node_number dims (at_state xs k) n
  | Matrix d A controls t, Numbers v => forall p q, valid dims p -> valid dims q ->
      v (undigits (rev (map (fun d => d * d) dims)) (entry true (rev dims) (rev p) (rev q))) = gate_entry A controls t p q
  | _, _ => False
  end.
(** no matrix is read entry by entry *)
Definition no_entry (o : op) : Prop := match o with Entry _ _ _ _ _ _ => False | _ => True end.
Fixpoint used_right (dims : list nat) (n : nat) (os : list op) : Prop :=
  match os with
  | [] => True
  | o :: r => fits dims n o /\ no_entry o /\
      used_right dims (match o with Basis _ | Zero | Apply _ _ _ _ _ | Sum _ _ => S n | _ => n end) r
  end.
Fixpoint meaning (dims : list nat) (xs : list state) (os : list op) : list state :=
  match os with [] => xs | o :: r => meaning dims (after dims xs o) r end.
Fixpoint all_right (dims : list nat) (xs : list state) (os : list op) (rs : list output) : Prop :=
  match os, rs with [], [] => True | o :: os', r :: rs' => right dims xs o r /\ all_right dims (after dims xs o) os' rs' | _, _ => False end.

(** the sessions programs lead to, and the states of the program there *)
Definition reached_session (dims : list nat) uhash ahash mhash ihash (xs : list state) (z : session) : Prop :=
  exists os rs, used_right dims 0 os /\ run 0 dims uhash ahash mhash ihash start os = Done (rs, z) /\ xs = meaning dims [] os.

(** the diagrams inside a diagram, with itself *)
Inductive inside : node -> node -> Prop :=
  | inside_refl n : inside n n
  | inside_edge v es e n : In e es -> inside (snd e) n -> inside (Node v es) n.
