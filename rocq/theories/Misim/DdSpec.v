(** What a decision diagram stands for. *)
From Coq Require Import List Arith.
From Verif Require Import Base.Cplx Base.Matrix Base.Radix Misim.DdModel.
Import ListNotations.
Local Open Scope nat_scope.

(** The amplitude of a path: one edge per register, top register first; the product of the weights. *)
Fixpoint val (n : node) (p : list nat) : C :=
  match p with
  | [] => C1
  | i :: r => match n with Term => C0 | Node _ es => let e := nth i es (C0, Term) in Cmul (fst e) (val (snd e) r) end
  end.
Definition ev (e : edge) (p : list nat) : C := Cmul (fst e) (val (snd e) p).

(** A diagram over registers with [ss] edges per node, top register first: every edge goes to a diagram over the rest
    or has weight 0. *)
Fixpoint wf (ss : list nat) (n : node) : Prop :=
  match ss, n with
  | [], Term => True
  | s :: r, Node v es => v = length r /\ length es = s /\ Forall (fun e => fst e = C0 \/ wf r (snd e)) es
  | _, _ => False
  end.
Definition ewf (ss : list nat) (e : edge) : Prop := fst e = C0 \/ wf ss (snd e).

(** Matrices: a node of a register of size d has d*d edges, and the path of the entry in row p and column q (one level
    per register each) takes edge p*d + q.  Vectors have one column. *)
Definition cols (m : bool) (d : nat) : nat := if m then d else 1.
Definition arity (m : bool) (ds : list nat) : list nat := map (fun d => d * cols m d) ds.
Fixpoint entry (m : bool) (ds p q : list nat) : list nat :=
  match ds, p, q with
  | d :: r, i :: p', j :: q' => (i * cols m d + j) :: entry m r p' q'
  | _, _, _ => []
  end.
Definition columns (m : bool) (ds : list nat) : list nat := map (cols m) ds.

(** sum over all basis states of a register *)
Fixpoint psum (ds : list nat) (f : list nat -> C) : C :=
  match ds with [] => f [] | d :: r => csum d (fun i => psum r (fun q => f (i :: q))) end.
Definition delta (p q : list nat) : C := if list_eq_dec Nat.eq_dec p q then C1 else C0.
