(** Gates whose matrix is not computed from parameters: the custom gates and the random gate.
    Source, below src/mqt/qudits/quantum_circuit/: gates/custom_one.py, custom_two.py, custom_multi.py (the same code three
    times), gates/randu.py, gate.py.

    Floats are exact.  Arrays have two axes.  What a read returns is to_matrix() without identities of a gate without
    controls; embedding and controls are the subject of Gates/FactoryModel. *)
From Coq Require Import Reals.
From Verif.Base Require Import Py Cplx Matrix Radix.
Local Open Scope list_scope.
Local Open Scope nat_scope.

(** An array with its numbers of rows and columns. *)
Record array := Array { a_rows : nat; a_cols : nat; a_ent : mat }.
(** matrix.conj().T *)
Definition conj_T (a : array) : array := Array (a_cols a) (a_rows a) (madj (a_ent a)).
(** The argument "parameters": None, an array with a flag that says whether its dtype is a number type, or something that is
    not an array. *)
Inductive argument := ANothing | AnArray (numeric : bool) (a : array) | AnObject.
(** custom_one.py:44-52, custom_two.py:44-52, custom_multi.py:44-52 (validate_parameter). *)
Definition validate (p : argument) : bool := match p with ANothing => true | AnArray numeric _ => numeric | AnObject => false end.
(** custom_one.py:36-38, custom_two.py:36-38, custom_multi.py:36-38: the stored array; None if there is none.  [dims] is not
    looked at, and nothing is raised. *)
Definition custom_new (dims : list nat) (p : argument) : option array :=
  if validate p then match p with AnArray _ a => let _ := dims in Some a | _ => None end else None.

(** A gate of one of the four classes; randu.py:21-37 keeps the dimensions. *)
Inductive source := Custom (storage : option array) | Random (dims : list nat).
(** The gates of a program with their dagger flags, and the number of samples drawn so far from the generator. *)
Record world := World { drawn : nat; objects : list (source * bool) }.
Inductive action := Read (i : nat) | Dag (i : nat).
(** What an action returns: a matrix, Python's None, the gate itself, or an exception. *)
Inductive answer := Matrix (a : array) | PyNone | Self | Raised (e : exn).

Section Run.
  (** scipy.stats.unitary_group.rvs(dim): the k-th sample. *)
  Variable rvs : nat -> nat -> mat.

  (** custom_one.py:40-41, randu.py:39-41 (__array__), with the number of samples afterwards; None is the stored None.
      reduce(operator.mul, dimensions) of an empty list raises TypeError. *)
  Definition array_of (k : nat) (s : source) : res (option array) * nat :=
    match s with
    | Custom st => (Ok st, k)
    | Random [] => (Err TypeError, k)
    | Random dims => (Ok (Some (Array (prodl dims) (prodl dims) (rvs (prodl dims) k))), S k)
    end.
  (** gate.py:91-105 and matrix_factory.py:21-24: None has no conj(). *)
  Definition read_gate (k : nat) (s : source) (dagger : bool) : answer * nat :=
    let x := array_of k s in
    (match fst x with
     | Err e => Raised e
     | Ok (Some a) => Matrix (if dagger then conj_T a else a)
     | Ok None => if dagger then Raised AttributeError else PyNone
     end, snd x).
  Fixpoint set_flag (i : nat) (l : list (source * bool)) : list (source * bool) :=
    match l, i with
    | [], _ => []
    | (s, _) :: r, O => (s, true) :: r
    | x :: r, S j => x :: set_flag j r
    end.
  (** to_matrix and gate.py:86-89 (dag). *)
  Definition act (w : world) (a : action) : answer * world :=
    match a with
    | Read i => match nth_error (objects w) i with
                | None => (Raised IndexError, w)
                | Some (s, f) => let x := read_gate (drawn w) s f in (fst x, World (snd x) (objects w))
                end
    | Dag i => match nth_error (objects w) i with
               | None => (Raised IndexError, w)
               | Some _ => (Self, World (drawn w) (set_flag i (objects w)))
               end
    end.
  Fixpoint acts (w : world) (l : list action) : list answer * world :=
    match l with
    | [] => ([], w)
    | a :: r => let x := act w a in let y := acts (snd x) r in (fst x :: fst y, snd y)
    end.
End Run.
