(** Specification of the circuit container, independent of the model's helpers. *)
From Verif Require Import Base.Py.
From Verif Require Import Circuit.CircuitModel.

(** *** C01: the layout of registers *)

(** A list of declared registers: (label, dimensions of its qudits). *)
Definition decls := list (string * list nat).

(** Line of the [i]-th qudit of the [k]-th declared register: after all the qudits of the
    registers declared before. *)
Definition line_of (ds : decls) (k i : nat) : nat :=
  List.length (List.concat (map snd (firstn k ds))) + i.

Definition total_lines (ds : decls) : nat := List.length (List.concat (map snd ds)).

(** (label, i) is the address of line [n] with dimension [d]. *)
Definition addressed (ds : decls) (label : string) (i n d : nat) : Prop :=
  exists k dims, nth_error ds k = Some (label, dims) /\ nth_error dims i = Some d /\ n = line_of ds k i.

Definition lookup {V} (m : list ((string * nat) * V)) (label : string) (i : nat) : option V :=
  dget key_eqb m (label, i).
Definition lookup_inv {V} (m : list (nat * V)) (n : nat) : option V := dget Nat.eqb m n.

(** The registers declared by a history: appends since the last reset. *)
Fixpoint declared {G} (ds : decls) (ops : list (op G)) : decls :=
  match ops with
  | [] => ds
  | OpAppend q :: r => declared (ds ++ [(q_label q, q_dims q)]) r
  | OpReset :: r => declared [] r
  | _ :: r => declared ds r
  end.

(** Histories in which each appended register is new (fresh label, as many dimensions as its
    size, not yet attached to another circuit). *)
Fixpoint legal_appends {G} (ds : decls) (ops : list (op G)) : Prop :=
  match ops with
  | [] => True
  | OpAppend q :: r =>
      ~ In (q_label q) (map fst ds) /\ List.length (q_dims q) = q_size q /\ q_local q = [] /\
      legal_appends (ds ++ [(q_label q, q_dims q)]) r
  | OpReset :: r => legal_appends [] r
  | _ :: r => legal_appends ds r
  end.

(** *** C02: the program a history of operations denotes, as a plain list. *)
Definition program_step {G} (l : list G) (o : op G) : list G :=
  match o with
  | OpAdd (Ok g) => l ++ [g]
  | OpReplace i s =>
      (* item number i, counted from the end when negative, is replaced by s *)
      let k := Z.to_nat (if (i <? 0)%Z then (i + Z.of_nat (List.length l))%Z else i) in
      firstn k l ++ s ++ skipn (S k) l
  | OpSetInstructions s => s
  | OpReset => []
  | _ => l
  end.
Definition program {G} (l : list G) (ops : list (op G)) : list G := fold_left program_step ops l.

(** An index that denotes an existing instruction and is not -1 (see C02 note). *)
Definition index_ok (len : nat) (i : Z) : Prop :=
  (0 <= i < Z.of_nat len \/ - Z.of_nat len <= i <= -2)%Z.

Fixpoint replaces_ok {G} (l : list G) (ops : list (op G)) : Prop :=
  match ops with
  | [] => True
  | o :: r =>
      match o with OpReplace i _ => index_ok (List.length l) i | _ => True end /\
      replaces_ok (program_step l o) r
  end.
