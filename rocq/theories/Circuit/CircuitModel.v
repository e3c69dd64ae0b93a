(** Model of the circuit container: registers, site maps and the instruction list.
    Source: src/mqt/qudits/quantum_circuit/circuit.py and components/*_register.py.

    Simplifications: gates are values of an arbitrary type [G]; a gate constructor call is
    represented by its outcome ([Ok g] or the exception it raised), see [add_gate].
    Dimensions and sizes are natural numbers. *)
From Verif Require Import Base.Py.

(** quantum_register.py:40-44 (QuantumRegister.__init__).  [local_sitemap] is a dict. *)
Record qreg := QReg { q_label : string; q_size : nat; q_dims : list nat; q_local : list (nat * nat) }.
Definition new_qreg (name : string) (size : nat) (dims : option (list nat)) : qreg :=
  QReg name size (match dims with None => repeat 2 size | Some d => d end) [].

(** classic_register.py:30-33. *)
Record creg := CReg { c_label : string; c_size : nat; c_local : list (nat * nat) }.
Definition new_creg (name : string) (size : nat) : creg := CReg name size [].

(** quantum_register.py:50-55 (__getitem__ with an int key). *)
Definition qreg_getitem (q : qreg) (i : nat) : res nat :=
  match dget Nat.eqb (q_local q) i with Some n => Ok n | None => Err KeyError end.

(** classic_register.py:38-43 (__getitem__ with an int key). *)
Definition creg_getitem (r : creg) (i : nat) : res nat :=
  match dget Nat.eqb (c_local r) i with Some n => Ok n | None => Err KeyError end.

Definition key_eqb (a b : string * nat) : bool :=
  String.eqb (fst a) (fst b) && Nat.eqb (snd a) (snd b).

Section Circuit.
Context {G : Type}.

(** circuit.py:91-104: the attributes of QuantumCircuit. *)
Record circuit := Circ {
  cl_inverse_sitemap : list (nat * (string * nat));
  inverse_sitemap : list (nat * (string * nat));
  number_gates : Z;
  instructions : list G;
  quantum_registers : list qreg;
  classic_registers : list creg;
  sitemap : list ((string * nat) * (nat * nat));
  classic_site_map : list ((string * nat) * nat);
  num_cl : nat;
  num_qudits : nat;
  dimensions : list nat;
  mappings : option (list (list nat));
  path_save : option string
}.

(** circuit.py:91-107: QuantumCircuit() without arguments. *)
Definition empty_circuit : circuit :=
  Circ [] [] 0 [] [] [] [] [] 0 0 [] None None.

(** circuit.py:137-149 (reset): every attribute but [mappings] is re-initialised. *)
Definition reset (c : circuit) : circuit :=
  {| cl_inverse_sitemap := []; inverse_sitemap := []; number_gates := 0; instructions := [];
     quantum_registers := []; classic_registers := []; sitemap := []; classic_site_map := [];
     num_cl := 0; num_qudits := 0; dimensions := []; mappings := mappings c; path_save := None |}.

(** circuit.py:160-163: body of the loop of [append] over [range(size)], starting at [i] with
    [n] iterations left.  [qreg.dimensions[i]] raises IndexError when the register was given
    too few dimensions; what was stored before stays stored. *)
Fixpoint append_loop (label : string) (dims : list nat) (stored : nat) (i n : nat)
    (local : list (nat * nat)) (sm : list ((string * nat) * (nat * nat)))
    (inv : list (nat * (string * nat)))
  : (list (nat * nat) * list ((string * nat) * (nat * nat)) * list (nat * (string * nat))) * option exn :=
  match n with
  | O => ((local, sm, inv), None)
  | S m =>
      let local' := dset Nat.eqb local i (stored + i) in
      match nth_error dims i with
      | None => ((local', sm, inv), Some IndexError)
      | Some d =>
          append_loop label dims stored (S i) m local'
            (dset key_eqb sm (label, i) (stored + i, d))
            (dset Nat.eqb inv (stored + i) (label, i))
      end
  end.

(** circuit.py:154-163 (append).  The register object is mutated (its local_sitemap), which is
    visible through [quantum_registers]; [stored] is len(sitemap) before the loop. *)
Definition append (c : circuit) (q : qreg) : circuit * option exn :=
  let '((local, sm, inv), e) :=
    append_loop (q_label q) (q_dims q) (List.length (sitemap c)) 0 (q_size q) (q_local q)
      (sitemap c) (inverse_sitemap c) in
  ({| cl_inverse_sitemap := cl_inverse_sitemap c; inverse_sitemap := inv;
      number_gates := number_gates c; instructions := instructions c;
      quantum_registers := quantum_registers c ++ [QReg (q_label q) (q_size q) (q_dims q) local];
      classic_registers := classic_registers c; sitemap := sm;
      classic_site_map := classic_site_map c; num_cl := num_cl c;
      num_qudits := num_qudits c + q_size q; dimensions := dimensions c ++ q_dims q;
      mappings := mappings c; path_save := path_save c |}, e).

(** circuit.py:170-173: loop of [append_classic]. *)
Fixpoint append_classic_loop (label : string) (stored : nat) (i n : nat)
    (local : list (nat * nat)) (sm : list ((string * nat) * nat)) (inv : list (nat * (string * nat)))
  : list (nat * nat) * list ((string * nat) * nat) * list (nat * (string * nat)) :=
  match n with
  | O => (local, sm, inv)
  | S m => append_classic_loop label stored (S i) m (dset Nat.eqb local i (stored + i))
             (dset key_eqb sm (label, i) (stored + i)) (dset Nat.eqb inv (stored + i) (label, i))
  end.

(** circuit.py:165-173 (append_classic). *)
Definition append_classic (c : circuit) (r : creg) : circuit :=
  let '(local, sm, inv) :=
    append_classic_loop (c_label r) (List.length (classic_site_map c)) 0 (c_size r) (c_local r)
      (classic_site_map c) (cl_inverse_sitemap c) in
  {| cl_inverse_sitemap := inv; inverse_sitemap := inverse_sitemap c;
     number_gates := number_gates c; instructions := instructions c;
     quantum_registers := quantum_registers c;
     classic_registers := classic_registers c ++ [CReg (c_label r) (c_size r) local];
     sitemap := sitemap c; classic_site_map := sm; num_cl := num_cl c + c_size r;
     num_qudits := num_qudits c; dimensions := dimensions c; mappings := mappings c;
     path_save := path_save c |}.

(** replacing only the instruction list and the counter *)
Definition with_instructions (c : circuit) (n : Z) (l : list G) : circuit :=
  {| cl_inverse_sitemap := cl_inverse_sitemap c; inverse_sitemap := inverse_sitemap c;
     number_gates := n; instructions := l; quantum_registers := quantum_registers c;
     classic_registers := classic_registers c; sitemap := sitemap c;
     classic_site_map := classic_site_map c; num_cl := num_cl c; num_qudits := num_qudits c;
     dimensions := dimensions c; mappings := mappings c; path_save := path_save c |}.

(** circuit.py:59-66 (add_gate_decorator): the constructor runs first (its outcome is [r]);
    only if it returns are the counter and the list updated. *)
Definition add_gate (c : circuit) (r : res G) : circuit * option exn :=
  match r with
  | Ok g => (with_instructions c (number_gates c + 1) (instructions c ++ [g]), None)
  | Err e => (c, Some e)
  end.

(** circuit.py:303-305 (replace_gate): slice assignment, then counter arithmetic. *)
Definition replace_gate (c : circuit) (idx : Z) (sequence : list G) : circuit :=
  with_instructions c ((number_gates c - 1) + Z.of_nat (List.length sequence))
    (pyslice_assign (instructions c) idx (idx + 1) sequence).

(** circuit.py:307-311 (set_instructions). *)
Definition set_instructions (c : circuit) (sequence : list G) : circuit :=
  with_instructions c (Z.of_nat (List.length sequence)) ([] ++ sequence).

(** circuit.py:313-315 (set_mapping). *)
Definition set_mapping (c : circuit) (m : list (list nat)) : circuit :=
  {| cl_inverse_sitemap := cl_inverse_sitemap c; inverse_sitemap := inverse_sitemap c;
     number_gates := number_gates c; instructions := instructions c;
     quantum_registers := quantum_registers c; classic_registers := classic_registers c;
     sitemap := sitemap c; classic_site_map := classic_site_map c; num_cl := num_cl c;
     num_qudits := num_qudits c; dimensions := dimensions c; mappings := Some m;
     path_save := path_save c |}.

(** circuit.py:106-119: QuantumCircuit(n, dims) and QuantumCircuit(register). *)
Definition circuit_of_reg (q : qreg) : circuit * option exn := append empty_circuit q.
Definition circuit_of_dims (n : nat) (dims : option (list nat)) : circuit * option exn :=
  append empty_circuit (new_qreg "q" n (Some (match dims with None => repeat 2 n | Some d => d end))).

(** One public operation on a circuit, and a whole history of them.  An exception is reported
    to the caller and the (possibly partially updated) circuit goes on being used. *)
Inductive op :=
| OpAppend (q : qreg)
| OpAppendClassic (r : creg)
| OpAdd (outcome : res G)
| OpReplace (idx : Z) (sequence : list G)
| OpSetInstructions (sequence : list G)
| OpSetMapping (m : list (list nat))
| OpReset.

Definition step (c : circuit) (o : op) : circuit * option exn :=
  match o with
  | OpAppend q => append c q
  | OpAppendClassic r => (append_classic c r, None)
  | OpAdd r => add_gate c r
  | OpReplace i s => (replace_gate c i s, None)
  | OpSetInstructions s => (set_instructions c s, None)
  | OpSetMapping m => (set_mapping c m, None)
  | OpReset => (reset c, None)
  end.

Definition run (c : circuit) (ops : list op) : circuit :=
  fold_left (fun c o => fst (step c o)) ops c.

End Circuit.
Arguments circuit : clear implicits.
Arguments op : clear implicits.
