(** Specification for the DITQASM export and import. *)
From Coq Require Import Reals.
From Verif Require Import Base.Py Base.Text.
From Verif Require Import Circuit.CircuitModel Circuit.CircuitSpec Circuit.GateModel Gates.SingleModel Qasm.QasmModel.
Local Open Scope nat_scope.

(** A register name the grammar can express: a non-empty word. *)
Definition word (t : text) : Prop := t <> [] /\ forall a, In a t -> is_word a = true.
(** The text of a finite number: non-empty, made of digits, sign, point and exponent. *)
Definition num_char (a : ascii) : bool := is_digit a || existsb (Ascii.eqb a) (tx ".e+-").
Definition num_text (t : text) : Prop := t <> [] /\ forall a, In a t -> num_char a = true.

(** Declared registers: names are words, and there is at least one qudit. *)
Definition regs_ok (ds : decls) : Prop := forall label dims, In (label, dims) ds -> word (tx label) /\ dims <> [].

Section Spec.
Context {Arr : Type}.
Variable show_float : R -> text.
Variable eval : text -> res (option R).

(** The number a parameter stands for. *)
Definition num_of (p : param) : R := match p with PInt z => IZR z | PFloat x => x | PStr _ => 0%R end.
(** How the number is written: an integer with its sign in decimal, a float as Python's str writes it. *)
Definition written (p : param) : text := match p with PInt z => show_Z z | PFloat x => show_float x | PStr s => tx s end.
(** The number is printed as a number and evaluated back to itself (also after a blank). *)
Definition printable (p : param) : Prop :=
  num_text (written p) /\
  eval (written p) = Ok (Some (num_of p)) /\
  eval (" "%char :: written p) = Ok (Some (num_of p)).

(** The methods of the circuit whose gates take no controls here and are covered by the round trip. *)
Definition exportable : list string :=
  ["x"; "z"; "h"; "s"; "r"; "rz"; "rh"; "virtrz"; "pm"; "csum"; "randu"; "cx"; "ls"; "ms"; "noisex"; "noisey"]%string.

(** A gate made by calling a method of a circuit with [num] lines of dimensions [dims], on lines of
    the circuit; its parameters (if the method takes any) were accepted and Python prints them
    faithfully; multi-qudit methods are called with two lines or more. *)
Definition made_by (num : nat) (dims : list nat) (g : gate (@gdata Arr)) : Prop :=
  exists a, In (a_method a) exportable /\ construct num dims a = Ok (Some g) /\
  (In (a_method a) ["x"; "z"; "h"; "s"; "csum"; "randu"]%string \/
   exists l, d_par (g_data g) = AList l /\ l <> [] /\ forall p, In p l -> printable p) /\
  (forall t, In t (target_lines g) -> (0 <= t < Z.of_nat num)%Z) /\
  (forall ts, g_target g = TList ts -> 2 <= List.length ts).

(** A gate given by a matrix. *)
Definition made_custom (num : nat) (dims : list nat) (g : gate (@gdata Arr)) : Prop :=
  exists a, In (a_method a) ["cu_one"; "cu_two"; "cu_multi"]%string /\ construct num dims a = Ok (Some g) /\
  (exists m, a_par a = AArray m) /\ g_controls g = None /\ target_lines g <> [] /\
  (forall t, In t (target_lines g) -> (0 <= t < Z.of_nat num)%Z).

(** What comes back.  The gate kinds whose parameters are lost, those whose parameters come back as
    a tuple of floats, and those that do not come back at all. *)
Definition loses_params : list string := ["rxy"; "rz"; "rh"; "virtrz"]%string.
Definition not_read : list string := ["noisex"; "noisey"]%string.
Definition par_back (tag : string) (p : @parg Arr) : @parg Arr :=
  if existsb (String.eqb tag) loses_params then ANone
  else if String.eqb tag "cx" then AList [PInt 0; PInt 1; PInt 1; PFloat 0]
  else match p with AList l => ATuple (map (fun x => Some (num_of x)) l) | p => p end.
Definition gate_back (g : gate (@gdata Arr)) : list (gate (@gdata Arr)) :=
  if existsb (String.eqb (d_tag (g_data g))) not_read then []
  else [ {| g_name := g_name g; g_type := g_type g; g_target := g_target g; g_controls := g_controls g;
            g_dagger := g_dagger g; g_long := g_long g;
            g_data := GData (d_tag (g_data g)) (d_dims (g_data g)) (par_back (d_tag (g_data g)) (d_par (g_data g))) |} ].

(** The gate as the user left it: possibly conjugated after it was made. *)
Definition user_gate (x : gate (@gdata Arr) * bool) : gate (@gdata Arr) := if snd x then dag (fst x) else fst x.

(** Gates that come back unchanged. *)
Definition unchanged (g : gate (@gdata Arr)) : Prop :=
  In (d_tag (g_data g)) ["x"; "z"; "h"; "s"; "csum"; "rdu"]%string \/
  (d_tag (g_data g) = "cx"%string /\ d_par (g_data g) = AList [PInt 0; PInt 1; PInt 1; PFloat 0]).
End Spec.

(** ** C20 *)
Fixpoint startsb (p line : text) : bool :=
  match p, line with
  | [], _ => true
  | a :: p, b :: l => (Ascii.eqb a b && startsb p l)%bool
  | _ :: _, [] => false
  end.
Definition begins (p : string) (line : text) : bool := startsb (tx p) line.
(** The line without the blanks around it. *)
Definition body (raw : text) : text := strip is_space raw.
(** Lines the language says nothing about: blank, a line comment, the header, measure and barrier. *)
Definition ignorable (line : text) : bool :=
  match line with [] => true | _ => existsb (fun p => begins p line) ["//"; "DITQASM"; "include"; "measure"; "barrier"]%string end.
Definition declaration (line : text) : bool := (begins "qreg" line || begins "creg" line)%bool.
Definition opens_comment (line : text) : bool := begins "/*" line.
Definition closes_comment (line : text) : bool := begins "*/" line.
(** A statement: a line that is none of these. *)
Definition statement (line : text) : bool := negb (ignorable line || declaration line || opens_comment line).
