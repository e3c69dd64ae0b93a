(** Provider, backend options and run().
    Source: src/mqt/qudits/simulation/qudit_provider.py, backends/backendv2.py, tnsim.py:27-58, misim.py:24-58,
    innsbruck_01.py:19-100, fake_backends/fake_traps2three.py, fake_traps2six.py, fake_traps3six.py.

    Regular expressions are an argument: [search p k] is the outcome of re.compile(p).search(k).  Noise models
    are opaque values. *)
From Coq Require Import Ascii String.
From Verif.Base Require Import Py.
Local Open Scope string_scope.
Local Open Scope list_scope.

(** qudit_provider.py:18-25: the classes of the registry. *)
Inductive kind := TNSim | MISim | Innsbruck01 | FakeIonTraps2Trits | FakeIonTraps2Six | FakeIonTraps3Six.
Definition registry : list (string * kind) :=
  [("tnsim", TNSim); ("misim", MISim); ("innsbruck01", Innsbruck01); ("faketraps2trits", FakeIonTraps2Trits);
   ("faketraps2six", FakeIonTraps2Six); ("faketraps3six", FakeIonTraps3Six)].

(** The noise models a backend may hold: one given by the user, or the one a fake backend builds for itself
    (fake_traps2three.py:74-101 and the like). *)
Inductive nmodel := User (n : nat) | Builtin (k : kind).
(** Values of options. *)
Inductive oval := VNone | VInt (z : Z) | VBool (b : bool) | VStr (s : string) | VModel (m : nmodel).
Definition options := list (string * oval).

(** dict.update *)
Definition update (o fields : options) : options := fold_left (fun o kv => dset String.eqb o (fst kv) (snd kv)) fields o.
(** _options.get(k, default) *)
Definition oget (o : options) (k : string) (default : oval) : oval :=
  match dget String.eqb o k with Some v => v | None => default end.

(** backendv2.py:26-46: the attributes of a backend. *)
Record backend := Backend {
  b_kind : kind; b_name : option string; b_options : options;
  b_noise : oval; b_shots : oval; b_memory : oval; b_full : oval; b_path : oval; b_file : oval
}.

(** backendv2.py:52-54 *)
Definition default_options : options := [("shots", VInt 50); ("memory", VBool false); ("noise_model", VNone)].
(** backendv2.py:26-46 *)
Definition base_init (k : kind) (name : option string) (fields : options) : backend :=
  {| b_kind := k; b_name := name; b_options := update default_options fields;
     b_noise := VNone; b_shots := VInt 50; b_memory := VBool false; b_full := VBool false; b_path := VNone; b_file := VNone |}.
Definition set_noise (b : backend) (v : oval) : backend :=
  {| b_kind := b_kind b; b_name := b_name b; b_options := dset String.eqb (b_options b) "noise_model" v; b_noise := v;
     b_shots := b_shots b; b_memory := b_memory b; b_full := b_full b; b_path := b_path b; b_file := b_file b |}.
(** tnsim.py:27-34, misim.py:24-31 (name and description are not given by the provider);
    innsbruck_01.py:24-38 (its __noise_model returns the attribute, which is None at this point);
    fake_traps2three.py:23-36, fake_traps2six.py:23-29, fake_traps3six.py:23-36. *)
Definition init (k : kind) (fields : options) : backend :=
  match k with
  | TNSim | MISim => base_init k None fields
  | Innsbruck01 => set_noise (base_init k (Some "Innsbruck01") fields) VNone
  | FakeIonTraps2Trits => set_noise (base_init k (Some "FakeTrap2") fields) (VModel (Builtin k))
  | FakeIonTraps2Six => set_noise (base_init k (Some "FakeTrap2Six") fields) (VModel (Builtin k))
  | FakeIonTraps3Six => set_noise (base_init k (Some "FakeTrap3Six") fields) (VModel (Builtin k))
  end.

Section Provider.
  Variable search : string -> string -> res bool.
  (** qudit_provider.py:33, 50: the keys of the registry that match, in order.  The pattern is compiled once:
      an invalid one raises before any key is looked at; here the first key raises. *)
  Fixpoint matching (p : string) (keys : list string) : res (list string) :=
    match keys with
    | [] => Ok []
    | k :: r => let? m := search p k in let? ms := matching p r in Ok (if m then k :: ms else ms)
    end.
  (** qudit_provider.py:27-44 (get_backend) *)
  Definition get_backend (reg : list (string * kind)) (name : option string) (fields : options) : res backend :=
    match name with
    | None => Err ValueError
    | Some p =>
        let? ms := matching p (dkeys reg) in
        match ms with
        | [] => Err ValueError
        | [k] => match dget String.eqb reg k with Some c => Ok (init c fields) | None => Err KeyError end
        | _ => Err ValueError
        end
    end.
  (** qudit_provider.py:46-52 (backends) *)
  Definition backends (reg : list (string * kind)) (name : option string) : res (list string) :=
    match name with None => Ok (dkeys reg) | Some p => matching p (dkeys reg) end.
End Provider.

(** The attributes of a dict that hasattr finds (Python 3.9 and later). *)
Definition dict_attributes : list string :=
  ["clear"; "copy"; "fromkeys"; "get"; "items"; "keys"; "pop"; "popitem"; "setdefault"; "update"; "values";
   "__class__"; "__class_getitem__"; "__contains__"; "__delattr__"; "__delitem__"; "__dir__"; "__doc__"; "__eq__";
   "__format__"; "__ge__"; "__getattribute__"; "__getitem__"; "__gt__"; "__hash__"; "__init__"; "__init_subclass__";
   "__ior__"; "__iter__"; "__le__"; "__len__"; "__lt__"; "__ne__"; "__new__"; "__or__"; "__reduce__"; "__reduce_ex__";
   "__repr__"; "__reversed__"; "__ror__"; "__setattr__"; "__setitem__"; "__sizeof__"; "__str__"; "__subclasshook__"].
Definition hasattr_dict (f : string) : bool := existsb (String.eqb f) dict_attributes.

Definition with_options (b : backend) (o : options) : backend :=
  {| b_kind := b_kind b; b_name := b_name b; b_options := o; b_noise := b_noise b;
     b_shots := b_shots b; b_memory := b_memory b; b_full := b_full b; b_path := b_path b; b_file := b_file b |}.
(** backendv2.py:56-61 (set_options): the backend afterwards and the exception, if one was raised.  hasattr is
    asked of the dictionary object. *)
Definition set_options (b : backend) (fields : options) : backend * option exn :=
  if forallb (fun f => hasattr_dict (fst f)) fields then (with_options b (update (b_options b) fields), None)
  else (b, Some AttributeError).

(** self.shots >= 50 *)
Definition at_least_50 (v : oval) : res bool :=
  match v with
  | VInt z => Ok (50 <=? z)%Z
  | VBool _ => Ok false
  | _ => Err TypeError
  end.

(** tnsim.py:40-47, misim.py:37-43, innsbruck_01.py:81-87: the attributes are read from the options. *)
Definition load (b : backend) (opts : options) : backend :=
  let o := update (b_options b) opts in
  {| b_kind := b_kind b; b_name := b_name b; b_options := o;
     b_noise := oget o "noise_model" VNone; b_shots := oget o "shots" (VInt 50); b_memory := oget o "memory" (VBool false);
     b_full := oget o "full_state_memory" (VBool false); b_path := oget o "file_path" VNone; b_file := oget o "file_name" VNone |}.

Record jresult (V L : Type) := JResult { r_state : V; r_counts : L }.
Arguments JResult {V L}. Arguments r_state {V L}. Arguments r_counts {V L}.

Section Run.
  Context {Circ V O : Type}.
  (** execute of the backend, the stochastic simulation, and the empty array of innsbruck_01.py:91 *)
  Variables (execute : Circ -> res V) (stochastic : backend -> Circ -> res (list O)) (empty : V).
  (** tnsim.py:39-56, misim.py:36-52, innsbruck_01.py:80-93 (run): the backend afterwards and the result of the
      job, or the exception.  innsbruck_01.py:95-102: execute of Innsbruck01 gives no outcomes. *)
  Definition run (b : backend) (c : Circ) (opts : options) : backend * res (jresult V (list O)) :=
    let b1 := load b opts in
    (b1,
     match b_kind b with
     | Innsbruck01 =>
         let? ok := at_least_50 (b_shots b1) in
         let? _ := assert ok in
         Ok (JResult empty [])
     | _ =>
         match b_noise b1 with
         | VNone => let? v := execute c in Ok (JResult v [])
         | _ =>
             let? ok := at_least_50 (b_shots b1) in
             let? _ := assert ok in
             let? v := execute c in
             let? ns := stochastic b1 c in
             Ok (JResult v ns)
         end
     end).
End Run.
