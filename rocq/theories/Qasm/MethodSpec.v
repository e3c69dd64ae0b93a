(** The gate methods of a circuit: what a gate has to record of the call that made it. *)
From Coq Require Import String List ZArith Reals.
From Verif Require Import Base.Py Gates.SingleModel Qasm.QasmModel Circuit.CircuitModel Circuit.GateModel.
Import ListNotations.
Local Open Scope string_scope.

(** method, name of the gate in program text, does it act on one qudit, does it take controls *)
Definition methods : list (string * string * bool * bool) :=
  [("x", "x", true, true); ("z", "z", true, true); ("h", "h", true, true); ("s", "s", true, true);
   ("r", "rxy", true, true); ("rz", "rz", true, true); ("rh", "rh", true, true); ("virtrz", "virtrz", true, true);
   ("noisex", "noisex", true, true); ("noisey", "noisey", true, true); ("pm", "pm", true, false);
   ("cu_one", "cuone", true, true); ("cu_two", "cutwo", false, true); ("cu_multi", "cumulti", false, true);
   ("csum", "csum", false, false); ("randu", "rdu", false, false); ("cx", "cx", false, false);
   ("ls", "ls", false, false); ("ms", "ms", false, false)].
(** the dimensions of the lines of the gate, in the order of the lines *)
Definition dims_of (dims : list nat) (q : target) (ds : list nat) : Prop :=
  match q with
  | TInt t => exists d, pyindex dims t = Ok d /\ ds = [d]
  | TList ts => Forall2 (fun t d => pyindex dims t = Ok d) ts ds
  end.
(** controls given as empty lists are no controls *)
Definition controls_given (takes : bool) (ctl : option (list Z * list Z)) : option (list Z * list Z) :=
  match takes, ctl with
  | true, Some (i :: is, s :: ss) => Some (i :: is, s :: ss)
  | _, _ => None
  end.
(** the parameters [p] of a call of [m] are recorded as [r] *)
Definition recorded {Arr} (m : string) (p r : @parg Arr) : Prop :=
  if existsb (String.eqb m) ["x"; "z"; "h"; "s"; "csum"; "randu"] then r = ANone
  else if existsb (String.eqb m) ["pm"; "cu_one"; "cu_two"; "cu_multi"; "ls"; "ms"] then r = p
  else match p with
       | AList l => r = p \/ (m = "virtrz" /\ r = ANone)
       | _ => r = if String.eqb m "cx" then AList [PInt 0; PInt 1; PInt 1; PFloat 0%R] else ANone
       end.
(** the levels of a two-level gate on a qudit of dimension d *)
Definition two_levels (d : nat) (a b : Z) : Prop := (0 <= a < Z.of_nat d)%Z /\ (0 <= b < Z.of_nat d)%Z /\ a <> b.
(** the methods whose first two parameters are levels, and how many angles follow them *)
Definition level_methods : list (string * nat) := [("r", 2); ("rz", 1); ("rh", 0); ("noisex", 0); ("noisey", 0)]%nat.
(** parameters with at least [k] angles *)
Fixpoint angles (k : nat) (l : list param) : Prop :=
  match k, l with
  | O, _ => True
  | S k, PFloat _ :: l => angles k l
  | S _, _ => False
  end.
