(** Model of the gate object: targets, controls, type, dagger flag, long-range flag.
    Source: src/mqt/qudits/quantum_circuit/gate.py.

    Simplification: what the concrete gate classes add (parameters, dimensions, qasm tag, core
    matrix) is a payload of an arbitrary type [A]; the parent circuit is read only through
    [num_qudits] and [dimensions], passed as arguments. *)
From Verif Require Import Base.Py.

(** gate_types.py:7-12. *)
Inductive gtype := SINGLE | TWO | MULTI.

(** gate.py:38: target_qudits is an int or a list of ints. *)
Inductive target := TInt (t : Z) | TList (ts : list Z).

Section Gate.
Context {A : Type}.

(** gate.py:49-67: attributes.  ControlData (controls.py:7-10) is a pair of lists. *)
Record gate := Gate {
  g_name : string;
  g_type : gtype;
  g_target : target;
  g_controls : option (list Z * list Z);
  g_dagger : bool;
  g_long : bool;
  g_data : A
}.

(** gate.py:203-207 (get_control_lines). *)
Definition control_lines (g : gate) : list Z :=
  match g_controls g with Some (idx, _) => idx | None => [] end.

(** gate.py:145-152. *)
Definition target_lines (g : gate) : list Z :=
  match g_target g with TInt t => [t] | TList ts => ts end.

(** gate.py:69-80 (reference_lines); an empty list raises CircuitError. *)
Definition reference_lines (g : gate) : res (list Z) :=
  match control_lines g ++ target_lines g with
  | [] => Err CircuitError
  | l => Ok l
  end.

(** Python's sorted() on ints. *)
Fixpoint insert_sorted (x : Z) (l : list Z) : list Z :=
  match l with
  | [] => [x]
  | y :: r => if (x <=? y)%Z then x :: l else y :: insert_sorted x r
  end.
Fixpoint sortedZ (l : list Z) : list Z :=
  match l with [] => [] | x :: r => insert_sorted x (sortedZ r) end.

(** gate.py:191: any((b - a) > 1 for a, b in zip(sorted(l)[:-1], sorted(l)[1:])). *)
Definition any_gap (l : list Z) : bool :=
  existsb (fun ab => (1 <? snd ab - fst ab)%Z) (combine (removelast l) (tl l)).

(** gate.py:188-192 (check_long_range). *)
Definition check_long_range (g : gate) : res bool :=
  match reference_lines g with
  | Err e => Err e
  | Ok l => Ok (if Nat.ltb 1 (List.length l) then any_gap (sortedZ l) else false)
  end.

Definition with_controls (g : gate) (c : option (list Z * list Z)) (t : gtype) : gate :=
  {| g_name := g_name g; g_type := t; g_target := g_target g; g_controls := c;
     g_dagger := g_dagger g; g_long := g_long g; g_data := g_data g |}.

Definition is_single (t : gtype) : bool := match t with SINGLE => true | _ => false end.

(** gate.py:126: any(ctrl >= parent.dimensions[i] for i, ctrl in enumerate(ctrl_states)),
    from position [k] on; reading past the dimension list raises IndexError. *)
Fixpoint levels_beyond (dims : list nat) (k : nat) (states : list Z) : res bool :=
  match states with
  | [] => Ok false
  | c :: r =>
      match nth_error dims k with
      | None => Err IndexError
      | Some d => if (Z.of_nat d <=? c)%Z then Ok true else levels_beyond dims (S k) r
      end
  end.

(** gate.py:107-136 (control).  The gate is an object that is mutated: the result is the state
    of the gate afterwards and the exception, if one was raised.  The result of the call of
    check_long_range on line 135 is discarded by the source. *)
Definition control (num : nat) (dims : list nat) (g : gate) (indices states : list Z)
  : gate * option exn :=
  if Nat.eqb (List.length indices) 0 || Nat.eqb (List.length states) 0 then (g, None)
  else if negb (is_single (g_type g)) then (g, Some AssertionError)
  else if Nat.ltb num (List.length indices) || existsb (fun i => (Z.of_nat num <=? i)%Z) indices
  then (g, Some IndexError)
  else if existsb (fun i => existsb (Z.eqb i) (target_lines g)) indices then (g, Some IndexError)
  else
    match levels_beyond dims 0 states with
    | Err e => (g, Some e)
    | Ok true => (g, Some IndexError)
    | Ok false =>
        let n := List.length indices + List.length (target_lines g) in
        (with_controls g (Some (indices, states))
           (if Nat.eqb n 2 then TWO else if Nat.ltb 2 n then MULTI else g_type g), None)
    end.

Definition with_long (g : gate) (b : bool) : gate :=
  {| g_name := g_name g; g_type := g_type g; g_target := g_target g; g_controls := g_controls g;
     g_dagger := g_dagger g; g_long := b; g_data := g_data g |}.

(** gate.py:49-61 (Gate.__init__): controls first, then the long-range flag. *)
Definition new_gate (num : nat) (dims : list nat) (name : string) (t : gtype) (tg : target)
    (ctl : option (list Z * list Z)) (data : A) : res gate :=
  let g0 := Gate name t tg None false false data in
  let '(g1, e) := match ctl with Some (i, s) => control num dims g0 i s | None => (g0, None) end in
  match e with
  | Some e => Err e
  | None => let? b := check_long_range g1 in Ok (with_long g1 b)
  end.

(** gate.py:86-89 (dag): mutates name and flag. *)
Definition dag (g : gate) : gate :=
  {| g_name := (g_name g ++ "_dag")%string; g_type := g_type g; g_target := g_target g;
     g_controls := g_controls g; g_dagger := true; g_long := g_long g; g_data := g_data g |}.

End Gate.
Arguments gate : clear implicits.
