(** Noise descriptions: the table of a subspace noise and the noise model of a backend.
    Source: src/mqt/qudits/simulation/noise_tools/noise.py.

    Noise objects are never mutated by the modelled code and are values.  SubspaceNoise objects are
    mutated and shared: they are addresses into a heap of tables. *)
From Coq Require Import Reals.
From Verif.Base Require Import Py.
Local Open Scope list_scope.

(** noise.py:4-12 (Noise): depolarizing and dephasing probability. *)
Record noise := Noise { p_depol : R; p_deph : R }.

(** noise.py:24: dict[tuple[int, int], Noise] *)
Definition pair_eqb (x y : Z * Z) : bool := ((fst x =? fst y) && (snd x =? snd y))%Z.
Notation table := (list ((Z * Z) * noise)).

(** noise.py:58-79 (SubspaceNoise.add_noise) *)
Definition add_noise (t : table) (a b : Z) (n : noise) : res table :=
  let '(a, b) := if (b <? a)%Z then (b, a) else (a, b) in
  if (a =? b)%Z then Err ValueError
  else if dmem pair_eqb t (a, b) then Err ValueError
  else if (((a <? 0) || (b <? 0)) && negb (Z.of_nat (List.length t) =? 0))%Z then Err ValueError
  else if existsb (fun e => (fst (fst e) <? 0) && (snd (fst e) <? 0))%Z t then Err ValueError
  else Ok (dset pair_eqb t (a, b) n).

(** noise.py:81-83 (SubspaceNoise.add_noises): the table afterwards and the exception, if any. *)
Fixpoint add_noises (t : table) (l : table) : table * option exn :=
  match l with
  | [] => (t, None)
  | ((a, b), n) :: r => match add_noise t a b n with Ok t' => add_noises t' r | Err e => (t, Some e) end
  end.

(** noise.py:18-49 (SubspaceNoise.__init__): a tuple or a list of tuples. *)
Inductive levels := LPair (ab : Z * Z) | LList (l : list (Z * Z)).
Definition new_subspace (pd pf : R) (ls : levels) : res table :=
  let n := Noise pd pf in
  match ls with
  | LPair (a, b) => add_noise [] a b n
  | LList [] => add_noise [] (-2) (-1) n
  | LList l => match add_noises [] (map (fun ab => (ab, n)) l) with (t, None) => Ok t | (_, Some e) => Err e end
  end.

(** noise.py:89-90: quantum_errors: dict[str, dict[str, Noise | SubspaceNoise]] *)
Inductive value := Math (n : noise) | Sub (addr : nat).
Record state := State { heap : list table; errors : list (string * list (string * value)) }.
Notation sget := (dget String.eqb).
Notation sset := (dset String.eqb).
Definition set_heap (h : list table) (a : nat) (t : table) : list table := firstn a h ++ t :: skipn (S a) h.

(** noise.py:101-116: the body of the loop over the gates. *)
Definition add_to_gate (s : state) (v : value) (mode gate : string) : state * option exn :=
  let errs := if dmem String.eqb (errors s) gate then errors s else sset (errors s) gate [] in
  let d := match sget errs gate with Some d => d | None => [] end in
  match sget d mode with
  | None => (State (heap s) (sset errs gate (sset d mode v)), None)
  | Some old =>
      match v, old with
      | Math _, _ => (State (heap s) errs, Some ValueError)
      | Sub _, Math _ => (State (heap s) errs, Some AssertionError)
      | Sub a, Sub e =>
          match nth_error (heap s) e, nth_error (heap s) a with
          | Some te, Some ta =>
              let '(te', x) := add_noises te ta in (State (set_heap (heap s) e te') errs, x)
          | _, _ => (State (heap s) errs, Some AttributeError)
          end
      end
  end.
(** noise.py:92-116 (NoiseModel._add_quantum_error), called with the modes "local", "all", "nonlocal",
    "target" and "control" by noise.py:118-136. *)
Fixpoint add_error (s : state) (v : value) (gates : list string) (mode : string) : state * option exn :=
  match gates with
  | [] => (s, None)
  | g :: r => match add_to_gate s v mode g with (s', None) => add_error s' v r mode | (s', Some e) => (s', Some e) end
  end.

(** noise.py:138-141 (basis_gates) *)
Definition basis_gates (s : state) : list string := map fst (errors s).

(** What a user does: create SubspaceNoise objects, change them, add noise to the model. *)
Inductive call :=
| CNew (pd pf : R) (ls : levels)
| CAddNoise (addr : nat) (a b : Z) (n : noise)
| CAddError (v : value) (gates : list string) (mode : string).
Definition run_call (s : state) (c : call) : state * option exn :=
  match c with
  | CNew pd pf ls => match new_subspace pd pf ls with Ok t => (State (heap s ++ [t]) (errors s), None) | Err e => (s, Some e) end
  | CAddNoise x a b n =>
      match nth_error (heap s) x with
      | Some t => match add_noise t a b n with Ok t' => (State (set_heap (heap s) x t') (errors s), None) | Err e => (s, Some e) end
      | None => (s, Some AttributeError)
      end
  | CAddError v gates mode => add_error s v gates mode
  end.
Definition new_model : state := State [] [].
Fixpoint run_calls (s : state) (l : list call) : state :=
  match l with [] => s | c :: r => run_calls (fst (run_call s c)) r end.
