(** Generation of noisy circuits.
    Source: src/mqt/qudits/simulation/noise_tools/noisy_circuit_factory.py.

    The random generator is an argument: [draw k ps] is the index that the k-th call of rng.choice returns
    for the probabilities ps.  The matrices of the gates play no role here; of an instruction only what the
    factory reads is kept: its tag, the number of qudits of its parent circuit, and the levels of a two-level
    gate. *)
From Coq Require Import Reals Rdefinitions.
From Verif.Base Require Import Py.
From Verif.Circuit Require Import GateModel.
From Verif.Gates Require Import SingleModel.
From Verif.Noise Require Import NoiseModel.
Local Open Scope list_scope.
Local Open Scope nat_scope.

(** two_levels: lev_a and lev_b for instances of R, Rz, Rh and CEx, None for the other classes (line 72). *)
Record idata := IData { qasm_tag : string; two_levels : option (Z * Z); parent_qudits : nat }.
Notation instr := (gate idata).

(** The gates added by circuit.py:296-306 (x, z) and 273-285 (noisex, noisey, noisez): qudit and levels. *)
Inductive inserted :=
| IX (dit : Z) | IZ (dit : Z) | INoiseX (dit a b : Z) | INoiseY (dit a b : Z) | INoiseZ (dit l : Z).
(** An instruction of the noisy circuit: a copy of an original one or an added one. *)
Inductive entry := Orig (g : instr) | Ins (i : inserted).

Section Factory.
Variable draw : nat -> list R -> nat.

(** A computation that uses the random generator: the number of calls so far is threaded through. *)
Definition rnd (A : Type) := nat -> res (A * nat).
Definition ret {A} (a : A) : rnd A := fun k => Ok (a, k).
Definition fail {A} (e : exn) : rnd A := fun _ => Err e.
Definition bind {A B} (m : rnd A) (f : A -> rnd B) : rnd B := fun k => match m k with Ok (a, k') => f a k' | Err e => Err e end.
(** The gates added by each element of a list, in order. *)
Fixpoint each {X A} (f : X -> rnd (list A)) (l : list X) : rnd (list A) :=
  match l with [] => ret [] | x :: r => bind (f x) (fun a => bind (each f r) (fun b => ret (a ++ b))) end.

(** rng.choice(..., p=ps): numpy refuses negative probabilities.  The probabilities of this file add up to 1. *)
Fixpoint any_negative (ps : list R) : bool :=
  match ps with [] => false | p :: r => if Rlt_dec p 0 then true else any_negative r end.
Definition choice (ps : list R) : rnd nat := fun k => if any_negative ps then Err ValueError else Ok (draw k ps, S k).

(** Lines 175-186: the mathematical noise of one qudit.  The i-th element of product(range(dim), repeat=2) is
    (i // dim, i % dim). *)
Definition math_probs (p : R) (dim : nat) : list R :=
  let each := (p / INR dim / INR dim)%R in
  (1 - each * INR (dim * dim - 1))%R :: repeat each (dim * dim - 1).
Definition math_dit (dims : list nat) (n : noise) (dit : Z) : rnd (list inserted) :=
  match pyindex dims dit with
  | Err e => fail e
  | Ok 0 => fail ZeroDivisionError
  | Ok dim => bind (choice (math_probs (p_depol n) dim)) (fun i => ret (repeat (IX dit) (i / dim) ++ repeat (IZ dit) (i mod dim)))
  end.

(** Line 194 and 240. *)
Definition in_levels (dim : nat) (l : Z) : bool := ((0 <=? l) && (l <? Z.of_nat dim))%Z.
(** Lines 193-218: the physical noise of one qudit in one subspace.  noise_x.py:68-72: the constructors assert
    that the levels are in range and differ. *)
Definition sub_probs (p : R) : list R := let each := (p / 4)%R in (1 - 3 * each)%R :: repeat each 3.
Definition sub_pair (dim : nat) (dit : Z) (e : (Z * Z) * noise) : rnd (list inserted) :=
  let '((a, b), n) := e in
  if negb (in_levels dim a && in_levels dim b) then fail IndexError
  else bind (choice (sub_probs (p_depol n))) (fun i =>
    match i with
    | 1 => ret [INoiseZ dit b]
    | 2 => if check_levels dim a b then ret [INoiseX dit a b] else fail AssertionError
    | 3 => if check_levels dim a b then ret [INoiseY dit a b] else fail AssertionError
    | _ => ret []
    end).
(** Lines 172-218 (_apply_depolarizing_noise) *)
Definition sub_dit (dims : list nat) (t : table) (dit : Z) : rnd (list inserted) :=
  match pyindex dims dit with Err e => fail e | Ok dim => each (sub_pair dim dit) t end.

(** Lines 239-262: the levels outside the subspace, in ascending order (the order of the Python set). *)
Definition other_levels (dim : nat) (a b : Z) : list Z :=
  filter (fun l => negb (l =? a) && negb (l =? b))%Z (map Z.of_nat (seq 0 dim)).
(** Lines 255-262: one level. *)
Definition dephase_level (dit : Z) (n : noise) (l : Z) : rnd (list inserted) :=
  bind (choice [p_deph n; (1 - p_deph n)%R]) (fun i => ret (match i with 0 => [INoiseZ dit l] | _ => [] end)).
Definition dephase_pair (dim : nat) (dit : Z) (e : (Z * Z) * noise) : rnd (list inserted) :=
  let '((a, b), n) := e in
  if negb (in_levels dim a && in_levels dim b) then fail IndexError
  else each (dephase_level dit n) (other_levels dim a b).
(** Lines 220-262 (_apply_dephasing_noise) *)
Definition dephase_dit (dims : list nat) (t : table) (dit : Z) : rnd (list inserted) :=
  match pyindex dims dit with Err e => fail e | Ok dim => each (dephase_pair dim dit) t end.

(** Lines 113-170: the qudits of a mode. *)
Definition affected (g : instr) (mode : string) : res (list Z) :=
  if String.eqb mode "local" then reference_lines g
  else if String.eqb mode "all" then Ok (map Z.of_nat (seq 0 (parent_qudits (g_data g))))
  else if String.eqb mode "nonlocal" then match g_type g with SINGLE => Err ValueError | _ => reference_lines g end
  else if String.eqb mode "control" then
    match g_type g with
    | TWO => match g_target g with TInt _ => Err TypeError | TList ts => Ok (firstn 1 ts) end
    | _ => Err ValueError
    end
  else if String.eqb mode "target" then
    match g_type g with
    | SINGLE => match g_target g with TInt t => Ok [t] | TList _ => Err TypeError end
    | _ => let? ls := reference_lines g in Ok (tl ls)
    end
  else Err ValueError.

(** Lines 51-96 (_dynamic_subspace_noise_info_rectification, _needs_correction) *)
Definition rectify (t : table) (g : instr) : res table :=
  match t with
  | [((a, b), n)] =>
      if ((a <? 0) || (b <? 0))%Z then
        match two_levels (g_data g) with
        | Some (la, lb) => new_subspace (p_depol n) (p_deph n) (LPair (la, lb))
        | None => Ok t
        end
      else Ok t
  | _ => Ok t
  end.

(** Lines 102-111: one mode of one instruction. *)
Definition apply_mode (dims : list nat) (h : list table) (g : instr) (mv : string * value) : rnd (list inserted) :=
  let '(mode, v) := mv in
  match affected g mode with
  | Err e => fail e
  | Ok qudits =>
      match v with
      | Math n => each (math_dit dims n) qudits
      | Sub a =>
          match nth_error h a with
          | None => fail AttributeError (* not reachable: every object of a model is on the heap *)
          | Some t =>
              match rectify t g with
              | Err e => fail e
              | Ok t' => bind (each (sub_dit dims t') qudits) (fun x => bind (each (dephase_dit dims t') qudits) (fun y => ret (x ++ y)))
              end
          end
      end
  end.
(** Lines 98-111 (_apply_noise) *)
Definition apply_noise (dims : list nat) (m : state) (g : instr) : rnd (list inserted) :=
  match sget (errors m) (qasm_tag (g_data g)) with
  | None => ret []
  | Some modes => each (apply_mode dims (heap m) g) modes
  end.
(** Lines 38-49 (generate_circuit): the instructions of the noisy circuit. *)
Definition generate (dims : list nat) (m : state) (gs : list instr) : rnd (list entry) :=
  each (fun g => bind (apply_noise dims m g) (fun l => ret (Orig g :: map Ins l))) gs.
End Factory.
