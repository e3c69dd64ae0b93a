(** What the noise properties say. *)
From Coq Require Import Reals.
From Verif.Base Require Import Py.
From Verif.Noise Require Import NoiseModel.
Local Open Scope list_scope.

Definition dynamic (k : Z * Z) : Prop := (fst k < 0 /\ snd k < 0)%Z.
Definition explicit (k : Z * Z) : Prop := (0 <= fst k /\ 0 <= snd k)%Z.
(** Pairwise distinct ordered level pairs, and either all explicit or a single dynamic entry. *)
Definition well_formed (t : table) : Prop :=
  NoDup (map fst t) /\ (forall k, In k (map fst t) -> (fst k < snd k)%Z) /\
  ((forall k, In k (map fst t) -> explicit k) \/ exists k n, t = [(k, n)] /\ dynamic k).
(** Histories of one table: single and bulk additions, failures leave what they leave. *)
Inductive top := TAdd (a b : Z) (n : noise) | TAdds (l : table).
Definition trun (t : table) (o : top) : table :=
  match o with
  | TAdd a b n => match add_noise t a b n with Ok t' => t' | Err _ => t end
  | TAdds l => fst (add_noises t l)
  end.
Definition unmixed (a b : Z) : Prop := (a < 0 /\ b < 0 \/ 0 <= a /\ 0 <= b)%Z.
Definition top_unmixed (o : top) : Prop :=
  match o with TAdd a b _ => unmixed a b | TAdds l => forall k n, In (k, n) l -> unmixed (fst k) (snd k) end.

(** What a gate and mode hold, with the table of the object written out. *)
Inductive content := HMath (n : noise) | HSub (t : table).
Definition read (h : list table) (v : value) : option content :=
  match v with Math n => Some (HMath n) | Sub a => match nth_error h a with Some t => Some (HSub t) | None => None end end.
Definition slot (s : state) (g m : string) : option value :=
  match sget (errors s) g with Some d => sget d m | None => None end.
Definition holds (s : state) (g m : string) : option content :=
  match slot s g m with Some v => read (heap s) v | None => None end.

(** The noise model a user has in mind: every gate and mode has its own description. *)
Definition ideal := string -> string -> option content.
Definition put (i : ideal) (g m : string) (c : content) : ideal :=
  fun g' m' => if (String.eqb g' g && String.eqb m' m)%bool then Some c else i g' m'.
Definition ideal_gate (i : ideal) (c : content) (g m : string) : ideal * option exn :=
  match i g m, c with
  | None, _ => (put i g m c, None)
  | Some _, HMath _ => (i, Some ValueError)
  | Some (HMath _), HSub _ => (i, Some AssertionError)
  | Some (HSub old), HSub t => let '(t', x) := add_noises old t in (put i g m (HSub t'), x)
  end.
Fixpoint ideal_add (i : ideal) (c : content) (gates : list string) (m : string) : ideal * option exn :=
  match gates with
  | [] => (i, None)
  | g :: r => match ideal_gate i c g m with (i', None) => ideal_add i' c r m | (i', Some e) => (i', Some e) end
  end.

Definition in_use (s : state) (a : nat) : Prop := exists g m, slot s g m = Some (Sub a).
(** Calls that keep the objects of different slots separate: a SubspaceNoise object goes to one gate, only
    once, and is not changed afterwards. *)
Definition separate_call (s : state) (c : call) : Prop :=
  match c with
  | CNew _ _ _ => True
  | CAddNoise x _ _ _ => ~ in_use s x
  | CAddError (Math _) _ _ => True
  | CAddError (Sub a) gates _ => ~ in_use s a /\ a < List.length (heap s) /\ exists g, gates = [g]
  end.
Inductive separate_calls : state -> list call -> Prop :=
| sep_nil : forall s, separate_calls s []
| sep_cons : forall s c l, separate_call s c -> separate_calls (fst (run_call s c)) l -> separate_calls s (c :: l).
(** What the same calls do to the ideal model; s supplies the tables the objects have at the time. *)
Definition ideal_call (s : state) (i : ideal) (c : call) : ideal * option exn :=
  match c with
  | CAddError v gates m => match read (heap s) v with Some c => ideal_add i c gates m | None => (i, Some AttributeError) end
  | _ => (i, snd (run_call s c))
  end.
Fixpoint ideal_run (s : state) (i : ideal) (l : list call) : ideal :=
  match l with [] => i | c :: r => ideal_run (fst (run_call s c)) (fst (ideal_call s i c)) r end.
(** States reached by such calls. *)
Inductive separate_reached : state -> Prop :=
| sr_new : separate_reached new_model
| sr_call : forall s c, separate_reached s -> separate_call s c -> separate_reached (fst (run_call s c)).
