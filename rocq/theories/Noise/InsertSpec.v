(** What C40 says. *)
From Coq Require Import Reals.
From Verif.Base Require Import Py.
From Verif.Circuit Require Import GateModel.
From Verif.Noise Require Import NoiseModel NoiseSpec InsertModel.
Local Open Scope list_scope.

(** The original instructions inside a noisy program. *)
Fixpoint originals (l : list entry) : list instr :=
  match l with [] => [] | Orig g :: r => g :: originals r | Ins _ :: r => originals r end.
(** A program cut into original instructions, each followed by the gates inserted after it. *)
Definition assemble (blocks : list (instr * list inserted)) : list entry :=
  List.concat (map (fun b => Orig (fst b) :: map Ins (snd b)) blocks).

Definition dit_of (i : inserted) : Z :=
  match i with IX q => q | IZ q => q | INoiseX q _ _ => q | INoiseY q _ _ => q | INoiseZ q _ => q end.

(** All qudits of an instruction, controls first. *)
Definition lines (g : instr) : list Z :=
  match g_controls g with Some (c, _) => c | None => [] end ++ match g_target g with TInt t => [t] | TList ts => ts end.
(** The qudits that a mode stands for. *)
Definition selects (mode : string) (g : instr) (q : Z) : Prop :=
  (mode = "local"%string /\ In q (lines g)) \/
  (mode = "all"%string /\ (0 <= q < Z.of_nat (parent_qudits (g_data g)))%Z) \/
  (mode = "nonlocal"%string /\ g_type g <> SINGLE /\ In q (lines g)) \/
  (mode = "control"%string /\ g_type g = TWO /\ exists r, g_target g = TList (q :: r)) \/
  (mode = "target"%string /\ ((g_type g = SINGLE /\ g_target g = TInt q) \/ (g_type g <> SINGLE /\ exists p r, lines g = p :: r /\ In q r))).

(** The level pairs a subspace noise acts on: its own ones; a dynamic noise acts on the levels of the gate. *)
Definition dynamic (t : table) : Prop := exists a b n, t = [((a, b), n)] /\ (a < 0 \/ b < 0)%Z.
Definition acts_on_pair (t : table) (g : instr) (a b : Z) : Prop :=
  (dynamic t -> exists la lb, two_levels (g_data g) = Some (la, lb) /\ a = Z.min la lb /\ b = Z.max la lb) /\
  (~ dynamic t -> exists n, In ((a, b), n) t).
Definition valid_level (dims : list nat) (q l : Z) : Prop := exists d, pyindex dims q = Ok d /\ (0 <= l < Z.of_nat d)%Z.
(** Which gates a noise may insert. *)
Definition allowed (dims : list nat) (g : instr) (c : content) (i : inserted) : Prop :=
  match c, i with
  | HMath _, IX _ => True
  | HMath _, IZ _ => True
  | HSub t, INoiseX q a b => acts_on_pair t g a b /\ a <> b /\ valid_level dims q a /\ valid_level dims q b
  | HSub t, INoiseY q a b => acts_on_pair t g a b /\ a <> b /\ valid_level dims q a /\ valid_level dims q b
  | HSub t, INoiseZ q l => valid_level dims q l /\ exists a b, acts_on_pair t g a b /\ (l = b \/ (l <> a /\ l <> b))
  | _, _ => False
  end.

(** The lists of probabilities that belong to a noise: d^2 outcomes for the qudit depolarizing channel, four for
    the depolarizing channel of two levels, two for the dephasing of a level. *)
Definition probabilities_of (c : content) (ps : list R) : Prop :=
  match c with
  | HMath n => exists d, 0 < d /\ ps = (1 - p_depol n / (INR d * INR d) * (INR d * INR d - 1))%R :: repeat (p_depol n / (INR d * INR d))%R (d * d - 1)
  | HSub t => exists k n, In (k, n) t /\
      (ps = [1 - 3 * (p_depol n / 4); p_depol n / 4; p_depol n / 4; p_depol n / 4]%R \/ ps = [p_deph n; 1 - p_deph n]%R)
  end.
(** The generator always gives outcome i for four probabilities, and outcome j for two. *)
Definition always (i j : nat) (draw : nat -> list R -> nat) : Prop :=
  forall k ps, (List.length ps = 4 -> draw k ps = i) /\ (List.length ps = 2 -> draw k ps = j).
(** The errors of two levels and of one level that these outcomes stand for. *)
Definition drawn (dims : list nat) (i j : nat) (q a b : Z) (e : inserted) : Prop :=
  (i = 1 /\ e = INoiseZ q b) \/ (i = 2 /\ e = INoiseX q a b) \/ (i = 3 /\ e = INoiseY q a b) \/
  (j = 0 /\ exists l, e = INoiseZ q l /\ valid_level dims q l /\ l <> a /\ l <> b).
(** The errors that come from physical noise. *)
Definition physical (e : inserted) : Prop := match e with IX _ => False | IZ _ => False | _ => True end.

(** What the random generator guarantees: an index of the list, of positive probability. *)
Definition sum_R (ps : list R) : R := fold_right Rplus 0%R ps.
Definition fair (draw : nat -> list R -> nat) : Prop :=
  forall k ps, (forall p, In p ps -> (0 <= p)%R) -> sum_R ps = 1%R -> draw k ps < List.length ps /\ (0 < nth (draw k ps) ps 0)%R.

Definition noiseless (c : content) : Prop :=
  match c with HMath n => p_depol n = 0%R | HSub t => forall k n, In (k, n) t -> p_depol n = 0%R /\ p_deph n = 0%R end.
Definition probability (p : R) : Prop := (0 <= p <= 1)%R.

(** A noise fits a gate on some qudits: probabilities are probabilities, and every level pair exists on every
    qudit. *)
Definition fits (dims : list nat) (g : instr) (qs : list Z) (c : content) : Prop :=
  match c with
  | HMath n => probability (p_depol n) /\ forall q, In q qs -> exists d, pyindex dims q = Ok d /\ 0 < d
  | HSub t =>
      (forall k n, In (k, n) t -> probability (p_depol n) /\ probability (p_deph n)) /\
      exists t', rectify t g = Ok t' /\
      forall q, In q qs -> exists d, pyindex dims q = Ok d /\
        forall a b n, In ((a, b), n) t' -> a <> b /\ (0 <= a < Z.of_nat d)%Z /\ (0 <= b < Z.of_nat d)%Z
  end.
Definition compatible (dims : list nat) (m : state) (gs : list instr) : Prop :=
  forall g mode, In g gs -> forall v, slot m (qasm_tag (g_data g)) mode = Some v ->
    exists qs c, affected g mode = Ok qs /\ read (heap m) v = Some c /\ fits dims g qs c.
