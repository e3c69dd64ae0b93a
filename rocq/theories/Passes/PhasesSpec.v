(** What the phase passes are expected to preserve. *)
From Coq Require Import List ZArith Bool Reals.
From Verif.Base Require Import Py Cplx Matrix Radix.
From Verif.Circuit Require Import GateModel.
From Verif.Gates Require Import FactoryModel FactorySpec SingleModel.
From Verif.Lanes Require Import LanesSpec.
From Verif.Passes Require Import PhasesModel.
Import ListNotations.
Local Open Scope nat_scope.

(** The circuit of matrices a list of gate objects stands for (the object numbers play no role). *)
Definition as_circuit (l : list (gate pay)) : list (nat * gate mat) := map (fun g => (0, lower g)) l.

(** A rotation or virtual phase gate that the constructors accept for a qudit of dimension d. *)
Definition rotation_or_phase (d : nat) (k : kind) : Prop :=
  match k with
  | KR r => lev_a r < lev_b r < d
  | KVirtRz l _ => l < d
  | _ => False
  end.
(** An uncontrolled, undaggered R or VirtRz gate on line t of the register. *)
Definition line_gate (dims : list nat) (t : nat) (g : gate pay) : Prop :=
  t < List.length dims /\ g_type g = SINGLE /\ g_target g = TInt (Z.of_nat t) /\ g_controls g = None /\ g_dagger g = false /\
  p_dims (g_data g) = inl (nth t dims 0) /\ rotation_or_phase (nth t dims 0) (p_kind (g_data g)).
Definition is_R (g : gate pay) : bool := match p_kind (g_data g) with KR _ => true | _ => false end.
Definition is_VirtRz (g : gate pay) : bool := match p_kind (g_data g) with KVirtRz _ _ => true | _ => false end.

(** [part] cuts 0, 1, ..., n-1 into the maximal runs of equal target lines. *)
Record runs (l : list (gate pay)) (part : list (list nat)) : Prop := {
  run_cover : concat part = seq 0 (List.length l);
  run_nonempty : forall iv, In iv part -> iv <> [];
  run_equal : forall iv i j gi gj, In iv part -> In i iv -> In j iv ->
    nth_error l i = Some gi -> nth_error l j = Some gj -> target_lines gi = target_lines gj;
  run_maximal : forall p iv iv' q i j gi gj, part = p ++ iv :: iv' :: q -> In i iv -> In j iv' ->
    nth_error l i = Some gi -> nth_error l j = Some gj -> target_lines gi <> target_lines gj
}.

(** The gate fits the register: uncontrolled, on different lines of the register; a phase gate has the
    levels its constructor checks. *)
Definition phase_levels (d : nat) (k : kind) : Prop :=
  match k with KVirtRz l _ => l < d | KRz a b _ => a < d /\ b < d /\ a <> b | _ => True end.
Definition placed_gate (dims : list nat) (g : gate pay) : Prop :=
  well_placed dims (lower g) /\ plain (lower g) /\
  (is_phase g = true -> exists t, g_target g = TInt (Z.of_nat t) /\ t < List.length dims /\
     p_dims (g_data g) = inl (nth t dims 0) /\ phase_levels (nth t dims 0) (p_kind (g_data g))).

(** The probability of reading basis state x when the unitary u is applied to |0...0>. *)
Definition probability (u : mat) (x : nat) : C := Cmul (u x 0) (Cconj (u x 0)).
(** Both circuits have a unitary and give the same measurement statistics. *)
Definition same_statistics (dims : list nat) (l l' : list (gate pay)) : Prop :=
  exists u u', circuit_matrix dims (as_circuit l) = Ok u /\ circuit_matrix dims (as_circuit l') = Ok u' /\
  forall x, x < prodl dims -> probability u x = probability u' x.

(** l' is l with some gates satisfying P left out. *)
Inductive deletes {A} (P : A -> Prop) : list A -> list A -> Prop :=
| del_nil : deletes P [] []
| del_keep : forall x l l', deletes P l l' -> deletes P (x :: l) (x :: l')
| del_drop : forall x l l', P x -> deletes P l l' -> deletes P (x :: l) l'.

(** No phase gate comes first (last) on its line: before (after) it some other gate acts on the line. *)
Definition no_leading_phase (l : list (gate pay)) : Prop :=
  forall p g q t, l = p ++ g :: q -> is_phase g = true -> g_target g = TInt t -> exists h, In h p /\ In t (target_lines h).
Definition no_trailing_phase (l : list (gate pay)) : Prop :=
  forall p g q t, l = p ++ g :: q -> is_phase g = true -> g_target g = TInt t -> exists h, In h q /\ In t (target_lines h).

(** The entries of l at the positions marked true. *)
Fixpoint select {A} (keep : list bool) (l : list A) : list A :=
  match keep, l with
  | k :: ks, x :: r => if k then x :: select ks r else select ks r
  | _, _ => []
  end.
(** Position i holds a phase gate on one line t, and every gate before (after) it on line t is such a gate too. *)
Definition phase_on (t : Z) (g : gate pay) : Prop := is_phase g = true /\ g_target g = TInt t.
Definition leads_line (l : list (gate pay)) (i : nat) : Prop :=
  exists g t, nth_error l i = Some g /\ phase_on t g /\
  forall j h, j < i -> nth_error l j = Some h -> In t (target_lines h) -> phase_on t h.
Definition trails_line (l : list (gate pay)) (i : nat) : Prop :=
  exists g t, nth_error l i = Some g /\ phase_on t g /\
  forall j h, i < j -> nth_error l j = Some h -> In t (target_lines h) -> phase_on t h.
(** All target lines belong to a register of [num] lines. *)
Definition in_register (num : nat) (l : list (gate pay)) : Prop :=
  forall g t, In g l -> In t (target_lines g) -> (0 <= t < Z.of_nat num)%Z.
