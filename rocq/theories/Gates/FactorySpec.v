(** What the matrix of a gate inside a register should be.
    A basis state of a register with dimension list [dims] has one digit per line, most
    significant line first (Base/Radix.v: [digits], [undigits], [prodl]). *)
From Coq Require Import List ZArith Arith.
From Verif Require Import Base.Cplx Base.Matrix Base.Radix.

Definition digit (dims : list nat) (k i : nat) : nat := nth i (digits dims k) 0%nat.

(** the index of the target part of basis state k *)
Definition sub_dims (dims ts : list nat) : list nat := map (fun t => nth t dims 0%nat) ts.
Definition sub_index (dims ts : list nat) (k : nat) : nat :=
  undigits (sub_dims dims ts) (map (digit dims k) ts).

(** basis states r and c have the same digits on all lines outside ts *)
Definition agree_off (dims ts : list nat) (r c : nat) : Prop :=
  forall i, (i < List.length dims)%nat -> ~ In i ts -> digit dims r i = digit dims c i.

(** in basis state k every control line is at its level *)
Definition controls_on (dims cs : list nat) (lv : list Z) (k : nat) : Prop :=
  map (fun c => Z.of_nat (digit dims k c)) cs = lv.

(** [A] is the matrix, on the whole register, of [M] applied to the lines [ts] when the lines
    [cs] are at the levels [lv], and of the identity otherwise. *)
Record acts_on (dims ts cs : list nat) (lv : list Z) (M A : mat) : Prop := {
  ao_active : forall r c, (r < prodl dims)%nat -> (c < prodl dims)%nat ->
    agree_off dims ts r c -> controls_on dims cs lv r -> A r c = M (sub_index dims ts r) (sub_index dims ts c);
  ao_idle : forall r c, (r < prodl dims)%nat -> (c < prodl dims)%nat ->
    agree_off dims ts r c -> ~ controls_on dims cs lv r -> A r c = mid r c;
  ao_off : forall r c, (r < prodl dims)%nat -> (c < prodl dims)%nat ->
    ~ agree_off dims ts r c -> A r c = C0
}.

(** lines are different lines of the register *)
Definition lines_ok (dims ts : list nat) : Prop := NoDup ts /\ forall t, In t ts -> (t < List.length dims)%nat.

(** The gate sits properly in the register: non-empty, distinct targets inside the register; its
    controls, if any, are lines of the register different from the targets. *)
From Verif Require Import Circuit.GateModel.
Import ListNotations.
Definition well_placed (dims : list nat) (g : gate mat) : Prop :=
  target_lines g <> [] /\ NoDup (target_lines g) /\
  (forall t, In t (target_lines g) -> (0 <= t < Z.of_nat (List.length dims))%Z) /\
  match g_controls g with
  | Some (cs, _) => cs <> [] /\ forall c, In c cs -> (0 <= c < Z.of_nat (List.length dims))%Z /\ ~ In c (target_lines g)
  | None => True
  end.
Definition target_nats (g : gate mat) : list nat := map Z.to_nat (target_lines g).
Definition control_nats (g : gate mat) : list nat := match g_controls g with Some (cs, _) => map Z.to_nat cs | None => [] end.
Definition control_levels (g : gate mat) : list Z := match g_controls g with Some (_, lv) => lv | None => [] end.

(** the matrix the gate stands for: its array, conjugate transposed if the gate is daggered *)
Definition core (g : gate mat) : mat := if g_dagger g then madj (g_data g) else g_data g.

(** the vector (as a list of n entries) of basis state k *)
Definition is_ket (n k : nat) (v : list nat) : Prop :=
  List.length v = n /\ forall i, (i < n)%nat -> nth i v 0%nat = if Nat.eqb i k then 1%nat else 0%nat.
