(** Specification for controls and the long-range flag. *)
From Verif Require Import Base.Py.
From Verif Require Import Circuit.GateModel.

(** A control specification for a gate on [targets] in a circuit with dimension list [dims] is
    legal: one level per control, the controls are different lines of the circuit, none of them
    a target, and each level is a level of the qudit it controls. *)
Definition legal_controls (dims : list nat) (targets indices states : list Z) : Prop :=
  List.length states = List.length indices /\ NoDup indices /\
  (forall i, In i indices -> ~ In i targets) /\
  (forall k i c, nth_error indices k = Some i -> nth_error states k = Some c ->
     (0 <= i)%Z /\ exists d, nth_error dims (Z.to_nat i) = Some d /\ (0 <= c < Z.of_nat d)%Z) .

(** A set of lines spans non-neighbouring lines: some unused line lies strictly between two
    used ones. *)
Definition spans_gap (lines : list Z) : Prop :=
  exists a m b, In a lines /\ In b lines /\ (a < m < b)%Z /\ ~ In m lines.

Definition gate_lines {A} (g : gate A) : list Z :=
  (match g_controls g with Some (i, _) => i | None => [] end) ++
  (match g_target g with TInt t => [t] | TList ts => ts end).
