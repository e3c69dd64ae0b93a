(** What the lanes of a circuit are expected to satisfy.  A circuit is its list of gate objects. *)
From Coq Require Import List ZArith Bool.
From Verif Require Import Base.Py Base.Cplx Base.Matrix Base.Radix.
From Verif Require Import Circuit.GateModel Gates.FactoryModel.
Import ListNotations.

Section Spec.
Context {A : Type}.
Definition on_line (t : Z) (o : nat * gate A) : bool := existsb (Z.eqb t) (target_lines (snd o)).
(** the gates of the circuit on line t, in order *)
Definition line_ops (t : Z) (l : list (nat * gate A)) : list (nat * gate A) := filter (on_line t) l.
Definition local (o : nat * gate A) : bool := is_single (g_type (snd o)).
(** the entangling gates of the circuit, in order *)
Definition entangling (l : list (nat * gate A)) : list (nat * gate A) := filter (fun o => negb (local o)) l.

(** An uncontrolled gate as the library builds it: a single-qudit gate has one line, any other gate
    has a list of different lines. *)
Definition plain (g : gate A) : Prop :=
  g_controls g = None /\
  ((g_type g = SINGLE /\ exists t, g_target g = TInt t) \/
   (g_type g <> SINGLE /\ exists ts, g_target g = TList ts /\ ts <> [] /\ NoDup ts)).

Definition disjoint_ops (o1 o2 : nat * gate A) : Prop :=
  forall t, on_line t o1 = true -> on_line t o2 = true -> False.
(** the same program up to exchanging neighbours that share no line *)
Inductive swaps : list (nat * gate A) -> list (nat * gate A) -> Prop :=
| sw_refl : forall l, swaps l l
| sw_swap : forall p x y q, disjoint_ops x y -> swaps (p ++ x :: y :: q) (p ++ y :: x :: q)
| sw_trans : forall a b c, swaps a b -> swaps b c -> swaps a c.

(** [g] are the runs of a line: non-empty, in order, an entangling gate stands alone, other groups
    consist of local gates, and no two groups of local gates are neighbours *)
Definition all_local (g : list (nat * gate A)) : Prop := forall o, In o g -> local o = true.
Record grouping (line : list (nat * gate A)) (gs : list (list (nat * gate A))) : Prop := {
  gr_concat : concat gs = line;
  gr_nonempty : forall g, In g gs -> g <> [];
  gr_kind : forall g, In g gs -> all_local g \/ exists o, g = [o] /\ local o = false;
  gr_maximal : forall p g1 g2 q, gs = p ++ g1 :: g2 :: q -> ~ (all_local g1 /\ all_local g2)
}.

(** o' comes right after o on line t *)
Definition next_on (t : Z) (l : list (nat * gate A)) (o o' : nat * gate A) : Prop :=
  exists p q, line_ops t l = p ++ o :: o' :: q.
End Spec.

(** The unitary of a circuit: the product of the gate matrices on the whole register, the first gate
    rightmost. *)
Fixpoint circuit_matrix (dims : list nat) (l : list (nat * gate mat)) : res mat :=
  match l with
  | [] => Ok mid
  | o :: r => let? a := generate_matrix dims 2 (snd o) in
              let? b := circuit_matrix dims r in Ok (mmul (prodl dims) b a)
  end.
(** both circuits have a unitary and it is the same *)
Definition same_unitary (dims : list nat) (l1 l2 : list (nat * gate mat)) : Prop :=
  exists u1 u2, circuit_matrix dims l1 = Ok u1 /\ circuit_matrix dims l2 = Ok u2 /\ meq (prodl dims) u1 u2.
