(** Vocabulary for whole circuits compiled by the physical two-qudit pass (C84). *)
From Coq Require Import Reals List ZArith.
From Verif.Base Require Import Py Cplx Matrix.
From Verif.Gates Require Import TwoModel TwoSpec.
From Verif.Levels Require Import LevelsModel LevelsSpec.
From Verif.Local Require Import QrModel QrSpec.
From Verif.Ent Require Import BlockModel BlockSpec PassModel PassSpec.
Import ListNotations.
Local Open Scope nat_scope.

(** Every two-qudit gate becomes what [P] says, everything else stays in place. *)
Inductive each_two (P : twogate -> list eout -> Prop) : list einstr -> list eout -> Prop :=
| et_nil : each_two P [] []
| et_other n c o : each_two P c o -> each_two P (EOther n :: c) (EKeep n :: o)
| et_two g l c o : P g l -> each_two P c o -> each_two P (ETwo g :: c) (l ++ o).
(** A two-qudit gate on two lines of the device, in increasing order, placed by p0 and p1. *)
Record on_lines (gs : list lgraph) (g : twogate) (p0 p1 : nat -> nat) : Prop := {
  ol_order : tw_q0 g < tw_q1 g;
  ol_dims : 2 <= tw_dc g /\ 2 <= tw_dt g;
  ol_first : exists h, nth_error gs (tw_q0 g) = Some h /\ laid_out (tw_dc g) h p0;
  ol_second : exists h, nth_error gs (tw_q1 g) = Some h /\ laid_out (tw_dt g) h p1;
  ol_gate : match tw_op g with TCex x _ => cex_fits (tw_dc g) (tw_dt g) x | TMat U => unitary (tw_dc g * tw_dt g) U end }.
(** What a gate becomes, [gates] being the pass that knows nothing of the device: a CEx one CEx, on the physical levels
    if the target levels keep their order or sin phi = 0; any other gate the gates of that pass. *)
Definition put_out (gates : nat -> nat -> mat -> res (list egate)) (gs : list lgraph) (g : twogate) (o : list eout) : Prop :=
  match tw_op g with
  | TCex x _ => exists y M M', o = [ENewCex (tw_q0 g) (tw_q1 g) y] /\ cex_fits (tw_dc g) (tw_dt g) y /\
      cex_array (tw_dc g) (tw_dt g) true x = Ok M /\ cex_array (tw_dc g) (tw_dt g) true y = Ok M' /\
      forall p0 p1, on_lines gs g p0 p1 ->
        (relabelled (tw_dc g) (tw_dt g) true p0 p1 M M' <-> p1 (cx_a x) < p1 (cx_b x) \/ sin (cx_phi x) = 0%R)
  | TMat U => exists l, o = map (EGate (tw_q0 g) (tw_q1 g)) l /\ gates (tw_dc g) (tw_dt g) U = Ok l
  end.
(** Some two-qudit gate of the circuit that is not a CEx acts on the line. *)
Definition touched (c : list einstr) (line : nat) : Prop :=
  exists g U, In (ETwo g) c /\ tw_op g = TMat U /\ (line = tw_q0 g \/ line = tw_q1 g).
