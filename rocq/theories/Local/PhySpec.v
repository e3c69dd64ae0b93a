(** Vocabulary for the physical adaptive compilation (C91). *)
From Coq Require Import Reals.
From Verif.Base Require Import Py Cplx Matrix.
From Verif.Levels Require Import LevelsModel LevelsSpec.
From Verif.Local Require Import QrModel QrSpec QrCore TreeModel AdaModel AdaSpec.
Local Open Scope list_scope.
Local Open Scope nat_scope.

(** The nodes are listed in order, as the constructor of the graph lists them. *)
Definition ordered (g : lgraph) : Prop := map fst (nd g) = map Z.of_nat (List.seq 0 (List.length (nd g))).
(** Each logical level is coupled to the next one. *)
Definition ladder (d : nat) (g : lgraph) : Prop := forall r, 0 < r < d -> linked g (Z.of_nat (r - 1)) (Z.of_nat r).
(** Any two logical levels are coupled. *)
Definition all_coupled (d : nat) (g : lgraph) : Prop := forall n m, n < d -> m < d -> n <> m -> linked g (Z.of_nat n) (Z.of_nat m).
(** A level graph of d levels in which no phase is stored. *)
Record usable (d : nat) (g : lgraph) : Prop := {
  us_routable : routable d g; us_covers : covers d g; us_ordered : ordered g; us_phases : no_phases g }.

(** [V] is the operator [U] of the logical levels for a qudit whose levels are placed as [before] says when V
    starts and as [after] says when it ends.  on_device d g is relocated d g g. *)
Definition relocated (d : nat) (before after : lgraph) (U V : mat) : Prop :=
  forall n m p q, n < d -> m < d -> placed after (Z.of_nat n) (Z.of_nat p) -> placed before (Z.of_nat m) (Z.of_nat q) -> V p q = U n m.

(** Each single-qudit gate U on a line whose graph is g becomes a list l of gates on that line, and g is replaced by
    g', such that [R g g' d U l]; other gates stay.  gs and gs' are the graphs of the backend before and after. *)
Inductive threaded (R : lgraph -> lgraph -> nat -> mat -> list (qop * bool) -> Prop) :
    list (option lgraph) -> list instr -> list outstr -> list (option lgraph) -> Prop :=
| th_nil gs : threaded R gs [] [] gs
| th_other gs n c o gs' : threaded R gs c o gs' -> threaded R gs (IOther n :: c) (OOther n :: o) gs'
| th_single gs line d U l g g' c o gs' : pyindex gs line = Ok (Some g) -> R g g' d U l ->
    threaded R (put_slot gs line (Some g')) c o gs' ->
    threaded R gs (ISingle line d U :: c) (map (OGate line d) l ++ o) gs'.

(** Every gate to be compiled is unitary, of at most 1000 levels, and sits on a line with a usable graph. *)
Definition adaptable (gs : list (option lgraph)) (c : list instr) : Prop :=
  forall line d U, In (ISingle line d U) c -> unitary d U /\ 0 < d <= 1000 /\ exists g, pyindex gs line = Ok (Some g) /\ usable d g.

(** What the pass makes of a gate U on a line with graph g: the graph becomes a usable g' of the same couplings, the
    gates are native and daggered, and either there are none and all levels stay in place, or they are U for a qudit
    placed as g' says when they start and as g says when they end.  The latter holds whenever each level is coupled to
    the next one and no tiny entries are met.  If all levels are coupled they stay in place. *)
Definition adapted (g g' : lgraph) (d : nat) (U : mat) (l : list (qop * bool)) : Prop :=
  usable d g' /\ same_couplings g g' /\ Forall (fun o => native g (fst o) /\ snd o = true) l /\
  (all_coupled d g -> forall n p, placed g' n p <-> placed g n p) /\
  (l = [] /\ (forall n p, placed g' n p <-> placed g n p) \/
   forall V, relocated d g' g U V -> close d (INR d * ada_error code_near code_delta d) (circuit_matrix d l) V) /\
  (ladder d g -> dust_free code_eps code_tiny d (visits d) U ->
   forall V, relocated d g' g U V -> close d (INR d * ada_error code_near code_delta d) (circuit_matrix d l) V).

(** The levels stay in place, and the gates are U on the device. *)
Definition faithful (g g' : lgraph) (d : nat) (U : mat) (l : list (qop * bool)) : Prop :=
  (forall n p, placed g' n p <-> placed g n p) /\
  forall V, on_device d g U V -> close d (INR d * ada_error code_near code_delta d) (circuit_matrix d l) V.
