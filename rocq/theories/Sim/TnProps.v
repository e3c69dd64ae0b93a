(** Properties of the simulators' state vectors (C67, C68).  The vocabulary is in TnSpec.v and Gates/FactorySpec.v. *)
From Coq Require Import List ZArith Arith Reals Lra Lia.
From Verif Require Import Base.Py Base.Cplx Base.Matrix Base.Radix Circuit.GateModel Gates.FactoryModel Gates.FactorySpec Gates.ActsOn.
From Verif Require Import Sim.TnModel Sim.TnSpec Sim.TnProofs.
Import ListNotations.
Local Open Scope nat_scope.

(** ** C67: the tensor network simulator computes the action of the circuit on |0...0> *)

(** If the simulation returns, the state is |0...0> after every gate of the circuit in turn. *)
Theorem C67_final_state : forall dims gs v, register dims -> (forall g, In g gs -> well_placed dims g /\ fits g) ->
  execute dims gs = Ok v -> evolves dims (ket 0) gs v.
Proof. exact execute_evolves. Qed.
Print Assumptions C67_final_state.

(** There is only one such state. *)
Theorem C67_determined : forall dims gs, (forall g, In g gs -> well_placed dims g) ->
  forall psi phi phi', evolves dims psi gs phi -> evolves dims psi gs phi' -> veq (prodl dims) phi phi'.
Proof. exact evolves_unique. Qed.
Print Assumptions C67_determined.

(** It is a unit vector if the gates are unitary. *)
Theorem C67_normalised : forall dims gs v, register dims -> (forall g, In g gs -> well_placed dims g /\ fits g /\ unitary_gate dims g) ->
  execute dims gs = Ok v -> norm2 (prodl dims) v = 1%R.
Proof. exact execute_norm. Qed.
Print Assumptions C67_normalised.

(** The simulation returns exactly if every gate has a matrix; without controls it always does. *)
Theorem C67_returns_exactly_when : forall dims gs, register dims -> (forall g, In g gs -> well_placed dims g /\ fits g) ->
  ((exists v, execute dims gs = Ok v) <-> forall g, In g gs -> exists A, generate_matrix dims 1 g = Ok A).
Proof. exact execute_returns. Qed.
Print Assumptions C67_returns_exactly_when.
Theorem C67_uncontrolled_returns : forall dims gs, register dims -> (forall g, In g gs -> well_placed dims g /\ fits g /\ g_controls g = None) ->
  exists v, execute dims gs = Ok v.
Proof. exact uncontrolled_returns. Qed.
Print Assumptions C67_uncontrolled_returns.

(** Gates as the constructor makes them have a type and a flag that fit. *)
Theorem C67_new_gates_fit : forall num dims name t tg ctl data g, new_gate num dims name t tg ctl data = Ok g ->
  match t with SINGLE => exists q, tg = TInt q | TWO => exists a b, tg = TList [a; b] | MULTI => True end -> fits g.
Proof. exact new_gate_fits. Qed.
Print Assumptions C67_new_gates_fit.

(** Violation: a gate that control() was called on keeps its old long-range flag ... *)
Theorem C67_control_keeps_the_flag_refuted : forall (A : Type) num dims (g : gate A) c lv g', g_type g = SINGLE -> (exists q, g_target g = TInt q) ->
  control num dims g [c] lv = (g', None) -> lv <> [] -> g_type g' = TWO /\ g_long g' = g_long g.
Proof. exact @control_stale. Qed.
Print Assumptions C67_control_keeps_the_flag_refuted.
(** ... and no circuit with such a gate over a line in between can be simulated. *)
Theorem C67_distant_control_refuted : forall dims g gs l m q, register dims -> (forall d, In d dims -> 1 < d) -> In g gs -> g_type g = TWO -> g_long g = false -> all_lines g = [l; m] ->
  (0 <= l /\ 0 <= m /\ Z.of_nat q <> l /\ Z.of_nat q <> m)%Z -> (Z.min l m < Z.of_nat q < Z.max l m)%Z -> (Z.max l m < Z.of_nat (List.length dims))%Z ->
  forall v, execute dims gs <> Ok v.
Proof. exact gap_fails. Qed.
Print Assumptions C67_distant_control_refuted.

(** ** C68: the order of the decision diagram simulator's amplitudes *)

(** The amplitude of a basis state is the one the decision diagram has for the state with the lines in reverse order. *)
Theorem C68_amplitudes : forall dims state xs, valid dims xs ->
  reverse_axes dims state (undigits dims xs) = state (undigits (rev dims) (rev xs)).
Proof. exact reverse_entry. Qed.
Print Assumptions C68_amplitudes.
(** Nothing is lost: reversing twice gives the vector back. *)
Theorem C68_invertible : forall dims state, veq (prodl dims) (reverse_axes (rev dims) (reverse_axes dims state)) (fun k => state k).
Proof. exact reverse_twice. Qed.
Print Assumptions C68_invertible.
Example C68_case : map (fun k => undigits [3; 2] (rev (digits [2; 3] k))) [0; 1; 2; 3; 4; 5] = [0; 2; 4; 1; 3; 5].
Proof. reflexivity. Qed.

(** A register of a qutrit and two qubits; a controlled not between qutrit and last qubit, as the constructor makes it. *)
Section Case.
Let not2 : mat := fun i j => if Nat.eqb (i + j) 1 then C1 else C0.
Let inc3 : mat := fun i j => if Nat.eqb i ((j + 1) mod 3) then C1 else C0.
Let dims := [3; 2; 2].
Let g0 : gate mat := Gate "X" SINGLE (TInt 0) None false false inc3.
Let g1 : gate mat := Gate "X" TWO (TInt 2) (Some ([0], [1]))%Z false true not2.
Let g2 : gate mat := Gate "X" TWO (TInt 2) (Some ([0], [1]))%Z false false not2.
Example C67_case_new : new_gate 3 dims "X" SINGLE (TInt 2) (Some ([0], [1]))%Z not2 = Ok g1.
Proof. reflexivity. Qed.
Example C67_case_placed : register dims /\ forall g, In g [g0; g1] -> well_placed dims g /\ fits g.
Proof.
  split; [split; [discriminate|intros d [<-|[<-|[<-|[]]]]; lia]|]. intros g [<-|[<-|[]]]; (split; [split; [discriminate|]; split; [repeat constructor; intros []|]; split|]).
  - intros t [<-|[]]. cbn. lia.
  - exact I.
  - exists 0%Z. reflexivity.
  - intros t [<-|[]]. cbn. lia.
  - split; [discriminate|]. intros c [<-|[]]. split; [cbn; lia|]. intros [E|[]]. discriminate E.
  - exists 0%Z, 2%Z. split; [reflexivity|discriminate].
Qed.
(** |000> becomes |100>, then |101>: index 5 of 12. *)
Example C67_case_run : exists v, execute dims [g0; g1] = Ok v /\ v 5 = C1 /\ v 4 = C0 /\ v 0 = C0.
Proof.
  eexists. split; [reflexivity|]. repeat split; (apply Ceq; cbv -[Rplus Rmult Ropp Rminus IZR]; ring).
Qed.
Example C67_case_stale : forall v, execute dims [g0; g2] <> Ok v.
Proof.
  apply (C67_distant_control_refuted dims g2 [g0; g2] 0 2 1); [apply C67_case_placed| |right; now left|reflexivity|reflexivity|reflexivity|cbn; lia..].
  intros d [<-|[<-|[<-|[]]]]; lia.
Qed.
End Case.
