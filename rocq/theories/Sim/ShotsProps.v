(** Properties of stochastic simulation (C41, C66).  The vocabulary is in ShotsSpec.v.
    The worker of a chunk [pid], the time of a measurement [ms], the mixing of both into a seed and the generator
    are arbitrary: the theorems hold for every schedule. *)
From Coq Require Import Reals Lra Lia.
From Verif.Base Require Import Py Cplx.
From Verif.Sim Require Import BackendModel ShotsModel ShotsSpec ShotsProofs.
Local Open Scope list_scope.
Local Open Scope nat_scope.

(** ** C41: one outcome per shot *)

Theorem C41_one_outcome_per_shot : forall (S : Type) seed uniform pid ms (noisy_tn : S -> res (vec * S)) noisy_mi procs s0 b z rs,
  0 < procs -> b_shots b = VInt z -> stochastic_simulation seed uniform pid ms noisy_tn noisy_mi procs s0 b = Ok rs -> List.length rs = Z.to_nat z.
Proof. exact @sim_length. Qed.
Print Assumptions C41_one_outcome_per_shot.

(** In particular the counts of a noisy run() are as many as the shots asked for. *)
Theorem C41_run_counts : forall (Circ V S : Type) (execute : Circ -> res V) empty seed uniform pid ms (noisy_tn : backend -> Circ -> S -> res (vec * S)) noisy_mi procs s0 b c opts z r,
  0 < procs -> b_kind b <> Innsbruck01 -> b_noise (load b opts) <> VNone -> b_shots (load b opts) = VInt z ->
  snd (run execute (fun b c => stochastic_simulation seed uniform pid ms (noisy_tn b c) (noisy_mi b c) procs s0 b) empty b c opts) = Ok r ->
  List.length (r_counts r) = Z.to_nat z /\ (50 <= z)%Z.
Proof. exact @run_counts. Qed.
Print Assumptions C41_run_counts.

(** Every outcome belongs to a state that a noisy execution gave: the state itself, or the index of a basis state
    that has a non-zero amplitude in it. *)
Theorem C41_possible_outcomes : forall (S : Type) seed uniform pid ms (noisy_tn : S -> res (vec * S)) noisy_mi procs s0 b z rs,
  unit_interval uniform -> tensor_network (b_kind b) -> 0 < procs -> b_shots b = VInt z ->
  stochastic_simulation seed uniform pid ms noisy_tn noisy_mi procs s0 b = Ok rs -> forall i, i < Z.to_nat z ->
  exists v, stream noisy_tn s0 (i mod chunksize (Z.to_nat z) procs) = Ok v /\ outcome_of (truthy (b_full b)) v (nth i rs (OIndex 0)).
Proof. exact @sim_outcomes_tn. Qed.
Print Assumptions C41_possible_outcomes.
Theorem C41_possible_outcomes_misim : forall (S : Type) seed uniform pid ms (noisy_tn : S -> res (vec * S)) noisy_mi procs s0 b z rs,
  unit_interval uniform -> b_kind b = MISim -> 0 < procs -> b_shots b = VInt z ->
  stochastic_simulation seed uniform pid ms noisy_tn noisy_mi procs s0 b = Ok rs -> forall i, i < Z.to_nat z ->
  exists v, noisy_mi i = Ok v /\ outcome_of (truthy (b_full b)) v (nth i rs (OIndex 0)).
Proof. exact @sim_outcomes_mi. Qed.
Print Assumptions C41_possible_outcomes_misim.

(** When a flag of a backend (full_state_memory and the like) counts as set. *)
Theorem C41_flags : forall v, truthy v = false <-> v = VNone \/ v = VInt 0 \/ v = VBool false \/ v = VStr ""%string.
Proof. exact truthy_iff. Qed.
Print Assumptions C41_flags.

(** The Born rule: the outcome is i exactly when the uniform number lies in the i-th of consecutive intervals whose
    lengths are the squared amplitudes. *)
Theorem C41_born_rule : forall seed uniform, unit_interval uniform -> forall v p t i, normalised v -> i < List.length v ->
  measure_state seed uniform p t v = Ok i <->
  (sum_upto (map Cnorm2 v) i <= uniform (seed p t) < sum_upto (map Cnorm2 v) i + Cnorm2 (nth i v C0))%R.
Proof. exact measure_iff. Qed.
Print Assumptions C41_born_rule.

(** If every noisy execution gives a unit vector, the simulation returns, whatever the number of shots and workers. *)
Theorem C41_returns : forall (S : Type) seed uniform pid ms (noisy_tn : S -> res (vec * S)) noisy_mi procs s0 b z,
  b_kind b <> Innsbruck01 -> b_shots b = VInt z ->
  (forall s, exists v s', noisy_tn s = Ok (v, s') /\ normalised v) -> (forall i, exists v, noisy_mi i = Ok v /\ normalised v) ->
  exists rs, stochastic_simulation seed uniform pid ms noisy_tn noisy_mi procs s0 b = Ok rs.
Proof. exact @sim_returns. Qed.
Print Assumptions C41_returns.

(** The saved file has one row per shot, in order. *)
Theorem C41_saved : forall b rs, truthy (b_path b) = true -> truthy (b_file b) = true ->
  (truthy (b_full b) = true -> save_results b rs = Some (States rs)) /\
  (truthy (b_full b) = false -> truthy (b_memory b) = true -> exists rows, save_results b rs = Some (Shots rows) /\
     map fst rows = seq 0 (List.length rs) /\ map snd rows = rs).
Proof. exact saved_spec. Qed.
Print Assumptions C41_saved.
Theorem C41_not_saved : forall b rs, truthy (b_full b) = false /\ truthy (b_memory b) = false \/ truthy (b_path b) = false \/ truthy (b_file b) = false ->
  save_results b rs = None.
Proof. exact not_saved. Qed.
Print Assumptions C41_not_saved.

(** ** C66: independent noise per shot *)

(** Violation: with tensor-network backends and at most four shots per processor, all shots see the same noise: the
    final states are all equal, whatever the noise model and the generator. *)
Theorem C66_same_noise_refuted : forall (S : Type) seed uniform pid ms (noisy_tn : S -> res (vec * S)) noisy_mi procs s0 b z rs i j,
  tensor_network (b_kind b) -> b_shots b = VInt z -> truthy (b_full b) = true -> Z.to_nat z <= procs * 4 ->
  stochastic_simulation seed uniform pid ms noisy_tn noisy_mi procs s0 b = Ok rs ->
  i < Z.to_nat z -> j < Z.to_nat z -> nth i rs (OIndex 0) = nth j rs (OIndex 0).
Proof. exact @sim_all_same. Qed.
Print Assumptions C66_same_noise_refuted.

(** For more shots the noise repeats with the period of the chunks of multiprocessing, at most one more than a
    quarter of the shots per processor. *)
Theorem C66_periodic_noise_refuted : forall (S : Type) seed uniform pid ms (noisy_tn : S -> res (vec * S)) noisy_mi procs s0 b z rs i j,
  tensor_network (b_kind b) -> 0 < procs -> b_shots b = VInt z -> truthy (b_full b) = true ->
  stochastic_simulation seed uniform pid ms noisy_tn noisy_mi procs s0 b = Ok rs -> i < Z.to_nat z -> j < Z.to_nat z ->
  i mod chunksize (Z.to_nat z) procs = j mod chunksize (Z.to_nat z) procs -> nth i rs (OIndex 0) = nth j rs (OIndex 0).
Proof. exact @sim_repeats. Qed.
Print Assumptions C66_periodic_noise_refuted.

(** Violation: shots that one worker measures within the same millisecond give the same outcome. *)
Theorem C66_same_outcome_refuted : forall (S : Type) seed uniform pid ms (noisy_tn : S -> res (vec * S)) noisy_mi procs s0 b z rs i j,
  tensor_network (b_kind b) -> b_shots b = VInt z -> Z.to_nat z <= procs * 4 ->
  stochastic_simulation seed uniform pid ms noisy_tn noisy_mi procs s0 b = Ok rs -> i < Z.to_nat z -> j < Z.to_nat z ->
  pid i = pid j -> ms i = ms j -> nth i rs (OIndex 0) = nth j rs (OIndex 0).
Proof. exact @sim_same_outcome. Qed.
Print Assumptions C66_same_outcome_refuted.

(** Two processors, ten shots: chunks of two; a generator whose state counts the shots and flips a qubit at every
    second one.  The states alternate although the parent's generator never advances. *)
Section Case.
Let up : vec := [C1; C0].
Let down : vec := [C0; C1].
Let noisy (s : nat) : res (vec * nat) := Ok (if Nat.even s then up else down, S s).
Let b := load (init TNSim []) [("shots"%string, VInt 10); ("full_state_memory"%string, VBool true)].
Let run := stochastic_simulation (fun p t => (p + t)%Z) (fun _ => 0%R) (fun _ => 1%Z) (fun _ => 2%Z) noisy (fun _ => Ok up) 2 0 b.
Example C66_case : run = Ok [OState up; OState down; OState up; OState down; OState up; OState down; OState up; OState down; OState up; OState down].
Proof. reflexivity. Qed.
Example C66_case_independent : stream noisy 0 1 = Ok down /\ stream noisy 0 2 = Ok up /\ tensor_network (b_kind b) /\ chunksize 10 2 = 2.
Proof. repeat split; discriminate. Qed.
Example C41_case_interval : unit_interval (fun _ => 0%R) /\ normalised up /\ possible up 0.
Proof. split; [intros s; lra|]. split; [unfold normalised, up, Cnorm2; cbn; ring|]. split; [cbn; lia|]. cbn. intros H. injection H. lra. Qed.
Example C41_case : exists rs, stochastic_simulation (fun p t => (p + t)%Z) (fun _ => 0%R) (fun _ => 1%Z) (fun _ => 2%Z) noisy (fun _ => Ok up) 2 0 (load (init TNSim []) [("shots"%string, VInt 10)]) = Ok rs /\ List.length rs = 10.
Proof.
  edestruct (C41_returns nat (fun p t => (p + t)%Z) (fun _ => 0%R) (fun _ => 1%Z) (fun _ => 2%Z) noisy (fun _ => Ok up) 2 0 (load (init TNSim []) [("shots"%string, VInt 10)]) 10) as [rs E].
  - discriminate.
  - reflexivity.
  - intros s. unfold noisy. destruct (Nat.even s); eexists _, _; (split; [reflexivity|unfold normalised, up, down, Cnorm2; cbn; ring]).
  - intros i. eexists. split; [reflexivity|]. unfold normalised, up, Cnorm2. cbn. ring.
  - exists rs. split; [exact E|]. apply (C41_one_outcome_per_shot _ _ _ _ _ _ _ 2 _ _ 10 _) in E; [exact E|lia|reflexivity].
Qed.
Example C41_case_run : b_noise (load (init FakeIonTraps2Six []) []) <> VNone /\ b_shots (load (init FakeIonTraps2Six []) []) = VInt 50.
Proof. split; [discriminate|reflexivity]. Qed.
End Case.
