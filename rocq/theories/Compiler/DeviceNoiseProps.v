(** C107: the noise models of the fake devices.  Specification: DeviceNoiseSpec. *)
From Coq Require Import Reals List ZArith String Lia.
From Verif.Base Require Import Py Cplx Matrix.
From Verif.Circuit Require Import CircuitModel GateModel.
From Verif.Noise Require Import NoiseModel NoiseSpec InsertModel InsertSpec InsertProofs ChannelSpec.
From Verif.Sim Require Import BackendModel.
From Verif.Local Require Import QrModel.
From Verif.Ent Require Import BlockModel PassModel.
From Verif.Compiler Require Import WholeModel WholeSpec WholeMerge WholeCases ElementarySpec WholeElementary DeviceNoiseModel DeviceNoiseSpec DeviceNoiseProofs.
Import ListNotations.
Local Open Scope nat_scope.

(** Exactly the three fake traps come with a noise model; it is built without an error, and it holds exactly the listed
    rates. *)
Theorem C107_devices : forall k, device_calls k <> None <-> In k [FakeIonTraps2Trits; FakeIonTraps2Six; FakeIonTraps3Six].
Proof. intros k. destruct k; cbn; split; intros H; try discriminate; try tauto; try (exfalso; apply H; reflexivity); repeat (destruct H as [H|H]; [discriminate H|]); contradiction. Qed.
Print Assumptions C107_devices.
Theorem C107_models : forall k calls, device_calls k = Some calls -> accepted new_model calls /\ forall tag mode c,
  holds (run_calls new_model calls) tag mode = Some c <-> exists p f, rate tag mode p f /\ c = HMath (Noise p f).
Proof. intros k calls H. exact (conj (device_accepted k calls H) (device_holds k calls H)). Qed.
Print Assumptions C107_models.

(** After a gate on one qudit, one draw decides the error on it. *)
Theorem C107_after_local : forall kd calls draw dims, device_calls kd = Some calls ->
  forall g q d p f k, rate (qasm_tag (g_data g)) "local" p f -> g_controls g = None -> g_target g = TInt q -> pyindex dims q = Ok d -> 0 < d ->
  apply_noise draw dims (run_calls new_model calls) g k = Ok (weyl q d (draw k (chances p d)), S k).
Proof. exact after_local. Qed.
Print Assumptions C107_after_local.
(** After a cx, ls or ms four draws: on both qudits at 1/10, again on the second at 1/10, again on the first at 1/100. *)
Theorem C107_after_entangling : forall kd calls draw dims, device_calls kd = Some calls ->
  forall g a b da db k, In (qasm_tag (g_data g)) ["cx"; "ls"; "ms"]%string -> g_type g = TWO -> g_controls g = None -> g_target g = TList [a; b] ->
  pyindex dims a = Ok da -> pyindex dims b = Ok db -> 0 < da -> 0 < db ->
  apply_noise draw dims (run_calls new_model calls) g k =
  Ok (weyl a da (draw k (chances (1 / 10) da)) ++ weyl b db (draw (k + 1) (chances (1 / 10) db)) ++
      weyl b db (draw (k + 2) (chances (1 / 10) db)) ++ weyl a da (draw (k + 3) (chances (1 / 100) da)), k + 4).
Proof. exact after_two. Qed.
Print Assumptions C107_after_entangling.
(** After a csum: on every qudit of the circuit at 1/1000, on its first at 1/100, on both at 1/10. *)
Theorem C107_after_csum : forall kd calls draw dims g a b da db k, device_calls kd = Some calls -> qasm_tag (g_data g) = "csum"%string ->
  parent_qudits (g_data g) = List.length dims -> (forall d, In d dims -> 0 < d) ->
  g_type g = TWO -> g_controls g = None -> g_target g = TList [a; b] -> pyindex dims a = Ok da -> pyindex dims b = Ok db -> 0 < da -> 0 < db ->
  let n := List.length dims in
  apply_noise draw dims (run_calls new_model calls) g k =
  Ok (everywhere draw dims (1 / 1000) k ++ weyl a da (draw (k + n) (chances (1 / 100) da)) ++
      weyl a da (draw (k + n + 1) (chances (1 / 10) da)) ++ weyl b db (draw (k + n + 2) (chances (1 / 10) db)), k + n + 3).
Proof. exact after_csum. Qed.
Print Assumptions C107_after_csum.
(** Drawing twice, at p and then at q, depolarises at p + q - p q: after a cx, ls or ms the first qudit is depolarised at
    0.109 and the second at 0.19. *)
Theorem C107_combined : forall d p q rho, 0 < d -> meq d (depolarized d q (depolarized d p rho)) (depolarized d (p + q - p * q) rho).
Proof. exact depolarized_twice. Qed.
Print Assumptions C107_combined.
Example C107_case_rates : (1 / 10 + 1 / 100 - 1 / 10 * (1 / 100) = 109 / 1000 /\ 1 / 10 + 1 / 10 - 1 / 10 * (1 / 10) = 19 / 100)%R.
Proof. split; field. Qed.

(** Circuits compiled at any level get their noise: inserting it never fails, whatever is drawn.  Gates on three lines or
    more stay in the circuit at level O0. *)
Theorem C107_compiled_O0 : forall sp round6 det solve fuel gs c gs' out kd calls draw k, device_calls kd = Some calls ->
  (forall d, In d (dimensions c) -> 0 < d) -> (forall g, In g (instructions c) -> in_register (List.length (dimensions c)) g) ->
  whole_O0 sp round6 det solve fuel gs c = (gs', Ok out) ->
  exists noisy k', generate draw (dimensions c) (run_calls new_model calls) (map (as_instr (List.length (dimensions c))) (instructions out)) k = Ok (noisy, k').
Proof.
  intros sp round6 det solve fuel gs c gs' out kd calls draw k HD D L E. apply (noisy_circuit kd); auto.
  - intros g Hg. destruct (O0_made sp round6 det solve fuel gs c gs' out E g Hg) as [H|[_ H]]; auto.
  - exact (O0_lines sp round6 det solve fuel _ gs c gs' out E L).
Qed.
Print Assumptions C107_compiled_O0.
Theorem C107_compiled_O1 : forall sp round6 det solve fuel gs p c gs' out kd calls draw k, device_calls kd = Some calls ->
  (forall d, In d (dimensions c) -> 0 < d) -> (forall g, In g (instructions c) -> implementable (dimensions c) p g /\ type_of g <> MULTI) ->
  whole_O1 sp round6 det solve fuel gs c = (gs', Ok out) ->
  exists noisy k', generate draw (dimensions c) (run_calls new_model calls) (map (as_instr (List.length (dimensions c))) (instructions out)) k = Ok (noisy, k').
Proof.
  intros sp round6 det solve fuel gs p c gs' out kd calls draw k HD D L E. apply (noisy_circuit kd); auto.
  - intros g Hg. left. exact (O1_made sp round6 det solve fuel gs c gs' out E g Hg).
  - destruct (merged_ok (dimensions c) p (instructions c) D L) as (m & Em & Im & _).
    apply (O1_lines sp round6 det solve fuel _ gs c m gs' out Em); [|exact E]. intros h Hh. destruct (Im h Hh) as [I T]. exact (implementable_in_register _ _ _ I T).
Qed.
Print Assumptions C107_compiled_O1.
Theorem C107_compiled_O2 : forall sp round6 det solve fuel gs c gs' out kd calls draw k, device_calls kd = Some calls ->
  (forall d, In d (dimensions c) -> 0 < d) -> (forall g, In g (instructions c) -> in_register (List.length (dimensions c)) g) ->
  whole_O2 sp round6 det solve fuel gs c = (gs', Ok out) ->
  exists noisy k', generate draw (dimensions c) (run_calls new_model calls) (map (as_instr (List.length (dimensions c))) (instructions out)) k = Ok (noisy, k').
Proof.
  intros sp round6 det solve fuel gs c gs' out kd calls draw k HD D L E. apply (noisy_circuit kd); auto.
  - intros g Hg. left. exact (O2_made sp round6 det solve fuel gs c gs' out E g Hg).
  - exact (O2_lines sp round6 det solve fuel _ gs c gs' out E L).
Qed.
Print Assumptions C107_compiled_O2.

(** What the factory reads of a gate of a compiled circuit: its lines, the number of qudits, and, for noise between levels, two
    levels outside of which the gate does nothing. *)
Theorem C107_read : forall n g, let h := as_instr n g in
  g_type h = type_of g /\ g_target h = g_target (as_gate g) /\ g_controls h = None /\ parent_qudits (g_data h) = n.
Proof. intros n g. destruct g as [| [? ? ? ? []] | | ? ? [? ?] | ? ? ? ? [] |]; repeat split. Qed.
Print Assumptions C107_read.
Theorem C107_levels : forall n g q d M a b, two_levels (g_data (as_instr n g)) = Some (Z.of_nat a, Z.of_nat b) -> single g = Ok (q, d, M) -> a < b < d ->
  forall i j, i < d -> j < d -> i <> a -> i <> b -> M i j = mid i j.
Proof. intros n g q d M a b L S H i j Hi Hj Ha Hb. exact (levels_act g q d M a b i j L S H Hi Hj Ha Hb). Qed.
Print Assumptions C107_levels.
Example C107_case_levels : exists M, single (CBlock 0 1 2 3 (ELoc true (KR 0 2 1 0) false)) = Ok (1, 3, M) /\
  levels_of (CBlock 0 1 2 3 (ELoc true (KR 0 2 1 0) false)) = Some (Z.of_nat 0, Z.of_nat 2).
Proof. eexists. split; reflexivity. Qed.

(** But not every gate is covered: gates with other tags are never followed by an error, *)
Theorem C107_unlisted_refuted : forall kd calls draw dims, device_calls kd = Some calls -> forall g k,
  (forall mode p f, ~ rate (qasm_tag (g_data g)) mode p f) -> apply_noise draw dims (run_calls new_model calls) g k = Ok ([], k).
Proof. exact quiet. Qed.
Print Assumptions C107_unlisted_refuted.
(** among them the two-level Hadamard gates that the compiler itself puts into circuits: *)
Theorem C107_hadamard_refuted : forall sp round6 det solve fuel gs c gs' out q0 q1 U,
  In (CUser2 (Two q0 q1 2 2 (TMat U))) (instructions c) -> U 3 0 = C0 -> (code_eps < Cmod (U 2%nat 0%nat))%R ->
  whole_O0 sp round6 det solve fuel gs c = (gs', Ok out) ->
  exists h, In h (instructions out) /\ tag_of h = "rh"%string /\ forall kd calls draw dims n k, device_calls kd = Some calls ->
    apply_noise draw dims (run_calls new_model calls) (as_instr n h) k = Ok ([], k).
Proof.
  intros sp round6 det solve fuel gs c gs' out q0 q1 U I Z N E. exists (CBlock q0 q1 2 2 (ELoc false (KRh 0 1) true)).
  split; [exact (compiled_hadamard sp round6 det solve fuel gs c gs' out q0 q1 U I Z N E)|]. split; [reflexivity|].
  intros kd calls draw dims n k HD. exact (rh_quiet kd calls draw dims n q0 q1 2 2 false 0 1 true k HD).
Qed.
Print Assumptions C107_hadamard_refuted.
(** A circuit with a csum, cx, ls or ms gate to which controls were added (or which is of type TWO no longer) always makes
    the insertion of the noise fail. *)
Theorem C107_controlled_refuted : forall kd calls draw dims gs g k, device_calls kd = Some calls -> In g gs ->
  In (qasm_tag (g_data g)) ["csum"; "cx"; "ls"; "ms"]%string -> g_type g <> TWO ->
  forall out k', generate draw dims (run_calls new_model calls) gs k <> Ok (out, k').
Proof. exact controlled_fails. Qed.
Print Assumptions C107_controlled_refuted.
(** The dephasing rates have no effect: with any others every noisy circuit is the same. *)
Theorem C107_dephasing_refuted : forall kd calls f draw dims gs k, device_calls kd = Some calls ->
  generate draw dims (run_calls new_model (map (redephased f) calls)) gs k = generate draw dims (run_calls new_model calls) gs k.
Proof. exact dephasing_ignored. Qed.
Print Assumptions C107_dephasing_refuted.

Example C107_case_device : device_calls FakeIonTraps2Six = Some trap_calls.
Proof. reflexivity. Qed.
(** A compiled two-qudit gate on the device: an R on qudit 0 and a CEx, every draw gives the error with number 4 (on qudits
    of dimension 3: X Z). *)
Example C107_case_inserted : let g0 := CBlock 0 1 3 3 (ELoc false (KR 0 1 PI 0) false) in let g1 := CBlock 0 1 3 3 (ECex false) in
  generate (fun _ _ => 4) [3; 3] (run_calls new_model trap_calls) (map (as_instr 2) [g0; g1]) 0 =
  Ok ([Orig (as_instr 2 g0); Ins (IX 0); Ins (IZ 0); Orig (as_instr 2 g1); Ins (IX 0); Ins (IZ 0); Ins (IX 1); Ins (IZ 1); Ins (IX 1); Ins (IZ 1); Ins (IX 0); Ins (IZ 0)], 5).
Proof.
  cbn zeta. unfold generate. cbn [map each]. unfold bind.
  rewrite (after_local FakeIonTraps2Six _ _ _ eq_refl _ 0%Z 3 (1 / 1000) (1 / 1000)) by (first [constructor; cbn; tauto|reflexivity|repeat constructor]).
  unfold ret. cbv beta iota. rewrite (after_two FakeIonTraps2Six _ _ _ eq_refl _ 0%Z 1%Z 3 3) by (first [reflexivity|cbn; tauto|repeat constructor]). reflexivity.
Qed.
(** A program with such a two-qudit gate, which compiles (C93_case_same_levels). *)
Example C107_case_compiled : (forall g, In g (instructions a_program) -> in_register 2 g) /\
  exists U, U 3 0 = C0 /\ U 2 0 = C1 /\ unitary 4 U.
Proof.
  split.
  - intros g Hg. destruct (a_program_fits g Hg) as [I T]. exact (implementable_in_register [2; 2] same_levels g I T).
  - exists (fun i j => if Nat.eqb i ((j + 2) mod 4) then C1 else C0). repeat split; try reflexivity;
    intros i j Hi Hj; destruct i as [|[|[|[|i]]]]; try lia; destruct j as [|[|[|[|j]]]]; try lia; unfold mmul, madj, mid; cbn; apply Ceq; cbn; ring.
Qed.
