(** C31 and C32: the phase passes. *)
From Coq Require Import List ZArith Reals Bool Lia Lra.
From Verif.Base Require Import Py Cplx Matrix Radix.
From Verif.Circuit Require Import GateModel.
From Verif.Gates Require Import AnglesModel SingleModel FactoryModel FactorySpec.
From Verif.Lanes Require Import LanesSpec.
From Verif.Levels Require Import LevelsModel.
From Verif.Passes Require Import PhasesModel PhasesSpec PhasesProofs IntervalProofs RemovalProofs StatsProofs WitnessProofs.
Import ListNotations.
Local Open Scope nat_scope.

(** C31: find_intervals cuts the instruction list into its maximal runs of equal target lines. *)
Theorem C31_intervals_are_runs : forall l : list (gate pay),
  (forall g, In g l -> target_lines g <> []) -> runs l (find_intervals l).
Proof. exact find_intervals_runs. Qed.
Print Assumptions C31_intervals_are_runs.

(** C31: propagate_z on a line of R and VirtRz gates of one qudit returns rotations, as many as the line
    had, and one VirtRz per level in level order; run in the order the pass puts them (phases first when
    moving to the front, last when moving to the back) they have the unitary of the line. *)
Theorem C31_propagation_preserves_unitary : forall (dims : list nat) (num t : nat) (line : list (gate pay)) (back : bool),
  (forall d, In d dims -> 0 < d) -> line <> [] -> (forall g, In g line -> line_gate dims t g) ->
  exists rots zs, propagate_z num dims line back = Ok (rots, zs) /\
    (forall g, In g rots -> line_gate dims t g /\ is_R g = true) /\
    List.length rots = List.length (filter is_R line) /\
    List.length zs = nth t dims 0 /\
    (forall i g, nth_error zs i = Some g -> line_gate dims t g /\ exists ph, p_kind (g_data g) = KVirtRz i ph) /\
    same_unitary dims (as_circuit line) (as_circuit (if back then zs ++ rots else rots ++ zs)).
Proof.
  intros dims num t line back pos. exact (propagate_line dims pos num t line back).
Qed.
Print Assumptions C31_propagation_preserves_unitary.

(** C31: the pass keeps the unitary of a circuit whose gates are all on one line. *)
Theorem C31_remove_z_one_line : forall (dims : list nat) (num t : nat) (l : list (gate pay)) (back : bool),
  (forall d, In d dims -> 0 < d) -> (forall g, In g l -> line_gate dims t g) ->
  exists l', remove_z num dims l back = Ok l' /\ same_unitary dims (as_circuit l) (as_circuit l').
Proof. intros dims num t l back pos. exact (remove_z_single_line dims pos num t l back). Qed.
Print Assumptions C31_remove_z_one_line.

(** C31: ... and leaves no phase gate among the rotations. *)
Theorem C31_remove_z_separates : forall (dims : list nat) (num t : nat) (l : list (gate pay)) (back : bool) l',
  (forall d, In d dims -> 0 < d) -> 1 < List.length l -> (forall g, In g l -> line_gate dims t g) ->
  remove_z num dims l back = Ok l' -> exists rots zs, l' = (if back then zs ++ rots else rots ++ zs) /\
    Forall (fun g => is_R g = true) rots /\ List.length rots = List.length (filter is_R l) /\
    List.length zs = nth t dims 0 /\ (forall i g, nth_error zs i = Some g -> exists ph, p_kind (g_data g) = KVirtRz i ph).
Proof. intros dims num t l back l' pos. exact (remove_z_shape dims pos num t l back l'). Qed.
Print Assumptions C31_remove_z_separates.

(** C31: a circuit without two neighbours on the same lines is returned as it is. *)
Theorem C31_remove_z_no_neighbours : forall num dims (l : list (gate pay)) back,
  (forall g, In g l -> target_lines g <> []) ->
  (forall i g h, nth_error l i = Some g -> nth_error l (S i) = Some h -> target_lines g <> target_lines h) ->
  remove_z num dims l back = Ok l.
Proof. exact remove_z_neighbours. Qed.
Print Assumptions C31_remove_z_no_neighbours.

(** C31 is violated by circuits with two runs, although all gates are R gates on qubits. *)
Theorem C31_two_runs_refuted : exists (l l' : list (gate pay)),
  (forall g, In g l -> exists t, line_gate [2; 2] t g) /\
  remove_z 2 [2; 2] l false = Ok l' /\ ~ same_unitary [2; 2] (as_circuit l) (as_circuit l').
Proof.
  destruct two_lines_wrong as (l' & E & H). exists two_lines, l'. split; [|split; assumption].
  intros g [<-|[<-|[<-|[<-|[]]]]]; [exists 0|exists 0|exists 1|exists 1]; apply rgate_line; cbn; auto.
Qed.
Print Assumptions C31_two_runs_refuted.

(** C31: the pass takes no account of daggers and controls ... *)
Theorem C31_flags_ignored : forall num dims (line : list (gate pay)) back,
  propagate_z num dims (map (fun g => Gate (g_name g) (g_type g) (g_target g) None false (g_long g) (g_data g)) line) back =
  propagate_z num dims line back.
Proof. exact propagate_bare. Qed.
Print Assumptions C31_flags_ignored.
(** ... so that it changes the unitary of a line with daggered gates. *)
Theorem C31_daggered_refuted : exists (l l' : list (gate pay)),
  (forall g, In g l -> exists h, line_gate [2] 0 h /\ g = dag h) /\
  remove_z 1 [2] l false = Ok l' /\ ~ same_unitary [2] (as_circuit l) (as_circuit l').
Proof.
  destruct dagger_ignored as (l' & E & H). exists daggered, l'. split; [|split; assumption].
  intros g [<-|[<-|[]]]; eexists; (split; [|reflexivity]); apply rgate_line; cbn; auto.
Qed.
Print Assumptions C31_daggered_refuted.

(** C31: gates of other classes inside a run are dropped. *)
Theorem C31_other_gates_refuted : exists (l l' : list (gate pay)),
  (forall g, In g l -> well_placed [2] (lower g) /\ plain (lower g)) /\
  remove_z 1 [2] l false = Ok l' /\ ~ same_unitary [2] (as_circuit l) (as_circuit l').
Proof.
  destruct others_dropped as (l' & E & H). exists with_x, l'. split; [|split; assumption].
  intros g [<-|[<-|[]]]; (split; [|split; [reflexivity|left; split; [reflexivity|eexists; reflexivity]]]);
    (split; [discriminate|]; split; [repeat constructor; intros []|]; split; [intros t [<-|[]]; cbn; lia|exact I]).
Qed.
Print Assumptions C31_other_gates_refuted.

(** C32: for every circuit the result is the circuit with some phase gates (Rz, VirtRz, Z) left out. *)
Theorem C32_only_phases_deleted : forall num (l : list (gate pay)),
  deletes (fun g => is_phase g = true) l (zremoval_transpile num l).
Proof. exact transpile_deletes. Qed.
Print Assumptions C32_only_phases_deleted.

(** C32: the initial pass deletes exactly the phase gates before the first other gate of their line ... *)
Theorem C32_initial_exactly : forall num (l : list (gate pay)), in_register num l ->
  exists keep, List.length keep = List.length l /\ remove_rz_gates num l false = select keep l /\
  forall i, i < List.length l -> (nth i keep true = false <-> leads_line l i).
Proof. exact initial_exact. Qed.
Print Assumptions C32_initial_exactly.
(** ... and the final pass exactly those after the last other gate of their line. *)
Theorem C32_trailing_exactly : forall num (l : list (gate pay)), in_register num l ->
  exists keep, List.length keep = List.length l /\ remove_rz_gates num l true = select keep l /\
  forall i, i < List.length l -> (nth i keep true = false <-> trails_line l i).
Proof. exact trailing_exact. Qed.
Print Assumptions C32_trailing_exactly.
(** C32: nothing is left to remove. *)
Theorem C32_complete : forall num (l : list (gate pay)), in_register num l ->
  no_leading_phase (zremoval_transpile num l) /\ no_trailing_phase (zremoval_transpile num l).
Proof. exact transpile_complete. Qed.
Print Assumptions C32_complete.

(** C32: the measurement statistics of a circuit of uncontrolled gates do not change. *)
Theorem C32_same_statistics : forall (dims : list nat) (l : list (gate pay)),
  (forall d, In d dims -> 0 < d) -> (forall g, In g l -> placed_gate dims g) ->
  same_statistics dims l (zremoval_transpile (List.length dims) l).
Proof. intros dims l pos. exact (transpile_stats dims pos l). Qed.
Print Assumptions C32_same_statistics.
Theorem C32_same_statistics_each : forall (dims : list nat) (l : list (gate pay)) (reverse : bool),
  (forall d, In d dims -> 0 < d) -> (forall g, In g l -> placed_gate dims g) ->
  same_statistics dims l (remove_rz_gates (List.length dims) l reverse).
Proof. intros dims l rv pos. exact (remove_stats dims pos l rv). Qed.
Print Assumptions C32_same_statistics_each.

(** C31, C32: the phase gates of the passes are the diagonal gates the user wrote: VirtRz(l, f) turns level l by -f,
    Rz(a, b, f) turns level a by -f/2 and level b by f/2, Z turns level k by 2 pi k / d. *)
Theorem C32_phase_gates : forall (d i j : nat), i < d -> j < d ->
  (forall (l : nat) (f : R), l < d ->
     pay_array (Pay (inl d) (KVirtRz l f)) i j = (if Nat.eqb i j then if Nat.eqb i l then cis (- f)%R else C1 else C0)) /\
  (forall (a b : nat) (f : R), a < d -> b < d -> a <> b ->
     pay_array (Pay (inl d) (KRz a b f)) i j =
       (if Nat.eqb i j then if Nat.eqb i a then cis (- (f / 2))%R else if Nat.eqb i b then cis (f / 2)%R else C1 else C0)) /\
  pay_array (Pay (inl d) KZ) i j = (if Nat.eqb i j then cis (2 * PI * INR i / INR d)%R else C0).
Proof. exact phase_gate_entries. Qed.
Print Assumptions C32_phase_gates.

(** C32 is violated by controlled phase gates: the control line is not looked at. *)
Theorem C32_controlled_refuted : exists l : list (gate pay),
  (forall g, In g l -> well_placed [2; 2] (lower g)) /\ ~ same_statistics [2; 2] l (zremoval_transpile 2 l).
Proof.
  exists guarded. split; [|exact controlled_wrong]. intros g [<-|[<-|[<-|[]]]]; [|apply cphase_placed|];
    (split; [discriminate|]; split; [repeat constructor; intros []|]; split; [intros t [<-|[]]; cbn; lia|exact I]).
Qed.
Print Assumptions C32_controlled_refuted.

(** *** the hypotheses are met *)
Definition line3 : list (gate pay) :=
  [ Gate "VRz" SINGLE (TInt 1) None false false (Pay (inl 3) (KVirtRz 1 (PI / 3)));
    Gate "R" SINGLE (TInt 1) None false false (Pay (inl 3) (KR (Rot 0 1 PI (PI / 5) 0 1)));
    Gate "VRz" SINGLE (TInt 1) None false false (Pay (inl 3) (KVirtRz 2 (PI / 7)));
    Gate "R" SINGLE (TInt 1) None false false (Pay (inl 3) (KR (Rot 1 2 (PI / 4) 0 1 2))) ].
Example C31_case_line : (forall d, In d [2; 3] -> 0 < d) /\ (forall g, In g line3 -> line_gate [2; 3] 1 g).
Proof.
  split; [intros d [<-|[<-|[]]]; lia|]. intros g [<-|[<-|[<-|[<-|[]]]]]; unfold line_gate; cbn; repeat split; lia.
Qed.
Example C31_case_intervals : find_intervals (line3 ++ [rgate 0 PI] ++ line3) = [[0; 1; 2; 3]; [4]; [5; 6; 7; 8]].
Proof. reflexivity. Qed.
Example C31_case_neighbours : exists l : list (gate pay), List.length l = 3 /\ (forall g, In g l -> target_lines g <> []) /\
  (forall i g h, nth_error l i = Some g -> nth_error l (S i) = Some h -> target_lines g <> target_lines h).
Proof.
  exists [rgate 0 PI; rgate 1 PI; rgate 0 PI]. split; [reflexivity|]. split; [intros g [<-|[<-|[<-|[]]]]; discriminate|].
  intros [|[|[|i]]] g h; cbn; try congruence; intros E1 E2; injection E1 as <-; injection E2 as <-; discriminate.
Qed.
Definition measured : list (gate pay) :=
  line3 ++ [Gate "Z" SINGLE (TInt 0) None false false (Pay (inl 2) KZ);
            Gate "CX" TWO (TList [0%Z; 1%Z]) None false false (Pay (inr [2; 3]) (KOther mid));
            Gate "Rz" SINGLE (TInt 1) None true false (Pay (inl 3) (KRz 0 2 PI)); rgate 0 PI].
Example C32_case_placed : forall g, In g measured -> placed_gate [2; 3] g.
Proof.
  assert (W : forall (g : gate mat), (exists t, g_target g = TInt (Z.of_nat t) /\ t < 2) -> g_controls g = None -> g_type g = SINGLE -> well_placed [2; 3] g /\ plain g).
  { intros g (t & T & L) Cn Ty. split.
    - unfold well_placed, target_lines. rewrite T, Cn. split; [discriminate|]. split; [repeat constructor; intros []|]. split; [intros x [<-|[]]; cbn; lia|exact I].
    - split; [exact Cn|]. left. split; [exact Ty|eexists; exact T]. }
  assert (P1 : forall n k dg, phase_levels 3 k -> placed_gate [2; 3] (Gate n SINGLE (TInt 1) None dg false (Pay (inl 3) k))).
  { intros n k dg L. destruct (W (lower (Gate n SINGLE (TInt 1) None dg false (Pay (inl 3) k)))) as [W1 W2]; [exists 1; cbn; auto|reflexivity|reflexivity|].
    split; [exact W1|]. split; [exact W2|]. intros _. exists 1. cbn. auto. }
  assert (P0 : forall n k, phase_levels 2 k -> placed_gate [2; 3] (Gate n SINGLE (TInt 0) None false false (Pay (inl 2) k))).
  { intros n k L. destruct (W (lower (Gate n SINGLE (TInt 0) None false false (Pay (inl 2) k)))) as [W1 W2]; [exists 0; cbn; auto|reflexivity|reflexivity|].
    split; [exact W1|]. split; [exact W2|]. intros _. exists 0. cbn. auto. }
  intros g [<-|[<-|[<-|[<-|[<-|[<-|[<-|[<-|[]]]]]]]]]; try (apply P1; cbn; lia); try (apply P0; cbn; lia).
  split; [|split].
  - split; [discriminate|]. split; [repeat constructor; cbn; intuition discriminate|]. split; [intros t [<-|[<-|[]]]; cbn; lia|exact I].
  - split; [reflexivity|]. right. split; [discriminate|]. exists [0%Z; 1%Z]. split; [reflexivity|]. split; [discriminate|]. repeat constructor; cbn; intuition discriminate.
  - discriminate.
Qed.
Example C32_case_result : map g_name (zremoval_transpile 2 measured) = ["R"; "VRz"; "R"; "CX"; "R"]%string.
Proof. reflexivity. Qed.
