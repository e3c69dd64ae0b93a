(** Properties of the compiler front end (C45) and of the mappings it records (C69).  The vocabulary is in
    DispatchSpec.v.  [compile gate_type lpmaps run_pass b c names] is QuditCompiler.compile on the backend
    [b]: it gives the backend afterwards and the compiled circuit or the exception; [run_pass] is any
    behaviour of the decomposing passes on single gates. *)
From Coq Require Import List Permutation Lia.
From Verif.Base Require Import Py Cplx Matrix.
From Verif.Circuit Require Import CircuitModel GateModel.
From Verif.Lanes Require Import LanesModel LanesSpec LanesProofs.
From Verif.Compiler Require Import DispatchModel DispatchSpec DispatchProofs.
Local Open Scope list_scope.
Local Open Scope nat_scope.

(** ** C45: the right pass for each gate, in program order *)

(** The compiled program is the old one with each gate replaced, in order, by what the last requested pass
    made for its type gives for it; gates nobody is made for are kept; the registers are kept. *)
Theorem C45_compiled_program : forall (G B : Type) (gate_type : G -> gtype) lpmaps run_pass (b : B) (c : circuit G) names b' c',
  num_qudits c <= List.length (dimensions c) ->
  compile gate_type lpmaps run_pass b c names = (b', Ok c') ->
  (forall n, In n names -> exists k, named n k) /\
  compiled gate_type (transpile_gate run_pass) (responsible names) (nobody names) b (instructions c) b' (instructions c') /\
  number_gates c' = Z.of_nat (List.length (instructions c')) /\ same_registers c' c /\
  exists ms, mappings c' = Some ms /\ mapping_for c (lpmaps b') ms.
Proof. exact (@compile_ok). Qed.
Print Assumptions C45_compiled_program.

(** It returns whenever the names are known and the passes do. *)
Theorem C45_returns_when_the_passes_do : forall (G B : Type) (gate_type : G -> gtype) lpmaps run_pass (b : B) (c : circuit G) names b' out,
  num_qudits c <= List.length (dimensions c) -> (forall n, In n names -> exists k, named n k) ->
  compiled gate_type (transpile_gate run_pass) (responsible names) (nobody names) b (instructions c) b' out ->
  exists c', compile gate_type lpmaps run_pass b c names = (b', Ok c') /\ instructions c' = out.
Proof. exact (@compile_returns). Qed.
Print Assumptions C45_returns_when_the_passes_do.

(** An unknown name anywhere in the list is refused before any gate is touched. *)
Theorem C45_unknown_name : forall (G B : Type) (gate_type : G -> gtype) lpmaps run_pass (b : B) (c : circuit G) names n,
  In n names -> (forall k, ~ named n k) -> compile gate_type lpmaps run_pass b c names = (b, Err KeyError).
Proof. exact (@compile_unknown). Qed.
Print Assumptions C45_unknown_name.

(** One pass is responsible for a type, or nobody is. *)
Theorem C45_one_pass_per_type : forall names t c d, (forall n, In n names -> exists x, named n x) ->
  responsible names t c -> responsible names t d -> c = d.
Proof. exact responsible_fun. Qed.
Print Assumptions C45_one_pass_per_type.
Theorem C45_nobody_excludes : forall names t c, responsible names t c -> ~ nobody names t.
Proof. exact responsible_not_nobody. Qed.
Print Assumptions C45_nobody_excludes.

(** So if each requested pass gives, for each gate, a program with the meaning of the gate, the compiled
    program has the meaning of the original one. *)
Theorem C45_meaning : forall (G B : Type) (gate_type : G -> gtype) run_pass (S : Type) (eqv : S -> S -> Prop) (act : G -> S -> S)
    (resp : gtype -> cls -> Prop) (none : gtype -> Prop),
  (forall s, eqv s s) -> (forall a b c, eqv a b -> eqv b c -> eqv a c) -> (forall g a b, eqv a b -> eqv (act g a) (act g b)) ->
  (forall c (b : B) g b' gs, transpile_gate run_pass c false b g = (b', Ok gs) -> resp (gate_type g) c -> forall s, eqv (run_program act gs s) (act g s)) ->
  forall b l b' out, compiled gate_type (transpile_gate run_pass) resp none b l b' out ->
  forall s s', eqv s s' -> eqv (run_program act out s) (run_program act l s').
Proof. exact (@compiled_meaning). Qed.
Print Assumptions C45_meaning.

(** Level O0. *)
Theorem C45_level_O0 : forall (G B : Type) (gate_type : G -> gtype) lpmaps run_pass (b : B) (c : circuit G) b' c',
  num_qudits c <= List.length (dimensions c) -> compile_O0 gate_type lpmaps run_pass b c = (b', Ok c') ->
  compiled gate_type (transpile_gate run_pass)
    (fun t k => (t = SINGLE /\ k = PhyLocQR) \/ (t = TWO /\ k = PhyEntQRCEX)) (fun t => t = MULTI) b (instructions c) b' (instructions c') /\
  number_gates c' = Z.of_nat (List.length (instructions c')) /\ same_registers c' c /\
  exists ms, mappings c' = Some ms /\ mapping_for c (lpmaps b') ms.
Proof. exact (@o0_ok). Qed.
Print Assumptions C45_level_O0.

(** Level O1: the local gates are merged first, then each gate is replaced. *)
Theorem C45_level_O1 : forall (G B : Type) (gate_type : G -> gtype) lpmaps run_pass resynth (b : B) (c : circuit G) b' c',
  num_qudits c <= List.length (dimensions c) -> compile_O1 gate_type lpmaps run_pass resynth b c = (b', Ok c') ->
  exists l, resynth (instructions c) = Ok l /\
  translated (transpile_gate run_pass)
    (fun g k f => f = false /\ ((gate_type g = SINGLE /\ k = PhyLocQR) \/ (gate_type g <> SINGLE /\ k = PhyEntQRCEX))) b l b' (instructions c') /\
  number_gates c' = Z.of_nat (List.length (instructions c')) /\ same_registers c' c /\
  exists ms, mappings c' = Some ms /\ mapping_for c (lpmaps b') ms.
Proof. exact (@o1_ok). Qed.
Print Assumptions C45_level_O1.

(** Level O2: the adaptive pass is told whether a local gate follows on the line. *)
Theorem C45_level_O2 : forall (G B : Type) (gate_type : G -> gtype) lpmaps run_pass lanes (b : B) (c : circuit G) b' c',
  num_qudits c <= List.length (dimensions c) -> compile_O2 gate_type lpmaps run_pass lanes b c = (b', Ok c') ->
  exists next, lanes = Ok next /\
  translated (transpile_gate run_pass)
    (fun g k f => (gate_type g = SINGLE /\ k = PhyLocAda /\ next g = Ok f) \/ (gate_type g <> SINGLE /\ k = PhyEntQRCEX /\ f = false))
    b (instructions c) b' (instructions c') /\
  number_gates c' = Z.of_nat (List.length (instructions c')) /\ same_registers c' c /\
  exists ms, mappings c' = Some ms /\ mapping_for c (lpmaps b') ms.
Proof. exact (@o2_ok). Qed.
Print Assumptions C45_level_O2.
Theorem C45_levels_meaning : forall (G B : Type) (run_pass : cls -> bool -> B -> G -> B * res (list G)) (S : Type) (eqv : S -> S -> Prop)
    (act : G -> S -> S) (who : G -> cls -> bool -> Prop),
  (forall s, eqv s s) -> (forall a b c, eqv a b -> eqv b c -> eqv a c) -> (forall g a b, eqv a b -> eqv (act g a) (act g b)) ->
  (forall c f b g b' gs, transpile_gate run_pass c f b g = (b', Ok gs) -> who g c f -> forall s, eqv (run_program act gs s) (act g s)) ->
  forall b l b' out, translated (transpile_gate run_pass) who b l b' out ->
  forall s s', eqv s s' -> eqv (run_program act out s) (run_program act l s').
Proof. exact (@translated_meaning). Qed.
Print Assumptions C45_levels_meaning.

(** The code violates the claim that a requested pass is applied: asking for one of the two phase
    optimisations makes no difference at all, wherever it stands. *)
Theorem C45_optimisations_ignored_refuted : forall (G B : Type) (gate_type : G -> gtype) lpmaps run_pass (b : B) (c : circuit G) before n after,
  n = "ZPropagationOptPass"%string \/ n = "ZRemovalOptPass"%string ->
  compile gate_type lpmaps run_pass b c (before ++ n :: after) = compile gate_type lpmaps run_pass b c (before ++ after).
Proof. exact optimisations_ignored. Qed.
Print Assumptions C45_optimisations_ignored_refuted.
(** The resynthesis, asked for last among the local passes, makes the compilation of any circuit with a
    local gate fail. *)
Theorem C45_resynthesis_refuted : forall (G B : Type) (gate_type : G -> gtype) lpmaps run_pass (b : B) (c : circuit G) names b' c',
  num_qudits c <= List.length (dimensions c) -> responsible names SINGLE NaiveLocResynth ->
  (exists g, In g (instructions c) /\ gate_type g = SINGLE) ->
  compile gate_type lpmaps run_pass b c names <> (b', Ok c').
Proof. exact (@compile_resynth_fails). Qed.
Print Assumptions C45_resynthesis_refuted.
(** Levels O1 and O2 cannot compile a circuit with a controlled gate. *)
Theorem C45_controlled_O1_refuted : forall (B : Type) lpmaps run_pass (b : B) (c : circuit (obj mat)) fresh o t,
  In o (instructions c) -> local o = false -> g_target (snd o) = TInt t ->
  compile_O1 (fun o => g_type (snd o)) lpmaps run_pass (resynth (dimensions c) fresh) b c = (b, Err TypeError).
Proof. exact controlled_O1. Qed.
Print Assumptions C45_controlled_O1_refuted.
Theorem C45_controlled_O2_refuted : forall (B : Type) lpmaps run_pass (b : B) (c : circuit (obj mat)) o t,
  In o (instructions c) -> local o = false -> g_target (snd o) = TInt t ->
  compile_O2 (fun o => g_type (snd o)) lpmaps run_pass
    (let? x := new_lanes (instructions c) in Ok (fun o => next_is_local x (fst o))) b c = (b, Err TypeError).
Proof. exact controlled_O2. Qed.
Print Assumptions C45_controlled_O2_refuted.

(** Gates are (type, number); the pass numbers its calls in the backend. *)
Definition demo_pass (c : cls) (f : bool) (b : nat * list (list nat)) (g : gtype * nat) : (nat * list (list nat)) * res (list (gtype * nat)) :=
  match c with
  | PhyLocQR => ((S (fst b), snd b), Ok [(SINGLE, 10 * snd g); (SINGLE, 10 * snd g + fst b)])
  | PhyLocAda => ((S (fst b), [2; 0; 1] :: tl (snd b)), Ok [(SINGLE, 100 * snd g)])
  | PhyEntQRCEX => (b, Ok [(TWO, 50 + snd g); (SINGLE, 1)])
  | _ => (b, Ok [])
  end.
Definition demo_circuit : circuit (gtype * nat) :=
  set_instructions (fst (circuit_of_dims 2 (Some [3; 2]))) [(SINGLE, 1); (TWO, 2); (MULTI, 3); (SINGLE, 4)].
Definition demo_backend : nat * list (list nat) := (0, [[0; 1; 2]; [1; 2; 0]; [0; 1]]).
Example C45_case : exists c', compile fst snd demo_pass demo_backend demo_circuit ["LogLocQRPass"; "ZRemovalOptPass"; "PhyEntQRCEXPass"; "LocQRPass"]%string
    = ((2, snd demo_backend), Ok c') /\
  instructions c' = [(SINGLE, 10); (SINGLE, 10); (TWO, 52); (SINGLE, 1); (MULTI, 3); (SINGLE, 40); (SINGLE, 41)] /\
  mappings c' = Some [[0; 1; 2]; [1; 0]].
Proof. eexists. repeat split. Qed.
Example C45_case_O0 : exists c', compile_O0 fst snd demo_pass demo_backend demo_circuit = ((2, snd demo_backend), Ok c') /\
  List.length (instructions c') = 7.
Proof. eexists. repeat split. Qed.
Example C45_case_O1 : exists c', compile_O1 fst snd demo_pass (fun l => Ok (tl l)) demo_backend demo_circuit = ((1, snd demo_backend), Ok c') /\
  instructions c' = [(TWO, 52); (SINGLE, 1); (TWO, 53); (SINGLE, 1); (SINGLE, 40); (SINGLE, 40)].
Proof. eexists. repeat split. Qed.
Example C45_case_O2 : exists c', compile_O2 fst snd demo_pass (Ok (fun _ => Ok true)) demo_backend demo_circuit = ((2, [[2; 0; 1]; [1; 2; 0]; [0; 1]]), Ok c') /\
  instructions c' = [(SINGLE, 100); (TWO, 52); (SINGLE, 1); (TWO, 53); (SINGLE, 1); (SINGLE, 400)] /\ mappings c' = Some [[2; 0; 1]; [1; 0]].
Proof. eexists. repeat split. Qed.
Example C45_case_known : responsible ["PhyLocQRPass"; "NaiveLocResynthOptPass"]%string SINGLE NaiveLocResynth.
Proof. exists ["PhyLocQRPass"%string], "NaiveLocResynthOptPass"%string, []. repeat split; try constructor. intros m d []. Qed.
Example C45_case_unknown : forall k, ~ named "LocQR" k.
Proof. intros k H. apply named_iff in H. discriminate H. Qed.

(** ** C69: the recorded mappings *)

(** If the physical levels of the graph are numbered 0 .. n-1 and the qudit has d <= n levels, its recorded
    mapping is a permutation of 0 .. d-1; if the graph has exactly the levels of the qudit, it is the
    placement of the graph. *)
Theorem C69_mapping_is_a_permutation : forall (G : Type) (c : circuit G) graphs ms i m full n d, mapping_for c graphs ms ->
  nth_error ms i = Some m -> nth_error (dimensions c) i = Some d -> nth_error graphs i = Some full ->
  Permutation full (seq 0 n) -> d <= n -> Permutation m (seq 0 d).
Proof. exact mapping_perm. Qed.
Print Assumptions C69_mapping_is_a_permutation.
Theorem C69_mapping_of_a_fitting_graph : forall (G : Type) (c : circuit G) graphs ms i m full d, mapping_for c graphs ms ->
  nth_error ms i = Some m -> nth_error (dimensions c) i = Some d -> nth_error graphs i = Some full ->
  Permutation full (seq 0 d) -> m = full.
Proof. exact mapping_fit. Qed.
Print Assumptions C69_mapping_of_a_fitting_graph.
(** Every qudit of the circuit has a mapping exactly if the backend has a graph for it. *)
Theorem C69_mapped_qudits : forall (G : Type) (c : circuit G) graphs ms i, mapping_for c graphs ms ->
  (exists m, nth_error ms i = Some m) <-> i < num_qudits c /\ i < List.length graphs.
Proof. exact mapped_qudits. Qed.
Print Assumptions C69_mapped_qudits.
(** On a graph with more levels than the qudit the recorded mapping need not be the placement: the logical
    level 0 sits on the physical level 2, which the mapping of a qubit cannot say, so it says 0. *)
Theorem C69_larger_graph_refuted : exists (c : circuit unit) graphs ms full m, mapping_for c graphs ms /\
  nth_error graphs 0 = Some full /\ Permutation full (seq 0 3) /\ nth_error (dimensions c) 0 = Some 2 /\
  nth_error ms 0 = Some m /\ nth_error full 0 = Some 2 /\ nth_error m 0 = Some 0.
Proof. exact larger_graph. Qed.
Print Assumptions C69_larger_graph_refuted.
Example C69_case : mapping_for demo_circuit (snd demo_backend) [[0; 1; 2]; [1; 0]] /\ Permutation [1; 2; 0] (seq 0 3).
Proof.
  repeat split.
  - intros [|[|[|i]]] m d M D; cbn in M, D; try discriminate; injection M as <-; injection D as <-; eexists; split; reflexivity.
  - cbn. apply perm_trans with [1; 0; 2]; [apply perm_skip; constructor|constructor].
Qed.
