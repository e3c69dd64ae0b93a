(** C01: circuits made from one register or one number; C113: slices of registers. *)
From Verif.Base Require Import Py.
From Verif.Circuit Require Import CircuitModel CircuitSpec CircuitProofs ConstructorProofs ClassicProofs ClassicSpec ClassicProps NewModel NewProofs.

(** QuantumCircuit(register): the lines of the register, without gates. *)
Theorem C01_register_constructor : forall (G : Type) q, List.length (q_dims q) = q_size q -> q_local q = [] ->
  exists c, new_circuit (G := G) (ARegister q) = (c, None) /\ num_qudits c = q_size q /\ dimensions c = q_dims q /\ instructions c = [] /\ number_gates c = 0%Z /\
    forall label i d, lookup (sitemap c) label i = Some d <-> label = q_label q /\ exists k, d = (i, k) /\ nth_error (q_dims q) i = Some k.
Proof. exact register_circuit. Qed.
Print Assumptions C01_register_constructor.
(** QuantumCircuit(n, dims) and QuantumCircuit(n, dims, ...): one register "q" with these dimensions, qubits for None, without gates. *)
Theorem C01_dims_constructor : forall (G : Type) n dims, (forall ds, dims = Some ds -> List.length ds = n) ->
  let ds := match dims with Some ds => ds | None => repeat 2 n end in
  exists c, new_circuit (G := G) (IntAndDims n dims) = (c, None) /\ num_qudits c = n /\ dimensions c = ds /\ instructions c = [] /\ number_gates c = 0%Z /\
    forall i d, lookup (sitemap c) "q" i = Some d <-> exists k, d = (i, k) /\ nth_error ds i = Some k.
Proof. exact constructor_lemma. Qed.
Print Assumptions C01_dims_constructor.
(** QuantumCircuit(): no qudits and no gates. *)
Theorem C01_empty_constructor : forall G : Type, exists c, new_circuit (G := G) NoArgs = (c, None) /\ num_qudits c = 0 /\ dimensions c = [] /\ instructions c = [] /\ number_gates c = 0%Z.
Proof. intros G. exists empty_circuit. repeat split. Qed.
Print Assumptions C01_empty_constructor.
(** Violation: QuantumCircuit(n) has no qudits, whatever n, and says nothing; QuantumCircuit(n, None) has n qubits. *)
Theorem C01_one_number_refuted : forall (G : Type) n, exists c, new_circuit (G := G) (AnInt n) = (c, None) /\ num_qudits c = 0 /\ dimensions c = [] /\
  exists c', new_circuit (G := G) (IntAndDims n None) = (c', None) /\ num_qudits c' = n /\ dimensions c' = repeat 2 n.
Proof.
  intros G n. exists empty_circuit. split; [reflexivity|]. split; [reflexivity|]. split; [reflexivity|].
  destruct (register_circuit G (new_qreg "q" n (Some (repeat 2 n))) (repeat_length _ _) eq_refl) as (c & E & N & D & _).
  exists c. split; [exact E|]. split; [exact N|exact D].
Qed.
Print Assumptions C01_one_number_refuted.
Example C01_case_register : exists c, new_circuit (G := nat) (ARegister (new_qreg "a" 2 (Some [3; 5]))) = (c, None) /\ dimensions c = [3; 5].
Proof. eexists. split; reflexivity. Qed.

(** ** C113 *)
(** register[a:b] is the list of the lines of the levels a, ..., b-1 of the register, whatever was done with the circuit. *)
Theorem C113_slice : forall (G : Type) (ops : list (op G)), legal_appends [] ops ->
  forall q a b, In q (quantum_registers (run empty_circuit ops)) -> a <= b <= List.length (q_dims q) ->
  exists lines, qreg_slice q (Some (Z.of_nat a)) (Some (Z.of_nat b)) None = Ok lines /\
    Forall2 (fun i n => exists d, lookup (sitemap (run empty_circuit ops)) (q_label q) i = Some (n, d)) (seq a (b - a)) lines.
Proof. intros G ops L q a b Hq H. exact (register_slice ops L q a b None Hq H). Qed.
Print Assumptions C113_slice.
Theorem C113_classic_slice : forall (G : Type) (ops : list (op G)), legal_classic [] ops ->
  forall r a b, In r (classic_registers (run empty_circuit ops)) -> a <= b <= c_size r ->
  exists lines, creg_slice r (Some (Z.of_nat a)) (Some (Z.of_nat b)) None = Ok lines /\
    Forall2 (fun i n => lookup (classic_site_map (run empty_circuit ops)) (c_label r) i = Some n) (seq a (b - a)) lines.
Proof.
  intros G ops L r a b Hr H. apply classic_slice; [|exact H]. intros i Hi. exact (C59_classic_register_indexing G ops L r i Hr Hi).
Qed.
Print Assumptions C113_classic_slice.
(** Violations.  register[:b], register[a:] and register[:] raise TypeError, also those of classical registers. *)
Theorem C113_open_refuted : forall q r start stop step, start = None \/ stop = None ->
  qreg_slice q start stop step = Err TypeError /\ creg_slice r start stop step = Err TypeError.
Proof. intros q r start stop step [-> | ->]; split; try reflexivity; destruct start; reflexivity. Qed.
Print Assumptions C113_open_refuted.
(** The step is not looked at: register[0:4:2] has four lines. *)
Theorem C113_step_refuted : forall q r start stop step,
  qreg_slice q start stop step = qreg_slice q start stop None /\ creg_slice r start stop step = creg_slice r start stop None.
Proof. split; reflexivity. Qed.
Print Assumptions C113_step_refuted.
(** Negative numbers do not count from the end: register[0:-1] is empty; a negative start, or a stop behind the last line,
    raises KeyError. *)
Theorem C113_negative_refuted : forall q a b, (0 <= a)%Z -> (b < 0)%Z -> qreg_slice q (Some a) (Some b) None = Ok [].
Proof. intros q a b Ha Hb. apply slice_empty. lia. Qed.
Print Assumptions C113_negative_refuted.
Theorem C113_outside : forall (G : Type) (ops : list (op G)), legal_appends [] ops ->
  forall q a b, In q (quantum_registers (run empty_circuit ops)) -> (a < b)%Z -> (a < 0 \/ Z.of_nat (List.length (q_dims q)) < b)%Z ->
  qreg_slice q (Some a) (Some b) None = Err KeyError.
Proof. intros G ops L q a b Hq Hab H. exact (register_slice_beyond ops L q a b None Hq Hab H). Qed.
Print Assumptions C113_outside.

Definition two_registers : list (op nat) := [OpAppend (new_qreg "a" 2 (Some [3; 5])); OpAppend (new_qreg "b" 4 None)].
Example C113_case : legal_appends [] two_registers /\ exists q, In q (quantum_registers (run empty_circuit two_registers)) /\
  qreg_slice q (Some 1%Z) (Some 3%Z) None = Ok [3; 4] /\ qreg_slice q (Some 0%Z) (Some 4%Z) (Some 2%Z) = Ok [2; 3; 4; 5] /\
  qreg_slice q (Some 0%Z) (Some 5%Z) None = Err KeyError.
Proof.
  split; [cbn; intuition congruence|]. eexists. split; [right; left; reflexivity|]. split; [reflexivity|]. split; reflexivity.
Qed.
