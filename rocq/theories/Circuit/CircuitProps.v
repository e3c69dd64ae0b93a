(** Properties of the circuit container (C01, C02, C03). *)
From Verif Require Import Base.Py.
From Verif Require Import Circuit.CircuitModel Circuit.CircuitSpec Circuit.CircuitProofs Circuit.ConstructorProofs.

(** ** C01: register indexing is a bijection. *)

(** After any history of operations whose appended registers are new, an address (label, i) is
    mapped to line n with dimension d iff qudit i of a declared register [label] is the n-th
    declared qudit and has dimension d. *)
Theorem C01_sitemap_is_layout :
  forall (G : Type) (ops : list (op G)), legal_appends [] ops ->
  forall label i n d,
    lookup (sitemap (run empty_circuit ops)) label i = Some (n, d) <->
    addressed (declared [] ops) label i n d.
Proof. exact (fun G ops H label i n d => reg_inv_lookup _ _ label i n d (run_reg_inv ops _ _ reg_inv_empty H)). Qed.
Print Assumptions C01_sitemap_is_layout.

(** The inverse map sends each line back to its address. *)
Theorem C01_inverse_sitemap :
  forall (G : Type) (ops : list (op G)), legal_appends [] ops ->
  forall label i n,
    lookup_inv (inverse_sitemap (run empty_circuit ops)) n = Some (label, i) <->
    exists d, lookup (sitemap (run empty_circuit ops)) label i = Some (n, d).
Proof. exact C01_inverse_lemma. Qed.
Print Assumptions C01_inverse_sitemap.

(** The lines in use are exactly 0 .. num_qudits - 1. *)
Theorem C01_lines_are_all_used :
  forall (G : Type) (ops : list (op G)), legal_appends [] ops ->
  forall n, n < num_qudits (run empty_circuit ops) <->
    exists label i d, lookup (sitemap (run empty_circuit ops)) label i = Some (n, d).
Proof. exact C01_total_lemma. Qed.
Print Assumptions C01_lines_are_all_used.

(** Two different addresses never share a line. *)
Theorem C01_no_two_addresses_share_a_line :
  forall (G : Type) (ops : list (op G)), legal_appends [] ops ->
  forall l i l' i' n d d',
    lookup (sitemap (run empty_circuit ops)) l i = Some (n, d) ->
    lookup (sitemap (run empty_circuit ops)) l' i' = Some (n, d') ->
    l = l' /\ i = i' /\ d = d'.
Proof. exact C01_inj_lemma. Qed.
Print Assumptions C01_no_two_addresses_share_a_line.

(** The dimension list of the circuit has one entry per line, the one the site map reports. *)
Theorem C01_dimensions :
  forall (G : Type) (ops : list (op G)), legal_appends [] ops ->
  List.length (dimensions (run empty_circuit ops)) = num_qudits (run empty_circuit ops) /\
  (forall label i n d,
    lookup (sitemap (run empty_circuit ops)) label i = Some (n, d) ->
    nth_error (dimensions (run empty_circuit ops)) n = Some d).
Proof. exact C01_dims_lemma. Qed.
Print Assumptions C01_dimensions.

(** register[i] is the line the circuit uses for (label, i). *)
Theorem C01_register_indexing :
  forall (G : Type) (ops : list (op G)), legal_appends [] ops ->
  forall q i, In q (quantum_registers (run empty_circuit ops)) -> i < List.length (q_dims q) ->
  exists n d, qreg_getitem q i = Ok n /\
              lookup (sitemap (run empty_circuit ops)) (q_label q) i = Some (n, d).
Proof. exact C01_getitem_lemma. Qed.
Print Assumptions C01_register_indexing.

(** QuantumCircuit(n, dims), and QuantumCircuit(n, None) for qubits: one register "q" with the dimensions given, without gates. *)
Theorem C01_constructor : forall (G : Type) n dims, (forall ds, dims = Some ds -> List.length ds = n) ->
  let ds := match dims with Some ds => ds | None => repeat 2 n end in
  exists c, circuit_of_dims (G := G) n dims = (c, None) /\ num_qudits c = n /\ dimensions c = ds /\ instructions c = [] /\ number_gates c = 0%Z /\
    forall i d, lookup (sitemap c) "q" i = Some d <-> exists k, d = (i, k) /\ nth_error ds i = Some k.
Proof. exact constructor_lemma. Qed.
Print Assumptions C01_constructor.
Example C01_case_constructor : exists c, circuit_of_dims (G := nat) 2 (Some [3; 5]) = (c, None) /\ lookup (sitemap c) "q" 1 = Some (1, 5).
Proof. eexists. split; reflexivity. Qed.

(** Appending a second register with a used label: two lines, one address (the property needs
    the fresh label hypothesis). *)
Theorem C01_duplicate_label_refuted :
  exists ops : list (op nat),
    num_qudits (run empty_circuit ops) = 2 /\
    (forall label i n d, lookup (sitemap (run empty_circuit ops)) label i = Some (n, d) -> n = 1) /\
    lookup_inv (inverse_sitemap (run empty_circuit ops)) 0 = Some ("q"%string, 0).
Proof. exact C01_duplicate_witness. Qed.
Print Assumptions C01_duplicate_label_refuted.

(** A register declared with more dimensions than its size is accepted and breaks
    len(dimensions) = num_qudits; with fewer it fails half way, leaving the circuit changed. *)
Theorem C01_dimension_mismatch_refuted :
  (exists ops : list (op nat),
     List.length (dimensions (run empty_circuit ops)) <> num_qudits (run empty_circuit ops)) /\
  (exists q : qreg, snd (append (empty_circuit (G:=nat)) q) = Some IndexError /\
     num_qudits (fst (append (empty_circuit (G:=nat)) q)) <> List.length (sitemap (fst (append (empty_circuit (G:=nat)) q)))).
Proof. exact C01_mismatch_witness. Qed.
Print Assumptions C01_dimension_mismatch_refuted.

(** A history meeting the hypotheses: three registers, a reset, gates in between. *)
Example C01_case : list (op nat) :=
  [OpAppend (new_qreg "old" 2 None); OpReset;
   OpAppend (new_qreg "a" 2 (Some [3;4])); OpAdd (Ok 7); OpAppend (new_qreg "b" 1 (Some [5]));
   OpAdd (Err IndexError); OpAppend (new_qreg "c" 2 None)].
Example C01_case_legal : legal_appends [] C01_case.
Proof. cbn. repeat split; intros H; repeat destruct H as [H|H]; discriminate || assumption. Qed.
Example C01_case_values :
  lookup (sitemap (run empty_circuit C01_case)) "b" 0 = Some (2, 5) /\
  lookup_inv (inverse_sitemap (run empty_circuit C01_case)) 3 = Some ("c"%string, 0) /\
  dimensions (run empty_circuit C01_case) = [3;4;5;2;2].
Proof. vm_compute. auto. Qed.

(** ** C02: gate count and instruction list. *)

(** In every history whose replace_gate calls address an existing instruction (not by -1), the
    instruction list is the one the history denotes and the counter is its length. *)
Theorem C02_instructions_and_count :
  forall (G : Type) (ops : list (op G)), replaces_ok [] ops ->
    instructions (run empty_circuit ops) = program [] ops /\
    number_gates (run empty_circuit ops) = Z.of_nat (List.length (instructions (run empty_circuit ops))).
Proof. exact (fun G ops H => run_program ops empty_circuit eq_refl H). Qed.
Print Assumptions C02_instructions_and_count.

(** An insertion rejected by the gate constructor leaves the circuit exactly as it was and
    reports the error. *)
Theorem C02_rejected_insertion_changes_nothing :
  forall (G : Type) (c : circuit G) e, step c (OpAdd (Err e)) = (c, Some e).
Proof. exact (fun G => rejected_unchanged). Qed.
Print Assumptions C02_rejected_insertion_changes_nothing.

(** replace_gate keeps the count right exactly for those indices. *)
Theorem C02_replace_consistent_iff :
  forall (G : Type) (c : circuit G) i s,
  number_gates c = Z.of_nat (List.length (instructions c)) ->
  (number_gates (replace_gate c i s) = Z.of_nat (List.length (instructions (replace_gate c i s)))
   <-> index_ok (List.length (instructions c)) i).
Proof. exact (fun G => replace_consistent_iff). Qed.
Print Assumptions C02_replace_consistent_iff.

(** The usual Python index of the last gate, -1, is one of the failing ones. *)
Theorem C02_replace_last_refuted :
  exists ops : list (op nat),
    number_gates (run empty_circuit ops) <> Z.of_nat (List.length (instructions (run empty_circuit ops))) /\
    instructions (run empty_circuit ops) = [1; 2; 3].
Proof. exact C02_witness. Qed.
Print Assumptions C02_replace_last_refuted.

Example C02_case : list (op nat) :=
  [OpAdd (Ok 1); OpAdd (Ok 2); OpAdd (Err AssertionError); OpAdd (Ok 3); OpReplace 1 [8;9]; OpReplace (-2) []].
Example C02_case_ok : replaces_ok [] C02_case.
Proof. unfold index_ok; cbn; unfold index_ok. change (Pos.to_nat 1) with 1. cbn. repeat split; lia. Qed.
Example C02_case_values : instructions (run empty_circuit C02_case) = [1; 8; 3].
Proof. reflexivity. Qed.

(** ** C03: reset. *)

(** After any history, reset gives the fresh circuit iff no mapping was ever stored. *)
Theorem C03_reset_fresh_iff_no_mapping :
  forall (G : Type) (ops : list (op G)),
    run empty_circuit (ops ++ [OpReset]) = empty_circuit <-> mappings (run empty_circuit ops) = None.
Proof. exact C03_lemma. Qed.
Print Assumptions C03_reset_fresh_iff_no_mapping.

(** Without set_mapping in the history (only compilers call it) reset is a fresh start: any
    continuation behaves as on a new circuit. *)
Theorem C03_reset_is_fresh_start :
  forall (G : Type) (ops later : list (op G)), (forall m, ~ In (OpSetMapping m) ops) ->
    run empty_circuit (ops ++ OpReset :: later) = run empty_circuit later.
Proof. exact C03_fresh_start_lemma. Qed.
Print Assumptions C03_reset_is_fresh_start.

(** The only difference in general is the mapping. *)
Theorem C03_reset_fresh_except_mapping :
  forall (G : Type) (ops : list (op G)) m,
    run empty_circuit (ops ++ [OpReset; OpSetMapping m]) = run empty_circuit [OpSetMapping m].
Proof. exact C03_except_mapping_lemma. Qed.
Print Assumptions C03_reset_fresh_except_mapping.

Theorem C03_mappings_survive_reset_refuted :
  exists ops : list (op nat), run empty_circuit (ops ++ [OpReset]) <> empty_circuit.
Proof. exact C03_witness. Qed.
Print Assumptions C03_mappings_survive_reset_refuted.

Example C03_case : run empty_circuit (C01_case ++ [OpReset]) = empty_circuit.
Proof. reflexivity. Qed.
