(** Properties of the DITQASM export and import (C19, C20, and the method pm for C15).
    [show_float] is str of a float, [eval] the evaluation of a parameter expression, [load] the
    loading of an .npy file; they are arbitrary functions, and what is needed of them for the
    parameters that occur is [printable] of QasmSpec. *)
From Coq Require Import Reals.
From Verif Require Import Base.Py Base.Text.
From Verif Require Import Circuit.CircuitModel Circuit.CircuitSpec Circuit.GateModel Gates.SingleModel.
From Verif Require Import Qasm.QasmModel Qasm.QasmSpec Qasm.QasmProofs Qasm.ParserProofs Qasm.RoundTripProofs Qasm.ImportCtl.
Local Open Scope nat_scope.

(** ** C19: export, then import *)

(** Circuits whose gates carry no parameters (or the default ones of the CEx gate), no controls
    and no dagger: the imported circuit has the same registers and the same gates. *)
Theorem C19_round_trip_exact :
  forall (Arr : Type) (arr_empty : Arr -> bool) show_float eval load (ops : list (op (gate (@gdata Arr)))),
  legal_appends [] ops -> regs_ok (declared [] ops) ->
  (forall g, In g (instructions (run empty_circuit ops)) ->
     made_by show_float eval (num_qudits (run empty_circuit ops)) (dimensions (run empty_circuit ops)) g /\
     g_controls g = None /\ unchanged g) ->
  exists txt, to_qasm show_float (run empty_circuit ops) = Ok txt /\
  forall c0, exists c', from_qasm arr_empty eval load c0 txt = (c', None) /\
    same_registers (run empty_circuit ops) c' /\
    instructions c' = instructions (run empty_circuit ops) /\
    number_gates c' = Z.of_nat (List.length (instructions c')).
Proof. exact @exact_round_trip. Qed.
Print Assumptions C19_round_trip_exact.

(** Uncontrolled gates in general: what comes back is, gate by gate, [gate_back]. *)
Theorem C19_round_trip_general :
  forall (Arr : Type) (arr_empty : Arr -> bool) show_float eval load (ops : list (op (gate (@gdata Arr)))) l,
  legal_appends [] ops -> regs_ok (declared [] ops) ->
  instructions (run empty_circuit ops) = map user_gate l ->
  (forall x, In x l ->
     made_by show_float eval (num_qudits (run empty_circuit ops)) (dimensions (run empty_circuit ops)) (fst x) /\
     g_controls (fst x) = None) ->
  exists txt, to_qasm show_float (run empty_circuit ops) = Ok txt /\
  forall c0, exists c', from_qasm arr_empty eval load c0 txt = (c', None) /\
    same_registers (run empty_circuit ops) c' /\
    instructions c' = flat_map gate_back (map fst l) /\
    number_gates c' = Z.of_nat (List.length (instructions c')).
Proof. exact @run_round_trip. Qed.
Print Assumptions C19_round_trip_general.

(** The pinned code violates the property: whatever was exported, no imported gate is daggered, no
    noise gate comes back, and R, Rz, Rh and VirtRz gates come back without parameters. *)
Theorem C19_daggers_parameters_noise_refuted :
  forall (Arr : Type) (arr_empty : Arr -> bool) show_float eval load (ops : list (op (gate (@gdata Arr)))) l,
  legal_appends [] ops -> regs_ok (declared [] ops) ->
  instructions (run empty_circuit ops) = map user_gate l ->
  (forall x, In x l ->
     made_by show_float eval (num_qudits (run empty_circuit ops)) (dimensions (run empty_circuit ops)) (fst x) /\
     g_controls (fst x) = None) ->
  exists txt, to_qasm show_float (run empty_circuit ops) = Ok txt /\
  forall c0, exists c', from_qasm arr_empty eval load c0 txt = (c', None) /\
    forall g, In g (instructions c') ->
      g_dagger g = false /\ ~ In (d_tag (g_data g)) not_read /\
      (In (d_tag (g_data g)) loses_params -> d_par (g_data g) = ANone).
Proof. exact @lost_information. Qed.
Print Assumptions C19_daggers_parameters_noise_refuted.

(** Every circuit with a controlled gate is exported to a text whose import raises IndexError: the
    target is printed in the place of the controls. *)
Theorem C19_controls_refuted :
  forall (Arr : Type) (arr_empty : Arr -> bool) show_float eval load (ops : list (op (gate (@gdata Arr)))) l,
  legal_appends [] ops -> regs_ok (declared [] ops) ->
  instructions (run empty_circuit ops) = map user_gate l ->
  (forall x, In x l ->
     made_by show_float eval (num_qudits (run empty_circuit ops)) (dimensions (run empty_circuit ops)) (fst x) /\
     ~ In (d_tag (g_data (fst x))) not_read /\
     (forall i s, g_controls (fst x) = Some (i, s) -> forall z, In z s -> (0 <= z)%Z)) ->
  (exists x, In x l /\ g_controls (fst x) <> None) ->
  exists txt, to_qasm show_float (run empty_circuit ops) = Ok txt /\
  forall c0, snd (from_qasm arr_empty eval load c0 txt) = Some IndexError.
Proof. exact @run_ctl. Qed.
Print Assumptions C19_controls_refuted.

(** Every circuit with a gate given by a matrix is exported to a text whose import raises the
    exception of evaluating the name custom_data, and leaves the circuit empty. *)
Theorem C19_custom_gates_refuted :
  forall (Arr : Type) (arr_empty : Arr -> bool) show_float eval load (ops : list (op (gate (@gdata Arr)))) l rest g e,
  legal_appends [] ops -> regs_ok (declared [] ops) ->
  instructions (run empty_circuit ops) = l ++ g :: rest ->
  (forall x, In x (l ++ rest) ->
     made_by show_float eval (num_qudits (run empty_circuit ops)) (dimensions (run empty_circuit ops)) x /\
     g_controls x = None) ->
  made_custom (num_qudits (run empty_circuit ops)) (dimensions (run empty_circuit ops)) g ->
  eval (tx "custom_data") = Err e ->
  exists txt, to_qasm show_float (run empty_circuit ops) = Ok txt /\
  forall c0, from_qasm arr_empty eval load c0 txt = (reset c0, Some e).
Proof. exact @run_custom. Qed.
Print Assumptions C19_custom_gates_refuted.

(** The line an imported R, Rz, Rh or VirtRz gate is exported to cannot be imported: a second round
    trip fails. *)
Theorem C19_second_round_trip_refuted :
  forall (Arr : Type) (arr_empty : Arr -> bool) eval load (c0 : circuit (gate (@gdata Arr))) tag, In tag loses_params ->
  snd (from_qasm arr_empty eval load c0 (tx "qreg q [1][3];" ++ [nl] ++ tx tag ++ tx " q[0];")) = Some TypeError.
Proof. exact @second_trip_line. Qed.
Print Assumptions C19_second_round_trip_refuted.

(** Classical registers are not exported: one register "meas" comes back. *)
Theorem C19_classical_registers_refuted :
  forall (Arr : Type) (arr_empty : Arr -> bool) show_float eval load (c0 : circuit (gate (@gdata Arr))),
  exists (c : circuit (gate (@gdata Arr))) txt c',
  classic_registers c = [CReg "answer" 1 [(0, 0)]] /\ to_qasm show_float c = Ok txt /\
  from_qasm arr_empty eval load c0 txt = (c', None) /\ map c_label (classic_registers c') = ["meas"%string].
Proof. exact @classical_lost. Qed.
Print Assumptions C19_classical_registers_refuted.

(** Circuits meeting the hypotheses: two registers (dimensions 3, 2 and 4) and gates. *)
Example C19_case_exact :
  legal_appends [] (ex_ops [ex_x; ex_csum]) /\ regs_ok (declared [] (ex_ops [ex_x; ex_csum])) /\
  (forall g, In g (instructions (run empty_circuit (ex_ops [ex_x; ex_csum]))) ->
     made_by ex_show ex_eval 3 [3; 2; 4] g /\ g_controls g = None /\ unchanged g) /\
  to_qasm ex_show (run empty_circuit (ex_ops [ex_x; ex_csum])) =
    Ok (tx "DITQASM 2.0;" ++ [nl] ++ tx "qreg q [2][3,2];" ++ [nl] ++ tx "qreg anc [1][4];" ++ [nl] ++ tx "creg meas[3];" ++ [nl] ++
        tx "x anc[0];" ++ [nl] ++ tx "csum q[1], q[0];" ++ [nl] ++
        tx "measure q[0] -> meas[0];" ++ [nl] ++ tx "measure q[1] -> meas[1];" ++ [nl] ++ tx "measure anc[0] -> meas[2];" ++ [nl]).
Proof.
  split; [apply ex_legal|]. split; [apply ex_regs|]. split; [|vm_compute; reflexivity].
  destruct (ex_run [ex_x; ex_csum]) as (-> & _ & _). intros g [<-|[<-|[]]]; (split; [apply ex_made; tauto|]); (split; [reflexivity|]); left; cbn; tauto.
Qed.
Example C19_case_general :
  let l := [(ex_x, true); (ex_pm, false)] in
  instructions (run empty_circuit (ex_ops (map user_gate l))) = map user_gate l /\
  (forall x, In x l -> made_by ex_show ex_eval 3 [3; 2; 4] (fst x) /\ g_controls (fst x) = None).
Proof.
  split; [exact (proj1 (ex_run _))|]. intros x [<-|[<-|[]]]; (split; [apply ex_made; tauto|reflexivity]).
Qed.
Example C19_case_controls :
  instructions (run empty_circuit (ex_ops [ex_x; ex_cx])) = map user_gate [(ex_x, false); (ex_cx, false)] /\
  made_by ex_show ex_eval 3 [3; 2; 4] ex_cx /\ g_controls ex_cx = Some ([2]%Z, [1]%Z) /\
  to_qasm ex_show (run empty_circuit (ex_ops [ex_cx])) =
    Ok (tx "DITQASM 2.0;" ++ [nl] ++ tx "qreg q [2][3,2];" ++ [nl] ++ tx "qreg anc [1][4];" ++ [nl] ++ tx "creg meas[3];" ++ [nl] ++
        tx "x q[0] ctl q[0] [1];" ++ [nl] ++
        tx "measure q[0] -> meas[0];" ++ [nl] ++ tx "measure q[1] -> meas[1];" ++ [nl] ++ tx "measure anc[0] -> meas[2];" ++ [nl]).
Proof.
  split; [exact (proj1 (ex_run _))|]. split; [apply ex_made; tauto|]. split; [reflexivity|vm_compute; reflexivity].
Qed.
Example C19_case_custom : made_custom 3 [3; 2; 4] ex_cu /\ ex_eval (tx "custom_data") = Err NameError.
Proof. exact (conj ex_made_custom eq_refl). Qed.

(** ** C20: no program text is dropped silently *)

(** Outside comments, a line that is accepted is blank, a line comment, the header, a measure or a
    barrier (and then nothing changes), opens a comment, declares a register, or adds exactly one
    gate; there is nothing else. *)
Theorem C20_every_line_is_accounted_for :
  forall (Arr : Type) eval load (s : @pstate Arr) raw s', p_comment s = false -> parse_line eval load s raw = Ok s' ->
  (ignorable (body raw) = true /\ s' = s) \/
  (opens_comment (body raw) = true /\ s' = PState (p_sitemap s) (p_classic s) (p_gates s) true) \/
  (begins "qreg" (body raw) = true /\ exists r, parse_qreg (body raw) (p_sitemap s) = Some (Ok r) /\ s' = PState r (p_classic s) (p_gates s) false) \/
  (begins "creg" (body raw) = true /\ exists r, parse_creg (body raw) (p_classic s) = Some r /\ s' = PState (p_sitemap s) r (p_gates s) false) \/
  (exists i, parse_gate eval load (body raw) (p_sitemap s) = Some (Ok i) /\ s' = PState (p_sitemap s) (p_classic s) (p_gates s ++ [i]) false).
Proof. exact @line_cases. Qed.
Print Assumptions C20_every_line_is_accounted_for.

(** A program without block comments that is accepted has a gate for every statement. *)
Theorem C20_every_statement_becomes_a_gate :
  forall (Arr : Type) eval load ls (s s' : @pstate Arr), p_comment s = false ->
  (forall l, In l ls -> opens_comment (body l) = false) -> parse_lines eval load s ls = Ok s' ->
  p_comment s' = false /\
  exists news, p_gates s' = p_gates s ++ news /\
    List.length (filter (fun l => statement (body l)) ls) <= List.length news <= List.length ls.
Proof. exact @statements_count. Qed.
Print Assumptions C20_every_statement_becomes_a_gate.

(** A statement without a semicolon is rejected. *)
Theorem C20_unterminated_statement_is_rejected :
  forall (Arr : Type) eval load (s : @pstate Arr) raw, p_comment s = false ->
  statement (body raw) = true -> ~ In ";"%char (body raw) ->
  parse_line eval load s raw = Err (if begins "gate_matrix" (body raw) || begins "if" (body raw) then NotImplementedError else SyntaxError)%bool.
Proof. exact @statement_no_semicolon. Qed.
Print Assumptions C20_unterminated_statement_is_rejected.

(** A block comment whose closing mark begins a line removes exactly its lines. *)
Theorem C20_block_comment :
  forall (Arr : Type) eval load (s : @pstate Arr) a ls b, p_comment s = false -> opens_comment (body a) = true ->
  (forall l, In l ls -> closes_comment (body l) = false) -> closes_comment (body b) = true ->
  parse_lines eval load s (a :: ls ++ [b]) = Ok s.
Proof. exact @comment_block. Qed.
Print Assumptions C20_block_comment.

(** From the parsed program to the circuit: when all names are known, there is one gate per parsed
    gate, on the same lines, in the same order. *)
Theorem C20_parsed_gates_reach_the_circuit :
  forall (Arr : Type) eval load (arr_empty : Arr -> bool) (c0 c' : circuit (gate (@gdata Arr))) txt p,
  parse_qasm eval load txt = Ok p -> from_qasm arr_empty eval load c0 txt = (c', None) ->
  (forall o, In o (p_gates p) -> exists m, dget String.eqb qasm_set (i_name o) = Some m /\ m <> "gellmann"%string) ->
  map (fun g => target_lines g) (instructions c') = map (fun o => map (fun x => Z.of_nat (fst x)) (i_qudits o)) (p_gates p).
Proof. exact @program_gates. Qed.
Print Assumptions C20_parsed_gates_reach_the_circuit.

(** Nor are the control clauses dropped: a gate that is imported with controls has exactly these, provided its parameters are
    given or it takes none. *)
Theorem C20_controls_kept :
  forall (Arr : Type) (arr_empty : Arr -> bool) (c c' : circuit (gate (@gdata Arr))) o m i s,
  dget String.eqb qasm_set (i_name o) = Some m -> m <> "gellmann"%string ->
  i_controls o = Some (i, s) -> i <> [] -> s <> [] -> par_nonempty arr_empty (i_params o) = true \/ In m ["x"; "z"; "h"; "s"]%string ->
  import_op arr_empty c o = (c', None) -> exists g, instructions c' = instructions c ++ [g] /\ g_controls g = Some (i, s).
Proof. exact @import_controls. Qed.
Print Assumptions C20_controls_kept.
(** Violation: a gate that needs parameters and is written without them loses its controls and is imported. *)
Theorem C20_control_clause_refuted :
  forall (Arr : Type) (arr_empty : Arr -> bool) eval load (c0 : circuit (gate (@gdata Arr))), exists c' g,
  from_qasm arr_empty eval load c0 (tx "qreg q [2][3,2];" ++ [nl] ++ tx "rz q[0] ctl q[1] [1];") = (c', None) /\
  instructions c' = [g] /\ g_controls g = None /\ target_lines g = [0%Z].
Proof. exact @controls_lost. Qed.
Print Assumptions C20_control_clause_refuted.

(** The bits of a new classical register are the next free classical lines; nothing else changes. *)
Theorem C20_classical_bits :
  forall (Arr : Type) eval load (s : @pstate Arr) n, p_comment s = false -> (forall j, dget key_eqb (p_classic s) ("meas"%string, j) = None) ->
  exists s', parse_line eval load s (tx "creg meas[" ++ show_nat n ++ tx "];") = Ok s' /\ p_sitemap s' = p_sitemap s /\ p_gates s' = p_gates s /\
    (forall i, i < n -> dget key_eqb (p_classic s') ("meas"%string, i) = Some (List.length (p_classic s) + i)) /\
    (forall k, fst k <> "meas"%string \/ n <= snd k -> dget key_eqb (p_classic s') k = dget key_eqb (p_classic s) k).
Proof. exact @creg_lines. Qed.
Print Assumptions C20_classical_bits.
(** Parameters in square brackets are the same parameters. *)
Theorem C20_bracketed_parameters :
  forall (Arr : Type) eval (load : text -> res Arr) ps, ps <> [] -> (forall t, In t ps -> num_text t) ->
  parse_params eval load (Some (tx "[" ++ join (tx ", ") ps ++ tx "]")) = parse_params eval load (Some (join (tx ", ") ps)).
Proof. exact @bracketed. Qed.
Print Assumptions C20_bracketed_parameters.

(** Violations.  A comment that is closed on the line that opens it, or at the end of a line, is not
    closed: every line up to one that begins with the closing mark is dropped. *)
Theorem C20_one_line_block_comment_refuted :
  forall (Arr : Type) eval load (s : @pstate Arr) raw ls, p_comment s = false -> opens_comment (body raw) = true ->
  (forall l, In l ls -> closes_comment (body l) = false) ->
  parse_lines eval load s (raw :: ls) = Ok (PState (p_sitemap s) (p_classic s) (p_gates s) true).
Proof. exact @comment_dropped. Qed.
Print Assumptions C20_one_line_block_comment_refuted.

(** A gate whose name is not known is dropped without an error, and so is every gellmann gate. *)
Theorem C20_unknown_names_refuted :
  forall (Arr : Type) (arr_empty : Arr -> bool) (c : circuit (gate (@gdata Arr))) o,
  dget String.eqb qasm_set (i_name o) = None -> import_op arr_empty c o = (c, None).
Proof. exact @import_op_unknown. Qed.
Print Assumptions C20_unknown_names_refuted.
Theorem C20_gellmann_refuted :
  forall (Arr : Type) (arr_empty : Arr -> bool) (c : circuit (gate (@gdata Arr))) o c',
  i_name o = "gell"%string -> import_op arr_empty c o = (c', None) -> c' = c.
Proof. exact @gellmann_dropped. Qed.
Print Assumptions C20_gellmann_refuted.
Theorem C20_unknown_program_refuted :
  forall (Arr : Type) (arr_empty : Arr -> bool) eval load (c0 : circuit (gate (@gdata Arr))), exists c',
  from_qasm arr_empty eval load c0 (tx "qreg q [1][3];" ++ [nl] ++ tx "x q[0];" ++ [nl] ++ tx "foo q[0];") = (c', None) /\
  List.length (instructions c') = 1.
Proof. exact @unknown_name_dropped. Qed.
Print Assumptions C20_unknown_program_refuted.

(** A classically conditioned gate becomes unconditional. *)
Theorem C20_conditional_refuted :
  forall (Arr : Type) eval load (s : @pstate Arr), p_sitemap s = [(("q"%string, 0), (0, 2))] -> p_comment s = false ->
  parse_line eval load s (tx "if(c==1) x q[0];") =
  Ok (PState (p_sitemap s) (p_classic s) (p_gates s ++ [Instr "x" (ATuple []) [(0, 2)] None]) false).
Proof. exact @conditional_made_unconditional. Qed.
Print Assumptions C20_conditional_refuted.

(** The second gate on a line is dropped. *)
Theorem C20_second_gate_on_a_line_refuted :
  forall (Arr : Type) eval load (s : @pstate Arr), p_sitemap s = [(("q"%string, 0), (0, 2))] -> p_comment s = false ->
  parse_line eval load s (tx "x q[0]; z q[0];") =
  Ok (PState (p_sitemap s) (p_classic s) (p_gates s ++ [Instr "x" (ATuple []) [(0, 2)] None]) false).
Proof. exact @second_statement_dropped. Qed.
Print Assumptions C20_second_gate_on_a_line_refuted.

Example C20_case :
  let ls := [tx "DITQASM 2.0;"; tx "qreg q [2][3,2];"; tx "  // note"; tx " x q[1];"; tx "measure q[0] -> c[0];"; tx "z q[0];"] in
  (forall l, In l ls -> opens_comment (body l) = false) /\
  filter (fun l => statement (body l)) ls = [tx " x q[1];"; tx "z q[0];"] /\
  exists s', parse_lines (Arr := unit) ex_eval (fun _ => Err FileNotFoundError) pinit ls = Ok s'.
Proof.
  cbv zeta. split; [intros l Hl; repeat destruct Hl as [<-|Hl]; try reflexivity; destruct Hl|]. split; [reflexivity|]. eexists. vm_compute. reflexivity.
Qed.
Example C20_case_comment :
  opens_comment (body (tx " /* a */")) = true /\ closes_comment (body (tx "x q[0]; */")) = false /\ closes_comment (body (tx "  */")) = true.
Proof. repeat split. Qed.
Example C20_case_controls :
  let c := run (G := gate (@gdata unit)) empty_circuit [OpAppend (new_qreg "q" 2 (Some [3; 2]))] in
  exists c', import_op (fun _ => true) c (Instr "x" (ATuple []) [(0, 3)] (Some ([1]%Z, [1]%Z))) = (c', None) /\ List.length (instructions c') = 1.
Proof. cbv zeta. eexists. split; [vm_compute; reflexivity|reflexivity]. Qed.

(** ** C15: the method pm of a circuit takes the lists the constructor of the gate takes *)
Theorem C15_method :
  forall (Arr : Type) num dims q d l, pyindex dims q = Ok d ->
  ((exists g, construct num dims (@Call Arr "pm" (TInt q) (AList (map PInt l)) None) = Ok (Some g)) <-> exists M, perm_new d l = Ok M) /\
  forall g, construct num dims (@Call Arr "pm" (TInt q) (AList (map PInt l)) None) = Ok (Some g) ->
    g_target g = TInt q /\ d_dims (g_data g) = [d] /\ d_par (g_data g) = AList (map PInt l) /\ g_controls g = None.
Proof. exact @pm_method. Qed.
Print Assumptions C15_method.
Example C15_case_method : pyindex [3; 2] 0 = Ok 3 /\ exists M, perm_new 3 [2; 0; 1]%Z = Ok M.
Proof. split; [reflexivity|]. eexists. reflexivity. Qed.
