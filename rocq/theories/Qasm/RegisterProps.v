(** More of C19 and C20: the line of an exported gate, the registers of an imported program. *)
From Coq Require Import Reals Lra.
From Verif Require Import Base.Py Base.Text.
From Verif Require Import Circuit.CircuitModel Circuit.CircuitSpec Circuit.GateModel Gates.SingleModel.
From Verif Require Import Qasm.QasmModel Qasm.QasmSpec Qasm.RegisterSpec Qasm.RegisterProofs.
Local Open Scope nat_scope.

(** An exported gate is one line: its name, its parameters in their order, whether they are kept as
    a list or as a tuple, and the places of its lines in their order. *)
Theorem C19_exported_line {Arr} show_float {G} (c : circuit G) (g : gate (@gdata Arr)) ts : g_controls g = None -> shown show_float (d_par (g_data g)) <> [] ->
  ts <> [] -> Forall2 (fun q t => site c q = Ok t) (target_lines g) ts ->
  gate_qasm show_float c g = Ok (tx (d_tag (g_data g)) ++ tx " (" ++ join (tx ", ") (shown show_float (d_par (g_data g))) ++ tx ") " ++ join (tx ", ") ts ++ tx ";" ++ [nl]).
Proof. exact (exported_line show_float c g ts). Qed.
Print Assumptions C19_exported_line.
Example C19_case_line : exists g : gate (@gdata unit), g_target g = TList [1; 0]%Z /\ d_par (g_data g) = ATuple [Some 1; Some 2]%R /\
  let c := fst (append (@empty_circuit unit) (new_qreg "q" 2 (Some [2; 3]))) in
  gate_qasm (fun x => if Req_EM_T x 1 then tx "1.0" else tx "2.0") c g = Ok (tx "cutwo (1.0, 2.0) q[1], q[0];" ++ [nl]).
Proof.
  exists (Gate "CUt" TWO (TList [1; 0]%Z) None false false (GData "cutwo" [3; 2] (ATuple [Some 1; Some 2]%R))). split; [reflexivity|]. split; [reflexivity|]. cbv zeta.
  rewrite (C19_exported_line _ _ _ [tx "q[1]"; tx "q[0]"]); [|reflexivity|discriminate|discriminate|].
  - cbn [g_data d_par d_tag shown map]. destruct (Req_EM_T 1 1) as [_|N]; [|contradiction N; reflexivity]. destruct (Req_EM_T 2 1) as [E|_]; [exfalso; lra|]. reflexivity.
  - repeat constructor; reflexivity.
Qed.

(** A declaration of a new register puts its qudits on the next free lines, with the dimensions
    that are written there; without dimensions they are qubits. *)
Theorem C20_register_with_dimensions {Arr} eval load (s : @pstate Arr) label d ds : p_comment s = false -> word (tx label) -> (forall j, ~ In (label, j) (map fst (p_sitemap s))) ->
  parse_line eval load s (tx "qreg " ++ tx label ++ tx " [" ++ show_nat (S (List.length ds)) ++ tx "][" ++ join (tx ",") (map show_nat (d :: ds)) ++ tx "];") =
  Ok (PState (p_sitemap s ++ places label (List.length (p_sitemap s)) (d :: ds)) (p_classic s) (p_gates s) false).
Proof. exact (qreg_dims eval load s label d ds). Qed.
Print Assumptions C20_register_with_dimensions.
Theorem C20_register_of_qubits {Arr} eval load (s : @pstate Arr) label n : p_comment s = false -> word (tx label) -> (forall j, ~ In (label, j) (map fst (p_sitemap s))) ->
  parse_line eval load s (tx "qreg " ++ tx label ++ tx " [" ++ show_nat n ++ tx "];") =
  Ok (PState (p_sitemap s ++ places label (List.length (p_sitemap s)) (repeat 2 n)) (p_classic s) (p_gates s) false).
Proof. exact (qreg_plain eval load s label n). Qed.
Print Assumptions C20_register_of_qubits.

(** The classical registers of the imported circuit: one for every label that is declared, with as
    many bits as are declared under the label. *)
Theorem C20_classical_registers {Arr} (arr_empty : Arr -> bool) eval load (c0 c' : circuit (gate (@gdata Arr))) txt p : parse_qasm eval load txt = Ok p -> from_qasm arr_empty eval load c0 txt = (c', None) ->
  NoDup (map c_label (classic_registers c')) /\
  forall label n, (exists r, In r (classic_registers c') /\ c_label r = label /\ c_size r = n) <-> (n = bits_of label (p_classic p) /\ n <> 0).
Proof. exact (classical_imported eval load arr_empty c0 c' txt p). Qed.
Print Assumptions C20_classical_registers.

Definition C20_registers_text : text := tx "DITQASM 2.0;" ++ [nl] ++ tx "qreg q [2];" ++ [nl] ++ tx "qreg a [1][5];" ++ [nl] ++ tx "creg m[3];" ++ [nl] ++ tx "creg n[1];" ++ [nl].
Example C20_case_registers {Arr} (arr_empty : Arr -> bool) eval load (c0 : circuit (gate (@gdata Arr))) : exists c', from_qasm arr_empty eval load c0 C20_registers_text = (c', None) /\
  dimensions c' = [2; 2; 5] /\ map (fun r => (c_label r, c_size r)) (classic_registers c') = [("m"%string, 3); ("n"%string, 1)].
Proof. eexists. split; [vm_compute; reflexivity|]. split; reflexivity. Qed.
