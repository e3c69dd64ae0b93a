(** C109: a call of a gate method adds one gate that records the call. *)
From Coq Require Import Reals Lia.
From Verif Require Import Base.Py Base.PyFacts.
From Verif Require Import Circuit.CircuitModel Circuit.GateModel Gates.SingleModel Gates.TwoModel.
From Verif Require Import Qasm.QasmModel Qasm.MethodModel Qasm.MethodSpec Qasm.MethodProofs.
Local Open Scope nat_scope.

(** A call that raises leaves the circuit as it was.  A call that returns leaves what was there,
    and adds exactly one gate at the end; or, for gellmann, none.  The gate has the tag of the
    method, the lines of the call in their order, the dimensions of those lines, the controls of
    the call where the method takes them, is not inverted, and has the parameters of the call
    ([recorded] says where they are dropped). *)
Theorem C109_recorded {Arr} (c : circuit (gate (@gdata Arr))) m q p ctl c' e : call_method c (Call m q p ctl) = (c', e) ->
  match e with
  | Some _ => c' = c
  | None => (m = "gellmann"%string /\ c' = c) \/
    exists g tag one takes, c' = with_instructions c (number_gates c + 1) (instructions c ++ [g]) /\ In (m, tag, one, takes) methods /\
      d_tag (g_data g) = tag /\ g_target g = q /\ g_dagger g = false /\ ((exists t, q = TInt t) <-> one = true) /\
      dims_of (dimensions c) q (d_dims (g_data g)) /\ g_controls g = controls_given takes ctl /\ recorded m p (d_par (g_data g))
  end.
Proof. exact (call_recorded c m q p ctl c' e). Qed.
Print Assumptions C109_recorded.

(** The levels of a two-level gate: what is accepted are two different levels of the qudit,
    followed by the angles. *)
Theorem C109_levels {Arr} (c : circuit (gate (@gdata Arr))) m n q l ctl c' : In (m, n) level_methods -> call_method c (Call m q (AList l) ctl) = (c', None) ->
  exists d a b rest, dims_of (dimensions c) q [d] /\ l = PInt a :: PInt b :: rest /\ angles n rest /\ two_levels d a b.
Proof. exact (call_levels c m n q l ctl c'). Qed.
Print Assumptions C109_levels.

(** Other levels are an AssertionError, and the circuit stays as it was; all pairs of different
    levels are accepted, and the gate has them in the order given. *)
Theorem C109_outside {Arr} (c : circuit (gate (@gdata Arr))) m n t d a b rest : In (m, n) level_methods -> pyindex (dimensions c) t = Ok d -> angles n rest -> ~ two_levels d a b ->
  call_method c (Call m (TInt t) (AList (PInt a :: PInt b :: rest)) None) = (c, Some AssertionError).
Proof. exact (call_outside c m n t d a b rest). Qed.
Print Assumptions C109_outside.
Theorem C109_inside {Arr} (c : circuit (gate (@gdata Arr))) m n t d a b rest : In (m, n) level_methods -> pyindex (dimensions c) t = Ok d -> angles n rest -> two_levels d a b ->
  exists g, call_method c (Call m (TInt t) (AList (PInt a :: PInt b :: rest)) None) = (with_instructions c (number_gates c + 1) (instructions c ++ [g]), None) /\
    d_par (g_data g) = AList (PInt a :: PInt b :: rest) /\ d_dims (g_data g) = [d].
Proof. exact (call_inside c m n t d a b rest). Qed.
Print Assumptions C109_inside.

(** Violations: parameters given as a tuple are dropped without an error, and replaced by the
    default of cx; a level of virtrz that the qudit does not have is dropped without an error. *)
Theorem C109_tuple_refuted {Arr} (c : circuit (gate (@gdata Arr))) m n t d l : In (m, n) (("virtrz"%string, 0) :: level_methods) -> pyindex (dimensions c) t = Ok d ->
  exists g, call_method c (Call m (TInt t) (ATuple l) None) = (with_instructions c (number_gates c + 1) (instructions c ++ [g]), None) /\ d_par (g_data g) = ANone.
Proof. exact (call_tuple c m n t d l). Qed.
Print Assumptions C109_tuple_refuted.
Theorem C109_cx_refuted {Arr} (c : circuit (gate (@gdata Arr))) s t ds l : pyindex (dimensions c) s = Ok (fst ds) -> pyindex (dimensions c) t = Ok (snd ds) ->
  exists g, call_method c (Call "cx" (TList [s; t]) (ATuple l) None) = (with_instructions c (number_gates c + 1) (instructions c ++ [g]), None) /\
    d_par (g_data g) = AList [PInt 0; PInt 1; PInt 1; PFloat 0].
Proof. exact (call_cx_tuple c s t ds l). Qed.
Print Assumptions C109_cx_refuted.
Theorem C109_virtrz_refuted {Arr} (c : circuit (gate (@gdata Arr))) t d a f : pyindex (dimensions c) t = Ok d -> ~ (0 <= a < Z.of_nat d)%Z ->
  exists g, call_method c (Call "virtrz" (TInt t) (AList [PInt a; PFloat f]) None) = (with_instructions c (number_gates c + 1) (instructions c ++ [g]), None) /\ d_par (g_data g) = ANone.
Proof. exact (call_virtrz c t d a f). Qed.
Print Assumptions C109_virtrz_refuted.

(** Example: a controlled rotation between the levels 2 and 0 of a qutrit, and a call with a level
    the qubit does not have. *)
Definition C109_example : circuit (gate (@gdata unit)) := fst (append empty_circuit (new_qreg "q" 2 (Some [2; 3]))).
Example C109_case : exists c' g, call_method C109_example (Call "r" (TInt 1) (AList [PInt 2; PInt 0; PFloat 1; PFloat 2]) (Some ([0%Z], [1%Z]))) = (c', None) /\
  instructions c' = [g] /\ number_gates c' = 1%Z /\ d_tag (g_data g) = "rxy"%string /\ g_target g = TInt 1 /\ d_dims (g_data g) = [3] /\ g_controls g = Some ([0%Z], [1%Z]) /\
  d_par (g_data g) = AList [PInt 2; PInt 0; PFloat 1; PFloat 2].
Proof. eexists. eexists. split; [vm_compute; reflexivity|]. repeat split. Qed.
Example C109_case_outside : call_method C109_example (Call "rh" (TInt 0) (AList [PInt 0; PInt 2]) None) = (C109_example, Some AssertionError).
Proof. apply (C109_outside C109_example "rh"%string 0 0%Z 2); [cbn; auto|reflexivity|exact I|]. intros (_ & H & _). lia. Qed.
