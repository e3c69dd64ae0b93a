(** Calling a gate method of a circuit.  Source: src/mqt/qudits/quantum_circuit/circuit.py. *)
From Verif Require Import Base.Py Circuit.CircuitModel Circuit.GateModel Qasm.QasmModel.

(** circuit.py:59-66 (add_gate_decorator) around circuit.py:176-300: the method makes the gate, and
    the decorator counts it and puts it at the end.  gellmann (circuit.py:220-226) has no decorator:
    the gate is returned but not added ([None] of [construct]). *)
Definition call_method {Arr} (c : circuit (gate (@gdata Arr))) (a : call) : circuit (gate gdata) * option exn :=
  match construct (num_qudits c) (dimensions c) a with
  | Ok (Some g) => add_gate c (Ok g)
  | Ok None => (c, None)
  | Err e => add_gate c (Err e)
  end.
