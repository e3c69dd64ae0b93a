(** The constructor of circuits with any number of arguments, and slices of registers.
    Source: src/mqt/qudits/quantum_circuit/circuit.py:91-119, components/quantum_register.py:50-55,
    components/classic_register.py:38-43. *)
From Verif Require Import Base.Py Circuit.CircuitModel.

(** circuit.py:90: the arguments.  With two or more, the third and later ones are not looked at. *)
Inductive args := NoArgs | AnInt (n : nat) | ARegister (q : qreg) | IntAndDims (n : nat) (dims : option (list nat)).
(** circuit.py:105-119: a single argument that is not a register is not looked at *)
Definition new_circuit {G} (a : args) : circuit G * option exn :=
  match a with
  | NoArgs | AnInt _ => (empty_circuit, None)
  | ARegister q => circuit_of_reg q
  | IntAndDims n dims => circuit_of_dims n dims
  end.

(** range(a, b) *)
Definition zrange (a b : Z) : list Z := map (fun k => (a + Z.of_nat k)%Z) (seq 0 (Z.to_nat (b - a))).
(** local_sitemap[i] *)
Definition local_at (local : list (nat * nat)) (i : Z) : res nat :=
  if (i <? 0)%Z then Err KeyError else match dget Nat.eqb local (Z.to_nat i) with Some n => Ok n | None => Err KeyError end.
(** quantum_register.py:51-53, classic_register.py:39-41: the step of the slice is not looked at, and range(None, ...) and
    range(..., None) raise TypeError *)
Definition local_slice (local : list (nat * nat)) (start stop step : option Z) : res (list nat) :=
  match start, stop with
  | Some a, Some b => mapr (local_at local) (zrange a b)
  | _, _ => Err TypeError
  end.
Definition qreg_slice (q : qreg) : option Z -> option Z -> option Z -> res (list nat) := local_slice (q_local q).
Definition creg_slice (r : creg) : option Z -> option Z -> option Z -> res (list nat) := local_slice (c_local r).
