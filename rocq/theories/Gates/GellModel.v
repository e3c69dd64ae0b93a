(** The Gell-Mann gate.
    Source: src/mqt/qudits/quantum_circuit/gates/gellmann.py.  The array of entries is in SingleModel.v (gellmann_array). *)
From Coq Require Import ZArith String.
From Verif.Base Require Import Py Cplx Matrix.
From Verif.Gates Require Import SingleModel.
Local Open Scope Z_scope.

(** gellmann.py:20-43, 71-92: the constructor with parameters [a, b, t]; what it stores *)
Definition gellmann_new (a b : Z) (t : string) : res (nat * nat * string) :=
  let? ok := gellmann_validate a b in Ok (Z.to_nat a, Z.to_nat b, t).
(** gellmann.py:45-69: the array of the gate, with numpy's IndexError for a level that the qudit does not have (b is the larger one,
    and every branch writes to row b). *)
Definition gellmann_matrix (d : nat) (a b : Z) (t : string) : res mat :=
  let? p := gellmann_new a b t in
  let '(a', b', t') := p in if Nat.ltb b' d then Ok (gellmann_array d a' b' t') else Err IndexError.
