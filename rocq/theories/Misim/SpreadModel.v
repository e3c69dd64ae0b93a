(** Sharing one excitation among two, three or five registers.
    Source: include/dd/MDDPackage.hpp:1415-1540 (spread2, spread3, spread5), include/dd/GateMatrixDefinitions.hpp:199, 619.

    Simplifications: numbers are exact apart from the tolerance [tol]; the tables of the package are left out (they only
    remember results, see NodeModel.v); [same] compares pointers of nodes; QuantumRegister is nat here, so no cast wraps
    around; the state is passed and returned, where the code also overwrites its argument. *)
From Coq Require Import Arith Reals Bool List.
From Verif Require Import Base.Cplx Base.Matrix Misim.DdModel Misim.MisimModel.
Import ListNotations.
Local Open Scope nat_scope.

(** GateMatrixDefinitions.hpp:51 (Xmat, its own inverse), 199 (X3dag), 619 (X5dag) *)
Definition xdag_table (d : nat) : list (list nat) :=
  match d with
  | 2 => [[0; 1]; [1; 0]]
  | 3 => [[0; 1; 0]; [0; 0; 1]; [1; 0; 0]]
  | 5 => [[0; 1; 0; 0; 0]; [0; 0; 1; 0; 0]; [0; 0; 0; 1; 0]; [0; 0; 0; 0; 1]; [1; 0; 0; 0; 0]]
  | _ => []
  end.
Definition cpp_xdag (d : nat) : mat := fun i j => RtoC (INR (nth j (nth i (xdag_table d) []) 0)).

(** lines.at(k) *)
Definition line_at (lines : list nat) (k : nat) : cres nat :=
  match nth_error lines k with Some l => Done l | None => Throw OutOfRange end.

Section Spread.
Variable tol : R.
Variable same : node -> node -> bool.

(** MDDPackage.hpp:1421-1437, 1450-1466, 1485-1501: minus and xp10, zero matrices unless the register has 2, 3 or 5 levels *)
Definition down_and_up (dims : list nat) (first second : nat) : cres (edge * edge) :=
  match nth_error dims first with
  | None => Throw OutOfRange
  | Some d =>
      if Nat.eqb d 2 || Nat.eqb d 3 || Nat.eqb d 5 then
        let! minus := gate_dd tol dims d (cpp_xdag d) [] first in
        let! xp10 := gate_dd tol dims d (cpp_x d) [(second, 0)] first in Done (minus, xp10)
      else Done (zero_edge, zero_edge)
  end.

(** state = multiply(gate, state), for one gate after the other *)
Fixpoint multiplied (dims : list nat) (gates : list edge) (state : edge) : edge :=
  match gates with [] => state | g :: r => multiplied dims r (multiply2 tol same false (rev dims) g state) end.

(** MDDPackage.hpp:1415-1444 *)
Definition spread2 (dims lines : list nat) (state : edge) : cres edge :=
  let! l0 := line_at lines 0 in let! l1 := line_at lines 1 in
  let! cH := gate_dd tol dims 2 (cpp_h 2) [(l0, 1)] l1 in
  let! mx := down_and_up dims l0 l1 in
  Done (multiplied dims [cH; fst mx; snd mx] state).

(** MDDPackage.hpp:1445-1480 *)
Definition spread3 (dims lines : list nat) (state : edge) : cres edge :=
  let! l0 := line_at lines 0 in let! l1 := line_at lines 1 in
  let! cH := gate_dd tol dims 3 (cpp_h 3) [(l0, 1)] l1 in
  let! mx := down_and_up dims l0 l1 in
  let! l2 := line_at lines 2 in
  let! xp12 := gate_dd tol dims 3 (cpp_x 3) [(l1, 2)] l2 in
  let! csum21 := csum_dd tol same dims l2 l1 true in
  Done (multiplied dims [cH; fst mx; snd mx; xp12; csum21; csum21] state).

(** MDDPackage.hpp:1481-1540 *)
Definition spread5 (dims lines : list nat) (state : edge) : cres edge :=
  let! l0 := line_at lines 0 in let! l1 := line_at lines 1 in
  let! cH := gate_dd tol dims 5 (cpp_h 5) [(l0, 1)] l1 in
  let! mx := down_and_up dims l0 l1 in
  let! l2 := line_at lines 2 in let! xp12 := gate_dd tol dims 5 (cpp_x 5) [(l1, 2)] l2 in
  let! l3 := line_at lines 3 in let! xp13 := gate_dd tol dims 5 (cpp_x 5) [(l1, 3)] l3 in
  let! l4 := line_at lines 4 in let! xp14 := gate_dd tol dims 5 (cpp_x 5) [(l1, 4)] l4 in
  let! csum21 := csum_dd tol same dims l2 l1 true in
  let! csum31 := csum_dd tol same dims l3 l1 true in
  let! csum41 := csum_dd tol same dims l4 l1 true in
  Done (multiplied dims [cH; fst mx; snd mx; xp12; csum21; csum21; xp13; csum31; csum31; csum31;
                         xp14; csum41; csum41; csum41; csum41] state).
End Spread.
