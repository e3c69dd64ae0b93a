(** What the two-qudit gates should be. *)
From Coq Require Import Arith Reals.
From Verif Require Import Base.Cplx Base.Matrix.
Open Scope R_scope.
Open Scope C_scope.

(** Row/column of the pair (control level i, target level j) in line order: the lower line is the
    more significant digit.  [lt]: the control line is below the target line. *)
Definition pair_index (lt : bool) (dc dt i j : nat) : nat := if lt then (i * dt + j)%nat else (j * dc + i)%nat.

(** light shift: phase e^{-i theta} on |i,i>, nothing elsewhere *)
Definition ls_phase (i j : nat) (theta : R) : C := if Nat.eqb i j then cis (- theta) else C1.

(** Entry <i' j'| MS(theta) |i j>.  On levels 0,1 of both qudits it is the Molmer-Sorensen
    interaction exp(-i theta (1 + X(x)X)/2); a state with exactly one qudit in levels 0,1 gets the
    phase e^{-i theta/4}; all other states are untouched. *)
Definition in01 (i : nat) : bool := Nat.ltb i 2.
Definition ms_entry (theta : R) (i' j' i j : nat) : C :=
  let same := (Nat.eqb i' i && Nat.eqb j' j)%bool in
  if (in01 i && in01 j)%bool then
    if same then RtoC (1 / 2) * (C1 + cis (- theta))
    else if (Nat.eqb i' (1 - i) && Nat.eqb j' (1 - j))%bool then RtoC (1 / 2) * (cis (- theta) - C1)
    else C0
  else if (in01 i || in01 j)%bool then (if same then cis (- (theta / 4)) else C0)
  else (if same then C1 else C0).
