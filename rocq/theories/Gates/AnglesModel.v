(** Angle helpers.  Source: src/mqt/qudits/compiler/compilation_minitools/local_compilation_minitools.py.
    Floats are exact reals. *)
From Coq Require Import Reals Lra.
Open Scope R_scope.

(** np.mod(x, m) for m > 0: x - m * floor(x / m).  [Int_part] is the floor. *)
Definition rmod (x m : R) : R := x - m * IZR (Int_part (x / m)).

(** local_compilation_minitools.py:22-24 (new_mod):
    res if not res else (res - b if a < 0 else res). *)
Definition new_mod (a b : R) : R :=
  let res := rmod a b in
  if Req_EM_T res 0 then res else if Rlt_dec a 0 then res - b else res.

(** local_compilation_minitools.py:27-33 (pi_mod). *)
Definition pi_mod (a0 : R) : R :=
  let a := new_mod a0 (2 * PI) in
  if Rlt_dec 0 a then (if Rlt_dec PI a then a - 2 * PI else a)
  else if Rlt_dec a 0 then (if Rlt_dec PI (Rabs a) then 2 * PI + a else a)
  else a.

(** local_compilation_minitools.py:36-43 (regulate_theta). *)
Definition regulate_theta (angle : R) : R :=
  let t0 := rmod (Rabs (angle / PI)) 4 in
  let t1 := if Rlt_dec angle 0 then t0 * -1 else t0 in
  let t2 := if Rlt_dec (Rabs t1) (2 / 10) then t1 + 4 else t1 in
  t2 * PI.

(** local_compilation_minitools.py:46-49 (phi_cost). *)
Definition phi_cost (theta : R) : R := Rabs (theta / PI) * (1 / 10000).

(** local_compilation_minitools.py:52-54 (theta_cost). *)
Definition theta_cost (theta : R) : R :=
  let u := theta / PI in
  (4 * Rabs u + Rabs (rmod (Rabs u + 1/4) (1/2) - 1/4)) * (1 / 10000).
