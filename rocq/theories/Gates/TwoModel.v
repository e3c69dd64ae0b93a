(** Two-qudit gate matrices.  Source: src/mqt/qudits/quantum_circuit/gates/{csum,cx,ls,ms}.py.
    Same conventions as SingleModel.v. *)
From Coq Require Import List ZArith Arith Reals String.
From Verif Require Import Base.Py Base.Cplx Base.Matrix Base.Expm Gates.SingleModel Gates.FactoryModel.
Open Scope R_scope.
Open Scope C_scope.

(** np.array(from_dirac_to_basis(xs, ds), dtype=complex) *)
Definition basis_vec (xs ds : list nat) : vec :=
  fun k => match from_dirac_to_basis xs ds with Ok v => RtoC (INR (nth k v 0%nat)) | Err _ => C0 end.

(** csum.py:39-57; [dims] is parent_circuit.dimensions, [c], [t] the two target lines.
    X(...).to_matrix(identities=0) is [x_array]. *)
Definition csum_array (dims : list nat) (c t : nat) : mat :=
  let ctrl_size := nth c dims 0%nat in
  let target_size := nth t dims 0%nat in
  msum ctrl_size (fun i =>
    let mapmat := outer (basis_vec [i] [ctrl_size]) (basis_vec [i] [ctrl_size]) in
    let x_i := mpow target_size (x_array target_size) i in
    if Nat.ltb c t then mkron target_size mapmat x_i else mkron ctrl_size x_i mapmat).

(** cx.py:86-107 (validate_parameter) and 41-51 (constructor): levels a, b, control level, angle.
    Anything that is not a list leaves the defaults [0, 1, 1, 0.0]. *)
Record cex := Cex { cx_a : nat; cx_b : nat; cx_ctrl : Z; cx_phi : R }.
Definition cex_new (p : params) : res cex :=
  match p with
  | PList l =>
      let? a := get_int l 0 in let? b := get_int l 1 in let? c := get_int l 2 in let? f := get_float l 3 in
      if (0 <=? a)%Z && (a <? b)%Z then
        if Rle_dec 0 f then if Rle_dec f (2 * PI) then Ok (Cex (Z.to_nat a) (Z.to_nat b) c f)
        else Err AssertionError else Err AssertionError
      else Err AssertionError
  | _ => Ok (Cex 0 1 1 0)
  end.

(** cx.py:68-77: the operator on the target when the control is at its level. *)
Definition cex_op (a b : nat) (ang : R) : mat :=
  let m1 := mset mid a a C0 in
  let m2 := mset m1 a b (- (Ci * RtoC (cos ang)) - RtoC (sin ang)) in
  let m3 := mset m2 b a (- (Ci * RtoC (cos ang)) + RtoC (sin ang)) in
  mset m3 b b C0.

(** cx.py:53-84; [dc], [dt] are self.dimensions, [lt] is target_qudits[0] < target_qudits[1].
    Writing outside the target's array (only reached at the control level) raises IndexError. *)
Definition cex_array (dc dt : nat) (lt : bool) (g : cex) : res mat :=
  if existsb (fun i => (Z.of_nat i =? cx_ctrl g)%Z) (seq 0 dc) && Nat.leb dt (cx_b g) then Err IndexError
  else Ok (msum dc (fun i =>
    let mapmat := outer (basis_vec [i] [dc]) (basis_vec [i] [dc]) in
    let op := if (Z.of_nat i =? cx_ctrl g)%Z then cex_op (cx_a g) (cx_b g) (cx_phi g) else mid in
    if lt then mkron dt mapmat op else mkron dc op mapmat)).

(** ls.py:61-76, ms.py:73-88 with the constructors: the angle of a one-element list. *)
Definition angle_new (l : list param) : res R :=
  let? x := match l with
            | PFloat x :: _ => Ok x | PInt z :: _ => Ok (IZR z) | PStr _ :: _ => Err TypeError
            | [] => Err IndexError end in
  if Rle_dec 0 x then if Rle_dec x (2 * PI) then Ok x else Err AssertionError else Err AssertionError.

(** ls.py:47-59: the exponent; d0, d1 are self.dimensions, in target order. *)
Definition ls_exponent (d0 d1 : nat) (theta : R) : mat :=
  mscal (- (Ci * RtoC theta)) (msum (Nat.min d0 d1) (fun i => outer (basis_vec [i; i] [d0; d1]) (basis_vec [i; i] [d0; d1]))).
(** scipy's expm is specified by [is_expm]: [ls_array d0 d1 theta E] says E is the array. *)
Definition ls_array (d0 d1 : nat) (theta : R) (E : mat) : Prop := is_expm (d0 * d1) (ls_exponent d0 d1 theta) E.

(** ms.py:47-71. *)
Definition ms_part (d0 d1 : nat) : mat :=
  madd (mkron d1 mid (gellmann_array d1 0 1 "s")) (mkron d1 (gellmann_array d0 0 1 "s") mid).
Definition ms_exponent (d0 d1 : nat) (theta : R) : mat :=
  mscal (RtoC (1 / 4)) (mmul (d0 * d1) (mscal (- (Ci * RtoC theta)) (ms_part d0 d1)) (ms_part d0 d1)).
Definition ms_array (d0 d1 : nat) (theta : R) (E : mat) : Prop := is_expm (d0 * d1) (ms_exponent d0 d1 theta) E.
