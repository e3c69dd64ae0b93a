(** Single-qudit gate matrices.  Source: src/mqt/qudits/quantum_circuit/gates/*.py.
    A d x d array is a function nat -> nat -> C, of which only the entries below d matter.
    Floats are exact reals; Python's complex exponentials are [cis]. *)
From Verif Require Import Base.Py Base.Cplx Base.Matrix Gates.AnglesModel.
Open Scope R_scope.
Open Scope C_scope.

(** numpy helpers: np.outer (no conjugation), += accumulation over range(n), np.zeros. *)
Definition outer (x y : vec) : mat := fun i j => x i * y j.
Definition msum (n : nat) (f : nat -> mat) : mat := fun i j => csum n (fun k => f k i j).
(** matrix[a, b] = v *)
Definition mset (m : mat) (a b : nat) (v : C) : mat :=
  fun i j => if (Nat.eqb i a && Nat.eqb j b)%bool then v else m i j.

(** x.py:36-45. *)
Definition x_array (d : nat) : mat :=
  msum d (fun i => outer (ket ((i + 1) mod d)) (ket i)).

(** z.py:36-47: omega = e^(i pi * mod(2 i / d, 2)). *)
Definition z_array (d : nat) : mat :=
  msum d (fun i => mscal (cis (rmod (2 * INR i / INR d) 2 * PI)) (outer (ket i) (ket i))).

(** h.py:37-48. *)
Definition h_array (d : nat) : mat :=
  mscal (RtoC (1 / sqrt (INR d)))
    (msum d (fun e0 => msum d (fun e1 =>
       mscal (cis (rmod (2 / INR d * INR (e0 * e1)) 2 * PI)) (outer (ket e0) (ket e1))))).

(** s.py:54-72 (is_prime).  int(n**0.5) is the integer square root. *)
Definition odd_range (hi : nat) : list nat :=  (* range(3, hi, 2) *)
  map (fun k => (3 + 2 * k)%nat) (seq 0 ((hi - 2) / 2)).
Definition is_prime (n : nat) : bool :=
  if Nat.ltb n 2 then false
  else if Nat.eqb n 2 then true
  else if Nat.eqb (n mod 2) 0 then false
  else forallb (fun i => negb (Nat.eqb (n mod i) 0)) (odd_range (Nat.sqrt n + 1)).

(** s.py:27-39: the constructor's guard.  InvalidQuditDimensionError is the error. *)
Definition s_new (d : nat) : res unit := if is_prime d then Ok tt else Err InvalidQuditDimensionError.

(** s.py:41-52.  (e^(2 pi i / d)) ** x for real x is the principal power e^(2 pi i x / d), since
    2 pi / d is the principal argument for d >= 3. *)
Definition s_array (d : nat) : mat :=
  if Nat.eqb d 2 then fun i j =>
    match i, j with 0%nat, 0%nat => C1 | 1%nat, 1%nat => Ci | _, _ => C0 end
  else msum d (fun i =>
    mscal (cis (2 * PI / INR d * rmod (INR (i * (i + 1)) / 2) (INR d))) (outer (ket i) (ket i))).

(** Parameters as the constructors get them: a list of ints and floats, nothing, or something
    that is neither None nor a list (tuple or array). *)
Inductive param := PInt (z : Z) | PFloat (x : R) | PStr (s : string).
Inductive params := PNone | PList (l : list param) | POther.

(** assert isinstance(parameter[k], int/float); reading past the end raises IndexError. *)
Definition get_int (l : list param) (k : nat) : res Z :=
  match nth_error l k with Some (PInt z) => Ok z | Some _ => Err AssertionError | None => Err IndexError end.
Definition get_float (l : list param) (k : nat) : res R :=
  match nth_error l k with Some (PFloat x) => Ok x | Some _ => Err AssertionError | None => Err IndexError end.
Definition get_str (l : list param) (k : nat) : res string :=
  match nth_error l k with Some (PStr x) => Ok x | Some _ => Err AssertionError | None => Err IndexError end.

(** perm.py:45-63 (validate_parameter) and 38-43 (perm_data is unset when it returns False, so
    __array__ raises AttributeError).  The result has shape d x len(perm). *)
Definition perm_validate (d : nat) (p : list Z) : res bool :=
  if forallb (fun n => (0 <=? n)%Z && (n <? Z.of_nat (List.length p))%Z && (n <? Z.of_nat d)%Z) p
  then Ok true else Err AssertionError.
Definition perm_array (d : nat) (p : list nat) : mat := fun i j => mid i (nth j p 0%nat).
Definition perm_new (d : nat) (p : list Z) : res mat :=
  let? b := perm_validate d p in
  Ok (perm_array d (map Z.to_nat p)).

(** gellmann.py:45-69; m[j,j] accumulations for the diagonal type. *)
Definition gellmann_array (d a b : nat) (t : string) : mat :=
  if String.eqb t "s" then mset (mset (fun _ _ => C0) a b C1) b a C1
  else if String.eqb t "a" then
    let m1 := mset (fun _ _ => C0) a b (C0 - Ci) in
    mset m1 b a (m1 b a + Ci)
  else
    let m0 : mat := fun i j => if (Nat.eqb i j && Nat.ltb i b)%bool then C1 else C0 in
    let m1 := mset m0 b b (m0 b b - RtoC (INR b)) in
    mscal (RtoC (sqrt (2 / (INR b * (INR b + 1))))) m1.

(** gellmann.py:71-92: 0 <= a < b is asserted, the upper range is not. *)
Definition gellmann_validate (a b : Z) : res bool :=
  if (0 <=? a)%Z && (a <? b)%Z then Ok true else Err AssertionError.

(** r.py:49-68, with the GellMann generators of gellmann.py. *)
Definition r_array (d a b : nat) (theta phi : R) : mat :=
  let m0 : mat := mid in
  let m1 := mset m0 a a (RtoC (cos (theta / 2)) * m0 a a) in
  let m2 := mset m1 b b (RtoC (cos (theta / 2)) * m1 b b) in
  msub m2 (mscal (Ci * RtoC (sin (theta / 2)))
    (madd (mscal (RtoC (sin phi)) (gellmann_array d a b "a"))
          (mscal (RtoC (cos phi)) (gellmann_array d a b "s")))).

(** r.py:70-74 (levels_setter). *)
Definition levels_setter (la lb : Z) : Z * Z := if (la <? lb)%Z then (la, lb) else (lb, la).

(** The two levels asserted by r.py:85-89, rz.py:79-83, rh.py:76-80, noise_x.py:68-72. *)
Definition check_levels (d : nat) (a b : Z) : bool :=
  (0 <=? a)%Z && (a <? Z.of_nat d)%Z && (0 <=? b)%Z && (b <? Z.of_nat d)%Z && negb (a =? b)%Z.

Record rot := Rot { lev_a : nat; lev_b : nat; r_theta : R; r_phi : R; orig_a : Z; orig_b : Z }.

(** r.py:76-100 and 40-47 (constructor): Ok None when the parameters are silently ignored. *)
Definition r_new (d : nat) (p : params) : res (option rot) :=
  match p with
  | PList l =>
      let? a := get_int l 0 in let? b := get_int l 1 in
      let? t := get_float l 2 in let? f := get_float l 3 in
      if check_levels d a b then
        let '(la, lb) := levels_setter a b in
        Ok (Some (Rot (Z.to_nat la) (Z.to_nat lb) (regulate_theta t) f a b))
      else Err AssertionError
  | _ => Ok None
  end.

(** r.py:49-68 on the constructed object; with the parameters ignored both levels are 0 and the
    generator's constructor (gellmann.py:30) fails. *)
Definition r_matrix (d : nat) (p : params) : res mat :=
  let? o := r_new d p in
  match o with
  | Some r => Ok (r_array d (lev_a r) (lev_b r) (r_theta r) (r_phi r))
  | None => let? b := gellmann_validate 0 0 in Ok mid
  end.

(** rz.py:47-62: pi_back @ rotate @ pi_there, each an R gate (whose theta is regulated). *)
Definition rz_array (d a b : nat) (phi : R) : mat :=
  let pi_there := r_array d a b (regulate_theta (- PI / 2)) 0 in
  let rotate := r_array d a b (regulate_theta phi) (PI / 2) in
  let pi_back := r_array d a b (regulate_theta (PI / 2)) 0 in
  mmul d (mmul d pi_back rotate) pi_there.

(** rz.py:70-93 and 39-45. *)
Definition rz_matrix (d : nat) (p : params) : res mat :=
  match p with
  | PList l =>
      let? a := get_int l 0 in let? b := get_int l 1 in let? f := get_float l 2 in
      if check_levels d a b then
        let '(la, lb) := levels_setter a b in
        Ok (rz_array d (Z.to_nat la) (Z.to_nat lb) (regulate_theta f))
      else Err AssertionError
  | _ => Err AssertionError (* levels 0,0: the R constructor asserts they differ (r.py:89) *)
  end.

(** rh.py:46-60. *)
Definition rh_array (d a b : nat) : mat :=
  let pi_x := r_array d a b (regulate_theta (- PI)) 0 in
  let rotate := r_array d a b (regulate_theta (PI / 2)) (PI / 2) in
  mmul d pi_x rotate.
(** rh.py:68-90. *)
Definition rh_matrix (d : nat) (p : params) : res mat :=
  match p with
  | PList l =>
      let? a := get_int l 0 in let? b := get_int l 1 in
      if check_levels d a b then
        let '(la, lb) := levels_setter a b in Ok (rh_array d (Z.to_nat la) (Z.to_nat lb))
      else Err AssertionError
  | _ => Err AssertionError
  end.

(** virt_rz.py:44-50. *)
Definition virtrz_array (d l : nat) (phi : R) : mat := mset mid l l (cis (- phi) * mid l l).
(** virt_rz.py:52-67 (validate_parameter never raises) and 38-42: with ignored parameters the
    level is 0 and phi is 0.0 (gate.py:43-46). *)
Definition virtrz_validate (d : nat) (p : params) : option (nat * R) :=
  match p with
  | PList [PInt a; PFloat f] => if (0 <=? a)%Z && (a <? Z.of_nat d)%Z then Some (Z.to_nat a, f) else None
  | _ => None
  end.
Definition virtrz_matrix (d : nat) (p : params) : mat :=
  match virtrz_validate d p with
  | Some (l, f) => virtrz_array d l (regulate_theta f)
  | None => virtrz_array d 0 0
  end.

(** noise_x.py:44-53 and noise_y.py (same with -i, i). *)
Definition noisex_array (d a b : nat) : mat :=
  mset (mset (mset (mset mid a a C0) b b C0) a b C1) b a C1.
Definition noisey_array (d a b : nat) : mat :=
  mset (mset (mset (mset mid a a C0) b b C0) a b (C0 - Ci)) b a Ci.

(** noise_x.py:38-42 and 60-85, noise_y.py (same): the levels are 0, 0 when the parameters are ignored
    (gate.py:43-44). *)
Definition noise_levels (d : nat) (p : params) : res (nat * nat) :=
  match p with
  | PList l =>
      let? a := get_int l 0 in let? b := get_int l 1 in
      if check_levels d a b then
        let '(la, lb) := levels_setter a b in Ok (Z.to_nat la, Z.to_nat lb)
      else Err AssertionError
  | _ => Ok (0, 0)%nat
  end.
Definition noisex_matrix (d : nat) (p : params) : res mat :=
  let? ab := noise_levels d p in Ok (noisex_array d (fst ab) (snd ab)).
Definition noisey_matrix (d : nat) (p : params) : res mat :=
  let? ab := noise_levels d p in Ok (noisey_array d (fst ab) (snd ab)).

(** r.py:102-104, rz.py:95-97, virt_rz.py:69-71 (cost). *)
Definition r_cost (r : rot) : R := theta_cost (r_theta r).
Definition rz_cost (phi : R) : R := phi_cost (regulate_theta phi).
