(** The decision diagram simulator of the C++ extension and the backend that calls it.
    Source: src/python/bindings.cpp (readCircuit, parse_noise_model, generateCircuit, getGate, ddsimulator,
    stateVectorSimulation), include/dd/GateMatrixDefinitions.hpp, include/dd/MDDPackage.hpp:1249-1420 (cex, csum),
    src/mqt/qudits/simulation/backends/misim.py:54-72.

    Simplifications.  Lines, dimensions and levels are natural numbers without an upper limit (the code has 8-bit
    registers and control levels); the line of a gate is a line of the register (a negative one is not modelled).
    Calling a method on a null pybind11 object or reading through a null node pointer ends the process: [Crash]. *)
From Coq Require Import List ZArith Arith Reals String Bool.
From Verif Require Import Base.Cplx Base.Matrix Gates.AnglesModel Gates.SingleModel Sim.TnModel Misim.DdModel.
Import ListNotations.
Local Open Scope nat_scope.

(** Exceptions: std::invalid_argument, std::out_of_range, pybind11::cast_error, a Python IndexError; and the end of
    the process. *)
Inductive cerr := InvalidArgument | OutOfRange | CastError | IndexErr | Crash.
Inductive cres (A : Type) := Done (x : A) | Throw (e : cerr).
Arguments Done {A} x. Arguments Throw {A} e.
Definition cbind {A B} (x : cres A) (f : A -> cres B) : cres B := match x with Done a => f a | Throw e => Throw e end.
Notation "'let!' x ':=' e 'in' f" := (cbind e (fun x => f)) (at level 200, x name, e at level 100, f at level 200).

(** bindings.cpp:190-237 (readCircuit): what is read of a gate.  The dimensions and the targets of a gate on one line
    are lists of one element; the gate type is only used in assertions that are off in a release build. *)
Record instr := Instr {
  i_tag : string; i_dag : bool; i_dims : list nat; i_targets : list nat; i_params : params;
  i_controls : option (list nat * list nat)
}.

(** params.cast<py::list>(); None and an empty list were read as a null object (bindings.cpp:214-218). *)
Definition plist (p : params) : cres (list param) :=
  match p with PNone | PList [] => Throw Crash | PList l => Done l | POther => Throw CastError end.
(** pl[k].cast<size_t>(), cast<double>(), cast<dd::Control::Type>() *)
Definition get_size (l : list param) (k : nat) : cres nat :=
  match nth_error l k with
  | Some (PInt z) => if (z <? 0)%Z then Throw CastError else Done (Z.to_nat z)
  | Some _ => Throw CastError
  | None => Throw IndexErr
  end.
Definition get_double (l : list param) (k : nat) : cres R :=
  match nth_error l k with
  | Some (PInt z) => Done (IZR z)
  | Some (PFloat x) => Done x
  | Some (PStr _) => Throw CastError
  | None => Throw IndexErr
  end.

(** GateMatrixDefinitions.hpp.  Arrays are row major; d is the dimension, 2 to 7.
    The tables of H (lines 123, 181, 346, 524, 738, 943): entry k stands for cos(2 pi k / d) + i sin(2 pi k / d),
    times 1 / sqrt d. *)
Definition h_table (d : nat) : list (list nat) :=
  match d with
  | 2 => [[0; 0]; [0; 1]]
  | 3 => [[0; 0; 0]; [0; 1; 2]; [0; 2; 1]]
  | 4 => [[0; 0; 0; 0]; [0; 1; 2; 3]; [0; 2; 4; 6]; [0; 3; 6; 9]]
  | 5 => [[0; 0; 0; 0; 0]; [0; 1; 2; 3; 4]; [0; 2; 4; 6; 8]; [0; 3; 6; 9; 12]; [0; 4; 8; 12; 16]]
  | 6 => [[0; 0; 0; 0; 0; 0]; [0; 1; 2; 3; 4; 5]; [0; 2; 4; 6; 8; 10]; [0; 3; 6; 9; 12; 15]; [0; 4; 8; 12; 16; 20]; [0; 5; 10; 15; 20; 25]]
  | 7 => [[0; 0; 0; 0; 0; 0; 0]; [0; 1; 2; 3; 4; 5; 6]; [0; 2; 4; 6; 8; 10; 12]; [0; 3; 6; 9; 12; 15; 18]; [0; 4; 8; 12; 16; 20; 24];
          [0; 5; 10; 15; 20; 25; 30]; [0; 6; 12; 18; 24; 30; 36]]
  | _ => []
  end.
Definition cpp_h (d : nat) : mat := fun i j =>
  Cmul (RtoC (1 / sqrt (INR d))) (cis (INR (nth j (nth i (h_table d) []) 0) * (2 * PI) / INR d)).
(** The tables of X (lines 51, 203, 424, 627, 855, 1088). *)
Definition x_table (d : nat) : list (list nat) :=
  match d with
  | 2 => [[0; 1]; [1; 0]]
  | 3 => [[0; 0; 1]; [1; 0; 0]; [0; 1; 0]]
  | 4 => [[0; 0; 0; 1]; [1; 0; 0; 0]; [0; 1; 0; 0]; [0; 0; 1; 0]]
  | 5 => [[0; 0; 0; 0; 1]; [1; 0; 0; 0; 0]; [0; 1; 0; 0; 0]; [0; 0; 1; 0; 0]; [0; 0; 0; 1; 0]]
  | 6 => [[0; 0; 0; 0; 0; 1]; [1; 0; 0; 0; 0; 0]; [0; 1; 0; 0; 0; 0]; [0; 0; 1; 0; 0; 0]; [0; 0; 0; 1; 0; 0]; [0; 0; 0; 0; 1; 0]]
  | 7 => [[0; 0; 0; 0; 0; 0; 1]; [1; 0; 0; 0; 0; 0; 0]; [0; 1; 0; 0; 0; 0; 0]; [0; 0; 1; 0; 0; 0; 0]; [0; 0; 0; 1; 0; 0; 0];
          [0; 0; 0; 0; 1; 0; 0]; [0; 0; 0; 0; 0; 1; 0]]
  | _ => []
  end.
Definition cpp_x (d : nat) : mat := fun i j => RtoC (INR (nth j (nth i (x_table d) []) 0)).
(** Z: line 53 for d = 2, lines 289, 458, 665, 882, 1117.  fmod is [rmod] here, the arguments are not negative. *)
Definition cpp_z (d : nat) : mat :=
  if Nat.eqb d 2 then fun i j => match i, j with 0, 0 => C1 | 1, 1 => Copp C1 | _, _ => C0 end
  else fun i j => if Nat.eqb i j then cis (rmod (2 * INR i / INR d) 2 * PI) else C0.
(** S: line 55 for d = 2, lines 300, 472, 680, 892, 1127. *)
Definition cpp_s (d : nat) : mat :=
  if Nat.eqb d 2 then fun i j => match i, j with 0, 0 => C1 | 1, 1 => Ci | _, _ => C0 end
  else fun i j => if Nat.eqb i j then cis (rmod (2 / INR d * INR i * INR (i + 1) / 2) 2 * PI) else C0.
(** The matrices on two levels (RXY, RH, RZ, embX), lines 127-163 for d = 2, where the levels are 0 and 1 whatever is
    asked for, and e.g. 235-264, 312-326 for d = 3: the identity with four entries written one after the other. *)
Definition bad_levels (d a b : nat) : bool := Nat.ltb b a || Nat.ltb (d - 1) a || Nat.ltb (d - 1) b.
Definition four (aa ab ba bb : C) (a b : nat) : mat := mset (mset (mset (mset mid a a aa) a b ab) b a ba) b b bb.
Definition on_levels (d a b : nat) (f : nat -> nat -> mat) : cres mat :=
  if Nat.eqb d 2 then Done (f 0 1) else if bad_levels d a b then Throw InvalidArgument else Done (f a b).
Definition cpp_rxy (d : nat) (theta phi : R) (a b : nat) : cres mat :=
  on_levels d a b (four (cos (theta / 2), 0%R) (- sin (theta / 2) * sin phi, - sin (theta / 2) * cos phi)%R
                        (sin (theta / 2) * sin phi, - sin (theta / 2) * cos phi)%R (cos (theta / 2), 0%R)).
Definition cpp_rh (d a b : nat) : cres mat :=
  let h := (1 / sqrt 2)%R in on_levels d a b (four (0%R, h) (0%R, h) (0%R, h) (0%R, - h)%R).
Definition cpp_rz (d : nat) (phi : R) (a b : nat) : cres mat :=
  on_levels d a b (fun a b => mset (mset mid a a (cos (phi / 2), - sin (phi / 2))%R) b b (cos (phi / 2), sin (phi / 2))%R).
Definition cpp_emb_x (d : nat) (phi : R) (a b : nat) : cres mat :=
  on_levels d a b (four C0 (- sin phi, - cos phi)%R (sin phi, - cos phi)%R C0).
(** VirtRZ: lines 151, 281, 449, 654, 876, 1111.  array.at(i + i*d) throws behind the end of the array. *)
Definition cpp_virtrz (d : nat) (phi : R) (i : nat) : cres mat :=
  if Nat.ltb (i + i * d) (d * d) then Done (mset mid i i (cos phi, - sin phi)%R) else Throw OutOfRange.

Definition supported (d : nat) : bool := Nat.leb 2 d && Nat.leb d 7.

Section Simulation.
Variable tol : R.
Variable same : node -> node -> bool.

(** bindings.cpp:501-744 (getGate), the tags with one matrix: the parameters are read first, then the dimension of the
    gate is looked at; None: no matrix of this dimension, the gate stays a null edge. *)
Definition single_matrix (tag : string) (p : params) (k : option nat) : cres (option mat) :=
  let with_dim (f : nat -> cres mat) : cres (option mat) :=
    match k with Some d => if supported d then let! M := f d in Done (Some M) else Done None | None => Done None end in
  if String.eqb tag "rxy" then
    let! l := plist p in let! a := get_size l 0 in let! b := get_size l 1 in
    let! theta := get_double l 2 in let! phi := get_double l 3 in with_dim (fun d => cpp_rxy d theta phi a b)
  else if String.eqb tag "rz" then
    let! l := plist p in let! a := get_size l 0 in let! b := get_size l 1 in
    let! phi := get_double l 2 in with_dim (fun d => cpp_rz d phi a b)
  else if String.eqb tag "rh" then
    let! l := plist p in let! a := get_size l 0 in let! b := get_size l 1 in with_dim (fun d => cpp_rh d a b)
  else if String.eqb tag "virtrz" then
    let! l := plist p in let! a := get_size l 0 in let! phi := get_double l 1 in with_dim (fun d => cpp_virtrz d phi a)
  else if String.eqb tag "x" then with_dim (fun d => Done (cpp_x d))
  else if String.eqb tag "s" then with_dim (fun d => Done (cpp_s d))
  else if String.eqb tag "z" then with_dim (fun d => Done (cpp_z d))
  else if String.eqb tag "h" then with_dim (fun d => Done (cpp_h d))
  else Done None.

(** dd->makeGateDD<...> *)
Definition gate_dd (dims : list nat) (d : nat) (M : mat) (controls : list (nat * nat)) (t : nat) : cres edge :=
  match make_gate tol dims d M controls t with Some e => Done e | None => Throw OutOfRange end.
Definition dag_dd (dims : list nat) (dag : bool) (e : edge) : edge := if dag then conj_transpose tol (rev dims) e else e.

(** MDDPackage.hpp:1250-1310 (cex) *)
Definition cex_dd (dims : list nat) (level : nat) (phi : R) (a b c t : nat) (dag : bool) : cres edge :=
  match nth_error dims t with
  | None => Throw OutOfRange
  | Some d =>
      if supported d then
        let! M := cpp_emb_x d phi a b in let! e := gate_dd dims d M [(c, level)] t in Done (dag_dd dims dag e)
      else Throw InvalidArgument
  end.
(** MDDPackage.hpp:1312-1420 (csum): for every level i of the control, i times a controlled X. *)
Fixpoint times (n : nat) (dims : list nat) (gate res : edge) : edge :=
  match n with O => res | S m => times m dims gate (multiply2 tol same true (rev dims) res gate) end.
Fixpoint csum_levels (dims : list nat) (d c t : nat) (levels : list nat) (res : edge) : cres edge :=
  match levels with
  | [] => Done res
  | i :: r => let! e := gate_dd dims d (cpp_x d) [(c, i)] t in csum_levels dims d c t r (times i dims e res)
  end.
Definition csum_dd (dims : list nat) (c t : nat) (dag : bool) : cres edge :=
  match nth_error dims t with
  | None => Throw OutOfRange
  | Some d =>
      if supported d then
        match nth_error dims c with
        | None => Throw OutOfRange
        | Some dc => let! e := csum_levels dims d c t (seq 0 dc) (make_ident tol (rev dims)) in Done (dag_dd dims dag e)
        end
      else Throw InvalidArgument
  end.

(** bindings.cpp:500-763 (getGate).  The controls of the instruction are read and thrown away (lines 511-516).  A gate
    that stays a null edge ends the process when it is transposed or multiplied. *)
Definition get_gate (dims : list nat) (i : instr) : cres edge :=
  match i_targets i with
  | [] => Throw OutOfRange
  | t :: more =>
      if String.eqb (i_tag i) "cx" then
        let! l := plist (i_params i) in let! a := get_size l 0 in let! b := get_size l 1 in
        let! level := get_size l 2 in let! phi := get_double l 3 in
        match more with t1 :: _ => cex_dd dims level phi a b t t1 (i_dag i) | [] => Throw OutOfRange end
      else if String.eqb (i_tag i) "csum" then
        match more with t1 :: _ => csum_dd dims t t1 (i_dag i) | [] => Throw OutOfRange end
      else
        let! m := single_matrix (i_tag i) (i_params i) (match i_dims i with [d] => Some d | _ => None end) in
        match m, i_dims i with
        | Some M, d :: _ => let! e := gate_dd dims d M [] t in Done (dag_dd dims (i_dag i) e)
        | _, _ => Throw Crash
        end
  end.

(** bindings.cpp:765-792 (ddsimulator) *)
Fixpoint run_dd (dims : list nat) (is : list instr) (psi : edge) : cres edge :=
  match is with
  | [] => Done psi
  | i :: r => let! g := get_gate dims i in run_dd dims r (multiply2 tol same false (rev dims) g psi)
  end.
Definition ddsimulator (dims : list nat) (is : list instr) : cres vec :=
  let! psi := run_dd dims is (zero_state tol dims) in Done (get_vector tol dims psi).

(** bindings.cpp:246-286 (parse_noise_model): per tag the modes with the two probabilities; std::map keeps them
    sorted, names before lists of lines, and the model's list is in that order.  [None]: a dictionary instead of a
    Noise object (physical noise), std::invalid_argument. *)
Inductive mode := Lines (l : list nat) | Named (s : string).
Definition noise_table := list (string * list (mode * option (R * R))).
Definition find_tag (nm : noise_table) (tag : string) : list (mode * option (R * R)) :=
  match find (fun e => String.eqb (fst e) tag) nm with Some e => snd e | None => [] end.
Definition physical (nm : noise_table) : bool := existsb (fun e => existsb (fun m => match snd m with None => true | _ => false end) (snd e)) nm.

(** std::discrete_distribution({1 - p, p}) with a uniform number u in [0,1): the choice is 1. *)
Definition chosen (p u : R) : bool := if Rle_dec (1 - p) u then true else false.
(** bindings.cpp:306-316, 335-354: the lines a mode stands for.  The lines of the controls are only added when there
    are no levels. *)
Definition mode_lines (num : nat) (i : instr) (m : mode) : cres (list nat) :=
  let reference := (i_targets i ++ match i_controls i with Some (cs, []) => cs | _ => [] end)%list in
  match m with
  | Lines l => Done l
  | Named s =>
      if String.eqb s "local" then Done reference
      else if String.eqb s "all" then Done (seq 0 num)
      else if String.eqb s "nonlocal" then Done reference
      else if String.eqb s "control" then match i_targets i with t :: _ => Done [t] | [] => Throw OutOfRange end
      else if String.eqb s "target" then match i_targets i with _ :: t :: _ => Done [t] | _ => Throw OutOfRange end
      else Done []
  end.
(** bindings.cpp:356-404, 407-453: the gate that stands for the error on one line; [x] for the x error. *)
Definition on_two_levels (tag : string) : bool := String.eqb tag "rxy" || String.eqb tag "rz" || String.eqb tag "virtrz".
Definition error_gate (dims : list nat) (i : instr) (x : bool) (q : nat) : cres instr :=
  let d := nth q dims 0 in
  if on_two_levels (i_tag i) then
    let! l := plist (i_params i) in
    let! v0 := get_size l 0 in
    let! ab := (if String.eqb (i_tag i) "virtrz" then Done (if Nat.eqb v0 (d - 1) then (d - 2, d - 1) else (v0, v0 + 1))
                else let! v1 := get_size l 1 in Done (v0, v1)) in
    let lev := [PInt (Z.of_nat (fst ab)); PInt (Z.of_nat (snd ab)); PFloat PI] in
    Done (if x then Instr "rxy" false [d] [q] (PList (lev ++ [PFloat (PI / 2)])) None
          else Instr "rz" false [d] [q] (PList lev) None)
  else Done (Instr (if x then "x" else "z") false [d] [q] PNone None).
Fixpoint error_gates (dims : list nat) (i : instr) (x : bool) (qs : list nat) : cres (list instr) :=
  match qs with
  | [] => Done []
  | q :: r => let! g := error_gate dims i x q in let! gs := error_gates dims i x r in Done (g :: gs)
  end.
(** bindings.cpp:318-457: one mode; [u], [v] are the two random numbers. *)
Definition mode_errors (dims : list nat) (i : instr) (m : mode) (p : R * R) (u v : R) : cres (list instr) :=
  let x := chosen (fst p) u in
  let z := chosen (snd p) v in
  if x || z then
    let! qs := mode_lines (List.length dims) i m in
    let! xs := (if x then error_gates dims i true qs else Done []) in
    let! zs := (if z then error_gates dims i false qs else Done []) in
    Done (xs ++ zs)%list
  else Done [].
(** bindings.cpp:288-475 (generateCircuit); [draw] k is the k-th random number, the result says how many were used. *)
Fixpoint modes_errors (dims : list nat) (i : instr) (ms : list (mode * option (R * R))) (draw : nat -> R) (k : nat) : cres (list instr * nat) :=
  match ms with
  | [] => Done ([], k)
  | (m, Some p) :: r =>
      let! es := mode_errors dims i m p (draw k) (draw (k + 1)) in
      let! rest := modes_errors dims i r draw (k + 2) in
      Done ((es ++ fst rest)%list, snd rest)
  | (_, None) :: _ => Throw InvalidArgument
  end.
Fixpoint generate (dims : list nat) (nm : noise_table) (draw : nat -> R) (k : nat) (is : list instr) : cres (list instr) :=
  match is with
  | [] => Done []
  | i :: r =>
      let! es := modes_errors dims i (find_tag nm (i_tag i)) draw k in
      let! rest := generate dims nm draw (snd es) r in
      Done (i :: fst es ++ rest)%list
  end.
(** bindings.cpp:794-810 (stateVectorSimulation) *)
Definition simulate (dims : list nat) (nm : noise_table) (draw : nat -> R) (is : list instr) : cres vec :=
  if physical nm then Throw InvalidArgument else let! noisy := generate dims nm draw 0 is in ddsimulator dims noisy.
(** misim.py:54-72 (execute); without a noise model an empty one is used. *)
Definition misim (dims : list nat) (nm : noise_table) (draw : nat -> R) (is : list instr) : cres vec :=
  let! v := simulate dims nm draw is in Done (reverse_axes dims v).

End Simulation.
