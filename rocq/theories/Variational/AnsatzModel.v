(** The ansatz of the variational compiler: its parameters, its matrix and the circuit emitted for it; the
    rotations of the sparsifier.
    Source: src/mqt/qudits/compiler/twodit/variational_twodit_compilation/parametrize.py, sparsifier.py,
    layered_compilation.py, ansatz/ansatz_gen.py, ansatz/ansatz_gen_utils.py, ansatz/instantiate.py,
    opt/optimizer.py and src/mqt/qudits/compiler/compilation_minitools/numerical_ansatz_utils.py.

    A numpy matrix with its size is a pair (n, entries).  [expm n A] stands for scipy.linalg.expm on n x n
    matrices; what is assumed of it is stated where it is used.  Floats are exact reals. *)
From Coq Require Import Reals.
From Verif.Base Require Import Py Cplx Matrix Radix Expm.
From Verif.Circuit Require Import GateModel.
From Verif.Gates Require Import AnglesModel SingleModel FactoryModel TwoModel.
Local Open Scope string_scope.
Local Open Scope list_scope.
Local Open Scope nat_scope.

(** ansatz_gen_utils.py:19-20 (reindex). *)
Definition reindex (ir jc num_col : nat) : nat := ir * num_col + jc.
(** ansatz_gen_utils.py:23-25. *)
Definition bound_1 : R * R := (0%R, PI).
Definition bound_2 : R * R := (0%R, (PI / 2)%R).
Definition bound_3 : R * R := (0%R, (2 * PI)%R).

(** parametrize.py:16-44 (params_splitter).  The loop over range(0, len, step); [fuel] bounds the number of
    blocks.  len % 0 raises ZeroDivisionError. *)
Fixpoint split_loop {A} (fuel : nat) (n m : nat) (p : list A) : list (list A) :=
  match fuel, p with
  | _, [] => []
  | O, _ => []
  | S f, _ => firstn n p :: firstn m (skipn n p) :: split_loop f n m (skipn (n + m) p)
  end.
Definition params_splitter {A} (p : list A) (dims : list nat) : res (list (list A)) :=
  match dims with
  | [d0; d1] =>
      let n := d0 * d0 - 1 in
      let m := d1 * d1 - 1 in
      if n + m =? 0 then Err ZeroDivisionError
      else if negb (List.length p mod (n + m) =? 0) then Err ValueError
      else Ok (split_loop (List.length p) n m p)
  | _ => Err ValueError
  end.

(** optimizer.py:48-63 (bounds_assigner) with num_params_single = d*d - 1: the d*d assignments in the order
    of the loops; every index is written once and is in range. *)
Definition set_at {A} (l : list A) (i : nat) (x : A) : list A := firstn i l ++ match skipn i l with [] => [] | _ :: r => x :: r end.
Definition bounds_assigner (b1 b2 b3 : R * R) (d : nat) : list (R * R) :=
  let start := repeat (0%R, 0%R) (d * d) in
  let final := fold_left (fun acc mn => let '(m, n) := mn in
    set_at acc (reindex m n d) (if m =? n then b3 else if n <? m then b1 else b2))
    (flat_map (fun m => map (fun n => (m, n)) (seq 0 d)) (seq 0 d)) start in
  removelast final.
(** optimizer.py:65-84 (return_bounds). *)
Definition return_bounds (d0 d1 layers : nat) : list (R * R) :=
  concat (repeat (bounds_assigner bound_1 bound_2 bound_3 d0 ++ bounds_assigner bound_1 bound_2 bound_3 d1) (layers + 1 + 1)).

Definition smat : Type := (nat * mat)%type.
(** numerical_ansatz_utils.py:21-43 (gate_expand_to_circuit), for a target that is not negative. *)
Definition skron (a b : smat) : smat := (fst a * fst b, mkron (fst b) (snd a) (snd b)).
Definition identities (dims : list nat) (ixs : list nat) : res (list smat) :=
  mapr (fun i => let? d := pyindex dims (Z.of_nat i) in Ok (d, mid)) ixs.
Fixpoint kron_all (l : list smat) : smat :=
  match l with [] => (1, mid) | [a] => a | a :: r => skron a (kron_all r) end.
Definition gate_expand (g : smat) (size target : nat) (dims : list nat) : res smat :=
  if size <? 1 then Err ValueError
  else if size <=? target then Err ValueError
  else let? upper := identities dims (seq (target + 1) (size - (target + 1))) in
       let? lower := identities dims (seq 0 target) in
       Ok (kron_all (lower ++ [g] ++ upper)).

(** numerical_ansatz_utils.py:46-64 (apply_gate_to_tlines) with the targets as a list: the expanded gates are
    added to a zero matrix of size 2**size; an array of another size is rejected, unless it has one entry. *)
Definition add_to (n : nat) (acc : mat) (e : smat) : res mat :=
  if fst e =? n then Ok (madd acc (snd e))
  else if fst e =? 1 then Ok (fun i j => (acc i j + snd e 0 0)%C)
  else Err ValueError.
Fixpoint apply_to_lines (g : smat) (size : nat) (targets dims : list nat) (acc : mat) : res mat :=
  match targets with
  | [] => Ok acc
  | t :: r => let? e := gate_expand g size t dims in let? a := add_to (2 ^ size) acc e in apply_to_lines g size r dims a
  end.
Definition apply_gate_to_tlines (g : smat) (size : nat) (targets dims : option (list nat)) : res mat :=
  apply_to_lines g size (match targets with Some t => t | None => seq 0 size end)
    (match dims with Some d => d | None => repeat 2 size end) mzero.

Section Ansatz.
Variable expm : nat -> mat -> mat.

(** parametrize.py:47-77 (generic_sud): the two kinds of generators; np.array([..]).T.conj() of a real basis
    vector is itself. *)
Definition bvec (i d : nat) : vec := basis_vec [i] [d].
Definition z_gen (a b d : nat) : mat := msub (outer (bvec a d) (bvec a d)) (outer (bvec b d) (bvec b d)).
Definition y_gen (a b d : nat) : mat := madd (mscal (- Ci)%C (outer (bvec a d) (bvec b d))) (mscal Ci (outer (bvec b d) (bvec a d))).
(** c_unitary @ expm(1j * params[k] * gen) *)
Definition sud_step (p : list R) (d : nat) (u : mat) (k : nat) (gen : mat) : res mat :=
  let? x := pyindex p (Z.of_nat k) in Ok (mmul d u (expm d (mscal (Ci * RtoC x)%C gen))).
Fixpoint sud_diag (p : list R) (d : nat) (ls : list nat) (u : mat) : res mat :=
  match ls with
  | [] => Ok u
  | l :: r => let? u' := sud_step p d u (reindex l l d) (z_gen l (d - 1) d) in sud_diag p d r u'
  end.
Fixpoint sud_off (p : list R) (d : nat) (mns : list (nat * nat)) (u : mat) : res mat :=
  match mns with
  | [] => Ok u
  | mn :: r =>
      let? u1 := sud_step p d u (reindex (snd mn) (fst mn) d) (z_gen (fst mn) (snd mn) d) in
      let? u2 := sud_step p d u1 (reindex (fst mn) (snd mn) d) (y_gen (fst mn) (snd mn) d) in
      sud_off p d r u2
  end.
Definition pairs_up (d : nat) : list (nat * nat) :=
  flat_map (fun m => map (fun n => (m, n)) (seq (m + 1) (d - (m + 1)))) (seq 0 (d - 1)).
Definition generic_sud (p : list R) (d : nat) : res mat :=
  let? u := sud_diag p d (seq 0 (d - 1)) mid in sud_off p d (pairs_up d) u.

(** ansatz_gen.py:19-38 (prepare_ansatz): the loop from counter [c] on; [u] is the matrix of the primitive,
    or the exception of multiplying with None. *)
Fixpoint ansatz_loop (dims : list nat) (u : res mat) (ps : list (list R)) (c : nat) (acc : mat) : res mat :=
  let N := prodl dims in
  match ps with
  | [] => Ok acc
  | p :: r =>
      let? ca := if c =? 2 then (let? m := u in Ok (0, mmul N acc m)) else Ok (c, acc) in
      let? d := pyindex dims (Z.of_nat (fst ca)) in
      let? s := generic_sud p d in
      let? e := gate_expand (d, s) 2 (fst ca) dims in
      ansatz_loop dims u r (fst ca + 1) (mmul N (snd ca) (snd e))
  end.
Definition prepare_ansatz (u : res mat) (ps : list (list R)) (dims : list nat) : res mat :=
  let? d := pyindex dims 0 in
  let? i := gate_expand (d, mid) 2 0 dims in
  ansatz_loop dims u ps 0 (snd i).

(** layered_compilation.py:37-44, ansatz_gen_utils.py:11-16: the ansatz and the custom primitive. *)
Inductive ansatz := MS | LS | CU (primitive : option (gate mat)).
(** ansatz_gen.py:61-66, instantiate.py:56-61. *)
Definition ls_theta (dims : list nat) : R :=
  if existsb (Nat.eqb 2) dims then (PI / 2)%R else if existsb (Nat.eqb 3) dims then (2 * PI / 3)%R else PI.
(** gates.MS / gates.LS on lines 0 and 1 of a circuit with dimensions [cdims]; [d0], [d1] is the dimension
    list given to the gate (ms.py:21-71, ls.py:21-59).  All angles used are in the allowed range. *)
Definition ms_gate (cdims : list nat) (d0 d1 : nat) : res (gate mat) :=
  let? th := angle_new [PFloat (PI / 2)] in
  new_gate (List.length cdims) cdims "MS" TWO (TList [0%Z; 1%Z]) None (expm (d0 * d1) (ms_exponent d0 d1 th)).
Definition ls_gate (cdims : list nat) (d0 d1 : nat) : res (gate mat) :=
  let? th := angle_new [PFloat (ls_theta [d0; d1])] in
  new_gate (List.length cdims) cdims "LS" TWO (TList [0%Z; 1%Z]) None (expm (d0 * d1) (ls_exponent d0 d1 th)).

(** ansatz_gen.py:41-75 (cu_ansatz, ms_ansatz, ls_ansatz).  np.matmul with the gate object itself uses
    __array__, without the dagger flag; np.matmul with None fails. *)
Definition ansatz_matrix (a : ansatz) (p : list R) (d0 d1 : nat) : res mat :=
  let? ps := params_splitter p [d0; d1] in
  match a with
  | CU c => prepare_ansatz (match c with Some g => Ok (g_data g) | None => Err TypeError end) ps [d0; d1]
  | MS => let? g := ms_gate [d0; d1] d0 d1 in let? m := generate_matrix [d0; d1] 0 g in prepare_ansatz (Ok m) ps [d0; d1]
  | LS => let? g := ls_gate [d0; d1] d0 d1 in let? m := generate_matrix [d0; d1] 0 g in prepare_ansatz (Ok m) ps [d0; d1]
  end.

(** CustomOne(circuit, "CUo_SUD", line, generic_sud(p, d), d) on a circuit with dimensions [cdims]. *)
Definition sud_gate (cdims : list nat) (line : nat) (p : list R) (d : nat) : res (gate mat) :=
  let? s := generic_sud p d in
  new_gate (List.length cdims) cdims "CUo_SUD" SINGLE (TInt (Z.of_nat line)) None s.
(** instantiate.py:20-41 (ansatz_decompose). *)
Fixpoint decompose_loop (cdims dims : list nat) (u : gate mat) (ps : list (list R)) (c : nat) (acc : list (gate mat)) : res (list (gate mat)) :=
  match ps with
  | [] => Ok acc
  | p :: r =>
      let ca := if c =? 2 then (0, acc ++ [u]) else (c, acc) in
      let? d := pyindex dims (Z.of_nat (fst ca)) in
      let? g := sud_gate cdims (fst ca) p d in
      decompose_loop cdims dims u r (fst ca + 1) (snd ca ++ [g])
  end.
Definition ansatz_decompose (cdims dims : list nat) (u : option (gate mat)) (ps : list (list R)) : res (list (gate mat)) :=
  match u with None => Err ValueError | Some u => decompose_loop cdims dims u ps 0 [] end.
(** instantiate.py:44-65 (create_cu_instance, create_ms_instance, create_ls_instance). *)
Definition create_instance (a : ansatz) (cdims : list nat) (p : list R) (d0 d1 : nat) : res (list (gate mat)) :=
  let? ps := params_splitter p [d0; d1] in
  match a with
  | CU c => ansatz_decompose cdims [d0; d1] c ps
  | MS => let? g := ms_gate cdims d0 d1 in ansatz_decompose cdims [d0; d1] (Some g) ps
  | LS => let? g := ls_gate cdims d0 d1 in ansatz_decompose cdims [d0; d1] (Some g) ps
  end.

(** layered_compilation.py:21-46 (variational_compile): the instructions of the emitted circuit, for the
    parameters the search returned (SearchModel.v).  itemgetter with several lines gives a tuple,
    which must have two entries; with one line it gives the integer itself, which cannot be unpacked. *)
Definition variational_instructions (a : ansatz) (cdims : list nat) (target : gate mat) (p : list R) : res (list (gate mat)) :=
  let? ls := reference_lines target in
  let? ds := mapr (pyindex cdims) ls in
  match ds with
  | [d0; d1] => create_instance a cdims p d0 d1
  | [_] => Err TypeError
  | _ => Err ValueError
  end.

(** sparsifier.py:24-34 (apply_rotations); params[k] fails when there are fewer than four blocks. *)
Definition apply_rotations (m : mat) (p : list R) (d0 d1 : nat) : res mat :=
  let dims := [d0; d1] in
  let N := prodl dims in
  let? ps := params_splitter p dims in
  let rot k t := (let? q := pyindex ps (Z.of_nat k) in let? d := pyindex dims (Z.of_nat t) in
                  let? s := generic_sud q d in gate_expand (d, s) 2 t dims) in
  let? r1 := rot 0 0 in let? r2 := rot 1 1 in let? r3 := rot 2 0 in let? r4 := rot 3 1 in
  Ok (mmul N (mmul N (mmul N (mmul N (snd r1) (snd r2)) m) (snd r3)) (snd r4)).
(** sparsifier.py:37-54 (instantiate_rotations). *)
Definition instantiate_rotations (cdims : list nat) (g : gate mat) (p : list R) (d0 d1 : nat) : res (list (gate mat)) :=
  let dims := [d0; d1] in
  let? ps := params_splitter p dims in
  let rot k t := (let? q := pyindex ps (Z.of_nat k) in let? d := pyindex dims (Z.of_nat t) in sud_gate cdims t q d) in
  let? r1 := rot 0 0 in let? r2 := rot 1 1 in let? r3 := rot 2 0 in let? r4 := rot 3 1 in
  Ok [r1; r2; g; r3; r4].
End Ansatz.
