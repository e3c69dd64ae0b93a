(** The decision diagram package used directly: a program holds states, builds basis states, applies gates with controls,
    adds states, and reads amplitudes, inner products, fidelities, sizes and matrices.
    Source: include/dd/MDDPackage.hpp (lines given below), ComputeTable.hpp, on the memory of NodeModel.v.

    Simplifications as in NodeModel.v.  Numbers of the inner product table are exact.  A path given as a string is the list of
    its character codes (below 128).  The variables of the program are the list of the states made so far, and reading a
    variable that is not there is [Crash]. *)
From Coq Require Import ZArith Arith Reals Bool List.
From Verif Require Import Base.Cplx Base.Matrix Sim.TnModel Misim.DdModel Misim.MisimModel Misim.NodeModel.
Import ListNotations.
Local Open Scope nat_scope.

(** MDDPackage.hpp:1050 (vectorInnerProduct): the entries hold edges of weight one, so two nodes, and the number; None while
    nothing was stored *)
Definition ip_table : Type := nat -> option (ref * ref * C).

Section Session.
Variable tol : R.
Variable dims : list nat.
Variable uhash : bool -> list aedge -> nat.
Variable ahash : bool -> aedge -> aedge -> nat.
Variable mhash : bool -> ref -> ref -> nat.
Variable chash : aedge -> nat.
Variable ihash : ref -> ref -> nat.

(** MDDPackage.hpp:303-322 (makeBasisState) for all registers: [levels] holds a level for every register from 0 on *)
Fixpoint basis_layers (levels : list nat) (vs : list nat) (f : aedge) : M aedge :=
  match vs with
  | [] => ret f
  | v :: r =>
      match nth_error levels v with
      | None => fun _ => Throw OutOfRange
      | Some l =>
          if Nat.ltb l (nth v dims 0) then
            let* f' := make_node tol dims uhash false false v (tab (nth v dims 0) (fun i => if Nat.eqb i l then f else zero_a)) in
            basis_layers levels r f'
          else fun _ => Throw OutOfRange
      end
  end.
Definition basis_m (levels : list nat) : M aedge := basis_layers levels (seq 0 (length dims)) one_a.

(** MDDPackage.hpp:1096-1100: the edge taken at level i of register w; an edge that does not start there stays, with weight one *)
Definition ip_edge (h : heap) (w i : nat) (r : ref) : aedge :=
  match r with Some a => if Nat.eqb (fst (cell h a)) w then at_a (snd (cell h a)) i else (C1, r) | None => (C1, r) end.
Definition ip_edge_conj (h : heap) (w i : nat) (r : ref) : aedge :=
  match r with
  | Some a => if Nat.eqb (fst (cell h a)) w then let e := at_a (snd (cell h a)) i in (Cconj (fst e), snd e) else (C1, r)
  | None => (C1, r)
  end.
(** ComputeTable.hpp:49-74 *)
Definition ip_lookup (T : ip_table) (x y : ref) : option C :=
  match T (ihash x y) with Some (x', y', c) => if ref_eqb x' x && ref_eqb y' y then Some c else None | None => None end.
Definition ip_insert (T : ip_table) (x y : ref) (c : C) : ip_table := upd T (ihash x y) (Some (x, y, c)).
(** MDDPackage.hpp:1081-1139 (innerProduct with the number of registers left) *)
Fixpoint inner_rec (h : heap) (var : nat) (x y : aedge) (T : ip_table) : C * ip_table :=
  if near_zero tol (fst x) || near_zero tol (fst y) then (C0, T)
  else match var with
  | O => (Cmul (fst x) (fst y), T)
  | S w =>
      match ip_lookup T (snd x) (snd y) with
      | Some c => (Cmul (Cmul c (fst x)) (fst y), T)
      | None =>
          let '(sum, T') := fold_left (fun (acc : C * ip_table) i =>
            let '(cv, T') := inner_rec h w (ip_edge h w i (snd x)) (ip_edge_conj h w i (snd y)) (snd acc) in (Cadd (fst acc) cv, T'))
            (seq 0 (nth w dims 0)) (C0, T) in
          (Cmul (Cmul sum (fst x)) (fst y), ip_insert T' (snd x) (snd y) sum)
      end
  end.
(** the register of a node; below register 0 is the terminal node (varIndx -1) *)
Definition height (h : heap) (r : ref) : nat := match r with Some a => S (fst (cell h a)) | None => 0 end.
(** MDDPackage.hpp:1052-1072 (innerProduct), 1074-1077 (fidelity) *)
Definition inner (h : heap) (x y : aedge) (T : ip_table) : C * ip_table :=
  if near_zero tol (fst x) || near_zero tol (fst y) then (C0, T)
  else inner_rec h (Nat.max (height h (snd x)) (height h (snd y))) x y T.
Definition fidelity (h : heap) (x y : aedge) (T : ip_table) : R * ip_table :=
  let '(c, T') := inner h x y T in ((fst c * fst c + snd c * snd c)%R, T').

(** MDDPackage.hpp:1572-1596 (getValueByPath with a string): the character of register v names the edge taken there *)
Fixpoint by_string (h : heap) (n : nat) (e : aedge) (amp : C) (codes : list nat) : cres C :=
  match snd e with
  | None => Done (Cmul amp (fst e))
  | Some a =>
      match n with
      | O => Throw Crash
      | S n' =>
          match nth_error codes (fst (cell h a)) with
          | None => Throw OutOfRange
          | Some c =>
              if Nat.ltb c 48 then Throw OutOfRange
              else match nth_error (snd (cell h a)) (c - 48) with
                   | None => Throw OutOfRange
                   | Some e' => by_string h n' e' (Cmul amp (fst e)) codes
                   end
          end
      end
  end.
(** MDDPackage.hpp:1598-1625 (getValueByPath with a vector): the levels, top register first.  front() of an empty vector is
    undefined: Crash. *)
Fixpoint by_levels (h : heap) (e : aedge) (amp : C) (levels : list nat) : cres C :=
  let c := Cmul (fst e) amp in
  match snd e with
  | None => Done c
  | Some a =>
      match levels with
      | [] => Throw Crash
      | l :: r =>
          match nth_error (snd (cell h a)) l with
          | None => Throw OutOfRange
          | Some e' => if near_zero tol (fst e') then Done C0 else by_levels h e' c r
          end
      end
  end.
(** MDDPackage.hpp:1627-1660 (getValueByPath of a matrix) *)
Fixpoint by_entry (h : heap) (e : aedge) (amp : C) (rows columns : list nat) : cres C :=
  let c := Cmul (fst e) amp in
  match snd e with
  | None => Done c
  | Some a =>
      match rows, columns with
      | i :: rows', j :: columns' =>
          match nth_error (snd (cell h a)) (i * length (snd (cell h a)) + j) with
          | None => Throw OutOfRange
          | Some e' => if near_zero tol (fst e') then Done C0 else by_entry h e' c rows' columns'
          end
      | _, _ => Throw Crash
      end
  end.
(** MDDPackage.hpp:1724-1752 (getReprOfIndex): [ds] are the sizes, top register first *)
Fixpoint repr_of_index (ds : list nat) (cardinality i : nat) : list nat :=
  match ds with [] => [] | d :: r => let c := cardinality / d in (i / c) :: repr_of_index r c (i mod c) end.
(** MDDPackage.hpp:1754-1766 (printVector): the amplitude printed for index i *)
Definition listed (h : heap) (e : aedge) (i : nat) : cres C :=
  by_levels h e C1 (repr_of_index (rev dims) (fold_left Nat.mul dims 1) i).
(** MDDPackage.hpp:1672-1722 (getVectorizedMatrix): nothing is left out *)
Fixpoint read_matrix (s : store) (n : nat) (e : aedge) (amp : C) (i next : nat) (v : vec) : vec :=
  let c := Cmul (fst e) amp in
  match n, snd e with
  | S n', Some a =>
      let es := edges s true a in
      let offset := (next - i) / length es in
      fold_left (fun v k => read_matrix s n' (at_a es k) c (i + k * offset) (i + (k + 1) * offset) v) (seq 0 (length es)) v
  | _, _ => update v i c
  end.
Definition vectorized (s : store) (e : aedge) : vec :=
  read_matrix s (length dims) e C1 0 (fold_left Nat.mul (map (fun d => d * d) dims) 1) (fun _ => C0).

(** MDDPackage.hpp:1545-1558 (nodeCount), with the set of the nodes visited so far *)
Definition visited (v : list ref) (r : ref) : bool := existsb (ref_eqb r) v.
Definition visit (v : list ref) (r : ref) : list ref := if visited v r then v else r :: v.
Fixpoint node_count (h : heap) (n : nat) (r : ref) (v : list ref) : nat * list ref :=
  let v := visit v r in
  match r, n with
  | Some a, S n' =>
      fold_left (fun (acc : nat * list ref) (e : aedge) =>
        if visited (snd acc) (snd e) then acc
        else let '(k, v') := node_count h n' (snd e) (snd acc) in (fst acc + k, v')) (snd (cell h a)) (1, v)
  | _, _ => (1, v)
  end.

(** ** programs *)
Inductive op :=
  | Basis (levels : list nat)                                                          (* makeBasisState *)
  | Zero                                                                               (* makeZeroState *)
  | Apply (d : nat) (A : mat) (controls : list (nat * nat)) (target k : nat)           (* multiply(makeGateDD(...), state k) *)
  | Sum (j k : nat)                                                                    (* add *)
  | Inner (j k : nat)                                                                  (* innerProduct *)
  | Fidelity (j k : nat)                                                               (* fidelity *)
  | ByString (k : nat) (codes : list nat)                                              (* getValueByPath *)
  | ByLevels (k : nat) (levels : list nat)                                             (* getValueByPath *)
  | Listed (k i : nat)                                                                 (* printVector *)
  | Vector (k : nat)                                                                   (* getVector *)
  | Count (k : nat)                                                                    (* nodeCount *)
  | Matrix (d : nat) (A : mat) (controls : list (nat * nat)) (target : nat)            (* getVectorizedMatrix *)
  | Entry (d : nat) (A : mat) (controls : list (nat * nat)) (target : nat) (rows columns : list nat).   (* getValueByPath *)
Inductive output := Nothing | Number (c : C) | Real (r : R) | Numbers (v : vec) | Size (n : nat).
Record session := Se { mem : store; ips : ip_table; states : list aedge }.
Definition start : session := Se init_store (fun _ => None) [].

Definition state_at (z : session) (k : nat) : cres aedge := match nth_error (states z) k with Some e => Done e | None => Throw Crash end.
(** run a computation on the memory and keep the state it makes *)
Definition keep (z : session) (c : M aedge) : cres (output * session) :=
  match c (mem z) with Done (e, s) => Done (Nothing, Se s (ips z) (states z ++ [e])) | Throw x => Throw x end.
Definition step (z : session) (o : op) : cres (output * session) :=
  let h := heaps (mem z) false in
  match o with
  | Basis levels => keep z (basis_m levels)
  | Zero => keep z (zero_state_m tol dims uhash)
  | Apply d A controls target k =>
      let! x := state_at z k in
      keep z (let* g := gate_m tol dims uhash d A controls target in mul_m tol dims uhash ahash mhash false (rev dims) g x)
  | Sum j k => let! x := state_at z j in let! y := state_at z k in keep z (add_m tol dims uhash ahash false (length dims) x y)
  | Inner j k =>
      let! x := state_at z j in let! y := state_at z k in
      let '(c, T) := inner h x y (ips z) in Done (Number c, Se (mem z) T (states z))
  | Fidelity j k =>
      let! x := state_at z j in let! y := state_at z k in
      let '(c, T) := fidelity h x y (ips z) in Done (Real c, Se (mem z) T (states z))
  | ByString k codes => let! x := state_at z k in let! c := by_string h (length dims) x C1 codes in Done (Number c, z)
  | ByLevels k levels => let! x := state_at z k in let! c := by_levels h x C1 levels in Done (Number c, z)
  | Listed k i => let! x := state_at z k in let! c := listed h x i in Done (Number c, z)
  | Vector k => let! x := state_at z k in Done (Numbers (read tol (mem z) (length dims) x C1 0 (fold_left Nat.mul dims 1) (fun _ => C0)), z)
  | Count k => let! x := state_at z k in Done (Size (fst (node_count h (length dims) (snd x) [])), z)
  | Matrix d A controls target =>
      match gate_m tol dims uhash d A controls target (mem z) with
      | Done (e, s) => Done (Numbers (vectorized s e), Se s (ips z) (states z))
      | Throw x => Throw x
      end
  | Entry d A controls target rows columns =>
      match gate_m tol dims uhash d A controls target (mem z) with
      | Done (e, s) => let! c := by_entry (heaps s true) e C1 rows columns in Done (Number c, Se s (ips z) (states z))
      | Throw x => Throw x
      end
  end.
Fixpoint run (z : session) (os : list op) : cres (list output * session) :=
  match os with
  | [] => Done ([], z)
  | o :: r => let! p := step z o in let! q := run (snd p) r in Done (fst p :: fst q, snd q)
  end.

End Session.
