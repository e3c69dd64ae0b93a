(** The preparation of states.
    Source: src/mqt/qudits/compiler/state_compilation/state_preparation.py (below: prep) and set_initial_state of
    src/mqt/qudits/quantum_circuit/circuit.py.

    Floats are exact reals.  The threshold 1e-5 below which an angle gives no gate (prep:184) and the tolerance 0.01 of
    the approximation (prep:176) are arguments; [code_eps] and [code_tol] are their values.  The name of a gate, which nothing here
    reads, is "R" or "Rz" without the numbers the circuit appends (circuit.py). *)
From Coq Require Import Reals.
From Verif.Base Require Import Py Cplx Matrix Angle.
From Verif.Circuit Require Import GateModel.
From Verif.Gates Require Import SingleModel.
From Verif.State Require Import DdModel.
Local Open Scope string_scope.
Local Open Scope list_scope.
Local Open Scope nat_scope.

(** prep:25-32 (find_complex_number) *)
Definition find_complex_number (x c : C) : C :=
  let n := (Re x * Re x + Im x * Im x)%R in
  (((Re c - Im x * Im c) / n)%R, ((Im c + Im x * Re c) / n)%R).

(** prep:35-39 (get_angles) *)
Definition get_angles (from_ to_ : C) : R * R :=
  ((2 * atan2 (Cmod from_) (Cmod to_))%R, (- (PI / 2 + angle to_ - angle from_))%R).

(** prep:42-96 (Operation); [o_z] is is_z (prep:51), otherwise the levels are [o_level] and the next one *)
Record operation := Operation { o_controls : list (nat * nat); o_qudit : nat; o_z : bool; o_level : nat; o_theta : R; o_phi : R }.

(** prep:111-117: the rotations of the loop for i = n-1, ..., 0, in ascending order of i as prep:142 sorts them, and the
    vector left; [d] is the dimension of the qudit *)
Fixpoint local_loop (d n : nat) (coef : vec) : res (vec * list (nat * (R * R))) :=
  match n with
  | O => Ok (coef, [])
  | S i =>
      let a := fst (get_angles (coef (i + 1)) (coef i)) in
      let p := snd (get_angles (coef (i + 1)) (coef i)) in
      let? gate := r_matrix d (PList [PInt (Z.of_nat i); PInt (Z.of_nat (i + 1)); PFloat a; PFloat p]) in
      let? rest := local_loop d i (mapply d gate coef) in
      Ok (fst rest, snd rest ++ [(i, ((- a)%R, p))])
  end.
(** prep:102-122 (retrieve_local_sequence) and prep:140-144: the operations, in the sorted order of their keys, the key
    (-1, 0) first *)
Definition local_ops (controls : list (nat * nat)) (qudit d : nat) (fweight : C) (ch : list dd) : res (list operation) :=
  let? cl := local_loop d (List.length ch - 1) (fun i => nth i (map weight ch) C0) in
  let phase := angle (find_complex_number fweight (fst cl 0)) in
  Ok (Operation controls qudit true 0 (- phase * 2)%R 0 ::
      map (fun iap => Operation controls qudit false (fst iap) (fst (snd iap)) (snd (snd iap))) (snd cl)).

Section Hash.
Variable hash : list (Z * C) -> Z.

(** prep:124-165 (synthesis); [cards] is the rest of the cardinalities from [depth] on *)
Fixpoint synthesis (cards : list nat) (depth : nat) (controls : list (nat * nat)) (t : dd) : res (list operation) :=
  match t with
  | Term _ _ => Ok []
  | Inner w ch =>
      match cards with
      | [] => Err IndexError
      | d :: r =>
          let? ops := local_ops controls depth d w ch in
          let? red := reduced hash ch in
          let child i := nth_error ch (nth i (children_index hash ch) 0) in
          if red then
            match child 0 with Some c => let? l := synthesis r (S depth) controls c in Ok (ops ++ l) | None => Err IndexError end
          else
            let? ls := mapr (fun i => match child i with
                | Some c => synthesis r (S depth) (controls ++ [(depth, i)]) c
                | None => Err IndexError end) (seq 0 d) in
            Ok (ops ++ concat ls)
      end
  end.

(** prep:183-191: the gate of an operation; circuit.py's r and rz create the gate on one qudit, then gate.control. *)
Definition op_gate (dims : list nat) (o : operation) : res (gate mat) :=
  let d := nth (o_qudit o) dims 0 in
  let? m := if o_z o then rz_matrix d (PList [PInt 0; PInt 1; PFloat (o_theta o)])
            else r_matrix d (PList [PInt (Z.of_nat (o_level o)); PInt (Z.of_nat (o_level o + 1)); PFloat (o_theta o); PFloat (o_phi o)]) in
  let? g := new_gate (List.length dims) dims (if o_z o then "Rz" else "R") SINGLE (TInt (Z.of_nat (o_qudit o))) None m in
  match control (List.length dims) dims g (map (fun c => Z.of_nat (fst c)) (o_controls o)) (map (fun c => Z.of_nat (snd c)) (o_controls o)) with
  | (g', None) => Ok g'
  | (_, Some e) => Err e
  end.

(** prep:184 *)
Definition big (eps : R) (o : operation) : bool := if Rlt_dec eps (Rabs (o_theta o)) then true else false.

Definition code_eps : R := (1 / 100000)%R.
Definition code_tol : R := (1 / 100)%R.

(** prep:173-178: the tree the circuit is made from *)
Definition state_tree (tol : R) (dims : list nat) (state : list C) (approx : bool) : res dd :=
  let? tn := create_decision_tree dims state in
  Ok (if approx then normalize_all (cut_branches tol (contributions (fst tn) (List.length dims)) (fst tn)) else fst tn).
(** prep:179-181 *)
Definition state_ops (dims : list nat) (t : dd) : res (list operation) :=
  let? u := aggregate hash dims t in synthesis dims 0 [] t.
(** prep:167-193 (compile_state): the gates appended to the copy of the circuit *)
Definition compile_state (eps tol : R) (dims : list nat) (state : list C) (approx : bool) : res (list (gate mat)) :=
  let? t := state_tree tol dims state approx in
  let? ops := state_ops dims t in
  mapr (op_gate dims) (filter (big eps) ops).
(** circuit.py:448-454 (set_initial_state): the instructions of the circuit afterwards, from those before *)
Definition set_initial_state (eps tol : R) (dims : list nat) (instructions : list (gate mat)) (state : list C) (approx : bool) : res (list (gate mat)) :=
  let? gs := compile_state eps tol dims state approx in Ok (instructions ++ gs).
End Hash.
