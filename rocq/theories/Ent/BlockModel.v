(** The two-qudit building blocks and the QR compilation of two-qudit gates.
    Source, below src/mqt/qudits/compiler/twodit/: blocks/crot.py (below: crot), blocks/pswap.py (pswap),
    blocks/czrot.py (czrot), entanglement_qr/log_ent_qr_cex_decomp.py (log), entanglement_qr/phy_ent_qr_cex_decomp.py (phy).

    Floats are exact reals; the rounding of two entries to 15 digits (log:94-95) is the identity.  The lines
    self.indices hold a qudit of dimension [dc] (the first line) and one of dimension [dt] (the second).
    CEX_SEQUENCE is None (crot:14; nothing in the package sets it). *)
From Coq Require Import Reals.
From Verif.Base Require Import Py Cplx Matrix Angle.
From Verif.Gates Require Import AnglesModel SingleModel TwoModel.
From Verif.Levels Require Import LevelsModel.
From Verif.Local Require Import QrModel.
Local Open Scope list_scope.
Local Open Scope nat_scope.

(** The single-qudit gates the blocks create, with their parameter lists. *)
Inductive ekind :=
| KR (a b : Z) (theta phi : R)   (* gates.R *)
| KRz (a b : Z) (phi : R)        (* gates.Rz *)
| KRh (a b : Z)                  (* gates.Rh *)
| KV (a : Z) (phi : R).          (* gates.VirtRz *)
(** A gate with its dagger flag: a single-qudit gate on the first or the second line, or the gate CEx with
    its default parameters on both (cx.py:41-51). *)
Inductive egate := ELoc (second : bool) (k : ekind) (dag : bool) | ECex (dag : bool).

(** The constructors' assertions on the levels (r.py:85-89, rz.py:79-83, rh.py:76-80); VirtRz and CEx
    raise nothing here. *)
Definition kind_ok (d : nat) (k : ekind) : bool :=
  match k with
  | KR a b _ _ => check_levels d a b | KRz a b _ => check_levels d a b | KRh a b => check_levels d a b
  | KV _ _ => true
  end.
Definition gate_ok (dc dt : nat) (g : egate) : bool :=
  match g with ELoc second k _ => kind_ok (if second then dt else dc) k | ECex _ => true end.
(** A list of freshly created gates: one bad constructor call raises AssertionError. *)
Definition created (dc dt : nat) (l : list egate) : res (list egate) :=
  if forallb (gate_ok dc dt) l then Ok l else Err AssertionError.

(** to_matrix of the gates without the dagger flag (Gates/SingleModel.v, Gates/TwoModel.v). *)
Definition the (r : res mat) : mat := match r with Ok M => M | Err _ => mid end.
Definition kind_matrix (d : nat) (k : ekind) : mat :=
  match k with
  | KR a b t f => the (r_matrix d (PList [PInt a; PInt b; PFloat t; PFloat f]))
  | KRz a b f => the (rz_matrix d (PList [PInt a; PInt b; PFloat f]))
  | KRh a b => the (rh_matrix d (PList [PInt a; PInt b]))
  | KV a f => virtrz_matrix d (PList [PInt a; PFloat f])
  end.
Definition flagged (dag : bool) (M : mat) : mat := if dag then madj M else M.
(** gate.py:86-89: dag() sets the flag; it never clears it. *)
Definition set_dag (g : egate) : egate := match g with ELoc s k _ => ELoc s k true | ECex _ => ECex true end.

Definition on_ctrl (k : ekind) : egate := ELoc false k false.
Definition on_targ (k : ekind) : egate := ELoc true k false.
Definition cex_gate : egate := ECex false.

(** crot:22-80 (crot_101_as_list). *)
Definition crot_101 (theta phi0 : R) : list egate :=
  let phi := (- phi0)%R in
  [on_targ (KR 0 1 (PI / 2) (- phi - PI / 2)); cex_gate; on_targ (KV 0 (- PI)); on_targ (KRz 0 1 (- theta / 2)); cex_gate;
   on_targ (KRz 0 1 (theta / 2)); on_targ (KV 0 PI); on_targ (KR 0 1 (- PI / 2) (- phi - PI / 2))].

(** crot:82-127 (permute_crot_101_as_list). *)
Definition permute_crot (dc dt : nat) (i : nat) (theta phase : R) : res (list egate) :=
  let q0 := i / dt in
  let q1 := i - dt * q0 in
  let rotation := crot_101 theta phase in
  let z0 := Z.of_nat q0 in
  let z1 := Z.of_nat q1 in
  created dc dt
    (if Nat.eqb q0 1 && Nat.eqb q1 0 then rotation else
     let '(there1, back1) :=
       if negb (Nat.eqb q1 0) then
         ([on_targ (KR 0 z1 PI (- PI / 2)); on_targ (KR 1 (z1 + 1) (- PI) (PI / 2))],
          [set_dag (on_targ (KR 1 (z1 + 1) (- PI) (PI / 2))); set_dag (on_targ (KR 0 z1 PI (- PI / 2)))])
       else ([], []) in
     let '(there, back) :=
       if negb (Nat.eqb q0 1) then
         (there1 ++ [on_ctrl (KR 1 z0 PI (- PI / 2))], on_ctrl (KR 1 z0 PI (PI / 2)) :: back1)
       else (there1, back1) in
     there ++ rotation ++ back).

(** pswap:22-151 (pswap_101_as_list_phases). *)
Definition pswap_phases (dt : nat) (theta0 phi : R) : list egate :=
  let theta := if Nat.eqb dt 2 then (- theta0)%R else theta0 in
  let h_0 := on_ctrl (KRh 0 1) in
  let h_1 := on_targ (KRh 0 1) in
  let zpiov2_0 := on_ctrl (KRz 0 1 (PI / 2)) in
  let zp_0 := on_ctrl (KRz 0 1 PI) in
  let last := (Z.of_nat dt - 1)%Z in
  (if negb (Nat.eqb dt 2) then [on_targ (KR 1 last PI (PI / 2))] else []) ++
  [h_0; h_1; zpiov2_0; cex_gate; h_0; h_1; zp_0] ++
  [on_targ (KR 0 1 (PI / 2) (- phi - PI / 2)); cex_gate; on_targ (KV 0 (- PI)); on_targ (KRz 0 1 (- theta / 2)); cex_gate;
   on_targ (KRz 0 1 (theta / 2)); on_targ (KV 0 PI); on_targ (KR 0 1 (- PI / 2) (- phi - PI / 2))] ++
  [h_0; h_1; zpiov2_0; cex_gate; h_0; h_1] ++
  (if negb (Nat.eqb dt 2) then [on_targ (KR 1 last (- PI) (PI / 2))] else []).

(** pswap:153-155 (pswap_101_as_list_no_phases). *)
Definition pswap_no_phases (dt : nat) (theta phi : R) : list egate :=
  let rotation := pswap_phases dt (- theta / 4) phi in
  rotation ++ rotation ++ rotation ++ rotation.

(** pswap:157-190 (permute_pswap_101_as_list). *)
Definition permute_pswap (dc dt : nat) (pos : nat) (theta phase : R) (with_phase : bool) : res (list egate) :=
  let block := pos / dt in
  let rotation := if with_phase then pswap_phases dt theta phase else pswap_no_phases dt theta phase in
  let z := Z.of_nat block in
  created dc dt
    (if negb (Nat.eqb block 0) then
       [on_ctrl (KR 0 z PI (- PI / 2)); on_ctrl (KR 1 (z + 1) (- PI) (PI / 2))] ++ rotation ++
       [set_dag (on_ctrl (KR 1 (z + 1) (- PI) (PI / 2))); set_dag (on_ctrl (KR 0 z PI (- PI / 2)))]
     else rotation).

(** czrot:20-26 (z_from_crot_101_list). *)
Definition z_from_crot (dc dt i : nat) (phase : R) : res (list egate) :=
  let? pi_there := permute_crot dc dt i (PI / 2) 0 in
  let? rotate := permute_crot dc dt i phase (PI / 2) in
  let? pi_back := permute_crot dc dt i (- PI / 2) 0 in
  Ok (pi_back ++ rotate ++ pi_there).
(** czrot:28-33 (z_pswap_101_as_list). *)
Definition z_pswap (dc dt i : nat) (phase : R) : res (list egate) :=
  let? pi_there := permute_pswap dc dt i (PI / 2) 0 false in
  let? rotate := permute_pswap dc dt i phase (PI / 2) false in
  let? pi_back := permute_pswap dc dt i (- PI / 2) 0 false in
  Ok (pi_back ++ rotate ++ pi_there).

(** log:63-70 (get_gate_matrix) and 147-154, with on0 and on1 of numerical_ansatz_utils.py:14-19.  [lt] says that
    the first line has the smaller index: CEx puts its matrix in the order of the indices (cx.py:79-82). *)
Definition tracked (dc dt : nat) (lt : bool) (g : egate) : mat :=
  match g with
  | ELoc false k dag => mkron dt (flagged dag (kind_matrix dc k)) mid
  | ELoc true k dag => mkron dt mid (flagged dag (kind_matrix dt k))
  | ECex dag => flagged dag (the (cex_array dc dt lt (Cex 0 1 1 0)))
  end.

(** log:117-127: the matrix phase_equations, n x (n-1). *)
Definition phase_equations (i j : nat) : R := if Nat.eqb i j then 1%R else if Nat.eqb i (j + 1) then (-1)%R else 0%R.
(** Sums of reals over range(n), for np.matmul. *)
Fixpoint sum_to (n : nat) (f : nat -> R) : R := match n with 0 => 0%R | S m => (sum_to m f + f m)%R end.
(** log:129-131. *)
Definition pseudo_inv (n i j : nat) : R := sum_to n (fun k => phase_equations k i * phase_equations k j)%R.
Definition pseudo_diag (n : nat) (args : nat -> R) (i : nat) : R := sum_to n (fun k => phase_equations k i * args k)%R.

(** The loop variables decomp, u_, crot_counter, pswap_counter. *)
Record estate := ES { e_ops : list egate; e_u : mat; e_crot : nat; e_pswap : nat }.

Section Execute.
  (** round(x, 6), numpy.linalg.det and numpy.linalg.solve on k x k matrices; the thresholds 1.0e-8 and 1.0e-4. *)
  Variable round6 : R -> R.
  Variable det : nat -> (nat -> nat -> R) -> R.
  Variable solve : nat -> (nat -> nat -> R) -> (nat -> R) -> res (list R).
  Variables eps delta : R.
  Variables (dc dt : nat) (lt : bool).

  Definition apply_all (l : list egate) (u : mat) : mat :=
    fold_left (fun u g => mmul (dc * dt) (tracked dc dt lt g) u) l u.

  (** log:93-112. *)
  Definition ent_step (s : estate) (rc : nat * nat) : res estate :=
    let '(r, c) := rc in
    let u := e_u s in
    if Rlt_dec eps (Cmod (u r c)) then
      let theta := qr_theta u r c in
      let phi := pi_mod (qr_phi u r c) in
      if negb (Nat.eqb (r - 1) 0) && Nat.eqb (r mod dt) 0 then
        let? l := permute_pswap dc dt (r - 1) theta phi false in
        Ok (ES (e_ops s ++ l) (apply_all l u) (e_crot s) (e_pswap s + 4))
      else
        let? l := permute_crot dc dt (r - 1) theta phi in
        Ok (ES (e_ops s ++ l) (apply_all l u) (e_crot s + 1) (e_pswap s))
    else Ok s.

  (** log:138-160. *)
  Definition ent_phase (s : estate) (ip : nat * R) : res estate :=
    let '(i, phase) := ip in
    if Rlt_dec delta (Rabs (phase * 2)) then
      if negb (Nat.eqb i 0) && Nat.eqb ((i + 1) mod dt) 0 then
        let? l := z_pswap dc dt i (phase * 2) in
        Ok (ES (e_ops s ++ l) (apply_all l (e_u s)) (e_crot s) (e_pswap s + 12))
      else
        let? l := z_from_crot dc dt i (phase * 2) in
        Ok (ES (e_ops s ++ l) (apply_all l (e_u s)) (e_crot s + 3) (e_pswap s))
    else Ok s.

  (** log:72-163 (execute); the order of the entries is that of the single-qudit compilation ([visits]). *)
  Definition ent_execute (U : mat) : res (list egate * nat * nat) :=
    let n := dc * dt in
    let? s := foldr ent_step (visits n) (ES [] U 0 0) in
    let u := e_u s in
    let args := fun i => round6 (angle (u i i)) in
    if Req_EM_T (det (n - 1) (pseudo_inv n)) 0 then Err RuntimeError else
    let? phases := solve (n - 1) (pseudo_inv n) (pseudo_diag n args) in
    let? s' := foldr ent_phase (combine (seq 0 (List.length phases)) phases) s in
    Ok (e_ops s', e_crot s', e_pswap s').

  (** log:32-36 (transpile_gate). *)
  Definition log_ent_gate (U : mat) : res (list egate) :=
    let? x := ent_execute U in
    Ok (map set_dag (rev (fst (fst x)))).
End Execute.
