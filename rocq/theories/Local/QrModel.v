(** The QR compilation of single-qudit gates.
    Source: src/mqt/qudits/compiler/onedit/mapping_un_aware_transpilation/log_local_qr_decomp.py (below: log)
    and src/mqt/qudits/compiler/onedit/mapping_aware_transpilation/phy_local_qr_decomp.py (below: phy).

    Floats are exact reals, the numpy matrix [u_] is a function.  The two thresholds of the loops, 1.0e-8 for
    an entry that needs a rotation and 1.0e-4 for a phase that needs a gate, are the arguments [eps] and
    [delta] of a section; [code_eps] and [code_delta] are their values in the code.  The gates the algorithm
    creates all sit on the target of the decomposed gate and are modelled by their parameters only. *)
From Coq Require Import Reals.
From Verif.Base Require Import Py Cplx Matrix Angle.
From Verif.Gates Require Import AnglesModel SingleModel.
From Verif.Levels Require Import LevelsModel.
Local Open Scope string_scope.
Local Open Scope list_scope.
Local Open Scope nat_scope.

(** An emitted gate: gates.R, or gates.VirtRz with the level and the regulated phase it took from its
    parameters ([None] when validate_parameter refused them: then level 0 and phase 0.0, gate.py:43-46). *)
Inductive qop := OR (r : rot) | OV (p : option (nat * R)).

(** r.py:49-68 and virt_rz.py:44-50 (see Gates/SingleModel.v). *)
Definition op_matrix (d : nat) (o : qop) : mat :=
  match o with
  | OR r => r_array d (lev_a r) (lev_b r) (r_theta r) (r_phi r)
  | OV (Some (l, f)) => virtrz_array d l f
  | OV None => virtrz_array d 0 0
  end.

Definition code_eps : R := (1 / 100000000)%R.
Definition code_delta : R := (1 / 10000)%R.

(** log:108, phy:108: np.count_nonzero(abs(u_) > 1.0e-4) *)
Definition count_nonzero (d : nat) (u : mat) : Z :=
  Z.of_nat (List.length (filter (fun ij => if Rlt_dec (1 / 10000) (Cmod (u (fst ij) (snd ij))) then true else false)
    (list_prod (seq 0 d) (seq 0 d)))).

(** log:98-104, phy:98-104: the rotation for entry (r, c). *)
Definition qr_theta (u : mat) (r c : nat) : R := (2 * atan2 (Cmod (u r c)) (Cmod (u (r - 1)%nat c)))%R.
Definition qr_phi (u : mat) (r c : nat) : R := (- (PI / 2 + angle (u (r - 1)%nat c) - angle (u r c)))%R.
Definition qr_rotation (d : nat) (u : mat) (r c : nat) : res rot :=
  new_R d (Z.of_nat r - 1) (Z.of_nat r) (qr_theta u r c) (qr_phi u r c).

(** log:90-96, phy:90-96: the order in which entries are visited. *)
Definition visits (d : nat) : list (nat * nat) :=
  flat_map (fun c => map (fun r => (r, c)) (rev (seq (c + 1) (d - (c + 1))))) (seq 0 d).

(** The loop variables: decomp, u_, algorithmic_cost, total_cost. *)
Record qstate := QS { q_ops : list qop; q_u : mat; q_alg : R; q_total : R }.

Fixpoint foldr {A B} (f : B -> A -> res B) (l : list A) (b : B) : res B :=
  match l with [] => Ok b | x :: r => let? b' := f b x in foldr f r b' end.

Section Qr.
  (** networkx.shortest_path, the thresholds. *)
  Variable sp : lgraph -> Z -> Z -> res (list Z).
  Variables eps delta : R.

  (** log:97-146 (the string at 113-142 is not code). *)
  Definition log_step (d : nat) (g : lgraph) (s : qstate) (rc : nat * nat) : res qstate :=
    let '(r, c) := rc in
    if Rlt_dec eps (Cmod (q_u s r c)) then
      let? rot := qr_rotation d (q_u s) r c in
      let u := mmul d (op_matrix d (OR rot)) (q_u s) in
      let? x := cost_calculator sp d rot g (count_nonzero d u) in
      let '(est, pulses, g', cpi, gc) := x in
      Ok (QS (q_ops s ++ [OR rot]) u (q_alg s + est)%R (q_total s + (2 * cpi + gc))%R)
    else Ok s.

  (** phy:131-140: the pulses undone. *)
  Definition back_pulse (d : nat) (p : rot) : res rot :=
    new_R d (Z.of_nat (lev_a p)) (Z.of_nat (lev_b p)) (r_theta p) (- r_phi p)%R.

  (** phy:97-143. *)
  Definition phy_step (d : nat) (g : lgraph) (s : qstate) (rc : nat * nat) : res qstate :=
    let '(r, c) := rc in
    if Rlt_dec eps (Cmod (q_u s r c)) then
      let theta := qr_theta (q_u s) r c in
      let phi := qr_phi (q_u s) r c in
      let? rot := qr_rotation d (q_u s) r c in
      let u := mmul d (op_matrix d (OR rot)) (q_u s) in
      let? x := cost_calculator sp d rot g (count_nonzero d u) in
      let '(est, pulses, g', cpi, gc) := x in
      let? v1 := node_attr g' (Z.of_nat r - 1) "lpmap" in
      let? v2 := node_attr g' (Z.of_nat r) "lpmap" in
      let? p1 := as_int v1 in
      let? p2 := as_int v2 in
      let phi' := if (p2 <? p1)%Z then (phi * -1)%R else phi in
      let? phys := new_R d p1 p2 theta phi' in
      let? phys := gate_chain_condition d pulses phys in
      let? back := mapr (back_pulse d) (rev pulses) in
      Ok (QS (q_ops s ++ map OR pulses ++ [OR phys] ++ map OR back) u (q_alg s + est)%R (q_total s + (2 * cpi + gc))%R)
    else Ok s.

  (** log:148-162: a virtual rotation for each phase on the diagonal; line 152 only looks the node up. *)
  Definition log_phase (g : lgraph) (d : nat) (u : mat) (ops : list qop) (i : nat) : res (list qop) :=
    if Rlt_dec delta (Rabs (angle (u i i))) then
      let? a := node_attrs g (Z.of_nat i) in
      Ok (ops ++ [OV (virtrz_params d (AInt (Z.of_nat i)) (AFlt (angle (u i i))))])
    else Ok ops.
  (** phy:145-159. *)
  Definition phy_phase (g : lgraph) (d : nat) (u : mat) (ops : list qop) (i : nat) : res (list qop) :=
    if Rlt_dec delta (Rabs (angle (u i i))) then
      let? v := node_attr g (Z.of_nat i) "lpmap" in
      Ok (ops ++ [OV (virtrz_params d v (AFlt (angle (u i i))))])
    else Ok ops.

  (** log:71-88 and phy:71-88: stored phases are turned into gates and reset.  [level] is the first parameter of
      the gate: the logical pass gives the attribute dict of the node, which is no int, so that the parameters
      are refused ([None]). *)
  Definition flush_step (level : lgraph -> Z -> res (option aval)) (d : nat)
      (st : list qop * list (Z * R) * lgraph) (i : nat) : res (list qop * list (Z * R) * lgraph) :=
    let '(ops, rec, g) := st in
    let? v := node_attr g (Z.of_nat i) "phase_storage" in
    let? x := num v in
    let tz := new_mod x (2 * PI) in
    let? ops' := (if Rlt_dec delta (Rabs tz) then
                    let? l := level g (Z.of_nat i) in
                    Ok (ops ++ [OV (match l with Some a => virtrz_params d a (AFlt tz) | None => None end)])
                  else Ok ops) in
    let? g' := write_attr g (Z.of_nat i) "phase_storage" (AInt 0) in
    Ok (ops', rec ++ [(Z.of_nat i, tz)], g').
  Definition has_phases (g : lgraph) : res bool :=
    let? inode := fst_inode g in
    let? a := node_attrs g inode in
    Ok (dmem String.eqb a "phase_storage").
  Definition flush (level : lgraph -> Z -> res (option aval)) (d : nat) (z_prop : bool) (g : lgraph)
      : res (list qop * list (Z * R) * lgraph) :=
    if z_prop then Ok ([], [], g) else
    let? b := has_phases g in
    if (b : bool) then foldr (flush_step level d) (seq 0 (List.length (nd g))) ([], [], g) else Ok ([], [], g).
  Definition log_level (g : lgraph) (n : Z) : res (option aval) := let? a := node_attrs g n in Ok None.
  Definition phy_level (g : lgraph) (n : Z) : res (option aval) := let? v := node_attr g n "lpmap" in Ok (Some v).

  (** log:164-168 and phy:161-165. *)
  Definition recover (z_prop not_stand_alone : bool) (rec : list (Z * R)) (g : lgraph) : res lgraph :=
    if not_stand_alone && negb z_prop then
      let? b := has_phases g in
      if (b : bool) then
        foldr (fun g i => let? x := getk (nget rec (Z.of_nat i)) in write_attr g (Z.of_nat i) "phase_storage" (AFlt x))
          (seq 0 (List.length (nd g))) g
      else Ok g
    else Ok g.

  (** log:61-170 and phy:61-167 (execute): the gates, the two costs and the graph afterwards. *)
  Definition execute (level : lgraph -> Z -> res (option aval))
      (step : nat -> lgraph -> qstate -> nat * nat -> res qstate)
      (phase : lgraph -> nat -> mat -> list qop -> nat -> res (list qop))
      (z_prop not_stand_alone : bool) (d : nat) (U : mat) (g0 : lgraph) : res (list qop * R * R * lgraph) :=
    let? f := flush level d z_prop g0 in
    let '(ops0, rec, g) := f in
    let? s := foldr (step d g) (visits d) (QS ops0 U 0%R 0%R) in
    let? ops := foldr (phase g d (q_u s)) (seq 0 d) (q_ops s) in
    let? g' := recover z_prop not_stand_alone rec g in
    Ok (ops, q_alg s, q_total s, g').
  Definition log_execute := execute log_level log_step log_phase.
  Definition phy_execute := execute phy_level phy_step phy_phase.
End Qr.

(** *** The passes *)
(** gate.py:86-89 (dag): the flag is set, never cleared. *)
Definition dag_op (o : qop * bool) : qop * bool := (fst o, true).
Definition plain (o : qop) : qop * bool := (o, false).
(** gate.py:91-105 with matrix_factory.py (apply the dagger flag): the matrix of an emitted gate. *)
Definition gate_matrix (d : nat) (o : qop * bool) : mat :=
  if snd o then madj (op_matrix d (fst o)) else op_matrix d (fst o).

(** A circuit as the passes see it: gates of type SINGLE, with the line, dimension and matrix
    (to_matrix(identities=0), daggers included), and all other gates, passed through unchanged. *)
Inductive instr := ISingle (line : Z) (d : nat) (U : mat) | IOther (n : nat).
(** What the passes put out: an emitted gate on a line, or a gate passed through. *)
Inductive outstr := OGate (line : Z) (d : nat) (o : qop * bool) | OOther (n : nat).

Section Passes.
  Variable sp : lgraph -> Z -> Z -> res (list Z).

  (** energy_level_graphs[i] of the backend is one mutable graph per qudit: the graph left by execute stays.
      Negative positions count from the end. *)
  Definition put_graph (gs : list lgraph) (i : Z) (g : lgraph) : list lgraph :=
    let k := Z.to_nat (if (i <? 0)%Z then Z.of_nat (List.length gs) + i else i) in
    firstn k gs ++ g :: skipn (S k) gs.

  (** log:29-33 (transpile_gate). *)
  Definition log_transpile_gate (gs : list lgraph) (line : Z) (d : nat) (U : mat) : res (list (qop * bool) * list lgraph) :=
    let? g := pyindex gs line in
    let? x := log_execute sp code_eps code_delta false false d U g in
    let '(ops, _, _, g') := x in
    Ok (map plain ops, put_graph gs line g').
  (** phy:27-31 (transpile_gate). *)
  Definition phy_transpile_gate (gs : list lgraph) (line : Z) (d : nat) (U : mat) : res (list (qop * bool) * list lgraph) :=
    let? g := pyindex gs line in
    let? x := phy_execute sp code_eps code_delta false false d U g in
    let '(ops, _, _, g') := x in
    Ok (map dag_op (rev (map plain ops)), put_graph gs line g').

  (** log:35-47 (transpile). *)
  Fixpoint log_transpile (gs : list lgraph) (c : list instr) : res (list outstr * list lgraph) :=
    match c with
    | [] => Ok ([], gs)
    | IOther n :: r => let? x := log_transpile gs r in Ok (OOther n :: fst x, snd x)
    | ISingle line d U :: r =>
        let? x := log_transpile_gate gs line d U in
        let? y := log_transpile (snd x) r in
        Ok (map (OGate line d) (fst x) ++ fst y, snd y)
    end.
  (** phy:33-47 (transpile): the list of transpile_gate is reversed and daggered once more. *)
  Fixpoint phy_transpile (gs : list lgraph) (c : list instr) : res (list outstr * list lgraph) :=
    match c with
    | [] => Ok ([], gs)
    | IOther n :: r => let? x := phy_transpile gs r in Ok (OOther n :: fst x, snd x)
    | ISingle line d U :: r =>
        let? x := phy_transpile_gate gs line d U in
        let? y := phy_transpile (snd x) r in
        Ok (map (OGate line d) (map dag_op (rev (fst x))) ++ fst y, snd y)
    end.
End Passes.
