(** The two-qudit compiler passes.
    Source, below src/mqt/qudits/compiler/twodit/entanglement_qr/: log_ent_qr_cex_decomp.py (below: log) and
    phy_ent_qr_cex_decomp.py (phy). *)
From Coq Require Import Reals.
From Verif.Base Require Import Py Cplx Matrix.
From Verif.Gates Require Import SingleModel TwoModel.
From Verif.Levels Require Import LevelsModel.
From Verif.Local Require Import QrModel.
From Verif.Ent Require Import BlockModel.
Local Open Scope list_scope.
Local Open Scope nat_scope.

(** A gate of type TWO as the passes see it: its two lines and their dimensions, and either a CEx with its
    parameters and dagger flag, or any other gate by its matrix (to_matrix(identities=0), dagger included). *)
Inductive two := TCex (x : cex) (dag : bool) | TMat (U : mat).
Record twogate := Two { tw_q0 : nat; tw_q1 : nat; tw_dc : nat; tw_dt : nat; tw_op : two }.
Inductive einstr := ETwo (g : twogate) | EOther (n : nat).
(** What the passes put out: a gate of a block, a new CEx, or a gate passed through. *)
Inductive eout := EGate (q0 q1 : nat) (g : egate) | ENewCex (q0 q1 : nat) (x : cex) | EKeep (n : nat).

(** gate.to_matrix(identities=0) (log:57): CEx's own array with the dagger flag applied, in the order of the line
    indices (TwoModel.cex_array). *)
Definition two_matrix (g : twogate) : res mat :=
  match tw_op g with
  | TMat U => Ok U
  | TCex x dag => let? M := cex_array (tw_dc g) (tw_dt g) (Nat.ltb (tw_q0 g) (tw_q1 g)) x in Ok (flagged dag M)
  end.

Section Pass.
  Variable sp : lgraph -> Z -> Z -> res (list Z).
  Variable round6 : R -> R.
  Variable det : nat -> (nat -> nat -> R) -> R.
  Variable solve : nat -> (nat -> nat -> R) -> (nat -> R) -> res (list R).

  (** log:32-36 (transpile_gate) on a gate of the circuit, with the thresholds of the code. *)
  Definition ent_transpile_gate (g : twogate) : res (list egate) :=
    let? U := two_matrix g in
    log_ent_gate round6 det solve code_eps code_delta (tw_dc g) (tw_dt g) (Nat.ltb (tw_q0 g) (tw_q1 g)) U.
  (** log:38-52 (transpile): the list is reversed once more. *)
  Fixpoint log_ent_transpile (c : list einstr) : res (list eout) :=
    match c with
    | [] => Ok []
    | EOther n :: r => let? x := log_ent_transpile r in Ok (EKeep n :: x)
    | ETwo g :: r =>
        let? l := ent_transpile_gate g in
        let? x := log_ent_transpile r in
        Ok (map (EGate (tw_q0 g) (tw_q1 g)) (rev l) ++ x)
    end.

  (** phy:32-33: the physical levels below the dimension, in the order of the nodes (levels are ints). *)
  Definition lp_map (d : nat) (g : lgraph) : res (list Z) :=
    let? l := log_phy_map g in
    let? z := mapr as_int l in
    Ok (filter (fun x => (x <? Z.of_nat d)%Z) z).
  (** phy:35-45: a CEx on the physical levels. *)
  Definition phy_cex (lp0 lp1 : list Z) (x : cex) : res cex :=
    let? c := pyindex lp0 (cx_ctrl x) in
    let? a := pyindex lp1 (Z.of_nat (cx_a x)) in
    let? b := pyindex lp1 (Z.of_nat (cx_b x)) in
    cex_new (PList (if (a <? b)%Z then [PInt a; PInt b; PInt c; PFloat (cx_phi x)] else [PInt b; PInt a; PInt c; PFloat (cx_phi x)])).
  (** phy:25-65 (transpile_gate): the four permutations are compiled, which changes the graphs, and dropped. *)
  Definition phy_ent_gate (gs : list lgraph) (g : twogate) : res (list eout * list lgraph) :=
    let z0 := Z.of_nat (tw_q0 g) in
    let z1 := Z.of_nat (tw_q1 g) in
    let? g0 := pyindex gs z0 in
    let? g1 := pyindex gs z1 in
    let? lp0 := lp_map (tw_dc g) g0 in
    let? lp1 := lp_map (tw_dt g) g1 in
    match tw_op g with
    | TCex x _ => let? y := phy_cex lp0 lp1 x in Ok ([ENewCex (tw_q0 g) (tw_q1 g) y], gs)
    | TMat _ =>
        let? p0 := perm_new (tw_dc g) lp0 in
        let? p1 := perm_new (tw_dt g) lp1 in
        let? r0 := phy_transpile_gate sp gs z0 (tw_dc g) p0 in
        let? r1 := phy_transpile_gate sp (snd r0) z1 (tw_dt g) p1 in
        let? r2 := phy_transpile_gate sp (snd r1) z0 (tw_dc g) (madj p0) in
        let? r3 := phy_transpile_gate sp (snd r2) z1 (tw_dt g) (madj p1) in
        let? l := ent_transpile_gate g in
        Ok (map (EGate (tw_q0 g) (tw_q1 g)) l, snd r3)
    end.
  (** phy:67-80 (transpile). *)
  Fixpoint phy_ent_transpile (gs : list lgraph) (c : list einstr) : res (list eout * list lgraph) :=
    match c with
    | [] => Ok ([], gs)
    | EOther n :: r => let? x := phy_ent_transpile gs r in Ok (EKeep n :: fst x, snd x)
    | ETwo g :: r =>
        let? x := phy_ent_gate gs g in
        let? y := phy_ent_transpile (snd x) r in
        Ok (fst x ++ fst y, snd y)
    end.
End Pass.
