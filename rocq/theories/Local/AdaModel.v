(** The adaptive compilation of single-qudit gates: a depth-first search over sequences of rotations.
    Source: src/mqt/qudits/compiler/onedit/mapping_un_aware_transpilation/log_local_adaptive_decomp.py (below: log)
    and src/mqt/qudits/compiler/onedit/mapping_aware_transpilation/phy_local_adaptive_decomp.py (below: phy).

    Floats are exact reals.  The thresholds are the arguments of a section: [eps] = 1.0e-8 (an entry that needs a
    rotation), [tiny] = 1.0e-18 (an entry too small to rotate with), [near] = 1.0e-4 (an entry of a matrix that is
    not diagonal), [slack] = 1.0e-12 (cost), [delta] = 1.0e-4 (a phase that needs a gate); the values of the code
    are [code_eps], [code_tiny], [code_near], [code_slack] and [code_delta].  The recursion takes fuel; the
    answer is [Err OutOfFuel] when it is used up.  SequenceFoundError is the third component of the answer of
    [dfs].  The attribute key of a node is never read by the search except for the error and for printing. *)
From Coq Require Import Reals.
From Verif.Base Require Import Py Cplx Matrix Angle.
From Verif.Gates Require Import AnglesModel SingleModel.
From Verif.Levels Require Import LevelsModel.
From Verif.Local Require Import QrModel TreeModel.
Local Open Scope string_scope.
Local Open Scope list_scope.
Local Open Scope nat_scope.

Definition code_tiny : R := (1 / 1000000000000000000)%R.
Definition code_near : R := (1 / 10000)%R.
Definition code_slack : R := (1 / 1000000000000)%R.

(** dfs_tree.py:31-42: what a node of the search tree carries.  The rotation of the root is an identity gate
    ([None]); the logical search stores no graph except at the root (log:207). *)
Record snode := SN { s_rot : option rot; s_u : mat; s_graph : option lgraph; s_cost : R; s_dcost : R;
                     s_max : R * R; s_pulses : list rot }.

(** log:153-162, 124-133; phy:192-203, 130-139 *)
Definition near_diagonal (near : R) (d : nat) (u : mat) : bool :=
  existsb (fun i => if Rlt_dec near (Cmod (u i i)) then true else false) (seq 0 d) &&
  negb (existsb (fun ij => negb (Nat.eqb (fst ij) (snd ij)) &&
                           (if Rlt_dec near (Cmod (u (fst ij) (snd ij))) then true else false))
          (list_prod (seq 0 d) (seq 0 d))).

(** log:180-182, phy:215-217: the triples (c, r, r2) in the order of the loops. *)
Definition triples (d : nat) : list (nat * nat * nat) :=
  flat_map (fun c => flat_map (fun r => map (fun r2 => (c, r, r2)) (seq (r + 1) (d - (r + 1)))) (seq c (d - c))) (seq 0 d).

Section Search.
  Variable near : R.
  (** The node added for a triple, if any. *)
  Variable kid : snode -> nat * nat * nat -> res (option snode).
  Variable d : nat.

  (** log:180-212, phy:215-281. *)
  Fixpoint kids (a : snode) (l : list (nat * nat * nat)) : res (list snode) :=
    match l with
    | [] => Ok []
    | t :: r => let? o := kid a t in
                let? rest := kids a r in
                Ok (match o with Some b => b :: rest | None => rest end)
    end.
  Definition numbered (counter : Z) (l : list snode) : list (Z * snode) :=
    combine (map (fun i => counter + 1 + Z.of_nat i)%Z (seq 0 (List.length l))) l.

  (** log:151-217, phy:190-286 (dfs): the tree below a node, the counter, and whether SequenceFoundError was
      raised. *)
  Fixpoint dfs (fuel : nat) (key : Z) (a : snode) (counter : Z) : res (ntree snode * Z * bool) :=
    match fuel with
    | O => Err OutOfFuel
    | S n =>
        if near_diagonal near d (s_u a) then Ok (NT key true a [], counter, true) else
        let? l := kids a (triples d) in
        let? x := (fix visit (l : list (Z * snode)) (counter : Z) : res (list (ntree snode) * Z * bool) :=
                     match l with
                     | [] => Ok ([], counter, false)
                     | kb :: r =>
                         let? x := dfs n (fst kb) (snd kb) counter in
                         if (snd x : bool) then Ok (fst (fst x) :: map (fun kb => new_node (fst kb) (snd kb)) r, snd (fst x), true)
                         else let? y := visit r (snd (fst x)) in Ok (fst (fst x) :: fst (fst y), snd (fst y), snd y)
                     end) (numbered counter l) (counter + Z.of_nat (List.length l))%Z in
        Ok (NT key false a (fst (fst x)), snd (fst x), snd x)
    end.

  (** log:85-102, phy:91-107: the root, the search, the retrieval. *)
  Definition root (U : mat) (g : lgraph) (limit : R * R) : snode := SN None U (Some g) 0 0 limit [].
  Definition search_for (fuel : nat) (U : mat) (g : lgraph) (limit : R * R)
      : res (list snode * option (R * R) * option lgraph) :=
    let? x := dfs fuel 0 (root U g limit) 0 in
    retrieve_decomposition s_cost s_dcost s_graph (fst (fst x)).
End Search.

(** log:116-119, phy:126-129: the rotations of a path, without the root. *)
Definition path_ops (p : list snode) : list qop :=
  flat_map (fun a => map OR (s_pulses a) ++ match s_rot a with Some r => [OR r] | None => [] end) (tl p).

(** log:184-185, phy:219-221 *)
Definition ada_theta (u : mat) (c r r2 : nat) : R := (2 * atan2 (Cmod (u r2 c)) (Cmod (u r c)))%R.
Definition ada_phi (u : mat) (c r r2 : nat) : R := (- (PI / 2 + angle (u r c) - angle (u r2 c)))%R.

Section Ada.
  Variable sp : lgraph -> Z -> Z -> res (list Z).
  Variables (eps tiny near slack delta : R).
  Variable d : nat.

  (** log:183, phy:218 *)
  Definition wanted (u : mat) (c r r2 : nat) : bool :=
    (if Rlt_dec eps (Cmod (u r2 c)) then true else false) &&
    ((if Rlt_dec tiny (Cmod (u r c)) then true else false) || (if Req_EM_T (Cmod (u r c)) 0 then true else false)).
  (** log:195-197, phy:241-242 *)
  Definition affordable (limit cost : R) : bool :=
    (if Rlt_dec 0 (limit - cost) then true else false) || (if Rlt_dec (Rabs (limit - cost)) slack then true else false).

  (** log:183-212 *)
  Definition log_kid (a : snode) (t : nat * nat * nat) : res (option snode) :=
    let '(c, r, r2) := t in
    let u := s_u a in
    if wanted u c r r2 then
      let? q := new_R d (Z.of_nat r) (Z.of_nat r2) (ada_theta u c r r2) (ada_phi u c r r2) in
      let cost := (r_cost q + s_dcost a)%R in
      if affordable (snd (s_max a)) cost then
        Ok (Some (SN (Some q) (mmul d (op_matrix d (OR q)) u) None 0 cost (s_max a) []))
      else Ok None
    else Ok None.

  (** log:138-147: a virtual rotation for each phase on the diagonal. *)
  Definition log_z (u : mat) (ops : list qop) : list qop :=
    fold_left (fun ops i => if Rlt_dec delta (Rabs (angle (u i i))) then
                              ops ++ [OV (virtrz_params d (AInt (Z.of_nat i)) (AFlt (angle (u i i))))] else ops)
      (seq 0 d) ops.
  (** log:85-149 (execute and z_extraction): the gates, the cost ([None]: infinite) and the graph ([None]: the
      value None); phase_storing_setup is called by the constructor (log:79). *)
  Definition log_adaptive (fuel : nat) (U : mat) (g : lgraph) (limit : R * R)
      : res (list qop * option (R * R) * option lgraph) :=
    let? x := search_for near log_kid d fuel U (phase_storing_setup g) limit in
    let '(p, best, fg) := x in
    match p with
    | [] => Ok ([], best, fg)
    | a :: _ => let u := s_u (last p a) in
                if near_diagonal near d u then Ok (log_z u (path_ops p), best, fg) else Err RuntimeError
    end.

  (** phy:218-281 *)
  Definition phy_kid (a : snode) (t : nat * nat * nat) : res (option snode) :=
    let '(c, r, r2) := t in
    let u := s_u a in
    if wanted u c r r2 then
      let theta := ada_theta u c r r2 in
      let phi := ada_phi u c r r2 in
      let? q := new_R d (Z.of_nat r) (Z.of_nat r2) theta phi in
      let u' := mmul d (op_matrix d (OR q)) u in
      let? place := (match s_graph a with Some g => Ok g | None => Err AttributeError end) in
      let? x := cost_calculator sp d q place (count_nonzero d u') in
      let '(est, pulses, place', cpi, gc) := x in
      let cost := (cpi + gc + s_dcost a)%R in
      if affordable (snd (s_max a)) cost then
        let? v1 := node_attr place' (Z.of_nat r) "lpmap" in
        let? v2 := node_attr place' (Z.of_nat r2) "lpmap" in
        let? p1 := as_int v1 in
        let? p2 := as_int v2 in
        let phi' := if (p2 <? p1)%Z then (phi * -1)%R else phi in
        let? q0 := new_R d p1 p2 theta phi' in
        let? q1 := gate_chain_condition d pulses q0 in
        let? q2 := graph_rule_ongate d q1 place' in
        let? back := mapr (back_pulse d) pulses in
        let? place'' := foldr (fun g p => graph_rule_update p g) back place' in
        Ok (Some (SN (Some q2) u' (Some place'') (est + s_cost a)%R cost (s_max a) pulses))
      else Ok None
    else Ok None.

  (** phy:144-168 (z_extraction, the phases of the diagonal). *)
  Definition phy_z_step (z_prop : bool) (u : mat) (st : list qop * lgraph) (i : nat) : res (list qop * lgraph) :=
    let '(ops, g) := st in
    if Rlt_dec delta (Rabs (angle (u i i))) then
      if z_prop then
        let? b := has_phases g in
        if (b : bool) then
          let? v := node_attr g (Z.of_nat i) "phase_storage" in
          let? x := num v in
          let? g' := write_attr g (Z.of_nat i) "phase_storage" (AFlt (new_mod (x + angle (u i i)) (2 * PI))) in
          Ok (ops, g')
        else Ok (ops, g)
      else
        let? v := node_attr g (Z.of_nat i) "lpmap" in
        Ok (ops ++ [OV (virtrz_params d v (AFlt (angle (u i i))))], g)
    else Ok (ops, g).
  (** phy:170-186: the stored phases are emitted and reset (the same loop as in QrModel, with no record). *)
  Definition phy_z (z_prop : bool) (u : mat) (g : lgraph) (ops : list qop) : res (list qop * lgraph) :=
    let? st := foldr (phy_z_step z_prop u) (seq 0 d) (ops, g) in
    if z_prop then Ok st else
    let? f := flush delta phy_level d false (snd st) in
    let '(ops', _, g') := f in
    Ok (fst st ++ ops', g').
  (** phy:91-188 (execute and z_extraction). *)
  Definition phy_adaptive (z_prop : bool) (fuel : nat) (U : mat) (g : lgraph) (limit : R * R)
      : res (list qop * option (R * R) * option lgraph) :=
    let? x := search_for near phy_kid d fuel U (phase_storing_setup g) limit in
    let '(p, best, fg) := x in
    match p with
    | [] => Ok ([], best, fg)
    | a :: _ => let u := s_u (last p a) in
                if near_diagonal near d u then
                  let? place := (match fg with Some g => Ok g | None => Err AttributeError end) in
                  let? y := phy_z z_prop u place (path_ops p) in
                  Ok (fst y, best, Some (snd y))
                else Err RuntimeError
    end.
End Ada.

(** *** The passes *)
(** backend.energy_level_graphs[i] = g; the list may hold None. *)
Definition put_slot (gs : list (option lgraph)) (i : Z) (g : option lgraph) : list (option lgraph) :=
  let k := Z.to_nat (if (i <? 0)%Z then Z.of_nat (List.length gs) + i else i) in
  firstn k gs ++ g :: skipn (S k) gs.

Section Passes.
  Variable sp : lgraph -> Z -> Z -> res (list Z).
  Variable fuel : nat.

  (** An attribute of None is asked for first by execute of the QR decomposition (log_local_qr_decomp.py:71,
      phy_local_qr_decomp.py:71). *)
  Definition the_graph (gs : list (option lgraph)) (line : Z) : res lgraph :=
    let? o := pyindex gs line in match o with Some g => Ok g | None => Err AttributeError end.

  (** log:32-49 (transpile_gate); the QR decomposition is run with its default arguments. *)
  Definition log_ada_gate (gs : list (option lgraph)) (line : Z) (d : nat) (U : mat) : res (list (qop * bool) * list (option lgraph)) :=
    let? g := the_graph gs line in
    let? x := log_execute sp code_eps code_delta false true d U g in
    let '(_, alg, tot, g') := x in
    let? y := log_adaptive code_eps code_tiny code_near code_slack code_delta d fuel U g' (alg, tot) in
    let '(ops, _, fg) := y in
    Ok (map plain ops, put_slot gs line fg).
  (** log:51-63 (transpile). *)
  Fixpoint log_ada_transpile (gs : list (option lgraph)) (c : list instr) : res (list outstr * list (option lgraph)) :=
    match c with
    | [] => Ok ([], gs)
    | IOther n :: r => let? x := log_ada_transpile gs r in Ok (OOther n :: fst x, snd x)
    | ISingle line d U :: r =>
        let? x := log_ada_gate gs line d U in
        let? y := log_ada_transpile (snd x) r in
        Ok (map (OGate line d) (fst x) ++ fst y, snd y)
    end.

  (** phy:41-54 (transpile_gate). *)
  Definition phy_ada_gate (z_prop : bool) (gs : list (option lgraph)) (line : Z) (d : nat) (U : mat)
      : res (list (qop * bool) * list (option lgraph)) :=
    let? g := the_graph gs line in
    let? x := phy_execute sp code_eps code_delta false true d U g in
    let '(_, alg, tot, g') := x in
    let? y := phy_adaptive sp code_eps code_tiny code_near code_slack code_delta d z_prop fuel U g' (alg, tot) in
    let '(ops, _, fg) := y in
    Ok (map dag_op (rev (map plain ops)), put_slot gs line fg).
  (** phy:56-69 (transpile). *)
  Fixpoint phy_ada_transpile (z_prop : bool) (gs : list (option lgraph)) (c : list instr) : res (list outstr * list (option lgraph)) :=
    match c with
    | [] => Ok ([], gs)
    | IOther n :: r => let? x := phy_ada_transpile z_prop gs r in Ok (OOther n :: fst x, snd x)
    | ISingle line d U :: r =>
        let? x := phy_ada_gate z_prop gs line d U in
        let? y := phy_ada_transpile z_prop (snd x) r in
        Ok (map (OGate line d) (fst x) ++ fst y, snd y)
    end.
End Passes.
