(** The level graph of one qudit and the routing of a rotation through it.
    Source: src/mqt/qudits/core/level_graph.py,
    src/mqt/qudits/compiler/onedit/local_operation_swap/swap_routine.py and
    src/mqt/qudits/compiler/compilation_minitools/local_compilation_minitools.py.

    A networkx Graph is an ordered dict from nodes to attribute dicts and an ordered dict from nodes to
    ordered dicts from neighbours to edge attribute dicts.  The attribute dict of an edge is one object
    shared by both directions; here both directions hold equal copies, which no modelled operation can
    tell apart (every modelled write goes through [add_edge], which writes both).  The search for a
    shortest path is networkx's and is an argument of the functions that use it.  Floats are exact
    reals. *)
From Coq Require Import Reals.
From Verif.Base Require Import Py.
From Verif.Gates Require Import AnglesModel SingleModel.
Local Open Scope string_scope.
Local Open Scope list_scope.
Local Open Scope nat_scope.

(** Attribute values: ints, floats and strings (level_graph.py:11, NodeAttributes). *)
Inductive aval := AInt (z : Z) | AFlt (r : R) | AStr (s : string).
Notation attrs := (list (string * aval)).

Notation aget := (dget String.eqb).
Notation aset := (dset String.eqb).
Notation nget := (dget Z.eqb).
Notation nset := (dset Z.eqb).

Record lgraph := LG { nd : list (Z * attrs); adj : list (Z * list (Z * attrs));
                      og_dims : option (list nat); qudit_index : option Z }.

(** d[k] *)
Definition getk {V} (o : option V) : res V := match o with Some v => Ok v | None => Err KeyError end.

(** dict.update *)
Definition update (a b : attrs) : attrs := fold_left (fun acc kv => aset acc (fst kv) (snd kv)) b a.

(** networkx Graph.add_node(n, attr) as add_nodes_from uses it (level_graph.py:32). *)
Definition add_node (g : lgraph) (n : Z) (a : attrs) : lgraph :=
  match nget (nd g) n with
  | Some old => LG (nset (nd g) n (update old a)) (adj g) (og_dims g) (qudit_index g)
  | None => LG (nset (nd g) n (update [] a)) (nset (adj g) n []) (og_dims g) (qudit_index g)
  end.

(** networkx Graph.add_edge(u, v, data) as add_edges_from uses it (level_graph.py:37, 176): both ends
    are created if absent, the data is merged into what is stored. *)
Definition neighbours (g : lgraph) (u : Z) : list (Z * attrs) :=
  match nget (adj g) u with Some l => l | None => [] end.
Definition edge_data (g : lgraph) (u v : Z) : option attrs := nget (neighbours g u) v.
Definition set_edge (g : lgraph) (u v : Z) (a : attrs) : lgraph :=
  LG (nd g) (nset (adj g) u (nset (neighbours g u) v a)) (og_dims g) (qudit_index g).
Definition ensure (g : lgraph) (n : Z) : lgraph := if dmem Z.eqb (nd g) n then g else add_node g n [].
Definition add_edge (g : lgraph) (e : Z * Z * attrs) : lgraph :=
  let '(u, v, a) := e in
  let g := ensure (ensure g u) v in
  let d := update (match edge_data g u v with Some d => d | None => [] end) a in
  set_edge (set_edge g u v d) v u d.

(** networkx set_node_attributes(G, values, name): unknown nodes are skipped (level_graph.py:66, 73, 76). *)
Definition set_attr (name : string) (g : lgraph) (nv : Z * aval) : lgraph :=
  match nget (nd g) (fst nv) with
  | Some a => LG (nset (nd g) (fst nv) (aset a name (snd nv))) (adj g) (og_dims g) (qudit_index g)
  | None => g
  end.

(** level_graph.py:64-66 (logic_physical_map): dict(zip(nodes, physical)). *)
Definition logic_physical_map (g : lgraph) (logic phys : list Z) : lgraph :=
  fold_left (set_attr "lpmap")
    (fold_left (fun d np => nset d (fst np) (AInt (snd np))) (combine logic phys) []) g.

(** level_graph.py:68-76 (define__states): the reachable levels get "r", then the initial ones "i". *)
Definition define_states (g : lgraph) (init inreach : list Z) : lgraph :=
  fold_left (set_attr "level") (map (fun n => (n, AStr "i")) init)
    (fold_left (set_attr "level") (map (fun n => (n, AStr "r")) inreach) g).

(** level_graph.py:18-41 (constructor) for a list of int nodes. *)
Definition new_graph (edges : list (Z * Z * attrs)) (nodes : list Z) (phys : list Z)
    (init : option (list Z)) (qi : option Z) (og : option (list nat)) : lgraph :=
  let g := fold_left (fun g n => add_node g n []) nodes (LG [] [] og qi) in
  let g := match phys with [] => g | _ => logic_physical_map g nodes phys end in
  let g := fold_left add_edge edges g in
  match init with
  | None => g
  | Some l => define_states g l (filter (fun x => negb (existsb (Z.eqb x) l)) (map fst (nd g)))
  end.

(** level_graph.py:18-41 (constructor) as swap_nodes calls it: nodes with attributes, no edges. *)
Definition new_graph_attrs (nodes : list (Z * attrs)) : lgraph :=
  fold_left (fun g na => add_node g (fst na) (snd na)) nodes (LG [] [] None None).

(** level_graph.py:43-47 (phase_storing_setup). *)
Definition phase_storing_setup (g : lgraph) : lgraph :=
  LG (map (fun na => (fst na, if dmem String.eqb (snd na) "phase_storage" then snd na
                              else aset (snd na) "phase_storage" (AInt 0))) (nd g))
     (adj g) (og_dims g) (qudit_index g).

(** level_graph.py:79-109 (update_list): first the ends equal to num_a or num_b are marked, then the
    marked ends are substituted. *)
Definition mark (a b x : Z) : nat := if (x =? a)%Z then 1 else if (x =? b)%Z then 2 else 0.
Definition subst_mark (a b : Z) (m : nat) (x : Z) : Z := match m with 1 => b | 2 => a | _ => x end.
Definition update_list (l : list (Z * Z)) (a b : Z) : list (Z * Z) :=
  let marks := map (fun t => (mark a b (fst t), mark a b (snd t))) l in
  map (fun tm => (subst_mark a b (fst (snd tm)) (fst (fst tm)), subst_mark a b (snd (snd tm)) (snd (fst tm))))
      (combine l marks).

(** level_graph.py:123-128 (index). *)
Fixpoint node_index {V} (l : list (Z * V)) (n : Z) : res nat :=
  match l with
  | [] => Err ValueError
  | (m, _) :: r => if (m =? n)%Z then Ok 0 else let? i := node_index r n in Ok (S i)
  end.

(** l[i] = v *)
Fixpoint set_nth {A} (l : list A) (i : nat) (v : A) : list A :=
  match l, i with
  | [], _ => []
  | _ :: r, 0 => v :: r
  | x :: r, S j => x :: set_nth r j v
  end.

(** level_graph.py:130-145 (swap_node_attributes): for each attribute of the first node, exchange the
    values stored at the two nodes. *)
Definition attrs_at (l : list (Z * attrs)) (i : nat) : attrs := snd (nth i l (0%Z, [])).
Definition set_attr_at (l : list (Z * attrs)) (i : nat) (k : string) (v : aval) : list (Z * attrs) :=
  set_nth l i (fst (nth i l (0%Z, [])), aset (attrs_at l i) k v).
Definition swap_attr (ia ib : nat) (l : res (list (Z * attrs))) (k : string) : res (list (Z * attrs)) :=
  let? l := l in
  let? va := getk (aget (attrs_at l ia) k) in
  let? vb := getk (aget (attrs_at l ib) k) in
  Ok (set_attr_at (set_attr_at l ia k vb) ib k va).
Definition swap_node_attributes (g : lgraph) (a b : Z) : res (list (Z * attrs)) :=
  let l := nd g in
  let? ia := node_index l a in
  let? ib := node_index l b in
  fold_left (swap_attr ia ib) (map fst (attrs_at l 0)) (Ok l).

(** networkx Graph.edges as a list: each undirected edge once, from the end that comes first in the
    adjacency dict. *)
Fixpoint edge_list_from (seen : list Z) (l : list (Z * list (Z * attrs))) : list (Z * Z) :=
  match l with
  | [] => []
  | (u, nbrs) :: r =>
      map (fun v => (u, v)) (filter (fun v => negb (existsb (Z.eqb v) seen)) (map fst nbrs))
      ++ edge_list_from (u :: seen) r
  end.
Definition edge_list (g : lgraph) : list (Z * Z) := edge_list_from [] (adj g).

(** level_graph.py:159-178 (swap_nodes).  The new graph has neither circuit nor qudit index. *)
Definition swap_nodes (g : lgraph) (a b : Z) : res lgraph :=
  let? nodes := swap_node_attributes g a b in
  let new := new_graph_attrs nodes in
  let edges := edge_list g in
  let data := map (fun e => match edge_data g (fst e) (snd e) with Some d => d | None => [] end) edges in
  let swapped := update_list edges a b in
  Ok (fold_left add_edge (map (fun ed => (fst (fst ed), snd (fst ed), snd ed)) (combine swapped data)) new).

(** level_graph.py:147-157 (swap_node_attr_simple): the positions of the two nodes in the node list are
    used as node names. *)
Definition with_levels (g : lgraph) : res (list (Z * aval)) :=
  mapr (fun na => let? v := getk (aget (snd na) "level") in Ok (fst na, v)) (nd g).
Definition is_level (s : string) (nv : Z * aval) : bool :=
  match snd nv with AStr t => String.eqb t s | _ => false end.

(** level_graph.py:216-234 (fst_rnode, fst_inode, is_irnode, is_inode). *)
Definition nodes_at_level (g : lgraph) (s : string) : res (list Z) :=
  let? l := with_levels g in Ok (map fst (filter (is_level s) l)).
Definition fst_node (g : lgraph) (s : string) : res Z :=
  let? l := nodes_at_level g s in
  match l with n :: _ => Ok n | [] => Err IndexError end.
Definition fst_rnode (g : lgraph) : res Z := fst_node g "r".
Definition fst_inode (g : lgraph) : res Z := fst_node g "i".
Definition is_irnode (g : lgraph) (n : Z) : res bool :=
  let? l := nodes_at_level g "r" in Ok (existsb (Z.eqb n) l).
Definition is_inode (g : lgraph) (n : Z) : res bool :=
  let? l := nodes_at_level g "i" in Ok (existsb (Z.eqb n) l).

Definition node_attrs (g : lgraph) (n : Z) : res attrs := getk (nget (nd g) n).
Definition node_attr (g : lgraph) (n : Z) (k : string) : res aval := let? a := node_attrs g n in getk (aget a k).
Definition write_attr (g : lgraph) (n : Z) (k : string) (v : aval) : res lgraph :=
  let? a := node_attrs g n in
  Ok (LG (nset (nd g) n (aset a k v)) (adj g) (og_dims g) (qudit_index g)).

Definition swap_node_attr_simple (g : lgraph) (a b : Z) : res lgraph :=
  let? ia := node_index (nd g) a in
  let? ib := node_index (nd g) b in
  let na := Z.of_nat ia in let nb := Z.of_nat ib in
  let? inode := fst_inode g in
  let? at_i := node_attrs g inode in
  if dmem String.eqb at_i "phase_storage" then
    let? pa := node_attr g na "phase_storage" in
    let? pb := node_attr g nb "phase_storage" in
    let? g := write_attr g na "phase_storage" pb in
    write_attr g nb "phase_storage" pa
  else Ok g.

(** level_graph.py:236-239 (log_phy_map). *)
Definition log_phy_map (g : lgraph) : res (list aval) :=
  mapr (fun n => getk (aget (snd n) "lpmap"))
    (flat_map (fun key => filter (fun N => (fst N =? key)%Z) (nd g)) (map fst (nd g))).

(** A number attribute as a real; a string has no arithmetic. *)
Definition num (v : aval) : res R :=
  match v with AInt z => Ok (IZR z) | AFlt r => Ok r | AStr _ => Err TypeError end.
(** An attribute used as a level: R asserts that it is an int (r.py:80-81). *)
Definition as_int (v : aval) : res Z := match v with AInt z => Ok z | _ => Err AssertionError end.

Local Open Scope R_scope.

(** r.py:40-47 with parameters [a, b, theta, phi] (see Gates/SingleModel.v). *)
Definition new_R (d : nat) (a b : Z) (theta phi : R) : res rot :=
  let? o := r_new d (PList [PInt a; PInt b; PFloat theta; PFloat phi]) in
  match o with Some r => Ok r | None => Err AssertionError end.

(** swap_routine.py:22-31 (find_logic_from_phys): the last node with the level wins, -1 if none. *)
Definition find_logic_from_phys (la lb : Z) (g : lgraph) : res (Z * Z) :=
  fold_left (fun acc na =>
      let? ab := acc in
      let? v := getk (aget (snd na) "lpmap") in
      let same z := match v with AInt y => (y =? z)%Z | _ => false end in
      Ok (if same la then fst na else fst ab, if same lb then fst na else snd ab))
    (nd g) (Ok (-1, -1)%Z).

(** swap_routine.py:34-57 (graph_rule_update). *)
Definition add_pi (g : lgraph) (n : Z) : res lgraph :=
  let? v := node_attr g n "phase_storage" in let? x := num v in
  write_attr g n "phase_storage" (AFlt (new_mod (x + PI) (2 * PI))).
Definition graph_rule_update (r : rot) (g : lgraph) : res lgraph :=
  if Rlt_dec (Rabs (Rabs (r_theta r) - PI)) (1 / 100) then
    let? inode := fst_inode g in
    let? at_i := node_attrs g inode in
    if negb (dmem String.eqb at_i "phase_storage") then Ok g else
    let? ab := find_logic_from_phys (Z.of_nat (lev_a r)) (Z.of_nat (lev_b r)) g in
    let '(na, nb) := ab in
    if negb (na =? -1)%Z && negb (nb =? -1)%Z then
      let? g := swap_node_attr_simple g na nb in
      let phase := pi_mod (r_phi r) in
      if Rlt_dec 0 (r_theta r * phase) then add_pi g nb
      else if Rlt_dec (r_theta r * phase) 0 then add_pi g na
      else Ok g
    else Ok g
  else Ok g.

(** swap_routine.py:60-87 (graph_rule_ongate). *)
Definition graph_rule_ongate (d : nat) (r : rot) (g : lgraph) : res rot :=
  let? inode := fst_inode g in
  let? at_i := node_attrs g inode in
  if negb (dmem String.eqb at_i "phase_storage") then Ok r else
  let? ab := find_logic_from_phys (Z.of_nat (lev_a r)) (Z.of_nat (lev_b r)) g in
  let '(na, nb) := ab in
  let? f1 := (if (na =? -1)%Z then Ok (r_phi r)
              else let? v := node_attr g na "phase_storage" in let? x := num v in Ok (r_phi r - x)) in
  let? f2 := (if (nb =? -1)%Z then Ok f1
              else let? v := node_attr g nb "phase_storage" in let? x := num v in Ok (f1 + x)) in
  new_R d (Z.of_nat (lev_a r)) (Z.of_nat (lev_b r)) (r_theta r) f2.

(** swap_routine.py:91-123 (gate_chain_condition). *)
Definition gate_chain_condition (d : nat) (previous : list rot) (cur : rot) : res rot :=
  match last (map Some previous) None with
  | None => Ok cur
  | Some prev =>
      let theta :=
        if Nat.eqb (lev_a cur) (lev_a prev) then r_theta cur
        else if Nat.eqb (lev_b cur) (lev_b prev) then
          (if Nat.ltb (lev_a cur) (lev_a prev) || Nat.ltb (lev_a prev) (lev_a cur)
           then r_theta cur * -1 else r_theta cur)
        else if Nat.eqb (lev_a cur) (lev_b prev) then r_theta cur * -1
        else r_theta cur in
      new_R d (Z.of_nat (lev_a cur)) (Z.of_nat (lev_b cur)) theta (r_phi cur)
  end.

(** local_compilation_minitools.py:14-19 (swap_elements); negative positions do not occur in the calls. *)
Definition swap_elements {A} (l : list A) (i j : nat) : res (list A) :=
  match nth_error l i, nth_error l j with
  | Some a, Some b => Ok (set_nth (set_nth l i b) j a)
  | _, _ => Err IndexError
  end.

Section Routing.
  (** networkx.shortest_path(graph, source, target). *)
  Variable shortest_path : lgraph -> Z -> Z -> res (list Z).

  (** level_graph.py:49-51 (distance_nodes). *)
  Definition distance_nodes (g : lgraph) (s t : Z) : res Z :=
    let? p := shortest_path g s t in Ok (Z.of_nat (List.length p) - 1)%Z.

  (** level_graph.py:53-62 (distance_nodes_pi_pulses_fixed_ancilla). *)
  Definition distance_pi_pulses (g : lgraph) (s t : Z) : res Z :=
    let? p := shortest_path g s t in
    let pos := Z.of_nat (List.length (filter (fun n => (0 <=? n)%Z) p)) in
    let negs := Z.of_nat (List.length (filter (fun n => negb (0 <=? n)%Z) p)) in
    Ok (2 * negs - 1 + pos - 1)%Z.

  (** local_compilation_minitools.py:57-74 (rotation_cost_calc). *)
  Definition rotation_cost_calc (r : rot) (g : lgraph) : res R :=
    let source := orig_a r in let target := orig_b r in
    let? ra := is_irnode g source in
    let? rb := (if ra then Ok true else is_irnode g target) in
    if (rb : bool) then
      let? i1 := fst_inode g in let? d1 := distance_nodes g i1 source in
      let? i2 := fst_inode g in let? d2 := distance_nodes g i2 target in
      Ok (IZR (Z.min d1 d2 + 1) * theta_cost (r_theta r))
    else Ok (theta_cost (r_theta r)).

  (** swap_routine.py:141-166: one pass of the loop for index i. *)
  Definition route_step (d i : nat) (path : list Z) (g : lgraph) (pulses : list rot) (cost : R)
      : res (R * list rot * lgraph * list Z) :=
    let? ni := pyindex path (Z.of_nat i) in
    let? ni1 := pyindex path (Z.of_nat (i + 1)) in
    let? vi := node_attr g ni "lpmap" in
    let? vi1 := node_attr g ni1 "lpmap" in
    let? phy_i := as_int vi in
    let? phy_i1 := as_int vi1 in
    let? pi0 := new_R d phy_i phy_i1 PI (- PI / 2) in
    let? pi1 := gate_chain_condition d pulses pi0 in
    let? pi2 := graph_rule_ongate d pi1 g in
    let? logic := new_R d ni ni1 (r_theta pi2) (r_phi pi2 / 2) in
    let? c := rotation_cost_calc logic g in
    let? g' := swap_nodes g ni1 ni in
    let? path' := swap_elements path (i + 1) i in
    Ok (cost + c, pulses ++ [pi2], g', path').

  (** swap_routine.py:139-166: while i > 0, counting down. *)
  Fixpoint route_loop (d i : nat) (path : list Z) (g : lgraph) (pulses : list rot) (cost : R)
      : res (R * list rot * lgraph) :=
    match i with
    | O => Ok (cost, pulses, g)
    | S j =>
        let? st := route_step d i path g pulses cost in
        let '(cost', pulses', g', path') := st in
        route_loop d j path' g' pulses' cost'
    end.

  (** swap_routine.py:126-168 (route_states2rotate_basic). *)
  Definition route_states2rotate_basic (d : nat) (r : rot) (g : lgraph) : res (R * list rot * lgraph) :=
    let? path := shortest_path g (orig_a r) (orig_b r) in
    route_loop d (List.length path - 2) path g [] 0.

  (** swap_routine.py:171-176 (cost_calculator). *)
  Definition cost_calculator (d : nat) (r : rot) (g : lgraph) (non_zeros : Z)
      : res (R * list rot * lgraph * R * R) :=
    let? x := route_states2rotate_basic d r g in
    let '(cpi, pulses, g') := x in
    let? gc := rotation_cost_calc r g' in
    Ok ((gc + cpi) * IZR non_zeros, pulses, g', cpi, gc).
End Routing.

(** virt_rz.py:58-70 and 39-43: the list [level, phase] is ignored without an error unless it is an int
    and a float with the level inside the dimension; Some (level, regulated phase) otherwise. *)
Definition virtrz_params (d : nat) (lev phase : aval) : option (nat * R) :=
  match lev, phase with
  | AInt l, AFlt f => if ((0 <=? l) && (l <? Z.of_nat d))%Z then Some (Z.to_nat l, regulate_theta f) else None
  | _, _ => None
  end.

(** level_graph.py:180-200 (get_vrz_gates). *)
Definition get_vrz_gates (g : lgraph) : res (list (option (nat * R))) :=
  match og_dims g with
  | None => Ok []
  | Some dims =>
      fold_left (fun acc na =>
          let? out := acc in
          match aget (snd na) "phase_storage" with
          | None => Ok out
          | Some v =>
              let? x := num v in
              if Rlt_dec (1 / 1000) x then
                let? lp := getk (aget (snd na) "lpmap") in
                let? qi := match qudit_index g with Some q => Ok q | None => Err TypeError end in
                let? d := pyindex dims qi in
                Ok (out ++ [virtrz_params d lp v])
              else if Rlt_dec (1 / 1000) (rmod x (2 * PI)) then
                let? lp := getk (aget (snd na) "lpmap") in
                let? qi := match qudit_index g with Some q => Ok q | None => Err TypeError end in
                let? d := pyindex dims qi in
                Ok (out ++ [virtrz_params d lp v])
              else Ok out
          end) (nd g) (Ok [])
  end.

(** level_graph.py:202-208 (get_node_sensitivity_cost). *)
Definition get_node_sensitivity_cost (g : lgraph) (n : Z) : res R :=
  let? nbrs := getk (nget (adj g) n) in
  fold_left (fun acc ne => let? s := acc in let? v := getk (aget (snd ne) "sensitivity") in
                           let? x := num v in Ok (s + x)) nbrs (Ok 0).

(** level_graph.py:210-214 (get_edge_sensitivity). *)
Definition get_edge_sensitivity (g : lgraph) (a b : Z) : res R :=
  let? nbrs := getk (nget (adj g) a) in
  let? e := getk (nget nbrs b) in
  let? v := getk (aget e "sensitivity") in num v.

(** fake_traps2three.py:44-68, fake_traps2six.py:34-72, fake_traps3six.py:40-99 and innsbruck_01.py:41-66
    (energy_level_graphs): the graphs of the backends, the same for every qudit of a backend. *)
Definition link (a b sens : Z) (carrier : list (string * aval)) : Z * Z * attrs :=
  (a, b, [("delta_m", AInt 0); ("sensitivity", AInt sens)] ++ carrier).
Definition traps_three : lgraph :=
  new_graph [link 1 0 3 []; link 0 2 3 []]%Z [0; 1; 2]%Z [0; 2; 1]%Z (Some [1]%Z) None None.
Definition traps_six : lgraph :=
  new_graph [link 2 0 3 []; link 3 0 3 []; link 4 0 4 []; link 5 0 4 []; link 1 2 4 []; link 1 3 3 []; link 1 4 3 []; link 1 5 3 []]%Z
    [0; 1; 2; 3; 4; 5]%Z [0; 1; 2; 3; 4; 5]%Z (Some [1]%Z) None None.
Definition innsbruck : lgraph :=
  new_graph [link 0 1 3 [("carrier", AInt 0)]; link 1 2 4 [("carrier", AInt 1)]]%Z [0; 1; 2]%Z [0; 1; 2]%Z (Some [1]%Z) None None.
