(** Properties of the level graph and of the routing of rotations (C25, C26, C56-C58). *)
From Coq Require Import Reals Permutation Lra.
From Verif.Base Require Import Py PyFacts Cplx Matrix.
From Verif.Gates Require Import AnglesModel AnglesProofs SingleModel SingleSpec.
From Verif.Levels Require Import LevelsModel LevelsSpec GraphProofs LevelsProofs RouteProofs PhaseProofs BackendProofs.
Local Open Scope string_scope.
Local Open Scope list_scope.
Local Open Scope nat_scope.

(** ** C25: swapping logical levels *)

(** The constructor makes the graph that was asked for. *)
Theorem C25_constructor :
  forall edges nodes phys init qi og,
  NoDup nodes -> nodes <> [] -> List.length phys = List.length nodes -> good_edges nodes edges ->
  let g := new_graph edges nodes phys (Some init) qi og in
  well_formed g /\ uniform g /\ map fst (nd g) = nodes /\
  (forall n p, placed g n p <-> In (n, p) (combine nodes phys)) /\
  (forall u v d, joined g u v d <-> In (u, v, d) edges \/ In (v, u, d) edges) /\
  (forall n v, has_attr g n "level" v <-> In n nodes /\ v = AStr (if in_dec Z.eq_dec n init then "i" else "r")) /\
  (forall n v, ~ has_attr g n "phase_storage" v).
Proof. exact new_graph_spec. Qed.
Print Assumptions C25_constructor.

(** Whatever the history of swaps, it succeeds, the couplings of physical levels with their data stay the
    same, and the placement stays one to one on the same physical levels. *)
Theorem C25_couplings :
  forall (l : list (Z * Z)) (g : lgraph), well_formed g -> uniform g -> placement_ok g ->
  (forall a b, In (a, b) l -> is_node g a /\ is_node g b) ->
  exists g', swap_all g l = Ok g' /\ well_formed g' /\ uniform g' /\ placement_ok g' /\
    map fst (nd g') = map fst (nd g) /\ same_couplings g g'.
Proof. exact swap_all_spec. Qed.
Print Assumptions C25_couplings.

(** log_phy_map after any history is a rearrangement of log_phy_map before. *)
Theorem C25_log_phy_map :
  forall (l : list (Z * Z)) (g g' : lgraph), well_formed g -> uniform g -> placement_ok g ->
  (forall a b, In (a, b) l -> is_node g a /\ is_node g b) -> swap_all g l = Ok g' ->
  exists m m', log_phy_map g = Ok m /\ log_phy_map g' = Ok m' /\ Permutation m m'.
Proof. exact log_phy_map_all. Qed.
Print Assumptions C25_log_phy_map.

(** One swap exchanges the two nodes' attributes and nothing else. *)
Theorem C25_swap_effect :
  forall g a b, well_formed g -> uniform g -> is_node g a -> is_node g b ->
  exists g', swap_nodes g a b = Ok g' /\
    (forall k v, has_attr g' a k v <-> has_attr g b k v) /\
    (forall k v, has_attr g' b k v <-> has_attr g a k v) /\
    (forall n k v, n <> a -> n <> b -> (has_attr g' n k v <-> has_attr g n k v)).
Proof. exact swap_effect. Qed.
Print Assumptions C25_swap_effect.

(** Swapping twice gives the graph back. *)
Theorem C25_swap_twice :
  forall g a b g1 g2, well_formed g -> uniform g ->
  swap_nodes g a b = Ok g1 -> swap_nodes g1 a b = Ok g2 ->
  map fst (nd g2) = map fst (nd g) /\ (forall n k v, has_attr g2 n k v <-> has_attr g n k v) /\
  (forall u v d, joined g2 u v d <-> joined g u v d).
Proof. exact swap_twice. Qed.
Print Assumptions C25_swap_twice.

Theorem C25_unknown_node :
  forall g a b, well_formed g -> ~ is_node g a \/ ~ is_node g b -> swap_nodes g a b = Err ValueError.
Proof. exact swap_all_missing. Qed.
Print Assumptions C25_unknown_node.

(** ** C26: routing *)

(** Every pulse is a half turn between coupled levels, afterwards the two logical levels are adjacent, the
    couplings are the same, the new graph says where the pulses carry every logical level, and no walk
    between the two levels would need fewer pulses. *)
Theorem C26_routing :
  forall sp d r g, finds_shortest sp -> routable d g ->
  is_node g (orig_a r) -> is_node g (orig_b r) -> orig_a r <> orig_b r ->
  exists c ps g', route_states2rotate_basic sp d r g = Ok (c, ps, g') /\
    Forall (legal_pulse g) ps /\
    linked g' (orig_a r) (orig_b r) /\
    same_couplings g g' /\
    (forall n, is_node g n <-> is_node g' n) /\
    routable d g' /\
    (forall n p q, placed g n p -> placed g' n q -> carries d (pulses_matrix d ps) (Z.to_nat p) (Z.to_nat q)) /\
    (forall q, walk g q (orig_a r) (orig_b r) -> List.length ps + 2 <= List.length q).
Proof. exact route_ok. Qed.
Print Assumptions C26_routing.

(** The contract asked of the path search can be met. *)
Theorem C26_contract : finds_shortest search_shortest.
Proof. exact search_contract. Qed.
Print Assumptions C26_contract.

(** Connected constructor graphs can be routed through, also with phases stored. *)
Theorem C26_devices :
  forall d edges nodes phys init qi og,
  NoDup nodes -> List.length phys = List.length nodes -> NoDup phys -> good_edges nodes edges ->
  (forall n, In n nodes -> (0 <= n < Z.of_nat d)%Z) -> (forall p, In p phys -> (0 <= p < Z.of_nat d)%Z) ->
  (exists n, In n init /\ In n nodes) ->
  connected (new_graph edges nodes phys (Some init) qi og) ->
  routable d (new_graph edges nodes phys (Some init) qi og).
Proof. exact new_graph_routable. Qed.
Print Assumptions C26_devices.
Theorem C26_phase_storing : forall d g, routable d g -> routable d (phase_storing_setup g).
Proof. exact phase_setup_routable. Qed.
Print Assumptions C26_phase_storing.
(** The trap with three levels is a star around level 0, the trap with six levels has the levels 0 and 1 linked with all
    others but not with each other, the Innsbruck backend is a line. *)
Theorem C26_backends : routable 3 traps_three /\ routable 6 traps_six /\ routable 3 innsbruck /\
  (forall u v, linked traps_three u v <-> (u = 0 /\ (v = 1 \/ v = 2)) \/ (v = 0 /\ (u = 1 \/ u = 2)))%Z /\
  (forall u v, linked traps_six u v <-> ((u = 0 \/ u = 1) /\ 2 <= v <= 5) \/ ((v = 0 \/ v = 1) /\ 2 <= u <= 5))%Z /\
  (forall u v, linked innsbruck u v <-> (0 <= u <= 2 /\ 0 <= v <= 2 /\ Z.abs (u - v) = 1))%Z.
Proof. split; [exact three_routable|]. split; [exact six_routable|]. split; [exact innsbruck_routable|exact backends_linked]. Qed.
Print Assumptions C26_backends.

(** ** C56: exchanging the stored phases of two nodes *)

(** On a graph with nodes 0, 1, ... in this order exactly the two stored phases are exchanged. *)
Theorem C56_exchange_phases :
  forall d g a b va vb, routable d g ->
  map fst (nd g) = map Z.of_nat (List.seq 0 (List.length (nd g))) ->
  has_attr g a "phase_storage" va -> has_attr g b "phase_storage" vb ->
  exists g', swap_node_attr_simple g a b = Ok g' /\ adj g' = adj g /\
    has_attr g' a "phase_storage" vb /\ has_attr g' b "phase_storage" va /\
    (forall n v, n <> a -> n <> b -> (has_attr g' n "phase_storage" v <-> has_attr g n "phase_storage" v)) /\
    (forall n k v, k <> "phase_storage" -> (has_attr g' n k v <-> has_attr g n k v)).
Proof. exact swap_simple_attrs. Qed.
Print Assumptions C56_exchange_phases.

(** With the nodes in another order other phases are exchanged: the code reads list positions as names. *)
Theorem C56_node_order_refuted :
  exists d g a b va vb g', routable d g /\
    has_attr g a "phase_storage" va /\ has_attr g b "phase_storage" vb /\ va <> vb /\
    swap_node_attr_simple g a b = Ok g' /\
    ~ has_attr g' a "phase_storage" vb /\
    exists c, c <> a /\ c <> b /\ exists v, has_attr g' c "phase_storage" v /\ ~ has_attr g c "phase_storage" v.
Proof. exact swap_simple_wrong. Qed.
Print Assumptions C56_node_order_refuted.

(** ** C57: the virtual Z gates recovered from a graph *)

(** One gate for each stored phase that is not a full turn, on the physical level of its node. *)
Theorem C57_gates :
  forall d g dims qi, routable d g -> og_dims g = Some dims -> LevelsModel.qudit_index g = Some qi -> pyindex dims qi = Ok d ->
  (forall n v, has_attr g n "phase_storage" v -> v = AInt 0 \/ exists x, v = AFlt x) ->
  exists l, get_vrz_gates g = Ok l /\ ~ In None l /\
    forall p t, In (Some (p, t)) l <->
      exists n x, placed g n (Z.of_nat p) /\ has_attr g n "phase_storage" (AFlt x) /\ noticed x /\ t = regulate_theta x.
Proof. exact vrz_spec. Qed.
Print Assumptions C57_gates.

(** A graph that came out of a swap has forgotten its circuit: all stored phases are dropped. *)
Theorem C57_after_swap_refuted :
  forall g a b g', well_formed g -> uniform g -> swap_nodes g a b = Ok g' -> get_vrz_gates g' = Ok [].
Proof. exact vrz_swapped. Qed.
Print Assumptions C57_after_swap_refuted.

(** ** C58: rotations and pulses seen through stored phases *)

(** The rotation that graph_rule_ongate returns acts before the stored phases as the given one acts after
    them. *)
Theorem C58_ongate :
  forall d r g f, routable d g -> lev_a r < lev_b r < d -> pending g f ->
  exists r', graph_rule_ongate d r g = Ok r' /\ lev_a r' = lev_a r /\ lev_b r' = lev_b r /\
  meq d (mmul d (phases f) (r_array d (lev_a r') (lev_b r') (r_theta r') (r_phi r')))
        (mmul d (r_array d (lev_a r) (lev_b r) (r_theta r) (r_phi r)) (phases f)).
Proof. exact ongate_phases. Qed.
Print Assumptions C58_ongate.

(** A half turn with azimuth pi/2 or -pi/2 is replaced by an exchange of the two levels: the phases that
    graph_rule_update stores make up for the difference. *)
Theorem C58_update :
  forall d r g f na nb, routable d g ->
  map fst (nd g) = map Z.of_nat (List.seq 0 (List.length (nd g))) ->
  (exists n v, has_attr g n "phase_storage" v) ->
  placed g na (Z.of_nat (lev_a r)) -> placed g nb (Z.of_nat (lev_b r)) -> lev_a r <> lev_b r ->
  (r_theta r = PI \/ r_theta r = - PI)%R -> (pi_mod (r_phi r) = PI / 2 \/ pi_mod (r_phi r) = - PI / 2)%R ->
  pending g f ->
  exists g' f', graph_rule_update r g = Ok g' /\ routable d g' /\ map fst (nd g') = map fst (nd g) /\ adj g' = adj g /\
    (forall n p, placed g' n p <-> placed g n p) /\ pending g' f' /\
    meq d (mmul d (r_array d (lev_a r) (lev_b r) (r_theta r) (r_phi r)) (phases f'))
          (mmul d (phases f) (exchange (lev_a r) (lev_b r))).
Proof. exact update_pending. Qed.
Print Assumptions C58_update.

(** With any other azimuth, which the routing produces as soon as phases are stored, they do not. *)
Theorem C58_update_azimuth_refuted :
  forall d r g f na nb, routable d g ->
  map fst (nd g) = map Z.of_nat (List.seq 0 (List.length (nd g))) ->
  (exists n v, has_attr g n "phase_storage" v) ->
  placed g na (Z.of_nat (lev_a r)) -> placed g nb (Z.of_nat (lev_b r)) -> lev_a r <> lev_b r ->
  (r_theta r = PI \/ r_theta r = - PI)%R -> cos (r_phi r) <> 0%R ->
  pending g f ->
  exists g', graph_rule_update r g = Ok g' /\ forall f', pending g' f' ->
    ~ meq d (mmul d (r_array d (lev_a r) (lev_b r) (r_theta r) (r_phi r)) (phases f'))
          (mmul d (phases f) (exchange (lev_a r) (lev_b r))).
Proof. exact update_pending_wrong. Qed.
Print Assumptions C58_update_azimuth_refuted.

(** ** The hypotheses are met *)


(** The graphs of the backends. *)
Example C26_case_three : routable 3 traps_three.
Proof. exact three_routable. Qed.
Example C26_case_six : routable 6 traps_six.
Proof. exact six_routable. Qed.
Example C26_case_innsbruck : routable 3 innsbruck.
Proof. exact innsbruck_routable. Qed.

(** In the three level trap logical 1 and 2 are not coupled, logical 1 sits on physical level 2, and no
    phase is pending after phase_storing_setup. *)
Example C58_case : let g := phase_storing_setup traps_three in
  routable 3 g /\ pending g (fun _ => 0%R) /\ (exists n v, has_attr g n "phase_storage" v) /\
  map fst (nd g) = map Z.of_nat (List.seq 0 (List.length (nd g))) /\
  placed g 1 2 /\ placed g 2 1 /\ linked g 1 0 /\ ~ linked g 1 2.
Proof. exact case_pending. Qed.
Example C58_case_update :
  let g := phase_storing_setup traps_three in let r := Rot 1 2 PI (PI / 2) 1 2 in
  exists g' f', graph_rule_update r g = Ok g' /\ pending g' f' /\
    meq 3 (mmul 3 (r_array 3 1 2 PI (PI / 2)) (phases f')) (mmul 3 (phases (fun _ => 0%R)) (exchange 1 2)).
Proof. exact case_update. Qed.

(** Swapping 1 and 2 there moves the edge 0-1 to 0-2 and keeps physical 0 and 2 coupled. *)
Example C25_case : exists g', swap_nodes traps_three 1 2 = Ok g' /\ log_phy_map traps_three = Ok [AInt 0; AInt 2; AInt 1] /\
  log_phy_map g' = Ok [AInt 0; AInt 1; AInt 2] /\ map fst (neighbours g' 0%Z) = [2; 1]%Z.
Proof. eexists. repeat split; vm_compute; reflexivity. Qed.

(** A rotation between logical 1 and 2 of that trap is routed with one pulse. *)
Example C26_case : search_shortest traps_three 1 2 = Ok [1; 0; 2]%Z.
Proof. vm_compute. reflexivity. Qed.

(** The trap in a circuit, with phase 1 stored for logical level 1: a gate on physical level 2. *)
Example C57_case : exists g, write_attr (phase_storing_setup trap_in_circuit) 1 "phase_storage" (AFlt 1) = Ok g /\
  routable 3 g /\ og_dims g = Some [3] /\ LevelsModel.qudit_index g = Some 0%Z /\
  (forall n v, has_attr g n "phase_storage" v -> v = AInt 0 \/ exists x, v = AFlt x) /\
  exists l, get_vrz_gates g = Ok l /\ In (Some (2, regulate_theta 1)) l /\ ~ In None l.
Proof. exact case_vrz. Qed.
