(** C62: distances, costs and sensitivities on the level graph. *)
From Coq Require Import Reals.
From Verif.Base Require Import Py.
From Verif.Gates Require Import AnglesModel SingleModel.
From Verif.Levels Require Import LevelsModel LevelsSpec RouteProofs PhaseProofs DistanceSpec DistanceProofs.
Local Open Scope string_scope.
Local Open Scope list_scope.
Local Open Scope nat_scope.

(** The distance of two levels is the smallest number of transitions between them. *)
Theorem C62_distance :
  forall sp g s t, finds_shortest sp -> well_formed g -> connected g -> is_node g s -> is_node g t ->
  exists k, distance_nodes sp g s t = Ok (Z.of_nat k) /\ edges_apart g s t k.
Proof. exact distance_value. Qed.
Print Assumptions C62_distance.

(** The pulse count without ancillas is the number of pulses the routing emits. *)
Theorem C62_pulse_count :
  forall sp d r g c ps g', finds_shortest sp -> routable d g ->
  is_node g (orig_a r) -> is_node g (orig_b r) -> orig_a r <> orig_b r ->
  route_states2rotate_basic sp d r g = Ok (c, ps, g') ->
  distance_pi_pulses sp g (orig_a r) (orig_b r) = Ok (Z.of_nat (List.length ps)).
Proof. exact route_pulses. Qed.
Print Assumptions C62_pulse_count.

(** fst_rnode and fst_inode are the first nodes of their kind; there is an IndexError if there is none. *)
Theorem C62_first_levels : forall g, well_formed g -> kinds_given g ->
  (forall n, first_of_kind g "r" n -> fst_rnode g = Ok n) /\ ((forall n, ~ has_attr g n "level" (AStr "r")) -> fst_rnode g = Err IndexError) /\
  (forall n, first_of_kind g "i" n -> fst_inode g = Ok n) /\ ((forall n, ~ has_attr g n "level" (AStr "i")) -> fst_inode g = Err IndexError).
Proof.
  intros g W G. destruct (first_kind g "r" W G) as [A B], (first_kind g "i" W G) as [A' B'].
  split; [exact A|]. split; [exact B|]. split; [exact A'|exact B'].
Qed.
Print Assumptions C62_first_levels.
(** is_irnode and is_inode tell the kind of a level. *)
Theorem C62_level_kinds : forall g n, well_formed g -> kinds_given g ->
  (exists b, is_irnode g n = Ok b /\ (b = true <-> has_attr g n "level" (AStr "r"))) /\
  (exists b, is_inode g n = Ok b /\ (b = true <-> has_attr g n "level" (AStr "i"))).
Proof. intros g n W G. split; apply of_kind; assumption. Qed.
Print Assumptions C62_level_kinds.
Example C62_case_kinds : well_formed traps_three /\ kinds_given traps_three /\ fst_rnode traps_three = Ok 0%Z /\ fst_inode traps_three = Ok 1%Z.
Proof.
  split; [exact (rt_wf _ _ three_routable)|]. split; [|split; vm_compute; reflexivity]. intros n a H.
  vm_compute in H. repeat (destruct H as [H|H]; [injection H as <- <-; eexists; cbn; eauto 10|]). destruct H.
Qed.

(** A rotation between two levels that are not marked "r" costs its angle. *)
Theorem C62_direct_cost :
  forall d g sp, routable d g -> forall r, ~ reachable_level g (orig_a r) -> ~ reachable_level g (orig_b r) ->
  rotation_cost_calc sp r g = Ok (theta_cost (r_theta r)).
Proof. exact cost_direct. Qed.
Print Assumptions C62_direct_cost.

(** Any other rotation costs its angle once more than the number of transitions from the first initial
    level to the nearer one of its two levels. *)
Theorem C62_far_cost :
  forall d g sp, routable d g -> finds_shortest sp -> forall r i ka kb,
  is_node g (orig_a r) -> is_node g (orig_b r) ->
  reachable_level g (orig_a r) \/ reachable_level g (orig_b r) -> first_initial g i ->
  edges_apart g i (orig_a r) ka -> edges_apart g i (orig_b r) kb ->
  rotation_cost_calc sp r g = Ok (INR (Nat.min ka kb + 1) * theta_cost (r_theta r))%R.
Proof. exact cost_far. Qed.
Print Assumptions C62_far_cost.

(** The cost of a routing is at least that of one half turn per pulse. *)
Theorem C62_routing_cost :
  forall sp d r g c ps g', (forall g s t p, sp g s t = Ok p -> p <> []) ->
  route_states2rotate_basic sp d r g = Ok (c, ps, g') -> (INR (List.length ps) * (4 / 10000) <= c)%R.
Proof. exact route_cost. Qed.
Print Assumptions C62_routing_cost.

(** The total cost of a candidate rotation: routing plus rotation on the routed graph, per nonzero entry. *)
Theorem C62_total_cost :
  forall sp d r g nz tot ps g' cpi gc, cost_calculator sp d r g nz = Ok (tot, ps, g', cpi, gc) <->
  route_states2rotate_basic sp d r g = Ok (cpi, ps, g') /\ rotation_cost_calc sp r g' = Ok gc /\ tot = (IZR nz * (gc + cpi))%R.
Proof. exact total_cost. Qed.
Print Assumptions C62_total_cost.
Theorem C62_total_returns :
  forall sp d r g nz, finds_shortest sp -> routable d g ->
  is_node g (orig_a r) -> is_node g (orig_b r) -> orig_a r <> orig_b r -> exists x, cost_calculator sp d r g nz = Ok x.
Proof. exact total_cost_returns. Qed.
Print Assumptions C62_total_returns.

(** The sensitivity of a transition, the same from both ends, and the sum over a level's transitions. *)
Theorem C62_edge_sensitivity :
  forall g a b x, well_formed g -> (get_edge_sensitivity g a b = Ok x <-> sensitivity g a b x).
Proof. exact edge_sens. Qed.
Print Assumptions C62_edge_sensitivity.
Theorem C62_edge_symmetric :
  forall g a b x, well_formed g -> sensitivity g a b x -> sensitivity g b a x.
Proof. exact sens_sym. Qed.
Print Assumptions C62_edge_symmetric.
Theorem C62_node_sensitivity :
  forall g n, well_formed g -> is_node g n -> (forall m, linked g n m -> exists x, sensitivity g n m x) ->
  exists l, get_node_sensitivity_cost g n = Ok (total (map snd l)) /\ NoDup (map fst l) /\
    forall m x, In (m, x) l <-> sensitivity g n m x.
Proof. exact node_sens. Qed.
Print Assumptions C62_node_sensitivity.

(** ** The hypotheses are met *)

(** In the three level trap level 1 is the first initial one and reaches 2 over 0. *)
Example C62_case : first_initial traps_three 1 /\ edges_apart traps_three 1 0 1 /\ edges_apart traps_three 1 2 2 /\
  reachable_level traps_three 0 /\ reachable_level traps_three 2.
Proof. exact (conj case_first (conj case_apart_one (conj case_apart_two case_levels))). Qed.
Example C62_case_cost : rotation_cost_calc search_shortest (Rot 0 2 PI 0 0 2) traps_three = Ok (INR 2 * theta_cost PI)%R.
Proof. exact case_cost. Qed.
Example C62_case_search : forall g s t p, search_shortest g s t = Ok p -> p <> [].
Proof. exact search_nonempty. Qed.
Example C62_case_sensitivity : get_edge_sensitivity traps_six 5 0 = Ok 4%R /\ get_edge_sensitivity traps_six 1 5 = Ok 3%R.
Proof. exact case_sens. Qed.
