(** C101: the costs a QR decomposition reports. Specification: QrCostSpec. *)
From Coq Require Import Reals Lra Lia List Arith ZArith.
From Verif.Base Require Import Py Cplx Matrix.
From Verif.Gates Require Import SingleModel SingleSpec.
From Verif.Levels Require Import LevelsModel LevelsSpec RouteProofs DistanceSpec.
From Verif.Local Require Import QrModel QrSpec QrProofs QrPhysical QrPasses QrCases QrCostSpec QrCostProofs.
Import ListNotations.
Local Open Scope list_scope.
Local Open Scope nat_scope.

(** The logical and the physical decomposition of a gate report the same two costs: for the logical one they
    are a forecast of what the device will need. *)
Theorem C101_same_costs sp eps delta z n n' d U g ops alg tot g1 ops' alg' tot' g2 :
  log_execute sp eps delta z n d U g = Ok (ops, alg, tot, g1) -> phy_execute sp eps delta z n' d U g = Ok (ops', alg', tot', g2) ->
  alg = alg' /\ tot = tot'.
Proof. exact (same_costs sp eps delta d z n n' U g ops alg tot g1 ops' alg' tot' g2). Qed.
Print Assumptions C101_same_costs.

(** The total cost is at least the cost of the rotations the physical decomposition emits, pulses for routing
    included, and never more than the algorithmic cost. *)
Theorem C101_physical_cost sp eps delta z nsa d U g ops alg tot g' :
  finds_shortest sp -> names_nodes sp -> routable d g -> covers d g -> unitary d U -> (INR d < 100000000)%R ->
  phy_execute sp eps delta z nsa d U g = Ok (ops, alg, tot, g') -> (gates_cost ops <= tot <= alg)%R.
Proof. intros SP NE RT CV HU SM E. exact (proj1 (phy_accounts sp eps delta z nsa d U g SP NE RT CV HU SM ops alg tot g' E)). Qed.
Print Assumptions C101_physical_cost.
Theorem C101_logical_cost sp eps delta z nsa d U g ops alg tot g' :
  finds_shortest sp -> names_nodes sp -> routable d g -> covers d g -> unitary d U -> (INR d < 100000000)%R ->
  log_execute sp eps delta z nsa d U g = Ok (ops, alg, tot, g') -> (gates_cost ops <= tot <= alg)%R.
Proof. intros SP NE RT CV HU SM E. exact (proj1 (log_accounts sp eps delta z nsa d U g SP NE RT CV HU SM ops alg tot g' E)). Qed.
Print Assumptions C101_logical_cost.

(** Where neighbouring levels are coupled and every level can be driven, the total is that cost. *)
Theorem C101_exact_cost sp eps delta z nsa d U g ops alg tot g' :
  finds_shortest sp -> names_nodes sp -> routable d g -> covers d g -> unitary d U -> (INR d < 100000000)%R -> chain d g -> all_direct g ->
  log_execute sp eps delta z nsa d U g = Ok (ops, alg, tot, g') \/ phy_execute sp eps delta z nsa d U g = Ok (ops, alg, tot, g') -> tot = gates_cost ops.
Proof.
  intros SP NE RT CV HU SM CH DI [E|E]; symmetry;
  [apply (log_accounts sp eps delta z nsa d U g SP NE RT CV HU SM ops alg tot g' E)|apply (phy_accounts sp eps delta z nsa d U g SP NE RT CV HU SM ops alg tot g' E)]; assumption.
Qed.
Print Assumptions C101_exact_cost.

(** Nothing is charged when no rotation is needed, and only then. *)
Theorem C101_free sp eps delta z nsa d U g ops alg tot g' :
  finds_shortest sp -> names_nodes sp -> routable d g -> covers d g -> unitary d U -> (INR d < 100000000)%R ->
  log_execute sp eps delta z nsa d U g = Ok (ops, alg, tot, g') \/ phy_execute sp eps delta z nsa d U g = Ok (ops, alg, tot, g') ->
  (rotation_free ops -> alg = 0 /\ tot = 0)%R /\ (~ rotation_free ops -> 0 < tot /\ 0 < alg)%R.
Proof.
  intros SP NE RT CV HU SM [E|E];
  [destruct (log_accounts sp eps delta z nsa d U g SP NE RT CV HU SM ops alg tot g' E) as (A & _ & B & C & _)|
   destruct (phy_accounts sp eps delta z nsa d U g SP NE RT CV HU SM ops alg tot g' E) as (A & _ & B & C & _)];
  (split; [exact B|]; intros F; specialize (C F); split; lra).
Qed.
Print Assumptions C101_free.

(** The hypotheses can be met: a device that needs routing, and one that does not. *)
Example C101_case : finds_shortest search_shortest /\ names_nodes search_shortest /\ routable 3 traps_three /\ covers 3 traps_three /\
  unitary 3 (rotation 0 2 1 1).
Proof. destruct three_case as (A & B & C & _ & D). exact (conj A (conj search_names (conj B (conj C D)))). Qed.
Example C101_case_direct : routable 2 driven_pair /\ covers 2 driven_pair /\ chain 2 driven_pair /\ all_direct driven_pair.
Proof. exact (conj driven_routable (conj driven_covers (conj driven_chain driven_direct))). Qed.
Example C101_case_pulse : exists alg tot, (0 < tot <= alg)%R /\
  phy_execute search_shortest code_eps code_delta false false 2 swapped_phase pair_graph =
    Ok ([OR (Rot 0 1 PI (- PI / 2) 0 1); OV (Some (1%nat, AnglesModel.regulate_theta (- (PI / 2))))], alg, tot, pair_graph).
Proof.
  destruct swapped_ops as (alg & tot & E). exists alg, tot. split; [|exact E].
  assert (SM : (INR 2 < 100000000)%R) by (cbn; lra).
  assert (A := C101_physical_cost _ _ _ _ _ _ _ _ _ _ _ _ search_contract search_names pair_routable pair_covers swapped_phase_unitary SM E).
  assert (B := C101_free _ _ _ _ _ _ _ _ _ _ _ _ search_contract search_names pair_routable pair_covers swapped_phase_unitary SM (or_intror E)).
  destruct B as [_ B]. destruct B as [B _]; [intros F; eapply F; left; reflexivity|]. split; [exact B|apply A].
Qed.
