(** C91: the physical adaptive compilation of single-qudit gates.  Specification: PhySpec, AdaSpec, QrSpec. *)
From Coq Require Import Reals Lra Lia List Arith ZArith.
From Verif.Base Require Import Py PyFacts Cplx Matrix.
From Verif.Levels Require Import LevelsModel LevelsSpec GraphProofs LevelsProofs RouteProofs PhaseProofs.
From Verif.Local Require Import QrModel QrSpec QrCore QrProofs QrPhysical QrPasses QrCases TreeModel AdaModel AdaSpec SearchProofs AdaProofs AdaFound AdaPasses
  PhySpec PhyPasses PhyCases.
Import ListNotations.
Local Open Scope list_scope.
Local Open Scope nat_scope.

(** C91: PhyLocAdaPass compiles every circuit of unitaries on usable graphs, whatever the couplings.  Each gate becomes
    native gates on the levels of the device that are U from the placement recorded afterwards to the placement recorded
    before, or, if the search found nothing, no gate at all; the graphs are handed from gate to gate. *)
Theorem C91_circuits sp gs c : finds_shortest sp -> adaptable gs c ->
  exists out gs' enough, (forall fuel, enough <= fuel -> phy_ada_transpile sp fuel false gs c = Ok (out, gs')) /\ threaded adapted gs c out gs'.
Proof. intros SP. exact (phy_circuit sp c SP gs). Qed.
Print Assumptions C91_circuits.
(** On lines whose levels are all coupled, with gates in which no tiny entries are met, nothing is lost: the levels stay in
    place and every list is its gate on the device. *)
Theorem C91_coupled sp gs c : finds_shortest sp -> adaptable gs c ->
  (forall line d U, In (ISingle line d U) c -> dust_free code_eps code_tiny d (visits d) U /\ exists g, pyindex gs line = Ok (Some g) /\ all_coupled d g) ->
  exists out gs' enough, (forall fuel, enough <= fuel -> phy_ada_transpile sp fuel false gs c = Ok (out, gs')) /\ threaded faithful gs c out gs'.
Proof. exact (phy_faithful sp c gs). Qed.
Print Assumptions C91_coupled.
(** The search alone, for any limit and any thresholds. *)
Theorem C91_search sp eps tiny near slack delta d fuel U g limit ops best fg :
  finds_shortest sp -> (0 < slack)%R -> (0 <= near)%R -> (0 <= delta < PI)%R -> 0 < d -> unitary d U -> usable d g ->
  phy_adaptive sp eps tiny near slack delta d false fuel U g limit = Ok (ops, best, fg) ->
  match best with
  | Some (c, dc) => exists g', fg = Some g' /\ usable d g' /\ same_couplings g g' /\ Forall (native g) ops /\ unitary d (ops_matrix d ops) /\
      (forall V, relocated d g' g U V -> close d (INR d * ada_error near delta d) (madj (ops_matrix d ops)) V) /\
      (diagonal_within near d U \/ (dc < snd limit + slack)%R)
  | None => ops = [] /\ fg = Some (phase_storing_setup g) /\
      forall q, let a := root U (phase_storing_setup g) limit in
        chain (phy_kid sp eps tiny slack d) d a q -> near_diagonal near d (s_u (last q a)) = false
  end.
Proof.
  intros SP S0 N0 D0 D1 HU US E. assert (H := phy_adaptive_ok sp eps tiny near slack delta d SP S0 N0 D0 D1 fuel U g limit ops best fg HU US E).
  destruct best as [(c, dc)|]; [|exact H]. destruct H as (g' & H1 & H2 & H3 & H4 & H5 & H6 & H7 & _). exists g'. split; [exact H1|]. split; [exact H2|]. split; [exact H3|]. split; [exact H4|]. split; [exact H5|]. split.
  - intros V HV. exact (relocated_close d _ g g' U V _ (us_routable d g US) (us_covers d g US) (us_routable d g' H2) (us_covers d g' H2) H5 (ada_error_nonneg near delta d N0 (proj1 D0)) H6 HV).
  - destruct H7 as [H7|H7]; [left|right; exact H7]. apply near_diagonal_spec in H7. exact (proj2 H7).
Qed.
Print Assumptions C91_search.
Theorem C91_ends sp eps tiny near slack delta d fuel U g limit :
  finds_shortest sp -> (0 < slack)%R -> (0 <= delta < PI)%R -> 0 < d -> unitary d U -> usable d g -> (0 <= snd limit)%R ->
  (snd limit + slack < INR fuel * (8 / 100000))%R ->
  exists x, phy_adaptive sp eps tiny near slack delta d false fuel U g limit = Ok x.
Proof. intros SP S0 D0 D1. exact (phy_adaptive_ends sp eps tiny near slack delta d SP S0 D0 D1 fuel U g limit). Qed.
Print Assumptions C91_ends.

(** Otherwise: in the three level trap the exchange of levels 1 and 2 is compiled into gates that move the levels the
    other way round.  The backend records 0 -> 1, 1 -> 2, 2 -> 0, but the gates are the exchange neither from the old
    placement to the recorded one nor within the old one. *)
Theorem C91_direction_refuted sp : finds_shortest sp -> exists U, unitary 3 U /\ dust_free code_eps code_tiny 3 (visits 3) U /\
  exists enough, forall fuel, enough <= fuel -> exists l g',
    phy_ada_gate sp fuel false [Some traps_three] 0 3 U = Ok (l, [Some g']) /\ placed g' 0 1 /\ placed g' 1 2 /\ placed g' 2 0 /\
    forall V, relocated 3 traps_three g' U V \/ on_device 3 traps_three U V -> forall c, ~ close 3 (1 / 10) (circuit_matrix 3 l) (mscal c V).
Proof. intros SP. exists flip12. split; [exact flip12_unitary|]. split; [exact flip12_dust_free|]. exact (trap_wrong sp SP). Qed.
Print Assumptions C91_direction_refuted.
(** And this unitary is replaced by no gate at all. *)
Theorem C91_dropped_refuted : exists U, unitary 2 U /\ (forall c, ~ close 2 (1 / 10) mid (mscal c U)) /\
  forall sp, finds_shortest sp -> forall fuel, exists gs', phy_ada_gate sp (S fuel) false [Some pair_graph] 0 2 U = Ok ([], gs').
Proof.
  exists dusty. split; [exact dusty_unitary|]. split; [|exact phy_dropped]. destruct (log_ada_dropped search_shortest search_contract 0) as (gs' & _ & H). exact H.
Qed.
Print Assumptions C91_dropped_refuted.

(** *** Cases *)
(** A circuit on a pair of levels and on the three level trap: C91_circuits applies. *)
Example C91_case_circuit : finds_shortest search_shortest /\
  adaptable [Some pair_graph; Some traps_three] [ISingle 0 2 swap2; IOther 5; ISingle 1 3 flip12; ISingle 0 2 s_gate].
Proof. split; [exact search_contract|exact pair_circuit]. Qed.
(** Two gates on a pair of levels: C91_coupled applies. *)
Example C91_case_coupled : adaptable [Some pair_graph] [ISingle 0 2 swap2; IOther 5; ISingle 0 2 s_gate] /\
  forall line d U, In (ISingle line d U) [ISingle 0 2 swap2; IOther 5; ISingle 0 2 s_gate] ->
    dust_free code_eps code_tiny d (visits d) U /\ exists g, pyindex [Some pair_graph] line = Ok (Some g) /\ all_coupled d g.
Proof.
  split; [|exact pair_only]. intros line d U [H|[H|[H|[]]]]; try discriminate; injection H as <- <- <-.
  - split; [exact swap2_unitary|]. split; [lia|]. exists pair_graph. split; [reflexivity|exact pair_usable].
  - split; [exact s_gate_unitary|]. split; [lia|]. exists pair_graph. split; [reflexivity|exact pair_usable].
Qed.
(** A trap of three levels in which each level is coupled to the next one but not all are: the last part of adapted applies. *)
Example C91_case_ladder : usable 3 innsbruck /\ ladder 3 innsbruck /\ unitary 3 flip12 /\ dust_free code_eps code_tiny 3 (visits 3) flip12.
Proof. split; [exact innsbruck_usable|]. split; [exact innsbruck_ladder|]. split; [exact flip12_unitary|exact flip12_dust_free]. Qed.
(** There is always an operator to compare the gates with. *)
Example C91_case_operator d g g' U : usable d g -> usable d g' -> exists V, relocated d g' g U V.
Proof. intros A B. apply relocated_some; [apply (us_routable d g' B)|apply (us_covers d g' B)|apply (us_routable d g A)|apply (us_covers d g A)]. Qed.
