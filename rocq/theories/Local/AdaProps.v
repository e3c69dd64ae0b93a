(** C29, C78, C79: the logical adaptive compilation of single-qudit gates.  Specification: AdaSpec, QrSpec. *)
From Coq Require Import Reals Lra Lia List Arith ZArith.
From Verif.Base Require Import Py PyFacts Cplx Matrix.
From Verif.Gates Require Import SingleModel.
From Verif.Levels Require Import LevelsModel LevelsSpec GraphProofs LevelsProofs RouteProofs PhaseProofs DistanceProofs.
From Verif.Local Require Import QrModel QrSpec QrCore QrProofs QrPhysical QrPasses QrCases TreeModel AdaModel AdaSpec SearchProofs AdaProofs AdaFound AdaPasses.
Import ListNotations.
Local Open Scope list_scope.
Local Open Scope nat_scope.

(** C29: whatever the search returns with a finite cost removes entry after entry of U down to a matrix diagonal
    within [near], is undone by U up to the error the thresholds allow, and costs less than limit + slack; the cost reported is the sum of the
    costs of the rotations. *)
Theorem C29_sound eps tiny near slack delta d fuel U g limit ops c dc fg :
  (0 < slack)%R -> (0 <= near)%R -> (0 <= delta)%R -> unitary d U ->
  log_adaptive eps tiny near slack delta d fuel U g limit = Ok (ops, Some (c, dc), fg) ->
  exists rots zs W, ops = map OR rots ++ zs /\ (forall o, In o zs -> exists p, o = OV (Some p)) /\ List.length zs <= d /\
    eliminates eps d U rots W /\ diagonal_within near d W /\
    unitary d (ops_matrix d ops) /\ close d (ada_error near delta d) (mmul d (ops_matrix d ops) U) mid /\
    dc = costs rots /\ (rots = [] \/ (dc < snd limit + slack)%R).
Proof.
  intros S0 N0 D0 HU E. destruct (log_adaptive_ok eps tiny near slack delta d S0 N0 D0 fuel U g limit ops (Some (c, dc)) fg HU E)
    as (rots & zs & W & H1 & H2 & H3 & H4 & H5 & H6 & H7 & H8 & H9 & _). exists rots, zs, W. auto 12.
Qed.
Print Assumptions C29_sound.
(** A result with infinite cost is the empty list, and the whole tree holds no path to a diagonal matrix. *)
Theorem C29_not_found eps tiny near slack delta d fuel U g limit ops fg :
  (0 < slack)%R -> (0 <= near)%R -> (0 <= delta)%R -> unitary d U ->
  log_adaptive eps tiny near slack delta d fuel U g limit = Ok (ops, None, fg) ->
  ops = [] /\ forall q, let a := root U (phase_storing_setup g) limit in
    chain (log_kid eps tiny slack d) d a q -> near_diagonal near d (s_u (last q a)) = false.
Proof.
  intros S0 N0 D0 HU E. destruct (log_adaptive_ok eps tiny near slack delta d S0 N0 D0 fuel U g limit ops None fg HU E) as (H1 & _ & H2). auto.
Qed.
Print Assumptions C29_not_found.
(** The error stays below 3 * 10^-4 for the thresholds of the code. *)
Theorem C29_thresholds d : d <= 1000 -> (ada_error code_near code_delta d <= 3 / 10000)%R.
Proof. exact (ada_error_small d). Qed.
Print Assumptions C29_thresholds.

(** C78: the search ends: its depth is bounded by the limit. *)
Theorem C78_ends eps tiny near slack delta d fuel U g limit : (0 < slack)%R -> unitary d U -> (0 <= snd limit)%R ->
  (snd limit + slack < INR fuel * (8 / 100000))%R ->
  exists x, log_adaptive eps tiny near slack delta d fuel U g limit = Ok x.
Proof. intros S0. exact (log_adaptive_ends eps tiny near slack delta d S0 fuel U g limit). Qed.
Print Assumptions C78_ends.
(** With the cost of the QR decomposition as limit it finds a decomposition, if the QR elimination meets no
    entries of at most [tiny] to rotate with. *)
Theorem C78_found sp eps tiny near slack delta d U g ops alg tot g' : finds_shortest sp -> routable d g -> covers d g -> unitary d U -> 0 < d ->
  (0 <= eps)%R -> (0 < slack)%R -> (INR d * eps <= near)%R -> (2 * (INR d * eps * (INR d * eps)) < 1 - near)%R ->
  dust_free eps tiny d (visits d) U ->
  log_execute sp eps delta false true d U g = Ok (ops, alg, tot, g') ->
  forall fuel ops' best fg, log_adaptive eps tiny near slack delta d fuel U g' (alg, tot) = Ok (ops', best, fg) -> best <> None.
Proof. exact (log_found sp eps tiny near slack delta d U g ops alg tot g'). Qed.
Print Assumptions C78_found.
(** Without that hypothesis it fails: this unitary is replaced by no gate at all, although it is far from every
    multiple of the identity. *)
Theorem C78_refuted : exists U, unitary 2 U /\ forall sp, finds_shortest sp -> forall fuel, exists gs',
  log_ada_gate sp (S fuel) [Some pair_graph] 0 2 U = Ok ([], gs') /\ forall c, ~ close 2 (1 / 10) mid (mscal c U).
Proof. exists dusty. split; [exact dusty_unitary|exact log_ada_dropped]. Qed.
Print Assumptions C78_refuted.

(** C79: the gates LogLocAdaPass puts in place of a gate make up its inverse, and unless the gate is diagonal the
    level graph of its line is replaced by None. *)
Theorem C79_transpile_gate sp gs line d U g : finds_shortest sp -> pyindex gs line = Ok (Some g) -> routable d g -> covers d g -> unitary d U ->
  0 < d <= 1000 -> dust_free code_eps code_tiny d (visits d) U ->
  exists enough, forall fuel, enough <= fuel ->
    exists l o, log_ada_gate sp fuel gs line d U = Ok (l, put_slot gs line o) /\
      close d (INR d * ada_error code_near code_delta d) (circuit_matrix d l) (madj U) /\
      (diagonal_within code_near d U -> slot_ok d o) /\ (~ diagonal_within code_near d U -> o = None).
Proof. exact (log_ada_gate_ok sp gs line d U g). Qed.
Print Assumptions C79_transpile_gate.
(** So the list is not the gate. *)
Theorem C79_inverse_refuted : exists U, unitary 2 U /\ forall sp, finds_shortest sp -> exists enough, forall fuel, enough <= fuel ->
  exists l gs', log_ada_gate sp fuel [Some pair_graph] 0 2 U = Ok (l, gs') /\
    forall c, ~ close 2 (1 / 10) (circuit_matrix 2 l) (mscal c U).
Proof. exists s_gate. split; [exact s_gate_unitary|exact log_ada_inverse]. Qed.
Print Assumptions C79_inverse_refuted.
(** And a circuit with a further gate on the line is not compiled, whatever that gate is. *)
Theorem C79_second_gate_refuted sp gs line d U g : finds_shortest sp -> pyindex gs line = Ok (Some g) -> routable d g -> covers d g -> unitary d U ->
  0 < d <= 1000 -> dust_free code_eps code_tiny d (visits d) U -> ~ diagonal_within code_near d U ->
  exists enough, forall fuel, enough <= fuel -> forall d2 U2 c,
    log_ada_transpile sp fuel gs (ISingle line d U :: ISingle line d2 U2 :: c) = Err AttributeError.
Proof. exact (log_ada_second sp gs line d U g). Qed.
Print Assumptions C79_second_gate_refuted.

(** *** Cases *)
Example C79_case_swap : finds_shortest search_shortest /\ pyindex [Some pair_graph] 0 = Ok (Some pair_graph) /\ routable 2 pair_graph /\ covers 2 pair_graph /\
  unitary 2 swap2 /\ dust_free code_eps code_tiny 2 (visits 2) swap2 /\ ~ diagonal_within code_near 2 swap2.
Proof. split; [exact search_contract|]. split; [reflexivity|]. split; [exact pair_routable|]. split; [exact pair_covers|]. split; [exact swap2_unitary|].
  split; [exact swap2_dust_free|exact swap2_not_diagonal]. Qed.
(** The search on this matrix does return a decomposition with finite cost, so C29_sound and C78_found apply. *)
Example C78_case_swap : exists fuel ops c dc fg ops0 alg tot g', log_execute search_shortest code_eps code_delta false true 2 swap2 pair_graph = Ok (ops0, alg, tot, g') /\
  log_adaptive code_eps code_tiny code_near code_slack code_delta 2 fuel swap2 g' (alg, tot) = Ok (ops, Some (c, dc), fg) /\ ops <> [].
Proof.
  destruct code_pos as [E0 D0]. destruct code_ada_pos as [S0 N0]. destruct (code_small 2 ltac:(lia)) as (A1 & A2 & A3).
  destruct (log_execute_ok search_shortest code_eps code_delta false true 2 swap2 pair_graph search_contract pair_routable pair_covers swap2_unitary E0 D0) as (ops0 & alg & tot & g' & E & _).
  assert (T0 := qr_total_nonneg search_shortest _ _ _ 2 swap2 pair_graph ops0 alg tot g' search_contract pair_routable pair_covers E).
  destruct (some_nat ((tot + code_slack) / (8 / 100000))%R) as (n & Hn).
  destruct (log_adaptive_ends code_eps code_tiny code_near code_slack code_delta 2 S0 n swap2 g' (alg, tot) swap2_unitary T0) as (((ops, best), fg) & EA).
  { cbn [snd]. apply (Rmult_lt_compat_r (8 / 100000)) in Hn; [|lra]. replace ((tot + code_slack) / (8 / 100000) * (8 / 100000))%R with (tot + code_slack)%R in Hn by field. exact Hn. }
  assert (NF := log_found search_shortest code_eps code_tiny code_near code_slack code_delta 2 swap2 pair_graph ops0 alg tot g' search_contract pair_routable pair_covers swap2_unitary
    ltac:(lia) E0 S0 A1 A2 swap2_dust_free E n ops best fg EA). destruct best as [(c, dc)|]; [|congruence].
  exists n, ops, c, dc, fg, ops0, alg, tot, g'. split; [exact E|]. split; [exact EA|]. intros ->.
  destruct (log_adaptive_ok code_eps code_tiny code_near code_slack code_delta 2 S0 N0 D0 n swap2 g' (alg, tot) [] (Some (c, dc)) fg swap2_unitary EA)
    as (rots & zs & W & H1 & _ & _ & _ & _ & _ & _ & _ & _ & _ & ND). symmetry in H1. apply app_eq_nil in H1. destruct H1 as [H1 _]. apply map_eq_nil in H1.
  apply ND in H1. apply near_diagonal_spec in H1. apply swap2_not_diagonal. exact (proj2 H1).
Qed.
