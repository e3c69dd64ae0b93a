(** The pass of the logical adaptive compilation (C78, C79). *)
From Coq Require Import Reals Lra Lia List Arith ZArith.
From Verif.Base Require Import Py PyFacts Cplx Matrix Angle.
From Verif.Gates Require Import AnglesModel AnglesProofs SingleModel SingleSpec SingleProofs.
From Verif.Levels Require Import LevelsModel LevelsSpec GraphProofs LevelsProofs RouteProofs PhaseProofs DistanceProofs.
From Verif.Variational Require EmitProofs.
From Verif.Local Require Import QrModel QrSpec QrMath QrCore QrMoved QrEmit QrProofs QrPhysical QrPasses QrCases TreeModel AdaModel AdaSpec SearchProofs AdaProofs AdaFound.
Import ListNotations.
Local Open Scope list_scope.
Local Open Scope nat_scope.

Lemma code_small d : d <= 1000 -> (INR d * code_eps <= code_near)%R /\ (2 * (INR d * code_eps * (INR d * code_eps)) < 1 - code_near)%R /\
  (INR d * (code_near * code_near) < 1 - code_near)%R.
Proof.
  intros H. assert (X : (INR d <= 1000)%R) by (apply le_INR in H; replace (INR 1000) with 1000%R in H by (cbn; lra); exact H).
  assert (Y := pos_INR d). unfold code_eps, code_near. split; [lra|]. split; [|lra].
  assert (Z : (INR d * (1 / 100000000) <= 1 / 100000)%R) by lra. assert (0 <= INR d * (1 / 100000000))%R by lra. nra.
Qed.
Lemma ada_error_nonneg near delta d : (0 <= near)%R -> (0 <= delta)%R -> (0 <= ada_error near delta d)%R.
Proof. intros H1 H2. unfold ada_error. assert (X := pos_INR d). assert (0 <= near * near)%R by nra. nra. Qed.
Lemma code_ada_pos : (0 < code_slack)%R /\ (0 <= code_near)%R.
Proof. unfold code_slack, code_near. split; lra. Qed.
Lemma ada_error_small d : d <= 1000 -> (ada_error code_near code_delta d <= 3 / 10000)%R.
Proof.
  intros H. assert (X : (INR d <= 1000)%R) by (apply le_INR in H; replace (INR 1000) with 1000%R in H by (cbn; lra); exact H).
  assert (Y := pos_INR d). unfold ada_error, code_near, code_delta. lra.
Qed.

Lemma near_diagonal_within near d U : unitary d U -> 0 < d -> (0 <= near)%R -> (INR d * (near * near) < 1 - near)%R ->
  (near_diagonal near d U = true <-> diagonal_within near d U).
Proof.
  intros HU D1 N0 H. rewrite near_diagonal_spec. split; [intros [_ X]; exact X|]. intros X. split; [|exact X].
  exists 0. split; [exact D1|]. destruct (near_diag_entry near d U 0 HU N0 X D1). lra.
Qed.

Lemma pyindex_slot gs i g o : pyindex gs i = Ok o -> pyindex (put_slot gs i g) i = Ok g.
Proof.
  intros Hi. assert (Hi' := Hi). apply pyindex_norm in Hi. destruct Hi as [Bi Ei].
  assert (PG : put_slot gs i g = firstn (Z.to_nat (norm_index (List.length gs) i)) gs ++ g :: skipn (S (Z.to_nat (norm_index (List.length gs) i))) gs).
  { unfold put_slot, norm_index. rewrite (Z.add_comm i). reflexivity. }
  set (a := norm_index (List.length gs) i) in *.
  assert (LN : List.length (put_slot gs i g) = List.length gs).
  { rewrite PG, app_length, firstn_length. cbn [List.length]. rewrite skipn_length. lia. }
  apply pyindex_norm. rewrite LN. fold a. split; [exact Bi|]. rewrite PG.
  assert (LF : List.length (firstn (Z.to_nat a) gs) = Z.to_nat a) by (rewrite firstn_length; lia).
  rewrite nth_error_app2 by lia. rewrite LF, Nat.sub_diag. reflexivity.
Qed.

Lemma some_nat x : exists n, (x < INR n)%R.
Proof.
  exists (Z.to_nat (Z.max 0 (up x))). rewrite INR_IZR_INZ, Z2Nat.id by lia. destruct (archimed x) as [H _]. assert (X := IZR_le _ _ (Z.le_max_r 0 (up x))). lra.
Qed.
Lemma setup_covers d g : covers d g -> covers d (phase_storing_setup g).
Proof. intros C n Hn. unfold is_node. cbn. rewrite map_map. exact (C n Hn). Qed.

(** What transpile_gate returns, when every entry to be removed has a partner to rotate with. *)
Theorem log_ada_gate_ok sp gs line d U g : finds_shortest sp -> pyindex gs line = Ok (Some g) -> routable d g -> covers d g -> unitary d U ->
  0 < d <= 1000 -> dust_free code_eps code_tiny d (visits d) U ->
  exists enough, forall fuel, enough <= fuel ->
    exists l o, log_ada_gate sp fuel gs line d U = Ok (l, put_slot gs line o) /\
      close d (INR d * ada_error code_near code_delta d) (circuit_matrix d l) (madj U) /\
      (diagonal_within code_near d U -> slot_ok d o) /\ (~ diagonal_within code_near d U -> o = None).
Proof.
  intros SP EG RT CV HU D1 DF. destruct code_pos as [E0 D0]. destruct code_ada_pos as [S0 N0]. destruct (code_small d (proj2 D1)) as (A1 & A2 & A3).
  destruct (log_execute_ok sp code_eps code_delta false true d U g SP RT CV HU E0 D0) as (ops & alg & tot & g' & E & _ & _ & _ & _ & _ & R' & S' & _).
  assert (T0 := qr_total_nonneg sp _ _ _ d U g ops alg tot g' SP RT CV E).
  destruct (some_nat ((tot + code_slack) / (8 / 100000))%R) as (n & Hn). exists n. intros fuel F.
  assert (FB : (snd (alg, tot) + code_slack < INR fuel * (8 / 100000))%R).
  { cbn [snd]. apply le_INR in F. apply (Rmult_lt_compat_r (8 / 100000)) in Hn; [|lra]. replace ((tot + code_slack) / (8 / 100000) * (8 / 100000))%R with (tot + code_slack)%R in Hn by field.
    nra. }
  destruct (log_adaptive_ends code_eps code_tiny code_near code_slack code_delta d S0 fuel U g' (alg, tot) HU T0 FB) as (((ops', best), fg) & EA).
  assert (NF := log_found sp code_eps code_tiny code_near code_slack code_delta d U g ops alg tot g' SP RT CV HU (proj1 D1) E0 S0 A1 A2 DF E fuel ops' best fg EA).
  assert (OK := log_adaptive_ok code_eps code_tiny code_near code_slack code_delta d S0 N0 D0 fuel U g' (alg, tot) ops' best fg HU EA).
  destruct best as [(c, dc)|]; [|congruence]. destruct OK as (rots & zs & W & _ & _ & _ & _ & _ & UO & CL & _ & _ & FG & ND).
  exists (map plain ops'), fg. unfold log_ada_gate, the_graph. rewrite EG. cbn [bindr]. rewrite E. cbn [bindr]. rewrite EA. cbn [bindr]. split; [reflexivity|].
  rewrite (near_diagonal_within code_near d U HU (proj1 D1) N0 A3) in ND.
  split; [apply close_inverse_r; [exact HU|apply ada_error_nonneg; assumption|exact CL]|]. split.
  - intros DW. apply ND in DW. subst rots. rewrite FG. exists (phase_storing_setup g'). split; [reflexivity|]. split; [apply phase_setup_routable; exact R'|].
    apply setup_covers. exact (sb_covers d g g' S' CV).
  - intros DW. rewrite FG. destruct rots; [|reflexivity]. exfalso. apply DW, ND. reflexivity.
Qed.

Lemma no_graph sp fuel gs line d U : pyindex gs line = Ok None -> log_ada_gate sp fuel gs line d U = Err AttributeError.
Proof. intros E. unfold log_ada_gate, the_graph. rewrite E. reflexivity. Qed.

(** So a second gate on the same line fails, whatever it is. *)
Theorem log_ada_second sp gs line d U g : finds_shortest sp -> pyindex gs line = Ok (Some g) -> routable d g -> covers d g -> unitary d U ->
  0 < d <= 1000 -> dust_free code_eps code_tiny d (visits d) U -> ~ diagonal_within code_near d U ->
  exists enough, forall fuel, enough <= fuel -> forall d2 U2 c,
    log_ada_transpile sp fuel gs (ISingle line d U :: ISingle line d2 U2 :: c) = Err AttributeError.
Proof.
  intros SP EG RT CV HU D1 DF ND. destruct (log_ada_gate_ok sp gs line d U g SP EG RT CV HU D1 DF) as (n & H). exists n. intros fuel F d2 U2 c.
  destruct (H fuel F) as (l & o & E & _ & _ & O). rewrite (O ND) in E. cbn [log_ada_transpile]. rewrite E. cbn [bindr snd].
  rewrite no_graph by (eapply pyindex_slot; exact EG). reflexivity.
Qed.

(** *** Cases *)
Definition swap2 : mat := fun i j => if Nat.eqb (i + j) 1 then C1 else C0.
Lemma swap2_unitary : unitary 2 swap2.
Proof.
  split; intros i j Hi Hj; (destruct i as [|[|i]]; [| |lia]); (destruct j as [|[|j]]; [| |lia]); apply Ceq; cbv -[Rplus Rmult Ropp Rminus IZR]; ring.
Qed.
Lemma swap2_dust_free : dust_free code_eps code_tiny 2 (visits 2) swap2.
Proof. cbn. split; [|exact Logic.I]. intros _. right. unfold Cmod, Cnorm2. cbn. replace (0 * 0 + 0 * 0)%R with 0%R by ring. apply sqrt_0. Qed.
Lemma swap2_not_diagonal : ~ diagonal_within code_near 2 swap2.
Proof. intros H. assert (X := H 0 1 ltac:(lia) ltac:(lia) ltac:(lia)). cbn in X. rewrite Cmod_C1 in X. unfold code_near in X. lra. Qed.

(** diag(1, i): the list makes up diag(1, -i). *)
Definition s_gate : mat := mdiag (fun i => if Nat.eqb i 1 then Ci else C1).
Lemma s_gate_unitary : unitary 2 s_gate.
Proof. apply phase_unitary2. unfold Cnorm2. cbn. ring. Qed.
Lemma s_gate_dust_free : dust_free code_eps code_tiny 2 (visits 2) s_gate.
Proof. cbn. split; [|exact Logic.I]. intros _. left. rewrite Cmod_C1. unfold code_tiny. lra. Qed.
Lemma ada_error_2 : (INR 2 * ada_error code_near code_delta 2 <= 1 / 10)%R.
Proof. assert (X := ada_error_small 2 ltac:(lia)). cbn. lra. Qed.
Theorem log_ada_inverse : forall sp, finds_shortest sp -> exists enough, forall fuel, enough <= fuel ->
  exists l gs', log_ada_gate sp fuel [Some pair_graph] 0 2 s_gate = Ok (l, gs') /\
    forall c, ~ close 2 (1 / 10) (circuit_matrix 2 l) (mscal c s_gate).
Proof.
  intros sp SP. destruct (log_ada_gate_ok sp [Some pair_graph] 0 2 s_gate pair_graph SP eq_refl pair_routable pair_covers s_gate_unitary ltac:(lia) s_gate_dust_free) as (n & H).
  exists n. intros fuel F. destruct (H fuel F) as (l & o & E & C & _). eexists _, _. split; [exact E|]. intros c X. assert (CE := ada_error_2).
  apply (far_apart C1 (Copp Ci) c (circuit_matrix 2 l 0%nat 0%nat) (circuit_matrix 2 l 1%nat 1%nat) (INR 2 * ada_error code_near code_delta 2)).
  - assert (Y := C 0%nat 0%nat ltac:(lia) ltac:(lia)). replace C1 with (madj s_gate 0%nat 0%nat); [exact Y|]. apply Ceq; cbn; ring.
  - assert (Y := C 1%nat 1%nat ltac:(lia) ltac:(lia)). replace (Copp Ci) with (madj s_gate 1%nat 1%nat); [exact Y|]. apply Ceq; cbn; ring.
  - exact (X 0%nat 0%nat ltac:(lia) ltac:(lia)).
  - assert (Y := X 1%nat 1%nat ltac:(lia) ltac:(lia)). replace (Copp (Copp Ci)) with Ci by ring. exact Y.
  - apply Cmod_C1.
  - rewrite Cmod_opp. apply Cmod_Ci.
  - exact CE.
Qed.

(** A gate that is dropped. *)
Theorem log_ada_dropped : forall sp, finds_shortest sp -> forall fuel, exists gs',
  log_ada_gate sp (S fuel) [Some pair_graph] 0 2 dusty = Ok ([], gs') /\ forall c, ~ close 2 (1 / 10) mid (mscal c dusty).
Proof.
  intros sp SP fuel. destruct code_pos as [E0 D0].
  destruct (log_execute_ok sp code_eps code_delta false true 2 dusty pair_graph SP pair_routable pair_covers dusty_unitary E0 D0) as (ops & alg & tot & g' & E & _).
  eexists. split.
  - unfold log_ada_gate, the_graph. cbn [pyindex]. change (pyindex [Some pair_graph] 0) with (Ok (Some pair_graph)). cbn [bindr]. rewrite E. cbn [bindr].
    rewrite dusty_dropped. cbn [bindr map]. reflexivity.
  - intros c H. assert (H0 := H 0%nat 0%nat ltac:(lia) ltac:(lia)). assert (H1 := H 1%nat 0%nat ltac:(lia) ltac:(lia)).
    unfold mscal in *. assert (D1 : dusty 0%nat 0%nat = RtoC (/ 10000000000000000000)) by reflexivity.
    assert (D2 : dusty 1%nat 0%nat = RtoC (sqrt (1 - / 10000000000000000000 * / 10000000000000000000))) by reflexivity. rewrite D1 in H0. rewrite D2 in H1. clear D1 D2.
    set (x := (/ 10000000000000000000)%R) in *. set (b := sqrt _) in *.
    assert (Q : (b * b = 1 - x * x)%R) by (apply sqrt_sqrt; unfold x; lra). assert (B0 : (0 <= b)%R) by apply sqrt_pos.
    assert (X : (0 < x < 1 / 100)%R) by (unfold x; lra). assert (B1 : (1 / 2 <= b)%R) by (apply Rnot_lt_le; intros Y; nra).
    assert (RE : forall z : C, (Rabs (fst z) <= Cmod z)%R).
    { intros z. unfold Cmod, Cnorm2. rewrite <- sqrt_Rsqr_abs. apply sqrt_le_1_alt. unfold Rsqr. nra. }
    assert (Y0 := RE (Csub (mid 0%nat 0%nat) (Cmul c (RtoC x)))).
    assert (Y1 := RE (Csub (mid 1%nat 0%nat) (Cmul c (RtoC b)))).
    assert (F0 : fst (Csub (mid 0%nat 0%nat) (Cmul c (RtoC x))) = (1 - fst c * x)%R) by (cbn; ring).
    assert (F1 : fst (Csub (mid 1%nat 0%nat) (Cmul c (RtoC b))) = (- (fst c * b))%R) by (cbn; ring).
    rewrite F0 in Y0. rewrite F1 in Y1. assert (Z0 : (Rabs (1 - fst c * x) <= 1 / 10)%R) by lra. assert (Z1 : (Rabs (- (fst c * b)) <= 1 / 10)%R) by lra.
    assert (RI : forall y e, (Rabs y <= e)%R -> (- e <= y <= e)%R) by (intros y e Y; unfold Rabs in Y; destruct (Rcase_abs y); lra).
    apply RI in Z0, Z1. destruct Z0 as [Z0 Z0'], Z1 as [Z1 Z1'].
    assert (C1' : (fst c <= 2 / 10)%R) by (apply Rnot_lt_le; intros Y; nra). nra.
Qed.
