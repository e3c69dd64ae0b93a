(** Circuits on which the phase passes change the meaning. *)
From Coq Require Import List ZArith Arith Lia Bool Reals Lra Permutation.
From Verif.Base Require Import Py PyFacts Cplx Matrix Radix.
From Verif.Circuit Require Import GateModel.
From Verif.Gates Require Import AnglesModel AnglesSpec AnglesProofs SingleModel SingleSpec SingleProofs.
From Verif.Gates Require Import FactoryModel FactorySpec ActsOn Embed FactoryMain.
From Verif.Lanes Require Import LanesModel LanesSpec LanesProofs UnitaryProofs.
From Verif.Levels Require Import LevelsModel.
From Verif.Passes Require Import PhasesModel PhasesSpec PhasesProofs IntervalProofs RemovalProofs StatsProofs.
Import ListNotations.
Local Open Scope nat_scope.

(** R([0, 1, theta, 0]) on a qubit at line t, as the constructor leaves it *)
Definition rgate (t : nat) (theta : Rdefinitions.R) : gate pay :=
  Gate "R" SINGLE (TInt (Z.of_nat t)) None false false (Pay (inl 2) (KR (Rot 0 1 (regulate_theta theta) 0 0 1))).
Definition xgate (t : nat) : gate pay :=
  Gate "X" SINGLE (TInt (Z.of_nat t)) None false false (Pay (inl 2) (KOther (x_array 2))).
(** VirtRz([0, pi]) at line 1, controlled by level 1 of line 0 *)
Definition cphase : gate pay :=
  Gate "VRz" SINGLE (TInt 1) (Some ([0%Z], [1%Z])) false false (Pay (inl 2) (KVirtRz 0 PI)).

Lemma rgate_array t th : meq 2 (core (lower (rgate t th))) (rotation 0 1 th 0).
Proof. apply (made_array 2 0 1 th 0); lia. Qed.
Lemma rgate_line dims t th : t < List.length dims -> nth t dims 0 = 2 -> line_gate dims t (rgate t th).
Proof. intros H E. unfold line_gate. cbn. rewrite E. repeat split; try lia; assumption. Qed.

Lemma same_run dims l l' : (forall o, In o l -> fits dims (snd o)) -> (forall o, In o l' -> fits dims (snd o)) -> same_unitary dims l l' ->
  forall s, meq (prodl dims) (grun dims l s) (grun dims l' s).
Proof.
  intros F F' (u & u' & E & E' & H) s. destruct (circuit_ok dims l F) as (v & Ev & R). destruct (circuit_ok dims l' F') as (v' & Ev' & R').
  rewrite E in Ev. rewrite E' in Ev'. injection Ev as <-. injection Ev' as <-.
  eapply meq_trans; [apply R|]. eapply meq_trans; [apply mmul_ext; [exact H|apply meq_refl]|]. apply meq_sym, R'.
Qed.
Lemma line_fits dims t g : (forall d, In d dims -> 0 < d) -> line_gate dims t g -> fits dims (lower g).
Proof.
  intros pos H. destruct (line_gate_made dims t g H) as (M & _ & L & _). apply (made_fits dims (Z.of_nat t) (nth t dims 0)); [lia|exact M].
Qed.
Lemma circ_of dims l : (forall g, In g l -> fits dims (lower g)) -> forall o, In o (as_circuit l) -> fits dims (snd o).
Proof. intros H o Ho. apply in_map_iff in Ho. destruct Ho as (g & <- & Hg). now apply H. Qed.

(** *** two runs: the second run is deleted at the wrong place *)
Lemma pos22 : forall d, In d [2; 2] -> 0 < d.
Proof. intros d [<-|[<-|[]]]; lia. Qed.
Definition two_lines : list (gate pay) := [rgate 0 PI; rgate 0 0; rgate 1 0; rgate 1 0].
Lemma entry20 g A : g_target g = TInt 0 -> g_controls g = None -> generate_matrix [2; 2] 2 g = Ok A -> A 2 0 = core g 1 0.
Proof.
  intros T Cn E. destruct (gen_kron [] 2 [2] 2 g) as (B & EB & H); try assumption; try lia; [exact pos22|].
  cbn [app] in *. rewrite E in EB. injection EB as <-. rewrite (H 2 0) by (cbn; lia). unfold mkron, mid. cbn. ring.
Qed.
Lemma sin_half_PI : sin (PI / 2) = 1%R. Proof. exact sin_PI2. Qed.
Lemma rot_PI_10 : rotation 0 1 PI 0 1 0 = Copp Ci.
Proof. unfold rotation, two_level. cbn [Nat.eqb]. rewrite sin_half_PI, cis_0. csolve. Qed.
Lemma two_lines_wrong : exists l', remove_z 2 [2; 2] two_lines false = Ok l' /\ ~ same_unitary [2; 2] (as_circuit two_lines) (as_circuit l').
Proof.
  assert (L0 : forall th, line_gate [2; 2] 0 (rgate 0 th)) by (intros; apply rgate_line; cbn; auto).
  assert (L1 : forall th, line_gate [2; 2] 1 (rgate 1 th)) by (intros; apply rgate_line; cbn; auto).
  destruct (propagate_line [2; 2] pos22 2 0 [rgate 0 PI; rgate 0 0] false) as (r1 & z1 & E1 & R1 & C1' & N1 & Z1 & S1);
    [discriminate|intros g [<-|[<-|[]]]; apply L0|].
  destruct (propagate_line [2; 2] pos22 2 1 [rgate 1 0; rgate 1 0] false) as (r2 & z2 & E2 & R2 & C2' & N2 & Z2 & S2);
    [discriminate|intros g [<-|[<-|[]]]; apply L1|].
  cbn in C1', C2', N1, N2. destruct r1 as [|ra [|rb [|]]]; try discriminate. destruct r2 as [|rc [|rd [|]]]; try discriminate.
  destruct z1 as [|za [|zb [|]]]; try discriminate. destruct z2 as [|zc [|zd [|]]]; try discriminate.
  exists ([rgate 1 0; rgate 1 0; za; zb] ++ [rc; rd; zc; zd]). split.
  - unfold remove_z. change (find_intervals two_lines) with [[0; 1]; [2; 3]].
    cbn [remove_z_loop List.length Nat.ltb Nat.leb hd last].
    change (pyslice two_lines (Z.of_nat 0) (Z.of_nat 1 + 1)) with [rgate 0 PI; rgate 0 0]. rewrite E1. cbn [bindr fst snd].
    change (pyslice two_lines (Z.of_nat 2) (Z.of_nat 3 + 1)) with [rgate 1 0; rgate 1 0]. rewrite E2. reflexivity.
  - intros (u & u' & E & E' & H).
    assert (Hz : forall z, In z [za; zb] -> line_gate [2; 2] 0 z /\ is_phase z = true).
    { intros z [<-|[<-|[]]]; [destruct (Z1 0 za eq_refl) as (X & ph & Y)|destruct (Z1 1 zb eq_refl) as (X & ph & Y)]; (split; [exact X|unfold is_phase; now rewrite Y]). }
    assert (Hr2 : forall g, In g [rc; rd; zc; zd] -> line_gate [2; 2] 1 g).
    { intros g [<-|[<-|[<-|[<-|[]]]]]; [apply R2; now left|apply R2; right; now left|apply (Z2 0 zc eq_refl)|apply (Z2 1 zd eq_refl)]. }
    assert (Fz : forall g, In g [za; zb] -> fits [2; 2] (lower g)) by (intros g Hg; eapply line_fits; [exact pos22|apply Hz, Hg]).
    assert (F2 : forall g, In g [rc; rd; zc; zd] -> fits [2; 2] (lower g)) by (intros g Hg; eapply line_fits; [exact pos22|apply Hr2, Hg]).
    assert (F0 : forall th, fits [2; 2] (lower (rgate 0 th))) by (intros; eapply line_fits; [exact pos22|apply L0]).
    assert (F1 : forall th, fits [2; 2] (lower (rgate 1 th))) by (intros; eapply line_fits; [exact pos22|apply L1]).
    assert (I1 : forall s, meq 4 (gact [2; 2] (lower (rgate 1 0)) s) s).
    { intros s. apply (line_identity [2; 2] pos22 _ 1%Z); [apply F1|reflexivity|]. eapply meq_trans; [apply rgate_array|apply rotation_0]. }
    assert (I0 : forall s, meq 4 (gact [2; 2] (lower (rgate 0 0)) s) s).
    { intros s. apply (line_identity [2; 2] pos22 _ 0%Z); [apply F0|reflexivity|]. eapply meq_trans; [apply rgate_array|apply rotation_0]. }
    assert (F : forall g, In g two_lines -> fits [2; 2] (lower g)) by (intros g [<-|[<-|[<-|[<-|[]]]]]; [apply F0|apply F0|apply F1|apply F1]).
    assert (F' : forall g, In g ([rgate 1 0; rgate 1 0; za; zb] ++ [rc; rd; zc; zd]) -> fits [2; 2] (lower g)).
    { intros g Hg. apply in_app_or in Hg. destruct Hg as [[<-|[<-|Hg]]|Hg]; [apply F1|apply F1|now apply Fz|now apply F2]. }
    destruct (circuit_ok [2; 2] _ (circ_of _ _ F)) as (v & Ev & R). destruct (circuit_ok [2; 2] _ (circ_of _ _ F')) as (v' & Ev' & R').
    rewrite E in Ev. rewrite E' in Ev'. injection Ev as <-. injection Ev' as <-.
    (* the original has -i at (2, 0) *)
    assert (U : u 2 0 = Copp Ci).
    { transitivity (grun [2; 2] (as_circuit two_lines) mid 2 0).
      - rewrite (R mid 2 0) by (cbn; lia). symmetry. apply (mmul_id_r 4); lia.
      - transitivity (gact [2; 2] (lower (rgate 0 PI)) mid 2 0).
        + cbn [two_lines as_circuit map grun fold_left snd]. rewrite (I1 _ 2 0), (I1 _ 2 0), (I0 _ 2 0) by lia. reflexivity.
        + unfold gact. rewrite (mmul_id_r 4) by lia. rewrite (entry20 (lower (rgate 0 PI)) _ eq_refl eq_refl (fits_gen _ _ (F0 PI))).
          rewrite (rgate_array 0 PI 1 0) by lia. exact rot_PI_10. }
    assert (U' : u' 2 0 = C0).
    { assert (Dg : unit_diag 4 (grun [2; 2] (as_circuit ([rgate 1 0; rgate 1 0; za; zb] ++ [rc; rd; zc; zd])) mid)).
      { unfold as_circuit. rewrite map_app, grun_app. fold (as_circuit [rc; rd; zc; zd]).
        eapply unit_diag_ext.
        - eapply meq_trans; [apply meq_sym; apply (same_run [2; 2] (as_circuit [rgate 1 0; rgate 1 0]) (as_circuit [rc; rd; zc; zd]))|].
          + apply circ_of. intros g [<-|[<-|[]]]; apply F1.
          + apply circ_of. exact F2.
          + exact S2.
          + cbn [as_circuit map grun fold_left snd]. eapply meq_trans; [apply I1|]. apply I1.
        - cbn [as_circuit map grun fold_left snd].
          assert (Zd : forall z s, In z [za; zb] -> unit_diag 4 s -> unit_diag 4 (gact [2; 2] (lower z) s)).
          { intros z s Hz' Hs. apply unit_diag_mul; [|exact Hs]. destruct (Hz z Hz') as ((T0 & T1 & T2 & T3 & T4 & T5 & T6) & P).
            apply (line_gmat_diag [2; 2] pos22 (lower z) 0); [now apply Fz|exact T2|exact T0|].
            unfold core. cbn. rewrite T4. apply phase_array_diag; [exact P|exact T5|].
            destruct (p_kind (g_data z)); try exact I; cbn in *; try contradiction; lia. }
          apply Zd; [right; now left|]. apply Zd; [now left|]. eapply unit_diag_ext; [eapply meq_trans; [apply I1|apply I1]|apply unit_diag_id]. }
      destruct Dg as (f & Hf & _). transitivity (grun [2; 2] (as_circuit ([rgate 1 0; rgate 1 0; za; zb] ++ [rc; rd; zc; zd])) mid 2 0).
      - rewrite (R' mid 2 0) by (cbn; lia). symmetry. apply (mmul_id_r 4); lia.
      - rewrite (Hf 2 0) by lia. reflexivity. }
    specialize (H 2 0 ltac:(cbn; lia) ltac:(cbn; lia)). rewrite U, U' in H. apply (f_equal snd) in H. cbn in H. lra.
Qed.

(** *** one qubit: daggers and other classes *)
Lemma pos2 : forall d, In d [2] -> 0 < d.
Proof. intros d [<-|[]]; lia. Qed.
Lemma qubit_matrix g : g_target g = TInt 0 -> g_controls g = None -> exists A, generate_matrix [2] 2 g = Ok A /\ meq 2 A (core g).
Proof.
  intros T Cn. destruct (gen_kron [] 2 [] 2 g) as (B & EB & H); try assumption; try lia; [exact pos2|]. exists B. split; [exact EB|].
  intros i j Hi Hj. rewrite (H i j) by (cbn; lia). unfold mkron, mid.
  destruct i as [|[|i]], j as [|[|j]]; try lia; cbn; ring.
Qed.
Lemma qubit_circuit g h : g_target g = TInt 0 -> g_controls g = None -> g_target h = TInt 0 -> g_controls h = None ->
  exists u, circuit_matrix [2] [(0, g); (0, h)] = Ok u /\ meq 2 u (mmul 2 (core h) (core g)).
Proof.
  intros T1 C1 T2 C2. destruct (qubit_matrix g T1 C1) as (A & EA & HA). destruct (qubit_matrix h T2 C2) as (B & EB & HB).
  cbn [circuit_matrix snd]. rewrite EA. cbn [bindr]. rewrite EB. cbn [bindr]. eexists. split; [reflexivity|].
  apply mmul_ext; [|exact HA]. eapply meq_trans; [apply mmul_id_l|exact HB].
Qed.
Lemma qubit_one g : g_target g = TInt 0 -> g_controls g = None ->
  exists u, circuit_matrix [2] [(0, g)] = Ok u /\ meq 2 u (core g).
Proof.
  intros T1 C1. destruct (qubit_matrix g T1 C1) as (A & EA & HA).
  cbn [circuit_matrix snd]. rewrite EA. cbn [bindr]. eexists. split; [reflexivity|]. eapply meq_trans; [apply mmul_id_l|exact HA].
Qed.
Lemma unitary_det dims l u v : circuit_matrix dims l = Ok u -> circuit_matrix dims l = Ok v -> u = v.
Proof. congruence. Qed.

Definition daggered : list (gate pay) := [dag (rgate 0 PI); dag (rgate 0 0)].
Lemma dagger_ignored : exists l', remove_z 1 [2] daggered false = Ok l' /\ ~ same_unitary [2] (as_circuit daggered) (as_circuit l').
Proof.
  assert (L0 : forall th, line_gate [2] 0 (bare (dag (rgate 0 th)))) by (intros; apply (rgate_line [2] 0 th); cbn; auto).
  rewrite (remove_z_one_run 1 [2] daggered [0%Z] false) by (try discriminate; try (cbn; lia); intros g [<-|[<-|[]]]; reflexivity).
  rewrite <- propagate_bare. change (map bare daggered) with [bare (dag (rgate 0 PI)); bare (dag (rgate 0 0))].
  destruct (propagate_line [2] pos2 1 0 [bare (dag (rgate 0 PI)); bare (dag (rgate 0 0))] false) as (rots & zs & E & _ & _ & _ & _ & S); [discriminate|intros g [<-|[<-|[]]]; apply L0|].
  rewrite E. cbn [bindr]. eexists. split; [reflexivity|]. intros K.
  destruct S as (u1 & u2 & E1 & E2 & H). destruct K as (v1 & v2 & F1 & F2 & K). rewrite (unitary_det _ _ _ _ F2 E2) in K.
  destruct (qubit_circuit (lower (bare (dag (rgate 0 PI)))) (lower (bare (dag (rgate 0 0)))) eq_refl eq_refl eq_refl eq_refl) as (w & Ew & W). rewrite (unitary_det _ _ _ _ E1 Ew) in H.
  destruct (qubit_circuit (lower (dag (rgate 0 PI))) (lower (dag (rgate 0 0))) eq_refl eq_refl eq_refl eq_refl) as (x & Ex & X). rewrite (unitary_det _ _ _ _ F1 Ex) in K.
  assert (W' : meq 2 w (rotation 0 1 PI 0)).
  { eapply meq_trans; [exact W|]. eapply meq_trans; [apply mmul_ext; [eapply meq_trans; [apply (rgate_array 0 0)|apply rotation_0]|apply (rgate_array 0 PI)]|]. apply mmul_id_l. }
  assert (X' : meq 2 x (madj (rotation 0 1 PI 0))).
  { eapply meq_trans; [exact X|]. eapply meq_trans; [apply mmul_ext with (A' := mid) (B' := madj (rotation 0 1 PI 0))|apply mmul_id_l].
    - change (core (lower (dag (rgate 0 0)))) with (madj (core (lower (rgate 0 0)))). intros i j Hi Hj. unfold madj.
      rewrite (meq_trans _ _ _ _ (rgate_array 0 0) (rotation_0 2 0 1 0%R) j i Hj Hi). unfold mid. rewrite Nat.eqb_sym. destruct (Nat.eqb i j); csolve.
    - change (core (lower (dag (rgate 0 PI)))) with (madj (core (lower (rgate 0 PI)))). intros i j Hi Hj. unfold madj. now rewrite (rgate_array 0 PI j i Hj Hi). }
  assert (Q : x 1 0 = w 1 0) by (rewrite (K 1 0), (H 1 0) by (cbn; lia); reflexivity).
  rewrite (W' 1 0), (X' 1 0) in Q by lia. unfold madj, rotation, two_level in Q. cbn [Nat.eqb] in Q. rewrite sin_half_PI, Ropp_0, cis_0 in Q.
  apply (f_equal snd) in Q. cbn in Q. lra.
Qed.

Definition with_x : list (gate pay) := [rgate 0 0; xgate 0].
Lemma others_dropped : exists l', remove_z 1 [2] with_x false = Ok l' /\ ~ same_unitary [2] (as_circuit with_x) (as_circuit l').
Proof.
  assert (L0 : forall th, line_gate [2] 0 (rgate 0 th)) by (intros; apply rgate_line; cbn; auto).
  rewrite (remove_z_one_run 1 [2] with_x [0%Z] false) by (try discriminate; try (cbn; lia); intros g [<-|[<-|[]]]; reflexivity).
  unfold with_x at 1. rewrite <- propagate_handled by reflexivity. change (filter handled [rgate 0 0; xgate 0]) with [rgate 0 0].
  destruct (propagate_line [2] pos2 1 0 [rgate 0 0] false) as (rots & zs & E & _ & _ & _ & _ & S); [discriminate|intros g [<-|[]]; apply L0|].
  rewrite E. cbn [bindr]. eexists. split; [reflexivity|]. intros K.
  destruct S as (u1 & u2 & E1 & E2 & H). destruct K as (v1 & v2 & F1 & F2 & K). rewrite (unitary_det _ _ _ _ F2 E2) in K.
  destruct (qubit_one (lower (rgate 0 0)) eq_refl eq_refl) as (w & Ew & W). rewrite (unitary_det _ _ _ _ E1 Ew) in H.
  destruct (qubit_circuit (lower (rgate 0 0)) (lower (xgate 0)) eq_refl eq_refl eq_refl eq_refl) as (x & Ex & X). rewrite (unitary_det _ _ _ _ F1 Ex) in K.
  assert (I : meq 2 (core (lower (rgate 0 0))) mid) by (eapply meq_trans; [apply rgate_array|apply rotation_0]).
  assert (Q : x 1 0 = w 1 0) by (rewrite (K 1 0), (H 1 0) by (cbn; lia); reflexivity).
  rewrite (W 1 0), (I 1 0), (X 1 0) in Q by lia.
  rewrite (mmul_ext 2 _ _ _ _ (meq_refl 2 (core (lower (xgate 0)))) I 1 0), (mmul_id_r 2 (core (lower (xgate 0))) 1 0) in Q by lia.
  change (x_array 2 1 0 = C0) in Q. rewrite (x_array_entry 2 1 0) in Q by lia. exact (C1_neq_C0 Q).
Qed.

(** *** a controlled phase gate is deleted although it acts on both lines *)
Definition guarded : list (gate pay) := [rgate 0 (PI / 2); cphase; rgate 0 (PI / 2)].
Lemma controlled_removed : zremoval_transpile 2 guarded = [rgate 0 (PI / 2); rgate 0 (PI / 2)].
Proof. reflexivity. Qed.
Lemma line0_entry g A r c : g_target g = TInt 0 -> g_controls g = None -> generate_matrix [2; 2] 2 g = Ok A -> r < 4 -> c < 4 ->
  A r c = if Nat.eqb (r mod 2) (c mod 2) then core g (r / 2) (c / 2) else C0.
Proof.
  intros T Cn E Hr Hc. destruct (gen_kron [] 2 [2] 2 g) as (B & EB & H); try assumption; try lia; [exact pos22|].
  cbn [app] in *. rewrite E in EB. injection EB as <-. rewrite (H r c) by (cbn; lia). unfold mkron, mid.
  destruct r as [|[|[|[|r]]]], c as [|[|[|[|c]]]]; try lia; cbn; ring.
Qed.
Lemma cphase_placed : well_placed [2; 2] (lower cphase).
Proof.
  split; [discriminate|]. split; [repeat constructor; intros []|]. split; [intros t [<-|[]]; cbn; lia|].
  cbn. split; [discriminate|]. intros c [<-|[]]. split; [lia|]. intros [X|[]]; discriminate.
Qed.
Lemma cphase_matrix : exists A, generate_matrix [2; 2] 2 (lower cphase) = Ok A /\
  A 0 0 = C1 /\ A 2 2 = Copp C1 /\ (forall r, r < 4 -> r <> 0 -> A r 0 = C0) /\ (forall r, r < 4 -> r <> 2 -> A r 2 = C0).
Proof.
  destruct (gen_line0_returns [2; 2] (lower cphase) cphase_placed 2) as (A & E); [now left|]. exists A. split; [exact E|].
  pose proof (gen_full [2; 2] (lower cphase) cphase_placed 2 A pos22 (le_n 2) E) as K. cbn in K.
  assert (Ag : forall r c, r / 2 = c / 2 -> r < 4 -> c < 4 -> agree_off [2; 2] [1] r c).
  { intros r c H Hr Hc i Hi Hn. destruct i as [|[|i]]; [|exfalso; apply Hn; now left|cbn in Hi; lia].
    destruct r as [|[|[|[|r]]]], c as [|[|[|[|c]]]]; try lia; cbn in *; try lia; reflexivity. }
  assert (Na : forall r c, r / 2 <> c / 2 -> r < 4 -> c < 4 -> ~ agree_off [2; 2] [1] r c).
  { intros r c H Hr Hc F. specialize (F 0 ltac:(cbn; lia) ltac:(intros [X|[]]; discriminate)). apply H.
    destruct r as [|[|[|[|r]]]], c as [|[|[|[|c]]]]; try lia; cbn in *; try lia. }
  assert (Off : forall r, r < 2 -> ~ controls_on [2; 2] [0] [1%Z] r) by (intros r Hr F; destruct r as [|[|r]]; [discriminate|discriminate|lia]).
  assert (On : forall r, 2 <= r < 4 -> controls_on [2; 2] [0] [1%Z] r) by (intros r Hr; destruct r as [|[|[|[|r]]]]; try lia; reflexivity).
  split; [|split; [|split]].
  - rewrite (ao_idle _ _ _ _ _ _ K 0 0); [reflexivity|cbn; lia|cbn; lia|apply Ag; lia|apply Off; lia].
  - rewrite (ao_active _ _ _ _ _ _ K 2 2); [|cbn; lia|cbn; lia|apply Ag; lia|apply On; lia].
    change (virtrz_array 2 0 PI 0 0 = Copp C1). rewrite (virtrz_array_diag 2 0 PI 0 0) by lia. unfold mdiag. cbn. rewrite cis_neg, cis_PI. csolve.
  - intros r Hr N. destruct r as [|[|[|[|r]]]]; try lia.
    + rewrite (ao_idle _ _ _ _ _ _ K 1 0); [reflexivity|cbn; lia|cbn; lia|apply Ag; (reflexivity || lia)|apply Off; lia].
    + apply (ao_off _ _ _ _ _ _ K); [cbn; lia|cbn; lia|apply Na; cbn; lia].
    + apply (ao_off _ _ _ _ _ _ K); [cbn; lia|cbn; lia|apply Na; cbn; lia].
  - intros r Hr N. destruct r as [|[|[|[|r]]]]; try lia.
    + apply (ao_off _ _ _ _ _ _ K); [cbn; lia|cbn; lia|apply Na; cbn; lia].
    + apply (ao_off _ _ _ _ _ _ K); [cbn; lia|cbn; lia|apply Na; cbn; lia].
    + rewrite (ao_active _ _ _ _ _ _ K 3 2); [|cbn; lia|cbn; lia|apply Ag; (reflexivity || lia)|apply On; lia].
      change (virtrz_array 2 0 PI 1 0 = C0). rewrite (virtrz_array_diag 2 0 PI 1 0) by lia. reflexivity.
Qed.
Lemma controlled_wrong : ~ same_statistics [2; 2] guarded (zremoval_transpile 2 guarded).
Proof.
  rewrite controlled_removed. intros (u & u' & E & E' & H). specialize (H 0 ltac:(cbn; lia)). revert H.
  assert (L0 : line_gate [2; 2] 0 (rgate 0 (PI / 2))) by (apply rgate_line; cbn; auto).
  pose proof (line_fits [2; 2] 0 _ pos22 L0) as F. pose proof (fits_gen _ _ F) as G. set (A := gmat [2; 2] (lower (rgate 0 (PI / 2)))) in *.
  assert (EA : forall r c, r < 4 -> c < 4 -> A r c = if Nat.eqb (r mod 2) (c mod 2) then rotation 0 1 (PI / 2) 0 (r / 2) (c / 2) else C0).
  { intros r c Hr Hc. rewrite (line0_entry (lower (rgate 0 (PI / 2))) A r c eq_refl eq_refl G Hr Hc). destruct (Nat.eqb (r mod 2) (c mod 2)); [|reflexivity].
    apply rgate_array; apply Nat.div_lt_upper_bound; lia. }
  destruct cphase_matrix as (B & EB & B00 & B22 & B0 & B2).
  unfold as_circuit, guarded in E, E'. cbn [map circuit_matrix snd] in E, E'. rewrite G in E, E'. rewrite EB in E. cbn [bindr] in E, E'.
  injection E as <-. injection E' as <-. unfold probability.
  assert (S1 : mmul 4 (mmul 4 (mmul 4 mid A) B) A 0 0 = C1).
  { rewrite (mmul_ext 4 _ (mmul 4 A B) _ _ (mmul_ext 4 _ _ _ _ (mmul_id_l 4 A) (meq_refl 4 B)) (meq_refl 4 A) 0 0) by lia.
    unfold mmul. cbn [csum].
    rewrite (EA 0 0), (EA 1 0), (EA 2 0), (EA 3 0), (EA 0 1), (EA 0 2), (EA 0 3) by lia. cbn [Nat.eqb Nat.modulo Nat.divmod Nat.div fst snd Nat.sub].
    rewrite B00, B22, (B0 1), (B0 2), (B0 3), (B2 0), (B2 1), (B2 3) by lia.
    unfold rotation, two_level. cbn [Nat.eqb]. rewrite Ropp_0, cis_0.
    pose proof (sin2_cos2 (PI / 2 / 2)) as SC. unfold Rsqr in SC. set (x := sin (PI / 2 / 2)) in *. set (y := cos (PI / 2 / 2)) in *.
    apply Ceq; cbn; nra. }
  assert (S2 : mmul 4 (mmul 4 mid A) A 0 0 = C0).
  { rewrite (mmul_ext 4 _ A _ _ (mmul_id_l 4 A) (meq_refl 4 A) 0 0) by lia.
    unfold mmul. cbn [csum].
    rewrite (EA 0 0), (EA 1 0), (EA 2 0), (EA 3 0), (EA 0 1), (EA 0 2), (EA 0 3) by lia. cbn [Nat.eqb Nat.modulo Nat.divmod Nat.div fst snd Nat.sub].
    pose proof (rotation_add 2 0 1 (PI / 2) (PI / 2) 0 ltac:(lia) ltac:(lia) ltac:(lia) 0 0 ltac:(lia) ltac:(lia)) as RA.
    unfold mmul in RA. cbn [csum] in RA. replace (PI / 2 + PI / 2)%R with PI in RA by field.
    transitivity (rotation 0 1 PI 0 0 0).
    - rewrite <- RA. ring.
    - unfold rotation, two_level. cbn [Nat.eqb]. rewrite cos_PI2. csolve. }
  change (prodl [2; 2]) with 4. rewrite S1, S2. intros Q. apply (f_equal fst) in Q. cbn in Q. lra.
Qed.
