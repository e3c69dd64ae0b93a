(** The passes on circuits, stored phases, and the refutations (C27, C28, C75, C76). *)
From Coq Require Import Reals Lra Lia List Arith ZArith.
From Verif.Base Require Import Py PyFacts Cplx Matrix Angle.
From Verif.Gates Require Import AnglesModel AnglesSpec AnglesProofs SingleModel SingleSpec SingleProofs.
From Verif.Levels Require Import LevelsModel LevelsSpec GraphProofs LevelsProofs RouteProofs PhaseProofs DistanceProofs.
From Verif.Sim Require Import TnSpec.
From Verif.Local Require Import QrModel QrSpec QrMath QrCore PulseProofs QrMoved QrEmit QrProofs QrPhysical.
Import ListNotations.
Local Open Scope string_scope.
Local Open Scope list_scope.
Local Open Scope nat_scope.

Definition code_error (d : nat) : R := (INR d * qr_error code_eps code_delta d)%R.

Lemma close_phases d e x h f N V : (forall l, l < d -> Cnorm2 (h l) = 1%R /\ (Cmod (Csub (h l) (cis (- f l))) <= x)%R) ->
  unitary d V -> close d e (madj N) V -> close d (e + x) (madj (mmul d N (mdiag h))) (mmul d (madj (phases f)) V).
Proof.
  intros Hh HV H i j Hi Hj. unfold phases.
  rewrite (madj_mmul d N (mdiag h) i j Hi Hj).
  rewrite (mmul_ext d _ _ _ _ (mdiag_adj d h) (meq_refl d (madj N)) i j Hi Hj), (mdiag_mul_l d _ _ i j Hi Hj).
  rewrite (mmul_ext d _ _ _ _ (mdiag_adj d (fun l => cis (- f l))) (meq_refl d V) i j Hi Hj), (mdiag_mul_l d _ _ i j Hi Hj).
  destruct (Hh i Hi) as [N1 N2].
  replace (Csub (Cmul (Cconj (h i)) (madj N i j)) (Cmul (Cconj (cis (- f i))) (V i j)))
    with (Cadd (Cmul (Cconj (h i)) (Csub (madj N i j) (V i j))) (Cmul (Cconj (Csub (h i) (cis (- f i)))) (V i j))).
  2:{ unfold Csub. replace (Cconj (Cadd (h i) (Copp (cis (- f i))))) with (Cadd (Cconj (h i)) (Copp (Cconj (cis (- f i))))) by (apply Ceq; cbn; ring). ring. }
  eapply Rle_trans; [apply Cmod_triangle|]. rewrite !Cmod_mul, !Cmod_conj.
  assert (M1 : Cmod (h i) = 1%R) by (unfold Cmod; rewrite N1; apply sqrt_1).
  assert (A := H i j Hi Hj). assert (B := unitary_mod d V i j HV Hi Hj). rewrite M1.
  assert (C := Cmod_nonneg (V i j)). assert (D := Cmod_nonneg (Csub (h i) (cis (- f i)))). nra.
Qed.

Lemma on_device_unitary d g U V : routable d g -> covers d g -> unitary d U -> on_device d g U V -> unitary d V.
Proof.
  intros RT CV HU H. apply (on_device_moved d g U V RT CV) in H.
  apply (moved_unitary d (lpf g) (lpf_in d g RT CV) (lpf_inj d g RT CV) U); assumption.
Qed.

Theorem phy_transpile_gate_ok sp gs line d U g : finds_shortest sp -> pyindex gs line = Ok g -> routable d g -> covers d g -> unitary d U ->
  exists l ops g', phy_transpile_gate sp gs line d U = Ok (l, put_graph gs line g') /\ l = map dag_op (rev (map plain ops)) /\
    (no_phases g -> forall V, on_device d g U V -> close d (code_error d) (circuit_matrix d l) V) /\
    (forall f V, pending g f -> on_device d g U V ->
       close d (code_error d + code_delta) (circuit_matrix d l) (mmul d (madj (phases f)) V)) /\
    Forall (fun o => native g (fst o)) l /\ 2 * List.length l <= d * (d - 1) * (2 * d - 3) + 4 * d /\
    routable d g' /\ covers d g' /\ no_phases g' /\ (forall n p, placed g' n p <-> placed g n p) /\ same_but_phases d g g'.
Proof.
  intros SP EG RT CV HU. destruct code_pos as [E0 D0].
  destruct (phy_execute_ok sp code_eps code_delta false false d U g SP RT CV HU E0 D0 (or_introl eq_refl))
    as (ops0 & new & alg & tot & g' & E & T & C & Z2 & Z0 & L0 & NT & L & R' & S' & _ & _ & Z5).
  unfold phy_transpile_gate. rewrite EG. cbn [bindr]. rewrite E. cbn [bindr].
  exists (map dag_op (rev (map plain (ops0 ++ new)))), (ops0 ++ new), g'. split; [reflexivity|]. split; [reflexivity|].
  assert (Q : (0 <= qr_error code_eps code_delta d)%R) by (apply qr_error_nonneg; assumption).
  split; [|split; [|split; [|split; [|split; [exact R'|split; [apply (sb_covers d g g' S' CV)|split; [apply Z5; reflexivity|split; [|exact S']]]]]]]].
  - intros NP V HV. rewrite Z0 by exact NP. cbn [app]. eapply close_ext; [apply meq_sym, dagger_list|apply meq_refl|].
    apply close_inverse; [exact T|exact Q|apply C; exact HV].
  - intros f V PF HV. destruct (flushed_phases code_delta d g f D0 RT CV PF) as (_ & h & MH & HH). rewrite <- Z2 in MH by reflexivity.
    assert (ME : meq d (circuit_matrix d (map dag_op (rev (map plain (ops0 ++ new))))) (madj (mmul d (ops_matrix d new) (mdiag h)))).
    { eapply meq_trans; [apply dagger_list|]. apply madj_ext. eapply meq_trans; [apply ops_app|].
      apply mmul_ext; [apply meq_refl|exact MH]. }
    refine (close_ext d _ _ _ _ _ (meq_sym _ _ _ ME) (meq_refl _ _) _).
    apply close_phases; [exact HH|exact (on_device_unitary d g U V RT CV HU HV)|].
    apply close_inverse; [exact T|exact Q|apply C; exact HV].
  - apply Forall_forall. intros o H. apply in_map_iff in H. destruct H as (o' & <- & H). apply in_rev, in_map_iff in H. destruct H as (o'' & <- & H).
    rewrite Forall_forall in NT. cbn. apply NT. exact H.
  - rewrite map_length, rev_length, map_length, app_length. lia.
  - intros n p. apply (sb_placed d g g' n p (rt_wf d g RT) (rt_wf d g' R') S').
Qed.

(** *** Circuits *)
Definition norm_index (n : nat) (i : Z) : Z := if (i <? 0)%Z then (i + Z.of_nat n)%Z else i.
Lemma pyindex_norm {A} (l : list A) i x : pyindex l i = Ok x <->
  (0 <= norm_index (List.length l) i < Z.of_nat (List.length l))%Z /\ nth_error l (Z.to_nat (norm_index (List.length l) i)) = Some x.
Proof.
  unfold pyindex. fold (norm_index (List.length l) i). set (j := norm_index (List.length l) i).
  destruct (Z.leb_spec 0 j); destruct (Z.ltb_spec j (Z.of_nat (List.length l))); cbn [andb]; split; intros X; try discriminate; try (destruct X; lia).
  - destruct (nth_error l (Z.to_nat j)); [|discriminate]. split; [lia|congruence].
  - destruct X as [_ ->]. reflexivity.
Qed.
Lemma put_get gs i g g0 j x : pyindex gs i = Ok g0 -> pyindex gs j = Ok x ->
  pyindex (put_graph gs i g) j = Ok (if (norm_index (List.length gs) i =? norm_index (List.length gs) j)%Z then g else x).
Proof.
  intros Hi Hj. apply pyindex_norm in Hi, Hj. destruct Hi as [Bi Ei], Hj as [Bj Ej].
  assert (PG : put_graph gs i g = firstn (Z.to_nat (norm_index (List.length gs) i)) gs ++ g :: skipn (S (Z.to_nat (norm_index (List.length gs) i))) gs).
  { unfold put_graph, norm_index. rewrite (Z.add_comm i). reflexivity. }
  set (a := norm_index (List.length gs) i) in *. set (b := norm_index (List.length gs) j) in *.
  assert (LN : List.length (put_graph gs i g) = List.length gs).
  { rewrite PG, app_length, firstn_length. cbn [List.length]. rewrite skipn_length. lia. }
  apply pyindex_norm. rewrite LN. fold b. split; [exact Bj|]. rewrite PG.
  assert (LF : List.length (firstn (Z.to_nat a) gs) = Z.to_nat a) by (rewrite firstn_length; lia).
  destruct (Z.eqb_spec a b) as [E|N].
  - rewrite <- E. rewrite nth_error_app2 by lia. rewrite LF, Nat.sub_diag. reflexivity.
  - assert (FS := firstn_skipn (Z.to_nat a) gs).
    destruct (Z.lt_total b a) as [L|[E|L]]; [|congruence|].
    + rewrite nth_error_app1 by lia. rewrite <- FS in Ej. rewrite nth_error_app1 in Ej by lia. exact Ej.
    + rewrite nth_error_app2 by lia. rewrite LF. rewrite <- (firstn_skipn (S (Z.to_nat a)) gs) in Ej.
      assert (LS : List.length (firstn (S (Z.to_nat a)) gs) = S (Z.to_nat a)) by (rewrite firstn_length; lia).
      rewrite nth_error_app2 in Ej by lia. rewrite LS in Ej. replace (Z.to_nat b - Z.to_nat a) with (S (Z.to_nat b - S (Z.to_nat a))) by lia.
      exact Ej.
Qed.

Lemma compilable_put gs c line d U g g' : compilable gs (ISingle line d U :: c) -> pyindex gs line = Ok g -> routable d g -> covers d g ->
  routable d g' -> covers d g' -> compilable (put_graph gs line g') c.
Proof.
  intros CP EG RT CV RT' CV' line2 d2 U2 H. destruct (CP line2 d2 U2 (or_intror H)) as (HU2 & g2 & E2 & R2 & C2).
  split; [exact HU2|]. eexists. split; [apply (put_get gs line g' g line2 g2 EG E2)|].
  destruct (Z.eqb_spec (norm_index (List.length gs) line) (norm_index (List.length gs) line2)) as [E|N]; [|auto].
  assert (g2 = g).
  { apply pyindex_norm in EG, E2. rewrite <- E in E2. destruct EG as [_ EG], E2 as [_ E2]. congruence. }
  subst g2. assert (X := covers_length d g RT CV). assert (Y := covers_length d2 g R2 C2). assert (d2 = d) by congruence. subst. auto.
Qed.

Theorem log_transpile_ok sp : finds_shortest sp -> forall c gs, compilable gs c ->
  exists out gs', log_transpile sp gs c = Ok (out, gs') /\
    replaced (fun line d U l => close d (code_error d) (circuit_matrix d l) (madj U)) c out.
Proof.
  intros SP. induction c as [|i c IH]; intros gs CP.
  - exists [], gs. split; [reflexivity|constructor].
  - destruct i as [line d U|n].
    + destruct (CP line d U (or_introl eq_refl)) as (HU & g & EG & RT & CV).
      destruct code_pos as [E0 D0].
      destruct (log_execute_ok sp code_eps code_delta false false d U g SP RT CV HU E0 D0) as (ops & alg & tot & g' & E & C & T & _ & _ & _ & R' & S' & _).
      cbn [log_transpile]. unfold log_transpile_gate. rewrite EG. cbn [bindr]. rewrite E. cbn [bindr fst snd].
      destruct (IH (put_graph gs line g')) as (out & gs' & E2 & RP).
      { apply (compilable_put gs c line d U g g' CP EG RT CV R' (sb_covers d g g' S' CV)). }
      rewrite E2. cbn [bindr fst snd]. eexists _, _. split; [reflexivity|]. constructor; [|exact RP].
      apply (close_inverse_r d _ (ops_matrix d ops) U HU); [apply qr_error_nonneg; assumption|exact C].
    + cbn [log_transpile]. destruct (IH gs) as (out & gs' & E2 & RP).
      { intros line d U H. apply CP. right. exact H. }
      rewrite E2. cbn [bindr fst snd]. eexists _, _. split; [reflexivity|]. constructor. exact RP.
Qed.

(** The graphs of gs are those of gs0, with other phases. *)
Definition follows (gs0 gs : list lgraph) : Prop :=
  forall line g0, pyindex gs0 line = Ok g0 -> exists g, pyindex gs line = Ok g /\ same_but_phases 0 g0 g /\ (no_phases g0 -> no_phases g).
Lemma follows_refl gs : follows gs gs.
Proof. intros line g H. exists g. split; [exact H|]. split; [apply sb_refl|auto]. Qed.
Lemma follows_put gs0 gs line g g' d : follows gs0 gs -> pyindex gs line = Ok g -> same_but_phases d g g' -> no_phases g' ->
  follows gs0 (put_graph gs line g').
Proof.
  intros FO EG [S1 S2 S3] NP l2 g0 E0. destruct (FO l2 g0 E0) as (g2 & E2 & S' & N'). eexists. split; [apply (put_get gs line g' g l2 g2 EG E2)|].
  destruct (Z.eqb_spec (norm_index (List.length gs) line) (norm_index (List.length gs) l2)) as [E|N]; [|auto].
  assert (g2 = g) by (apply pyindex_norm in EG, E2; rewrite <- E in E2; destruct EG as [_ EG], E2 as [_ E2]; congruence).
  subst g2. split; [|auto]. eapply sb_trans; [exact S'|]. constructor; assumption.
Qed.

(** What PhyLocQRPass.transpile puts in place of a gate: the gates of the decomposition, in the order of the
    decomposition, all with the dagger on. *)
Theorem phy_transpile_ok sp : finds_shortest sp -> forall gs0 c gs, compilable gs0 c -> compilable gs c -> follows gs0 gs ->
  exists out gs', phy_transpile sp gs c = Ok (out, gs') /\
    replaced (fun line d U l => Forall (fun o => snd o = true) l /\
      forall g, pyindex gs0 line = Ok g -> Forall (fun o => native g (fst o)) l /\
        (no_phases g -> forall V, on_device d g U V -> close d (code_error d) (circuit_matrix d (rev l)) V)) c out.
Proof.
  intros SP gs0. induction c as [|i c IH]; intros gs CP0 CP FO.
  - exists [], gs. split; [reflexivity|constructor].
  - destruct i as [line d U|n].
    + destruct (CP line d U (or_introl eq_refl)) as (HU & g & EG & RT & CV).
      destruct (phy_transpile_gate_ok sp gs line d U g SP EG RT CV HU) as (l & ops & g' & E & EL & C1 & C2 & NT & L & R' & CV' & NP & _ & S').
      cbn [phy_transpile]. rewrite E. cbn [bindr fst snd].
      destruct (IH (put_graph gs line g')) as (out & gs' & E2 & RP).
      { intros l2 d2 U2 H. apply (CP0 l2 d2 U2). right. exact H. }
      { apply (compilable_put gs c line d U g g' CP EG RT CV R' CV'). }
      { apply (follows_put gs0 gs line g g' d FO EG S' NP). }
      rewrite E2. cbn [bindr fst snd]. eexists _, _. split; [reflexivity|]. constructor; [|exact RP].
      assert (D : map dag_op (rev l) = rev l).
      { rewrite EL. rewrite <- map_rev, map_map. apply map_ext. intros (o, b). reflexivity. }
      rewrite D. split.
      { rewrite EL. apply Forall_forall. intros o H. apply in_rev in H. apply in_map_iff in H. destruct H as (o' & <- & _). reflexivity. }
      intros g0 E0. destruct (FO line g0 E0) as (g1 & E1 & S1 & N1). assert (g1 = g) by congruence. subst g1.
      destruct (CP0 line d U (or_introl eq_refl)) as (_ & g1 & E1' & RT0 & CV0). assert (g1 = g0) by congruence. subst g1.
      assert (W := rt_wf d g RT). assert (W0 := rt_wf d g0 RT0). split.
      * apply Forall_forall. intros o H. apply in_rev in H. rewrite Forall_forall in NT. apply (sb_native 0 g0 g _ W0 W S1). apply NT. exact H.
      * intros Q V HV. rewrite rev_involutive. apply C1; [apply N1; exact Q|].
        intros n m p q Hn Hm Hp Hq. apply HV; try assumption; apply (sb_placed 0 g0 g _ _ W0 W S1); assumption.
    + cbn [phy_transpile]. destruct (IH gs) as (out & gs' & E2 & RP); [| |exact FO|].
      { intros line d U H. apply CP0. right. exact H. }
      { intros line d U H. apply CP. right. exact H. }
      rewrite E2. cbn [bindr fst snd]. eexists _, _. split; [reflexivity|]. constructor. exact RP.
Qed.

(** *** Refutations *)
Lemma pair_routable : routable 2 pair_graph.
Proof.
  unfold pair_graph. routable_case. apply new_graph_spec; [apply nodup_check; vm_compute; reflexivity|discriminate|reflexivity|apply good_edgesb_ok; vm_compute; reflexivity].
Qed.
Lemma pair_covers : covers 2 pair_graph.
Proof. intros n Hn. destruct n as [|[|n]]; [vm_compute; auto|vm_compute; auto|lia]. Qed.
Lemma pair_quiet : no_phases pair_graph.
Proof.
  intros n v x H. apply (has_attr_alook pair_graph (rt_wf _ _ pair_routable)) in H. exfalso.
  assert (N := rt_logical _ _ pair_routable n). unfold alook in H. destruct (nget (nd pair_graph) n) as [a|] eqn:E; [|discriminate].
  apply (dget_In Z.eqb zeq) in E. vm_compute in E. destruct E as [E|[E|[]]]; injection E as <- <-; vm_compute in H; discriminate.
Qed.
Lemma pair_lpf n : n < 2 -> lpf pair_graph n = n.
Proof. intros H. destruct n as [|[|n]]; [reflexivity|reflexivity|lia]. Qed.
