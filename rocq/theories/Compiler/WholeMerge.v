(** Compilation with the local resynthesis, from end to end (C93). *)
From Coq Require Import Reals List Arith ZArith Lia Lra Sorted Permutation.
From Verif.Base Require Import Py PyFacts Cplx Matrix Radix.
From Verif.Circuit Require Import CircuitModel GateModel.
From Verif.Gates Require Import TwoModel FactoryModel FactorySpec.
From Verif.Sim Require Import TnSpec TnProofs.
From Verif.Verify Require Import VerifyProofs.
From Verif.Levels Require Import LevelsModel LevelsSpec LevelsProofs.
From Verif.Local Require Import QrModel QrSpec QrMath QrCore QrMoved QrEmit QrProofs QrPhysical QrPasses.
From Verif.Ent Require Import BlockModel BlockSpec PassModel PassSpec PassProofs.
From Verif.Compiler Require Import DispatchModel DispatchSpec WholeModel WholeSpec WholeNorm WholeOps WholeProofs WholeLanes.
From Verif.Lanes Require Import LanesModel LanesSpec ResynthProofs.
Import ListNotations.
Local Open Scope nat_scope.

(** *** The objects of a circuit *)
Lemma objects_in l o : In o (as_objects l) -> exists g, nth_error l (fst o) = Some g /\ snd o = as_gate g.
Proof.
  unfold as_objects. assert (H : forall k, In o (combine (seq k (List.length l)) (map as_gate l)) -> k <= fst o /\ exists g, nth_error l (fst o - k) = Some g /\ snd o = as_gate g).
  { induction l as [|g l IH]; intros k; cbn [List.length seq map combine]; [intros []|]. intros [<-|H].
    - cbn. rewrite Nat.sub_diag. split; [lia|]. exists g. split; reflexivity.
    - destruct (IH (S k) H) as (L & h & E & S'). split; [lia|]. exists h. replace (fst o - k) with (S (fst o - S k)) by lia. split; assumption. }
  intros Ho. destruct (H 0 Ho) as (_ & g & E & S). rewrite Nat.sub_0_r in E. eauto.
Qed.
Lemma objects_ids l : map fst (as_objects l) = seq 0 (List.length l).
Proof.
  unfold as_objects. generalize 0. induction l as [|g l IH]; intros k; [reflexivity|]. cbn. f_equal. apply IH.
Qed.
Lemma objects_gates l : map snd (as_objects l) = map as_gate l.
Proof. unfold as_objects. generalize 0. induction l as [|g l IH]; intros k; [reflexivity|]. cbn. f_equal. apply IH. Qed.
Lemma objects_back dims l : map (of_object dims l) (as_objects l) = l.
Proof.
  assert (H : map (fun o => nth_error l (fst o)) (as_objects l) = map Some l).
  { rewrite <- (map_map fst (nth_error l)), objects_ids. clear. induction l as [|g l IH] using rev_ind; [reflexivity|].
    rewrite app_length, Nat.add_comm. cbn [List.length]. rewrite seq_S, !map_app. cbn [map]. rewrite Nat.add_0_l, nth_error_app2, Nat.sub_diag by lia. cbn. f_equal.
    rewrite <- IH. apply map_ext_in. intros i Hi. apply in_seq in Hi. rewrite nth_error_app1 by lia. reflexivity. }
  assert (G : forall os k, map (fun o => nth_error l (fst o)) os = map Some k -> map (of_object dims l) os = k).
  { clear. induction os as [|o os IH]; intros [|g k]; cbn; intros H; try discriminate; [reflexivity|]. injection H as H1 H2. f_equal; [unfold of_object; rewrite H1; reflexivity|apply IH; exact H2]. }
  apply G. exact H.
Qed.

Section Merge.
  Variables (dims : list nat) (p : nat -> nat -> nat).
  Notation N := (prodl dims).
  Notation opof := (opof dims).
  Lemma implementable_wp g : implementable dims p g -> type_of g <> MULTI -> well_placed dims (as_gate g) /\ plain (as_gate g).
  Proof.
    intros I T. destruct g as [q d U|[q0 q1 dc dt op]|ts U| | |]; cbn [implementable] in I; try contradiction.
    - split; [|split; [reflexivity|]; left; split; [reflexivity|]; eexists; reflexivity]. unfold well_placed, target_lines. cbn. split; [discriminate|]. split; [repeat constructor; intros []|].
      split; [|exact Logic.I]. intros t [<-|[]]. lia.
    - destruct I as (H0 & H1 & D & _). assert (Q : exists dag M, as_gate (CUser2 (Two q0 q1 dc dt op)) = on_two q0 q1 dag M) by (destruct op; cbn; eauto).
      destruct Q as (dag & M & ->). split.
      + unfold well_placed, target_lines. cbn. split; [discriminate|]. split; [constructor; [intros [E|[]]; lia|repeat constructor; intros []]|]. split; [|exact Logic.I]. intros t [<-|[<-|[]]]; lia.
      + split; [reflexivity|]. right. split; [discriminate|]. eexists. split; [reflexivity|]. split; [discriminate|]. constructor; [intros [E|[]]; lia|repeat constructor; intros []].
  Qed.
  Lemma implementable_local g : implementable dims p g -> g_type (as_gate g) = SINGLE -> local_unitary dims (as_gate g).
  Proof.
    intros I T. destruct g as [q d U|[q0 q1 dc dt [x dag|U]]|ts U| | |]; cbn [implementable] in I; try contradiction; try discriminate.
    destruct I as (Hq & -> & HU). exists q. cbn. repeat (split; [first [exact Hq|reflexivity]|]). exact HU.
  Qed.
  Lemma type_as_gate g : implementable dims p g -> g_type (as_gate g) = type_of g.
  Proof. intros I. destruct g as [q d U|[q0 q1 dc dt [x dag|U]]|ts U| | |]; cbn [implementable] in I; try contradiction; reflexivity. Qed.

  Lemma circuit_op (l : list (obj mat)) (h : obj mat -> gate mat) : (forall o A, In o l -> generate_matrix dims 2 (snd o) = Ok A -> opof [h o] A) ->
    forall u, circuit_matrix dims l = Ok u -> opof (map h l) u.
  Proof.
    induction l as [|o l IH]; intros H u E; cbn [circuit_matrix] in E; [injection E as <-; apply op_nil|].
    destruct (generate_matrix dims 2 (snd o)) as [a|] eqn:Ea; [|discriminate]. cbn [bindr] in E. destruct (circuit_matrix dims l) as [b|]; [|discriminate]. cbn [bindr] in E. injection E as <-.
    cbn [map]. change (h o :: map h l) with ([h o] ++ map h l). apply op_app; [apply (H o a (or_introl eq_refl) Ea)|]. apply IH; [|reflexivity]. intros o' A Ho. apply H. right. exact Ho.
  Qed.

  Variable l : list cgate.
  Hypothesis Hpos : forall d, In d dims -> 0 < d.
  Hypothesis HI : forall g, In g l -> implementable dims p g /\ type_of g <> MULTI.
  Notation err q := (INR (nth q dims 0%nat) * (INR (nth q dims 0%nat) * qr_error code_eps code_delta (nth q dims 0%nat)))%R.

  Lemma merged_ok : exists m, resynthesised dims l = Ok m /\ (forall g, In g m -> implementable dims p g /\ type_of g <> MULTI) /\
    (total_error m <= total_error l)%R /\ (forall psi phi, evolves dims psi (map as_gate m) phi <-> evolves dims psi (map as_gate l) phi).
  Proof.
    assert (Ob : forall o, In o (as_objects l) -> exists g, In g l /\ nth_error l (fst o) = Some g /\ snd o = as_gate g).
    { intros o Ho. destruct (objects_in l o Ho) as (g & E & S). exists g. split; [eapply nth_error_In; exact E|]. split; assumption. }
    assert (WP : forall o, In o (as_objects l) -> well_placed dims (snd o) /\ plain (snd o)).
    { intros o Ho. destruct (Ob o Ho) as (g & Hg & _ & ->). apply implementable_wp; apply HI; exact Hg. }
    assert (LU : forall o, In o (as_objects l) -> g_type (snd o) = SINGLE -> local_unitary dims (snd o)).
    { intros o Ho. destruct (Ob o Ho) as (g & Hg & _ & ->). apply implementable_local. apply HI. exact Hg. }
    assert (ND : NoDup (map fst (as_objects l))) by (rewrite objects_ids; apply seq_NoDup).
    assert (LT : forall o, In o (as_objects l) -> fst o < List.length l).
    { intros o Ho. destruct (Ob o Ho) as (g & _ & E & _). apply nth_error_Some. rewrite E. discriminate. }
    destruct (resynth_spec dims Hpos (List.length l) (as_objects l) WP ND LT) as (out & E & (u1 & u2 & C1 & C2 & EQ) & EN & _ & WO & _).
    assert (TL : forall o t, In o (as_objects l) -> In t (target_lines (snd o)) -> (0 <= t < Z.of_nat (List.length dims))%Z).
    { intros o t Ho. apply (WP o Ho). }
    assert (OR := resynth_origin dims (as_objects l) (List.length l) (fun o Ho => proj2 (WP o Ho)) LU TL out E).
    assert (CL : forall o, In o out -> (exists g, In g l /\ of_object dims l o = g /\ snd o = as_gate g) \/
      exists q, q < List.length dims /\ of_object dims l o = CUser1 q (nth q dims 0) (g_data (snd o)) /\ g_type (snd o) = SINGLE /\ g_target (snd o) = TInt (Z.of_nat q) /\
        g_controls (snd o) = None /\ g_dagger (snd o) = false /\ unitary (nth q dims 0) (g_data (snd o))).
    { intros o Ho. destruct (OR o Ho) as [Hi|(F & (q & Hq & T & G & C & U) & Dg)].
      - left. destruct (Ob o Hi) as (g & Hg & En & S). exists g. split; [exact Hg|]. split; [unfold of_object; rewrite En; reflexivity|exact S].
      - right. exists q. rewrite Dg in U. split; [exact Hq|]. split; [|repeat (split; [assumption|]); exact U].
        unfold of_object. rewrite (proj2 (nth_error_None l (fst o)) F), G, Nat2Z.id. reflexivity. }
    exists (map (of_object dims l) out). unfold resynthesised. rewrite E. cbn [bindr]. split; [reflexivity|].
    assert (IM : forall g, In g (map (of_object dims l) out) -> implementable dims p g /\ type_of g <> MULTI).
    { intros g Hg. apply in_map_iff in Hg as (o & <- & Ho). destruct (CL o Ho) as [(g & Hg & -> & _)|(q & Hq & -> & _ & _ & _ & _ & U)]; [apply HI; exact Hg|].
      split; [cbn; auto|discriminate]. }
    split; [exact IM|]. split.
    - set (k := fun t : Z => err (Z.to_nat t)).
      assert (K0 : forall t, (0 <= k t)%R).
      { intros t. unfold k. assert (Q : (0 <= qr_error code_eps code_delta (nth (Z.to_nat t) dims 0%nat))%R) by (apply qr_error_nonneg; apply code_pos).
        repeat (apply Rmult_le_pos; [apply pos_INR|]). exact Q. }
      set (ent := fun o : obj mat => if local o then 0%R else gate_error (of_object dims l o)).
      assert (SP : forall o, g_type (snd o) = type_of (of_object dims l o) -> (type_of (of_object dims l o) = SINGLE -> exists q U, of_object dims l o = CUser1 q (nth q dims 0) U /\ g_target (snd o) = TInt (Z.of_nat q)) ->
        gate_error (of_object dims l o) = (weight k (snd o) + ent o)%R).
      { intros o T S. unfold weight, ent, local. rewrite T. destruct (type_of (of_object dims l o)) eqn:Ty; cbn [is_single]; [|ring|ring].
        destruct (S eq_refl) as (q & U & -> & G). rewrite G. cbn [gate_error]. unfold k. rewrite Nat2Z.id. ring. }
      assert (SUM : forall os, (forall o, In o os -> g_type (snd o) = type_of (of_object dims l o) /\ (type_of (of_object dims l o) = SINGLE -> exists q U, of_object dims l o = CUser1 q (nth q dims 0) U /\ g_target (snd o) = TInt (Z.of_nat q))) ->
        total_error (map (of_object dims l) os) = (fold_right (fun o s => weight k (snd o) + s) 0 os + fold_right (fun o s => ent o + s) 0 os)%R).
      { induction os as [|o os IH]; intros H; [cbn; ring|]. cbn [map total_error fold_right]. fold (total_error (map (of_object dims l) os)). rewrite IH by (intros o' Ho'; apply H; right; exact Ho').
        destruct (H o (or_introl eq_refl)) as [H1 H2]. rewrite (SP o H1 H2). ring. }
      assert (SE : forall os, fold_right (fun o s => (ent o + s)%R) 0%R os = fold_right (fun o s => (ent o + s)%R) 0%R (entangling os)).
      { induction os as [|o os IH]; [reflexivity|]. unfold entangling in *. cbn [fold_right filter]. rewrite IH. unfold ent at 1. destruct (local o) eqn:Lo; cbn [negb]; [ring|].
        cbn [fold_right]. unfold ent at 2. rewrite Lo. reflexivity. }
      assert (FA : forall o g, In g l -> of_object dims l o = g -> snd o = as_gate g -> g_type (snd o) = type_of (of_object dims l o) /\
        (type_of (of_object dims l o) = SINGLE -> exists q U, of_object dims l o = CUser1 q (nth q dims 0) U /\ g_target (snd o) = TInt (Z.of_nat q))).
      { intros o g Hg E1 S1. rewrite E1, S1. destruct (HI g Hg) as [Ig _]. split; [apply type_as_gate; exact Ig|]. intros Ts.
        destruct g as [q d U|[q0 q1 dc dt [x dag|U]]|ts U| | |]; cbn [implementable] in Ig; try contradiction; try discriminate. destruct Ig as (_ & -> & _). exists q, U. split; reflexivity. }
      rewrite <- (objects_back dims l) at 2. rewrite (SUM out), (SUM (as_objects l)).
      + rewrite (SE out), (SE (as_objects l)), EN. apply Rplus_le_compat_r.
        apply (resynth_weight dims k K0 (as_objects l) (List.length l) out (fun o Ho => proj2 (WP o Ho)) LU TL E).
      + intros o Ho. destruct (Ob o Ho) as (g & Hg & En & S). apply (FA o g Hg); [unfold of_object; rewrite En; reflexivity|exact S].
      + intros o Ho. destruct (CL o Ho) as [(g & Hg & E1 & S1)|(q & Hq & -> & T & G & _)]; [apply (FA o g Hg E1 S1)|]. rewrite T. split; [reflexivity|]. intros _. eauto.
    - assert (OP : opof (map as_gate (map (of_object dims l) out)) u2).
      { rewrite map_map. apply (circuit_op out (fun o => as_gate (of_object dims l o))); [|exact C2]. intros o A Ho EA.
        assert (M : matrix_of dims (snd o) A) by (apply gen_matrix_of; [exact Hpos|apply WO; exact Ho|exact EA]).
        destruct (IM _ (in_map (of_object dims l) out o Ho)) as [I1 I2]. apply op_one; [apply (implementable_wp _ I1 I2)|].
        destruct (CL o Ho) as [(g & Hg & -> & S)|(q & Hq & -> & T & G & C & Dg & _)]; [rewrite S in M; exact M|].
        destruct M as (ts & P & S & A1). exists ts. unfold target_nats, target_lines, control_nats, control_levels, core in *. cbn. rewrite G, C, Dg in *. cbn in P. auto. }
      assert (OL : opof (map as_gate l) u1).
      { rewrite <- objects_gates. apply (circuit_op (as_objects l) snd); [|exact C1]. intros o A Ho EA. apply op_one; [apply WP; exact Ho|]. apply gen_matrix_of; [exact Hpos|apply WP; exact Ho|exact EA]. }
      intros psi phi. rewrite (OP psi phi), (op_ext dims _ u1 u2 EQ OL psi phi). reflexivity.
  Qed.
End Merge.

Lemma device_pos dims gs p : device dims gs p -> forall d, In d dims -> 0 < d.
Proof.
  intros D d Hd. destruct (In_nth dims d 0 Hd) as (i & Hi & <-). destruct (D i Hi) as (g & _ & L & _). destruct (rt_initial _ _ (lo_routable _ _ _ L)) as (n & v & Hv & _).
  assert (is_node g n) as Hn by (apply (in_map fst) in Hv; exact Hv). assert (X := rt_logical _ _ (lo_routable _ _ _ L) n Hn). lia.
Qed.
Lemma implements_le dims p e e' new old : (e <= e')%R -> implements dims p e new old -> implements dims p e' new old.
Proof. intros L (g & H). exists g. intros psi phi psi' phi' target H1 H2 H3 H4 H5. unfold within. eapply Rle_trans; [apply (H psi phi psi' phi' target); assumption|exact L]. Qed.
Lemma implements_same dims p e new old old' : (forall psi phi, evolves dims psi old phi <-> evolves dims psi old' phi) -> implements dims p e new old -> implements dims p e new old'.
Proof. intros S (g & H). exists g. intros psi phi psi' phi' target H1 H2. apply H; [exact H1|apply S; exact H2]. Qed.

Lemma split_ok sp round6 det solve fuel (SP : finds_shortest sp) (HR : rounds6 round6) (HD : exact_det det) (HS : exact_solve det solve) dims p (F : fine dims p) l : forall gs new,
  device dims gs p -> (forall g, In g l -> implementable dims p g /\ type_of g <> MULTI) ->
  exists gs' out, rewrite_split type_of (the_pass sp round6 det solve fuel) (fun _ => Ok (PhyLocQR, false)) gs l new = (gs', Ok (new ++ out)) /\ device dims gs' p /\
    done dims p (total_error l) (map as_gate l) (map as_gate out).
Proof.
  induction l as [|g l IH]; intros gs new D H.
  - exists gs, []. split; [rewrite app_nil_r; reflexivity|]. split; [exact D|exact (done_nil dims p F)].
  - destruct (H g (or_introl eq_refl)) as [I T]. destruct (gate_ok sp round6 det solve fuel SP HD HS HR dims p F gs g D I) as [[Ty _]|(c & lg & gs1 & Ec & Et & D1 & Dn)]; [contradiction|].
    destruct (IH gs1 (new ++ lg) D1) as (gs' & out & E & D' & Dn'); [intros h Hh; apply H; right; exact Hh|].
    exists gs', (lg ++ out). split; [|split; [exact D'|]].
    + cbn [rewrite_split]. destruct (type_of g) eqn:Ty; cbn in Ec; try discriminate; injection Ec as <-; rewrite Et, E, <- app_assoc; reflexivity.
    + cbn [map total_error fold_right]. fold (total_error l). change (as_gate g :: map as_gate l) with ([as_gate g] ++ map as_gate l). rewrite map_app. apply done_app; assumption.
Qed.

Theorem o1_ok sp round6 det solve fuel gs p c : finds_shortest sp -> rounds6 round6 -> exact_det det -> exact_solve det solve ->
  num_qudits c = List.length (dimensions c) -> device (dimensions c) gs p -> (forall g, In g (instructions c) -> implementable (dimensions c) p g /\ type_of g <> MULTI) ->
  exists gs' out, whole_O1 sp round6 det solve fuel gs c = (gs', Ok out) /\ device (dimensions c) gs' p /\ same_registers out c /\
    mappings out = Some (map (fun i => map (p i) (seq 0 (nth i (dimensions c) 0))) (seq 0 (List.length (dimensions c)))) /\
    (forall psi, exists psi', placed_state (dimensions c) p psi psi') /\
    (forall psi, exists phi, evolves (dimensions c) psi (map as_gate (instructions c)) phi) /\
    (forall psi, exists phi, evolves (dimensions c) psi (map as_gate (instructions out)) phi) /\
    implements (dimensions c) p (total_error (instructions c)) (map as_gate (instructions out)) (map as_gate (instructions c)).
Proof.
  intros SP HR HD HS HN D I. assert (F := device_fine _ _ _ D). set (dims := dimensions c) in *.
  destruct (merged_ok dims p (instructions c) (device_pos dims gs p D) I) as (m & Em & Im & Le & Same).
  destruct (split_ok sp round6 det solve fuel SP HR HD HS dims p F m gs [] D Im) as (gs' & new & E & D' & Dn). cbn [app] in E.
  set (ms := map (fun i => map (p i) (seq 0 (nth i dims 0))) (seq 0 (List.length dims))).
  assert (E0 : mappings_of level_maps gs c = Ok ms) by (unfold mappings_of; rewrite HN; apply mapping_laid; exact D).
  assert (EM : mappings_of level_maps gs' (set_instructions (set_mapping c ms) m) = Ok ms) by (unfold mappings_of; cbn; rewrite HN; apply mapping_laid; exact D').
  eexists gs', _. split.
  { unfold whole_O1, compile_O1. fold dims. rewrite Em, E0. unfold finish. rewrite E, EM. reflexivity. }
  destruct (done_runs _ _ _ _ _ Dn) as [R1 R2].
  split; [exact D'|]. split; [unfold same_registers; cbn; repeat split|]. split; [reflexivity|]. split; [apply (placed_exists dims p (proj1 F) (proj2 F))|].
  split; [intros psi; destruct (R1 psi) as (phi & H); exists phi; apply Same; exact H|]. split; [exact R2|].
  apply (implements_le _ _ _ _ _ _ Le). apply (implements_same _ _ _ _ _ _ Same). apply done_implements; [exact F|exact Dn].
Qed.
