(** Phase gates at the ends of the lines do not change the measurement statistics. *)
From Coq Require Import List ZArith Arith Lia Bool Reals Lra Permutation.
From Verif.Base Require Import Py PyFacts Cplx Matrix Radix.
From Verif.Circuit Require Import GateModel.
From Verif.Gates Require Import AnglesModel AnglesSpec AnglesProofs SingleModel SingleSpec SingleProofs.
From Verif.Gates Require Import FactoryModel FactorySpec ActsOn Embed FactoryMain.
From Verif.Lanes Require Import LanesModel LanesSpec LanesProofs UnitaryProofs.
From Verif.Levels Require Import LevelsModel.
From Verif.Passes Require Import PhasesModel PhasesSpec PhasesProofs RemovalProofs.
Import ListNotations.
Local Open Scope nat_scope.

Definition unit_diag (d : nat) (M : mat) : Prop :=
  exists f, meq d M (mdiag f) /\ forall i, i < d -> Cmul (f i) (Cconj (f i)) = C1.
Lemma unit_diag_ext d M N : meq d M N -> unit_diag d N -> unit_diag d M.
Proof. intros H (f & E & U). exists f. split; [eapply meq_trans; eassumption|exact U]. Qed.
Lemma unit_diag_mul d M N : unit_diag d M -> unit_diag d N -> unit_diag d (mmul d M N).
Proof.
  intros (f & E & U) (h & F & V). exists (fun i => Cmul (f i) (h i)). split.
  - eapply meq_trans; [apply mmul_ext; eassumption|]. apply mdiag_mul.
  - intros i Hi. rewrite Cconj_mul. transitivity (Cmul (Cmul (f i) (Cconj (f i))) (Cmul (h i) (Cconj (h i)))); [ring|]. rewrite U, V by exact Hi. ring.
Qed.
Lemma unit_diag_id d : unit_diag d mid.
Proof.
  exists (fun _ => C1). split; [intros i j _ _; reflexivity|]. intros i _. csolve.
Qed.
Lemma unit_diag_adj d M : unit_diag d M -> unit_diag d (madj M).
Proof.
  intros (f & E & U). exists (fun i => Cconj (f i)). split.
  - intros i j Hi Hj. unfold madj. rewrite (E j i Hj Hi). exact (mdiag_adj d f i j Hi Hj).
  - intros i Hi. rewrite Cconj_inv. rewrite <- (U i Hi). ring.
Qed.
Lemma phase_array_diag g d : is_phase g = true -> p_dims (g_data g) = inl d -> phase_levels d (p_kind (g_data g)) ->
  unit_diag d (pay_array (g_data g)).
Proof.
  unfold is_phase, pay_array, pay_size. intros P -> L. destruct (p_kind (g_data g)) as [r|l f|a b f| |m]; try discriminate; cbn in L.
  - exists (fun i => if Nat.eqb i l then cis (- f) else C1). split; [apply virtrz_array_diag|].
    intros i _. destruct (Nat.eqb i l); [apply cis_conj_mul|csolve].
  - destruct L as (Ha & Hb & N). exists (fun i => if Nat.eqb i a then cis (- (f / 2)) else if Nat.eqb i b then cis (f / 2) else C1). split.
    + eapply meq_trans; [apply rz_array_diag; assumption|]. intros i j Hi Hj. unfold zrot, two_level, mdiag, mid.
      destruct (Nat.eqb_spec i a), (Nat.eqb_spec j a), (Nat.eqb_spec i b), (Nat.eqb_spec j b), (Nat.eqb_spec i j); subst; try congruence; try reflexivity.
    + intros i _. destruct (Nat.eqb i a); [apply cis_conj_mul|]. destruct (Nat.eqb i b); [apply cis_conj_mul|csolve].
  - exists (fun i => Cpow (omega d) i). split; [apply z_array_diag|]. intros i Hi. rewrite omega_pow. apply cis_conj_mul.
Qed.

Lemma phase_gate_entries : forall (d i j : nat), i < d -> j < d ->
  (forall (l : nat) (f : Rdefinitions.R), l < d ->
     pay_array (Pay (inl d) (KVirtRz l f)) i j = (if Nat.eqb i j then if Nat.eqb i l then cis (- f)%R else C1 else C0)) /\
  (forall (a b : nat) (f : Rdefinitions.R), a < d -> b < d -> a <> b ->
     pay_array (Pay (inl d) (KRz a b f)) i j =
       (if Nat.eqb i j then if Nat.eqb i a then cis (- (f / 2))%R else if Nat.eqb i b then cis (f / 2)%R else C1 else C0)) /\
  pay_array (Pay (inl d) KZ) i j = (if Nat.eqb i j then cis (2 * PI * INR i / INR d)%R else C0).
Proof.
  intros d i j Hi Hj. split; [|split].
  - intros l f _. exact (virtrz_array_diag d l f i j Hi Hj).
  - intros a b f Ha Hb N. change (rz_array d a b f i j = (if Nat.eqb i j then if Nat.eqb i a then cis (- (f / 2))%R else if Nat.eqb i b then cis (f / 2)%R else C1 else C0)).
    rewrite (rz_array_diag d a b f Ha Hb N i j Hi Hj). unfold zrot, two_level, mid.
    destruct (Nat.eqb_spec i a), (Nat.eqb_spec j a), (Nat.eqb_spec i b), (Nat.eqb_spec j b), (Nat.eqb_spec i j); subst; try congruence; try reflexivity.
  - change (z_array d i j = (if Nat.eqb i j then cis (2 * PI * INR i / INR d)%R else C0)). rewrite (z_array_diag d i j Hi Hj). unfold mdiag.
    rewrite omega_pow. destruct (Nat.eqb i j); [|reflexivity]. f_equal. field. apply not_0_INR. lia.
Qed.

Section Stats.
Variable dims : list nat.
Hypothesis pos : forall d, In d dims -> 0 < d.
Let D := prodl dims.

Lemma line_gmat_diag g t : fits dims g -> g_target g = TInt (Z.of_nat t) -> t < List.length dims ->
  unit_diag (nth t dims 0) (core g) -> unit_diag D (gmat dims g).
Proof.
  intros F T Ht (f & E & U). pose proof (fits_gen dims g F) as G. destruct F as [W [Cn _]].
  assert (K := gen_full dims g W 2 (gmat dims g) pos ltac:(lia) G).
  assert (Et : sortN (target_nats g) = [t]) by (unfold target_nats, target_lines; rewrite T; cbn; now rewrite Nat2Z.id).
  assert (Ec : control_nats g = []) by (unfold control_nats; now rewrite Cn).
  assert (El : control_levels g = []) by (unfold control_levels; now rewrite Cn).
  rewrite Et, Ec, El in K.
  assert (On : forall r, controls_on dims [] [] r) by reflexivity.
  assert (Lo : lines_ok dims [t]) by (split; [repeat constructor; intros []|intros x [<-|[]]; exact Ht]).
  assert (Sb : forall r, r < D -> sub_index dims [t] r < nth t dims 0).
  { intros r Hr. unfold sub_index, sub_dims. cbn. unfold digit. pose proof (nth_digits_lt dims r t Hr Ht). nia. }
  exists (fun r => f (sub_index dims [t] r)). split; [|intros i Hi; apply U, Sb, Hi].
  intros r c Hr Hc. unfold mdiag. destruct (agree_dec dims [t] r c) as [A|A].
  - rewrite (ao_active _ _ _ _ _ _ K r c Hr Hc A (On r)). rewrite E by now apply Sb. unfold mdiag.
    pose proof (mid_sub dims [t] r c Lo Hr Hc A) as M. unfold mid in M.
    destruct (Nat.eqb_spec r c) as [->|N]; [now rewrite Nat.eqb_refl|].
    destruct (Nat.eqb (sub_index dims [t] r) (sub_index dims [t] c)); [|reflexivity]. exfalso. apply C1_neq_C0. now symmetry.
  - rewrite (ao_off _ _ _ _ _ _ K r c Hr Hc A). destruct (Nat.eqb_spec r c) as [->|]; [|reflexivity]. exfalso. apply A, agree_refl.
Qed.
Lemma phase_gmat_diag g : placed_gate dims g -> is_phase g = true -> unit_diag D (gmat dims (lower g)).
Proof.
  intros (W & Pl & H) P. destruct (H P) as (t & T & Ht & Ed & L).
  apply (line_gmat_diag (lower g) t); [split; assumption|exact T|exact Ht|].
  unfold core. cbn. pose proof (phase_array_diag g _ P Ed L) as X. destruct (g_dagger g); [now apply unit_diag_adj|exact X].
Qed.
Lemma placed_fits g : placed_gate dims g -> fits dims (lower g).
Proof. intros (W & P & _). split; assumption. Qed.
Lemma circ_fits l : (forall g, In g l -> placed_gate dims g) -> forall o, In o (as_circuit l) -> fits dims (snd o).
Proof. intros H o Ho. apply in_map_iff in Ho. destruct Ho as (g & <- & Hg). apply placed_fits, H, Hg. Qed.
Lemma phases_run l : (forall g, In g l -> placed_gate dims g /\ is_phase g = true) -> forall s, unit_diag D s -> unit_diag D (grun dims (as_circuit l) s).
Proof.
  induction l as [|g l IH]; intros H s Hs; [exact Hs|]. cbn. apply IH; [intros; apply H; now right|].
  apply unit_diag_mul; [|exact Hs]. destruct (H g (or_introl eq_refl)). now apply phase_gmat_diag.
Qed.

(** exchanging the deleted gates to the front *)
Lemma dropped_lines pre l x : In x (dropped pre l) -> is_phase x = true /\ exists t, g_target x = TInt t /\ blocked pre t = false.
Proof.
  revert pre. induction l as [|g l IH]; intros pre H; [destruct H|]. rewrite dropped_cons in H.
  assert (R : In x (dropped (pre ++ [g]) l) -> is_phase x = true /\ exists t, g_target x = TInt t /\ blocked pre t = false).
  { intros H'. destruct (IH _ H') as (P & t & T & B). split; [exact P|]. exists t. split; [exact T|]. rewrite blocked_snoc in B. now apply orb_false_iff in B. }
  destruct (lead pre g) eqn:Lg; [|now apply R]. destruct H as [->|H]; [|now apply R].
  unfold lead in Lg. destruct (g_target x) as [t|] eqn:T; [|discriminate]. apply andb_true_iff in Lg. destruct Lg as [P B].
  split; [exact P|]. exists t. split; [reflexivity|]. now apply negb_true_iff in B.
Qed.
Lemma kept_disjoint pre g l x : lead pre g = false -> In x (dropped (pre ++ [g]) l) -> disjoint_ops (0, lower g) (0, lower x).
Proof.
  intros Lg Hx u Hg Hu. apply on_line_in in Hg, Hu. cbn [snd] in *. destruct (dropped_lines _ _ _ Hx) as (P & t & T & B).
  assert (u = t) by (unfold target_lines in Hu; cbn in Hu; rewrite T in Hu; destruct Hu as [<-|[]]; reflexivity). subst u.
  rewrite blocked_snoc in B. apply orb_false_iff in B. destruct B as [B1 B2].
  assert (O : on t g = true) by (apply mem_In; exact Hg). rewrite O in B2. cbn in B2. apply negb_false_iff in B2.
  unfold phase_int in B2. apply andb_true_iff in B2. destruct B2 as [Pg Tg]. destruct (g_target g) as [v|] eqn:Ev; [|discriminate].
  assert (v = t) by (unfold target_lines in Hg; cbn in Hg; rewrite Ev in Hg; destruct Hg as [<-|[]]; reflexivity). subst v.
  pose proof (kept_phase pre g t Pg Ev Lg). congruence.
Qed.
Lemma strip_swaps l : forall pre, swaps (as_circuit l) (as_circuit (dropped pre l ++ strip pre l)).
Proof.
  induction l as [|g l IH]; intros pre; [constructor|]. rewrite dropped_cons, strip_cons. destruct (lead pre g) eqn:Lg.
  - cbn. apply swaps_cons, IH.
  - eapply sw_trans; [cbn; apply swaps_cons; apply (IH (pre ++ [g]))|]. unfold as_circuit. rewrite !map_app. cbn [map].
    apply swaps_front. intros y Hy. apply in_map_iff in Hy. destruct Hy as (x & <- & Hx). eapply kept_disjoint; eassumption.
Qed.
Lemma swaps_rev {A} (l l' : list (nat * gate A)) : swaps l l' -> swaps (rev l) (rev l').
Proof.
  induction 1 as [l|p x y q H|a b c _ IH1 _ IH2]; [constructor| |econstructor 3; eassumption].
  rewrite !rev_app_distr. cbn. rewrite <- !app_assoc. cbn. apply sw_swap. intros t Hy Hx. exact (H t Hx Hy).
Qed.
Lemma as_circuit_rev l : as_circuit (rev l) = rev (as_circuit l).
Proof. apply map_rev. Qed.

Lemma stats_of_runs l l' : (forall g, In g l -> placed_gate dims g) -> (forall g, In g l' -> placed_gate dims g) ->
  (exists Ph, unit_diag D Ph /\ (meq D (grun dims (as_circuit l) mid) (mmul D Ph (grun dims (as_circuit l') mid)) \/
                                 meq D (grun dims (as_circuit l) mid) (mmul D (grun dims (as_circuit l') mid) Ph))) ->
  same_statistics dims l l'.
Proof.
  intros F F' (Ph & (f & Ef & U) & H). destruct (circuit_ok dims _ (circ_fits l F)) as (u & E & R). destruct (circuit_ok dims _ (circ_fits l' F')) as (u' & E' & R').
  exists u, u'. split; [exact E|]. split; [exact E'|]. intros x Hx. fold D in Hx.
  assert (P0 : 0 < D) by (apply prodl_pos; exact pos).
  assert (Eu : u x 0 = grun dims (as_circuit l) mid x 0) by (rewrite (R mid x 0 Hx P0); symmetry; apply mmul_id_r; assumption).
  assert (Eu' : meq D (grun dims (as_circuit l') mid) u') by (eapply meq_trans; [apply R'|apply mmul_id_r]).
  unfold probability. destruct H as [H|H].
  - assert (X : u x 0 = Cmul (f x) (u' x 0)).
    { rewrite Eu, (H x 0 Hx P0). rewrite (mmul_ext D _ _ _ _ Ef Eu' x 0 Hx P0). now rewrite (mdiag_mul_l D f u' x 0 Hx P0). }
    rewrite X, Cconj_mul. transitivity (Cmul (Cmul (f x) (Cconj (f x))) (Cmul (u' x 0) (Cconj (u' x 0)))); [ring|]. rewrite U by exact Hx. ring.
  - assert (X : u x 0 = Cmul (u' x 0) (f 0)).
    { rewrite Eu, (H x 0 Hx P0). rewrite (mmul_ext D _ _ _ _ Eu' Ef x 0 Hx P0). now rewrite (mdiag_mul_r D f u' x 0 Hx P0). }
    rewrite X, Cconj_mul. transitivity (Cmul (Cmul (f 0) (Cconj (f 0))) (Cmul (u' x 0) (Cconj (u' x 0)))); [ring|]. rewrite U by exact P0. ring.
Qed.
Lemma run_mul l M : (forall g, In g l -> placed_gate dims g) -> meq D (grun dims (as_circuit l) M) (mmul D (grun dims (as_circuit l) mid) M).
Proof.
  intros F. destruct (circuit_ok dims _ (circ_fits l F)) as (u & _ & R). eapply meq_trans; [apply R|]. apply mmul_ext; [|apply meq_refl].
  apply meq_sym. eapply meq_trans; [apply R|]. apply mmul_id_r.
Qed.
Lemma dropped_incl pre l g : In g (dropped pre l) -> In g l.
Proof. apply select_In. Qed.
Lemma initial_stats l : (forall g, In g l -> placed_gate dims g) -> same_statistics dims l (strip [] l).
Proof.
  intros F. assert (Fd : forall g, In g (dropped [] l) -> placed_gate dims g /\ is_phase g = true).
  { intros g Hg. split; [apply F, (dropped_incl [] l), Hg|]. now apply dropped_lines in Hg. }
  assert (Fs : forall g, In g (strip [] l) -> placed_gate dims g) by (intros g Hg; apply F, (strip_incl [] l), Hg).
  apply stats_of_runs; [exact F|exact Fs|]. exists (grun dims (as_circuit (dropped [] l)) mid). split; [apply phases_run; [exact Fd|apply unit_diag_id]|]. right.
  eapply meq_trans; [apply (swaps_run dims pos _ _ (strip_swaps l [])); apply circ_fits, F|].
  unfold as_circuit. rewrite map_app, grun_app. now apply run_mul.
Qed.
Lemma trailing_stats l : (forall g, In g l -> placed_gate dims g) -> same_statistics dims l (rev (strip [] (rev l))).
Proof.
  intros F. assert (Fr : forall g, In g (rev l) -> placed_gate dims g) by (intros g Hg; apply F; now apply in_rev).
  assert (Fd : forall g, In g (rev (dropped [] (rev l))) -> placed_gate dims g /\ is_phase g = true).
  { intros g Hg. apply in_rev in Hg. split; [apply Fr, (dropped_incl [] (rev l)), Hg|]. now apply dropped_lines in Hg. }
  assert (Fs : forall g, In g (rev (strip [] (rev l))) -> placed_gate dims g) by (intros g Hg; apply Fr, (strip_incl [] (rev l)); now apply in_rev).
  apply stats_of_runs; [exact F|exact Fs|]. exists (grun dims (as_circuit (rev (dropped [] (rev l)))) mid). split; [apply phases_run; [exact Fd|apply unit_diag_id]|]. left.
  assert (Sw : swaps (as_circuit l) (as_circuit (rev (strip [] (rev l)) ++ rev (dropped [] (rev l))))).
  { rewrite <- rev_app_distr, as_circuit_rev. rewrite <- (rev_involutive (as_circuit l)). apply swaps_rev. rewrite <- as_circuit_rev. apply strip_swaps. }
  eapply meq_trans; [apply (swaps_run dims pos _ _ Sw); apply circ_fits, F|].
  unfold as_circuit at 1. rewrite map_app, grun_app. apply run_mul. intros g Hg. now apply Fd.
Qed.
Lemma stats_trans a b c : same_statistics dims a b -> same_statistics dims b c -> same_statistics dims a c.
Proof.
  intros (u & v & E1 & E2 & H) (v' & w & E3 & E4 & K). rewrite E2 in E3. injection E3 as <-. exists u, w. split; [exact E1|]. split; [exact E4|].
  intros x Hx. now rewrite H, K.
Qed.
Lemma placed_register l : (forall g, In g l -> placed_gate dims g) -> in_register (List.length dims) l.
Proof. intros F g t Hg Ht. destruct (F g Hg) as ((_ & _ & B & _) & _). apply B. exact Ht. Qed.
Lemma transpile_stats l : (forall g, In g l -> placed_gate dims g) -> same_statistics dims l (zremoval_transpile (List.length dims) l).
Proof.
  intros F. pose proof (placed_register l F) as G. unfold zremoval_transpile. rewrite initial_strip by exact G. rewrite trailing_strip by (now apply initial_register).
  eapply stats_trans; [now apply initial_stats|]. apply trailing_stats. intros g Hg. apply F, (strip_incl [] l), Hg.
Qed.
Lemma remove_stats l rv : (forall g, In g l -> placed_gate dims g) -> same_statistics dims l (remove_rz_gates (List.length dims) l rv).
Proof.
  intros F. pose proof (placed_register l F) as G. destruct rv; [rewrite trailing_strip|rewrite initial_strip]; try exact G; [now apply trailing_stats|now apply initial_stats].
Qed.
End Stats.
