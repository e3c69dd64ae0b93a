(** The gate lists the two-qudit passes put out. *)
From Coq Require Import Reals Lra Lia List Arith ZArith.
From Verif.Base Require Import Py PyFacts Cplx Matrix Fiber Angle.
From Verif.Gates Require Import AnglesModel AnglesSpec AnglesProofs SingleModel SingleSpec SingleProofs TwoModel TwoSpec TwoProofs.
From Verif.Levels Require Import LevelsModel.
From Verif.Sim Require Import TnSpec.
From Verif.Local Require Import QrModel QrMath QrCore QrSpec QrProofs QrPhysical QrCases.
From Verif.Ent Require Import BlockModel BlockSpec PairMath CrotProofs PermProofs QuadMath SwapProofs ExecProofs PassModel.
Import ListNotations.
Local Open Scope C_scope.

Lemma ent_error_nonneg n : (0 <= ent_error code_eps code_delta n)%R.
Proof. unfold ent_error, qr_error, code_eps, code_delta. assert (X := pos_INR n). nra. Qed.
Lemma ent_error_small n : (n <= 1000)%nat -> (ent_error code_eps code_delta n <= 3 / 10000)%R.
Proof. intros H. unfold ent_error. assert (X := error_small n H). lra. Qed.

Lemma circuit_bmat2 dc dt l : (2 <= dc)%nat -> (2 <= dt)%nat -> forallb (gate_ok dc dt) l = true -> forallb kv0 l = true ->
  meq (dc * dt) (circuit_op dc dt l) (bmat dc dt l).
Proof.
  intros Hdc Hdt A K. unfold circuit_op. rewrite fold_chain. unfold bmat. apply (chain_map_ext (dc * dt)). intros g Hg. apply meq_sym.
  rewrite forallb_forall in A, K. apply gate_tracked; trivial; [apply A|apply K]; exact Hg.
Qed.
Lemma kv0_dag l : forallb kv0 (map set_dag l) = forallb kv0 l.
Proof. induction l as [|g l IH]; [reflexivity|]. cbn [map forallb]. rewrite IH. destruct g as [s k d|d]; reflexivity. Qed.
Lemma ok_dags dc dt l : forallb (gate_ok dc dt) (map set_dag l) = forallb (gate_ok dc dt) l.
Proof. induction l as [|g l IH]; [reflexivity|]. cbn [map forallb]. rewrite IH, ok_dag. reflexivity. Qed.
Lemma kv0_rev l : forallb kv0 (rev l) = forallb kv0 l.
Proof. apply Bool.eq_iff_eq_true. rewrite !forallb_forall. split; intros H x Hx; apply H; [apply -> in_rev; exact Hx|apply in_rev; exact Hx]. Qed.
Lemma emit_bmat dc dt l : (2 <= dc)%nat -> (2 <= dt)%nat -> good dc dt l -> meq (dc * dt) (circuit_op dc dt (map set_dag (rev l))) (bmat dc dt (map set_dag (rev l))).
Proof.
  intros Hdc Hdt (A & K & _). apply circuit_bmat2; trivial; [rewrite ok_back; exact A|rewrite kv0_dag, kv0_rev; exact K].
Qed.
Lemma close_meq d e A A' B : meq d A A' -> close d e A' B -> close d e A B.
Proof. intros E H i j Hi Hj. rewrite E by assumption. apply H; assumption. Qed.
(** A list that turns U into a phase is inverted to U. *)
Lemma close_phase n e N U g : unitary n N -> (0 <= e)%R -> close n e (mmul n N U) (with_phase g mid) -> close n (INR n * e) (madj N) (with_phase (- g) U).
Proof.
  intros HN He H. apply close_inverse; trivial. intros i j Hi Hj.
  replace (mmul n N (with_phase (- g) U) i j) with (cis (- g) * mmul n N U i j).
  2:{ unfold mmul, with_phase. rewrite <- csum_mul_l. apply csum_ext. intros k _. ring. }
  replace (Csub (cis (- g) * mmul n N U i j) (mid i j)) with (cis (- g) * Csub (mmul n N U i j) (with_phase g mid i j)).
  - rewrite Cmod_mul, Cmod_cis, Rmult_1_l. apply H; assumption.
  - unfold with_phase, Csub. rewrite cis_neg. transitivity (Cconj (cis g) * mmul n N U i j + - (Cconj (cis g) * cis g * mid i j)); [ring|]. rewrite cis_conj_mul'. ring.
Qed.

(** *** The daggered block in its own order is the block, not its inverse *)
Lemma inner_dag t : m2chain [m_rot (- PI) 0; m_v PI; m_z (t / 2); m_rot (- PI) 0; m_z (- t / 2); m_v (- PI)] = m_z (- t).
Proof.
  unfold m2chain. cbn [fold_left]. unfold m_rot, m_z, m_v.
  replace (- PI / 2)%R with (- (PI / 2))%R by field. rewrite Ropp_0, cis_0, cos_neg, sin_neg, cos_PI2, sin_PI2, RtoC_opp, RtoC_0, RtoC_1, Ropp_involutive.
  replace (- (- t / 2))%R with (t / 2)%R by field. replace (- (- t / 2 / 2))%R with (t / 2 / 2)%R by field. replace (- t / 2 / 2)%R with (- (t / 2 / 2))%R by field.
  replace (- t / 2)%R with (- (t / 2))%R by field.
  replace (cis (- (t / 2))) with (cis (- (t / 2 / 2)) * cis (- (t / 2 / 2))) by (rewrite <- cis_add; f_equal; field).
  replace (cis (t / 2)) with (cis (t / 2 / 2) * cis (t / 2 / 2)) by (rewrite <- cis_add; f_equal; field).
  rewrite (cis_neg PI), cis_PI.
  assert (K : Cconj (- C1) = - C1) by (apply Ceq; cbn; ring). rewrite K.
  assert (J := Cii). set (e := cis (t / 2 / 2)). set (e' := cis (- (t / 2 / 2))).
  apply m2_eq; cbn [m2mul m2id m00 m01 m10 m11].
  - transitivity (- (Ci * Ci) * (e * e)); [ring|]. rewrite J. ring.
  - ring.
  - ring.
  - transitivity (- (Ci * Ci) * (e' * e')); [ring|]. rewrite J. ring.
Qed.
Lemma m_rot_pi t f : m_rot t (f + PI) = m_rot (- t) f.
Proof.
  unfold m_rot. replace (- t / 2)%R with (- (t / 2))%R by field. rewrite cos_neg, sin_neg, RtoC_opp.
  replace (- (f + PI))%R with (- f + - PI)%R by ring. rewrite !cis_add, (cis_neg PI), cis_PI.
  assert (K : Cconj (- C1) = - C1) by (apply Ceq; cbn; ring). rewrite K. apply m2_eq; cbn [m00 m01 m10 m11]; unfold Csub; ring.
Qed.
Lemma crot_dag_on t f : m2chain [m_rot (- (PI / 2)) (f - PI / 2); m_rot (- PI) 0; m_v PI; m_z (t / 2); m_rot (- PI) 0; m_z (- t / 2); m_v (- PI); m_rot (PI / 2) (f - PI / 2)] = m_rot t f.
Proof.
  rewrite m2chain_cons. change [m_rot (- PI) 0; m_v PI; m_z (t / 2); m_rot (- PI) 0; m_z (- t / 2); m_v (- PI); m_rot (PI / 2) (f - PI / 2)]
    with ([m_rot (- PI) 0; m_v PI; m_z (t / 2); m_rot (- PI) 0; m_z (- t / 2); m_v (- PI)] ++ [m_rot (PI / 2) (f - PI / 2)]).
  rewrite m2chain_app, inner_dag. unfold m2chain at 1. cbn [fold_left]. rewrite m2mul_id_r, m2mul_assoc.
  assert (F := frame_on (- t) (f + PI)). replace (f + PI - PI / 2)%R with (f - PI / 2 + PI)%R in F by ring. rewrite !m_rot_pi, Ropp_involutive in F.
  replace (- (- PI / 2))%R with (PI / 2)%R in F by field. exact F.
Qed.
Lemma crot_dag_off t f : m2chain [m_rot (- (PI / 2)) (f - PI / 2); m2id; m_v PI; m_z (t / 2); m2id; m_z (- t / 2); m_v (- PI); m_rot (PI / 2) (f - PI / 2)] = m2id.
Proof.
  assert (F := crot_off (- t) (f + PI)). replace (f + PI - PI / 2)%R with (f - PI / 2 + PI)%R in F by ring. rewrite !m_rot_pi, Ropp_involutive in F.
  replace (- (- PI / 2))%R with (PI / 2)%R in F by field.
  assert (V : m_v PI = m_v (- PI)). { unfold m_v. rewrite Ropp_involutive, (cis_neg PI), cis_PI. apply m2_eq; cbn; try reflexivity. apply Ceq; cbn; ring. }
  rewrite V in F |- *. exact F.
Qed.
Section Dag.
Variables (dc dt : nat).
Hypothesis Hdc : (2 <= dc)%nat.
Hypothesis Hdt : (2 <= dt)%nat.
Notation n := (dc * dt)%nat.
Notation blk := (fmat Nat.eqb (prest dc dt true) (psub dc dt true)).
Lemma dag_tracked k A A' : meq dt (kind_matrix dt k) A -> meq dt (madj A) A' -> meq n (tracked dc dt true (set_dag (on_targ k))) (blk (fun _ => A')).
Proof.
  intros H H'. cbn [tracked on_targ set_dag flagged]. eapply meq_trans; [|apply on1_blk]. apply mkron_ext; [apply meq_refl|].
  eapply meq_trans; [apply madj_ext; exact H|exact H'].
Qed.
Lemma zrot_adj d a b f : a <> b -> meq d (madj (zrot a b f)) (zrot a b (- f)).
Proof.
  intros Hab. eapply meq_trans; [apply two_level_adj'; exact Hab|]. unfold zrot.
  replace (- f / 2)%R with (- (f / 2))%R by field. rewrite Ropp_involutive. apply two_level_ext; rewrite ?(cis_neg (f / 2)), ?Cconj_inv; try reflexivity; apply Ceq; cbn; ring.
Qed.
Lemma v_adj d f : meq d (madj (tl 0 1 (m_v f))) (tl 0 1 (m_v (- f))).
Proof.
  eapply meq_trans; [apply two_level_adj'; lia|]. unfold m_v. cbn [m00 m01 m10 m11]. rewrite Ropp_involutive. apply two_level_ext; cbn [m00 m01 m10 m11]; rewrite ?(cis_neg f), ?Cconj_inv; try reflexivity; apply Ceq; cbn; ring.
Qed.
Lemma cex_dag_blk : meq n (tracked dc dt true (ECex true)) (blk (fun c => if Nat.eqb c 1 then rotation 0 1 (- PI) 0 else mid)).
Proof.
  cbn [tracked flagged]. eapply meq_trans; [apply madj_ext, cex_blk; trivial|].
  eapply meq_trans; [apply madj_ext; unfold rotation; apply blk_two_level; lia|].
  eapply meq_trans; [apply (rotation_adj n (1 * dt + 0) (1 * dt + 1) PI 0); lia|].
  unfold rotation. apply meq_sym, blk_two_level; lia.
Qed.
Lemma crot_dag_matrix t f : meq n (bmat dc dt (map set_dag (crot_101 t f))) (rotation dt (dt + 1) t f).
Proof.
  unfold bmat, crot_101. cbn [map].
  set (R1 := fun (_ : nat) => rotation 0 1 (- (PI / 2)) (f - PI / 2)).
  set (X := fun c : nat => if Nat.eqb c 1 then rotation 0 1 (- PI) 0 else mid).
  set (V1 := fun (_ : nat) => tl 0 1 (m_v PI)). set (Z1 := fun (_ : nat) => zrot 0 1 (t / 2)).
  set (Z2 := fun (_ : nat) => zrot 0 1 (- t / 2)). set (V2 := fun (_ : nat) => tl 0 1 (m_v (- PI))).
  set (R2 := fun (_ : nat) => rotation 0 1 (PI / 2) (f - PI / 2)).
  eapply meq_trans with (B := chain n (map (fun F => blk F) [R1; X; V1; Z1; X; Z2; V2; R2])).
  { apply chain_ext. rewrite Ropp_involutive. repeat (apply Forall2_cons || apply Forall2_nil).
    - eapply dag_tracked; [apply (kr_rotation dt 0 1); lia|apply rotation_adj; lia].
    - apply cex_dag_blk.
    - eapply dag_tracked; [apply kv_two_level; lia|]. eapply meq_trans; [apply (v_adj dt (- PI))|]. rewrite Ropp_involutive. apply meq_refl.
    - eapply dag_tracked; [apply (krz_zrot dt 0 1); lia|]. eapply meq_trans; [apply zrot_adj; lia|]. replace (- (- t / 2))%R with (t / 2)%R by field. apply meq_refl.
    - apply cex_dag_blk.
    - eapply dag_tracked; [apply (krz_zrot dt 0 1); lia|]. eapply meq_trans; [apply zrot_adj; lia|]. replace (- (t / 2))%R with (- t / 2)%R by field. apply meq_refl.
    - eapply dag_tracked; [apply kv_two_level; lia|]. apply (v_adj dt PI).
    - eapply dag_tracked; [apply (kr_rotation dt 0 1); lia|]. eapply meq_trans; [apply rotation_adj; lia|]. replace (- (- PI / 2))%R with (PI / 2)%R by field. apply meq_refl. }
  eapply meq_trans; [apply blk_chain; trivial|].
  eapply meq_trans; [|replace (rotation dt (dt + 1) t f) with (rotation (1 * dt + 0) (1 * dt + 1) t f) by (f_equal; lia); unfold rotation; apply blk_two_level; lia]. apply blk_ext; trivial. intros c Hc. cbn [map]. unfold X.
  destruct (Nat.eqb_spec c 1) as [->|N].
  - change (meq dt (chain dt (map (tl 0 1) [m_rot (- (PI / 2)) (f - PI / 2); m_rot (- PI) 0; m_v PI; m_z (t / 2); m_rot (- PI) 0; m_z (- t / 2); m_v (- PI); m_rot (PI / 2) (f - PI / 2)])) (tl 0 1 (m_rot t f))).
    eapply meq_trans; [apply tl_chain; lia|]. rewrite crot_dag_on. apply meq_refl.
  - eapply meq_trans with (B := chain dt (map (tl 0 1) [m_rot (- (PI / 2)) (f - PI / 2); m2id; m_v PI; m_z (t / 2); m2id; m_z (- t / 2); m_v (- PI); m_rot (PI / 2) (f - PI / 2)])).
    { apply chain_ext. repeat (apply Forall2_cons || apply Forall2_nil); try apply meq_refl; apply meq_sym, two_level_id. }
    eapply meq_trans; [apply tl_chain; lia|]. rewrite crot_dag_off. apply two_level_id.
Qed.
End Dag.

Section Lists.
Variables (round6 : R -> R) (det : nat -> (nat -> nat -> R) -> R) (solve : nat -> (nat -> nat -> R) -> (nat -> R) -> res (list R)).
Hypothesis HD : exact_det det.
Hypothesis HS : exact_solve det solve.
Hypothesis HR : rounds6 round6.
Notation execute := (ent_execute round6 det solve code_eps code_delta).

Theorem emitted_ok dc dt U : (2 <= dc)%nat -> (2 <= dt)%nat -> unitary (dc * dt) U ->
  exists l, log_ent_gate round6 det solve code_eps code_delta dc dt true U = Ok (map set_dag (rev l)) /\ good dc dt l /\
    (forallb unflagged l = true -> exists g, close (dc * dt) (INR (dc * dt) * ent_error code_eps code_delta (dc * dt)) (circuit_op dc dt (map set_dag (rev l))) (with_phase g U)).
Proof.
  intros Hdc Hdt HU. destruct (execute_ok round6 det solve code_eps code_delta dc dt Hdc Hdt HD HS HR U) as (l & c & p & g & E & G & C & _).
  { unfold code_eps. lra. } { unfold code_delta. lra. } { exact HU. }
  exists l. split; [unfold log_ent_gate; rewrite E; reflexivity|]. split; [exact G|]. intros Hu. exists (- g)%R.
  eapply close_meq; [eapply meq_trans; [apply emit_bmat; trivial|]|].
  - eapply meq_trans; [apply back_adj; trivial|]. apply madj_ext, meq_sym, circuit_bmat; trivial.
  - apply close_phase; trivial; [apply circuit_unitary; trivial|apply ent_error_nonneg].
Qed.

(** *** Gates with few non-zero entries *)
Lemma idle eps dc dt lt l s : (0 <= eps)%R -> (forall rc, In rc l -> e_u s (fst rc) (snd rc) = C0) -> foldr (ent_step eps dc dt lt) l s = Ok s.
Proof.
  intros He. induction l as [|(r, c) l IH]; intros H; [reflexivity|]. cbn [foldr ent_step].
  destruct (Rlt_dec eps (Cmod (e_u s r c))) as [Y|_].
  - assert (Z := H (r, c) (or_introl eq_refl)). cbn [fst snd] in Z. rewrite Z, (proj2 (Cmod_0 C0) eq_refl) in Y. lra.
  - apply IH. intros rc Hrc. apply H. right. exact Hrc.
Qed.
Lemma round6_0 : round6 0 = 0%R.
Proof.
  destruct (HR 0%R) as [A (k & E)]. rewrite E in A. rewrite E. replace (IZR k / 1000000 - 0)%R with (IZR k / 1000000)%R in A by ring.
  assert (X : k = 0%Z).
  { apply Rabs_def2b in A || idtac. assert (- (1 / 2000000) <= IZR k / 1000000 <= 1 / 2000000)%R by (unfold Rabs in A; destruct (Rcase_abs _); lra).
    assert (-1 < IZR k < 1)%R by lra. destruct H0 as [H1 H2]. apply lt_IZR in H1, H2. lia. }
  rewrite X. field.
Qed.
Lemma no_phases_execute dc dt lt U s : (2 <= dc)%nat -> (2 <= dt)%nat -> foldr (ent_step code_eps dc dt lt) (visits (dc * dt)) (ES [] U 0 0) = Ok s ->
  (forall i, (i < dc * dt)%nat -> e_u s i i = C1) -> execute dc dt lt U = Ok (e_ops s, e_crot s, e_pswap s).
Proof.
  intros Hdc Hdt E D. unfold ent_execute. rewrite E. cbn [bindr].
  assert (N : (2 <= dc * dt)%nat) by nia. set (n := (dc * dt)%nat) in *.
  destruct (Req_EM_T _ 0) as [Z|_].
  { exfalso. apply HD in Z. destruct Z as (x & (i & Hi & Nx) & Sx). apply Nx. apply (not_singular n x N Sx i Hi). }
  set (b := fun i => round6 (angle (e_u s i i))).
  assert (Hb : forall i, (i < n - 1)%nat -> pseudo_diag n b i = 0%R).
  { intros i Hi. unfold pseudo_diag. rewrite sum_rsum. rewrite (rsum_ext n _ (fun _ => 0%R)), rsum_const; [ring|].
    intros k Hk. unfold b. rewrite D by exact Hk. replace C1 with (RtoC 1) by apply RtoC_1. rewrite angle_re by lra. rewrite round6_0. ring. }
  destruct (HS (n - 1)%nat (pseudo_inv n) (pseudo_diag n b) (partial_sum n b)) as (y & Ey & L & Sy).
  { intros Z. apply HD in Z. destruct Z as (x & (i & Hi & Nx) & Sx). apply Nx. apply (not_singular n x N Sx i Hi). }
  { apply mean_solves. exact N. }
  rewrite Ey. cbn [bindr].
  assert (Y : forall i, (i < n - 1)%nat -> nth i y 0%R = 0%R).
  { intros i Hi. apply (not_singular n (fun j => nth j y 0%R) N); [|exact Hi]. intros k Hk. rewrite (Sy k Hk). apply Hb. exact Hk. }
  assert (G : forall l i0, (forall x, In x l -> x = 0%R) -> foldr (ent_phase code_delta dc dt lt) (combine (seq i0 (List.length l)) l) s = Ok s).
  { induction l as [|x l IH]; intros i0 H; [reflexivity|]. cbn [List.length seq combine foldr ent_phase]. rewrite (H x (or_introl eq_refl)).
    replace (0 * 2)%R with 0%R by ring. rewrite Rabs_R0. destruct (Rlt_dec code_delta 0) as [B|_]; [unfold code_delta in B; lra|]. apply IH. intros z Hz. apply H. right. exact Hz. }
  rewrite G; [reflexivity|]. intros x Hx. destruct (In_nth y x 0%R Hx) as (i & Hi & <-). apply Y. lia.
Qed.
Lemma phases_lt delta dc dt lt lt' l : forall s s', e_ops s = e_ops s' -> e_crot s = e_crot s' -> e_pswap s = e_pswap s' ->
  match foldr (ent_phase delta dc dt lt) l s, foldr (ent_phase delta dc dt lt') l s' with
  | Ok a, Ok b => e_ops a = e_ops b /\ e_crot a = e_crot b /\ e_pswap a = e_pswap b
  | Err a, Err b => a = b
  | _, _ => False
  end.
Proof.
  induction l as [|(i, x) l IH]; intros s s' H1 H2 H3; [cbn; auto|]. cbn [foldr ent_phase].
  destruct (Rlt_dec delta (Rabs (x * 2))); [|cbn [bindr]; apply IH; assumption].
  destruct (negb (Nat.eqb i 0) && Nat.eqb ((i + 1) mod dt) 0).
  - destruct (z_pswap dc dt i (x * 2)) as [g|e]; cbn [bindr]; [|reflexivity]. apply IH; cbn; congruence.
  - destruct (z_from_crot dc dt i (x * 2)) as [g|e]; cbn [bindr]; [|reflexivity]. apply IH; cbn; congruence.
Qed.
(** The order of the lines does not matter to the run on a diagonal matrix. *)
Lemma diagonal_lt dc dt lt lt' z : execute dc dt lt (mdiag z) = execute dc dt lt' (mdiag z).
Proof.
  unfold ent_execute.
  assert (I : forall b, foldr (ent_step code_eps dc dt b) (visits (dc * dt)) (ES [] (mdiag z) 0 0) = Ok (ES [] (mdiag z) 0 0)).
  { intros b. apply idle; [unfold code_eps; lra|]. intros (r, c) Hrc. apply visits_range in Hrc. cbn [fst snd] in *. cbn [e_u]. unfold mdiag.
    destruct (Nat.eqb_spec r c); [lia|reflexivity]. }
  rewrite !I. cbn [bindr e_u]. destruct (Req_EM_T _ 0); [reflexivity|].
  destruct (solve _ _ _) as [y|e]; cbn [bindr]; [|reflexivity].
  assert (X := phases_lt code_delta dc dt lt lt' (combine (seq 0 (List.length y)) y) (ES [] (mdiag z) 0 0) (ES [] (mdiag z) 0 0) eq_refl eq_refl eq_refl).
  destruct (foldr (ent_phase code_delta dc dt lt) _ _) as [a|a], (foldr (ent_phase code_delta dc dt lt') _ _) as [b|b]; cbn [bindr]; try contradiction.
  - destruct X as (-> & -> & ->). reflexivity.
  - rewrite X. reflexivity.
Qed.

(** *** Lines in decreasing order *)
Definition flip1 : mat := mdiag (fun i => if Nat.eqb i 1 then (- C1) else C1).
Theorem reversed_wrong : unitary 4 flip1 /\ exists l c p, execute 2 2 false flip1 = Ok (l, c, p) /\
  forall g, ~ close 4 (1 / 2) (mmul 4 (circuit_op 2 2 l) (exchanged 2 2 flip1)) (with_phase g mid).
Proof.
  assert (HU : unitary 4 flip1) by (apply mdiag_unitary; intros i _; destruct (Nat.eqb i 1); unfold Cnorm2; cbn; ring).
  split; [exact HU|]. destruct (execute_ok round6 det solve code_eps code_delta 2 2 ltac:(lia) ltac:(lia) HD HS HR flip1) as (l & c & p & g0 & E & _ & C & _).
  { unfold code_eps. lra. } { unfold code_delta. lra. } { exact HU. }
  exists l, c, (4 * p)%nat. split; [unfold flip1 in *; rewrite (diagonal_lt 2 2 false true); exact E|].
  intros g H. assert (S4 := ent_error_small 4 ltac:(lia)). change (2 * 2)%nat with 4%nat in C.
  assert (C0' := C 0%nat 0%nat ltac:(lia) ltac:(lia)). assert (C1' := C 1%nat 1%nat ltac:(lia) ltac:(lia)).
  assert (H0 := H 0%nat 0%nat ltac:(lia) ltac:(lia)). assert (H1 := H 1%nat 1%nat ltac:(lia) ltac:(lia)).
  unfold flip1 in C0', C1'. rewrite mdiag_mul_r in C0', C1' by lia. cbn [Nat.eqb] in C0', C1'.
  assert (X : meq 4 (exchanged 2 2 flip1) (mdiag (fun i => if Nat.eqb i 2 then (- C1) else C1))).
  { intros i j Hi Hj. destruct i as [|[|[|[|i]]]]; try lia; destruct j as [|[|[|[|j]]]]; try lia; reflexivity. }
  assert (Y : forall k, (k < 4)%nat -> mmul 4 (circuit_op 2 2 l) (exchanged 2 2 flip1) k k = circuit_op 2 2 l k k * (if Nat.eqb k 2 then (- C1) else C1)).
  { intros k Hk. rewrite (mmul_ext 4 _ _ _ _ (meq_refl _ _) X k k Hk Hk). apply mdiag_mul_r; assumption. }
  rewrite Y in H0, H1 by lia. cbn [Nat.eqb] in H0, H1. unfold with_phase, mid in *. cbn [Nat.eqb] in *.
  set (a := circuit_op 2 2 l 0%nat 0%nat) in *. set (b := circuit_op 2 2 l 1%nat 1%nat) in *.
  assert (SY : forall x y, Cmod (Csub x y) = Cmod (Csub y x)) by (intros x y; unfold Cmod, Cnorm2, Csub, Cadd, Copp; cbn; f_equal; ring).
  assert (T : (Cmod (RtoC 2 * cis g0) <= 1 + 6 / 10000)%R).
  { replace (RtoC 2 * cis g0) with ((Csub (cis g0 * C1) (a * C1) + Csub (a * C1) (cis g * C1)) + (Csub (cis g * C1) (b * C1) + Csub (cis g0 * C1) (b * - C1))).
    - refine (Rle_trans _ _ _ (Cmod_triangle _ _) _). 
      assert (T1 := Cmod_triangle (Csub (cis g0 * C1) (a * C1)) (Csub (a * C1) (cis g * C1))).
      assert (T2 := Cmod_triangle (Csub (cis g * C1) (b * C1)) (Csub (cis g0 * C1) (b * - C1))).
      rewrite (SY (cis g0 * C1) (a * C1)) in T1. rewrite (SY (cis g * C1) (b * C1)), (SY (cis g0 * C1) (b * - C1)) in T2. lra.
    - apply Ceq; cbn; ring. }
  rewrite Cmod_mul, Cmod_cis, Cmod_RtoC in T by lra. lra.
Qed.

(** *** One rotation *)
(** Two neighbouring states are exchanged, one with a sign. *)
Definition turn (r : nat) : mat := rotation (r - 1) r PI (PI / 2).
Lemma turn_entries r n i j : (0 < r < n)%nat -> (i < n)%nat -> (j < n)%nat ->
  turn r i j = if Nat.eqb i (r - 1) then (if Nat.eqb j r then - C1 else C0) else if Nat.eqb i r then (if Nat.eqb j (r - 1) then C1 else C0) else mid i j.
Proof.
  intros Hr Hi Hj. unfold turn, rotation, two_level. rewrite cos_PI2, sin_PI2, cis_neg, cis_PI2.
  destruct (Nat.eqb_spec i (r - 1)) as [->|N1].
  - destruct (Nat.eqb_spec j (r - 1)) as [->|M1]; [destruct (Nat.eqb_spec (r - 1) r); [lia|apply Ceq; cbn; ring]|].
    destruct (Nat.eqb_spec j r) as [->|M2]; [apply Ceq; cbn; ring|]. reflexivity.
  - destruct (Nat.eqb_spec i r) as [->|N2].
    + destruct (Nat.eqb_spec j (r - 1)); [apply Ceq; cbn; ring|]. destruct (Nat.eqb_spec j r); apply Ceq; cbn; ring.
    + destruct (Nat.eqb_spec j (r - 1)), (Nat.eqb_spec j r); reflexivity.
Qed.
Lemma turn_angles r n : (0 < r < n)%nat -> qr_theta (turn r) r (r - 1) = PI /\ pi_mod (qr_phi (turn r) r (r - 1)) = (- PI / 2)%R.
Proof.
  intros Hr. assert (P := PI_RGT_0). unfold qr_theta, qr_phi. rewrite !(turn_entries r n) by lia. rewrite !Nat.eqb_refl.
  replace (Nat.eqb (r - 1) r) with false by (symmetry; apply Nat.eqb_neq; lia). replace (Nat.eqb r (r - 1)) with false by (symmetry; apply Nat.eqb_neq; lia).
  rewrite Cmod_C1, (proj2 (Cmod_0 C0) eq_refl), angle_0. replace C1 with (RtoC 1) by apply RtoC_1. rewrite angle_re by lra.
  split; [|rewrite pi_mod_fix by lra; lra]. unfold atan2. destruct (Rlt_dec 0 0); [lra|]. destruct (Rlt_dec 0 0); [lra|]. destruct (Rlt_dec 0 1); lra.
Qed.
Lemma turn_unitary r n : (0 < r < n)%nat -> unitary n (turn r).
Proof. intros H. apply rotation_unitary; lia. Qed.

Lemma turn_run dc dt r pre post : (2 <= dc)%nat -> (2 <= dt)%nat -> (0 < r < dc * dt)%nat -> (r mod dt <> 0)%nat ->
  visits (dc * dt) = pre ++ (r, r - 1)%nat :: post -> ~ In (r, r - 1)%nat pre ->
  execute dc dt true (turn r) = Ok (targ_part (r - 1 - dt * ((r - 1) / dt)) (ctrl_part ((r - 1) / dt) (crot_101 PI (- PI / 2))), 1%nat, 0%nat).
Proof.
  intros Hdc Hdt Hr Hm V Np. set (n := (dc * dt)%nat) in *.
  destruct (crot_block dc dt Hdc Hdt (r - 1) PI (- PI / 2)) as (l & El & _ & M). { fold n. lia. } { replace (r - 1 + 1)%nat with r by lia. exact Hm. }
  fold n in M. replace (r - 1 + 1)%nat with r in M by lia.
  assert (L : l = targ_part (r - 1 - dt * ((r - 1) / dt)) (ctrl_part ((r - 1) / dt) (crot_101 PI (- PI / 2)))).
  { rewrite permute_crot_list in El. apply created_same in El. exact El. }
  set (s1 := ES ([] ++ l) (apply_all dc dt true l (turn r)) (0 + 1) 0).
  assert (U1 : meq n (e_u s1) mid).
  { cbn [e_u s1]. eapply meq_trans; [apply apply_bmat; trivial|]. fold n. eapply meq_trans; [apply mmul_ext; [exact M|apply meq_refl]|].
    unfold turn. replace (PI / 2)%R with (- PI / 2 + PI)%R by field. eapply meq_trans; [apply mmul_ext; [apply meq_refl|apply rotation_phi_pi]|].
    eapply meq_trans; [apply rotation_add; lia|]. replace (PI + - PI)%R with 0%R by ring. apply rotation_0. }
  assert (E : foldr (ent_step code_eps dc dt true) (visits n) (ES [] (turn r) 0 0) = Ok s1).
  { assert (FA : forall l1 l2 s, foldr (ent_step code_eps dc dt true) (l1 ++ l2) s = bindr (foldr (ent_step code_eps dc dt true) l1 s) (foldr (ent_step code_eps dc dt true) l2)).
    { induction l1 as [|x l1 IH]; intros l2 s; [reflexivity|]. cbn [app foldr]. destruct (ent_step code_eps dc dt true s x); cbn [bindr]; [apply IH|reflexivity]. }
    assert (Q : forall rc, In rc (visits n) -> (0 < fst rc < n)%nat /\ (snd rc < n)%nat /\ (snd rc < fst rc)%nat) by (apply visits_range).
    rewrite V in *. rewrite FA, idle.
    - cbn [bindr foldr ent_step e_u e_ops e_crot e_pswap]. rewrite (turn_entries r n) by lia. rewrite !Nat.eqb_refl.
      replace (Nat.eqb r (r - 1)) with false by (symmetry; apply Nat.eqb_neq; lia). rewrite Cmod_C1.
      destruct (Rlt_dec code_eps 1) as [_|Y]; [|unfold code_eps in Y; lra].
      destruct (turn_angles r n Hr) as [-> ->]. replace (Nat.eqb (r mod dt) 0) with false by (symmetry; apply Nat.eqb_neq; exact Hm). rewrite Bool.andb_false_r.
      rewrite El. cbn [bindr]. apply idle; [unfold code_eps; lra|]. intros rc Hrc.
      destruct (Q rc) as (Q1 & Q2 & Q3); [apply in_or_app; right; right; exact Hrc|]. unfold s1 in U1. rewrite U1 by lia. unfold mid. destruct (Nat.eqb_spec (fst rc) (snd rc)); [lia|reflexivity].
    - unfold code_eps. lra.
    - intros rc Hrc. destruct (Q rc) as (Q1 & Q2 & Q3); [apply in_or_app; left; exact Hrc|]. cbn [e_u]. rewrite (turn_entries r n) by lia.
      destruct (Nat.eqb_spec (fst rc) (r - 1)) as [A|A]; [destruct (Nat.eqb_spec (snd rc) r); [lia|reflexivity]|].
      destruct (Nat.eqb_spec (fst rc) r) as [B|B].
      + destruct (Nat.eqb_spec (snd rc) (r - 1)) as [B'|]; [|reflexivity]. exfalso. apply Np. replace (r, (r - 1)%nat) with rc; [exact Hrc|]. destruct rc. cbn in *. congruence.
      + unfold mid. destruct (Nat.eqb_spec (fst rc) (snd rc)); [lia|reflexivity]. }
  rewrite (no_phases_execute dc dt true (turn r) s1 Hdc Hdt E).
  - unfold s1. cbn [e_ops e_crot e_pswap app]. rewrite L. reflexivity.
  - intros i Hi. rewrite U1 by exact Hi. unfold mid. rewrite Nat.eqb_refl. reflexivity.
Qed.

(** *** Flagged gates *)
Lemma dag_rot d a b t f : a <> b -> (a < d)%nat -> (b < d)%nat -> cos (t / 2) = 0%R ->
  maps_ket d (madj (rotation a b t f)) b (Ci * RtoC (sin (t / 2)) * cis (- f)) a /\ maps_ket d (madj (rotation a b t f)) a (Ci * RtoC (sin (t / 2)) * cis f) b.
Proof.
  intros Hab Ha Hb Hc. destruct (pi_maps d a b (- t) f Ha Hb Hab) as [M1 M2].
  { replace (- t / 2)%R with (- (t / 2))%R by field. rewrite cos_neg. exact Hc. }
  replace (- t / 2)%R with (- (t / 2))%R in * by field. rewrite sin_neg, RtoC_opp in *.
  split; (eapply maps_ext; [assumption|apply rotation_adj; exact Hab|]).
  - replace (Ci * RtoC (sin (t / 2)) * cis (- f)) with (- (Ci * - RtoC (sin (t / 2)) * cis (- f))) by ring. exact M1.
  - replace (Ci * RtoC (sin (t / 2)) * cis f) with (- (Ci * - RtoC (sin (t / 2)) * cis f)) by ring. exact M2.
Qed.
Lemma fixed_entry n A j c : (j < n)%nat -> maps_ket n A j c j -> A j j = c.
Proof. intros Hj H. rewrite maps_col in H by exact Hj. rewrite (H j Hj), Nat.eqb_refl. reflexivity. Qed.
Lemma sign_apart g a b : (Cmod (Csub a (cis g)) <= 1 / 2)%R -> (Cmod (Csub b (cis g)) <= 1 / 2)%R -> a = C1 -> b = - C1 -> False.
Proof.
  intros H1 H2 -> ->.
  assert (SY : forall x y, Cmod (Csub x y) = Cmod (Csub y x)) by (intros x y; unfold Cmod, Cnorm2, Csub, Cadd, Copp; cbn; f_equal; ring).
  assert (T : (Cmod (RtoC 2) <= 1)%R).
  { replace (RtoC 2) with (Csub C1 (cis g) + Csub (cis g) (- C1)) by (apply Ceq; cbn; ring).
    refine (Rle_trans _ _ _ (Cmod_triangle _ _) _). rewrite (SY (cis g) (- C1)). lra. }
  rewrite Cmod_RtoC in T by lra. lra.
Qed.
Lemma flagged_list g : ~ close 6 (1 / 2) (circuit_op 2 3 (map set_dag (rev (targ_part 1 (ctrl_part 0 (crot_101 PI (- PI / 2))))))) (with_phase g (turn 2)).
Proof.
  set (core := ctrl_part 0 (crot_101 PI (- PI / 2))). unfold targ_part. cbn [Nat.eqb].
  assert (A : forallb (gate_ok 2 3) core = true) by reflexivity.
  assert (D : map set_dag (rev (moves on_targ 1 ++ core ++ map set_dag (rev (moves on_targ 1)))) =
    [set_dag (on_targ (KR 0 1 PI (- PI / 2))); set_dag (on_targ (KR 1 2 (- PI) (PI / 2)))] ++ map set_dag (rev core) ++
    [set_dag (on_targ (KR 1 2 (- PI) (PI / 2))); set_dag (on_targ (KR 0 1 PI (- PI / 2)))]) by reflexivity.
  rewrite D. set (m1 := set_dag (on_targ (KR 0 1 PI (- PI / 2)))). set (m2 := set_dag (on_targ (KR 1 2 (- PI) (PI / 2)))).
  assert (Bc : meq 6 (bmat 2 3 (map set_dag (rev core))) (madj (rotation 0 1 PI (- PI / 2)))).
  { eapply meq_trans; [apply (back_adj 2 3); reflexivity|]. apply madj_ext. apply (ctrl_part_matrix 2 3 ltac:(lia) ltac:(lia) 0); lia. }
  assert (Fx : forall k, (2 <= k < 6)%nat -> maps_ket 6 (bmat 2 3 (map set_dag (rev core))) k C1 k).
  { intros k Hk. eapply maps_ext; [lia|eapply meq_trans; [exact Bc|apply rotation_adj; lia]|]. apply rot_fixes; lia. }
  assert (T1 : meq 3 (kind_matrix 3 (KR 0 1 PI (- PI / 2))) (rotation 0 1 PI (- PI / 2))) by (apply (kr_rotation 3 0 1); lia).
  assert (T2 : meq 3 (kind_matrix 3 (KR 1 2 (- PI) (PI / 2))) (rotation 1 2 (- PI) (PI / 2))) by (apply (kr_rotation 3 1 2); lia).
  assert (c2 : cos (- PI / 2) = 0%R) by (replace (- PI / 2)%R with (- (PI / 2))%R by field; rewrite cos_neg; apply cos_PI2).
  assert (s2 : sin (- PI / 2) = (-1)%R) by (replace (- PI / 2)%R with (- (PI / 2))%R by field; rewrite sin_neg, sin_PI2; reflexivity).
  assert (e2 : cis (- PI / 2) = - Ci) by (replace (- PI / 2)%R with (- (PI / 2))%R by field; rewrite cis_neg, cis_PI2; apply Ceq; cbn; ring).
  destruct (dag_rot 3 0 1 PI (- PI / 2) ltac:(lia) ltac:(lia) ltac:(lia) cos_PI2) as [P1 P2].
  destruct (dag_rot 3 1 2 (- PI) (PI / 2) ltac:(lia) ltac:(lia) ltac:(lia) c2) as [P3 P4].
  rewrite sin_PI2, e2 in P2. rewrite sin_PI2 in P1. replace (- (- PI / 2))%R with (PI / 2)%R in P1 by field. rewrite cis_PI2 in P1.
  rewrite s2, cis_neg, cis_PI2 in P3. rewrite s2, cis_PI2 in P4.
  replace (Ci * RtoC 1 * Ci) with (- C1) in P1 by (apply Ceq; cbn; ring). replace (Ci * RtoC 1 * - Ci) with C1 in P2 by (apply Ceq; cbn; ring).
  replace (Ci * RtoC (-1) * Cconj Ci) with (- C1) in P3 by (apply Ceq; cbn; ring). replace (Ci * RtoC (-1) * Ci) with C1 in P4 by (apply Ceq; cbn; ring).
  assert (X1 : forall a c b, (a < 3)%nat -> (b < 3)%nat -> maps_ket 3 (madj (rotation 0 1 PI (- PI / 2))) a c b -> maps_ket 6 (bmat 2 3 [m1]) (3 + a) c (3 + b)).
  { intros a c b Ha Hb H. eapply (maps_ext 6 _ _ _ _ _); [lia|apply (bmat_one 2 3)|]. cbn [tracked on_targ set_dag flagged m1].
    apply (on1_maps 2 3 ltac:(lia) ltac:(lia) _ 1 a c b); try lia. eapply maps_ext; [lia|apply madj_ext; exact T1|exact H]. }
  assert (X2 : forall a c b, (a < 3)%nat -> (b < 3)%nat -> maps_ket 3 (madj (rotation 1 2 (- PI) (PI / 2))) a c b -> maps_ket 6 (bmat 2 3 [m2]) (3 + a) c (3 + b)).
  { intros a c b Ha Hb H. eapply (maps_ext 6 _ _ _ _ _); [lia|apply (bmat_one 2 3)|]. cbn [tracked on_targ set_dag flagged m2].
    apply (on1_maps 2 3 ltac:(lia) ltac:(lia) _ 1 a c b); try lia. eapply maps_ext; [lia|apply madj_ext; exact T2|exact H]. }
  assert (P5 : maps_ket 3 (madj (rotation 1 2 (- PI) (PI / 2))) 0 C1 0).
  { eapply maps_ext; [lia|apply rotation_adj; lia|]. apply rot_fixes; lia. }
  assert (K : forall a b c d e, (a < 3)%nat -> (b < 3)%nat -> (c < 3)%nat -> forall p q r s, maps_ket 3 (madj (rotation 0 1 PI (- PI / 2))) a p b -> maps_ket 3 (madj (rotation 1 2 (- PI) (PI / 2))) b q c ->
     (d < 3)%nat -> (e < 3)%nat -> maps_ket 3 (madj (rotation 1 2 (- PI) (PI / 2))) c r d -> maps_ket 3 (madj (rotation 0 1 PI (- PI / 2))) d s e ->
     maps_ket 6 (bmat 2 3 ([m1; m2] ++ map set_dag (rev core) ++ [m2; m1])) (3 + a) (s * (r * (C1 * (q * p)))) (3 + e)).
  { intros a b c d e Ha Hb Hc p q r s Q1 Q2 Hd He Q3 Q4.
    assert (AP : meq 6 (bmat 2 3 ([m1; m2] ++ map set_dag (rev core) ++ [m2; m1])) (mmul 6 (bmat 2 3 [m1]) (mmul 6 (bmat 2 3 [m2]) (mmul 6 (bmat 2 3 (map set_dag (rev core))) (mmul 6 (bmat 2 3 [m2]) (bmat 2 3 [m1])))))).
    { assert (BA := bmat_app 2 3). eapply meq_trans; [apply BA|].
      eapply meq_trans; [apply mmul_ext; [apply BA|apply (BA [m1] [m2])]|].
      eapply meq_trans; [apply mmul_ext; [apply mmul_ext; [apply (BA [m2] [m1])|apply meq_refl]|apply meq_refl]|].
      eapply meq_trans; [apply mmul_assoc|]. eapply meq_trans; [apply mmul_assoc|]. apply meq_refl. }
    eapply maps_ext; [lia|exact AP|].
    apply (maps_comp 6 _ _ (3 + a) _ (3 + d) s (3 + e)); try lia; [|apply X1; assumption].
    apply (maps_comp 6 _ _ (3 + a) _ (3 + c) r (3 + d)); try lia; [|apply X2; assumption].
    apply (maps_comp 6 _ _ (3 + a) _ (3 + c) C1 (3 + c)); try lia; [|apply Fx; lia].
    apply (maps_comp 6 _ _ (3 + a) _ (3 + b) q (3 + c)); try lia; [apply X1; assumption|apply X2; assumption]. }
  assert (K0 := K 0%nat 1%nat 2%nat 1%nat 0%nat ltac:(lia) ltac:(lia) ltac:(lia) _ _ _ _ P2 P4 ltac:(lia) ltac:(lia) P3 P1).
  assert (K1 := K 1%nat 0%nat 0%nat 0%nat 1%nat ltac:(lia) ltac:(lia) ltac:(lia) _ _ _ _ P1 P5 ltac:(lia) ltac:(lia) P5 P2).
  apply fixed_entry in K0; [|lia]. apply fixed_entry in K1; [|lia]. cbn [Nat.add] in K0, K1.
  assert (CB : meq 6 (circuit_op 2 3 ([m1; m2] ++ map set_dag (rev core) ++ [m2; m1])) (bmat 2 3 ([m1; m2] ++ map set_dag (rev core) ++ [m2; m1]))).
  { apply (circuit_bmat2 2 3); try lia; reflexivity. }
  intros H. assert (H3 := H 3%nat 3%nat ltac:(lia) ltac:(lia)). assert (H4 := H 4%nat 4%nat ltac:(lia) ltac:(lia)).
  rewrite CB in H3, H4 by lia. rewrite K0 in H3. rewrite K1 in H4. unfold with_phase in H3, H4. rewrite !(turn_entries 2 6) in H3, H4 by lia. cbn [Nat.eqb Nat.sub mid] in H3, H4. unfold mid in H3, H4. cbn [Nat.eqb] in H3, H4.
  replace (cis g * C1) with (cis g) in H3, H4 by ring.
  refine (sign_apart g _ _ H3 H4 _ _); ring.
Qed.

Theorem flagged_wrong : unitary 6 (turn 2) /\ exists l, log_ent_gate round6 det solve code_eps code_delta 2 3 true (turn 2) = Ok l /\
  forall g, ~ close 6 (1 / 2) (circuit_op 2 3 l) (with_phase g (turn 2)).
Proof.
  split; [apply turn_unitary; lia|].
  assert (E := turn_run 2 3 2 [(5, 0); (4, 0); (3, 0); (2, 0); (1, 0); (5, 1); (4, 1); (3, 1)]%nat [(5, 2); (4, 2); (3, 2); (5, 3); (4, 3); (5, 4)]%nat
    ltac:(lia) ltac:(lia) ltac:(lia) ltac:(discriminate) eq_refl ltac:(cbn; intuition congruence)).
  change (2 - 1 - 3 * ((2 - 1) / 3))%nat with 1%nat in E. change ((2 - 1) / 3)%nat with 0%nat in E.
  eexists. split; [unfold log_ent_gate; rewrite E; reflexivity|]. exact flagged_list.
Qed.

(** *** The second reversal of LogEntQRCEXPass.transpile *)
Theorem transpile_wrong : unitary 4 (turn 1) /\ exists l,
  log_ent_transpile round6 det solve [ETwo (Two 0 1 2 2 (TMat (turn 1)))] = Ok (map (EGate 0 1) l) /\
  forall g, ~ close 4 (1 / 2) (circuit_op 2 2 l) (with_phase g (turn 1)).
Proof.
  split; [apply turn_unitary; lia|].
  assert (E := turn_run 2 2 1 [(3, 0); (2, 0)]%nat [(3, 1); (2, 1); (3, 2)]%nat
    ltac:(lia) ltac:(lia) ltac:(lia) ltac:(discriminate) eq_refl ltac:(cbn; intuition congruence)).
  change (1 - 1 - 2 * ((1 - 1) / 2))%nat with 0%nat in E. change ((1 - 1) / 2)%nat with 0%nat in E.
  unfold targ_part, ctrl_part in E. cbn [Nat.eqb] in E. set (c1 := on_ctrl (KR 1 (Z.of_nat 0) PI (- PI / 2))) in *. set (c2 := on_ctrl (KR 1 (Z.of_nat 0) PI (PI / 2))) in *.
  exists (map set_dag (c1 :: crot_101 PI (- PI / 2) ++ [c2])). split.
  { cbn [log_ent_transpile]. unfold ent_transpile_gate. cbn [two_matrix tw_op bindr tw_dc tw_dt tw_q0 tw_q1]. change (Nat.ltb 0 1) with true. unfold log_ent_gate. rewrite E. cbn [bindr fst].
    rewrite app_nil_r, <- (map_rev set_dag), rev_involutive. reflexivity. }
  assert (Bm : meq 4 (bmat 2 2 (map set_dag (c1 :: crot_101 PI (- PI / 2) ++ [c2]))) (rotation 0 1 PI (- PI / 2))).
  { replace (map set_dag (c1 :: crot_101 PI (- PI / 2) ++ [c2])) with ([set_dag c1] ++ map set_dag (crot_101 PI (- PI / 2)) ++ [set_dag c2]) by reflexivity.
    assert (J1 : meq 4 (bmat 2 2 [set_dag c1]) (madj (bmat 2 2 [c1]))) by (apply (back_adj 2 2 [c1]); reflexivity).
    assert (J2 : meq 4 (bmat 2 2 [set_dag c2]) (madj (bmat 2 2 [c2]))) by (apply (back_adj 2 2 [c2]); reflexivity).
    assert (J3 : meq 4 (bmat 2 2 [c2]) (madj (bmat 2 2 [c1]))) by (apply (ctrl_back 2 2 ltac:(lia) ltac:(lia) 0%nat); lia).
    assert (MM : forall t, (t < 2)%nat -> maps_ket 4 (bmat 2 2 [set_dag c1]) (0 * 2 + t) C1 (1 * 2 + t)).
    { intros t Ht. eapply (maps_ext 4 _ _ _ _ _); [lia|eapply meq_trans; [exact J1|apply meq_sym; exact J3]|].
      eapply (maps_ext 4 _ _ _ _ _); [lia|apply (bmat_one 2 2)|]. cbn [tracked on_ctrl flagged c2]. apply (on0_maps 2 2); try lia. rewrite kr_order.
      eapply maps_ext; [lia|apply (kr_rotation 2 0 1); lia|]. destruct (pi_maps 2 0 1 PI (PI / 2) ltac:(lia) ltac:(lia) ltac:(lia) cos_PI2) as [_ Q].
      rewrite sin_PI2, cis_PI2 in Q. replace (- (Ci * RtoC 1 * Ci)) with C1 in Q by (apply Ceq; cbn; ring). exact Q. }
    apply (conj_block 2 2 [set_dag c1] (map set_dag (crot_101 PI (- PI / 2))) [set_dag c2] 2 3 0 1 C1 C1 PI); try lia.
    - apply (bmat_unitary 2 2); try lia; reflexivity.
    - eapply meq_trans; [exact J2|]. eapply meq_trans; [apply madj_ext; exact J3|]. apply madj_ext, meq_sym. exact J1.
    - apply (crot_dag_matrix 2 2); lia.
    - apply (MM 0%nat). lia.
    - apply (MM 1%nat). lia.
    - unfold Cnorm2; cbn; ring.
    - unfold Cnorm2; cbn; ring.
    - left. split; [apply Ceq; cbn; ring|reflexivity]. }
  assert (CB : meq 4 (circuit_op 2 2 (map set_dag (c1 :: crot_101 PI (- PI / 2) ++ [c2]))) (rotation 0 1 PI (- PI / 2))).
  { eapply meq_trans; [apply (circuit_bmat2 2 2); try lia; reflexivity|exact Bm]. }
  intros g H. assert (H1 := H 0%nat 1%nat ltac:(lia) ltac:(lia)). assert (H2 := H 2%nat 2%nat ltac:(lia) ltac:(lia)).
  rewrite CB in H1, H2 by lia. unfold with_phase in H1, H2. rewrite !(turn_entries 1 4) in H1, H2 by lia. cbn [Nat.eqb Nat.sub] in H1, H2. unfold mid in H2. cbn [Nat.eqb] in H2.
  unfold rotation, two_level in H1, H2. cbn [Nat.eqb] in H1, H2. unfold mid in H2. cbn [Nat.eqb] in H2.
  rewrite sin_PI2 in H1. replace (- (- PI / 2))%R with (PI / 2)%R in H1 by field. rewrite cis_PI2 in H1.
  replace (cis g * C1) with (cis g) in H2 by ring.
  assert (H1' : (Cmod (Csub (- C1) (cis g)) <= 1 / 2)%R).
  { refine (Rle_trans _ _ _ (Req_le _ _ _) H1). unfold Cmod. f_equal. unfold Cnorm2, Csub, Cadd, Copp, Cmul, RtoC, Ci, C1. cbn. ring. }
  refine (sign_apart g _ _ H2 H1' _ _); reflexivity.
Qed.
End Lists.

(** *** Undoing a block *)
Lemma undone dc dt l : (2 <= dc)%nat -> (2 <= dt)%nat -> good dc dt l -> forallb unflagged l = true ->
  meq (dc * dt) (circuit_op dc dt (l ++ map set_dag (rev l))) mid.
Proof.
  intros Hdc Hdt G Hu. destruct G as (A & K & G). assert (GG : good dc dt l) by (split; [exact A|split; assumption]).
  eapply meq_trans; [apply circuit_bmat2; trivial; rewrite forallb_app; [rewrite A, ok_back, A|rewrite K, kv0_dag, kv0_rev, K]; reflexivity|].
  eapply meq_trans; [apply bmat_app|]. eapply meq_trans; [apply mmul_ext; [apply back_adj; assumption|apply meq_refl]|].
  assert (UL : unitary (dc * dt) (bmat dc dt l)).
  { eapply unitary_ext; [apply circuit_bmat; trivial; exact GG|apply circuit_unitary; trivial]. }
  apply UL.
Qed.
Theorem not_undone : exists l, permute_crot 2 3 1 PI (- PI / 2) = Ok l /\ ~ meq 6 (circuit_op 2 3 (l ++ map set_dag (rev l))) mid.
Proof.
  destruct (crot_block 2 3 ltac:(lia) ltac:(lia) 1 PI (- PI / 2) ltac:(lia) ltac:(discriminate)) as (l & E & G & M). exists l. split; [exact E|]. intros H.
  assert (El : l = targ_part 1 (ctrl_part 0 (crot_101 PI (- PI / 2)))).
  { rewrite permute_crot_list in E. exact (created_same _ _ _ _ E). }
  apply (flagged_list 0). rewrite <- El. destruct G as (A & K & _).
  assert (X : meq 6 (mmul 6 (bmat 2 3 (map set_dag (rev l))) (rotation 1 2 PI (- PI / 2))) mid).
  { eapply meq_trans; [apply mmul_ext; [apply meq_refl|apply meq_sym; exact M]|]. eapply meq_trans; [apply meq_sym, (bmat_app 2 3)|].
    eapply meq_trans; [apply meq_sym, (circuit_bmat2 2 3); try lia; rewrite forallb_app; [rewrite A, ok_back, A|rewrite K, kv0_dag, kv0_rev, K]; reflexivity|exact H]. }
  assert (Y : meq 6 (circuit_op 2 3 (map set_dag (rev l))) (turn 2)).
  { eapply meq_trans; [apply (circuit_bmat2 2 3); try lia; [rewrite ok_back; exact A|rewrite kv0_dag, kv0_rev; exact K]|].
    eapply meq_trans; [apply meq_sym, mmul_id_r|]. eapply meq_trans with (B := mmul 6 (bmat 2 3 (map set_dag (rev l))) (mmul 6 (rotation 1 2 PI (- PI / 2)) (turn 2))).
    - apply mmul_ext; [apply meq_refl|]. apply meq_sym. unfold turn. cbn [Nat.sub].
      replace (PI / 2)%R with (- PI / 2 + PI)%R by field. eapply meq_trans; [apply mmul_ext; [apply meq_refl|apply rotation_phi_pi]|].
      assert (P := rotation_inv 6 1 2 (- PI) (- PI / 2) ltac:(lia) ltac:(lia) ltac:(lia)). rewrite Ropp_involutive in P. exact P.
    - eapply meq_trans; [apply meq_sym, mmul_assoc|]. eapply meq_trans; [apply mmul_ext; [exact X|apply meq_refl]|]. apply mmul_id_l. }
  intros i j Hi Hj. rewrite Y by assumption. unfold with_phase. rewrite cis_0. replace (Csub (turn 2 i j) (C1 * turn 2 i j)) with C0 by (unfold Csub; ring).
  rewrite (proj2 (Cmod_0 C0) eq_refl). lra.
Qed.
