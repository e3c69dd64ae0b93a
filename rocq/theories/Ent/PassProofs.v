(** The two-qudit passes. *)
From Coq Require Import Reals Lra Lia List Arith ZArith.
From Verif.Base Require Import Py PyFacts Cplx Matrix Fiber Angle.
From Verif.Gates Require Import AnglesModel AnglesSpec AnglesProofs SingleModel SingleSpec SingleProofs TwoModel TwoSpec TwoProofs.
From Verif.Levels Require Import LevelsModel LevelsSpec GraphProofs LevelsProofs PhaseProofs.
From Verif.Sim Require Import TnSpec.
From Verif.Local Require Import QrModel QrMath QrCore QrSpec QrProofs QrPhysical QrPasses QrCases.
From Verif.Ent Require Import BlockModel BlockSpec PairMath CrotProofs PermProofs ExecProofs PassModel EmitProofs PassSpec.
Import ListNotations.
Local Open Scope C_scope.

(** *** The logical pass *)
Section Logical.
Variables (round6 : R -> R) (det : nat -> (nat -> nat -> R) -> R) (solve : nat -> (nat -> nat -> R) -> (nat -> R) -> res (list R)).
Hypothesis HD : exact_det det.
Hypothesis HS : exact_solve det solve.
Hypothesis HR : rounds6 round6.
Theorem transpile_reversed c : (forall g, In (ETwo g) c -> two_ok g) ->
  exists out, log_ent_transpile round6 det solve c = Ok out /\
    two_replaced (fun g l => forall U, two_matrix g = Ok U -> Forall (valid_gate (tw_dc g) (tw_dt g)) l /\
      (tw_dc g = 2%nat -> tw_dt g = 2%nat -> exists gam, close 4 (4 * ent_error code_eps code_delta 4) (circuit_op 2 2 (rev l)) (with_phase gam U))) c out.
Proof.
  induction c as [|i c IH]; intros H; cbn [log_ent_transpile].
  - exists []. split; [reflexivity|constructor].
  - destruct IH as (out & E & P). { intros g Hg. apply H. right. exact Hg. }
    destruct i as [g|m].
    + destruct (H g (or_introl eq_refl)) as (L & D1 & D2 & U & EU & HU).
      destruct (emitted_ok round6 det solve HD HS HR (tw_dc g) (tw_dt g) U D1 D2 HU) as (l & El & G & C).
      unfold ent_transpile_gate. rewrite EU. cbn [bindr]. rewrite (proj2 (Nat.ltb_lt _ _) L). rewrite El. cbn [bindr]. rewrite E. cbn [bindr].
      eexists. split; [reflexivity|]. apply (tr_two _ g); [|exact P]. intros V EV. assert (V = U) by congruence. subst V. split.
      * apply Forall_rev. destruct (good_valid _ _ l D1 D2 G) as [|]; [constructor|].
        assert (F := good_valid _ _ _ D1 D2 G). apply Forall_forall. intros y Hy. apply in_map_iff in Hy. destruct Hy as (z & <- & Hz).
        rewrite Forall_forall in F. apply in_rev in Hz. specialize (F z Hz). destruct z as [s k d|d]; exact F.
      * intros A B. rewrite rev_involutive. destruct G as (_ & _ & G). destruct (C (G A B)) as (gam & Cl). exists gam.
        rewrite A, B in Cl. change (2 * 2)%nat with 4%nat in Cl. replace 4%R with (INR 4) by (cbn; ring). exact Cl.
    + rewrite E. cbn [bindr]. eexists. split; [reflexivity|]. constructor. exact P.
Qed.
End Logical.

(** *** The physical levels *)
Lemma laid_covers d g p : laid_out d g p -> covers d g.
Proof.
  intros L n Hn. unfold is_node. rewrite (lo_order d g p L). apply in_map. apply in_seq. lia.
Qed.
Lemma laid_lt d g p n : laid_out d g p -> (n < d)%nat -> (p n < d)%nat.
Proof. intros L Hn. assert (X := rt_physical d g (lo_routable d g p L) _ _ (lo_placed d g p L n Hn)). lia. Qed.
Lemma laid_inj d g p n m : laid_out d g p -> (n < d)%nat -> (m < d)%nat -> p n = p m -> n = m.
Proof.
  intros L Hn Hm E. assert (A := lo_placed d g p L n Hn). assert (B := lo_placed d g p L m Hm). rewrite E in A.
  assert (X := proj2 (rt_placement d g (lo_routable d g p L)) _ _ _ A B). lia.
Qed.
Lemma lp_map_laid d g p : laid_out d g p -> lp_map d g = Ok (map (fun n => Z.of_nat (p n)) (seq 0 d)).
Proof.
  intros L. assert (RT := lo_routable d g p L). assert (W := rt_wf d g RT). destruct (log_phy_map_spec g W (rt_placement d g RT)) as (l & E & M).
  unfold lp_map. rewrite E. cbn [bindr].
  assert (El : l = map (fun n => AInt (Z.of_nat (p n))) (seq 0 d)).
  { rewrite (lo_order d g p L), map_map in M.
    assert (X : map Some l = map Some (map (fun n => AInt (Z.of_nat (p n))) (seq 0 d))).
    { rewrite M, map_map. apply map_ext_in. intros n Hn. apply in_seq in Hn. assert (Q := lo_placed d g p L n ltac:(lia)). unfold placed in Q. apply (has_attr_alook g W) in Q. exact Q. }
    clear M. revert X. generalize (map (fun n => AInt (Z.of_nat (p n))) (seq 0 d)). clear. induction l as [|x l IH]; intros [|y m]; cbn; intros H; try discriminate; [reflexivity|].
    injection H as -> H. f_equal. apply IH. exact H. }
  rewrite El.
  assert (G : forall k, mapr as_int (map (fun n => AInt (Z.of_nat (p n))) k) = Ok (map (fun n => Z.of_nat (p n)) k)).
  { induction k as [|n k IH]; [reflexivity|]. cbn [map mapr as_int bindr]. rewrite IH. reflexivity. }
  rewrite G. cbn [bindr]. f_equal.
  assert (F : forall k, (forall n, In n k -> (p n < d)%nat) -> filter (fun x => (x <? Z.of_nat d)%Z) (map (fun n => Z.of_nat (p n)) k) = map (fun n => Z.of_nat (p n)) k).
  { induction k as [|n k IH]; intros H; [reflexivity|]. cbn [map filter]. rewrite (proj2 (Z.ltb_lt _ _)) by (specialize (H n (or_introl eq_refl)); lia). f_equal. apply IH. intros m Hm. apply H. right. exact Hm. }
  apply F. intros n Hn. apply in_seq in Hn. apply (laid_lt d g p n L). lia.
Qed.
Lemma lp_at d p n : (n < d)%nat -> pyindex (map (fun n => Z.of_nat (p n)) (seq 0 d)) (Z.of_nat n) = Ok (Z.of_nat (p n)).
Proof.
  intros Hn. rewrite pyindex_nat. erewrite map_nth_error; [reflexivity|]. rewrite (nth_error_nth' _ 0%nat) by (rewrite seq_length; exact Hn). rewrite seq_nth by exact Hn. reflexivity.
Qed.

(** *** CEx *)
Lemma rotation_entry a b t f i j : rotation a b t f i j =
  if Nat.eqb i a then (if Nat.eqb j a then RtoC (cos (t / 2)) else if Nat.eqb j b then - (Ci * RtoC (sin (t / 2)) * cis (- f)) else C0)
  else if Nat.eqb i b then (if Nat.eqb j a then - (Ci * RtoC (sin (t / 2)) * cis f) else if Nat.eqb j b then RtoC (cos (t / 2)) else C0) else mid i j.
Proof. reflexivity. Qed.

Section Cex.
Variables (dc dt : nat) (lt : bool) (p0 p1 : nat -> nat) (x y : cex) (M M' : mat).
Hypothesis FX : cex_fits dc dt x.
Hypothesis P0 : forall n, (n < dc)%nat -> (p0 n < dc)%nat.
Hypothesis P1 : forall n, (n < dt)%nat -> (p1 n < dt)%nat.
Hypothesis I0 : forall n m, (n < dc)%nat -> (m < dc)%nat -> p0 n = p0 m -> n = m.
Hypothesis I1 : forall n m, (n < dt)%nat -> (m < dt)%nat -> p1 n = p1 m -> n = m.
Hypothesis EX : cex_array dc dt lt x = Ok M.
Hypothesis EY : cex_array dc dt lt y = Ok M'.
Hypothesis YC : cx_ctrl y = Z.of_nat (p0 (Z.to_nat (cx_ctrl x))).
Hypothesis YP : cx_phi y = cx_phi x.
Let a := cx_a x.
Let b := cx_b x.

Lemma cex_value z N i j i' j' : (0 < dc)%nat -> (0 < dt)%nat -> cex_array dc dt lt z = Ok N -> (cx_a z < cx_b z)%nat -> (i < dc)%nat -> (j < dt)%nat -> (i' < dc)%nat -> (j' < dt)%nat ->
  N (pair_index lt dc dt i j) (pair_index lt dc dt i' j') = if Nat.eqb i i' then (if (Z.of_nat i =? cx_ctrl z)%Z then rotation (cx_a z) (cx_b z) PI (cx_phi z) j j' else mid j j') else C0.
Proof.
  intros Hc Ht E Hl Hi Hj Hi' Hj'. assert (Q := cex_fmat dc dt lt z N Hc Ht E).
  rewrite Q by (unfold pair_index; destruct lt; nia). rewrite fmat_pair by assumption.
  destruct (Nat.eqb i i'); [|reflexivity]. destruct (Z.of_nat i =? cx_ctrl z)%Z; [|reflexivity]. apply (cex_op_rotation _ _ _ dt); [lia|assumption|assumption].
Qed.
Lemma facts : (0 < dc)%nat /\ (0 < dt)%nat /\ (a < b < dt)%nat /\ (Z.to_nat (cx_ctrl x) < dc)%nat /\ p1 a <> p1 b.
Proof.
  destruct FX as (A & B & _). unfold a, b. repeat split; try lia. intros E. apply I1 in E; lia.
Qed.
Lemma ctrl_eq i : (i < dc)%nat -> (Z.of_nat (p0 i) =? cx_ctrl y)%Z = (Z.of_nat i =? cx_ctrl x)%Z.
Proof.
  intros Hi. destruct facts as (_ & _ & _ & K & _). destruct FX as (A & _). rewrite YC.
  destruct (Z.eqb_spec (Z.of_nat i) (cx_ctrl x)) as [E|N].
  - rewrite <- E, Nat2Z.id. apply Z.eqb_refl.
  - apply Z.eqb_neq. intros E. apply N. apply Nat2Z.inj in E. apply I0 in E; [|exact Hi|exact K]. lia.
Qed.
Lemma p0_eqb i i' : (i < dc)%nat -> (i' < dc)%nat -> Nat.eqb (p0 i) (p0 i') = Nat.eqb i i'.
Proof. intros H H'. destruct (Nat.eqb_spec i i') as [->|N]; [apply Nat.eqb_refl|]. apply Nat.eqb_neq. intros E. apply N. apply I0; assumption. Qed.
Lemma p1_eqb i i' : (i < dt)%nat -> (i' < dt)%nat -> Nat.eqb (p1 i) (p1 i') = Nat.eqb i i'.
Proof. intros H H'. destruct (Nat.eqb_spec i i') as [->|N]; [apply Nat.eqb_refl|]. apply Nat.eqb_neq. intros E. apply N. apply I1; assumption. Qed.
Lemma e_pi_half z : - (Ci * RtoC (sin (PI / 2)) * cis z) = (sin z, - cos z)%R.
Proof. rewrite sin_PI2. apply Ceq; cbn; ring. Qed.

(** The new CEx on the exchanged or unchanged order of the levels. *)
Lemma kept : cx_a y = p1 a -> cx_b y = p1 b -> (p1 a < p1 b)%nat -> relabelled dc dt lt p0 p1 M M'.
Proof.
  intros Ea Eb L i j i' j' Hi Hj Hi' Hj'. destruct facts as (Hc & Ht & Hab & _ & _).
  rewrite (cex_value y M') by (try assumption; try (rewrite Ea, Eb; assumption); auto).
  rewrite (cex_value x M) by (try assumption; unfold a, b in Hab; lia).
  rewrite p0_eqb, ctrl_eq by assumption. destruct (Nat.eqb i i'); [|reflexivity]. destruct (Z.of_nat i =? cx_ctrl x)%Z.
  - rewrite Ea, Eb, YP. unfold a, b in *. rewrite !rotation_entry. rewrite !p1_eqb by lia.
    unfold mid. rewrite p1_eqb by assumption. reflexivity.
  - unfold mid. rewrite p1_eqb by assumption. reflexivity.
Qed.
Lemma turned : cx_a y = p1 b -> cx_b y = p1 a -> (p1 b < p1 a)%nat -> (relabelled dc dt lt p0 p1 M M' <-> sin (cx_phi x) = 0%R).
Proof.
  intros Ea Eb L. destruct facts as (Hc & Ht & Hab & K & _). destruct FX as (A & B & _).
  assert (V : forall i j i' j', (i < dc)%nat -> (j < dt)%nat -> (i' < dc)%nat -> (j' < dt)%nat ->
    M' (pair_index lt dc dt (p0 i) (p1 j)) (pair_index lt dc dt (p0 i') (p1 j')) = if Nat.eqb i i' then (if (Z.of_nat i =? cx_ctrl x)%Z then rotation b a PI (cx_phi x) j j' else mid j j') else C0).
  { intros i j i' j' Hi Hj Hi' Hj'. rewrite (cex_value y M') by (try assumption; try (rewrite Ea, Eb; assumption); auto).
    rewrite p0_eqb, ctrl_eq by assumption. destruct (Nat.eqb i i'); [|reflexivity]. destruct (Z.of_nat i =? cx_ctrl x)%Z.
    - rewrite Ea, Eb, YP. rewrite !rotation_entry. rewrite !p1_eqb by lia. unfold mid. rewrite p1_eqb by assumption. reflexivity.
    - unfold mid. rewrite p1_eqb by assumption. reflexivity. }
  unfold relabelled. split.
  - intros H. specialize (H (Z.to_nat (cx_ctrl x)) a (Z.to_nat (cx_ctrl x)) b K ltac:(lia) K ltac:(lia)). rewrite V in H by (trivial; lia).
    rewrite (cex_value x M) in H by (trivial; unfold a, b in *; lia). rewrite Nat.eqb_refl, Z2Nat.id, Z.eqb_refl in H by lia.
    fold a b in H. rewrite !rotation_entry in H. rewrite !Nat.eqb_refl in H. replace (Nat.eqb a b) with false in H by (symmetry; apply Nat.eqb_neq; lia).
    replace (Nat.eqb b a) with false in H by (symmetry; apply Nat.eqb_neq; lia). rewrite !e_pi_half in H. injection H as H _. rewrite sin_neg in H. lra.
  - intros S0 i j i' j' Hi Hj Hi' Hj'. rewrite V by assumption. rewrite (cex_value x M) by (try assumption; unfold a, b in Hab; lia). fold a b.
    destruct (Nat.eqb i i'); [|reflexivity]. destruct (Z.of_nat i =? cx_ctrl x)%Z; [|reflexivity]. rewrite !rotation_entry.
    destruct (Nat.eqb_spec j a) as [E1|N1], (Nat.eqb_spec j b) as [E|N2]; try lia; try reflexivity.
    + destruct (Nat.eqb_spec j' a), (Nat.eqb_spec j' b); try lia; try reflexivity. rewrite !e_pi_half, cos_neg, sin_neg, S0. f_equal. ring.
    + destruct (Nat.eqb_spec j' a), (Nat.eqb_spec j' b); try lia; try reflexivity. rewrite !e_pi_half, cos_neg, sin_neg, S0. f_equal. ring.
Qed.
(** The inverse of x is what a daggered gate stands for. *)
Lemma dag_kept : cx_a y = p1 a -> cx_b y = p1 b -> (p1 a < p1 b)%nat -> ~ relabelled dc dt lt p0 p1 (madj M) M'.
Proof.
  intros Ea Eb L H. destruct facts as (Hc & Ht & Hab & K & _). destruct FX as (A & B & _).
  assert (X := kept Ea Eb L). assert (Q := fun j j' Hj Hj' => eq_trans (eq_sym (X (Z.to_nat (cx_ctrl x)) j (Z.to_nat (cx_ctrl x)) j' K Hj K Hj')) (H (Z.to_nat (cx_ctrl x)) j (Z.to_nat (cx_ctrl x)) j' K Hj K Hj')).
  specialize (Q a b ltac:(lia) ltac:(lia)). unfold madj in Q. rewrite !(cex_value x M) in Q by (trivial; unfold a, b in *; lia). rewrite Nat.eqb_refl, Z2Nat.id, Z.eqb_refl in Q by lia.
  fold a b in Q. rewrite !rotation_entry in Q. rewrite !Nat.eqb_refl in Q. replace (Nat.eqb b a) with false in Q by (symmetry; apply Nat.eqb_neq; lia).
  rewrite !e_pi_half in Q. unfold Cconj in Q. cbn [fst snd] in Q. injection Q as Q1 Q2. rewrite sin_neg in Q1. rewrite cos_neg in Q2.
  assert (Z := sin2_cos2 (cx_phi x)). unfold Rsqr in Z. assert (sin (cx_phi x) = 0)%R by lra. assert (cos (cx_phi x) = 0)%R by lra. nra.
Qed.
Lemma dag_turned : cx_a y = p1 b -> cx_b y = p1 a -> (p1 b < p1 a)%nat -> relabelled dc dt lt p0 p1 (madj M) M' -> cos (cx_phi x) = 0%R.
Proof.
  intros Ea Eb L H. destruct facts as (Hc & Ht & Hab & K & _). destruct FX as (A & B & _).
  specialize (H (Z.to_nat (cx_ctrl x)) a (Z.to_nat (cx_ctrl x)) b K ltac:(lia) K ltac:(lia)).
  rewrite (cex_value y M') in H by (try assumption; try (rewrite Ea, Eb; assumption); try (apply P0; exact K); apply P1; lia). unfold madj in H.
  rewrite (cex_value x M) in H by (trivial; unfold a, b in *; lia). rewrite !Nat.eqb_refl, ctrl_eq in H by exact K. rewrite Z2Nat.id, Z.eqb_refl in H by lia.
  fold a b in H. rewrite Ea, Eb, YP in H. rewrite !rotation_entry in H. rewrite !p1_eqb, !Nat.eqb_refl in H by lia.
  replace (Nat.eqb a b) with false in H by (symmetry; apply Nat.eqb_neq; lia). replace (Nat.eqb b a) with false in H by (symmetry; apply Nat.eqb_neq; lia).
  rewrite !e_pi_half in H. unfold Cconj in H. cbn [fst snd] in H. injection H as H. lra.
Qed.
End Cex.

Section Physical.
Variables (sp : lgraph -> Z -> Z -> res (list Z)).
Variables (round6 : R -> R) (det : nat -> (nat -> nat -> R) -> R) (solve : nat -> (nat -> nat -> R) -> (nat -> R) -> res (list R)).
Variables (gs : list lgraph) (q0 q1 dc dt : nat) (g0 g1 : lgraph) (p0 p1 : nat -> nat).
Hypothesis G0 : pyindex gs (Z.of_nat q0) = Ok g0.
Hypothesis G1 : pyindex gs (Z.of_nat q1) = Ok g1.
Hypothesis L0 : laid_out dc g0 p0.
Hypothesis L1 : laid_out dt g1 p1.
Notation gate := (phy_ent_gate sp round6 det solve gs).
Notation lt := (Nat.ltb q0 q1).

Theorem phy_cex_ok x dag : cex_fits dc dt x ->
  exists y M M', gate (Two q0 q1 dc dt (TCex x dag)) = Ok ([ENewCex q0 q1 y], gs) /\ cex_fits dc dt y /\
    cex_array dc dt lt x = Ok M /\ cex_array dc dt lt y = Ok M' /\
    (relabelled dc dt lt p0 p1 M M' <-> (p1 (cx_a x) < p1 (cx_b x))%nat \/ sin (cx_phi x) = 0%R) /\
    (relabelled dc dt lt p0 p1 (madj M) M' -> (p1 (cx_b x) < p1 (cx_a x))%nat /\ cos (cx_phi x) = 0%R).
Proof.
  intros F. assert (F' := F). destruct F' as (A & B & C).
  assert (X0 := fun n => laid_lt dc g0 p0 n L0). assert (X1 := fun n => laid_lt dt g1 p1 n L1).
  assert (I0 := fun n m => laid_inj dc g0 p0 n m L0). assert (I1 := fun n m => laid_inj dt g1 p1 n m L1).
  set (k := Z.to_nat (cx_ctrl x)). assert (K : (k < dc)%nat) by (unfold k; lia). assert (Ek : cx_ctrl x = Z.of_nat k) by (unfold k; lia).
  unfold phy_ent_gate. cbn [tw_q0 tw_q1 tw_dc tw_dt tw_op]. rewrite G0, G1. cbn [bindr]. rewrite (lp_map_laid dc g0 p0 L0), (lp_map_laid dt g1 p1 L1). cbn [bindr].
  unfold phy_cex. rewrite Ek. rewrite !lp_at by lia. cbn [bindr].
  assert (N : p1 (cx_a x) <> p1 (cx_b x)) by (intros E; apply I1 in E; lia).
  destruct (cex_returns dc dt lt x) as (M & EM); [lia|].
  assert (Xa := X1 (cx_a x) ltac:(lia)). assert (Xb := X1 (cx_b x) ltac:(lia)). assert (Xk := X0 k K).
  destruct (Z.ltb_spec (Z.of_nat (p1 (cx_a x))) (Z.of_nat (p1 (cx_b x)))) as [O|O].
  - rewrite cex_new_accepts by (try lia; exact C). cbn [bindr]. rewrite !Nat2Z.id. set (y := Cex (p1 (cx_a x)) (p1 (cx_b x)) (Z.of_nat (p0 k)) (cx_phi x)).
    destruct (cex_returns dc dt lt y) as (M' & EM'); [cbn; lia|].
    exists y, M, M'. split; [reflexivity|]. split; [unfold cex_fits; cbn [cx_a cx_b cx_ctrl cx_phi y]; repeat split; try lia; apply C|]. split; [exact EM|]. split; [exact EM'|]. split.
    + split; [intros _; left; lia|]. intros _. eapply kept; try eassumption; try reflexivity; try lia; intros; auto.
    + intros H. exfalso. revert H. eapply dag_kept; try eassumption; try reflexivity; try lia; intros; auto.
  - rewrite cex_new_accepts by (try lia; exact C). cbn [bindr]. rewrite !Nat2Z.id. set (y := Cex (p1 (cx_b x)) (p1 (cx_a x)) (Z.of_nat (p0 k)) (cx_phi x)).
    destruct (cex_returns dc dt lt y) as (M' & EM'); [cbn; lia|].
    exists y, M, M'. split; [reflexivity|]. split; [unfold cex_fits; cbn [cx_a cx_b cx_ctrl cx_phi y]; repeat split; try lia; apply C|]. split; [exact EM|]. split; [exact EM'|]. split.
    + assert (T : relabelled dc dt lt p0 p1 M M' <-> sin (cx_phi x) = 0%R).
      { eapply turned; try eassumption; try reflexivity; try lia; intros; auto. }
      rewrite T. split; [tauto|]. intros [Q|Q]; [lia|exact Q].
    + intros H. split; [lia|]. eapply dag_turned; try eassumption; try reflexivity; try lia; intros; auto.
Qed.

Hypothesis SP : finds_shortest sp.
Hypothesis HD : exact_det det.
Hypothesis HS : exact_solve det solve.
Hypothesis HR : rounds6 round6.
Lemma perm_laid d g p : laid_out d g p -> exists P, perm_new d (map (fun n => Z.of_nat (p n)) (seq 0 d)) = Ok P /\ unitary d P.
Proof.
  intros L. set (l := map (fun n => Z.of_nat (p n)) (seq 0 d)).
  assert (Ll : List.length l = d) by (unfold l; rewrite map_length, seq_length; reflexivity).
  assert (E : perm_new d l = Ok (perm_array d (map Z.to_nat l))).
  { apply perm_new_spec. split; [|reflexivity]. intros z Hz. unfold l in Hz. apply in_map_iff in Hz. destruct Hz as (n & <- & Hn). apply in_seq in Hn.
    assert (X := laid_lt d g p n L ltac:(lia)). rewrite Ll. lia. }
  exists (perm_array d (map Z.to_nat l)). split; [exact E|]. apply (perm_accepted_unitary d l _ E Ll). unfold l.
  assert (G : forall k, NoDup k -> (forall n, In n k -> (n < d)%nat) -> NoDup (map (fun n => Z.of_nat (p n)) k)).
  { induction k as [|n k IH]; intros ND H; [constructor|]. apply NoDup_cons_iff in ND. destruct ND as [N1 N2]. cbn [map]. constructor; [|apply IH; [exact N2|intros m Hm; apply H; right; exact Hm]].
    intros Hi. apply in_map_iff in Hi. destruct Hi as (m & Em & Hm). apply N1. assert (m = n); [|congruence].
    apply (laid_inj d g p m n L); [apply H; right; exact Hm|apply H; left; reflexivity|lia]. }
  apply G; [apply seq_NoDup|]. intros n Hn. apply in_seq in Hn. lia.
Qed.
Theorem phy_list U : (q0 < q1)%nat -> (2 <= dc)%nat -> (2 <= dt)%nat -> unitary (dc * dt) U ->
  exists l gs' h0 h1, gate (Two q0 q1 dc dt (TMat U)) = Ok (map (EGate q0 q1) l, gs') /\
    log_ent_gate round6 det solve code_eps code_delta dc dt true U = Ok l /\
    pyindex gs' (Z.of_nat q0) = Ok h0 /\ no_phases h0 /\ (forall n p, placed h0 n p <-> placed g0 n p) /\
    pyindex gs' (Z.of_nat q1) = Ok h1 /\ no_phases h1 /\ (forall n p, placed h1 n p <-> placed g1 n p).
Proof.
  intros Lt D1 D2 HU. destruct (perm_laid dc g0 p0 L0) as (A & EA & UA). destruct (perm_laid dt g1 p1 L1) as (B & EB & UB).
  destruct (emitted_ok round6 det solve HD HS HR dc dt U D1 D2 HU) as (l & El & _).
  unfold phy_ent_gate. cbn [tw_q0 tw_q1 tw_dc tw_dt tw_op]. rewrite G0, G1. cbn [bindr]. rewrite (lp_map_laid dc g0 p0 L0), (lp_map_laid dt g1 p1 L1). cbn [bindr].
  rewrite EA, EB. cbn [bindr].
  set (z0 := Z.of_nat q0) in *. set (z1 := Z.of_nat q1) in *.
  assert (NI : forall gs : list lgraph, (norm_index (List.length gs) z0 =? norm_index (List.length gs) z1)%Z = false).
  { intros k. apply Z.eqb_neq. unfold norm_index, z0, z1. destruct (Z.ltb_spec (Z.of_nat q0) 0), (Z.ltb_spec (Z.of_nat q1) 0); lia. }
  assert (NI' : forall gs : list lgraph, (norm_index (List.length gs) z1 =? norm_index (List.length gs) z0)%Z = false) by (intros k; rewrite Z.eqb_sym; apply NI).
  destruct (phy_transpile_gate_ok sp gs z0 dc A g0 SP G0 (lo_routable _ _ _ L0) (laid_covers _ _ _ L0) UA) as (l1 & o1 & h0 & E1 & _ & _ & _ & _ & _ & R0 & C0' & N0 & W0 & _).
  rewrite E1. cbn [bindr snd].
  assert (H1 : pyindex (put_graph gs z0 h0) z1 = Ok g1) by (rewrite (put_get gs z0 h0 g0 z1 g1 G0 G1), NI; reflexivity).
  assert (H0 : pyindex (put_graph gs z0 h0) z0 = Ok h0) by (rewrite (put_get gs z0 h0 g0 z0 g0 G0 G0), Z.eqb_refl; reflexivity).
  destruct (phy_transpile_gate_ok sp _ z1 dt B g1 SP H1 (lo_routable _ _ _ L1) (laid_covers _ _ _ L1) UB) as (l2 & o2 & h1 & E2 & _ & _ & _ & _ & _ & R1 & C1' & N1 & W1 & _).
  rewrite E2. cbn [bindr snd]. set (gs2 := put_graph (put_graph gs z0 h0) z1 h1) in *.
  assert (K0 : pyindex gs2 z0 = Ok h0) by (unfold gs2; rewrite (put_get _ z1 h1 g1 z0 h0 H1 H0), NI'; reflexivity).
  assert (K1 : pyindex gs2 z1 = Ok h1) by (unfold gs2; rewrite (put_get _ z1 h1 g1 z1 g1 H1 H1), Z.eqb_refl; reflexivity).
  destruct (phy_transpile_gate_ok sp gs2 z0 dc (madj A) h0 SP K0 R0 C0' (unitary_adj _ _ UA)) as (l3 & o3 & k0 & E3 & _ & _ & _ & _ & _ & R2 & C2' & N2 & W2 & _).
  rewrite E3. cbn [bindr snd]. 
  assert (J1 : pyindex (put_graph gs2 z0 k0) z1 = Ok h1) by (rewrite (put_get gs2 z0 k0 h0 z1 h1 K0 K1), NI; reflexivity).
  assert (J0 : pyindex (put_graph gs2 z0 k0) z0 = Ok k0) by (rewrite (put_get gs2 z0 k0 h0 z0 h0 K0 K0), Z.eqb_refl; reflexivity).
  destruct (phy_transpile_gate_ok sp _ z1 dt (madj B) h1 SP J1 R1 C1' (unitary_adj _ _ UB)) as (l4 & o4 & k1 & E4 & _ & _ & _ & _ & _ & _ & _ & N3 & W3 & _).
  rewrite E4. cbn [bindr snd]. unfold ent_transpile_gate. cbn [two_matrix tw_op bindr tw_dc tw_dt tw_q0 tw_q1]. rewrite (proj2 (Nat.ltb_lt _ _) Lt), El. cbn [bindr].
  eexists _, _, k0, k1. split; [reflexivity|]. split; [reflexivity|]. split; [rewrite (put_get _ z1 k1 h1 z0 k0 J1 J0), NI'; reflexivity|]. split; [exact N2|].
  split; [intros n p; rewrite W2; apply W0|]. split; [rewrite (put_get _ z1 k1 h1 z1 h1 J1 J1), Z.eqb_refl; reflexivity|]. split; [exact N3|]. intros n p. rewrite W3. apply W1.
Qed.
End Physical.

(** *** Cases *)
Lemma pair_laid : laid_out 2 pair_graph (fun n => n).
Proof.
  constructor; [apply pair_routable|reflexivity|]. intros n Hn. apply (has_attr_alook pair_graph (rt_wf _ _ pair_routable)). destruct n as [|[|n]]; [reflexivity|reflexivity|lia].
Qed.
Lemma swapped_routable : routable 2 swapped_pair.
Proof.
  unfold swapped_pair. routable_case. apply new_graph_spec; [apply nodup_check; vm_compute; reflexivity|discriminate|reflexivity|apply good_edgesb_ok; vm_compute; reflexivity].
Qed.
Lemma swapped_laid : laid_out 2 swapped_pair (fun n => (1 - n)%nat).
Proof.
  constructor; [apply swapped_routable|reflexivity|]. intros n Hn. apply (has_attr_alook swapped_pair (rt_wf _ _ swapped_routable)). destruct n as [|[|n]]; [reflexivity|reflexivity|lia].
Qed.

Theorem mapping_ignored sp round6 det solve : finds_shortest sp -> exact_det det -> exact_solve det solve -> rounds6 round6 ->
  exists l gs', phy_ent_gate sp round6 det solve [pair_graph; swapped_pair] (Two 0 1 2 2 (TMat flip1)) = Ok (map (EGate 0 1) l, gs') /\
    forall V g, relabelled 2 2 true (fun n => n) (fun n => 1 - n)%nat flip1 V -> ~ close 4 (1 / 2) (circuit_op 2 2 l) (with_phase g V).
Proof.
  intros SP HD HS HR. assert (HU : unitary 4 flip1) by (apply mdiag_unitary; intros i _; destruct (Nat.eqb i 1); unfold Cnorm2; cbn; ring).
  destruct (phy_list sp round6 det solve [pair_graph; swapped_pair] 0 1 2 2 pair_graph swapped_pair _ _ eq_refl eq_refl pair_laid swapped_laid SP HD HS HR flip1 ltac:(lia) ltac:(lia) ltac:(lia) HU)
    as (l & gs' & h0 & h1 & E & El & _).
  exists l, gs'. split; [exact E|]. intros V g HV H.
  destruct (emitted_ok round6 det solve HD HS HR 2 2 flip1 ltac:(lia) ltac:(lia) HU) as (l' & El' & G & C).
  assert (l = map set_dag (rev l')) by congruence. subst l. destruct G as (_ & _ & G). destruct (C (G eq_refl eq_refl)) as (gam & Cl). clear C G.
  change (2 * 2)%nat with 4%nat in Cl. assert (S4 := ent_error_small 4 ltac:(lia)).
  assert (A := Cl 0%nat 0%nat ltac:(lia) ltac:(lia)). assert (B := Cl 2%nat 2%nat ltac:(lia) ltac:(lia)).
  assert (A' := H 0%nat 0%nat ltac:(lia) ltac:(lia)). assert (B' := H 2%nat 2%nat ltac:(lia) ltac:(lia)).
  unfold with_phase in *. 
  assert (V0 : V 0%nat 0%nat = - C1) by exact (HV 0%nat 1%nat 0%nat 1%nat ltac:(lia) ltac:(lia) ltac:(lia) ltac:(lia)).
  assert (V2 : V 2%nat 2%nat = C1) by exact (HV 1%nat 1%nat 1%nat 1%nat ltac:(lia) ltac:(lia) ltac:(lia) ltac:(lia)).
  rewrite V0 in A'. rewrite V2 in B'. change (flip1 0%nat 0%nat) with C1 in A. change (flip1 2%nat 2%nat) with C1 in B.
  set (a := circuit_op 2 2 (map set_dag (rev l')) 0%nat 0%nat) in *. set (b := circuit_op 2 2 (map set_dag (rev l')) 2%nat 2%nat) in *.
  assert (SY : forall x y, Cmod (Csub x y) = Cmod (Csub y x)) by (intros x y; unfold Cmod, Cnorm2, Csub, Cadd, Copp; cbn; f_equal; ring).
  assert (I4 : INR 4 = 4%R) by (cbn; ring). rewrite I4 in A, B.
  assert (T : (Cmod (RtoC 2 * cis g) <= 1 + 24 / 10000)%R).
  { replace (RtoC 2 * cis g) with ((Csub (cis g * C1) b + Csub b (cis gam * C1)) + (Csub (cis gam * C1) a + Csub a (cis g * - C1))).
    - refine (Rle_trans _ _ _ (Cmod_triangle _ _) _).
      assert (T1 := Cmod_triangle (Csub (cis g * C1) b) (Csub b (cis gam * C1))).
      assert (T2 := Cmod_triangle (Csub (cis gam * C1) a) (Csub a (cis g * - C1))).
      rewrite (SY (cis g * C1) b) in T1. rewrite (SY (cis gam * C1) a) in T2. lra.
    - apply Ceq; cbn; ring. }
  rewrite Cmod_mul, Cmod_cis, Cmod_RtoC in T by lra. lra.
Qed.
Lemma flip1_unitary : unitary 4 flip1.
Proof. apply mdiag_unitary. intros i _. destruct (Nat.eqb i 1); unfold Cnorm2; cbn; ring. Qed.
Lemma two_ok_case g : In (ETwo g) [EOther 3; ETwo (Two 1 4 2 3 (TMat mid)); ETwo (Two 0 2 4 2 (TCex (Cex 0 1 3 0) true))] -> two_ok g.
Proof.
  intros [H|[H|[H|[]]]]; [discriminate| |]; injection H as <-; unfold two_ok; cbn [tw_q0 tw_q1 tw_dc tw_dt].
  - split; [lia|]. split; [lia|]. split; [lia|]. eexists. split; [reflexivity|]. apply unitary_id.
  - split; [lia|]. split; [lia|]. split; [lia|]. destruct (cex_returns 4 2 true (Cex 0 1 3 0)) as (M & E); [cbn; lia|].
    exists (madj M). split; [unfold two_matrix; cbn [tw_op tw_q0 tw_q1 tw_dc tw_dt]; change (Nat.ltb 0 2) with true; rewrite E; reflexivity|]. apply unitary_adj.
    apply (cex_unitary 4 2 true (Cex 0 1 3 0) M); try exact E; cbn; lia.
Qed.
