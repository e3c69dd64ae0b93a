(** The physical QR decomposition and the passes built on both decompositions. *)
From Coq Require Import Reals Lra Lia List Arith ZArith.
From Verif.Base Require Import Py PyFacts Cplx Matrix Angle.
From Verif.Gates Require Import AnglesModel AnglesSpec AnglesProofs SingleModel SingleSpec SingleProofs.
From Verif.Levels Require Import LevelsModel LevelsSpec GraphProofs LevelsProofs RouteProofs PhaseProofs.
From Verif.Sim Require Import TnSpec.
From Verif.Local Require Import QrModel QrSpec QrMath QrCore PulseProofs QrMoved QrEmit QrProofs.
Import ListNotations.
Local Open Scope string_scope.
Local Open Scope list_scope.
Local Open Scope nat_scope.

Lemma on_device_moved d g U V : routable d g -> covers d g -> (on_device d g U V <-> moved d (lpf g) U V).
Proof.
  intros RT CV. split.
  - intros H i j Hi Hj. apply H; trivial; apply (lpf_placed d g RT CV); assumption.
  - intros H n m p q Hn Hm Hp Hq. apply (placed_lpf d g RT CV) in Hp, Hq; trivial. apply Nat2Z.inj in Hp, Hq. subst. apply H; assumption.
Qed.
Lemma on_device_exists d g U : routable d g -> covers d g -> exists V, on_device d g U V.
Proof.
  intros RT CV. exists (fun p q => U (unlp d (lpf g) p) (unlp d (lpf g) q)). apply (on_device_moved d g _ _ RT CV). intros i j Hi Hj.
  rewrite !unlp_lp by (trivial; apply lpf_inj; assumption). reflexivity.
Qed.

Lemma Cmod_conj z : Cmod (Cconj z) = Cmod z.
Proof. unfold Cmod. rewrite Cnorm2_conj. reflexivity. Qed.
Lemma close_adj d e A B : close d e A B -> close d e (madj A) (madj B).
Proof.
  intros H i j Hi Hj. unfold madj. replace (Csub (Cconj (A j i)) (Cconj (B j i))) with (Cconj (Csub (A j i) (B j i))) by (apply Ceq; cbn; ring).
  rewrite Cmod_conj. apply H; assumption.
Qed.
Lemma Cmod_csum n f : (Cmod (csum n f) <= rsum n (fun k => Cmod (f k)))%R.
Proof.
  induction n as [|n IH]; cbn; [rewrite (proj2 (Cmod_0 C0)) by reflexivity; lra|]. eapply Rle_trans; [apply Cmod_triangle|]. lra.
Qed.
Lemma unitary_mod d A i j : unitary d A -> i < d -> j < d -> (Cmod (A i j) <= 1)%R.
Proof.
  intros HU Hi Hj. apply Cmod_le; [lra|]. rewrite Rmult_1_r. apply (unitary_entry d A i j HU Hi Hj).
Qed.
(** N V near the identity makes the adjoint of N near V. *)
Lemma close_inverse d e N V : unitary d N -> (0 <= e)%R -> close d e (mmul d N V) mid -> close d (INR d * e) (madj N) V.
Proof.
  intros HN He H i j Hi Hj.
  assert (E : Csub (madj N i j) (V i j) = Copp (mmul d (madj N) (fun a b => Csub (mmul d N V a b) (mid a b)) i j)).
  { assert (X : mmul d (madj N) (fun a b => Csub (mmul d N V a b) (mid a b)) i j = Csub (mmul d (madj N) (mmul d N V) i j) (mmul d (madj N) mid i j)).
    { unfold mmul. unfold Csub. rewrite <- csum_opp, <- csum_add. apply csum_ext. intros k Hk. ring. }
    rewrite X. rewrite (mmul_id_r d (madj N) i j Hi Hj).
    rewrite <- (mmul_assoc d (madj N) N V i j Hi Hj).
    rewrite (mmul_ext d _ mid V V (proj1 HN) (meq_refl d V) i j Hi Hj), (mmul_id_l d V i j Hi Hj). unfold Csub. ring. }
  rewrite E. replace (Cmod (Copp (mmul d (madj N) (fun a b => Csub (mmul d N V a b) (mid a b)) i j)))
    with (Cmod (mmul d (madj N) (fun a b => Csub (mmul d N V a b) (mid a b)) i j)) by (unfold Cmod, Cnorm2, Copp; cbn; f_equal; ring).
  unfold mmul at 1. eapply Rle_trans; [apply Cmod_csum|]. rewrite <- rsum_const. apply rsum_le. intros k Hk.
  rewrite Cmod_mul. assert (A := unitary_mod d _ i k (unitary_adj d N HN) Hi Hk). assert (B := H k j Hk Hj).
  assert (C := Cmod_nonneg (madj N i k)). assert (D := Cmod_nonneg (Csub (mmul d N V k j) (mid k j))). nra.
Qed.
(** ... and L U near the identity makes L near the adjoint of U. *)
Lemma close_inverse_r d e L U : unitary d U -> (0 <= e)%R -> close d e (mmul d L U) mid -> close d (INR d * e) L (madj U).
Proof.
  intros HU He H i j Hi Hj.
  assert (E : Csub (L i j) (madj U i j) = mmul d (fun a b => Csub (mmul d L U a b) (mid a b)) (madj U) i j).
  { assert (X : mmul d (fun a b => Csub (mmul d L U a b) (mid a b)) (madj U) i j = Csub (mmul d (mmul d L U) (madj U) i j) (mmul d mid (madj U) i j)).
    { unfold mmul at 1 3 5. unfold Csub. rewrite <- csum_opp, <- csum_add. apply csum_ext. intros k Hk. ring. }
    rewrite X. rewrite (mmul_id_l d (madj U) i j Hi Hj).
    rewrite (mmul_assoc d L U (madj U) i j Hi Hj).
    rewrite (mmul_ext d L L _ mid (meq_refl d L) (proj2 HU) i j Hi Hj), (mmul_id_r d L i j Hi Hj). reflexivity. }
  rewrite E. unfold mmul at 1. eapply Rle_trans; [apply Cmod_csum|]. rewrite <- rsum_const. apply rsum_le. intros k Hk.
  rewrite Cmod_mul. assert (A := unitary_mod d _ k j (unitary_adj d U HU) Hk Hj). assert (B := H i k Hi Hk).
  assert (C := Cmod_nonneg (madj U k j)). assert (D := Cmod_nonneg (Csub (mmul d L U i k) (mid i k))). nra.
Qed.
Lemma qr_error_nonneg eps delta d : (0 <= eps)%R -> (0 <= delta)%R -> (0 <= qr_error eps delta d)%R.
Proof.
  intros A B. unfold qr_error. assert (X := pos_INR d). assert (0 <= INR d * eps)%R by (apply Rmult_le_pos; assumption). nra.
Qed.

(** The virtual rotations for stored phases. *)
Lemma flushed_moved delta d g : routable d g -> covers d g -> forall k, k <= d ->
  moved d (lpf g) (mdiag (fun i => if Nat.ltb i k then (if Rlt_dec delta (Rabs (turned g i)) then cis (- turned g i) else C1) else C1))
    (ops_matrix d (flat_map (flushed delta d g (fun i => Some (AInt (Z.of_nat (lpf g i))))) (seq 0 k))).
Proof.
  intros RT CV. assert (Lin := lpf_in d g RT CV). assert (Inj := lpf_inj d g RT CV).
  induction k as [|k IH]; intros Hk.
  - apply (moved_ext d _ Lin mid mid); [|apply meq_refl|apply (moved_id d _ Inj)].
    intros i j Hi Hj. unfold mdiag, mid. destruct (Nat.eqb i j); reflexivity.
  - rewrite seq_S, flat_map_app. cbn [flat_map plus]. rewrite app_nil_r. specialize (IH ltac:(lia)).
    set (h := fun i => if Rlt_dec delta (Rabs (turned g i)) then cis (- turned g i) else C1) in *.
    assert (DE : meq d (mmul d (mdiag (fun i => if Nat.eqb i k then h k else C1)) (mdiag (fun i => if Nat.ltb i k then h i else C1)))
              (mdiag (fun i => if Nat.ltb i (S k) then h i else C1))).
    { eapply meq_trans; [apply mdiag_mul|]. intros i j Hi Hj. unfold mdiag. destruct (Nat.eqb_spec i j) as [->|]; [|reflexivity].
      destruct (Nat.eqb_spec j k) as [->|N].
      - rewrite (proj2 (Nat.ltb_ge k k)), (proj2 (Nat.ltb_lt k (S k))) by lia. apply Ceq; cbn; ring.
      - destruct (Nat.ltb_spec j k); [rewrite (proj2 (Nat.ltb_lt j (S k))) by lia|rewrite (proj2 (Nat.ltb_ge j (S k))) by lia]; apply Ceq; cbn; ring. }
    apply (moved_ext d _ Lin _ _ _ _ DE (meq_sym _ _ _ (ops_app d _ _))). apply moved_mul; trivial.
    unfold flushed, h. destruct (Rlt_dec delta (Rabs (turned g k))) as [Y|Y].
    + assert (B := Lin k ltac:(lia)). unfold virtrz_params.
      rewrite (proj2 (Z.leb_le 0 (Z.of_nat (lpf g k)))), (proj2 (Z.ltb_lt (Z.of_nat (lpf g k)) (Z.of_nat d))), Nat2Z.id by lia. cbn [andb].
      apply (moved_ext d _ Lin (mdiag (fun i => if Nat.eqb i k then cis (- turned g k) else C1)) (op_matrix d (OV (Some (lpf g k, regulate_theta (turned g k))))));
        [apply meq_refl|apply meq_sym, ops_one|]. apply virtrz_moved; trivial.
    + apply (moved_ext d _ Lin mid mid); [|apply meq_refl|apply (moved_id d _ Inj)].
      intros i j Hi Hj. unfold mdiag, mid. destruct (Nat.eqb i j), (Nat.eqb i k); reflexivity.
Qed.
Lemma flushed_phases delta d g f : (0 <= delta)%R -> routable d g -> covers d g -> pending g f ->
  let M := ops_matrix d (flat_map (flushed delta d g (fun i => Some (AInt (Z.of_nat (lpf g i))))) (seq 0 d)) in
  unitary d M /\ exists h, meq d M (mdiag h) /\ forall l, l < d -> Cnorm2 (h l) = 1%R /\ (Cmod (Csub (h l) (cis (- f l))) <= delta)%R.
Proof.
  intros D0 RT CV PF M. assert (Lin := lpf_in d g RT CV). assert (Inj := lpf_inj d g RT CV).
  assert (MV := flushed_moved delta d g RT CV d (le_n d)). fold M in MV.
  set (h := fun i => if Rlt_dec delta (Rabs (turned g i)) then cis (- turned g i) else C1) in *.
  set (h' := fun p => h (unlp d (lpf g) p)).
  assert (ME : meq d M (mdiag h')).
  { eapply (moved_fun d (lpf g) Lin Inj); [exact MV|]. apply (moved_diag d _ Inj). intros i Hi. unfold h'. rewrite unlp_lp by trivial.
    rewrite (proj2 (Nat.ltb_lt i d)) by exact Hi. reflexivity. }
  assert (N1 : forall i, Cnorm2 (h i) = 1%R).
  { intros i. unfold h. destruct (Rlt_dec delta (Rabs (turned g i))); [apply Cnorm2_cis|unfold Cnorm2; cbn; ring]. }
  split.
  - eapply unitary_ext; [apply meq_sym; exact ME|]. apply mdiag_unitary. intros i _. apply N1.
  - exists h'. split; [exact ME|]. intros l Hl. split; [apply N1|].
    destruct (image d (lpf g) Lin Inj l Hl) as (i & Hi & <-). unfold h'. rewrite unlp_lp by trivial.
    rewrite (pending_stored d g f i RT CV Hi PF), <- cis_turned. unfold h.
    destruct (Rlt_dec delta (Rabs (turned g i))) as [Y|Y].
    + replace (Csub (cis (- turned g i)) (cis (- turned g i))) with C0 by (unfold Csub; ring). rewrite (proj2 (Cmod_0 C0)) by reflexivity. exact D0.
    + assert (X := cis_near (- turned g i)). rewrite Rabs_Ropp in X.
      replace (Cmod (Csub C1 (cis (- turned g i)))) with (Cmod (Csub (cis (- turned g i)) C1)) by (unfold Cmod, Cnorm2, Csub, Cadd, Copp; cbn; f_equal; ring).
      lra.
Qed.

Lemma no_phases_stored d g n : routable d g -> no_phases g -> stored g n = 0%R.
Proof.
  intros RT NP. unfold stored. destruct (node_attr g (Z.of_nat n) "phase_storage") as [v|e] eqn:EA; [|reflexivity].
  assert (H : has_attr g (Z.of_nat n) "phase_storage" v).
  { apply (has_attr_alook g (rt_wf d g RT)). unfold node_attr, node_attrs in EA. unfold alook.
    destruct (nget (nd g) (Z.of_nat n)) as [a|]; cbn in EA; [|discriminate]. destruct (aget a "phase_storage"); cbn in EA; [|discriminate].
    congruence. }
  destruct (num v) as [x|] eqn:EN; [|reflexivity]. eapply NP; eassumption.
Qed.

Theorem phy_execute_ok sp eps delta z nsa d U g : finds_shortest sp -> routable d g -> covers d g -> unitary d U -> (0 <= eps)%R -> (0 <= delta)%R ->
  (z = false \/ no_phases g) ->
  exists ops0 new alg tot g', phy_execute sp eps delta z nsa d U g = Ok (ops0 ++ new, alg, tot, g') /\
    unitary d (ops_matrix d new) /\
    (forall V, on_device d g U V -> close d (qr_error eps delta d) (mmul d (ops_matrix d new) V) mid) /\
    (z = false -> ops0 = flat_map (flushed delta d g (fun i => Some (AInt (Z.of_nat (lpf g i))))) (seq 0 d)) /\
    (no_phases g -> ops0 = []) /\ List.length ops0 <= d /\
    Forall (native g) (ops0 ++ new) /\ 2 * List.length new <= d * (d - 1) * (2 * d - 3) + 2 * d /\
    routable d g' /\ same_but_phases d g g' /\ (z = true -> g' = g) /\
    (z = false -> forall n v, has_attr g n "phase_storage" v ->
       has_attr g' n "phase_storage" (if nsa then AFlt (turned g (Z.to_nat n)) else AInt 0)) /\
    (z = false -> nsa = false -> no_phases g').
Proof.
  intros SP RT CV HU E0 D0 HZ. assert (Lin := lpf_in d g RT CV). assert (Inj := lpf_inj d g RT CV).
  destruct (execute_ok eps delta d g phy_level (fun i => Some (AInt (Z.of_nat (lpf g i)))) (lpf g) (native g) (2 * d - 3)
    (phy_step sp eps) (phy_phase delta) z nsa U RT CV) as (ops0 & new & X & alg & tot & g' & E & F & L & M & T & C & Z1 & Z2 & R' & S' & Z3 & Z4 & Z5); trivial.
  - intros g1 i R1 C1 S1 Hi. unfold phy_level. rewrite (node_attr_ok d g1 R1 _ _ _ (lpf_placed d g1 R1 C1 i Hi)). cbn [bindr].
    rewrite (sb_lpf d g g1 i RT R1 CV S1 Hi). reflexivity.
  - intros g1 R1 C1 S1 H1. assert (NP : no_phases g1).
    { destruct H1 as [[-> ->]|H1]; [|exact H1]. destruct HZ as [HZ|HZ]; [discriminate|exact HZ]. }
    assert (LE : forall n, n < d -> lpf g1 n = lpf g n) by (intros n Hn; apply (sb_lpf d g g1 n RT R1 CV S1 Hn)).
    split.
    + intros s r c Hr Hc. destruct (phy_step_good sp eps d g1 SP R1 C1 NP s r c Hr Hc) as (s' & nw & X & A1 & A2 & A3 & A4 & A5 & A6 & A7 & A8).
      exists s', nw, X. split; [exact A1|]. split; [exact A2|]. split; [exact A3|]. split.
      { eapply Forall_impl; [|exact A4]. intros o. apply (sb_native d g g1 o (rt_wf d g RT) (rt_wf d g1 R1) S1). }
      split; [exact A5|]. split; [|auto]. intros i j Hi Hj. rewrite <- !LE by assumption. apply A6; assumption.
    + intros u ops i Hi. rewrite (phy_phase_good delta d g1 R1 C1 u ops i Hi). rewrite LE by exact Hi. reflexivity.
  - intros p. exact Logic.I.
  - exists ops0, new, alg, tot, g'. split; [exact E|]. split; [apply (moved_unitary d (lpf g) Lin Inj X); assumption|].
    split; [|split; [exact Z2|split; [|split; [|split; [|split; [|auto]]]]]].
    + intros V HV. apply (on_device_moved d g U V RT CV) in HV.
      apply (moved_close d (lpf g) Lin Inj _ (mmul d X U) mid); [apply moved_mul; assumption|apply (moved_id d _ Inj)|exact C].
    + intros NP. destruct z; [apply Z1; reflexivity|]. rewrite Z2 by reflexivity. apply flat_map_nil. intros n _. unfold flushed.
      rewrite turned_0 by (apply (no_phases_stored d); assumption). rewrite Rabs_R0. destruct (Rlt_dec delta 0); [lra|reflexivity].
    + destruct z; [rewrite Z1 by reflexivity; cbn; lia|rewrite Z2 by reflexivity; apply flushed_length].
    + apply Forall_app. split; [|exact F]. apply Forall_forall. intros o H. destruct z; [rewrite Z1 in H by reflexivity; destruct H|].
      rewrite Z2 in H by reflexivity. apply in_flat_map in H. destruct H as (i & _ & H). unfold flushed in H.
      destruct (Rlt_dec delta (Rabs (turned g i))); [|destruct H]. destruct H as [<-|[]]. exact Logic.I.
    + assert (V := visits_length d). rewrite <- V. lia.
Qed.

Lemma code_pos : (0 <= code_eps)%R /\ (0 <= code_delta)%R.
Proof. unfold code_eps, code_delta. lra. Qed.

(** *** The passes *)
Theorem log_transpile_gate_ok sp gs line d U g : finds_shortest sp -> pyindex gs line = Ok g -> routable d g -> covers d g -> unitary d U ->
  exists l gs', log_transpile_gate sp gs line d U = Ok (l, gs') /\
    close d (INR d * qr_error code_eps code_delta d) (circuit_matrix d l) (madj U) /\
    2 * List.length l <= d * (d - 1) + 4 * d.
Proof.
  intros SP EG RT CV HU. destruct code_pos as [E0 D0].
  destruct (log_execute_ok sp code_eps code_delta false false d U g SP RT CV HU E0 D0) as (ops & alg & tot & g' & E & C & T & _ & L & _).
  unfold log_transpile_gate. rewrite EG. cbn [bindr]. rewrite E. cbn [bindr]. eexists _, _. split; [reflexivity|]. split; [|rewrite map_length; exact L].
  apply (close_inverse_r d _ (ops_matrix d ops) U HU); [apply qr_error_nonneg; assumption|exact C].
Qed.
