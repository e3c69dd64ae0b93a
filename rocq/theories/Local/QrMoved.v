(** Operators of the logical levels moved onto the physical levels, and the conjugation of a rotation by
    the routing pulses. *)
From Coq Require Import Reals Lra Lia List Arith ZArith.
From Verif.Base Require Import Py PyFacts Cplx Matrix.
From Verif.Gates Require Import AnglesModel AnglesProofs SingleModel SingleSpec SingleProofs.
From Verif.Noise Require Import ChannelProofs.
From Verif.Levels Require Import LevelsModel LevelsSpec GraphProofs LevelsProofs RouteProofs PhaseProofs.
From Verif.Sim Require Import TnSpec.
From Verif.Local Require Import QrModel QrSpec QrMath QrCore PulseProofs.
Import ListNotations.
Local Open Scope C_scope.

Lemma two_level_cols d a b x y z w M i j : (a < d)%nat -> (b < d)%nat -> a <> b -> (j < d)%nat ->
  mmul d M (two_level a b x y z w) i j =
    if Nat.eqb j a then M i a * x + M i b * z else if Nat.eqb j b then M i a * y + M i b * w else M i j.
Proof.
  intros Ha Hb Hab Hj. unfold mmul. destruct (Nat.eqb_spec j a) as [->|Na]; [|destruct (Nat.eqb_spec j b) as [->|Nb]].
  - rewrite (csum_pair d _ a b Ha Hb Hab).
    + unfold two_level. rewrite !Nat.eqb_refl. rewrite (proj2 (Nat.eqb_neq b a)) by auto. ring.
    + intros k Hk N1 N2. unfold two_level, mid. rewrite (proj2 (Nat.eqb_neq k a)), (proj2 (Nat.eqb_neq k b)) by auto. ring.
  - rewrite (csum_pair d _ a b Ha Hb Hab).
    + unfold two_level. rewrite !Nat.eqb_refl. rewrite (proj2 (Nat.eqb_neq b a)) by auto. ring.
    + intros k Hk N1 N2. unfold two_level, mid. rewrite (proj2 (Nat.eqb_neq k a)), (proj2 (Nat.eqb_neq k b)) by auto. ring.
  - rewrite (csum_single d _ j Hj).
    + unfold two_level, mid. rewrite (proj2 (Nat.eqb_neq j a)), (proj2 (Nat.eqb_neq j b)), Nat.eqb_refl by auto. ring.
    + intros k Hk N. unfold two_level, mid. rewrite (proj2 (Nat.eqb_neq j a)), (proj2 (Nat.eqb_neq j b)) by auto.
      rewrite (proj2 (Nat.eqb_neq k j)) by auto. destruct (Nat.eqb k a); [ring|]. destruct (Nat.eqb k b); ring.
Qed.

(** A unit entry in a unitary is alone in its column. *)
Lemma alone_in_column d A p q i : unitary d A -> (p < d)%nat -> (q < d)%nat -> (i < d)%nat -> Cnorm2 (A p q) = 1%R -> i <> p -> A i q = C0.
Proof.
  intros U Hp Hq Hi E N. assert (X := unitary_col d A q U Hq).
  assert (Y : (rsum d (fun k => if Nat.eqb k p then Cnorm2 (A k q) else 0) + rsum d (fun k => if Nat.eqb k i then Cnorm2 (A k q) else 0) <= rsum d (fun k => Cnorm2 (A k q)))%R).
  { rewrite <- rsum_add. apply rsum_le. intros k Hk. assert (Z := Cnorm2_nonneg (A k q)).
    destruct (Nat.eqb_spec k p); destruct (Nat.eqb_spec k i); try congruence; lra. }
  rewrite !rsum_pick in Y by assumption. assert (Z := Cnorm2_nonneg (A i q)).
  apply Cnorm2_0. lra.
Qed.

(** Sandwiched between the pulses and their inverse, a rotation on the levels x, y acts on the levels x, q. *)
Lemma conjugated d P x y q s t f : unitary d P -> (x < d)%nat -> (y < d)%nat -> (q < d)%nat -> x <> y -> x <> q -> (s = 1 \/ s = -1)%R ->
  row_is d P x 1 x -> row_is d P y s q ->
  meq d (mmul d (madj P) (mmul d (rotation x y (s * t) f) P)) (rotation x q t f).
Proof.
  intros U Hx Hy Hq Nxy Nxq Hs Rx Ry.
  assert (E : meq d (mmul d (rotation x y (s * t) f) P) (mmul d P (rotation x q t f))).
  { intros i j Hi Hj. unfold rotation. rewrite two_level_rows, two_level_cols by assumption.
    assert (Cx : forall i, (i < d)%nat -> i <> x -> P i x = C0).
    { intros k Hk N. apply (alone_in_column d P x x k U); trivial. rewrite (Rx x Hx), Nat.eqb_refl. unfold Cnorm2. cbn. ring. }
    assert (Cq : forall i, (i < d)%nat -> i <> y -> P i q = C0).
    { intros k Hk N. apply (alone_in_column d P y q k U); trivial. rewrite (Ry q Hq), Nat.eqb_refl. unfold Cnorm2. cbn.
      destruct Hs as [->| ->]; ring. }
    assert (CS : cos (s * t / 2) = cos (t / 2) /\ sin (s * t / 2) = (s * sin (t / 2))%R).
    { destruct Hs as [->| ->].
      - replace (1 * t / 2)%R with (t / 2)%R by field. split; ring.
      - replace (-1 * t / 2)%R with (- (t / 2))%R by field. rewrite cos_neg, sin_neg. split; ring. }
    destruct CS as [-> ->]. rewrite RtoC_mul.
    assert (SS : RtoC s * RtoC s = C1) by (rewrite <- RtoC_mul, <- RtoC_1; f_equal; destruct Hs as [->| ->]; ring).
    destruct (Nat.eqb_spec i x) as [->|Ix]; [|destruct (Nat.eqb_spec i y) as [->|Iy]].
    - rewrite !(Rx _) by assumption. rewrite (Ry _) by assumption. rewrite Nat.eqb_refl, RtoC_1.
      replace (Nat.eqb q x) with false by (symmetry; apply Nat.eqb_neq; auto).
      destruct (Nat.eqb_spec j x) as [->|]; [|destruct (Nat.eqb_spec j q) as [->|]]; try ring.
      + replace (Nat.eqb x q) with false by (symmetry; apply Nat.eqb_neq; auto). ring.
      + transitivity (- (Ci * RtoC (sin (t / 2)) * cis (- f)) * (RtoC s * RtoC s)); [ring|]. rewrite SS. ring.
    - rewrite !(Ry _) by assumption. rewrite (Rx _) by assumption. rewrite Nat.eqb_refl, RtoC_1.
      replace (Nat.eqb x q) with false by (symmetry; apply Nat.eqb_neq; auto).
      destruct (Nat.eqb_spec j x) as [->|]; [|destruct (Nat.eqb_spec j q) as [->|]]; try ring.
      replace (Nat.eqb x q) with false by (symmetry; apply Nat.eqb_neq; auto). ring.
    - rewrite (Cx i), (Cq i) by assumption.
      destruct (Nat.eqb_spec j x) as [->|]; [rewrite (Cx i) by assumption; ring|].
      destruct (Nat.eqb_spec j q) as [->|]; [rewrite (Cq i) by assumption; ring|]. reflexivity. }
  eapply meq_trans; [apply mmul_ext; [apply meq_refl|exact E]|].
  eapply meq_trans; [apply meq_sym, mmul_assoc|].
  eapply meq_trans; [apply mmul_ext; [apply U|apply meq_refl]|]. apply mmul_id_l.
Qed.

(** *** Moving operators along an injection of the levels *)
Section Moved.
  Variables (d : nat) (lp : nat -> nat).
  Hypothesis Lin : forall n, (n < d)%nat -> (lp n < d)%nat.
  Hypothesis Inj : forall n m, (n < d)%nat -> (m < d)%nat -> lp n = lp m -> n = m.

  Definition unlp (p : nat) : nat := List.hd 0%nat (filter (fun n => Nat.eqb (lp n) p) (seq 0 d)).
  Lemma image p : (p < d)%nat -> exists n, (n < d)%nat /\ lp n = p.
  Proof.
    intros Hp.
    assert (I : incl (seq 0 d) (map lp (seq 0 d))).
    { apply NoDup_length_incl.
      - assert (G : forall k, (k <= d)%nat -> NoDup (map lp (seq 0 k))).
        { induction k as [|k IH]; intros Hk; [constructor|]. rewrite seq_S, map_app. cbn.
          rewrite <- (rev_involutive (map lp (seq 0 k) ++ [lp k])). apply NoDup_rev. rewrite rev_app_distr. cbn. constructor.
          - rewrite <- in_rev. intros H. apply in_map_iff in H. destruct H as (m & E & H). apply in_seq in H.
            apply Inj in E; lia.
          - apply NoDup_rev. apply IH. lia. }
        apply G. lia.
      - rewrite map_length. lia.
      - intros q H. apply in_map_iff in H. destruct H as (n & <- & H). apply in_seq in H. apply in_seq. split; [lia|].
        cbn. apply Lin. lia. }
    specialize (I p). rewrite in_seq in I. specialize (I ltac:(lia)). apply in_map_iff in I. destruct I as (n & E & H).
    apply in_seq in H. exists n. split; [lia|exact E].
  Qed.
  Lemma unlp_lp n : (n < d)%nat -> unlp (lp n) = n.
  Proof.
    intros Hn. unfold unlp. destruct (filter (fun m => Nat.eqb (lp m) (lp n)) (seq 0 d)) as [|m l] eqn:E.
    - exfalso. assert (X : In n (filter (fun m => Nat.eqb (lp m) (lp n)) (seq 0 d))).
      { apply filter_In. split; [apply in_seq; lia|apply Nat.eqb_refl]. }
      rewrite E in X. exact X.
    - cbn. assert (X : In m (filter (fun m => Nat.eqb (lp m) (lp n)) (seq 0 d))) by (rewrite E; left; reflexivity).
      apply filter_In in X. destruct X as [X Y]. apply in_seq in X. apply Nat.eqb_eq in Y. apply Inj; trivial. lia.
  Qed.

  Definition moved (A B : mat) : Prop := forall i j, (i < d)%nat -> (j < d)%nat -> B (lp i) (lp j) = A i j.

  Lemma moved_id : moved mid mid.
  Proof.
    intros i j Hi Hj. unfold mid. destruct (Nat.eqb_spec i j) as [->|N]; [rewrite Nat.eqb_refl; reflexivity|].
    rewrite (proj2 (Nat.eqb_neq _ _)); [reflexivity|]. intros E. apply N. apply Inj; assumption.
  Qed.
  Lemma moved_mul A A' B B' : moved A A' -> moved B B' -> moved (mmul d A B) (mmul d A' B').
  Proof.
    intros HA HB i j Hi Hj. unfold mmul.
    rewrite <- (csum_bij d lp unlp (fun k => A' (lp i) k * B' k (lp j))).
    - apply csum_ext. intros k Hk. rewrite HA, HB by assumption. reflexivity.
    - exact Lin.
    - intros k Hk. destruct (image k Hk) as (n & Hn & <-). rewrite unlp_lp by assumption. auto.
    - apply unlp_lp.
  Qed.
  Lemma moved_ext A B A' B' : meq d A A' -> meq d B B' -> moved A B -> moved A' B'.
  Proof. intros E1 E2 H i j Hi Hj. rewrite <- E1, <- E2 by auto. apply H; assumption. Qed.
  Lemma moved_adj A B : moved A B -> moved (madj A) (madj B).
  Proof. intros H i j Hi Hj. unfold madj. rewrite H by assumption. reflexivity. Qed.
  Lemma moved_two_level a b x y z w : (a < d)%nat -> (b < d)%nat -> moved (two_level a b x y z w) (two_level (lp a) (lp b) x y z w).
  Proof.
    intros Ha Hb i j Hi Hj. assert (E : forall n m, (n < d)%nat -> (m < d)%nat -> Nat.eqb (lp n) (lp m) = Nat.eqb n m).
    { intros n m Hn Hm. destruct (Nat.eqb_spec n m) as [->|N]; [apply Nat.eqb_refl|]. apply Nat.eqb_neq. intros X. apply N. apply Inj; assumption. }
    unfold two_level, mid. rewrite !E by assumption. reflexivity.
  Qed.
  Lemma moved_rotation a b t f : (a < d)%nat -> (b < d)%nat -> moved (rotation a b t f) (rotation (lp a) (lp b) t f).
  Proof. intros. unfold rotation. apply moved_two_level; assumption. Qed.
  Lemma moved_diag h h' : (forall i, (i < d)%nat -> h' (lp i) = h i) -> moved (mdiag h) (mdiag h').
  Proof.
    intros H i j Hi Hj. unfold mdiag. destruct (Nat.eqb_spec i j) as [->|N]; [rewrite Nat.eqb_refl; apply H; assumption|].
    rewrite (proj2 (Nat.eqb_neq _ _)); [reflexivity|]. intros E. apply N. apply Inj; assumption.
  Qed.
  Lemma moved_fun A B B' : moved A B -> moved A B' -> meq d B B'.
  Proof.
    intros H H' p q Hp Hq. destruct (image p Hp) as (i & Hi & <-), (image q Hq) as (j & Hj & <-). rewrite H, H' by assumption. reflexivity.
  Qed.
  Lemma moved_fun' A A' B : moved A B -> moved A' B -> meq d A A'.
  Proof. intros H H' i j Hi Hj. rewrite <- H, <- H' by assumption. reflexivity. Qed.
  Lemma moved_unitary A B : moved A B -> unitary d A -> unitary d B.
  Proof.
    intros H [U1 U2]. split.
    - apply (moved_fun mid); [|apply moved_id]. eapply moved_ext; [exact U1|apply meq_refl|].
      apply moved_mul; [apply moved_adj|]; exact H.
    - apply (moved_fun mid); [|apply moved_id]. eapply moved_ext; [exact U2|apply meq_refl|].
      apply moved_mul; [|apply moved_adj]; exact H.
  Qed.
  Lemma moved_close e A B A' B' : moved A A' -> moved B B' -> close d e A B -> close d e A' B'.
  Proof.
    intros HA HB H p q Hp Hq. destruct (image p Hp) as (i & Hi & <-), (image q Hq) as (j & Hj & <-).
    rewrite HA, HB by assumption. apply H; assumption.
  Qed.
End Moved.

(** *** Products of gate lists *)
Lemma circuit_acc d l M : meq d (fold_left (fun M o => mmul d (gate_matrix d o) M) l M) (mmul d (circuit_matrix d l) M).
Proof.
  revert M. induction l as [|o l IH]; intros M; unfold circuit_matrix; cbn [fold_left].
  - apply meq_sym, mmul_id_l.
  - eapply meq_trans; [apply IH|]. eapply meq_trans; [apply meq_sym, mmul_assoc|].
    apply mmul_ext; [|apply meq_refl]. apply meq_sym.
    eapply meq_trans; [apply IH|]. apply mmul_ext; [apply meq_refl|]. apply mmul_id_r.
Qed.
Lemma circuit_app d l1 l2 : meq d (circuit_matrix d (l1 ++ l2)) (mmul d (circuit_matrix d l2) (circuit_matrix d l1)).
Proof. unfold circuit_matrix at 1. rewrite fold_left_app. apply circuit_acc. Qed.
Lemma circuit_one d o : meq d (circuit_matrix d [o]) (gate_matrix d o).
Proof. unfold circuit_matrix. cbn. apply mmul_id_r. Qed.
Lemma ops_app d l1 l2 : meq d (ops_matrix d (l1 ++ l2)) (mmul d (ops_matrix d l2) (ops_matrix d l1)).
Proof. unfold ops_matrix. rewrite map_app. apply circuit_app. Qed.
Lemma ops_one d o : meq d (ops_matrix d [o]) (op_matrix d o).
Proof. apply (circuit_one d (plain o)). Qed.
Lemma ops_pulses d ps : ops_matrix d (map OR ps) = pulses_matrix d ps.
Proof.
  unfold ops_matrix, circuit_matrix, pulses_matrix. generalize (mid). induction ps as [|p ps IH]; intros M; [reflexivity|].
  cbn. apply IH.
Qed.

(** A list reversed and daggered is the adjoint. *)
Lemma dagger_list d ops : meq d (circuit_matrix d (map dag_op (rev (map plain ops)))) (madj (ops_matrix d ops)).
Proof.
  induction ops as [|o ops IH].
  - apply meq_sym, madj_id.
  - cbn [map rev]. rewrite map_app. eapply meq_trans; [apply circuit_app|].
    eapply meq_trans; [apply mmul_ext; [apply circuit_one|exact IH]|].
    replace (o :: ops) with ([o] ++ ops) by reflexivity.
    eapply meq_trans; [|apply meq_sym, madj_ext, ops_app].
    eapply meq_trans; [|apply meq_sym, madj_mmul].
    apply mmul_ext; [|apply meq_refl]. apply meq_sym. eapply meq_trans; [apply madj_ext, ops_one|]. apply meq_refl.
Qed.

(** The pulses undone. *)
Lemma good_unitary d r : good_pulse d r -> unitary d (r_array d (lev_a r) (lev_b r) (r_theta r) (r_phi r)).
Proof.
  intros (L & _). eapply unitary_ext; [apply meq_sym, r_array_rotation; lia|]. apply rotation_unitary; lia.
Qed.
Lemma pulses_unitary d ps : Forall (good_pulse d) ps -> unitary d (pulses_matrix d ps).
Proof.
  induction ps as [|p ps IH] using rev_ind; intros F; [apply unitary_id|].
  rewrite pulses_snoc. apply Forall_app in F. destruct F as [F1 F2]. apply unitary_mmul; [|apply IH; exact F1].
  apply good_unitary. inversion F2; assumption.
Qed.
Lemma back_one d p : good_pulse d p -> exists b, back_pulse d p = Ok b /\ lev_a b = lev_a p /\ lev_b b = lev_b p /\
  meq d (op_matrix d (OR b)) (madj (op_matrix d (OR p))).
Proof.
  intros (L & s & Hs & T & F). unfold back_pulse. rewrite new_R_ok by lia. eexists. split; [reflexivity|]. cbn [lev_a lev_b op_matrix r_theta r_phi].
  rewrite Z.min_l, Z.max_r, !Nat2Z.id by lia. split; [reflexivity|]. split; [reflexivity|].
  eapply meq_trans; [apply r_array_rotation; lia|].
  eapply meq_trans; [apply rotation_regulated|].
  eapply meq_trans; [|apply meq_sym, madj_ext, r_array_rotation; lia].
  eapply meq_trans; [|apply meq_sym, rotation_adj; lia].
  rewrite F. replace (- (- PI / 2))%R with (- PI / 2 + PI)%R by field. apply rotation_phi_pi.
Qed.
Lemma back_all d ps : Forall (good_pulse d) ps -> exists back, mapr (back_pulse d) (rev ps) = Ok back /\
  meq d (ops_matrix d (map OR back)) (madj (pulses_matrix d ps)) /\
  List.length back = List.length ps /\
  forall b, In b back -> exists p, In p ps /\ lev_a b = lev_a p /\ lev_b b = lev_b p.
Proof.
  induction ps as [|p ps IH] using rev_ind; intros F.
  - exists []. split; [reflexivity|]. split; [apply meq_sym, madj_id|]. split; [reflexivity|]. intros b [].
  - apply Forall_app in F. destruct F as [F1 F2]. destruct (IH F1) as (back & E & M & LL & C).
    destruct (back_one d p) as (b & Eb & L1 & L2 & Mb); [inversion F2; assumption|].
    exists (b :: back). rewrite rev_app_distr. cbn [rev app mapr]. rewrite Eb, E. split; [reflexivity|]. split; [|split].
    + cbn [map]. replace (OR b :: map OR back) with ([OR b] ++ map OR back) by reflexivity.
      eapply meq_trans; [apply ops_app|]. rewrite pulses_snoc.
      eapply meq_trans; [|apply meq_sym, madj_mmul]. apply mmul_ext; [exact M|].
      eapply meq_trans; [apply ops_one|]. exact Mb.
    + cbn. rewrite app_length. cbn. lia.
    + intros b' [<-|H]; [exists p; split; [apply in_or_app; right; left; reflexivity|auto]|].
      destruct (C b' H) as (p' & H1 & H2). exists p'. split; [apply in_or_app; left; exact H1|exact H2].
Qed.
