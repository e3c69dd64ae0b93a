(** Pulses that are not undone: graph_rule_update keeps track of them in the stored phases. *)
From Coq Require Import Reals Lra Lia List Arith ZArith.
From Verif.Base Require Import Py PyFacts Cplx Matrix.
From Verif.Gates Require Import AnglesModel AnglesProofs SingleModel SingleSpec SingleProofs.
From Verif.Noise Require Import ChannelProofs.
From Verif.Sim Require Import TnSpec.
From Verif.Levels Require Import LevelsModel LevelsSpec GraphProofs LevelsProofs RouteProofs PhaseProofs.
From Verif.Local Require Import QrModel QrSpec QrMath QrCore PulseProofs QrMoved QrEmit PhySpec PhyPulse.
Import ListNotations.
Local Open Scope string_scope.
Local Open Scope list_scope.
Local Open Scope R_scope.

(** All stored phases are multiples of a half turn. *)
Definition halves (d : nat) (f : nat -> R) : Prop := forall l, (l < d)%nat -> sin (f l) = 0.

(** *** Real matrices *)
Definition mreal (d : nat) (A : mat) : Prop := forall i j, (i < d)%nat -> (j < d)%nat -> snd (A i j) = 0.
Lemma csum_real n (h : nat -> C) : (forall k, (k < n)%nat -> snd (h k) = 0) -> snd (csum n h) = 0.
Proof. induction n as [|n IH]; intros H; [reflexivity|]. cbn. rewrite IH, H by (auto; intros; apply H; lia). lra. Qed.
Lemma mmul_real d A B : mreal d A -> mreal d B -> mreal d (mmul d A B).
Proof. intros HA HB i j Hi Hj. unfold mmul. apply csum_real. intros k Hk. cbn. rewrite HA, HB by assumption. lra. Qed.
Lemma mreal_ext d A B : meq d A B -> mreal d A -> mreal d B.
Proof. intros E H i j Hi Hj. rewrite <- E by assumption. apply H; assumption. Qed.
Lemma phases_real d f : mreal d (phases f) <-> halves d f.
Proof.
  split.
  - intros H l Hl. specialize (H l l Hl Hl). unfold phases, mdiag in H. rewrite Nat.eqb_refl in H. cbn in H. rewrite sin_neg in H. lra.
  - intros H i j Hi Hj. unfold phases, mdiag. destruct (Nat.eqb i j); [|reflexivity]. cbn. rewrite sin_neg, H by assumption. lra.
Qed.

(** The phases of half turns undo themselves. *)
Lemma phases_involution d f : halves d f -> meq d (mmul d (phases f) (phases f)) mid.
Proof.
  intros H. eapply meq_trans; [apply mdiag_mul|]. intros i j Hi Hj. unfold mdiag, mid. destruct (Nat.eqb i j); [|reflexivity].
  rewrite <- cis_add. unfold cis. replace (- f i + - f i) with (- (2 * f i)) by ring. rewrite cos_neg, sin_neg, cos_2a, sin_2a, H by assumption.
  assert (Q := sin2_cos2 (f i)). unfold Rsqr in Q. rewrite H in Q by assumption. apply Ceq; cbn; lra.
Qed.
Lemma phases_unitary d f : unitary d (phases f).
Proof. unfold phases. apply mdiag_unitary. intros i Hi. apply Cnorm2_cis. Qed.
Lemma phases_adj d f : halves d f -> meq d (madj (phases f)) (phases f).
Proof.
  intros H i j Hi Hj. unfold madj, phases, mdiag. rewrite Nat.eqb_sym. destruct (Nat.eqb_spec i j) as [->|N]; [|apply Ceq; cbn; lra].
  apply Ceq; cbn; [reflexivity|]. rewrite sin_neg, H by assumption. lra.
Qed.

(** *** Azimuths *)
Lemma quarter_mod p : cos p = 0 -> pi_mod p = PI / 2 \/ pi_mod p = - PI / 2.
Proof.
  intros H. pose proof PI_RGT_0 as HP. destruct (pi_mod_spec p) as [SM B].
  assert (E : cos (pi_mod p) = 0) by (rewrite <- H; assert (X := cis_same_mod _ _ SM); apply (f_equal fst) in X; exact X).
  apply cos_eq_0_0 in E. destruct E as (k & E).
  assert (K : (k = 0 \/ k = -1)%Z).
  { assert (A1 : IZR k < 1) by nra. assert (A2 : -2 < IZR k) by nra. apply lt_IZR in A1, A2. lia. }
  destruct K as [-> | ->]; [left|right]; rewrite E; lra.
Qed.
Lemma frame_azimuth (d : nat) f a b : halves d f -> (a < d)%nat -> (b < d)%nat -> cos (- PI / 2 - f a + f b) = 0.
Proof.
  intros H Ha Hb. replace (- PI / 2 - f a + f b) with (- (PI / 2 - (f b - f a))) by field. rewrite cos_neg, cos_shift, sin_minus, !H by assumption. ring.
Qed.

(** A half turn about an axis of azimuth +-pi/2. *)
Definition half (d : nat) (r : rot) : Prop := (lev_a r < lev_b r < d)%nat /\ (r_theta r = PI \/ r_theta r = - PI) /\ cos (r_phi r) = 0.
Lemma framed_half d f r u : halves d f -> framed f r u -> good_pulse d u -> half d r.
Proof.
  intros H (F1 & F2 & F3 & F4) (L & s & Hs & T & P). split; [rewrite F1, F2; exact L|]. split.
  - rewrite F3, T. destruct Hs as [-> | ->]; [left|right]; ring.
  - rewrite F4, P. apply (frame_azimuth d); [exact H|lia|lia].
Qed.
Notation pm d r := (r_array d (lev_a r) (lev_b r) (r_theta r) (r_phi r)).
Lemma half_unitary d r : half d r -> unitary d (pm d r).
Proof. intros (L & _). eapply unitary_ext; [apply meq_sym, r_array_rotation; lia|]. apply rotation_unitary; lia. Qed.
Lemma half_real d r : half d r -> mreal d (pm d r).
Proof.
  intros (L & T & P). eapply mreal_ext; [apply meq_sym, r_array_rotation; lia|]. intros i j Hi Hj. unfold rotation, two_level, mid.
  destruct (Nat.eqb i (lev_a r)); [|destruct (Nat.eqb i (lev_b r))]; (destruct (Nat.eqb j (lev_a r)); [|destruct (Nat.eqb j (lev_b r))]); cbn;
    rewrite ?cos_neg, ?sin_neg, ?P; try ring; destruct (Nat.eqb i j); reflexivity.
Qed.
Lemma half_back d r : half d r -> exists b, back_pulse d r = Ok b /\ half d b /\ lev_a b = lev_a r /\ lev_b b = lev_b r /\ meq d (pm d b) (madj (pm d r)).
Proof.
  intros (L & T & P). unfold back_pulse. rewrite new_R_ok by lia. eexists. split; [reflexivity|].
  cbn [lev_a lev_b r_theta r_phi]. rewrite Z.min_l, Z.max_r, !Nat2Z.id by lia.
  rewrite (regulate_pi _ T). split; [unfold half; cbn [lev_a lev_b r_theta r_phi]; rewrite cos_neg; auto|]. split; [reflexivity|]. split; [reflexivity|].
  eapply meq_trans; [apply r_array_rotation; lia|].
  eapply meq_trans; [|apply meq_sym, madj_ext, r_array_rotation; lia].
  eapply meq_trans; [|apply meq_sym, rotation_adj; lia].
  eapply meq_trans; [|apply rotation_phi_pi].
  assert (E1 : cis (- r_phi r) = cis (r_phi r + PI)).
  { unfold cis. rewrite cos_neg, sin_neg, neg_cos, neg_sin, P. apply Ceq; cbn; ring. }
  assert (E2 : cis (- - r_phi r) = cis (- (r_phi r + PI))).
  { rewrite Ropp_involutive. unfold cis. rewrite cos_neg, sin_neg, neg_cos, neg_sin, P. apply Ceq; cbn; ring. }
  unfold rotation. rewrite E1, E2. apply meq_refl.
Qed.

(** *** Relabellings *)
Definition relabel (h : nat -> nat) : mat := fun i j => if Nat.eqb i (h j) then C1 else C0.
Definition flip (a b x : nat) : nat := if Nat.eqb x a then b else if Nat.eqb x b then a else x.
Lemma flip_in d a b x : (a < d)%nat -> (b < d)%nat -> (x < d)%nat -> (flip a b x < d)%nat.
Proof. unfold flip. destruct (Nat.eqb x a), (Nat.eqb x b); trivial. Qed.
Lemma flip_flip a b x : flip a b (flip a b x) = x.
Proof.
  unfold flip. destruct (Nat.eqb_spec x a) as [->|A]; [|destruct (Nat.eqb_spec x b) as [->|B]].
  - rewrite Nat.eqb_refl. destruct (Nat.eqb_spec b a) as [->|]; reflexivity.
  - rewrite Nat.eqb_refl. reflexivity.
  - rewrite (proj2 (Nat.eqb_neq x a) A), (proj2 (Nat.eqb_neq x b) B). reflexivity.
Qed.
Lemma exchange_relabel d a b : a <> b -> meq d (exchange a b) (relabel (flip a b)).
Proof.
  intros N i j Hi Hj. unfold exchange, two_level, relabel, flip, mid.
  destruct (Nat.eqb_spec j a) as [->|Ja]; [|destruct (Nat.eqb_spec j b) as [->|Jb]];
    (destruct (Nat.eqb_spec i a) as [->|Ia]; [|destruct (Nat.eqb_spec i b) as [->|Ib]]);
    rewrite ?Nat.eqb_refl; try congruence; try reflexivity;
    repeat match goal with |- context [Nat.eqb ?x ?y] => destruct (Nat.eqb_spec x y); try congruence end; try reflexivity.
Qed.
Lemma relabel_mul d h k : (forall x, (x < d)%nat -> (k x < d)%nat) -> meq d (mmul d (relabel h) (relabel k)) (relabel (fun x => h (k x))).
Proof.
  intros Hk i j Hi Hj. unfold mmul. rewrite (csum_single d _ (k j)); [|apply Hk; exact Hj|].
  - unfold relabel. rewrite Nat.eqb_refl. ring.
  - intros x Hx N. unfold relabel. rewrite (proj2 (Nat.eqb_neq x (k j)) N). ring.
Qed.
Lemma relabel_id d : meq d mid (relabel (fun x => x)).
Proof. intros i j _ _. reflexivity. Qed.
Lemma relabel_real d h : mreal d (relabel h).
Proof. intros i j _ _. unfold relabel. destruct (Nat.eqb i (h j)); reflexivity. Qed.

(** *** One update, then all *)
Lemma update_stores d r g g' na nb : routable d g -> ordered g -> stores g ->
  placed g na (Z.of_nat (lev_a r)) -> placed g nb (Z.of_nat (lev_b r)) -> lev_a r <> lev_b r ->
  Rabs (Rabs (r_theta r) - PI) < 1 / 100 -> graph_rule_update r g = Ok g' -> stores g'.
Proof.
  intros RT SQ (n0 & v0 & H0) Pa Pb Hab TH E. assert (W := rt_wf d g RT).
  unfold graph_rule_update in E. destruct (Rlt_dec (Rabs (Rabs (r_theta r) - PI)) (1 / 100)) as [_|N]; [|contradiction].
  destruct (fst_inode_ok d g RT) as (i & Ei & Hi). rewrite Ei in E. cbn [bindr] in E.
  destruct (node_attrs_ok d g RT i (has_node _ _ _ _ Hi)) as (A & EA & HA). rewrite EA in E. cbn [bindr] in E.
  assert (EM : dmem String.eqb A "phase_storage" = true).
  { apply HA. apply (rt_uniform d g RT _ _ _ _ H0). eapply has_node. exact Hi. }
  rewrite EM in E. cbn [negb] in E.
  destruct (find_logic_ok d g RT (Z.of_nat (lev_a r)) (Z.of_nat (lev_b r))) as (na' & nb' & EF & _ & _).
  rewrite EF in E. cbn [bindr] in E. destruct (find_logic_spec d g _ _ _ _ RT EF) as [Qa Qb].
  assert (na' = na). { destruct Qa as [Qa|[_ Qa]]; [apply (proj2 (rt_placement d g RT) _ _ _ Qa Pa)|exfalso; apply (Qa na Pa)]. } subst na'.
  assert (nb' = nb). { destruct Qb as [Qb|[_ Qb]]; [apply (proj2 (rt_placement d g RT) _ _ _ Qb Pb)|exfalso; apply (Qb nb Pb)]. } subst nb'.
  assert (Na : is_node g na) by (eapply has_node; exact Pa). assert (Nb : is_node g nb) by (eapply has_node; exact Pb).
  assert (Ba := rt_logical d g RT na Na). assert (Bb := rt_logical d g RT nb Nb).
  destruct (Z.eqb_spec na (-1)); [lia|]. destruct (Z.eqb_spec nb (-1)); [lia|]. cbn [negb andb] in E.
  destruct (rt_uniform d g RT _ _ _ _ H0 Na) as (va & Va). destruct (rt_uniform d g RT _ _ _ _ H0 Nb) as (vb & Vb).
  destruct (rt_phases d g RT na va Va) as (xa & Xa). destruct (rt_phases d g RT nb vb Vb) as (xb & Xb).
  destruct (swap_simple_spec d g na nb va vb RT SQ Va Vb) as (g1 & E1 & K1 & A1 & R1 & L1). rewrite E1 in E. cbn [bindr] in E.
  assert (W1 := rt_wf d g1 R1).
  assert (Va' := proj1 (has_attr_alook g W _ _ _) Va). assert (Vb' := proj1 (has_attr_alook g W _ _ _) Vb).
  assert (Nab : na <> nb). { intros E0. apply Hab. apply Nat2Z.inj. rewrite E0 in Pa. apply (has_attr_alook g W) in Pa, Pb. congruence. }
  assert (Va1 : has_attr g1 na "phase_storage" vb).
  { apply (has_attr_alook g1 W1). rewrite L1. cbn. unfold tau. rewrite Z.eqb_refl. exact Vb'. }
  assert (Vb1 : has_attr g1 nb "phase_storage" va).
  { apply (has_attr_alook g1 W1). rewrite L1. cbn. unfold tau. rewrite Z.eqb_refl. destruct (Z.eqb_spec nb na); [congruence|exact Va']. }
  destruct (Rlt_dec 0 (r_theta r * pi_mod (r_phi r))).
  - destruct (add_pi_spec d g1 nb va xa R1 Vb1 Xa) as (g2 & E2 & K2 & A2 & R2 & L2). rewrite E2 in E. injection E as <-.
    exists nb. eexists. apply (has_attr_alook g2 (rt_wf d g2 R2)). rewrite L2, Z.eqb_refl. reflexivity.
  - destruct (Rlt_dec (r_theta r * pi_mod (r_phi r)) 0).
    + destruct (add_pi_spec d g1 na vb xb R1 Va1 Xb) as (g2 & E2 & K2 & A2 & R2 & L2). rewrite E2 in E. injection E as <-.
      exists na. eexists. apply (has_attr_alook g2 (rt_wf d g2 R2)). rewrite L2, Z.eqb_refl. reflexivity.
    + injection E as <-. exists na, vb. exact Va1.
Qed.
Lemma update_one d p g f : half d p -> routable d g -> covers d g -> ordered g -> stores g -> pending g f -> halves d f ->
  (forall l, (l < d)%nat -> exists n, placed g n (Z.of_nat l)) ->
  exists b g' f', back_pulse d p = Ok b /\ graph_rule_update b g = Ok g' /\ routable d g' /\ map fst (nd g') = map fst (nd g) /\ adj g' = adj g /\
    (forall n q, placed g' n q <-> placed g n q) /\ pending g' f' /\ halves d f' /\
    meq d (mmul d (phases f') (relabel (flip (lev_a p) (lev_b p)))) (mmul d (pm d p) (phases f)).
Proof.
  intros HP RT CV OR ST PF HF FULL. destruct (half_back d p HP) as (b & Eb & HB & La & Lb & MB).
  destruct HB as (LL & TB & PB). destruct (FULL (lev_a b)) as (na & Pa); [lia|]. destruct (FULL (lev_b b)) as (nb & Pb); [lia|].
  destruct (update_pending d b g f na nb RT OR ST Pa Pb ltac:(lia) TB (quarter_mod _ PB) PF) as (g' & f' & E & R' & K & A & PL & PF' & M).
  change (mdiag (fun l => cis (- f' l))) with (phases f') in M. change (mdiag (fun l => cis (- f l))) with (phases f) in M.
  rewrite La, Lb in M.
  assert (NE : lev_a p <> lev_b p) by (destruct HP; lia).
  assert (X : meq d (mmul d (phases f') (exchange (lev_a p) (lev_b p))) (mmul d (pm d p) (phases f))).
  { assert (UP := half_unitary d p HP).
    assert (M1 : meq d (phases f') (mmul d (pm d p) (mmul d (phases f) (exchange (lev_a p) (lev_b p))))).
    { eapply meq_trans; [apply meq_sym, mmul_id_l|]. eapply meq_trans; [apply mmul_ext; [apply meq_sym; exact (proj2 UP)|apply meq_refl]|].
      eapply meq_trans; [apply mmul_assoc|]. apply mmul_ext; [apply meq_refl|].
      eapply meq_trans; [apply mmul_ext; [apply meq_sym; exact MB|apply meq_refl]|]. rewrite La, Lb. exact M. }
    eapply meq_trans; [apply mmul_ext; [exact M1|apply meq_refl]|].
    eapply meq_trans; [apply mmul_assoc|]. apply mmul_ext; [apply meq_refl|].
    eapply meq_trans; [apply mmul_assoc|].
    eapply meq_trans; [apply mmul_ext; [apply meq_refl|]|apply mmul_id_r].
    destruct HP as (LP & _).
    intros i j Hi Hj. unfold exchange. rewrite two_level_rows by lia. unfold two_level, mid.
    destruct (Nat.eqb_spec i (lev_a p)) as [->|Ia]; [|destruct (Nat.eqb_spec i (lev_b p)) as [->|Ib]];
      (destruct (Nat.eqb_spec j (lev_a p)) as [->|Ja]; [|destruct (Nat.eqb_spec j (lev_b p)) as [->|Jb]]);
      rewrite ?Nat.eqb_refl; try congruence;
      repeat match goal with |- context [Nat.eqb ?x ?y] => destruct (Nat.eqb_spec x y); try congruence end; try ring. }
  exists b, g', f'. split; [exact Eb|]. split; [exact E|]. split; [exact R'|]. split; [exact K|]. split; [exact A|]. split; [exact PL|]. split; [exact PF'|].
  assert (XR : meq d (mmul d (phases f') (relabel (flip (lev_a p) (lev_b p)))) (mmul d (pm d p) (phases f))).
  { eapply meq_trans; [|exact X]. apply mmul_ext; [apply meq_refl|]. apply meq_sym, exchange_relabel. exact NE. }
  split; [|exact XR].
  apply phases_real.
  apply (mreal_ext d (mmul d (mmul d (pm d p) (phases f)) (relabel (flip (lev_a p) (lev_b p))))).
  - eapply meq_trans; [apply mmul_ext; [apply meq_sym; exact XR|apply meq_refl]|].
    eapply meq_trans; [apply mmul_assoc|]. eapply meq_trans; [apply mmul_ext; [apply meq_refl|]|apply mmul_id_r].
    destruct HP as (LP & _). eapply meq_trans; [apply relabel_mul; intros x Hx; apply flip_in; lia|].
    eapply meq_trans; [|apply meq_sym, relabel_id]. intros i j Hi Hj. unfold relabel. replace (flip (lev_a p) (lev_b p) (flip (lev_a p) (lev_b p) j)) with j; [reflexivity|].
    symmetry. apply flip_flip.
  - apply mmul_real; [apply mmul_real; [apply half_real; exact HP|apply phases_real; exact HF]|apply relabel_real].
Qed.

Lemma update_all d : forall ps g f, Forall (half d) ps -> routable d g -> covers d g -> ordered g -> stores g -> pending g f -> halves d f ->
  (forall l, (l < d)%nat -> exists n, placed g n (Z.of_nat l)) ->
  exists back g' f' h, mapr (back_pulse d) ps = Ok back /\ foldr (fun g p => graph_rule_update p g) back g = Ok g' /\
    routable d g' /\ map fst (nd g') = map fst (nd g) /\ adj g' = adj g /\
    (forall n q, placed g' n q <-> placed g n q) /\ pending g' f' /\ halves d f' /\ stores g' /\
    (forall x, (x < d)%nat -> (h x < d)%nat) /\
    meq d (mmul d (phases f') (relabel h)) (mmul d (pulses_matrix d ps) (phases f)).
Proof.
  induction ps as [|p ps IH]; intros g f HP RT CV OR ST PF HF FULL.
  - exists [], g, f, (fun x => x). split; [reflexivity|]. split; [reflexivity|]. split; [exact RT|]. split; [reflexivity|]. split; [reflexivity|].
    split; [reflexivity|]. split; [exact PF|]. split; [exact HF|]. split; [exact ST|]. split; [auto|].
    eapply meq_trans; [apply mmul_ext; [apply meq_refl|apply meq_sym, relabel_id]|]. eapply meq_trans; [apply mmul_id_r|]. apply meq_sym, mmul_id_l.
  - inversion HP as [|p' ps' Hp Hps]; subst.
    destruct (update_one d p g f Hp RT CV OR ST PF HF FULL) as (b & g1 & f1 & Eb & E1 & R1 & K1 & A1 & PL1 & PF1 & HF1 & M1).
    assert (CV1 : covers d g1) by (intros n Hn; unfold is_node; rewrite K1; apply CV; exact Hn).
    assert (OR1 : ordered g1).
    { unfold ordered. rewrite K1. replace (List.length (nd g1)) with (List.length (nd g)); [exact OR|]. rewrite <- (map_length fst (nd g1)), K1, map_length. reflexivity. }
    assert (ST1 : stores g1).
    { destruct (half_back d p Hp) as (b' & Eb' & (LL & TB & PB) & La & Lb & _). assert (b' = b) by congruence. subst b'.
      destruct (FULL (lev_a b)) as (na & Pa); [lia|]. destruct (FULL (lev_b b)) as (nb & Pb); [lia|].
      apply (update_stores d b g g1 na nb RT OR ST Pa Pb ltac:(lia) (half_turn _ TB) E1). }
    assert (FULL1 : forall l, (l < d)%nat -> exists n, placed g1 n (Z.of_nat l)).
    { intros l Hl. destruct (FULL l Hl) as (n & Hn). exists n. apply PL1. exact Hn. }
    destruct (IH g1 f1 Hps R1 CV1 OR1 ST1 PF1 HF1 FULL1) as (back & g2 & f2 & h & E2 & E3 & R2 & K2 & A2 & PL2 & PF2 & HF2 & ST2 & Hh & M2).
    exists (b :: back), g2, f2, (fun x => h (flip (lev_a p) (lev_b p) x)).
    assert (FI : forall x, (x < d)%nat -> (flip (lev_a p) (lev_b p) x < d)%nat) by (intros x Hx; destruct Hp as (LP & _); apply flip_in; lia).
    cbn [mapr]. rewrite Eb, E2. split; [reflexivity|]. cbn [foldr]. rewrite E1. split; [exact E3|]. split; [exact R2|]. split; [congruence|]. split; [congruence|].
    split; [intros n q; rewrite PL2; apply PL1|]. split; [exact PF2|]. split; [exact HF2|]. split; [exact ST2|]. split; [intros x Hx; apply Hh, FI, Hx|].
    eapply meq_trans; [apply mmul_ext; [apply meq_refl|apply meq_sym, (relabel_mul d h _ FI)]|].
    eapply meq_trans; [apply meq_sym, mmul_assoc|]. eapply meq_trans; [apply mmul_ext; [exact M2|apply meq_refl]|].
    eapply meq_trans; [apply mmul_assoc|]. eapply meq_trans; [apply mmul_ext; [apply meq_refl|exact M1]|].
    eapply meq_trans; [apply meq_sym, mmul_assoc|]. apply mmul_ext; [|apply meq_refl]. apply meq_sym, pulses_cons.
Qed.
