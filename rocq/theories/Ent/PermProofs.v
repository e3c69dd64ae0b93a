(** The controlled rotation block on any two neighbouring states. *)
From Coq Require Import Reals Lra Lia List Arith ZArith.
From Verif.Base Require Import Py Cplx Matrix Fiber.
From Verif.Gates Require Import AnglesModel AnglesSpec AnglesProofs SingleModel SingleSpec SingleProofs TwoModel TwoSpec TwoProofs.
From Verif.Ent Require Import BlockModel PairMath CrotProofs.
Import ListNotations.
Local Open Scope C_scope.

(** *** Rotations by pi move one level to another *)
Lemma pi_maps d a b t f : (a < d)%nat -> (b < d)%nat -> a <> b -> cos (t / 2) = 0%R ->
  maps_ket d (rotation a b t f) b (- (Ci * RtoC (sin (t / 2)) * cis (- f))) a /\
  maps_ket d (rotation a b t f) a (- (Ci * RtoC (sin (t / 2)) * cis f)) b.
Proof.
  intros Ha Hb Hab Hc. assert (Hba : b <> a) by auto. apply Nat.eqb_neq in Hab, Hba.
  split; apply maps_col; trivial; intros k Hk; unfold rotation, two_level; rewrite Hc, RtoC_0, ?Nat.eqb_refl, ?Hab, ?Hba;
    destruct (Nat.eqb_spec k a) as [->|Na]; rewrite ?Hab, ?Hba; try reflexivity; destruct (Nat.eqb_spec k b) as [->|Nb]; try reflexivity;
    unfold mid; match goal with |- context [Nat.eqb ?x ?y] => destruct (Nat.eqb_spec x y); [congruence|reflexivity] end.
Qed.
Lemma rot_fixes d a b t f k : (k < d)%nat -> k <> a -> k <> b -> maps_ket d (rotation a b t f) k C1 k.
Proof.
  intros Hk Na Nb. apply maps_col; trivial. intros i Hi. unfold rotation, two_level, mid.
  apply Nat.eqb_neq in Na, Nb. rewrite Na, Nb. destruct (Nat.eqb_spec i a) as [->|]; [rewrite Nat.eqb_sym, Na; reflexivity|].
  destruct (Nat.eqb_spec i b) as [->|]; [rewrite Nat.eqb_sym, Nb; reflexivity|]. reflexivity.
Qed.
(** b goes to a with amplitude 1 for the two rotations the blocks use. *)
Lemma there_plus d a b : (a < d)%nat -> (b < d)%nat -> a <> b -> maps_ket d (rotation a b PI (- PI / 2)) b C1 a.
Proof.
  intros Ha Hb Hab. destruct (pi_maps d a b PI (- PI / 2) Ha Hb Hab cos_PI2) as [H _]. replace C1 with (- (Ci * RtoC (sin (PI / 2)) * cis (- (- PI / 2)))); [exact H|].
  rewrite sin_PI2. replace (- (- PI / 2))%R with (PI / 2)%R by field. rewrite cis_PI2. apply Ceq; cbn; ring.
Qed.
Lemma there_minus d a b : (a < d)%nat -> (b < d)%nat -> a <> b -> maps_ket d (rotation a b (- PI) (PI / 2)) b C1 a.
Proof.
  intros Ha Hb Hab. assert (E : (cos (- PI / 2) = 0)%R) by (replace (- PI / 2)%R with (- (PI / 2))%R by field; rewrite cos_neg; apply cos_PI2).
  destruct (pi_maps d a b (- PI) (PI / 2) Ha Hb Hab E) as [H _]. replace C1 with (- (Ci * RtoC (sin (- PI / 2)) * cis (- (PI / 2)))); [exact H|].
  replace (- PI / 2)%R with (- (PI / 2))%R by field. rewrite sin_neg, sin_PI2, cis_neg, cis_PI2. apply Ceq; cbn; ring.
Qed.
Lemma there_back d a b : (a < d)%nat -> (b < d)%nat -> a <> b -> maps_ket d (rotation a b PI (- PI / 2)) a (- C1) b.
Proof.
  intros Ha Hb Hab. destruct (pi_maps d a b PI (- PI / 2) Ha Hb Hab cos_PI2) as [_ H]. replace (- C1) with (- (Ci * RtoC (sin (PI / 2)) * cis (- PI / 2))); [exact H|].
  rewrite sin_PI2. replace (- PI / 2)%R with (- (PI / 2))%R by field. rewrite cis_neg, cis_PI2. apply Ceq; cbn; ring.
Qed.
Lemma flip_maps d a b : (a < d)%nat -> (b < d)%nat -> a <> b -> maps_ket d (rotation a b PI (PI / 2)) b (- C1) a.
Proof.
  intros Ha Hb Hab. destruct (pi_maps d a b PI (PI / 2) Ha Hb Hab cos_PI2) as [H _]. replace (- C1) with (- (Ci * RtoC (sin (PI / 2)) * cis (- (PI / 2)))); [exact H|].
  rewrite sin_PI2, cis_neg, cis_PI2. apply Ceq; cbn; ring.
Qed.

Section Perm.
Variables (dc dt : nat).
Hypothesis Hdc : (2 <= dc)%nat.
Hypothesis Hdt : (2 <= dt)%nat.
Notation n := (dc * dt)%nat.
Notation B := (bmat dc dt).

Lemma conj_rotation P a b a' b' s1 s2 t f t' : unitary n P -> (a < n)%nat -> (b < n)%nat -> a <> b -> (a' < n)%nat -> (b' < n)%nat -> a' <> b' ->
  maps_ket n P a' s1 a -> maps_ket n P b' s2 b -> Cnorm2 s1 = 1%R -> Cnorm2 s2 = 1%R ->
  (Cconj s1 * s2 = C1 /\ t' = t \/ Cconj s1 * s2 = - C1 /\ t' = (- t)%R) ->
  meq n (mmul n (madj P) (mmul n (rotation a b t f) P)) (rotation a' b' t' f).
Proof.
  intros U Ha Hb Hab Ha' Hb' Hab' M1 M2 N1 N2 D. unfold rotation. eapply meq_trans; [apply (conj_two_level n P a b a' b' s1 s2); trivial|].
  destruct D as [[E ->]|[E ->]].
  - assert (E' : Cconj s2 * s1 = C1) by (apply (f_equal Cconj) in E; rewrite Cconj_mul, Cconj_inv, Cconj_C1 in E; rewrite <- E; ring).
    rewrite E, E'. apply two_level_ext; ring.
  - assert (E' : Cconj s2 * s1 = - C1).
    { apply (f_equal Cconj) in E; rewrite Cconj_mul, Cconj_inv, Cconj_opp, Cconj_C1 in E. rewrite <- E. ring. }
    rewrite E, E'. replace (- t / 2)%R with (- (t / 2))%R by field. rewrite cos_neg, sin_neg, RtoC_opp. apply two_level_ext; ring.
Qed.
Lemma conj_block there core back a b a' b' s1 s2 t f t' : unitary n (B there) -> meq n (B back) (madj (B there)) -> meq n (B core) (rotation a b t f) ->
  (a < n)%nat -> (b < n)%nat -> a <> b -> (a' < n)%nat -> (b' < n)%nat -> a' <> b' ->
  maps_ket n (B there) a' s1 a -> maps_ket n (B there) b' s2 b -> Cnorm2 s1 = 1%R -> Cnorm2 s2 = 1%R ->
  (Cconj s1 * s2 = C1 /\ t' = t \/ Cconj s1 * s2 = - C1 /\ t' = (- t)%R) ->
  meq n (B (there ++ core ++ back)) (rotation a' b' t' f).
Proof.
  intros U Hb Hc A1 A2 A3 A4 A5 A6 M1 M2 N1 N2 D.
  eapply meq_trans; [apply bmat_app|]. eapply meq_trans; [apply mmul_ext; [apply bmat_app|apply meq_refl]|].
  eapply meq_trans; [apply mmul_assoc|]. eapply meq_trans; [apply mmul_ext; [exact Hb|apply mmul_ext; [exact Hc|apply meq_refl]]|].
  apply (conj_rotation (B there) a b a' b' s1 s2); trivial.
Qed.

Lemma kind_unitary d k : kind_ok d k = true -> unitary d (kind_matrix d k).
Proof.
  destruct k as [a b t f|a b f|a b|a f]; cbn [kind_ok kind_matrix]; intros H.
  - apply check_levels_spec in H. destruct (proj2 (r_accepts d (PList [PInt a; PInt b; PFloat t; PFloat f]))) as (M & E).
    + exists a, b, t, f, []. intuition (try reflexivity; lia).
    + rewrite E. apply (r_unitary d _ M E).
  - apply check_levels_spec in H. destruct (rz_matrix_spec d a b f []) as (M & E & _); try lia. rewrite E. apply (rz_unitary d _ M E).
  - unfold rh_matrix. cbn. rewrite H. destruct (levels_setter a b) as (la, lb) eqn:L.
    apply (rh_value d a b [] (rh_array d (Z.to_nat la) (Z.to_nat lb))). unfold rh_matrix. cbn. rewrite H, L. reflexivity.
  - apply virtrz_unitary.
Qed.
Lemma flagged_unitary d dag M : unitary d M -> unitary d (flagged dag M).
Proof. destruct dag; cbn; [apply unitary_adj|trivial]. Qed.
Lemma tracked_unitary g : gate_ok dc dt g = true -> unitary n (tracked dc dt true g).
Proof.
  destruct g as [[|] k dag|dag]; cbn [gate_ok tracked]; intros H.
  - apply unitary_mkron; [apply unitary_id|]. apply flagged_unitary, kind_unitary, H.
  - apply unitary_mkron; [|apply unitary_id]. apply flagged_unitary, kind_unitary, H.
  - apply flagged_unitary. destruct (cex_returns dc dt true (Cex 0 1 1 0)) as (M & E); [cbn; lia|]. rewrite E. cbn [the].
    apply (cex_unitary dc dt true (Cex 0 1 1 0) M ltac:(lia) ltac:(cbn; lia) E).
Qed.
Lemma bmat_unitary l : forallb (gate_ok dc dt) l = true -> unitary n (B l).
Proof.
  intros H. apply chain_unitary. apply Forall_forall. intros M HM. apply in_map_iff in HM. destruct HM as (g & <- & Hg).
  apply tracked_unitary. rewrite forallb_forall in H. apply H. exact Hg.
Qed.
Lemma set_dag_tracked g : (match g with ELoc _ _ d => d | ECex d => d end) = false -> meq n (tracked dc dt true (set_dag g)) (madj (tracked dc dt true g)).
Proof.
  destruct g as [[|] k dag|dag]; cbn; intros ->; cbn [flagged].
  - eapply meq_trans; [|apply meq_sym, madj_mkron]. apply mkron_ext; [apply meq_sym, madj_id|apply meq_refl].
  - eapply meq_trans; [|apply meq_sym, madj_mkron]. apply mkron_ext; [apply meq_refl|apply meq_sym, madj_id].
  - apply meq_refl.
Qed.
Lemma back_adj l : forallb (fun g => negb (match g with ELoc _ _ d => d | ECex d => d end)) l = true -> meq n (B (map set_dag (rev l))) (madj (B l)).
Proof.
  intros H. unfold bmat. eapply meq_trans; [|apply chain_adj]. rewrite map_map. rewrite <- map_rev, map_map. apply chain_ext.
  assert (H' : forall g, In g (rev l) -> negb (match g with ELoc _ _ d => d | ECex d => d end) = true).
  { intros g Hg. rewrite forallb_forall in H. apply H. apply in_rev. exact Hg. }
  clear H. induction (rev l) as [|g r IH]; cbn [map]; constructor.
  - apply set_dag_tracked. specialize (H' g (or_introl eq_refl)). destruct (match g with ELoc _ _ d => d | ECex d => d end); [discriminate|reflexivity].
  - apply IH. intros g' Hg. apply H'. right. exact Hg.
Qed.
Lemma bmat_one g : meq n (B [g]) (tracked dc dt true g).
Proof. unfold bmat. cbn [map]. unfold chain. cbn [fold_left]. apply mmul_id_r. Qed.
Lemma bmat_two g h : meq n (B [g; h]) (mmul n (tracked dc dt true h) (tracked dc dt true g)).
Proof. unfold bmat. cbn [map]. unfold chain. cbn [fold_left]. apply mmul_ext; [apply meq_refl|apply mmul_id_r]. Qed.

Lemma ctrl_ok a b t f : (a < dc)%nat -> (b < dc)%nat -> a <> b -> gate_ok dc dt (on_ctrl (KR (Z.of_nat a) (Z.of_nat b) t f)) = true.
Proof. intros. cbn. apply check_levels_spec. lia. Qed.
Lemma targ_ok a b t f : (a < dt)%nat -> (b < dt)%nat -> a <> b -> gate_ok dc dt (on_targ (KR (Z.of_nat a) (Z.of_nat b) t f)) = true.
Proof. intros. cbn. apply check_levels_spec. lia. Qed.

(** The control level is moved to 1 (crot:118-125). *)
Lemma ctrl_there q : (q < dc)%nat -> q <> 1%nat -> exists s, Cnorm2 s = 1%R /\ forall t, (t < dt)%nat ->
  maps_ket n (B [on_ctrl (KR 1 (Z.of_nat q) PI (- PI / 2))]) (q * dt + t) s (1 * dt + t).
Proof.
  intros Hq Nq. destruct (Nat.eq_dec q 0) as [->|N0].
  - exists (- C1). split; [unfold Cnorm2; cbn; ring|]. intros t Ht.
    eapply maps_ext; [apply idx_lt; lia|apply bmat_one|]. cbn [tracked on_ctrl flagged].
    apply on0_maps; try lia. rewrite kr_order. eapply maps_ext; [lia|apply (kr_rotation dc 0 1); lia|]. apply there_back; lia.
  - exists C1. split; [unfold Cnorm2; cbn; ring|]. intros t Ht.
    eapply maps_ext; [apply idx_lt; lia|apply bmat_one|]. cbn [tracked on_ctrl flagged].
    apply on0_maps; try lia. eapply maps_ext; [lia|apply (kr_rotation dc 1 q); lia|]. apply there_plus; lia.
Qed.
Lemma ctrl_back q : (q < dc)%nat -> q <> 1%nat ->
  meq n (B [on_ctrl (KR 1 (Z.of_nat q) PI (PI / 2))]) (madj (B [on_ctrl (KR 1 (Z.of_nat q) PI (- PI / 2))])).
Proof.
  intros Hq Nq. eapply meq_trans; [apply bmat_one|]. eapply meq_trans; [|apply madj_ext, meq_sym, bmat_one]. cbn [tracked on_ctrl flagged].
  eapply meq_trans; [|apply meq_sym, madj_mkron]. apply mkron_ext; [|apply meq_sym, madj_id].
  assert (G : forall a b, (a < b < dc)%nat -> meq dc (rotation a b PI (PI / 2)) (madj (rotation a b PI (- PI / 2)))).
  { intros a b H. eapply meq_trans; [|apply meq_sym, rotation_adj; lia]. replace (PI / 2)%R with (- PI / 2 + PI)%R by field. apply rotation_phi_pi. }
  destruct (Nat.eq_dec q 0) as [->|N0].
  - rewrite (kr_order dc 1 (Z.of_nat 0)), (kr_order dc 1 (Z.of_nat 0)).
    eapply meq_trans; [apply (kr_rotation dc 0 1); lia|]. eapply meq_trans; [apply G; lia|]. apply madj_ext, meq_sym, (kr_rotation dc 0 1); lia.
  - eapply meq_trans; [apply (kr_rotation dc 1 q); lia|]. eapply meq_trans; [apply G; lia|]. apply madj_ext, meq_sym, (kr_rotation dc 1 q); lia.
Qed.
(** The level of the target is moved to 0 (crot:99-116) and, for the other block, the control levels to 0 and 1 (pswap:169-187). *)
Definition moves (g : ekind -> egate) (q : nat) : list egate := [g (KR 0 (Z.of_nat q) PI (- PI / 2)); g (KR 1 (Z.of_nat q + 1) (- PI) (PI / 2))].
Lemma two_moves d q : (0 < q)%nat -> (q + 1 < d)%nat ->
  exists A1 A2, meq d (kind_matrix d (KR 0 (Z.of_nat q) PI (- PI / 2))) A1 /\ meq d (kind_matrix d (KR 1 (Z.of_nat q + 1) (- PI) (PI / 2))) A2 /\
    maps_ket d A1 q C1 0 /\ maps_ket d A2 0 C1 0 /\ maps_ket d A1 (q + 1) C1 (q + 1) /\ maps_ket d A2 (q + 1) C1 1.
Proof.
  intros Hq Hd. exists (rotation 0 q PI (- PI / 2)), (rotation 1 (q + 1) (- PI) (PI / 2)). split; [|split; [|split; [|split; [|split]]]].
  - apply (kr_rotation d 0 q); lia.
  - replace (Z.of_nat q + 1)%Z with (Z.of_nat (q + 1)) by lia. apply (kr_rotation d 1 (q + 1)); lia.
  - apply there_plus; lia.
  - apply rot_fixes; lia.
  - apply rot_fixes; lia.
  - apply there_minus; lia.
Qed.
Lemma targ_there q c : (0 < q)%nat -> (q + 1 < dt)%nat -> (c < dc)%nat ->
  maps_ket n (B (moves on_targ q)) (c * dt + q) C1 (c * dt + 0) /\ maps_ket n (B (moves on_targ q)) (c * dt + (q + 1)) C1 (c * dt + 1).
Proof.
  intros Hq Hd Hc. destruct (two_moves dt q Hq Hd) as (A1 & A2 & E1 & E2 & M1 & M2 & M3 & M4).
  assert (X : C1 = C1 * C1) by ring.
  split; (eapply maps_ext; [apply idx_lt; lia|apply bmat_two|]); cbn [tracked on_targ flagged]; rewrite X.
  - apply (maps_comp n _ _ _ C1 (c * dt + 0) C1); [apply idx_lt; lia|apply idx_lt; lia| |].
    + apply on1_maps; try lia. eapply maps_ext; [lia|exact E1|exact M1].
    + apply on1_maps; try lia. eapply maps_ext; [lia|exact E2|exact M2].
  - apply (maps_comp n _ _ _ C1 (c * dt + (q + 1)) C1); [apply idx_lt; lia|apply idx_lt; lia| |].
    + apply on1_maps; try lia. eapply maps_ext; [lia|exact E1|exact M3].
    + apply on1_maps; try lia. eapply maps_ext; [lia|exact E2|exact M4].
Qed.
Lemma ctrl_moves q t : (0 < q)%nat -> (q + 1 < dc)%nat -> (t < dt)%nat ->
  maps_ket n (B (moves on_ctrl q)) (q * dt + t) C1 (0 * dt + t) /\ maps_ket n (B (moves on_ctrl q)) ((q + 1) * dt + t) C1 (1 * dt + t).
Proof.
  intros Hq Hd Hc. destruct (two_moves dc q Hq Hd) as (A1 & A2 & E1 & E2 & M1 & M2 & M3 & M4).
  assert (X : C1 = C1 * C1) by ring.
  split; (eapply maps_ext; [apply idx_lt; lia|apply bmat_two|]); cbn [tracked on_ctrl flagged]; rewrite X.
  - apply (maps_comp n _ _ _ C1 (0 * dt + t) C1); [apply idx_lt; lia|apply idx_lt; lia| |].
    + apply on0_maps; try lia. eapply maps_ext; [lia|exact E1|exact M1].
    + apply on0_maps; try lia. eapply maps_ext; [lia|exact E2|exact M2].
  - apply (maps_comp n _ _ _ C1 ((q + 1) * dt + t) C1); [apply idx_lt; lia|apply idx_lt; lia| |].
    + apply on0_maps; try lia. eapply maps_ext; [lia|exact E1|exact M3].
    + apply on0_maps; try lia. eapply maps_ext; [lia|exact E2|exact M4].
Qed.
Lemma moves_targ_ok q : (0 < q)%nat -> (q + 1 < dt)%nat -> forallb (gate_ok dc dt) (moves on_targ q) = true.
Proof. intros. unfold moves. cbn. rewrite !(proj2 (check_levels_spec _ _ _)) by lia. reflexivity. Qed.
Lemma moves_ctrl_ok q : (0 < q)%nat -> (q + 1 < dc)%nat -> forallb (gate_ok dc dt) (moves on_ctrl q) = true.
Proof. intros. unfold moves. cbn. rewrite !(proj2 (check_levels_spec _ _ _)) by lia. reflexivity. Qed.
Lemma ok_dag g : gate_ok dc dt (set_dag g) = gate_ok dc dt g.
Proof. destruct g; reflexivity. Qed.
Lemma ok_back l : forallb (gate_ok dc dt) (map set_dag (rev l)) = forallb (gate_ok dc dt) l.
Proof.
  apply Bool.eq_iff_eq_true. rewrite !forallb_forall. split; intros H x Hx.
  - rewrite <- ok_dag. apply H. apply in_map. apply in_rev in Hx. exact Hx.
  - apply in_map_iff in Hx. destruct Hx as (g & <- & Hg). rewrite ok_dag. apply H. apply in_rev. exact Hg.
Qed.
Lemma crot_ok t f : forallb (gate_ok dc dt) (crot_101 t f) = true.
Proof. unfold crot_101. cbn. rewrite !(proj2 (check_levels_spec _ _ _)) by lia. reflexivity. Qed.

(** crot:82-127: the rotation of states i and i+1 of the pair, for a pair that differs in the second qudit only. *)
Definition ctrl_part (q : nat) (core : list egate) : list egate :=
  if Nat.eqb q 1 then core else on_ctrl (KR 1 (Z.of_nat q) PI (- PI / 2)) :: core ++ [on_ctrl (KR 1 (Z.of_nat q) PI (PI / 2))].
Definition targ_part (q : nat) (core : list egate) : list egate :=
  if Nat.eqb q 0 then core else moves on_targ q ++ core ++ map set_dag (rev (moves on_targ q)).
Lemma permute_crot_list i t f :
  permute_crot dc dt i t f = created dc dt (targ_part (i - dt * (i / dt)) (ctrl_part (i / dt) (crot_101 t f))).
Proof.
  unfold permute_crot, targ_part, ctrl_part. set (q1 := (i - dt * (i / dt))%nat). set (q0 := (i / dt)%nat).
  destruct (Nat.eqb_spec q0 1) as [E0|N0], (Nat.eqb_spec q1 0) as [E1|N1]; cbn [andb negb]; f_equal; unfold moves; cbn [rev map app]; rewrite ?app_nil_r, <- ?app_assoc; reflexivity.
Qed.
Lemma ctrl_part_matrix q t f : (q < dc)%nat -> meq n (B (ctrl_part q (crot_101 t f))) (rotation (q * dt) (q * dt + 1) t f).
Proof.
  intros Hq. unfold ctrl_part. destruct (Nat.eqb_spec q 1) as [->|N].
  - rewrite Nat.mul_1_l. apply crot_101_matrix; lia.
  - destruct (ctrl_there q Hq N) as (s & Ns & M).
    assert (D : Cconj s * s = C1).
    { clear - Ns. destruct s as (p, q). unfold Cnorm2 in Ns. cbn in Ns. apply Ceq; cbn; [|ring]. rewrite <- Ns. ring. }
    apply (conj_block [on_ctrl (KR 1 (Z.of_nat q) PI (- PI / 2))] (crot_101 t f) [on_ctrl (KR 1 (Z.of_nat q) PI (PI / 2))] dt (dt + 1) _ _ s s t); try nia.
    + apply bmat_unitary. cbn [forallb]. rewrite (ctrl_ok 1 q) by lia. reflexivity.
    + apply ctrl_back; assumption.
    + apply crot_101_matrix; assumption.
    + assert (X := M 0%nat ltac:(lia)). rewrite !Nat.add_0_r, Nat.mul_1_l in X. exact X.
    + assert (X := M 1%nat ltac:(lia)). rewrite Nat.mul_1_l in X. exact X.
    + exact Ns.
    + exact Ns.
    + left. split; [exact D|reflexivity].
Qed.
Lemma permute_crot_ok i t f : (i < n)%nat -> ((i + 1) mod dt <> 0)%nat ->
  exists l, permute_crot dc dt i t f = Ok l /\ forallb (gate_ok dc dt) l = true /\ meq n (B l) (rotation i (i + 1) t f).
Proof.
  intros Hi Hm. rewrite permute_crot_list. set (q0 := (i / dt)%nat). set (q1 := (i - dt * q0)%nat).
  assert (D := Nat.div_mod i dt ltac:(lia)). assert (L := Nat.mod_upper_bound i dt ltac:(lia)). fold q0 in D.
  assert (Q0 : (q0 < dc)%nat) by (apply Nat.div_lt_upper_bound; lia).
  assert (E1 : q1 = (i mod dt)%nat) by (unfold q1; lia).
  assert (Q1 : (q1 + 1 < dt)%nat).
  { destruct (Nat.eq_dec (q1 + 1) dt) as [E|]; [|lia]. exfalso. apply Hm. replace (i + 1)%nat with ((q0 + 1) * dt)%nat by nia. apply Nat.mod_mul. lia. }
  assert (C : forallb (gate_ok dc dt) (ctrl_part q0 (crot_101 t f)) = true).
  { unfold ctrl_part. destruct (Nat.eqb_spec q0 1); [apply crot_ok|]. cbn [forallb]. rewrite forallb_app, crot_ok, (ctrl_ok 1 q0) by lia. cbn [forallb].
    rewrite (ctrl_ok 1 q0) by lia. reflexivity. }
  assert (T : forallb (gate_ok dc dt) (targ_part q1 (ctrl_part q0 (crot_101 t f))) = true).
  { unfold targ_part. destruct (Nat.eqb_spec q1 0); [exact C|]. rewrite !forallb_app, ok_back, C, moves_targ_ok by lia. reflexivity. }
  exists (targ_part q1 (ctrl_part q0 (crot_101 t f))). split; [unfold created; rewrite T; reflexivity|]. split; [exact T|].
  assert (Ei : i = (q0 * dt + q1)%nat) by nia.
  unfold targ_part. destruct (Nat.eqb_spec q1 0) as [Z0|N0].
  - rewrite Ei, Z0, Nat.add_0_r. apply ctrl_part_matrix. exact Q0.
  - rewrite Ei. rewrite <- (Nat.add_assoc (q0 * dt) q1 1). destruct (targ_there q1 q0 ltac:(lia) Q1 Q0) as [M1 M2]. rewrite Nat.add_0_r in M1.
    apply (conj_block (moves on_targ q1) (ctrl_part q0 (crot_101 t f)) (map set_dag (rev (moves on_targ q1))) (q0 * dt) (q0 * dt + 1) _ _ C1 C1 t); try nia.
    + apply bmat_unitary, moves_targ_ok; lia.
    + apply back_adj. reflexivity.
    + apply ctrl_part_matrix. exact Q0.
    + exact M1.
    + exact M2.
    + unfold Cnorm2; cbn; ring.
    + unfold Cnorm2; cbn; ring.
    + left. split; [apply Ceq; cbn; ring|reflexivity].
Qed.
End Perm.
