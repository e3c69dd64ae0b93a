(** The phase blocks and the decomposition of a two-qudit gate. *)
From Coq Require Import Reals Lra Lia List Arith ZArith.
From Verif.Base Require Import Py Cplx Matrix Fiber Angle.
From Verif.Gates Require Import AnglesModel AnglesSpec AnglesProofs SingleModel SingleSpec SingleProofs TwoModel TwoSpec TwoProofs.
From Verif.Levels Require Import LevelsModel.
From Verif.Sim Require Import TnSpec.
From Verif.Local Require Import QrModel QrMath QrCore QrSpec QrProofs.
From Verif.Ent Require Import BlockModel BlockSpec PairMath CrotProofs PermProofs QuadMath SwapProofs.
Import ListNotations.
Local Open Scope C_scope.

(** *** The circuit of the specification *)
Lemma kind_local d k : kind_ok d k = true -> (match k with KV a _ => (0 <= a < Z.of_nat d)%Z | _ => True end) -> meq d (kind_matrix d k) (local_op k).
Proof.
  destruct k as [a b t f|a b f|a b|a f]; cbn [kind_ok kind_matrix local_op]; intros H V.
  - apply check_levels_spec in H. rewrite (proj2 (r_matrix_spec d (PList [PInt a; PInt b; PFloat t; PFloat f]) (r_array d (Z.to_nat (Z.min a b)) (Z.to_nat (Z.max a b)) (regulate_theta t) f))).
    + cbn [the]. eapply meq_trans; [apply r_array_rotation; lia|]. apply rotation_regulated.
    + exists a, b, t, f, []. intuition lia.
  - apply check_levels_spec in H. destruct (rz_matrix_spec d a b f []) as (M & -> & E); try lia. exact E.
  - assert (H' := proj1 (check_levels_spec d a b) H). unfold rh_matrix. cbn. rewrite H. cbn [the]. rewrite levels_setter_spec. apply rh_array_spec; lia.
  - apply virtrz_matrix_spec. exact V.
Qed.
Definition kv0 (g : egate) : bool := match g with ELoc _ (KV a _) _ => Z.eqb a 0 | _ => true end.
(** Qubit pairs need no daggered gate. *)
Definition unflagged (g : egate) : bool := negb (match g with ELoc _ _ d => d | ECex d => d end).
Definition good (dc dt : nat) (l : list egate) : Prop :=
  forallb (gate_ok dc dt) l = true /\ forallb kv0 l = true /\ (dc = 2%nat -> dt = 2%nat -> forallb unflagged l = true).
Lemma good_app dc dt l1 l2 : good dc dt l1 -> good dc dt l2 -> good dc dt (l1 ++ l2).
Proof. intros (A & B & C) (D & E & F). split; [|split; [|intros Q1 Q2]]; rewrite forallb_app; [rewrite A, D|rewrite B, E|rewrite C, F by assumption]; reflexivity. Qed.
Lemma good_nil dc dt : good dc dt [].
Proof. repeat split. Qed.
Lemma created_kv0 dc dt l l' : created dc dt l = Ok l' -> forallb kv0 l = true -> forallb kv0 l' = true.
Proof. unfold created. destruct (forallb (gate_ok dc dt) l); intros E H; inversion E; subst; exact H. Qed.
Lemma crot_kv0 dc dt i t f l : permute_crot dc dt i t f = Ok l -> forallb kv0 l = true.
Proof.
  unfold permute_crot. intros H. apply (created_kv0 _ _ _ _ H). clear H.
  destruct (Nat.eqb (i / dt) 1), (Nat.eqb (i - dt * (i / dt)) 0); reflexivity.
Qed.
Lemma pswap_kv0 dc dt i t f l : permute_pswap dc dt i t f false = Ok l -> forallb kv0 l = true.
Proof.
  unfold permute_pswap. intros H. apply (created_kv0 _ _ _ _ H). clear H. unfold pswap_no_phases, pswap_phases.
  destruct (Nat.eqb (i / dt) 0), (Nat.eqb dt 2); reflexivity.
Qed.
Lemma created_same dc dt l l' : created dc dt l = Ok l' -> l' = l.
Proof. unfold created. destruct (forallb (gate_ok dc dt) l); intros E; inversion E; reflexivity. Qed.
Lemma crot_unflagged i t f l : (i < 2 * 2)%nat -> ((i + 1) mod 2 <> 0)%nat -> permute_crot 2 2 i t f = Ok l -> forallb unflagged l = true.
Proof.
  intros Hi Hm H. unfold permute_crot in H. rewrite (created_same _ _ _ _ H). clear H.
  destruct i as [|[|[|[|i]]]]; try lia; try reflexivity; exfalso; apply Hm; reflexivity.
Qed.
Lemma pswap_unflagged i t f l : (i + 1 < 2 * 2)%nat -> ((i + 1) mod 2 = 0)%nat -> permute_pswap 2 2 i t f false = Ok l -> forallb unflagged l = true.
Proof.
  intros Hi Hm H. unfold permute_pswap in H. rewrite (created_same _ _ _ _ H). clear H.
  destruct i as [|[|[|[|i]]]]; try lia; try discriminate Hm; reflexivity.
Qed.
Lemma good_valid dc dt l : (2 <= dc)%nat -> (2 <= dt)%nat -> good dc dt l -> Forall (valid_gate dc dt) l.
Proof.
  intros Hc Ht (A & B & _). apply Forall_forall. intros g Hg. rewrite forallb_forall in A, B. specialize (A g Hg). specialize (B g Hg).
  destruct g as [s k dag|dag]; [|exact Logic.I]. destruct k as [a b t f|a b f|a b|a f]; cbn [valid_gate gate_ok kind_ok kv0] in *; try (apply check_levels_spec in A; destruct s; lia).
  apply Z.eqb_eq in B. destruct s; lia.
Qed.

Lemma chain_map_ext {X} n (f g : X -> mat) l : (forall x, In x l -> meq n (f x) (g x)) -> meq n (chain n (map f l)) (chain n (map g l)).
Proof.
  intros H. apply chain_ext. induction l as [|x l IH]; cbn; constructor; [apply H; left; reflexivity|]. apply IH. intros y Hy. apply H. right. exact Hy.
Qed.
Lemma fold_chain {X} n (f : X -> mat) l M : fold_left (fun M x => mmul n (f x) M) l M = fold_left (fun M A => mmul n A M) (map f l) M.
Proof. revert M. induction l as [|x l IH]; intros M; cbn; [reflexivity|apply IH]. Qed.
Lemma two_level_adj' d a b x y z w : a <> b -> meq d (madj (two_level a b x y z w)) (two_level a b (Cconj x) (Cconj z) (Cconj y) (Cconj w)).
Proof. apply two_level_adj. Qed.

Section Exec.
Variables (dc dt : nat).
Hypothesis Hdc : (2 <= dc)%nat.
Hypothesis Hdt : (2 <= dt)%nat.
Notation n := (dc * dt)%nat.
Notation B := (bmat dc dt).

Lemma gate_tracked g : gate_ok dc dt g = true -> kv0 g = true -> meq n (tracked dc dt true g) (gate_op dc dt g).
Proof.
  destruct g as [s k dag|dag]; cbn [gate_ok tracked gate_op]; intros H V.
  - assert (X : forall d, (2 <= d)%nat -> kind_ok d k = true -> meq d (flagged dag (kind_matrix d k)) (dagger dag (local_op k))).
    { intros d Hd K. assert (E : meq d (kind_matrix d k) (local_op k)).
      { apply kind_local; [exact K|]. destruct k; trivial. cbn in V. apply Z.eqb_eq in V. lia. }
      destruct dag; [apply madj_ext; exact E|exact E]. }
    destruct s; apply mkron_ext; try apply meq_refl; apply X; trivial.
  - assert (E : meq n (the (cex_array dc dt true (Cex 0 1 1 0))) (two_level (1 * dt + 0) (1 * dt + 1) C0 (- Ci) (- Ci) C0)).
    { eapply meq_trans; [apply cex_blk; assumption|]. unfold rotation. eapply meq_trans; [apply blk_two_level; lia|].
      rewrite cos_PI2, sin_PI2, Ropp_0, cis_0, RtoC_0, RtoC_1. apply two_level_ext; ring. }
    destruct dag; [apply madj_ext; exact E|exact E].
Qed.
Lemma circuit_bmat l : good dc dt l -> meq n (circuit_op dc dt l) (B l).
Proof.
  intros (A & K & _). unfold circuit_op. rewrite fold_chain. unfold bmat. apply meq_sym. apply chain_map_ext. intros g Hg.
  rewrite forallb_forall in A, K. apply gate_tracked; [apply A|apply K]; exact Hg.
Qed.
Lemma circuit_unitary l : good dc dt l -> unitary n (circuit_op dc dt l).
Proof. intros G. eapply unitary_ext; [apply meq_sym, circuit_bmat; exact G|]. apply bmat_unitary; try assumption. apply G. Qed.

(** *** The blocks *)
Lemma crot_block i t f : (i < n)%nat -> ((i + 1) mod dt <> 0)%nat ->
  exists l, permute_crot dc dt i t f = Ok l /\ good dc dt l /\ meq n (B l) (rotation i (i + 1) t f).
Proof.
  intros Hi Hm. destruct (permute_crot_ok dc dt Hdc Hdt i t f Hi Hm) as (l & E & G & M). exists l. split; [exact E|]. split; [|exact M].
  split; [exact G|]. split; [apply (crot_kv0 _ _ _ _ _ _ E)|]. intros -> ->. apply (crot_unflagged i t f); assumption.
Qed.
Lemma pswap_block i t f : (i + 1 < n)%nat -> ((i + 1) mod dt = 0)%nat ->
  exists l, permute_pswap dc dt i t f false = Ok l /\ good dc dt l /\ meq n (B l) (rotation i (i + 1) t f).
Proof.
  intros Hi Hm. destruct (permute_pswap_ok dc dt Hdc Hdt i t f Hi Hm) as (l & E & G & M). exists l. split; [exact E|]. split; [|exact M].
  split; [exact G|]. split; [apply (pswap_kv0 _ _ _ _ _ _ E)|]. intros -> ->. apply (pswap_unflagged i t f); assumption.
Qed.
End Exec.

(** R(pi/2, 0) R(phi, pi/2) R(-pi/2, 0) is a phase rotation. *)
Lemma z_frame p : m2mul (m_rot (PI / 2) 0) (m2mul (m_rot p (PI / 2)) (m_rot (- PI / 2) 0)) = m_z p.
Proof.
  unfold m_rot, m_z. replace (- PI / 2 / 2)%R with (- (PI / 4))%R by field. replace (PI / 2 / 2)%R with (PI / 4)%R by field.
  rewrite cos_neg, sin_neg, Ropp_0, cis_0, (cis_neg (PI / 2)), cis_PI2, Cconj_i, (cis_neg (p / 2)).
  assert (E : (cos (PI / 4) * cos (PI / 4) = 1 / 2)%R) by (rewrite cos_PI4; apply half_sqrt2).
  assert (F : sin (PI / 4) = cos (PI / 4)) by (rewrite sin_PI4, cos_PI4; reflexivity). rewrite F.
  set (q := cos (PI / 4)) in *. clearbody q. clear F. unfold cis. set (c := cos (p / 2)). set (s := sin (p / 2)). clearbody c s.
  apply m2_eq; cbn [m2mul m00 m01 m10 m11]; apply Ceq; cbn; 
    match goal with |- _ = ?r => transitivity ((2 * (q * q)) * r)%R; [ring|rewrite E; field] end.
Qed.
Lemma z_block n i p : (i + 1 < n)%nat ->
  meq n (mmul n (rotation i (i + 1) (PI / 2) 0) (mmul n (rotation i (i + 1) p (PI / 2)) (rotation i (i + 1) (- PI / 2) 0))) (zrot i (i + 1) p).
Proof.
  intros H. change (rotation i (i + 1)) with (fun t f => tl i (i + 1) (m_rot t f)). cbv beta. unfold tl.
  eapply meq_trans; [apply mmul_ext; [apply meq_refl|apply two_level_mul; lia]|]. eapply meq_trans; [apply two_level_mul; lia|].
  assert (E := z_frame p).
  apply two_level_ext; [exact (f_equal m00 E)|exact (f_equal m01 E)|exact (f_equal m10 E)|exact (f_equal m11 E)].
Qed.

(** *** Counting *)
Lemma cex_app l1 l2 : cex_gates (l1 ++ l2) = (cex_gates l1 + cex_gates l2)%nat.
Proof. unfold cex_gates. rewrite filter_app, app_length. reflexivity. Qed.
Lemma crot_cex dc dt i t f l : permute_crot dc dt i t f = Ok l -> cex_gates l = 2%nat.
Proof.
  unfold permute_crot. intros H. rewrite (created_same _ _ _ _ H). clear H.
  destruct (Nat.eqb (i / dt) 1), (Nat.eqb (i - dt * (i / dt)) 0); reflexivity.
Qed.
Lemma pswap_cex dc dt i t f l : permute_pswap dc dt i t f false = Ok l -> cex_gates l = 16%nat.
Proof.
  unfold permute_pswap. intros H. rewrite (created_same _ _ _ _ H). clear H. unfold pswap_no_phases, pswap_phases.
  destruct (Nat.eqb (i / dt) 0), (Nat.eqb dt 2); reflexivity.
Qed.

Section Sim.
Variables (dc dt : nat).
Hypothesis Hdc : (2 <= dc)%nat.
Hypothesis Hdt : (2 <= dt)%nat.
Notation n := (dc * dt)%nat.
Notation B := (bmat dc dt).
Variables (eps delta : R).

Lemma apply_bmat l u : meq n (apply_all dc dt true l u) (mmul n (B l) u).
Proof. unfold apply_all, bmat. rewrite fold_chain. apply chain_from. Qed.

(** What a run of either loop adds to the state: gates, their matrix and the counters. *)
Record grown (k : nat) (s s' : estate) (A : mat) : Prop := {
  gr_ops : exists l, e_ops s' = e_ops s ++ l /\ good dc dt l /\ meq n (B l) A /\ meq n (e_u s') (mmul n A (e_u s)) /\
    exists c p, e_crot s' = (e_crot s + c)%nat /\ e_pswap s' = (e_pswap s + 4 * p)%nat /\ cex_gates l = (2 * c + 16 * p)%nat /\ (c + p <= k)%nat }.
Lemma grown_refl s : grown 0 s s mid.
Proof.
  constructor. exists []. rewrite app_nil_r. split; [reflexivity|]. split; [apply good_nil|]. split; [apply meq_refl|]. split; [apply meq_sym, mmul_id_l|].
  exists 0%nat, 0%nat. cbn. lia.
Qed.
Lemma grown_ext k s s' A A' : meq n A A' -> grown k s s' A -> grown k s s' A'.
Proof.
  intros E [(l & O & G & M & U & c & p & H)]. constructor. exists l. split; [exact O|]. split; [exact G|].
  split; [eapply meq_trans; [exact M|exact E]|]. split; [eapply meq_trans; [exact U|apply mmul_ext; [exact E|apply meq_refl]]|]. exists c, p. exact H.
Qed.
Lemma grown_le k k' s s' A : (k <= k')%nat -> grown k s s' A -> grown k' s s' A.
Proof.
  intros L [(l & O & G & M & U & c & p & H1 & H2 & H3 & H4)]. constructor. exists l. do 4 (split; [assumption|]). exists c, p. do 3 (split; [assumption|]). lia.
Qed.
Lemma grown_trans k k' s s' s'' A A' : grown k s s' A -> grown k' s' s'' A' -> grown (k + k') s s'' (mmul n A' A).
Proof.
  intros [(l & O & G & M & U & c & p & H1 & H2 & H3 & H4)] [(l' & O' & G' & M' & U' & c' & p' & H1' & H2' & H3' & H4')].
  constructor. exists (l ++ l'). split; [rewrite O', O, app_assoc; reflexivity|]. split; [apply good_app; assumption|].
  split; [eapply meq_trans; [apply bmat_app|apply mmul_ext; assumption]|].
  split.
  - eapply meq_trans; [exact U'|]. eapply meq_trans; [apply mmul_ext; [apply meq_refl|exact U]|]. apply meq_sym, mmul_assoc.
  - exists (c + c')%nat, (p + p')%nat. rewrite cex_app. lia.
Qed.

Lemma step_grown s r c v : (0 < r < n)%nat -> (c < n)%nat -> meq n (e_u s) v ->
  exists s' A, ent_step eps dc dt true s (r, c) = Ok s' /\ grown 1 s s' A /\ meq n (e_u s') (ustep eps n v (r, c)).
Proof.
  intros Hr Hc E. unfold ent_step, ustep. rewrite (E r c) by lia. destruct (Rlt_dec eps (Cmod (v r c))) as [Y|Y].
  2:{ exists s, mid. split; [reflexivity|]. split; [apply (grown_le 0); [lia|apply grown_refl]|exact E]. }
  assert (Et : qr_theta (e_u s) r c = qr_theta v r c) by (unfold qr_theta; rewrite !E by lia; reflexivity).
  assert (Ef : qr_phi (e_u s) r c = qr_phi v r c) by (unfold qr_phi; rewrite !E by lia; reflexivity).
  rewrite Et, Ef. set (t := qr_theta v r c). set (f := pi_mod (qr_phi v r c)).
  assert (T : meq n (rotation (r - 1) (r - 1 + 1) t f) (turn n v r c)).
  { eapply meq_trans; [|apply meq_sym, turn_rotation; lia]. replace (r - 1 + 1)%nat with r by lia. apply rotation_ext; try reflexivity.
    apply cis_same_mod. apply pi_mod_spec. }
  assert (F : forall l u k1 k2 c1 p1, u = e_u s -> good dc dt l -> meq n (B l) (rotation (r - 1) (r - 1 + 1) t f) -> k1 = (e_crot s + c1)%nat -> k2 = (e_pswap s + 4 * p1)%nat ->
      cex_gates l = (2 * c1 + 16 * p1)%nat -> (c1 + p1 <= 1)%nat ->
      grown 1 s (ES (e_ops s ++ l) (apply_all dc dt true l u) k1 k2) (rotation (r - 1) (r - 1 + 1) t f) /\
      meq n (apply_all dc dt true l u) (mmul n (turn n v r c) v)).
  { intros l u k1 k2 c1 p1 -> G M K1 K2 N L. assert (U : meq n (apply_all dc dt true l (e_u s)) (mmul n (rotation (r - 1) (r - 1 + 1) t f) (e_u s))).
    { eapply meq_trans; [apply apply_bmat|]. apply mmul_ext; [exact M|apply meq_refl]. }
    split.
    - constructor. exists l. cbn [e_ops e_u e_crot e_pswap]. do 4 (split; [trivial|]). exists c1, p1. auto.
    - eapply meq_trans; [exact U|]. apply mmul_ext; [exact T|exact E]. }
  destruct (negb (Nat.eqb (r - 1) 0) && Nat.eqb (r mod dt) 0)%bool eqn:Q.
  - apply Bool.andb_true_iff in Q. destruct Q as [Q1 Q2]. apply Nat.eqb_eq in Q2.
    destruct (pswap_block dc dt Hdc Hdt (r - 1) t f) as (l & El & G & M); [lia|replace (r - 1 + 1)%nat with r by lia; exact Q2|].
    rewrite El. cbn [bindr]. assert (N := pswap_cex _ _ _ _ _ _ El).
    destruct (F l (e_u s) (e_crot s) (e_pswap s + 4)%nat 0%nat 1%nat eq_refl G M) as [F1 F2]; try lia.
    eexists. exists (rotation (r - 1) (r - 1 + 1) t f). split; [reflexivity|]. split; assumption.
  - destruct (crot_block dc dt Hdc Hdt (r - 1) t f) as (l & El & G & M); [lia| |].
    { replace (r - 1 + 1)%nat with r by lia. apply Bool.andb_false_iff in Q. destruct Q as [Q|Q]; [|apply Nat.eqb_neq in Q; exact Q].
      apply Bool.negb_false_iff, Nat.eqb_eq in Q. replace r with 1%nat by lia. rewrite Nat.mod_1_l; lia. }
    rewrite El. cbn [bindr]. assert (N := crot_cex _ _ _ _ _ _ El).
    destruct (F l (e_u s) (e_crot s + 1)%nat (e_pswap s) 1%nat 0%nat eq_refl G M) as [F1 F2]; try lia.
    eexists. exists (rotation (r - 1) (r - 1 + 1) t f). split; [reflexivity|]. split; assumption.
Qed.
Lemma steps_grown l : (forall rc, In rc l -> (0 < fst rc < n)%nat /\ (snd rc < n)%nat) -> forall s v, meq n (e_u s) v ->
  exists s' A, foldr (ent_step eps dc dt true) l s = Ok s' /\ grown (List.length l) s s' A /\ meq n (e_u s') (fold_left (ustep eps n) l v).
Proof.
  induction l as [|(r, c) l IH]; intros R s v E.
  - exists s, mid. split; [reflexivity|]. split; [apply grown_refl|exact E].
  - destruct (R (r, c) (or_introl eq_refl)) as [R1 R2]. cbn [fst snd] in R1, R2.
    destruct (step_grown s r c v R1 R2 E) as (s1 & A1 & S1 & G1 & U1).
    destruct (IH (fun rc H => R rc (or_intror H)) s1 _ U1) as (s2 & A2 & S2 & G2 & U2).
    exists s2, (mmul n A2 A1). cbn [foldr fold_left]. rewrite S1. cbn [bindr]. split; [exact S2|]. split; [|exact U2].
    apply (grown_trans 1 (List.length l) s s1 s2 A1 A2); assumption.
Qed.

(** *** The phases *)
Definition sel (x : R) : R := if Rlt_dec delta (Rabs (x * 2)) then x else 0%R.
Lemma z_gen (gen : R -> R -> res (list egate)) i k p : (i + 1 < n)%nat ->
  (forall t f, exists l, gen t f = Ok l /\ good dc dt l /\ meq n (B l) (rotation i (i + 1) t f) /\ cex_gates l = k) ->
  exists l, (let? a := gen (PI / 2)%R 0%R in let? b := gen p (PI / 2)%R in let? c := gen (- PI / 2)%R 0%R in Ok (c ++ b ++ a)) = Ok l /\
    good dc dt l /\ meq n (B l) (zrot i (i + 1) p) /\ cex_gates l = (3 * k)%nat.
Proof.
  intros Hi H. destruct (H (PI / 2)%R 0%R) as (l1 & E1 & G1 & M1 & C1'). destruct (H p (PI / 2)%R) as (l2 & E2 & G2 & M2 & C2'). destruct (H (- PI / 2)%R 0%R) as (l3 & E3 & G3 & M3 & C3').
  rewrite E1, E2, E3. cbn [bindr]. exists (l3 ++ l2 ++ l1). split; [reflexivity|]. split; [repeat apply good_app; assumption|].
  split; [|rewrite !cex_app; lia]. eapply meq_trans; [apply bmat_app|]. eapply meq_trans; [apply mmul_ext; [apply bmat_app|apply meq_refl]|].
  eapply meq_trans; [apply mmul_ext; [apply mmul_ext; [exact M1|exact M2]|exact M3]|]. eapply meq_trans; [apply mmul_assoc|]. apply z_block. exact Hi.
Qed.
Lemma zcrot_block i p : (i + 1 < n)%nat -> ((i + 1) mod dt <> 0)%nat ->
  exists l, z_from_crot dc dt i p = Ok l /\ good dc dt l /\ meq n (B l) (zrot i (i + 1) p) /\ cex_gates l = 6%nat.
Proof.
  intros Hi Hm. apply (z_gen (permute_crot dc dt i) i 2 p Hi). intros t f. destruct (crot_block dc dt Hdc Hdt i t f ltac:(lia) Hm) as (l & E & G & M).
  exists l. split; [exact E|]. split; [exact G|]. split; [exact M|]. apply (crot_cex _ _ _ _ _ _ E).
Qed.
Lemma zpswap_block i p : (i + 1 < n)%nat -> ((i + 1) mod dt = 0)%nat ->
  exists l, z_pswap dc dt i p = Ok l /\ good dc dt l /\ meq n (B l) (zrot i (i + 1) p) /\ cex_gates l = 48%nat.
Proof.
  intros Hi Hm. apply (z_gen (fun t f => permute_pswap dc dt i t f false) i 16 p Hi). intros t f. destruct (pswap_block dc dt Hdc Hdt i t f ltac:(lia) Hm) as (l & E & G & M).
  exists l. split; [exact E|]. split; [exact G|]. split; [exact M|]. apply (pswap_cex _ _ _ _ _ _ E).
Qed.

(** The angle removed from state k by the phases l of the pairs (i0, i0+1), (i0+1, i0+2), ... *)
Fixpoint dphase (l : list R) (i0 k : nat) : R :=
  match l with
  | [] => 0%R
  | x :: r => ((if Nat.eqb k i0 then - sel x else if Nat.eqb k (i0 + 1) then sel x else 0) + dphase r (i0 + 1) k)%R
  end.
Lemma sel_0 : sel 0 = 0%R.
Proof. unfold sel. destruct (Rlt_dec _ _); reflexivity. Qed.
Lemma dphase_low l i0 k : (k < i0)%nat -> dphase l i0 k = 0%R.
Proof.
  revert i0. induction l as [|x l IH]; intros i0 H; [reflexivity|]. cbn [dphase]. rewrite IH by lia.
  destruct (Nat.eqb_spec k i0); [lia|]. destruct (Nat.eqb_spec k (i0 + 1)); [lia|]. ring.
Qed.
Lemma dphase_at l : forall i0 k, dphase l i0 (i0 + k) = ((match k with O => 0 | S k' => sel (nth k' l 0) end) - sel (nth k l 0))%R.
Proof.
  induction l as [|x l IH]; intros i0 k.
  - destruct k as [|k]; cbn [dphase nth]; [|destruct k]; rewrite !sel_0; ring.
  - cbn [dphase]. destruct k as [|k].
    + rewrite Nat.add_0_r, Nat.eqb_refl, dphase_low by lia. cbn [nth]. ring.
    + replace (Nat.eqb (i0 + S k) i0) with false by (symmetry; apply Nat.eqb_neq; lia). replace (i0 + S k)%nat with (i0 + 1 + k)%nat by lia.
      rewrite IH. destruct k as [|k].
      * rewrite Nat.add_0_r, Nat.eqb_refl. cbn [nth]. ring.
      * replace (Nat.eqb (i0 + 1 + S k) (i0 + 1)) with false by (symmetry; apply Nat.eqb_neq; lia). cbn [nth]. ring.
Qed.
Lemma zrot_diag d i x : meq d (zrot i (i + 1) (x * 2)) (mdiag (fun k => cis (if Nat.eqb k i then - x else if Nat.eqb k (i + 1) then x else 0)%R)).
Proof.
  intros r s Hr Hs. unfold zrot, two_level, mdiag, mid. replace (x * 2 / 2)%R with x by field.
  destruct (Nat.eqb_spec r i) as [->|N1].
  - destruct (Nat.eqb_spec s i) as [->|N2]; [rewrite Nat.eqb_refl; reflexivity|]. replace (Nat.eqb i s) with false by (symmetry; apply Nat.eqb_neq; auto).
    destruct (Nat.eqb s (i + 1)); reflexivity.
  - destruct (Nat.eqb_spec r (i + 1)) as [->|N2].
    + destruct (Nat.eqb_spec s i) as [->|N3]; [destruct (Nat.eqb_spec (i + 1) i); [lia|reflexivity]|]. destruct (Nat.eqb_spec s (i + 1)) as [->|N4]; [rewrite Nat.eqb_refl; reflexivity|].
      destruct (Nat.eqb_spec (i + 1) s); [congruence|reflexivity].
    + destruct (Nat.eqb_spec s i) as [->|N3]; [destruct (Nat.eqb_spec r i); [lia|reflexivity]|]. destruct (Nat.eqb_spec s (i + 1)) as [->|N4]; [destruct (Nat.eqb_spec r (i + 1)); [lia|reflexivity]|].
      rewrite cis_0. reflexivity.
Qed.
Lemma phase_grown s i x : (i + 1 < n)%nat ->
  exists s', ent_phase delta dc dt true s (i, x) = Ok s' /\ grown 3 s s' (mdiag (fun k => cis (dphase [x] i k))).
Proof.
  intros Hi. unfold ent_phase.
  assert (D : meq n (mdiag (fun k => cis (if Nat.eqb k i then - sel x else if Nat.eqb k (i + 1) then sel x else 0)%R)) (mdiag (fun k => cis (dphase [x] i k)))).
  { intros r q _ _. unfold mdiag. cbn [dphase]. rewrite Rplus_0_r. reflexivity. }
  destruct (Rlt_dec delta (Rabs (x * 2))) as [Y|Y].
  2:{ exists s. split; [reflexivity|]. apply (grown_le 0); [lia|]. eapply grown_ext; [exact D|]. eapply grown_ext; [|apply grown_refl].
      unfold sel. destruct (Rlt_dec delta (Rabs (x * 2))); [contradiction|]. rewrite Ropp_0. intros r q _ _. unfold mdiag, mid.
      destruct (Nat.eqb r i), (Nat.eqb r (i + 1)); rewrite cis_0; reflexivity. }
  assert (D' : meq n (zrot i (i + 1) (x * 2)) (mdiag (fun k => cis (dphase [x] i k)))).
  { eapply meq_trans; [apply zrot_diag|]. unfold sel in D. destruct (Rlt_dec delta (Rabs (x * 2))); [exact D|contradiction]. }
  assert (F : forall l k1 k2 c1 p1, good dc dt l -> meq n (B l) (zrot i (i + 1) (x * 2)) -> k1 = (e_crot s + c1)%nat -> k2 = (e_pswap s + 4 * p1)%nat ->
      cex_gates l = (2 * c1 + 16 * p1)%nat -> (c1 + p1 <= 3)%nat ->
      grown 3 s (ES (e_ops s ++ l) (apply_all dc dt true l (e_u s)) k1 k2) (mdiag (fun k => cis (dphase [x] i k)))).
  { intros l k1 k2 c1 p1 G M K1 K2 N L. eapply grown_ext; [exact D'|]. constructor. exists l. cbn [e_ops e_u e_crot e_pswap].
    split; [reflexivity|]. split; [exact G|]. split; [exact M|]. split; [|exists c1, p1; auto].
    eapply meq_trans; [apply apply_bmat|]. apply mmul_ext; [exact M|apply meq_refl]. }
  destruct (negb (Nat.eqb i 0) && Nat.eqb ((i + 1) mod dt) 0)%bool eqn:Q.
  - apply Bool.andb_true_iff in Q. destruct Q as [Q1 Q2]. apply Nat.eqb_eq in Q2.
    destruct (zpswap_block i (x * 2) Hi Q2) as (l & El & G & M & N). rewrite El. cbn [bindr]. eexists. split; [reflexivity|].
    apply (F l _ _ 0%nat 3%nat); trivial; lia.
  - destruct (zcrot_block i (x * 2) Hi) as (l & El & G & M & N).
    { apply Bool.andb_false_iff in Q. destruct Q as [Q|Q]; [|apply Nat.eqb_neq in Q; exact Q].
      apply Bool.negb_false_iff, Nat.eqb_eq in Q. subst i. rewrite Nat.mod_1_l; lia. }
    rewrite El. cbn [bindr]. eexists. split; [reflexivity|]. apply (F l _ _ 3%nat 0%nat); trivial; lia.
Qed.
Lemma phases_grown l : forall s i0, (i0 + List.length l + 1 <= n)%nat ->
  exists s', foldr (ent_phase delta dc dt true) (combine (seq i0 (List.length l)) l) s = Ok s' /\ grown (3 * List.length l) s s' (mdiag (fun k => cis (dphase l i0 k))).
Proof.
  induction l as [|x l IH]; intros s i0 H.
  - exists s. split; [reflexivity|]. eapply grown_ext; [|apply grown_refl]. intros r q _ _. cbn [dphase]. rewrite cis_0. reflexivity.
  - cbn [List.length] in H. destruct (phase_grown s i0 x ltac:(lia)) as (s1 & E1 & G1). destruct (IH s1 (S i0) ltac:(lia)) as (s2 & E2 & G2).
    exists s2. cbn [List.length seq combine foldr]. rewrite E1. cbn [bindr]. split; [exact E2|].
    replace (3 * S (List.length l))%nat with (3 + 3 * List.length l)%nat by lia. eapply grown_ext; [|apply (grown_trans _ _ _ _ _ _ _ G1 G2)].
    eapply meq_trans; [apply mdiag_mul_l|]. intros r q _ _. unfold mdiag. destruct (Nat.eqb r q); [|ring]. rewrite <- cis_add. f_equal. cbn [dphase].
    rewrite Rplus_0_r. replace (S i0) with (i0 + 1)%nat by lia. ring.
Qed.
End Sim.

(** *** The equations of the phases *)
Local Open Scope R_scope.
Lemma sum_rsum n f : sum_to n f = rsum n f.
Proof. induction n as [|n IH]; cbn; [reflexivity|rewrite IH; reflexivity]. Qed.
Definition rowf (m : nat) (y : nat -> R) (k : nat) : R := (if Nat.ltb k m then y k else 0) - match k with O => 0 | S k' => y k' end.
Lemma row_value m y k : (k < m + 1)%nat -> sum_to m (fun j => phase_equations k j * y j) = rowf m y k.
Proof.
  intros Hk. rewrite sum_rsum. unfold rowf.
  rewrite (rsum_ext m _ (fun j => (if Nat.eqb j k then y j else 0) + (if Nat.eqb (j + 1) k then - y j else 0))).
  - rewrite rsum_add.
    assert (A : rsum m (fun j => if Nat.eqb j k then y j else 0) = if Nat.ltb k m then y k else 0).
    { destruct (Nat.ltb_spec k m); [apply (rsum_pick m y k); assumption|]. apply rsum_0. intros j Hj. destruct (Nat.eqb_spec j k); [lia|reflexivity]. }
    rewrite A. destruct k as [|k].
    + rewrite (rsum_0 m); [ring|]. intros j Hj. destruct (Nat.eqb_spec (j + 1) 0); [lia|reflexivity].
    + rewrite (rsum_ext m (fun j => if Nat.eqb (j + 1) (S k) then - y j else 0) (fun j => if Nat.eqb j k then - y j else 0)).
      * rewrite (rsum_pick m (fun j => - y j) k) by lia. ring.
      * intros j Hj. destruct (Nat.eqb_spec (j + 1) (S k)), (Nat.eqb_spec j k); try lia; reflexivity.
  - intros j Hj. unfold phase_equations. rewrite (Nat.eqb_sym k j), (Nat.eqb_sym k (j + 1)).
    destruct (Nat.eqb_spec j k), (Nat.eqb_spec (j + 1) k); try lia; ring.
Qed.
Lemma col_value n r i : (i + 1 < n)%nat -> sum_to n (fun k => phase_equations k i * r k) = r i - r (i + 1)%nat.
Proof.
  intros Hi. rewrite sum_rsum.
  rewrite (rsum_ext n _ (fun k => (if Nat.eqb k i then r k else 0) + (if Nat.eqb k (i + 1) then - r k else 0))).
  - rewrite rsum_add, (rsum_pick n r i), (rsum_pick n (fun k => - r k) (i + 1)) by lia. ring.
  - intros k Hk. unfold phase_equations. destruct (Nat.eqb_spec k i), (Nat.eqb_spec k (i + 1)); try lia; ring.
Qed.
Lemma inv_value n y i : (i + 1 < n)%nat -> sum_to (n - 1) (fun j => pseudo_inv n i j * y j) = rowf (n - 1) y i - rowf (n - 1) y (i + 1).
Proof.
  intros Hi. rewrite <- (col_value n (rowf (n - 1) y) i Hi). rewrite !sum_rsum.
  rewrite (rsum_ext (n - 1) _ (fun j => rsum n (fun k => phase_equations k i * (phase_equations k j * y j)))).
  - rewrite rsum_swap. apply rsum_ext. intros k Hk. rewrite rsum_scal. f_equal. rewrite <- row_value by lia. symmetry. apply sum_rsum.
  - intros j Hj. unfold pseudo_inv. rewrite sum_rsum, Rmult_comm, <- rsum_scal. apply rsum_ext. intros k Hk. ring.
Qed.
(** The residuals of a solution are all the same. *)
Lemma solution_const n y b : solves (n - 1) (pseudo_inv n) y (pseudo_diag n b) -> forall k, (k < n)%nat -> rowf (n - 1) y k - b k = rowf (n - 1) y 0 - b 0%nat.
Proof.
  intros S k. induction k as [|k IH]; intros Hk; [reflexivity|]. rewrite <- IH by lia. assert (E := S k ltac:(lia)).
  rewrite inv_value in E by lia. unfold pseudo_diag in E. rewrite col_value in E by lia. rewrite Nat.add_1_r in E. lra.
Qed.
Lemma rowf_sum m y : rsum (m + 1) (rowf m y) = 0.
Proof.
  assert (G : forall k, (k <= m)%nat -> rsum k (rowf m y) = match k with O => 0 | S k' => y k' end).
  { induction k as [|k IH]; intros Hk; [reflexivity|]. cbn [rsum]. rewrite IH by lia. unfold rowf. destruct (Nat.ltb_spec k m); [|lia]. destruct k; ring. }
  rewrite Nat.add_1_r. cbn [rsum]. rewrite G by lia. unfold rowf. rewrite Nat.ltb_irrefl. destruct m; ring.
Qed.
Lemma not_singular n y : (2 <= n)%nat -> solves (n - 1) (pseudo_inv n) y (fun _ => 0) -> forall i, (i < n - 1)%nat -> y i = 0.
Proof.
  intros Hn HS. assert (K : forall k, (k < n)%nat -> rowf (n - 1) y k = 0).
  { assert (C : forall k, (k < n)%nat -> rowf (n - 1) y k = rowf (n - 1) y 0).
    { induction k as [|k IH]; intros Hk; [reflexivity|]. rewrite <- IH by lia. assert (E := HS k ltac:(lia)). rewrite inv_value in E by lia. rewrite Nat.add_1_r in E. lra. }
    assert (T := rowf_sum (n - 1) y). replace (n - 1 + 1)%nat with n in T by lia. rewrite (rsum_ext n _ (fun _ => rowf (n - 1) y 0)) in T by (intros; apply C; assumption).
    rewrite rsum_const in T. assert (P : 0 < INR n) by (apply lt_0_INR; lia). intros k Hk. rewrite C by assumption. apply (Rmult_eq_reg_l (INR n)); lra. }
  induction i as [|i IH]; intros Hi.
  - assert (E := K 0%nat ltac:(lia)). unfold rowf in E. destruct (Nat.ltb_spec 0 (n - 1)); [lra|lia].
  - assert (E := K (S i) ltac:(lia)). unfold rowf in E. destruct (Nat.ltb_spec (S i) (n - 1)); [|lia]. rewrite IH in E by lia. lra.
Qed.
Definition mean (n : nat) (b : nat -> R) : R := rsum n b / INR n.
Definition partial_sum (n : nat) (b : nat -> R) (i : nat) : R := rsum (i + 1) (fun k => b k - mean n b).
Lemma mean_solves n b : (2 <= n)%nat -> solves (n - 1) (pseudo_inv n) (partial_sum n b) (pseudo_diag n b).
Proof.
  intros Hn i Hi. rewrite inv_value by lia. unfold pseudo_diag. rewrite col_value by lia.
  assert (P : 0 < INR n) by (apply lt_0_INR; lia).
  assert (R : forall k, (k < n)%nat -> rowf (n - 1) (partial_sum n b) k = b k - mean n b).
  { intros k Hk. unfold rowf, partial_sum. destruct (Nat.ltb_spec k (n - 1)) as [L|L].
    - destruct k as [|k]; [cbn; ring|]. rewrite !Nat.add_1_r. cbn [rsum]. ring.
    - assert (T : rsum n (fun k => b k - mean n b) = 0).
      { rewrite (rsum_ext n _ (fun k => b k + -1 * mean n b)) by (intros; ring). rewrite rsum_add, rsum_const. unfold mean. field. lra. }
      replace n with (k + 1)%nat in T by lia. rewrite Nat.add_1_r in T. cbn [rsum] in T. destruct k as [|k]; [lia|]. rewrite Nat.add_1_r. replace (S (S k)) with n in T by lia. cbn [rsum] in *. lra. }
  rewrite !R by lia. ring.
Qed.
Lemma sel_near delta x : 0 <= delta -> Rabs (sel delta x - x) <= delta / 2.
Proof.
  intros D. unfold sel. destruct (Rlt_dec delta (Rabs (x * 2))) as [Y|Y].
  - replace (x - x) with 0 by ring. rewrite Rabs_R0. lra.
  - replace (0 - x) with (- x) by ring. rewrite Rabs_Ropp. rewrite Rabs_mult, (Rabs_right 2) in Y by lra. lra.
Qed.
Lemma visits_length n : (2 * List.length (visits n) = n * (n - 1))%nat.
Proof.
  unfold visits. assert (G : forall k a, (a + k = n)%nat -> (2 * List.length (flat_map (fun c => map (fun r => (r, c)) (rev (seq (c + 1) (n - (c + 1))))) (seq a k)) = k * (k - 1))%nat).
  { induction k as [|k IH]; intros a H; [reflexivity|]. cbn [seq flat_map]. rewrite app_length, map_length, rev_length, seq_length.
    specialize (IH (S a) ltac:(lia)). nia. }
  apply (G n 0%nat). lia.
Qed.
Local Open Scope C_scope.
Lemma near_phase z g x e : (1 - e <= Cmod z <= 1)%R -> (0 <= e)%R -> z = RtoC (Cmod z) * cis (angle z) ->
  (Cmod (Csub (cis (g + x - angle z) * z) (cis g)) <= Rabs x + e)%R.
Proof.
  intros [H1 H2] He P.
  assert (Q : (Cmod (Csub (RtoC (Cmod z)) C1) <= e)%R).
  { apply Cmod_le; [exact He|]. unfold Cnorm2, Csub, Cadd, Copp, RtoC, C1. cbn [fst snd]. nra. }
  replace (Csub (cis (g + x - angle z) * z) (cis g)) with (cis g * (Csub (cis x) C1 + cis x * Csub (RtoC (Cmod z)) C1)).
  - rewrite Cmod_mul, Cmod_cis, Rmult_1_l. refine (Rle_trans _ _ _ (Cmod_triangle _ _) _). rewrite Cmod_mul, Cmod_cis. assert (X := cis_near x). lra.
  - set (a := angle z) in *. set (m := Cmod z) in *. clearbody a m. subst z. replace (g + x - a)%R with (g + (x + - a))%R by ring. rewrite !cis_add, cis_neg.
    transitivity (cis g * (cis x * RtoC m + - C1)); [unfold Csub; ring|].
    transitivity (cis g * (cis x * (RtoC m * (Cconj (cis a) * cis a)) + - C1)); [rewrite cis_conj_mul'; ring|unfold Csub; ring].
Qed.

Section Main.
Variables (round6 : R -> R) (det : nat -> (nat -> nat -> R) -> R) (solve : nat -> (nat -> nat -> R) -> (nat -> R) -> res (list R)).
Variables (eps delta : R) (dc dt : nat).
Hypothesis Hdc : (2 <= dc)%nat.
Hypothesis Hdt : (2 <= dt)%nat.
Hypothesis HD : exact_det det.
Hypothesis HS : exact_solve det solve.
Hypothesis HR : rounds6 round6.
Notation n := (dc * dt)%nat.
Notation B := (bmat dc dt).
Notation execute := (ent_execute round6 det solve eps delta dc dt).

Lemma size2 : (2 <= n)%nat.
Proof. nia. Qed.
Lemma det_ok : det (n - 1) (pseudo_inv n) <> 0%R.
Proof.
  intros E. apply HD in E. destruct E as (x & (i & Hi & Nx) & Sx). apply Nx. apply (not_singular n x size2 Sx i Hi).
Qed.
Lemma solve_ok b : exists y, solve (n - 1)%nat (pseudo_inv n) (pseudo_diag n b) = Ok y /\ List.length y = (n - 1)%nat /\
  exists g, forall k, (k < n)%nat -> rowf (n - 1) (fun j => nth j y 0%R) k = (b k - g)%R.
Proof.
  destruct (HS (n - 1)%nat (pseudo_inv n) (pseudo_diag n b) (partial_sum n b) det_ok (mean_solves n b size2)) as (y & E & L & Sy).
  exists y. split; [exact E|]. split; [exact L|]. exists (b 0%nat - rowf (n - 1) (fun j => nth j y 0%R) 0)%R. intros k Hk.
  assert (X := solution_const n _ _ Sy k Hk). lra.
Qed.

(** The phase loop removes the phases b of the diagonal, up to a common one. *)
Lemma phase_loop b s : exists ys s' g, solve (n - 1)%nat (pseudo_inv n) (pseudo_diag n b) = Ok ys /\
  foldr (ent_phase delta dc dt true) (combine (seq 0 (List.length ys)) ys) s = Ok s' /\
  grown dc dt (3 * (n - 1)) s s' (mdiag (fun k => cis (dphase delta ys 0 k))) /\
  ((0 <= delta)%R -> forall k, (k < n)%nat -> (Rabs (dphase delta ys 0 k - (g - b k)) <= delta)%R).
Proof.
  destruct (solve_ok b) as (y & E & L & g & G). destruct (phases_grown dc dt Hdc Hdt delta y s 0) as (s' & F & Gr); [lia|].
  exists y, s', g. split; [exact E|]. split; [exact F|]. split; [rewrite <- L; exact Gr|]. intros D0 k Hk.
  assert (Gk := G k Hk). assert (At : dphase delta y (0 + k - k) (0 + k) = ((match k with O => 0 | S k' => sel delta (nth k' y 0) end) - sel delta (nth k y 0))%R) by (replace (0 + k - k)%nat with 0%nat by lia; eapply dphase_at; eassumption). replace (0 + k - k)%nat with 0%nat in At by lia. rewrite Nat.add_0_l in At. rewrite At.
  assert (C : rowf (n - 1) (fun j => nth j y 0%R) k = (nth k y 0 - match k with O => 0 | S k' => nth k' y 0 end)%R).
  { unfold rowf. destruct (Nat.ltb_spec k (n - 1)); [reflexivity|]. rewrite (nth_overflow y) by lia. reflexivity. }
  rewrite C in Gk. assert (N1 := sel_near delta (nth k y 0%R) D0).
  destruct k as [|k].
  - replace (0 - sel delta (nth 0 y 0) - (g - b 0%nat))%R with (- (sel delta (nth 0 y 0) - nth 0 y 0))%R by lra. rewrite Rabs_Ropp. lra.
  - assert (N2 := sel_near delta (nth k y 0%R) D0).
    replace (sel delta (nth k y 0) - sel delta (nth (S k) y 0) - (g - b (S k)))%R with ((sel delta (nth k y 0) - nth k y 0) + - (sel delta (nth (S k) y 0) - nth (S k) y 0))%R by lra.
    refine (Rle_trans _ _ _ (Rabs_triang _ _) _). rewrite Rabs_Ropp. lra.
Qed.

Lemma execute_grown U : exists s s' A ys g,
  foldr (ent_step eps dc dt true) (visits n) (ES [] U 0 0) = Ok s /\
  grown dc dt (List.length (visits n)) (ES [] U 0 0) s A /\ meq n (e_u s) (reduced eps n U) /\
  execute true U = Ok (e_ops s', e_crot s', e_pswap s') /\
  grown dc dt (3 * (n - 1)) s s' (mdiag (fun k => cis (dphase delta ys 0 k))) /\
  ((0 <= delta)%R -> forall k, (k < n)%nat -> (Rabs (dphase delta ys 0 k - (g - round6 (angle (e_u s k k)))) <= delta)%R).
Proof.
  destruct (steps_grown dc dt Hdc Hdt eps (visits n)) with (s := ES [] U 0 0) (v := U) as (s & A & E & G & V).
  { intros rc H. apply visits_range in H. lia. }
  { apply meq_refl. }
  destruct (phase_loop (fun i => round6 (angle (e_u s i i))) s) as (ys & s' & g & Es & Ef & G' & D).
  exists s, s', A, ys, g. split; [exact E|]. split; [exact G|]. split; [exact V|]. split; [|split; [exact G'|exact D]].
  unfold ent_execute. rewrite E. cbn [bindr]. destruct (Req_EM_T _ 0) as [Z|_]; [destruct (det_ok Z)|]. rewrite Es. cbn [bindr]. rewrite Ef. reflexivity.
Qed.

Theorem execute_ok U : (0 <= eps)%R -> (0 <= delta)%R -> unitary n U ->
  exists l c p g, execute true U = Ok (l, c, (4 * p)%nat) /\ good dc dt l /\
    close n (ent_error eps delta n) (mmul n (circuit_op dc dt l) U) (with_phase g mid) /\
    cex_gates l = (2 * c + 16 * p)%nat /\ (2 * (c + p) <= n * (n - 1) + 6 * (n - 1))%nat.
Proof.
  intros E0 D0 HU. destruct (execute_grown U) as (s & s' & A & ys & g & E & G & V & X & G' & D).
  assert (T : grown dc dt (List.length (visits n) + 3 * (n - 1)) (ES [] U 0 0) s' (mmul n (mdiag (fun k : nat => cis (dphase delta ys 0 k))) A)) by (eapply grown_trans; eassumption). destruct T as [(l & O & Gl & M & Us & c & p & H1 & H2 & H3 & H4)].
  cbn [e_ops e_crot e_pswap] in O, H1, H2. rewrite app_nil_l in O. rewrite !Nat.add_0_l in *.
  exists l, c, p, g. split; [rewrite X, O, H1, H2; reflexivity|]. split; [exact Gl|].
  split; [|split; [exact H3|assert (W := visits_length n); lia]].
  assert (Cm : meq n (mmul n (circuit_op dc dt l) U) (mmul n (mdiag (fun k => cis (dphase delta ys 0 k))) (reduced eps n U))).
  { eapply meq_trans; [apply mmul_ext; [eapply meq_trans; [apply circuit_bmat; assumption|exact M]|apply meq_refl]|].
    eapply meq_trans; [apply mmul_assoc|]. apply mmul_ext; [apply meq_refl|]. eapply meq_trans; [|exact V].
    destruct G as [(l0 & _ & _ & _ & Y & _)]. apply meq_sym. exact Y. }
  intros i j Hi Hj. rewrite (Cm i j Hi Hj). rewrite mdiag_mul_l by assumption. unfold with_phase, mid, ent_error, qr_error.
  assert (Bn : (0 <= INR n * eps)%R) by (assert (Y := pos_INR n); nra).
  assert (Sq : (0 <= INR n * eps * (INR n * eps))%R) by nra.
  destruct (Nat.eqb_spec i j) as [<-|N].
  - set (z := reduced eps n U i i). assert (Dz := D D0 i Hi). rewrite (V i i Hi Hi) in Dz. fold z in Dz.
    destruct (HR (angle z)) as [R1 _].
    set (q := dphase delta ys 0 i) in *. replace q with (g + (q - g + angle z) - angle z)%R by ring.
    replace (cis g * C1) with (cis g) by ring.
    refine (Rle_trans _ _ _ (near_phase z g (q - g + angle z) (2 * (INR n * eps * (INR n * eps))) _ _ (angle_polar z)) _).
    + apply (reduced_on eps n E0 U i HU Hi).
    + lra.
    + assert (Rabs (q - g + angle z) <= delta + 1 / 2000000)%R; [|lra].
      replace (q - g + angle z)%R with ((q - (g - round6 (angle z))) + - (round6 (angle z) - angle z))%R by ring.
      refine (Rle_trans _ _ _ (Rabs_triang _ _) _). rewrite Rabs_Ropp. lra.
  - replace (Csub (cis (dphase delta ys 0 i) * reduced eps n U i j) (cis g * C0)) with (cis (dphase delta ys 0 i) * reduced eps n U i j) by (unfold Csub; ring).
    rewrite Cmod_mul, Cmod_cis. assert (Y := reduced_off eps n E0 U i j HU Hi Hj N). lra.
Qed.
End Main.
