(** The unitary of a circuit: exchanging gates, and gates on one line multiply. *)
From Coq Require Import List ZArith Arith Bool Lia Permutation.
From Verif Require Import Base.Py Base.PyFacts Base.Cplx Base.Matrix Base.Radix.
From Verif Require Import Circuit.GateModel Gates.FactoryModel Gates.FactorySpec Gates.Embed Gates.FactoryMain.
From Verif Require Import Lanes.LanesModel Lanes.LanesSpec Lanes.ExtractProofs Lanes.LanesProofs.
Import ListNotations.
Local Open Scope nat_scope.

Section U.
Variable dims : list nat.
Hypothesis Hpos : forall d, In d dims -> 0 < d.
Let D := prodl dims.
Definition fits (g : gate mat) : Prop := well_placed dims g /\ plain g.

Definition gmat (g : gate mat) : mat := match generate_matrix dims 2 g with Ok a => a | Err _ => mid end.
Definition gact (g : gate mat) (s : mat) : mat := mmul D (gmat g) s.
Definition grun (l : list (obj mat)) (s : mat) : mat := fold_left (fun s o => gact (snd o) s) l s.

Lemma fits_gen g : fits g -> generate_matrix dims 2 g = Ok (gmat g).
Proof.
  intros [W [C _]]. unfold gmat. destruct (gen_uncontrolled_returns dims g W 2 C) as [a E]. now rewrite E.
Qed.
Lemma gact_ext g s s' : meq D s s' -> meq D (gact g s) (gact g s').
Proof. intros H. apply mmul_ext; [apply meq_refl|exact H]. Qed.
Lemma grun_ext l s s' : meq D s s' -> meq D (grun l s) (grun l s').
Proof. revert s s'. induction l as [|o l IH]; intros s s' H; [exact H|]. cbn. apply IH. now apply gact_ext. Qed.
Lemma grun_app l1 l2 s : grun (l1 ++ l2) s = grun l2 (grun l1 s).
Proof. apply fold_left_app. Qed.
Lemma circuit_ok l : (forall o, In o l -> fits (snd o)) -> exists u, circuit_matrix dims l = Ok u /\ forall s, meq D (grun l s) (mmul D u s).
Proof.
  induction l as [|o l IH]; intros F.
  - exists mid. split; [reflexivity|]. intros s. apply meq_sym. apply mmul_id_l.
  - destruct IH as [u [E H]]; [intros; apply F; now right|]. cbn. rewrite fits_gen by (apply F; now left). cbn [bindr].
    rewrite E. cbn [bindr]. eexists. split; [reflexivity|]. intros s. eapply meq_trans; [apply H|].
    apply meq_sym. apply mmul_assoc.
Qed.
Lemma same_of_run l l' : (forall o, In o l -> fits (snd o)) -> (forall o, In o l' -> fits (snd o)) ->
  meq D (grun l mid) (grun l' mid) -> same_unitary dims l l'.
Proof.
  intros F F' H. destruct (circuit_ok l F) as [u [E R]]. destruct (circuit_ok l' F') as [u' [E' R']].
  exists u, u'. split; [exact E|]. split; [exact E'|].
  eapply meq_trans; [apply meq_sym, mmul_id_r|]. eapply meq_trans; [apply meq_sym, R|].
  eapply meq_trans; [exact H|]. eapply meq_trans; [apply R'|]. apply mmul_id_r.
Qed.
Lemma fits_commute o1 o2 s : fits (snd o1) -> fits (snd o2) -> disjoint_ops o1 o2 ->
  meq D (gact (snd o1) (gact (snd o2) s)) (gact (snd o2) (gact (snd o1) s)).
Proof.
  intros F1 F2 Dj. unfold gact.
  eapply meq_trans; [apply meq_sym, mmul_assoc|]. eapply meq_trans; [|apply mmul_assoc]. apply mmul_ext; [|apply meq_refl].
  pose proof (fits_gen _ F1) as E1. pose proof (fits_gen _ F2) as E2. destruct F1 as [W1 [C1 _]], F2 as [W2 [C2 _]].
  unfold D. apply (gen_commute dims 2 (snd o1) (snd o2)); try assumption; try lia.
  - intros t Ht H. unfold control_nats in H. rewrite C2, app_nil_r in H.
    apply in_map_iff in Ht as [a [<- Ha]]. apply in_map_iff in H as [b [Eb Hb]].
    destruct W1 as [_ [_ [B1 _]]], W2 as [_ [_ [B2 _]]]. pose proof (B1 a Ha). pose proof (B2 b Hb).
    assert (a = b) by lia. subst b. apply (Dj a); now apply on_line_in.
  - intros t _ H. unfold control_nats in H. rewrite C1 in H. destruct H.
Qed.
Lemma swaps_run l l' : swaps l l' -> (forall o, In o l -> fits (snd o)) -> forall s, meq D (grun l s) (grun l' s).
Proof.
  intros S F s. apply (swaps_semantics (meq D) gact); try assumption.
  - apply meq_refl.
  - intros a b c. apply meq_trans.
  - intros. now apply gact_ext.
  - intros o1 o2 H1 H2 Dj s0. apply fits_commute; auto.
  - apply meq_refl.
Qed.
Lemma swaps_unitary l l' : swaps l l' -> (forall o, In o l -> fits (snd o)) -> same_unitary dims l l'.
Proof.
  intros S F. apply same_of_run; [exact F| |now apply swaps_run].
  intros o H. apply F. eapply Permutation_in; [apply Permutation_sym, swaps_perm, S|exact H].
Qed.

(** Gates on one line. *)
Lemma line_dim t : (0 <= t < Z.of_nat (List.length dims))%Z -> prodl (sub_dims dims [Z.to_nat t]) = nth (Z.to_nat t) dims 0.
Proof. intros _. cbn. lia. Qed.
Lemma line_multiply g1 g2 g3 t s : fits g1 -> fits g2 -> fits g3 ->
  target_lines g1 = [t] -> target_lines g2 = [t] -> target_lines g3 = [t] ->
  let d := nth (Z.to_nat t) dims 0 in
  meq d (core g3) (mmul d (core g1) (core g2)) -> meq D (gact g3 s) (gact g1 (gact g2 s)).
Proof.
  intros F1 F2 F3 T1 T2 T3 d H. unfold gact. eapply meq_trans; [|apply mmul_assoc]. apply mmul_ext; [|apply meq_refl].
  pose proof (fits_gen _ F1) as E1. pose proof (fits_gen _ F2) as E2. pose proof (fits_gen _ F3) as E3.
  destruct F1 as [W1 [C1 _]], F2 as [W2 [C2 _]], F3 as [W3 [C3 _]].
  assert (Ed : prodl (sub_dims dims (target_nats g1)) = d) by (unfold target_nats; rewrite T1; cbn; unfold d; lia).
  unfold D. apply (gen_multiply dims 2 g1 g2 g3); try assumption; try congruence; try lia. rewrite Ed. exact H.
Qed.
Lemma line_identity g t s : fits g -> target_lines g = [t] -> meq (nth (Z.to_nat t) dims 0) (core g) mid -> meq D (gact g s) s.
Proof.
  intros F T H. pose proof (fits_gen _ F) as E.
  assert (Ed : prodl (sub_dims dims (target_nats g)) = nth (Z.to_nat t) dims 0) by (unfold target_nats; rewrite T; cbn; lia).
  set (d := nth (Z.to_nat t) dims 0) in *.
  assert (Ud : unitary d (g_data g)).
  { assert (Uc : unitary d (core g)) by (eapply unitary_ext; [apply meq_sym, H|apply unitary_id]).
    unfold core in Uc. destruct (g_dagger g); [|exact Uc]. apply unitary_adj in Uc. eapply unitary_ext; [|exact Uc].
    intros i j _ _. unfold madj. apply Cconj_inv. }
  assert (U : unitary D (gmat g)).
  { destruct F as [W _]. unfold D. apply (gen_unitary' dims 2 g); try assumption; try lia. now rewrite Ed. }
  assert (Sq : meq D (gmat g) (mmul D (gmat g) (gmat g))).
  { pose proof (line_multiply g g g t mid F F F T T T) as M. cbn zeta in M. fold d in M.
    unfold gact in M. eapply meq_trans; [apply meq_sym, mmul_id_r|]. eapply meq_trans; [apply M|].
    - eapply meq_trans; [exact H|]. apply meq_sym. eapply meq_trans; [apply mmul_ext; [exact H|exact H]|]. apply mmul_id_l.
    - apply mmul_ext; [apply meq_refl|apply mmul_id_r]. }
  assert (Id : meq D (gmat g) mid).
  { destruct U as [U1 U2]. eapply meq_trans; [apply meq_sym, mmul_id_l|].
    eapply meq_trans; [apply mmul_ext; [apply meq_sym, U1|apply meq_refl]|].
    eapply meq_trans; [apply mmul_assoc|]. eapply meq_trans; [apply mmul_ext; [apply meq_refl|apply meq_sym, Sq]|]. exact U1. }
  unfold gact. eapply meq_trans; [apply mmul_ext; [exact Id|apply meq_refl]|]. apply mmul_id_l.
Qed.
End U.
