(** The errors the C++ extension inserts. *)
From Coq Require Import List ZArith Arith Lia Reals Lra String Bool.
From Verif Require Import Base.Py Base.Cplx Base.Matrix Base.Radix Circuit.GateModel Gates.AnglesModel Gates.SingleModel Gates.SingleProofs Gates.TwoModel Gates.TwoProofs Gates.FactorySpec Gates.ActsOn.
From Verif Require Import Sim.TnModel Sim.TnSpec Sim.TnProofs Misim.DdModel Misim.MisimModel Misim.MisimSpec Misim.MisimMatProofs Misim.MisimProofs.
Import ListNotations.
Local Open Scope nat_scope.
Local Open Scope string_scope.

Lemma chosen_spec p u : chosen p u = true <-> happens p u.
Proof. unfold chosen, happens. destruct (Rle_dec (1 - p) u); split; intros; try reflexivity; try assumption; [discriminate|contradiction]. Qed.
Lemma two_levels_spec i : on_two_levels (i_tag i) = true <-> two_level_gate i.
Proof. unfold on_two_levels, two_level_gate. rewrite !orb_true_iff, !String.eqb_eq. cbn [In]. intuition. Qed.

Lemma get_size_inv l k v : get_size l k = Done v -> nth_error l k = Some (PInt (Z.of_nat v)).
Proof.
  unfold get_size. destruct (nth_error l k) as [[z|f|s]|]; try discriminate. destruct (Z.ltb_spec z 0); [discriminate|]. intros E. injection E as <-. rewrite Z2Nat.id by lia. reflexivity.
Qed.
Lemma plist_inv p l : plist p = Done l -> p = PList l.
Proof. unfold plist. destruct p as [|[|x r]|]; try discriminate. intros E. injection E as <-. reflexivity. Qed.

Lemma error_gate_ok dims i x q e : error_gate dims i x q = Done e -> error_on dims i q x e.
Proof.
  unfold error_gate. destruct (on_two_levels (i_tag i)) eqn:T.
  - apply two_levels_spec in T. destruct (plist (i_params i)) as [l|] eqn:Ep; [|discriminate]. cbn [cbind]. apply plist_inv in Ep.
    destruct (get_size l 0) as [v0|] eqn:E0; [|discriminate]. cbn [cbind]. apply get_size_inv in E0. destruct l as [|y l]; [discriminate|]. cbn [nth_error] in E0. injection E0 as ->.
    assert (G : forall a b, error_levels i (nth q dims 0) a b -> forall e', Done (if x
        then Instr "rxy" false [nth q dims 0] [q] (PList ([PInt (Z.of_nat a); PInt (Z.of_nat b); PFloat PI] ++ [PFloat (PI / 2)])) None
        else Instr "rz" false [nth q dims 0] [q] (PList [PInt (Z.of_nat a); PInt (Z.of_nat b); PFloat PI]) None) = Done e' -> error_on dims i q x e').
    { intros a b L e' E. injection E as <-. constructor; try (destruct x; reflexivity).
      - intros _. exists a, b. split; [exact L|]. destruct x; split; reflexivity.
      - intros N. contradiction. }
    destruct (String.eqb_spec (i_tag i) "virtrz") as [V|V].
    + cbn [cbind]. intros E. destruct (Nat.eqb_spec v0 (nth q dims 0 - 1)) as [Ev|Ev]; cbn [fst snd] in E; refine (G _ _ _ e E); exists v0, l; (split; [exact Ep|]); split; try congruence; intros _; split; intros; try contradiction; try congruence; split; reflexivity.
    + destruct (get_size _ 1) as [v1|] eqn:E1; [|discriminate]. cbn [cbind fst snd]. apply get_size_inv in E1. cbn [nth_error] in E1. destruct l as [|z l]; [discriminate|]. injection E1 as ->.
      intros E. refine (G _ _ _ e E). exists v0, (PInt (Z.of_nat v1) :: l). split; [exact Ep|]. split; [congruence|]. intros _. split; [reflexivity|]. exists l. reflexivity.
  - intros E. injection E as <-. assert (N : ~ two_level_gate i) by (intros H; apply two_levels_spec in H; congruence).
    constructor; try reflexivity; [intros H; contradiction|]. intros _. split; reflexivity.
Qed.
Lemma error_gates_ok dims i x qs es : error_gates dims i x qs = Done es -> Forall2 (fun q e => error_on dims i q x e) qs es.
Proof.
  revert es. induction qs as [|q qs IH]; intros es; cbn [error_gates].
  - intros E. injection E as <-. constructor.
  - destruct (error_gate dims i x q) as [g|] eqn:Eg; [|discriminate]. cbn [cbind]. destruct (error_gates dims i x qs) as [gs|]; [|discriminate]. cbn [cbind]. intros E. injection E as <-.
    constructor; [apply error_gate_ok; exact Eg|apply IH; reflexivity].
Qed.

Lemma mode_lines_ok dims i m qs : i_controls i = None -> NoDup (i_targets i) -> (m = Named "control" \/ m = Named "target" -> List.length (i_targets i) = 2) -> (forall l, m = Lines l -> NoDup l) ->
  mode_lines (List.length dims) i m = Done qs -> NoDup qs /\ forall q, In q qs <-> selects dims i m q.
Proof.
  intros C ND Tw NL. unfold mode_lines. rewrite C, app_nil_r. destruct m as [l|s].
  - intros E. injection E as <-. split; [apply NL; reflexivity|]. intros q. split; intros H; [constructor; exact H|]. inversion H; subst. assumption.
  - destruct (String.eqb_spec s "local") as [->|N1].
    { intros E. injection E as <-. split; [exact ND|]. intros q. split; intros H; [constructor; left; exact H|]. inversion H as [|q' Q| | | |]; subst. unfold control_part in Q. rewrite C in Q. tauto. }
    destruct (String.eqb_spec s "all") as [->|N2].
    { intros E. injection E as <-. split; [apply seq_NoDup|]. intros q. rewrite in_seq. split; intros H; [constructor; lia|]. inversion H; subst. lia. }
    destruct (String.eqb_spec s "nonlocal") as [->|N3].
    { intros E. injection E as <-. split; [exact ND|]. intros q. split; intros H; [constructor; left; exact H|]. inversion H as [| |q' Q| | |]; subst. unfold control_part in Q. rewrite C in Q. tauto. }
    destruct (String.eqb_spec s "control") as [->|N4].
    { specialize (Tw (or_introl eq_refl)). destruct (i_targets i) as [|a [|b [|? ?]]] eqn:Et; try discriminate. intros E. injection E as <-. split; [repeat constructor; intros []|].
      intros q. split; [intros [<-|[]]; econstructor; exact Et|]. intros H. inversion H as [| | | |c t Q|]; subst. rewrite Et in Q. injection Q as <- <-. left. reflexivity. }
    destruct (String.eqb_spec s "target") as [->|N5].
    { specialize (Tw (or_intror eq_refl)). destruct (i_targets i) as [|a [|b [|? ?]]] eqn:Et; try discriminate. intros E. injection E as <-. split; [repeat constructor; intros []|].
      intros q. split; [intros [<-|[]]; econstructor; exact Et|]. intros H. inversion H as [| | | | |c t Q]; subst. rewrite Et in Q. injection Q as <- <-. left. reflexivity. }
    intros E. injection E as <-. split; [constructor|]. intros q. split; [intros []|]. intros H. inversion H; subst; congruence.
Qed.

Lemma mode_lines_done (dims : list nat) i m : i_controls i = None -> (m = Named "control" \/ m = Named "target" -> List.length (i_targets i) = 2) -> exists qs, mode_lines (List.length dims) i m = Done qs.
Proof.
  intros C Tw. unfold mode_lines. destruct m as [l|s]; [eauto|].
  destruct (String.eqb_spec s "local"); [eauto|]. destruct (String.eqb_spec s "all"); [eauto|]. destruct (String.eqb_spec s "nonlocal"); [eauto|].
  destruct (String.eqb_spec s "control") as [->|]; [specialize (Tw (or_introl eq_refl)); destruct (i_targets i); [discriminate|eauto]|].
  destruct (String.eqb_spec s "target") as [->|]; [specialize (Tw (or_intror eq_refl)); destruct (i_targets i) as [|a [|b r]]; try discriminate; eauto|]. eauto.
Qed.

Lemma modes_ok dims i draw : i_controls i = None -> NoDup (i_targets i) -> forall ms k es k',
  (forall m o, In (m, o) ms -> (m = Named "control" \/ m = Named "target" -> List.length (i_targets i) = 2) /\ (forall l, m = Lines l -> NoDup l)) ->
  modes_errors dims i ms draw k = Done (es, k') -> errors_of dims i draw ms k es k'.
Proof.
  intros C ND. induction ms as [|[m o] ms IH]; intros k es k' Hm; cbn [modes_errors].
  - intros E. injection E as <- <-. constructor.
  - destruct o as [p|]; [|discriminate]. destruct (Hm m (Some p) (or_introl eq_refl)) as [Tw NL].
    destruct (mode_errors dims i m p (draw k) (draw (k + 1))) as [es1|] eqn:E1; [|discriminate]. cbn [cbind].
    destruct (modes_errors dims i ms draw (k + 2)) as [[es2 k2]|] eqn:E2; [|discriminate]. cbn [cbind fst snd]. intros E. injection E as <- <-.
    apply IH in E2; [|intros m' o' I; apply (Hm m' o'); right; exact I]. unfold mode_errors in E1.
    destruct (mode_lines_done dims i m C Tw) as (qs & Eq). destruct (mode_lines_ok dims i m qs C ND Tw NL Eq) as [Nq Sq]. rewrite Eq in E1. cbn [cbind] in E1.
    destruct (chosen (fst p) (draw k)) eqn:Cx, (chosen (snd p) (draw (k + 1))) eqn:Cz; cbn [orb] in E1.
    + destruct (error_gates dims i true qs) as [xs|] eqn:Ex; [|discriminate]. cbn [cbind] in E1. destruct (error_gates dims i false qs) as [zs|] eqn:Ez; [|discriminate]. cbn [cbind] in E1. injection E1 as <-.
      apply chosen_spec in Cx, Cz. apply (Eo_mode dims i draw m p ms k qs); try assumption; intros; try contradiction; apply error_gates_ok; assumption.
    + destruct (error_gates dims i true qs) as [xs|] eqn:Ex; [|discriminate]. cbn [cbind] in E1. injection E1 as <-. apply chosen_spec in Cx.
      assert (Nz : ~ happens (snd p) (draw (k + 1))) by (intros H; apply chosen_spec in H; congruence).
      apply (Eo_mode dims i draw m p ms k qs); try assumption; intros; try contradiction; try reflexivity. apply error_gates_ok; assumption.
    + destruct (error_gates dims i false qs) as [zs|] eqn:Ez; [|discriminate]. cbn [cbind] in E1. injection E1 as <-. apply chosen_spec in Cz.
      assert (Nx : ~ happens (fst p) (draw k)) by (intros H; apply chosen_spec in H; congruence).
      apply (Eo_mode dims i draw m p ms k qs []); try assumption; intros; try contradiction; try reflexivity. apply error_gates_ok; assumption.
    + injection E1 as <-.
      assert (Nx : ~ happens (fst p) (draw k)) by (intros H; apply chosen_spec in H; congruence).
      assert (Nz : ~ happens (snd p) (draw (k + 1))) by (intros H; apply chosen_spec in H; congruence).
      apply (Eo_mode dims i draw m p ms k qs [] []); try assumption; intros; try contradiction; reflexivity.
Qed.
Lemma generate_ok dims nm draw : forall is k out, Forall (plain nm) is -> generate dims nm draw k is = Done out -> noisy dims nm draw is k out.
Proof.
  induction is as [|i is IH]; intros k out Pl; cbn [generate].
  - intros E. injection E as <-. constructor.
  - inversion Pl as [|i' is' (C & ND & Hm) Ps]; subst. destruct (modes_errors dims i (find_tag nm (i_tag i)) draw k) as [[es k']|] eqn:E1; [|discriminate]. cbn [cbind fst snd].
    destruct (generate dims nm draw k' is) as [rest|] eqn:E2; [|discriminate]. cbn [cbind]. intros E. injection E as <-. econstructor; [|apply IH; [exact Ps|exact E2]].
    apply modes_ok; assumption.
Qed.

Lemma find_tag_spec (nm : noise_table) tag : (forall l, NoDup (map fst nm) -> In (tag, l) nm -> find_tag nm tag = l) /\
  ((forall l, ~ In (tag, l) nm) -> find_tag nm tag = []).
Proof.
  unfold find_tag. split.
  - induction nm as [|[t x] nm IH]; intros l ND I; [destruct I|]. cbn [find fst]. cbn in ND. inversion ND as [|t' r N1 N2]; subst.
    destruct (String.eqb_spec t tag) as [->|Ne].
    + destruct I as [[= <-]|I]; [reflexivity|]. exfalso. apply N1. change tag with (fst (tag, l)). apply in_map. exact I.
    + destruct I as [[= E _]|I]; [contradiction (Ne E)|]. exact (IH l N2 I).
  - intros N. induction nm as [|[t x] nm IH]; [reflexivity|]. cbn [find fst]. destruct (String.eqb_spec t tag) as [->|Ne]; [exfalso; apply (N x); left; reflexivity|].
    apply IH. intros l I. apply (N l). right. exact I.
Qed.
Lemma generate_quiet dims nm draw : forall is k, (forall i, In i is -> find_tag nm (i_tag i) = []) -> generate dims nm draw k is = Done is.
Proof.
  induction is as [|i is IH]; intros k H; cbn [generate]; [reflexivity|]. rewrite (H i (or_introl eq_refl)). cbn [modes_errors cbind fst snd]. rewrite IH by (intros; apply H; right; assumption). reflexivity.
Qed.
Lemma generate_zero dims nm draw : (forall k, (draw k < 1)%R) -> forall is k, (forall i m o, In i is -> In (m, o) (find_tag nm (i_tag i)) -> o = Some (0, 0)%R) -> generate dims nm draw k is = Done is.
Proof.
  intros D. assert (N : forall k, chosen 0 (draw k) = false). { intros k. unfold chosen. destruct (Rle_dec (1 - 0) (draw k)) as [L|]; [|reflexivity]. specialize (D k). lra. }
  induction is as [|i is IH]; intros k H; cbn [generate]; [reflexivity|].
  assert (E : forall ms j, (forall m o, In (m, o) ms -> o = Some (0, 0)%R) -> modes_errors dims i ms draw j = Done ([], j + 2 * List.length ms)).
  { induction ms as [|[m o] ms IHm]; intros j Hm; cbn [modes_errors].
    - cbn [List.length Nat.mul]. rewrite Nat.add_0_r. reflexivity.
    - rewrite (Hm m o (or_introl eq_refl)). unfold mode_errors. cbn [fst snd]. rewrite !N. cbn [orb cbind]. rewrite IHm by (intros m' o' I; apply (Hm m' o'); right; exact I). cbn [cbind fst snd app List.length]. f_equal. f_equal. lia. }
  rewrite E by (intros m o I; apply (H i m o); [left; reflexivity|exact I]). cbn [cbind fst snd]. rewrite IH by (intros i' m o I J; apply (H i' m o); [right; exact I|exact J]). reflexivity.
Qed.

(** ** noisy circuits can be simulated *)
Lemma error_gate_done dims g i x q : reads dims g i -> in_scope dims i -> (two_level_gate i -> nth q dims 0 = nth (last (i_targets i) 0) dims 0) -> exists e, error_gate dims i x q = Done e.
Proof.
  intros R (_ & Sd & S1 & S2 & _) D. unfold error_gate. destruct (on_two_levels (i_tag i)) eqn:T; [|eauto]. apply two_levels_spec in T.
  destruct (String.eqb_spec (i_tag i) "virtrz") as [V|V].
  - destruct (S2 V) as (a & f & -> & Ha). cbn [plist cbind]. rewrite get_size_0 by lia. cbn [cbind]. eauto.
  - assert (A : exists a b rest, i_params i = PList (PInt a :: PInt b :: rest) /\ (0 <= a)%Z /\ (0 <= b)%Z).
    { pose proof (rd_array _ _ _ R) as HA. destruct S1 as (a & b & rest & Ep & _); [unfold two_level_gate in T; cbn in T |- *; intuition congruence|].
      rewrite Ep in *. exists a, b, rest. split; [reflexivity|]. inversion HA as [| | | |t p' M HM E1 E2 E3 E4|t p' M HM E1 E2 E3 E4| | | |]; try (unfold two_level_gate in T; cbn in T; exfalso; intuition congruence).
      - pose proof (proj1 (r_accepts _ _) (ex_intro _ _ HM)) as (a' & b' & t' & f' & r' & E & Q). injection E as <- <- _. lia.
      - pose proof (proj1 (rz_accepts _ _) (ex_intro _ _ HM)) as (a' & b' & f' & r' & E & Q). injection E as <- <- _. lia. }
    destruct A as (a & b & rest & -> & Ha & Hb). cbn [plist cbind]. rewrite get_size_0, get_size_1 by lia. cbn [cbind]. eauto.
Qed.

(** the two levels of an error exist *)
Lemma error_levels_fit dims g i d a b : reads dims g i -> in_scope dims i -> two_level_gate i -> d = nth (last (i_targets i) 0) dims 0 -> error_levels i d a b ->
  a < d /\ b < d /\ a <> b /\ (a < b \/ d = 2).
Proof.
  intros R (_ & Sd & S1 & S2 & _) T Ed (v0 & rest & Ep & L1 & L2). rewrite <- Ed in Sd, S1, S2. destruct (String.eqb_spec (i_tag i) "virtrz") as [V|V].
  - destruct (S2 V) as (z & f & Ep' & Hz). rewrite Ep in Ep'. injection Ep' as Ez _. destruct (L1 V) as [A1 A2]. destruct (Nat.eq_dec v0 (d - 1)) as [E|E]; [destruct (A2 E)|destruct (A1 E)]; lia.
  - destruct (L2 V) as (-> & rest' & ->). destruct S1 as (a' & b' & r' & Ep' & As); [unfold two_level_gate in T; cbn in T |- *; intuition congruence|].
    rewrite Ep in Ep'. injection Ep' as <- <- _. pose proof (rd_array _ _ _ R) as HA. rewrite Ep in HA.
    assert (Q : (0 <= Z.of_nat v0 < Z.of_nat d)%Z /\ (0 <= Z.of_nat b < Z.of_nat d)%Z /\ Z.of_nat v0 <> Z.of_nat b); [|lia].
    inversion HA as [| | | |t p' M HM E1 E2 E3 E4|t p' M HM E1 E2 E3 E4| | | |]; try (unfold two_level_gate in T; cbn in T; exfalso; intuition congruence).
    + pose proof (proj1 (r_accepts _ _) (ex_intro _ _ HM)) as (a' & b' & t' & f' & r'' & E & Q). injection E as <- <- _. rewrite Ed. rewrite <- E2 in *. cbn [last]. tauto.
    + pose proof (proj1 (rz_accepts _ _) (ex_intro _ _ HM)) as (a' & b' & f' & r'' & E & Q). injection E as <- <- _. rewrite Ed. rewrite <- E2 in *. cbn [last]. tauto.
Qed.

Lemma error_readable dims g i q x e : (forall d, In d dims -> 0 < d) -> reads dims g i -> in_scope dims i -> q < List.length dims -> 2 <= nth q dims 0 <= 7 ->
  (two_level_gate i -> nth q dims 0 = nth (last (i_targets i) 0) dims 0) -> error_on dims i q x e ->
  exists h, reads dims h e /\ in_scope dims e.
Proof.
  intros P R Sc Hq Dq D He. destruct He as [Et Ed Eg Ec E2 E1].
  assert (G : forall M, array_of dims (i_tag e) [q] (i_params e) M -> reads dims (Gate "" SINGLE (TInt (Z.of_nat q)) None false false M) e).
  { intros M HM. constructor; cbn [g_target g_controls g_dagger g_data target_lines]; rewrite ?Et, ?Ed, ?Eg, ?Ec; try reflexivity.
    - intros t [<-|[]]. exact Hq. - repeat constructor; intros []. - exact HM. }
  destruct (in_dec string_dec (i_tag i) ["rxy"; "rz"; "virtrz"]) as [T|T].
  - destruct (E2 T) as (a & b & L & Ex). destruct (error_levels_fit dims g i _ a b R Sc T (D T) L) as (La & Lb & Nab & Asc).
    assert (Sco : In (i_tag e) ["rxy"; "rz"] -> (exists rest, i_params e = PList (PInt (Z.of_nat a) :: PInt (Z.of_nat b) :: rest)) -> in_scope dims e).
    { intros It (rest & Ep). unfold in_scope. rewrite Et. cbn [last hd]. split; [exact Ec|]. split; [exact Dq|]. split; [|split].
      - intros _. exists (Z.of_nat a), (Z.of_nat b), rest. split; [exact Ep|]. lia.
      - intros V. rewrite V in It. cbn in It. intuition discriminate.
      - intros V. rewrite V in It. cbn in It. intuition discriminate. }
    destruct x; destruct Ex as [Eta Epa]; cbn [app] in Epa.
    + destruct (proj2 (r_accepts (nth q dims 0) (i_params e))) as (M & HM). { exists (Z.of_nat a), (Z.of_nat b), PI, (PI / 2)%R, []. split; [exact Epa|lia]. }
      eexists. split; [apply (G M); rewrite Eta; constructor; exact HM|]. apply Sco; [rewrite Eta; left; reflexivity|]. eexists. exact Epa.
    + destruct (proj2 (rz_accepts (nth q dims 0) (i_params e))) as (M & HM). { exists (Z.of_nat a), (Z.of_nat b), PI, []. split; [exact Epa|lia]. }
      eexists. split; [apply (G M); rewrite Eta; constructor; exact HM|]. apply Sco; [rewrite Eta; right; left; reflexivity|]. eexists. exact Epa.
  - destruct (E1 T) as [Eta Epa]. assert (Sco : in_scope dims e).
    { unfold in_scope. rewrite Et, Eta. cbn [last hd]. split; [exact Ec|]. split; [exact Dq|]. destruct x; (split; [intros V; cbn in V; intuition discriminate|split; intros V; discriminate]). }
    destruct x; eexists; (split; [|exact Sco]); (apply G; rewrite Eta; constructor).
Qed.

Lemma modes_run dims g i draw : (forall d, In d dims -> 0 < d) -> reads dims g i -> in_scope dims i -> NoDup (i_targets i) -> forall ms k,
  (forall m o, In (m, o) ms -> (m = Named "control" \/ m = Named "target" -> List.length (i_targets i) = 2) /\ (forall l, m = Lines l -> NoDup l)) ->
  (forall m o, In (m, o) ms -> (exists p, o = Some p) /\ forall q, selects dims i m q -> q < List.length dims /\ 2 <= nth q dims 0 <= 7 /\ (two_level_gate i -> nth q dims 0 = nth (last (i_targets i) 0) dims 0)) ->
  exists es k' hs, modes_errors dims i ms draw k = Done (es, k') /\ Forall2 (reads dims) hs es /\ Forall (in_scope dims) es.
Proof.
  intros P R Sc ND. pose proof (proj1 Sc) as C.
  assert (Gates : forall x qs, (forall q, In q qs -> q < List.length dims /\ 2 <= nth q dims 0 <= 7 /\ (two_level_gate i -> nth q dims 0 = nth (last (i_targets i) 0) dims 0)) ->
    exists es hs, error_gates dims i x qs = Done es /\ Forall2 (reads dims) hs es /\ Forall (in_scope dims) es).
  { intros x. induction qs as [|q qs IH]; intros H; cbn [error_gates].
    - exists [], []. repeat split; constructor.
    - destruct (H q (or_introl eq_refl)) as (Hq & Dq & Lq). destruct (error_gate_done dims g i x q R Sc Lq) as (e & Ee). rewrite Ee. cbn [cbind].
      destruct IH as (es & hs & Ees & Hr & Hs); [intros; apply H; right; assumption|]. rewrite Ees. cbn [cbind].
      destruct (error_readable dims g i q x e P R Sc Hq Dq Lq (error_gate_ok dims i x q e Ee)) as (h & Hh & Se). exists (e :: es), (h :: hs). repeat split; constructor; assumption. }
  induction ms as [|[m o] ms IH]; intros k Hm Hf; cbn [modes_errors].
  - exists [], k, []. repeat split; constructor.
  - destruct (Hm m o (or_introl eq_refl)) as [Tw NL]. destruct (Hf m o (or_introl eq_refl)) as ((p & ->) & Hq).
    destruct (mode_lines_done dims i m C Tw) as (qs & Eq). destruct (mode_lines_ok dims i m qs C ND Tw NL Eq) as [_ Sq].
    assert (H : exists es hs, mode_errors dims i m p (draw k) (draw (k + 1)) = Done es /\ Forall2 (reads dims) hs es /\ Forall (in_scope dims) es).
    { unfold mode_errors. destruct (Gates true qs) as (xs & hx & Ex & Rx & Sx); [intros q I; apply Hq, Sq; exact I|]. destruct (Gates false qs) as (zs & hz & Ez & Rz & Sz); [intros q I; apply Hq, Sq; exact I|].
      rewrite Eq. cbn [cbind]. rewrite Ex, Ez. destruct (chosen (fst p) (draw k)), (chosen (snd p) (draw (k + 1))); cbn [orb cbind].
      - exists (xs ++ zs)%list, (hx ++ hz)%list. repeat split; [apply Forall2_app; assumption|apply Forall_app; split; assumption].
      - exists (xs ++ [])%list, hx. rewrite app_nil_r. repeat split; assumption.
      - exists zs, hz. repeat split; assumption.
      - exists [], []. repeat split; constructor. }
    destruct H as (es & hs & Ee & Re & Se). rewrite Ee. cbn [cbind]. destruct (IH (k + 2)) as (es2 & k2 & hs2 & E2 & R2 & S2); [intros m' o' I; apply (Hm m' o'); right; exact I|intros m' o' I; apply (Hf m' o'); right; exact I|].
    rewrite E2. cbn [cbind fst snd]. exists (es ++ es2)%list, k2, (hs ++ hs2)%list. repeat split; [apply Forall2_app; assumption|apply Forall_app; split; assumption].
Qed.
Lemma noisy_runs dims nm draw : (forall d, In d dims -> 0 < d) -> forall gs is, Forall2 (reads dims) gs is -> Forall (in_scope dims) is -> Forall (plain nm) is -> Forall (fitting dims nm) is ->
  forall k, exists out hs, generate dims nm draw k is = Done out /\ Forall2 (reads dims) hs out /\ Forall (in_scope dims) out.
Proof.
  intros P gs is HR. induction HR as [|g i gs is R HR IH]; intros Sc Pl Ft k; cbn [generate].
  - exists [], []. repeat split; constructor.
  - inversion Sc as [|i' is' Si Ss]; subst. inversion Pl as [|i' is' (C & ND & Hm) Ps]; subst. inversion Ft as [|i' is' Fi Fs]; subst.
    destruct (modes_run dims g i draw P R Si ND _ k Hm Fi) as (es & k' & hs & E & Re & Se). rewrite E. cbn [cbind fst snd].
    destruct (IH Ss Ps Fs k') as (out & hs' & Eo & Ro & So). rewrite Eo. cbn [cbind]. exists (i :: es ++ out)%list, (g :: hs ++ hs')%list. split; [reflexivity|]. split; constructor; trivial.
    + apply Forall2_app; assumption. + apply Forall_app; split; assumption.
Qed.

(** ** unit vectors *)
Lemma reads_placed dims g i : reads dims g i -> i_controls i = None -> well_placed dims g.
Proof.
  intros R C. unfold well_placed. rewrite (rd_targets _ _ _ R), (rd_controls _ _ _ R), C. cbn [option_map]. split; [|split; [|split; [|exact I]]].
  - pose proof (rd_array _ _ _ R) as HA. inversion HA; discriminate.
  - apply FinFun.Injective_map_NoDup; [intros x y E; lia|]. apply (rd_distinct _ _ _ R).
  - intros t Ht. apply in_map_iff in Ht as (u & <- & Hu). pose proof (rd_inside _ _ _ R u Hu). lia.
Qed.
Lemma reads_unitary dims g i : (forall d, In d dims -> 0 < d) -> reads dims g i -> in_scope dims i -> unitary_gate dims g.
Proof.
  intros P R (C & Sd & S1 & S2 & S3). unfold unitary_gate. rewrite (reads_targets dims g i R). pose proof (rd_array _ _ _ R) as HA. pose proof (rd_inside _ _ _ R) as HI. pose proof (rd_distinct _ _ _ R) as HN.
  assert (One : forall t, prodl (sub_dims dims [t]) = nth t dims 0) by (intros t; unfold sub_dims; cbn; lia).
  assert (Two : forall c t, prodl (sub_dims dims [c; t]) = nth c dims 0 * nth t dims 0) by (intros c t; unfold sub_dims; cbn; lia).
  assert (Pos : forall t, In t (i_targets i) -> 0 < nth t dims 0) by (intros t Ht; apply P, nth_In, HI; exact Ht).
  inversion HA as [t p' E1 E2 E3 E4|t p' E1 E2 E3 E4|t p' E1 E2 E3 E4|t p' E1 E2 E3 E4|t p' M HM E1 E2 E3 E4|t p' M HM E1 E2 E3 E4|t p' M HM E1 E2 E3 E4|t p' E1 E2 E3 E4|c t p' x M HX HM E1 E2 E3 E4|c t p' E1 E2 E3 E4]; rewrite ?One, ?Two; rewrite <- E2 in *.
  - apply x_unitary. - apply z_unitary. - apply h_unitary. - apply s_unitary.
  - eapply r_unitary. exact HM. - eapply rz_unitary. exact HM.
  - pose proof (rh_accepts _ _ _ HM) as (a & b & rest & Ep & _). rewrite Ep in HM. apply (rh_value _ _ _ _ _ HM).
  - apply virtrz_unitary.
  - destruct (S3 (eq_sym E1)) as (a & b & l & rest & Ep & Hb & Hl). cbn [last hd] in *. apply (cex_unitary _ _ _ _ _ (Pos c (or_introl eq_refl))) in HM; [exact HM|].
    pose proof (cex_new_spec _ _ HX) as [Hab _]. split; [exact Hab|]. rewrite Ep in HX. unfold cex_new in HX. cbn [get_int nth_error bindr] in HX. destruct (get_float _ 3) as [f|]; [|discriminate]. cbn [bindr] in HX.
    destruct ((0 <=? a)%Z && (a <? b)%Z) eqn:El; [|discriminate]. destruct (Rle_dec 0 f); [|discriminate]. destruct (Rle_dec f (2 * PI)); [|discriminate]. injection HX as <-. cbn [cx_b]. apply andb_true_iff in El as [El1 El2]. apply Z.leb_le in El1. apply Z.ltb_lt in El2. lia.
  - apply csum_unitary; apply Pos; [left|right; left]; reflexivity.
Qed.
Lemma misim_noisy same dims nm draw gs is : pointers same -> register dims -> Forall2 (reads dims) gs is -> Forall (in_scope dims) is -> Forall (plain nm) is -> Forall (fitting dims nm) is -> physical nm = false ->
  exists out hs v, noisy dims nm draw is 0 out /\ Forall2 (reads dims) hs out /\ misim 0 same dims nm draw is = Done v /\ evolves dims (ket 0) hs v /\ norm2 (prodl dims) v = 1%R.
Proof.
  intros So [_ P] HR Sc Pl Ft Ph. destruct (noisy_runs dims nm draw P gs is HR Sc Pl Ft 0) as (out & hs & E & Ro & Sout).
  destruct (misim_ok dims P same So hs out draw Ro Sout) as (v & Ev & Hv). exists out, hs, v. split; [apply generate_ok; assumption|]. split; [exact Ro|].
  assert (Em : misim 0 same dims nm draw is = misim 0 same dims [] draw out). { unfold misim, simulate. rewrite Ph, E. cbn [physical existsb]. rewrite no_noise. reflexivity. }
  split; [rewrite Em; exact Ev|]. split; [exact Hv|]. rewrite (evolves_norm dims hs P) with (psi := ket 0) (phi := v); [|  |exact Hv].
  - apply norm2_ket. apply prodl_pos. exact P.
  - intros g Hg. clear - P Ro Sout Hg. induction Ro as [|h o hs out R Ro IH]; [contradiction|]. inversion Sout as [|o' out' S1 S2]; subst. destruct Hg as [->|Hg]; [|apply IH; assumption].
    split; [apply (reads_placed dims g o R (proj1 S1))|apply (reads_unitary dims g o P R S1)].
Qed.
