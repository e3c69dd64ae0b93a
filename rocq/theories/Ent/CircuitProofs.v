(** Whole circuits compiled by the physical two-qudit pass (C84). *)
From Coq Require Import Reals Lra Lia List Arith ZArith String.
From Verif.Base Require Import Py PyFacts Cplx Matrix.
From Verif.Gates Require Import SingleModel TwoModel TwoSpec.
From Verif.Levels Require Import LevelsModel LevelsSpec GraphProofs LevelsProofs RouteProofs.
From Verif.Variational Require EmitProofs.
From Verif.Local Require Import QrModel QrSpec QrEmit QrProofs QrPhysical QrPasses.
From Verif.Ent Require Import BlockModel BlockSpec PassModel PassSpec CircuitSpec ExecProofs EmitProofs PassProofs.
Import ListNotations.
Local Open Scope nat_scope.

Lemma nth_pyindex {A} (l : list A) i x : nth_error l i = Some x <-> pyindex l (Z.of_nat i) = Ok x.
Proof.
  rewrite pyindex_norm. unfold norm_index. replace (Z.of_nat i <? 0)%Z with false by (symmetry; apply Z.ltb_ge; lia). rewrite Nat2Z.id.
  split; [|tauto]. intros H. split; [|exact H]. assert (X : i < List.length l) by (apply nth_error_Some; congruence). lia.
Qed.
Lemma nth_put gs i j g g0 : nth_error gs i = Some g0 -> nth_error (put_graph gs (Z.of_nat i) g) j = if Nat.eqb i j then Some g else nth_error gs j.
Proof.
  intros Hi. assert (Li : i < List.length gs) by (apply nth_error_Some; congruence).
  unfold put_graph. replace (Z.of_nat i <? 0)%Z with false by (symmetry; apply Z.ltb_ge; lia). rewrite Nat2Z.id.
  assert (LF : List.length (firstn i gs) = i) by (rewrite firstn_length; lia).
  destruct (Nat.eqb_spec i j) as [<-|N].
  - rewrite nth_error_app2 by lia. rewrite LF, Nat.sub_diag. reflexivity.
  - destruct (Nat.lt_ge_cases j i) as [L|L].
    + rewrite nth_error_app1 by lia. rewrite <- (firstn_skipn i gs) at 2. rewrite nth_error_app1 by lia. reflexivity.
    + rewrite nth_error_app2 by lia. rewrite LF. replace (j - i) with (S (j - S i)) by lia. cbn [nth_error].
      rewrite <- (firstn_skipn (S i) gs) at 2. rewrite nth_error_app2 by (rewrite firstn_length; lia). rewrite firstn_length, Nat.min_l by lia. reflexivity.
Qed.
Lemma laid_same d g h p : laid_out d g p -> routable d h -> same_but_phases d g h -> (forall n q, placed h n q <-> placed g n q) -> laid_out d h p.
Proof.
  intros [A B C] R S PL. split; [exact R|rewrite (sb_keys d g h S); exact B|]. intros n Hn. apply PL. apply C. exact Hn.
Qed.

Section Circuit.
  Variables (sp : lgraph -> Z -> Z -> res (list Z)).
  Variables (round6 : R -> R) (det : nat -> (nat -> nat -> R) -> R) (solve : nat -> (nat -> nat -> R) -> (nat -> R) -> res (list R)).
  Hypothesis SP : finds_shortest sp.
  Hypothesis HD : exact_det det.
  Hypothesis HS : exact_solve det solve.
  Hypothesis HR : rounds6 round6.
  Notation gates := (fun dc dt U => log_ent_gate round6 det solve code_eps code_delta dc dt true U).

  (** The slots after a gate. *)
  Definition kept (gs gs' : list lgraph) (T : nat -> Prop) : Prop :=
    forall i g, nth_error gs i = Some g -> exists h, nth_error gs' i = Some h /\ (forall n p, placed h n p <-> placed g n p) /\
      (forall d p, laid_out d g p -> laid_out d h p /\ forall u v, linked g u v -> linked h u v) /\ (T i -> no_phases h) /\ (~ T i -> h = g).
  Lemma kept_step gs i d U g0 : nth_error gs i = Some g0 -> routable d g0 -> covers d g0 -> unitary d U ->
    exists l g', phy_transpile_gate sp gs (Z.of_nat i) d U = Ok (l, put_graph gs (Z.of_nat i) g') /\ routable d g' /\ covers d g' /\
      kept gs (put_graph gs (Z.of_nat i) g') (eq i).
  Proof.
    intros G RT CV HU. destruct (phy_transpile_gate_ok sp gs (Z.of_nat i) d U g0 SP (proj1 (nth_pyindex _ _ _) G) RT CV HU) as (l & o & g' & E & _ & _ & _ & _ & _ & R' & C' & N' & W' & S').
    exists l, g'. split; [exact E|]. split; [exact R'|]. split; [exact C'|]. intros j g Hj. rewrite (nth_put gs i j g' g0 G). destruct (Nat.eqb_spec i j) as [<-|N].
    - assert (g = g0) by congruence. subst g. exists g'. split; [reflexivity|]. split; [exact W'|]. split; [|split; [auto|tauto]].
      intros e p L. assert (e = d).
      { assert (X := covers_length d g0 RT CV). assert (Y := covers_length e g0 (lo_routable _ _ _ L) (laid_covers _ _ _ L)). congruence. }
      subst e. split; [apply (laid_same d g0 g' p L R' S' W')|]. intros u v. unfold linked, joined. rewrite (sb_adj d g0 g' S'). auto.
    - exists g. split; [exact Hj|]. split; [tauto|]. split; [intros; split; auto|]. split; [intros E'; congruence|reflexivity].
  Qed.
  Lemma kept_trans gs1 gs2 gs3 (T1 T2 T : nat -> Prop) : kept gs1 gs2 T1 -> kept gs2 gs3 T2 -> (forall i, T i <-> T1 i \/ T2 i) ->
    (forall i, T1 i \/ ~ T1 i) -> (forall i, T2 i \/ ~ T2 i) -> kept gs1 gs3 T.
  Proof.
    intros K1 K2 HT D1 D2 i g Hi. destruct (K1 i g Hi) as (h & Hh & P1 & L1 & N1 & E1). destruct (K2 i h Hh) as (k & Hk & P2 & L2 & N2 & E2).
    exists k. split; [exact Hk|]. split; [intros n p; rewrite P2; apply P1|]. split; [intros d p H; destruct (L1 d p H) as [A1 A2]; destruct (L2 d p A1) as [B1 B2]; auto|]. split.
    - intros H. destruct (D2 i) as [A|A]; [apply N2, A|]. rewrite (E2 A). apply HT in H. destruct H as [H|H]; [apply N1, H|contradiction].
    - intros H. rewrite E2, E1; trivial; intros A; apply H, HT; auto.
  Qed.
  Lemma kept_refl gs : kept gs gs (fun _ => False).
  Proof. intros i g Hi. exists g. split; [exact Hi|]. split; [tauto|]. split; [intros; split; auto|]. split; [tauto|reflexivity]. Qed.
  Lemma kept_iff gs gs' (T T' : nat -> Prop) : kept gs gs' T -> (forall i, T i <-> T' i) -> kept gs gs' T'.
  Proof.
    intros K HT i g Hi. destruct (K i g Hi) as (h & A & B & C & D & E). exists h. split; [exact A|]. split; [exact B|]. split; [exact C|]. split.
    - intros H. apply D, HT, H.
    - intros H. apply E. intros X. apply H, HT, X.
  Qed.

  Definition mat_lines (g : twogate) (i : nat) : Prop := match tw_op g with TMat _ => i = tw_q0 g \/ i = tw_q1 g | TCex _ _ => False end.
  Lemma mat_lines_dec g i : mat_lines g i \/ ~ mat_lines g i.
  Proof. unfold mat_lines. destruct (tw_op g); [tauto|]. destruct (Nat.eq_dec i (tw_q0 g)), (Nat.eq_dec i (tw_q1 g)); tauto. Qed.

  Lemma gate_kept gs g p0 p1 : on_lines gs g p0 p1 -> exists o gs', phy_ent_gate sp round6 det solve gs g = Ok (o, gs') /\ put_out gates gs g o /\ kept gs gs' (mat_lines g).
  Proof.
    intros [Lt [D1 D2] (g0 & G0 & L0) (g1 & G1 & L1) OK]. destruct g as [q0 q1 dc dt [x dag|U]]; cbn [tw_q0 tw_q1 tw_dc tw_dt tw_op] in *.
    - assert (P0 := proj1 (nth_pyindex _ _ _) G0). assert (P1 := proj1 (nth_pyindex _ _ _) G1).
      destruct (phy_cex_ok sp round6 det solve gs q0 q1 dc dt g0 g1 p0 p1 P0 P1 L0 L1 x dag OK) as (y & M & M' & E & F & EM & EM' & _).
      rewrite (proj2 (Nat.ltb_lt q0 q1) Lt) in EM, EM'.
      eexists _, _. split; [exact E|]. split; [|exact (kept_refl gs)]. unfold put_out. cbn [tw_q0 tw_q1 tw_dc tw_dt tw_op].
      exists y, M, M'. split; [reflexivity|]. split; [exact F|]. split; [exact EM|]. split; [exact EM'|].
      intros r0 r1 [_ _ (h0 & H0 & M0) (h1 & H1 & M1) _]. cbn [tw_q0 tw_q1 tw_dc tw_dt tw_op] in *.
      assert (h0 = g0) by congruence. assert (h1 = g1) by congruence. subst h0 h1.
      destruct (phy_cex_ok sp round6 det solve gs q0 q1 dc dt g0 g1 r0 r1 P0 P1 M0 M1 x dag OK) as (y' & N & N' & E' & _ & EN & EN' & R & _).
      rewrite (proj2 (Nat.ltb_lt q0 q1) Lt) in EN, EN', R. rewrite E in E'. injection E' as <-. rewrite EM in EN. injection EN as <-. rewrite EM' in EN'. injection EN' as <-. exact R.
    - destruct (perm_laid dc g0 p0 L0) as (A & EA & UA). destruct (perm_laid dt g1 p1 L1) as (B & EB & UB).
      destruct (emitted_ok round6 det solve HD HS HR dc dt U D1 D2 OK) as (l & El & _).
      unfold phy_ent_gate. cbn [tw_q0 tw_q1 tw_dc tw_dt tw_op]. rewrite (proj1 (nth_pyindex _ _ _) G0), (proj1 (nth_pyindex _ _ _) G1). cbn [bindr].
      rewrite (lp_map_laid dc g0 p0 L0), (lp_map_laid dt g1 p1 L1). cbn [bindr]. rewrite EA, EB. cbn [bindr].
      destruct (kept_step gs q0 dc A g0 G0 (lo_routable _ _ _ L0) (laid_covers _ _ _ L0) UA) as (l1 & h0 & E1 & R0 & C0' & K1). rewrite E1. cbn [bindr snd].
      set (gs1 := put_graph gs (Z.of_nat q0) h0) in *. destruct (K1 q1 g1 G1) as (g1' & G1' & _ & LL1 & _).
      assert (M1 := proj1 (LL1 _ _ L1)).
      destruct (kept_step gs1 q1 dt B g1' G1' (lo_routable _ _ _ M1) (laid_covers _ _ _ M1) UB) as (l2 & h1 & E2 & R1 & C1' & K2). rewrite E2. cbn [bindr snd].
      set (gs2 := put_graph gs1 (Z.of_nat q1) h1) in *.
      destruct (K1 q0 g0 G0) as (x0 & X0 & _ & LX0 & _). destruct (K2 q0 x0 X0) as (y0 & Y0 & _ & LY0 & _). assert (N0 := proj1 (LY0 _ _ (proj1 (LX0 _ _ L0)))).
      destruct (kept_step gs2 q0 dc (madj A) y0 Y0 (lo_routable _ _ _ N0) (laid_covers _ _ _ N0) (unitary_adj _ _ UA)) as (l3 & h2 & E3 & _ & _ & K3). rewrite E3. cbn [bindr snd].
      set (gs3 := put_graph gs2 (Z.of_nat q0) h2) in *.
      destruct (K2 q1 g1' G1') as (x1 & X1 & _ & LX1 & _). destruct (K3 q1 x1 X1) as (y1 & Y1 & _ & LY1 & _). assert (N1 := proj1 (LY1 _ _ (proj1 (LX1 _ _ M1)))).
      destruct (kept_step gs3 q1 dt (madj B) y1 Y1 (lo_routable _ _ _ N1) (laid_covers _ _ _ N1) (unitary_adj _ _ UB)) as (l4 & h3 & E4 & _ & _ & K4). rewrite E4. cbn [bindr snd].
      unfold ent_transpile_gate. cbn [two_matrix tw_op bindr tw_dc tw_dt tw_q0 tw_q1]. rewrite (proj2 (Nat.ltb_lt _ _) Lt), El. cbn [bindr].
      eexists _, _. split; [reflexivity|]. split; [unfold put_out; cbn; eauto|].
      assert (DE : forall a i : nat, a = i \/ a <> i) by (intros; destruct (Nat.eq_dec a i); auto).
      eapply kept_trans with (T1 := fun i => q0 = i \/ q1 = i) (T2 := fun i => q0 = i \/ q1 = i);
        [eapply kept_trans with (T1 := eq q0) (T2 := eq q1); [exact K1|exact K2|tauto|apply DE|apply DE]
        |eapply kept_trans with (T1 := eq q0) (T2 := eq q1); [exact K3|exact K4|tauto|apply DE|apply DE]| | |].
      + intros i. unfold mat_lines. cbn. split; [intros [-> | ->]; auto|intros [[<-|<-]|[<-|<-]]; auto].
      + intros i. destruct (DE q0 i), (DE q1 i); tauto.
      + intros i. destruct (DE q0 i), (DE q1 i); tauto.
  Qed.

  Lemma lines_kept gs gs' T g p0 p1 : kept gs gs' T -> on_lines gs g p0 p1 -> on_lines gs' g p0 p1.
  Proof.
    intros K [A B (h0 & H0 & L0) (h1 & H1 & L1) C]. split; trivial.
    - destruct (K _ _ H0) as (k & Hk & _ & L & _). exists k. split; [exact Hk|]. apply L. assumption.
    - destruct (K _ _ H1) as (k & Hk & _ & L & _). exists k. split; [exact Hk|]. apply L. assumption.
  Qed.
  (* the placements of a graph are those of the graph it was *)
  Lemma lines_back gs gs' T g p0 p1 q0 q1 : kept gs gs' T -> on_lines gs g q0 q1 -> on_lines gs g p0 p1 -> on_lines gs' g p0 p1.
  Proof. intros K _ H. eapply lines_kept; eassumption. Qed.

  Theorem phy_ent_circuit c : forall gs, (forall g, In (ETwo g) c -> exists p0 p1, on_lines gs g p0 p1) ->
    exists out gs', phy_ent_transpile sp round6 det solve gs c = Ok (out, gs') /\ each_two (put_out gates gs) c out /\ kept gs gs' (touched c).
  Proof.
    induction c as [|[g|n] c IH]; intros gs H.
    - exists [], gs. split; [reflexivity|]. split; [constructor|]. eapply kept_iff; [apply kept_refl|]. intros i. split; [tauto|]. intros (g & U & [] & _).
    - destruct (H g (or_introl eq_refl)) as (p0 & p1 & OL). destruct (gate_kept gs g p0 p1 OL) as (o & gs1 & E & PO & K).
      destruct (IH gs1) as (out & gs2 & E2 & ET & K2).
      { intros g' Hg. destruct (H g' (or_intror Hg)) as (r0 & r1 & OL'). exists r0, r1. exact (lines_kept _ _ _ _ _ _ K OL'). }
      exists (o ++ out), gs2. split; [cbn [phy_ent_transpile]; rewrite E; cbn [bindr fst snd]; rewrite E2; reflexivity|]. split.
      + constructor; [exact PO|]. clear - ET K. induction ET as [|n c o' ET IH|h l c o' P ET IH]; constructor; trivial.
        unfold put_out in *. destruct (tw_op h); [|exact P]. destruct P as (y & M & M' & A1 & A2 & A3 & A4 & A5). exists y, M, M'. split; [exact A1|]. split; [exact A2|]. split; [exact A3|]. split; [exact A4|].
        intros p0 p1 OL. apply A5. exact (lines_kept _ _ _ _ _ _ K OL).
      + eapply kept_trans; [exact K|exact K2| |apply mat_lines_dec|].
        * intros i. unfold touched, mat_lines. split.
          -- intros (g' & U & [Hg|Hg] & EU & L); [injection Hg as <-; rewrite EU; auto|right; eauto].
          -- intros [L|(g' & U & Hg & EU & L)]; [|exists g', U; auto using in_cons]. destruct (tw_op g) as [x dag|U] eqn:EU; [destruct L|]. exists g, U. split; [left; reflexivity|auto].
        * intros i. clear. induction c as [|e c [IH|IH]]; [right; intros (g & U & [] & _)|left|].
          -- destruct IH as (g & U & Hg & R). exists g, U. split; [right; exact Hg|exact R].
          -- destruct e as [g|n].
             ++ destruct (mat_lines_dec g i) as [M|M].
                ** left. unfold mat_lines in M. destruct (tw_op g) as [x dag|U] eqn:EU; [destruct M|]. exists g, U. split; [left; reflexivity|auto].
                ** right. intros (g' & U & [Hg|Hg] & EU & L); [injection Hg as <-; apply M; unfold mat_lines; rewrite EU; exact L|]. apply IH. exists g', U. auto.
             ++ right. intros (g' & U & [Hg|Hg] & EU & L); [discriminate|]. apply IH. exists g', U. auto.
    - destruct (IH gs) as (out & gs2 & E2 & ET & K2); [intros g' Hg; apply H; right; exact Hg|].
      exists (EKeep n :: out), gs2. split; [cbn [phy_ent_transpile]; rewrite E2; reflexivity|]. split; [constructor; exact ET|].
      eapply kept_iff; [exact K2|]. intros i. unfold touched. split.
      + intros (g & U & Hg & R). exists g, U. split; [right; exact Hg|exact R].
      + intros (g & U & [Hg|Hg] & R); [discriminate|]. exists g, U. auto.
  Qed.
End Circuit.
