(** The physical adaptive search: soundness and termination. *)
From Coq Require Import Reals Lra Lia List Arith ZArith.
From Verif.Base Require Import Py PyFacts Cplx Matrix Angle.
From Verif.Gates Require Import AnglesModel AnglesProofs SingleModel SingleSpec SingleProofs.
From Verif.Sim Require Import TnSpec.
From Verif.Levels Require Import LevelsModel LevelsSpec GraphProofs LevelsProofs RouteProofs PhaseProofs.
From Verif.Variational Require EmitProofs.
From Verif.Local Require Import QrModel QrSpec QrMath QrCore PulseProofs QrMoved QrEmit QrProofs QrPhysical TreeModel AdaModel AdaSpec SearchProofs AdaProofs AdaFound PhySpec PhyPulse PhyUpdate PhyStep.
Import ListNotations.
Local Open Scope list_scope.
Local Open Scope nat_scope.

Lemma native_same g g' o : same_couplings g g' -> native g' o -> native g o.
Proof. intros [SC _]. destruct o as [r|]; cbn [native]; [|auto]. intros (dat & H). exists dat. apply SC. exact H. Qed.
Lemma couplings_trans g1 g2 g3 : same_couplings g1 g2 -> same_couplings g2 g3 -> same_couplings g1 g3.
Proof. intros [A B] [C D]. split; [intros; rewrite A; apply C|intros; rewrite B; apply D]. Qed.
Lemma couplings_refl g : same_couplings g g.
Proof. split; intros; reflexivity. Qed.

(** *** Stored half turns are emitted exactly *)
Lemma flush_halves delta d g f : (0 <= delta < PI)%R -> routable d g -> covers d g -> pending g f -> halves d f ->
  meq d (ops_matrix d (flat_map (flushed delta d g (fun i => Some (AInt (Z.of_nat (lpf g i))))) (seq 0 d))) (phases f).
Proof.
  intros D0 RT CV PF HF. assert (Lin := lpf_in d g RT CV). assert (Inj := lpf_inj d g RT CV).
  assert (MV := flushed_moved delta d g RT CV d (le_n d)).
  eapply (moved_fun d (lpf g) Lin Inj); [exact MV|]. apply (moved_diag d _ Inj). intros i Hi. rewrite (proj2 (Nat.ltb_lt i d)) by exact Hi.
  rewrite (pending_stored d g f i RT CV Hi PF), <- cis_turned.
  destruct (Rlt_dec delta (Rabs (turned g i))) as [Y|Y]; [reflexivity|].
  assert (X : turned g i = 0%R); [|rewrite X, Ropp_0; apply Ceq; cbn; [apply cos_0|apply sin_0]].
  assert (S : sin (turned g i) = 0%R).
  { assert (Q := cis_turned g i). apply (f_equal snd) in Q. cbn in Q. rewrite !sin_neg in Q. rewrite <- (pending_stored d g f i RT CV Hi PF) in Q.
    rewrite (HF _ (Lin i Hi)) in Q. lra. }
  apply sin_eq_0_0 in S. destruct S as (k & S). assert (A : (Rabs (turned g i) <= delta)%R) by lra. assert (A1 := Rle_abs (turned g i)). assert (A2 := Rle_abs (- turned g i)). rewrite Rabs_Ropp in A2.
  assert (P := PI_RGT_0). assert (K1 : (IZR k < 1)%R) by nra. assert (K2 : (-1 < IZR k)%R) by nra. apply lt_IZR in K1, K2. replace k with 0%Z in S by lia. lra.
Qed.

Section Phy.
  Variables (sp : lgraph -> Z -> Z -> res (list Z)) (eps tiny near slack delta : R) (d : nat).
  Hypothesis SP : finds_shortest sp.
  Hypothesis S0 : (0 < slack)%R.
  Notation kid := (phy_kid sp eps tiny slack d).

  Lemma phy_child a b g f : child kid d a b -> s_graph a = Some g -> fit d g f ->
    exists c r r2 q g2 f2, c <= r < r2 /\ r2 < d /\ wanted eps tiny (s_u a) c r r2 = true /\
      s_graph b = Some g2 /\ fit d g2 f2 /\ same_couplings g g2 /\ s_rot b = Some q /\
      Forall (native g) (map OR (s_pulses b) ++ [OR q]) /\ unitary d (ops_matrix d (map OR (s_pulses b) ++ [OR q])) /\
      s_u b = mmul d (swing d (s_u a) c r r2) (s_u a) /\
      meq d (mmul d (ops_matrix d (map OR (s_pulses b) ++ [OR q])) (frame d g f)) (mmul d (frame d g2 f2) (swing d (s_u a) c r r2)) /\
      s_max b = s_max a /\ (s_dcost a + 8 / 100000 <= s_dcost b)%R /\ (s_dcost b < snd (s_max a) + slack)%R /\
      (linked g (Z.of_nat r) (Z.of_nat r2) -> g2 = g).
  Proof.
    intros (((c, r), r2) & Ht & E) Eg FT. apply triples_spec in Ht.
    destruct (wanted eps tiny (s_u a) c r r2) eqn:W; [|rewrite kid_unwanted in E by exact W; discriminate].
    destruct (kid_ok sp eps tiny slack d SP a g f c r r2 Eg FT ltac:(lia) W) as (cpi & gc & ps & q & g2 & f2 & est & EK & C1 & C2 & FT2 & SC & NA & UN & ME & LK & _).
    rewrite EK in E. destruct (affordable slack (snd (s_max a)) (cpi + gc + s_dcost a)) eqn:AF; [|discriminate]. injection E as <-.
    apply (affordable_spec slack _ _ S0) in AF. assert (X := rotation_cost_min (ada_theta (s_u a) c r r2)).
    exists c, r, r2, q, g2, f2. cbn [s_graph s_rot s_pulses s_u s_max s_dcost]. split; [lia|]. split; [lia|]. split; [exact W|].
    split; [reflexivity|]. split; [exact FT2|]. split; [exact SC|]. split; [reflexivity|]. split; [exact NA|]. split; [exact UN|]. split; [reflexivity|].
    split; [exact ME|]. split; [reflexivity|]. split; [lra|]. split; [lra|]. intros H. apply LK. exact H.
  Qed.

  Lemma phy_chain a p : chain kid d a p -> unitary d (s_u a) -> forall g f, s_graph a = Some g -> fit d g f -> let x := last p a in
    exists gx fx, s_graph x = Some gx /\ fit d gx fx /\ same_couplings g gx /\ Forall (native g) (path_ops p) /\
      unitary d (ops_matrix d (path_ops p)) /\ unitary d (s_u x) /\
      meq d (mmul d (mmul d (ops_matrix d (path_ops p)) (frame d g f)) (s_u a)) (mmul d (frame d gx fx) (s_u x)) /\
      s_max x = s_max a /\ (p = [a] \/ (s_dcost x < snd (s_max a) + slack)%R) /\
      (all_coupled d g -> gx = g).
  Proof.
    intros H. induction H as [a|a b p Hb Hp IH]; intros HU g f Eg FT; cbv zeta.
    - exists g, f. cbn [last path_ops tl flat_map]. split; [exact Eg|]. split; [exact FT|]. split; [apply couplings_refl|]. split; [constructor|].
      split; [apply unitary_id|]. split; [exact HU|]. split; [|auto]. apply mmul_ext; [apply mmul_id_l|apply meq_refl].
    - destruct (phy_child a b g f Hb Eg FT) as (c & r & r2 & q & g2 & f2 & H1 & H2 & W & Eb & F2 & SC & ER & NA & UN & UB & ME & MX & _ & CB & LK).
      assert (UB' : unitary d (s_u b)) by (rewrite UB; apply unitary_mmul; [apply swing_unitary; lia|exact HU]).
      destruct (IH UB' g2 f2 Eb F2) as (gx & fx & Ex & FX & SX & NX & UX & UU & MM & MX' & AL & AC). destruct (chain_head _ _ _ _ Hp) as (q' & ->).
      rewrite path_ops_cons. rewrite ER. set (x := last (b :: q') b) in *.
      assert (LX : last (a :: b :: q') a = x) by (cbn [last]; unfold x; apply last_any). rewrite LX.
      exists gx, fx. split; [exact Ex|]. split; [exact FX|]. split; [eapply couplings_trans; eassumption|]. split; [|split; [|split; [exact UU|split; [|split; [|split]]]]].
      + apply Forall_app. split; [exact NA|]. eapply Forall_impl; [|exact NX]. intros o. apply native_same. exact SC.
      + eapply unitary_ext; [apply meq_sym, ops_app|]. apply unitary_mmul; [exact UX|exact UN].
      + eapply meq_trans; [|exact MM]. eapply meq_trans; [apply mmul_ext; [apply mmul_ext; [apply ops_app|apply meq_refl]|apply meq_refl]|].
        rewrite UB. eapply meq_trans; [apply mmul_ext; [apply mmul_assoc|apply meq_refl]|].
        eapply meq_trans; [apply mmul_ext; [apply mmul_ext; [apply meq_refl|exact ME]|apply meq_refl]|].
        eapply meq_trans; [|apply mmul_assoc]. apply mmul_ext; [|apply meq_refl]. apply meq_sym, mmul_assoc.
      + congruence.
      + right. destruct AL as [EQ|LT]; [|rewrite <- MX; exact LT]. injection EQ as ->. unfold x. cbn [last]. exact CB.
      + intros AA. assert (X : g2 = g) by (apply LK; apply AA; lia). rewrite X in AC. apply AC. exact AA.
  Qed.

  (** *** The phases of the diagonal *)
  Hypothesis D0 : (0 <= delta < PI)%R.
  Lemma phy_z_ok u g f ops : fit d g f -> exists new g', phy_z delta d false u g ops = Ok (ops ++ new, g') /\
    (forall o, In o new -> exists p, o = OV (Some p)) /\ List.length new <= 2 * d /\
    routable d g' /\ same_but_phases d g g' /\ no_phases g' /\
    meq d (mmul d (ops_matrix d new) (frame d g f)) (mmul d (relabel (lpf g)) (mdiag (fun i => fix_phase delta (u i i)))).
  Proof.
    intros [RT CV OG ST PF HF]. unfold phy_z.
    assert (FO : forall l ops1 o, foldr (fun ops i => phy_phase delta g d u ops i) l ops1 = Ok o -> foldr (phy_z_step delta d false u) l (ops1, g) = Ok (o, g)).
    { induction l as [|i l IH]; intros ops1 o E; cbn [foldr] in *; [injection E as <-; reflexivity|].
      apply EmitProofs.bindr_Ok in E. destruct E as (o1 & E1 & E). unfold phy_z_step at 1. unfold phy_phase in E1.
      destruct (Rlt_dec delta (Rabs (angle (u i i)))); [|injection E1 as <-; cbn [bindr]; apply IH; exact E].
      apply EmitProofs.bindr_Ok in E1. destruct E1 as (v & -> & E1). injection E1 as <-. cbn [bindr]. apply IH. exact E. }
    destruct (phases_good d (lpf g) delta (lpf_in d g RT CV) (lpf_inj d g RT CV) (phy_phase delta g d) u (phy_phase_good delta d g RT CV) d (le_n d) ops) as (new & E & V & L & M).
    rewrite (FO _ _ _ E). cbn [bindr fst snd].
    destruct (flush_ok delta d g phy_level (fun i => Some (AInt (Z.of_nat (lpf g i)))) RT CV) as (ops0 & rec & g' & EF & R' & S' & N' & CASES).
    { intros g1 i R1 C1 S1 Hi. unfold phy_level. rewrite (node_attr_ok d g1 R1 _ _ _ (lpf_placed d g1 R1 C1 i Hi)). cbn [bindr].
      rewrite (sb_lpf d g g1 i RT R1 CV S1 Hi). reflexivity. }
    rewrite EF. cbn [bindr]. destruct CASES as [(NP & _)|(_ & EO & _)]; [exfalso; destruct ST as (n & v & H); exact (NP n v H)|].
    exists (new ++ ops0), g'. rewrite app_assoc. split; [reflexivity|].
    split; [intros o H; apply in_app_iff in H; destruct H as [H|H]; [apply V; exact H|]|split; [|split; [exact R'|split; [exact S'|split; [exact N'|]]]]].
    - rewrite EO in H. apply in_flat_map in H. destruct H as (i & Hi & H). apply in_seq in Hi. unfold flushed in H.
      destruct (Rlt_dec delta (Rabs (turned g i))); [|destruct H]. destruct H as [<-|[]]. assert (B := lpf_in d g RT CV i ltac:(lia)). unfold virtrz_params.
      rewrite (proj2 (Z.leb_le 0 (Z.of_nat (lpf g i)))), (proj2 (Z.ltb_lt (Z.of_nat (lpf g i)) (Z.of_nat d))) by lia. cbn [andb]. eauto.
    - rewrite app_length, EO. assert (X := flushed_length delta d g (fun i => Some (AInt (Z.of_nat (lpf g i)))) d). lia.
    - assert (FL := flush_halves delta d g f D0 RT CV PF HF). rewrite <- EO in FL.
      assert (M' : moved d (lpf g) (mdiag (fun i => fix_phase delta (u i i))) (ops_matrix d new)).
      { eapply (moved_ext d (lpf g) (lpf_in d g RT CV)); [|apply meq_refl|exact M]. intros i j Hi Hj. unfold mdiag. rewrite (proj2 (Nat.ltb_lt i d)) by exact Hi. reflexivity. }
      set (D := mdiag (fun i => fix_phase delta (u i i))) in *.
      assert (CM : meq d (mmul d (ops_matrix d new) (phases f)) (mmul d (phases f) (ops_matrix d new))).
      { assert (DG : meq d (ops_matrix d new) (mdiag (fun p => fix_phase delta (u (unlp d (lpf g) p) (unlp d (lpf g) p))))).
        { eapply (moved_fun d (lpf g) (lpf_in d g RT CV) (lpf_inj d g RT CV)); [exact M'|]. apply (moved_diag d _ (lpf_inj d g RT CV)). intros i Hi.
          rewrite (unlp_lp d (lpf g) (lpf_inj d g RT CV)) by exact Hi. reflexivity. }
        eapply meq_trans; [apply mmul_ext; [exact DG|apply meq_refl]|]. eapply meq_trans; [|apply mmul_ext; [apply meq_refl|apply meq_sym; exact DG]].
        unfold phases. eapply meq_trans; [apply mdiag_mul|]. eapply meq_trans; [|apply meq_sym, mdiag_mul]. intros i j Hi Hj. unfold mdiag. destruct (Nat.eqb i j); [ring|reflexivity]. }
      unfold frame. eapply meq_trans; [apply mmul_ext; [apply ops_app|apply meq_refl]|].
      eapply meq_trans; [apply mmul_ext; [apply mmul_ext; [exact FL|apply meq_refl]|apply meq_refl]|].
      eapply meq_trans; [apply meq_sym, mmul_assoc|].
      eapply meq_trans; [|apply (relabel_moved d g RT CV); exact M'].
      apply mmul_ext; [|apply meq_refl].
      eapply meq_trans; [apply mmul_assoc|]. eapply meq_trans; [apply mmul_ext; [apply meq_refl|exact CM]|].
      eapply meq_trans; [apply meq_sym, mmul_assoc|]. eapply meq_trans; [apply mmul_ext; [apply phases_involution; exact HF|apply meq_refl]|]. apply mmul_id_l.
  Qed.
End Phy.
