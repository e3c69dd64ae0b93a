(** The logical adaptive search. *)
From Coq Require Import Reals Lra Lia List Arith ZArith.
From Verif.Base Require Import Py PyFacts Cplx Matrix Angle.
From Verif.Gates Require Import AnglesModel AnglesProofs SingleModel SingleSpec SingleProofs.
From Verif.Sim Require Import TnSpec.
From Verif.Levels Require Import LevelsModel LevelsSpec GraphProofs LevelsProofs RouteProofs PhaseProofs.
From Verif.Variational Require EmitProofs.
From Verif.Local Require Import QrModel QrSpec QrMath QrCore QrMoved QrEmit QrProofs TreeModel AdaModel AdaSpec SearchProofs.
Import ListNotations.
Local Open Scope list_scope.
Local Open Scope nat_scope.

(** *** One rotation *)
Definition swing (d : nat) (u : mat) (c a b : nat) : mat := r_array d a b (regulate_theta (ada_theta u c a b)) (ada_phi u c a b).
Lemma swing_rotation d u c a b : a < b -> meq d (swing d u c a b) (rotation a b (ada_theta u c a b) (ada_phi u c a b)).
Proof. intros H. unfold swing. eapply meq_trans; [apply r_array_rotation; lia|]. apply rotation_regulated. Qed.
Lemma swing_unitary d u c a b : a < b < d -> unitary d (swing d u c a b).
Proof. intros H. eapply unitary_ext; [apply meq_sym, swing_rotation; lia|]. apply rotation_unitary; lia. Qed.
Lemma swing_zero d u c a b : a < b < d -> c < d -> mmul d (swing d u c a b) u b c = C0.
Proof.
  intros H Hc. assert (E : meq d (mmul d (swing d u c a b) u) (mmul d (rotation a b (ada_theta u c a b) (ada_phi u c a b)) u))
    by (apply mmul_ext; [apply swing_rotation; lia|apply meq_refl]).
  rewrite (E b c) by lia. unfold rotation. rewrite two_level_rows by lia.
  replace (Nat.eqb b a) with false by (symmetry; apply Nat.eqb_neq; lia). rewrite Nat.eqb_refl.
  unfold ada_theta, ada_phi. set (v := u a c). set (w := u b c).
  replace (2 * atan2 (Cmod w) (Cmod v) / 2)%R with (atan2 (Cmod w) (Cmod v)) by field.
  replace (- (PI / 2 + angle v - angle w))%R with (- (PI / 2) + (- angle v + angle w))%R by ring.
  rewrite !cis_add. rewrite (cis_neg (PI / 2)), cis_PI2, Cconj_i.
  rewrite (angle_polar v) at 3. rewrite (angle_polar w) at 4. rewrite (cis_neg (angle v)).
  destruct (atan2_polar (Cmod w) (Cmod v)) as [P1 P2]. set (t := atan2 (Cmod w) (Cmod v)) in *.
  set (N := sqrt _) in *. Local Open Scope C_scope.
  transitivity (cis (angle w) * ((Ci * Ci) * RtoC (sin t) * RtoC (Cmod v) * (Cconj (cis (angle v)) * cis (angle v)) + RtoC (cos t) * RtoC (Cmod w))); [ring|].
  rewrite cis_conj_mul', Cii.
  transitivity (cis (angle w) * RtoC (- (sin t * Cmod v) + cos t * Cmod w)).
  { rewrite RtoC_add, RtoC_opp, !RtoC_mul. ring. }
  replace (- (sin t * Cmod v) + cos t * Cmod w)%R with 0%R by (rewrite P1, P2; ring). rewrite RtoC_0. ring.
Qed.
Local Close Scope C_scope.

Lemma rotation_cost_min t : (8 / 100000 <= theta_cost (regulate_theta t))%R.
Proof.
  destruct (regulate_theta_spec t) as (_ & _ & H). assert (P := PI_RGT_0). unfold theta_cost.
  assert (X : (2 / 10 <= Rabs (regulate_theta t / PI))%R).
  { unfold Rdiv at 2. rewrite Rabs_mult. rewrite (Rabs_right (/ PI)) by (left; apply Rinv_0_lt_compat; exact P).
    apply Rmult_le_reg_r with PI; [exact P|]. rewrite Rmult_assoc, Rinv_l by lra. lra. }
  assert (Y := Rabs_pos (rmod (Rabs (regulate_theta t / PI) + 1 / 4) (1 / 2) - 1 / 4)). lra.
Qed.

(** *** Nearly diagonal matrices *)
Lemma near_diag_entry near d W i : unitary d W -> (0 <= near)%R -> diagonal_within near d W -> i < d ->
  (1 - INR d * (near * near) <= Cmod (W i i) <= 1)%R.
Proof.
  intros HU N0 D Hi. assert (R := unitary_row d W i HU Hi).
  assert (M := Cmod_nonneg (W i i)). assert (Q := Cmod_sqr (W i i)).
  assert (H1 : (Cmod (W i i) <= 1)%R) by (apply Cmod_le; [lra|]; assert (X := unitary_entry d W i i HU Hi Hi); lra).
  split; [|exact H1].
  assert (S : (rsum d (fun j => Cnorm2 (W i j)) <= rsum d (fun j => near * near + if Nat.eqb j i then Cnorm2 (W i j) else 0))%R).
  { apply rsum_le. intros j Hj. destruct (Nat.eqb_spec j i) as [->|N]; [assert (X := Rle_0_sqr near); unfold Rsqr in X; lra|].
    assert (X := D i j Hi Hj (not_eq_sym N)). assert (Y := Cmod_nonneg (W i j)). rewrite <- Cmod_sqr. nra. }
  rewrite R, rsum_add, rsum_const, (rsum_pick d (fun j => Cnorm2 (W i j)) i Hi) in S. nra.
Qed.
Lemma near_close near delta d W : (0 <= near)%R -> (0 <= delta)%R -> unitary d W -> diagonal_within near d W ->
  close d (ada_error near delta d) (mmul d (mdiag (fun i => fix_phase delta (W i i))) W) mid.
Proof.
  intros N0 D0 HU D i j Hi Hj. unfold ada_error. assert (B : (0 <= INR d * (near * near))%R) by (apply Rmult_le_pos; [apply pos_INR|apply Rle_0_sqr]).
  rewrite mdiag_mul_l by assumption. unfold mid. destruct (Nat.eqb_spec i j) as [->|N].
  - assert (F := fix_close delta (W j j) (INR d * (near * near)) D0 (near_diag_entry near d W j HU N0 D Hj) B). lra.
  - replace (Csub (Cmul (fix_phase delta (W i i)) (W i j)) C0) with (Cmul (fix_phase delta (W i i)) (W i j)) by (apply Ceq; cbn; ring).
    rewrite Cmod_mul. replace (Cmod (fix_phase delta (W i i))) with 1%R by (unfold Cmod; rewrite fix_unit; symmetry; apply sqrt_1).
    assert (X := D i j Hi Hj N). lra.
Qed.

(** *** Costs *)
Lemma affordable_spec slack limit cost : (0 < slack)%R -> (affordable slack limit cost = true <-> (cost < limit + slack)%R).
Proof.
  intros S0. unfold affordable. rewrite Bool.orb_true_iff. destruct (Rlt_dec 0 (limit - cost)) as [H|H].
  - split; [intros _; lra|intros _; left; reflexivity].
  - destruct (Rlt_dec (Rabs (limit - cost)) slack) as [K|K].
    + split; [intros _|intros _; right; reflexivity]. apply Rabs_def2 in K. destruct K. lra.
    + split; [intros [X|X]; discriminate|]. intros X. exfalso. apply K. rewrite Rabs_left1 by lra. lra.
Qed.
Lemma costs_app l1 l2 : costs (l1 ++ l2) = (costs l1 + costs l2)%R.
Proof. unfold costs. induction l1 as [|x l IH]; cbn [app fold_right]; [lra|]. rewrite IH. lra. Qed.

Section Log.
  Variables (eps tiny near slack delta : R) (d : nat).
  Hypothesis S0 : (0 < slack)%R.
  Notation kid := (log_kid eps tiny slack d).

  Definition log_rot (u : mat) (c r r2 : nat) : rot :=
    Rot r r2 (regulate_theta (ada_theta u c r r2)) (ada_phi u c r r2) (Z.of_nat r) (Z.of_nat r2).
  Definition log_node (a : snode) (c r r2 : nat) : snode :=
    SN (Some (log_rot (s_u a) c r r2)) (mmul d (swing d (s_u a) c r r2) (s_u a)) None 0 (r_cost (log_rot (s_u a) c r r2) + s_dcost a)%R (s_max a) [].
  Lemma log_kid_eq a c r r2 : r < r2 < d -> kid a (c, r, r2) =
    Ok (if wanted eps tiny (s_u a) c r r2 && affordable slack (snd (s_max a)) (r_cost (log_rot (s_u a) c r r2) + s_dcost a)%R
        then Some (log_node a c r r2) else None).
  Proof.
    intros H. unfold log_kid. destruct (wanted eps tiny (s_u a) c r r2); [|reflexivity]. rewrite new_R_ok by lia. cbn [bindr andb].
    rewrite Z.min_l, Z.max_r, !Nat2Z.id by lia. fold (log_rot (s_u a) c r r2).
    destruct (affordable slack (snd (s_max a)) (r_cost (log_rot (s_u a) c r r2) + s_dcost a)); reflexivity.
  Qed.
  Lemma log_child a b : child kid d a b -> exists c r r2, c <= r < r2 /\ r2 < d /\ wanted eps tiny (s_u a) c r r2 = true /\
    (s_dcost b < snd (s_max a) + slack)%R /\ b = log_node a c r r2.
  Proof.
    intros (((c, r), r2) & Ht & E). apply triples_spec in Ht. rewrite log_kid_eq in E by lia.
    destruct (wanted eps tiny (s_u a) c r r2) eqn:W; [|discriminate]. cbn [andb] in E.
    destruct (affordable slack (snd (s_max a)) (r_cost (log_rot (s_u a) c r r2) + s_dcost a)) eqn:A; [|discriminate].
    injection E as <-. exists c, r, r2. split; [lia|]. split; [lia|]. split; [exact W|]. split; [|reflexivity].
    apply (affordable_spec slack _ _ S0). exact A.
  Qed.

  Lemma wanted_eps u c r r2 : wanted eps tiny u c r r2 = true -> (eps < Cmod (u r2 c))%R.
  Proof. unfold wanted. rewrite Bool.andb_true_iff. intros [H _]. destruct (Rlt_dec eps (Cmod (u r2 c))); [assumption|discriminate]. Qed.

  Lemma path_ops_cons a b p : path_ops (a :: b :: p) = (map OR (s_pulses b) ++ match s_rot b with Some r => [OR r] | None => [] end) ++ path_ops (b :: p).
  Proof. reflexivity. Qed.
  Lemma chain_head k n a p : chain k n a p -> exists q, p = a :: q.
  Proof. intros H. destruct H; eexists; reflexivity. Qed.

  Lemma log_chain a p : chain kid d a p -> unitary d (s_u a) -> let x := last p a in
    exists rots, path_ops p = map OR rots /\ eliminates eps d (s_u a) rots (s_u x) /\
      meq d (mmul d (ops_matrix d (map OR rots)) (s_u a)) (s_u x) /\ unitary d (s_u x) /\ unitary d (ops_matrix d (map OR rots)) /\
      s_dcost x = (s_dcost a + costs rots)%R /\ s_max x = s_max a /\
      (rots = [] /\ x = a \/ rots <> [] /\ s_graph x = None /\ (s_dcost x < snd (s_max a) + slack)%R).
  Proof.
    intros H. induction H as [a|a b p Hb Hp IH]; intros HU; cbv zeta.
    - exists []. cbn [map last path_ops tl flat_map]. split; [reflexivity|]. split; [constructor|]. split; [apply mmul_id_l|]. split; [exact HU|].
      split; [apply unitary_id|]. split; [cbn; lra|]. auto.
    - destruct (log_child a b Hb) as (c & r & r2 & H1 & H2 & W & CB & Eb).
      assert (UB : unitary d (s_u b)) by (rewrite Eb; cbn [s_u log_node]; apply unitary_mmul; [apply swing_unitary; lia|exact HU]).
      destruct (IH UB) as (rots & E & EL & M & UX & UO & DC & MX & AL). destruct (chain_head _ _ _ _ Hp) as (q & ->).
      rewrite path_ops_cons, E. set (x := last (b :: q) b) in *. set (g := log_rot (s_u a) c r r2) in *.
      assert (LX : last (a :: b :: q) a = x) by (cbn [last]; unfold x; apply last_any). rewrite LX.
      assert (MB : s_max b = s_max a) by (rewrite Eb; reflexivity).
      assert (DB : s_dcost b = (r_cost g + s_dcost a)%R) by (rewrite Eb; reflexivity).
      assert (UB' : s_u b = mmul d (op_matrix d (OR g)) (s_u a)) by (rewrite Eb; reflexivity).
      exists (g :: rots). split; [rewrite Eb; reflexivity|]. split; [|split; [|split; [exact UX|split; [|split; [|split]]]]].
      + apply el_cons with c; [cbn; lia|cbn; lia| | |rewrite <- UB'; exact EL].
        * cbn. apply (wanted_eps _ _ r). exact W.
        * cbn. apply swing_zero; lia.
      + change (map OR (g :: rots)) with ([OR g] ++ map OR rots). eapply meq_trans; [apply mmul_ext; [apply ops_app|apply meq_refl]|].
        eapply meq_trans; [apply mmul_assoc|]. eapply meq_trans; [|exact M]. apply mmul_ext; [apply meq_refl|]. rewrite UB'.
        apply mmul_ext; [apply ops_one|apply meq_refl].
      + change (map OR (g :: rots)) with ([OR g] ++ map OR rots). eapply unitary_ext; [apply meq_sym, ops_app|]. apply unitary_mmul; [exact UO|].
        eapply unitary_ext; [apply meq_sym, ops_one|]. cbn [op_matrix g log_rot lev_a lev_b r_theta r_phi]. apply swing_unitary. lia.
      + cbn [costs fold_right]. fold (costs rots). rewrite DC, DB. lra.
      + congruence.
      + right. split; [discriminate|]. destruct AL as [[-> EX]|[_ [G1 G2]]].
        * rewrite EX. split; [rewrite Eb; reflexivity|exact CB].
        * split; [exact G1|]. rewrite <- MB. exact G2.
  Qed.

  (** *** Phases *)
  Lemma log_z_ok u ops : exists new, log_z delta d u ops = ops ++ new /\ (forall o, In o new -> exists p, o = OV (Some p)) /\ List.length new <= d /\
    meq d (ops_matrix d new) (mdiag (fun i => fix_phase delta (u i i))).
  Proof.
    set (phase := fun (u : mat) (ops : list qop) (i : nat) => Ok (if Rlt_dec delta (Rabs (angle (u i i))) then
                              ops ++ [OV (virtrz_params d (AInt (Z.of_nat i)) (AFlt (angle (u i i))))] else ops)).
    assert (PG : phase_good d (fun n => n) delta phase).
    { intros u0 ops0 i Hi. unfold phase. destruct (Rlt_dec delta (Rabs (angle (u0 i i)))); [|reflexivity]. unfold virtrz_params.
      rewrite (proj2 (Z.leb_le 0 (Z.of_nat i))), (proj2 (Z.ltb_lt (Z.of_nat i) (Z.of_nat d))) by lia. cbn [andb]. rewrite Nat2Z.id. reflexivity. }
    destruct (phases_good d (fun n => n) delta (fun n H => H) (fun n m _ _ E => E) phase u PG d (le_n d) ops) as (new & E & V & L & M).
    exists new. split; [|split; [exact V|split; [exact L|]]].
    - assert (F : forall l o, foldr (phase u) l o = Ok (fold_left (fun ops i => if Rlt_dec delta (Rabs (angle (u i i))) then
                              ops ++ [OV (virtrz_params d (AInt (Z.of_nat i)) (AFlt (angle (u i i))))] else ops) l o)).
      { induction l as [|i l IH]; intros o; [reflexivity|]. cbn [foldr fold_left]. unfold phase at 1. cbn [bindr]. apply IH. }
      rewrite F in E. injection E as E. exact E.
    - intros i j Hi Hj. rewrite (M i j Hi Hj). unfold mdiag. rewrite (proj2 (Nat.ltb_lt i d)) by exact Hi. reflexivity.
  Qed.

  (** *** Soundness *)
  Hypothesis N0 : (0 <= near)%R.
  Hypothesis D0 : (0 <= delta)%R.
  Theorem log_adaptive_ok fuel U g limit ops best fg : unitary d U ->
    log_adaptive eps tiny near slack delta d fuel U g limit = Ok (ops, best, fg) ->
    match best with
    | Some (c, dc) => exists rots zs W, ops = map OR rots ++ zs /\ (forall o, In o zs -> exists p, o = OV (Some p)) /\ List.length zs <= d /\
        eliminates eps d U rots W /\ diagonal_within near d W /\
        unitary d (ops_matrix d ops) /\ close d (ada_error near delta d) (mmul d (ops_matrix d ops) U) mid /\
        dc = costs rots /\ (rots = [] \/ (dc < snd limit + slack)%R) /\
        fg = match rots with [] => Some (phase_storing_setup g) | _ => None end /\
        (rots = [] <-> near_diagonal near d U = true)
    | None => ops = [] /\ fg = Some (phase_storing_setup g) /\
        forall q, chain kid d (root U (phase_storing_setup g) limit) q -> near_diagonal near d (s_u (last q (root U (phase_storing_setup g) limit))) = false
    end.
  Proof.
    intros HU E. unfold log_adaptive in E. apply EmitProofs.bindr_Ok in E. destruct E as (((p, best'), fg') & Es & E).
    assert (SO := search_ok near kid d fuel U (phase_storing_setup g) limit p best' fg' Es). cbv zeta in SO. set (a := root U (phase_storing_setup g) limit) in *.
    destruct best' as [(c0, dc0)|].
    - destruct SO as (CH & ND & EC & ED & EG). destruct (log_chain a p CH HU) as (rots & Ep & EL & M & UX & UO & DC & MX & AL).
      destruct (chain_head _ _ _ _ CH) as (q & Eq). rewrite Eq in E. assert (LA : last (a :: q) a = last p a) by (rewrite Eq; reflexivity).
      cbv zeta in E. rewrite LA in E. rewrite ND in E. injection E as <- <- <-. rewrite <- Eq, Ep.
      set (x := last p a) in *. destruct (log_z_ok (s_u x) (map OR rots)) as (zs & Ez & Vz & Lz & Mz). rewrite Ez.
      apply near_diagonal_spec in ND. destruct ND as [VD ND].
      exists rots, zs, (s_u x). split; [reflexivity|]. split; [exact Vz|]. split; [exact Lz|]. split; [exact EL|]. split; [exact ND|].
      split; [|split; [|split; [|split; [|split]]]].
      + eapply unitary_ext; [apply meq_sym, ops_app|]. apply unitary_mmul; [|exact UO]. eapply unitary_ext; [apply meq_sym; exact Mz|].
        apply mdiag_unitary. intros i Hi. apply fix_unit.
      + eapply close_ext; [|apply meq_refl|apply (near_close near delta d (s_u x) N0 D0 UX ND)]. apply meq_sym.
        eapply meq_trans; [apply mmul_ext; [apply ops_app|apply meq_refl]|]. eapply meq_trans; [apply mmul_assoc|]. apply mmul_ext; [exact Mz|exact M].
      + rewrite ED, DC. cbn. lra.
      + destruct AL as [[-> _]|(_ & _ & B)]; [left; reflexivity|right]. rewrite ED. exact B.
      + rewrite EG. destruct AL as [[-> Ex]|(NR & G & _)]; [rewrite Ex; reflexivity|]. destruct rots; [congruence|exact G].
      + split; [intros ->; destruct AL as [[_ Ex]|(NR & _)]; [|congruence]; rewrite Ex in VD, ND; apply near_diagonal_spec; auto|].
        intros NU. destruct rots as [|q0 rots]; [reflexivity|]. exfalso.
        unfold search_for in Es. apply EmitProofs.bindr_Ok in Es. destruct Es as (xx & Ed & Er). destruct fuel as [|n]; [discriminate|].
        rewrite dfs_unfold in Ed. cbn [s_u a root] in Ed. rewrite NU in Ed. injection Ed as <-. cbn in Er. injection Er as Er _ _. rewrite <- Er in Ep. discriminate.
    - destruct SO as (-> & -> & SO). injection E as <- <- <-. auto.
  Qed.

  (** *** Termination *)
  Theorem log_adaptive_ends fuel U g limit : unitary d U -> (0 <= snd limit)%R -> (snd limit + slack < INR fuel * (8 / 100000))%R ->
    exists x, log_adaptive eps tiny near slack delta d fuel U g limit = Ok x.
  Proof.
    intros HU L0 F. unfold log_adaptive. set (a := root U (phase_storing_setup g) limit).
    destruct (search_ends near kid d (fun b => s_max b = limit /\ (s_dcost b <= snd limit + slack)%R) (8 / 100000) (snd limit + slack)) with (fuel := fuel) (U := U) (g := phase_storing_setup g) (limit := limit)
      as (((p, best), fg) & Es); trivial.
    - intros b ((c, r), r2) _ Ht. apply triples_spec in Ht. rewrite log_kid_eq by lia. eauto.
    - intros b b' [Mb Cb] Hc. destruct (log_child b b' Hc) as (c & r & r2 & H1 & H2 & W & CB & ->). cbn [s_max log_node s_dcost] in *.
      rewrite Mb in CB. assert (X := rotation_cost_min (ada_theta (s_u b) c r r2)). unfold r_cost, log_rot in *. cbn [r_theta] in *. split; [split; [exact Mb|lra]|lra].
    - intros b [_ Cb]. exact Cb.
    - cbn. split; [reflexivity|lra].
    - rewrite Es. cbn [bindr]. assert (SO := search_ok near kid d fuel U (phase_storing_setup g) limit p best fg Es). cbv zeta in SO.
      destruct best as [(c0, dc0)|]; [|destruct SO as (-> & _); eauto]. destruct SO as (CH & ND & _). destruct (chain_head _ _ _ _ CH) as (q & ->).
      fold a in ND. fold a. cbv zeta. rewrite ND. eauto.
  Qed.
End Log.
