(** Properties of the small simulators and of the verifier of sequences (C85). *)
From Coq Require Import Reals Lra Lia List ZArith Arith Permutation Bool.
From Verif.Base Require Import Py Cplx Matrix Radix Angle.
From Verif.Circuit Require Import GateModel.
From Verif.Gates Require Import FactoryModel FactorySpec.
From Verif.Sim Require Import TnModel TnSpec.
From Verif.Visual Require Import VisSpec RemapProofs.
From Verif.Verify Require Import VerifyModel VerifySpec VerifyProofs VerifyUnitary.
Import ListNotations.
Local Open Scope nat_scope.

(** ** The simulators *)
(** mini_unitary_sim returns the matrix of the circuit ... *)
Theorem C85_unitary_simulation : forall dims gs U, register dims -> (forall g, In g gs -> well_placed dims g) -> mini_unitary_sim dims gs = Ok U ->
  forall psi, evolves dims psi gs (mapply (prodl dims) U psi).
Proof. exact mini_unitary_evolves. Qed.
Print Assumptions C85_unitary_simulation.
(** ... and mini_sim the final state, the same as the tensor network simulator. *)
Theorem C85_state_simulation : forall dims gs v, register dims -> (forall g, In g gs -> well_placed dims g) -> mini_sim dims gs = Ok v ->
  evolves dims (ket 0) gs v /\
  forall w, (forall g, In g gs -> fits g) -> execute dims gs = Ok w -> veq (prodl dims) v w.
Proof.
  intros dims gs v R F E. split; [apply mini_sim_evolves; assumption|]. intros w Fi Ew. apply (mini_sim_agrees dims gs); auto.
Qed.
Print Assumptions C85_state_simulation.
Theorem C85_returns : forall dims gs, register dims -> (forall g, In g gs -> well_placed dims g /\ g_controls g = None) ->
  (exists U, mini_unitary_sim dims gs = Ok U) /\ exists v, mini_sim dims gs = Ok v.
Proof. intros dims gs R F. split; [apply mini_unitary_returns|apply mini_sim_returns]; assumption. Qed.
Print Assumptions C85_returns.
(** phy_sdit_sim starts in the physical level of |0>. *)
Theorem C85_placed_simulation : forall d m gs v, 0 < d -> placement d m -> (forall g, In g gs -> well_placed [d] g) -> phy_sdit_sim [d] (Some [m]) gs = Ok v ->
  evolves [d] (ket (entry m 0)) gs v.
Proof. exact phy_sim_evolves. Qed.
Print Assumptions C85_placed_simulation.
(** Violation: with a second qudit it never returns once there is a gate. *)
Theorem C85_many_qudits_refuted : forall d d' ms gs, 0 < d -> 1 < d' -> gs <> [] -> forall v, phy_sdit_sim [d; d'] (Some ms) gs <> Ok v.
Proof. intros d d' ms gs Hd Hd' N. apply phy_sim_many; [exact N|]. cbn [hd]. cbn [prodl]. nia. Qed.
Print Assumptions C85_many_qudits_refuted.

(** ** The verifier *)
(** It always answers if the arrays have the size of the register, and a yes means: with the levels placed by the
    initial map the sequence takes the outcome of the target on every basis state back to this state, placed by the
    final map, up to one factor and 1e-4 of it. *)
Theorem C85_sound : forall inv, inverts inv -> forall dims s T nodes imap fmap nd im fm, register dims -> (forall a, In a s -> fst a = prodl dims) ->
  effective (prodl dims) nodes imap fmap nd im fm ->
  exists V b, new_verifier s (prodl dims, T) dims nodes imap fmap = Ok V /\ verify inv V = Ok b /\
    (b = true -> exists t, t <> C0 /\ undone (prodl dims) (map snd s) T nd im fm t (Cmod t / 10000)).
Proof.
  intros inv Hinv dims s T nodes imap fmap nd im fm [NE P] Hs E. assert (Hn : 0 < prodl dims) by (apply prodl_pos, P).
  destruct (verify_any inv dims s T nodes imap fmap nd im fm Hinv NE Hn Hs E) as (V & U & EV & F & VE & W).
  exists V, (near_identity (prodl dims) U). split; [exact EV|]. split; [exact VE|]. intros Y. apply near_identity_true in Y. destruct Y as [Z Y]. exists (U 0 0). split; [exact Z|]. apply W, Y.
Qed.
Print Assumptions C85_sound.
(** For unitary matrices the factor is a phase. *)
Theorem C85_sound_unitary : forall inv, inverts inv -> forall dims s T nodes imap fmap nd im fm V, register dims -> (forall a, In a s -> fst a = prodl dims) ->
  effective (prodl dims) nodes imap fmap nd im fm -> (forall a, In a s -> unitary (prodl dims) (snd a)) -> unitary (prodl dims) T ->
  new_verifier s (prodl dims, T) dims nodes imap fmap = Ok V -> verify inv V = Ok true ->
  exists c, Cmod c = 1%R /\ undone (prodl dims) (map snd s) T nd im fm c (1 / 10000 + INR (prodl dims - 1) / 100000000).
Proof.
  intros inv Hinv dims s T nodes imap fmap nd im fm V [NE P] Hs E Us UT EV Y. assert (Hn : 0 < prodl dims) by (apply prodl_pos, P).
  destruct (verify_any inv dims s T nodes imap fmap nd im fm Hinv NE Hn Hs E) as (V' & U & EV' & F & VE & W).
  rewrite EV in EV'. injection EV' as <-. rewrite Y in VE. injection VE as VE. symmetry in VE. apply near_identity_true in VE. destruct VE as [Z C].
  destruct (effective_placement _ _ _ _ _ _ _ E) as (Pn & Pi & Pf).
  destruct (normalised_factor _ U Hn Z C) as (c & C1 & C2); [eapply (column_norm _ s T nd im fm); eassumption|]. exists c. split; [exact C1|]. apply W, C2.
Qed.
Print Assumptions C85_sound_unitary.
(** Sequences that undo the target up to a factor, even with small errors, are accepted. *)
Theorem C85_complete : forall inv, inverts inv -> forall dims s T nodes imap fmap nd im fm t, register dims -> (forall a, In a s -> fst a = prodl dims) ->
  effective (prodl dims) nodes imap fmap nd im fm -> t <> C0 -> undone (prodl dims) (map snd s) T nd im fm t (Cmod t / 20001) ->
  exists V, new_verifier s (prodl dims, T) dims nodes imap fmap = Ok V /\ verify inv V = Ok true.
Proof.
  intros inv Hinv dims s T nodes imap fmap nd im fm t [NE P] Hs E Ht D. assert (Hn : 0 < prodl dims) by (apply prodl_pos, P).
  destruct (verify_any inv dims s T nodes imap fmap nd im fm Hinv NE Hn Hs E) as (V & U & EV & F & VE & W).
  exists V. split; [exact EV|]. rewrite VE. f_equal. apply (near_identity_complete _ U t Hn Ht). apply W, D.
Qed.
Print Assumptions C85_complete.
(** Violation: a map is silently ignored unless all three lists are given. *)
Theorem C85_maps_ignored_refuted : forall s T dims nodes imap fmap, nodes = None \/ imap = None \/ fmap = None ->
  new_verifier s T dims nodes imap fmap = new_verifier s T dims None None None.
Proof. intros s T dims nodes imap fmap H. unfold new_verifier. destruct (total_size dims); [|reflexivity]. destruct nodes, imap, fmap; try reflexivity. destruct H as [H|[H|H]]; discriminate. Qed.
Print Assumptions C85_maps_ignored_refuted.
(** Violation: a compiled two-qudit sequence with a single-qudit gate, whose array has the size of one qudit, cannot be
    verified at all. *)
Theorem C85_two_qudits_refuted : forall inv d1 d2 s T nodes imap fmap V a, 1 < d1 -> 1 < d2 -> In a s -> fst a = d1 \/ fst a = d2 ->
  new_verifier s (d1 * d2, T) [d1; d2] nodes imap fmap = Ok V -> verify inv V = Err ValueError.
Proof.
  intros inv d1 d2 s T nodes imap fmap V a H1 H2 I E H.
  assert (Q : v_seq V = s /\ exists T', v_target V = (d1 * d2, T')).
  { unfold new_verifier in H. cbn [total_size bindr] in H. replace (prodl [d1; d2]) with (d1 * d2) in H by (cbn; lia). cbn [fst snd] in H. rewrite Nat.eqb_refl in H.
    destruct nodes as [nd|], imap as [im|], fmap as [fm|]; try (injection H as <-; cbn; eauto).
    destruct (get_perm_matrix (d1 * d2) nd im); [|discriminate]. cbn [bindr] in H. destruct (get_perm_matrix (d1 * d2) nd fm); [|discriminate]. cbn [bindr] in H. injection H as <-. cbn. eauto. }
  destruct Q as (Q & T' & Q'). unfold verify. rewrite Q, Q', (run_mismatch (d1 * d2) s a I) by nia. reflexivity.
Qed.
Print Assumptions C85_two_qudits_refuted.

(** A qutrit whose level 0 is placed on 1, 1 on 2 and 2 on 0, undone by the inverse shift, which restores the order. *)
Section Case.
Let shift3 : mat := fun i j => if Nat.eqb i ((j + 1) mod 3) then C1 else C0.
Let back3 : mat := fun i j => if Nat.eqb j ((i + 1) mod 3) then C1 else C0.
Let im := [1; 2; 0]%Z.
Example C85_case_maps : effective 3 (Some (in_order 3)) (Some im) (Some (in_order 3)) (in_order 3) im (in_order 3).
Proof.
  left. repeat (split; [reflexivity|]). split; [apply placement_in_order|]. split; [|apply placement_in_order].
  unfold placement, in_order, im. cbn. apply perm_trans with [1; 0; 2]%Z; [apply perm_skip, perm_swap|apply perm_swap].
Qed.
Example C85_case : forall inv, inverts inv -> exists V, new_verifier [(3, back3)] (3, mid) [3] (Some (in_order 3)) (Some im) (Some (in_order 3)) = Ok V /\ verify inv V = Ok true.
Proof.
  intros inv Hinv. apply (C85_complete inv Hinv [3] [(3, back3)] mid _ _ _ (in_order 3) im (in_order 3) C1).
  - split; [discriminate|]. intros d [<-|[]]. lia.
  - intros a [<-|[]]. reflexivity.
  - apply C85_case_maps.
  - apply C1_neq_C0.
  - intros l j v Hl Hj Pv. change (prodl [3]) with 3 in *. rewrite Cmod_one. cbn [map snd runs].
    assert (E : Csub (mapply 3 back3 v (entry (in_order 3) j)) (Cmul C1 (ket l (entry (in_order 3) j))) = C0).
    { assert (V0 := Pv 0 ltac:(lia)). assert (V1 := Pv 1 ltac:(lia)). assert (V2 := Pv 2 ltac:(lia)). cbn in V0, V1, V2. rewrite entry_in_order by exact Hj.
      assert (Q : mapply 3 back3 v j = v ((j + 1) mod 3)).
      { unfold mapply. rewrite (csum_single 3 _ ((j + 1) mod 3)); [unfold back3; rewrite Nat.eqb_refl; ring|apply Nat.mod_upper_bound; lia|]. intros k Hk N. unfold back3. destruct (Nat.eqb_spec k ((j + 1) mod 3)); [congruence|ring]. }
      rewrite Q. assert (W : v ((j + 1) mod 3) = mapply 3 mid (ket l) j).
      { destruct j as [|[|[|j]]]; [exact V0|exact V1|exact V2|lia]. }
      rewrite W, (mapply_id 3 (ket l) j Hj). ring. }
    rewrite E, Cmod_zero. lra.
Qed.
Example C85_case_unitary : unitary 3 back3.
Proof. split; intros i j Hi Hj; destruct i as [|[|[|i]]]; try lia; destruct j as [|[|[|j]]]; try lia; unfold mmul, madj, back3, mid; cbn; rewrite ?Cconj_C1, ?Cconj_C0; ring. Qed.
End Case.
