(** Proofs about the small simulators and the verifier. *)
From Coq Require Import Reals Lra Lia List ZArith Arith Permutation Sorted Bool.
From Verif.Base Require Import Py Cplx Matrix Radix Angle.
From Verif.Circuit Require Import GateModel.
From Verif.Gates Require Import FactoryModel FactorySpec FactoryProofs Embed FactoryMain ActsOn.
From Verif.Sim Require Import TnModel TnSpec TnProofs.
From Verif.Visual Require Import VisModel VisSpec RemapProofs.
From Verif.Misim Require Import DdModel DdProofs.
From Verif.Verify Require Import VerifyModel VerifySpec.
Import ListNotations.
Local Open Scope nat_scope.

(** *** The simulators *)
Lemma gen_matrix_of dims g A : (forall d, In d dims -> 0 < d) -> well_placed dims g -> generate_matrix dims 2 g = Ok A -> matrix_of dims g A.
Proof.
  intros P W E. exists (sortN (target_nats g)). split; [apply sortN_perm|].
  assert (S : StronglySorted lt (sortN (target_nats g))) by (apply sorted_strict; [apply sortN_sorted|apply sortN_NoDup; eapply gen_ts_nodup; exact W]).
  split; [exact S|]. eapply gen_acts; [exact P|exact W| |apply sortN_perm|exact S|exact E]. apply le_n.
Qed.
Lemma state_steps_evolve dims gs : (forall d, In d dims -> 0 < d) -> (forall g, In g gs -> well_placed dims g) ->
  forall v w, state_steps dims gs v = Ok w -> evolves dims v gs w.
Proof.
  intros P. induction gs as [|g gs IH]; intros F v w H; cbn [state_steps] in H.
  - injection H as <-. intros k _. reflexivity.
  - destruct (generate_matrix dims 2 g) as [A|] eqn:E; [|discriminate]. cbn [bindr] in H. exists A. split; [apply gen_matrix_of; [exact P|apply F; now left|exact E]|].
    apply IH; [intros; apply F; now right|exact H].
Qed.
Lemma mini_sim_evolves dims gs v : register dims -> (forall g, In g gs -> well_placed dims g) -> mini_sim dims gs = Ok v -> evolves dims (ket 0) gs v.
Proof.
  intros [NE P] F. unfold mini_sim, total_size. destruct dims as [|d r]; [congruence|]. cbn [bindr].
  destruct (Nat.eqb (prodl (d :: r)) 0); [discriminate|]. apply state_steps_evolve; assumption.
Qed.
Lemma state_steps_returns dims gs : (forall g, In g gs -> exists A, generate_matrix dims 2 g = Ok A) -> forall v, exists w, state_steps dims gs v = Ok w.
Proof.
  induction gs as [|g gs IH]; intros F v; cbn [state_steps]; [eauto|]. destruct (F g (or_introl eq_refl)) as (A & ->). cbn [bindr]. apply IH. intros; apply F; now right.
Qed.
Lemma mini_sim_returns dims gs : register dims -> (forall g, In g gs -> well_placed dims g /\ g_controls g = None) -> exists v, mini_sim dims gs = Ok v.
Proof.
  intros [NE P] F. unfold mini_sim, total_size. destruct dims as [|d r]; [congruence|]. cbn [bindr].
  destruct (Nat.eqb_spec (prodl (d :: r)) 0) as [E|_].
  - pose proof (prodl_pos _ P). lia.
  - apply state_steps_returns. intros g I. destruct (F g I) as [W N]. apply gen_uncontrolled_returns; assumption.
Qed.
Lemma mini_sim_agrees dims gs v w : register dims -> (forall g, In g gs -> well_placed dims g /\ fits g) -> mini_sim dims gs = Ok v -> execute dims gs = Ok w -> veq (prodl dims) v w.
Proof.
  intros R F E1 E2. eapply evolves_unique with (gs := gs) (psi := ket 0); [intros g I; apply F, I| |].
  - apply mini_sim_evolves; [exact R|intros g I; apply F, I|exact E1].
  - apply execute_evolves; assumption.
Qed.
Lemma unitary_steps_state dims gs : forall U V x, unitary_steps dims gs U = Ok V -> exists w, state_steps dims gs (mapply (prodl dims) U x) = Ok w /\ veq (prodl dims) (mapply (prodl dims) V x) w.
Proof.
  induction gs as [|g gs IH]; intros U V x H; cbn [unitary_steps state_steps] in *.
  - injection H as <-. eexists. split; [reflexivity|]. intros k _. reflexivity.
  - destruct (generate_matrix dims 2 g) as [A|]; [|discriminate]. cbn [bindr] in *.
    destruct (IH _ _ x H) as (w & E & Q).
    assert (S : forall v v' u, veq (prodl dims) v v' -> state_steps dims gs v = Ok u -> exists u', state_steps dims gs v' = Ok u' /\ veq (prodl dims) u u').
    { clear. induction gs as [|g gs IH]; intros v v' u Hv H; cbn [state_steps] in *.
      - injection H as <-. eauto.
      - destruct (generate_matrix dims 2 g) as [A|]; [|discriminate]. cbn [bindr] in *. eapply IH; [|exact H]. apply mapply_ext; [apply meq_refl|exact Hv]. }
    destruct (S _ _ _ (mapply_mmul _ A U x) E) as (w' & E' & Q'). exists w'. split; [exact E'|]. intros k Hk. rewrite (Q k Hk). apply Q', Hk.
Qed.
Lemma evolves_end dims gs : forall psi phi phi', evolves dims psi gs phi -> veq (prodl dims) phi' phi -> evolves dims psi gs phi'.
Proof.
  induction gs as [|g gs IH]; intros psi phi phi' H E; cbn in *.
  - intros k Hk. rewrite (E k Hk). now apply H.
  - destruct H as (A & M & H). exists A. split; [exact M|]. eapply IH; eassumption.
Qed.
Lemma mini_unitary_evolves dims gs U : register dims -> (forall g, In g gs -> well_placed dims g) -> mini_unitary_sim dims gs = Ok U ->
  forall x, evolves dims x gs (mapply (prodl dims) U x).
Proof.
  intros [NE P] F. unfold mini_unitary_sim, total_size. destruct dims as [|d r]; [congruence|]. cbn [bindr]. intros H x.
  destruct (unitary_steps_state _ _ _ _ x H) as (w & E & Q).
  pose proof (state_steps_evolve _ _ P F _ _ E) as EV.
  apply evolves_end with (phi := w); [|exact Q].
  eapply evolves_veq; [|exact EV]. intros k Hk. symmetry. apply mapply_id, Hk.
Qed.
Lemma unitary_steps_returns dims gs : (forall g, In g gs -> exists A, generate_matrix dims 2 g = Ok A) -> forall v, exists w, unitary_steps dims gs v = Ok w.
Proof.
  induction gs as [|g gs IH]; intros F v; cbn [unitary_steps]; [eauto|]. destruct (F g (or_introl eq_refl)) as (A & ->). cbn [bindr]. apply IH. intros; apply F; now right.
Qed.
Lemma mini_unitary_returns dims gs : register dims -> (forall g, In g gs -> well_placed dims g /\ g_controls g = None) -> exists U, mini_unitary_sim dims gs = Ok U.
Proof.
  intros [NE P] F. unfold mini_unitary_sim, total_size. destruct dims as [|d r]; [congruence|]. cbn [bindr].
  apply unitary_steps_returns. intros g I. destruct (F g I) as [W N]. apply gen_uncontrolled_returns; assumption.
Qed.

Lemma placed_range n m i : placement n m -> i < n -> (0 <= nth i m 0 < Z.of_nat n)%Z.
Proof. apply perm_entry. Qed.
Lemma entry_lt n m i : placement n m -> i < n -> entry m i < n.
Proof. intros P H. pose proof (placed_range n m i P H). unfold entry. lia. Qed.
Lemma entry_inj n m i j : placement n m -> i < n -> j < n -> entry m i = entry m j -> i = j.
Proof. apply perm_inj. Qed.
Lemma placement_length n m : placement n m -> List.length m = n.
Proof. intros P. rewrite (Permutation_length P). unfold in_order. now rewrite map_length, seq_length. Qed.
Lemma entry_onto n m r : placement n m -> r < n -> exists i, i < n /\ entry m i = r.
Proof.
  intros P H. assert (I : In (Z.of_nat r) m) by (apply (Permutation_in _ (Permutation_sym P)), in_map, in_seq; lia).
  destruct (In_nth _ _ 0%Z I) as (i & Hi & E). rewrite (placement_length n m P) in Hi. exists i. split; [exact Hi|]. unfold entry. rewrite E. apply Nat2Z.id.
Qed.
Lemma placement_in_order n : placement n (in_order n).
Proof. apply Permutation_refl. Qed.
Lemma entry_in_order n i : i < n -> entry (in_order n) i = i.
Proof.
  intros H. unfold entry, in_order. rewrite (nth_indep _ 0%Z (Z.of_nat 0)) by (rewrite map_length, seq_length; exact H). rewrite map_nth, seq_nth by exact H. apply Nat2Z.id.
Qed.

Lemma phy_sim_evolves d m gs v : 0 < d -> placement d m -> (forall g, In g gs -> well_placed [d] g) -> phy_sdit_sim [d] (Some [m]) gs = Ok v ->
  evolves [d] (ket (entry m 0)) gs v.
Proof.
  intros Hd P F. unfold phy_sdit_sim. change (pyindex [d] 0) with (Ok d). change (pyindex [m] 0) with (Ok m).
  destruct (eye_perm d m P) as (e & E & I). cbn [bindr]. rewrite E. cbn [bindr].
  destruct (Nat.eqb_spec d 0) as [->|_]; [lia|].
  pose proof E as E'. unfold eye_columns in E'. rewrite mapr_seq in E' by (intros z Iz; apply (Permutation_in _ P) in Iz; apply in_map_iff in Iz; destruct Iz as (x & <- & Ix); apply in_seq in Ix; lia).
  cbn [bindr] in E'. injection E' as <-. cbn [cols ent]. rewrite (placement_length d m P), Nat.eqb_refl. cbn [negb].
  assert (V : veq (prodl [d]) (ket (entry m 0)) (mapply d (fun r c => if Nat.eqb r (nth c (map Z.to_nat m) 0) then C1 else C0) (ket 0))).
  { intros k Hk. rewrite mapply_ket by exact Hd. unfold ket, entry. rewrite (nth_indep _ 0 (Z.to_nat 0)) by (rewrite map_length, (placement_length d m P); exact Hd). rewrite map_nth. reflexivity. }
  assert (EQ : prodl [d] = d) by (cbn; lia).
  destruct gs as [|g gs]; cbn [bindr].
  - intros H. injection H as <-. cbn [evolves]. intros k Hk. symmetry. apply V, Hk.
  - destruct (generate_matrix [d] 2 g) as [A|] eqn:G; [|discriminate]. cbn [bindr]. rewrite EQ, Nat.eqb_refl. intros H.
    eapply evolves_veq; [exact V|]. apply state_steps_evolve; [intros x [<-|[]]; exact Hd|exact F|exact H].
Qed.
Lemma phy_sim_many dims ms gs : gs <> [] -> prodl dims <> hd 0 dims -> forall v, phy_sdit_sim dims (Some ms) gs <> Ok v.
Proof.
  intros N P v. unfold phy_sdit_sim. destruct dims as [|d r]; [cbn; discriminate|]. cbn [hd] in P.
  change (pyindex (d :: r) 0) with (if ((0 <=? 0) && (0 <? Z.of_nat (length (d :: r))))%Z then Ok d else Err IndexError).
  destruct ((0 <=? 0) && (0 <? Z.of_nat (length (d :: r))))%Z; [|discriminate]. cbn [bindr].
  destruct (pyindex ms 0) as [m|]; [|discriminate]. cbn [bindr]. destruct (eye_columns d m) as [e|]; [|discriminate]. cbn [bindr].
  destruct (Nat.eqb d 0); [discriminate|]. destruct (negb (Nat.eqb (cols e) d)); [discriminate|]. destruct gs as [|g gs]; [congruence|].
  destruct (generate_matrix (d :: r) 2 g); [|discriminate]. cbn [bindr]. destruct (Nat.eqb_spec (prodl (d :: r)) d); [congruence|discriminate].
Qed.

(** *** The permutation matrices *)
Lemma pyindex_nth (l : list Z) i : i < List.length l -> pyindex l (Z.of_nat i) = Ok (nth i l 0%Z).
Proof.
  intros H. unfold pyindex. destruct (Z.ltb_spec (Z.of_nat i) 0); [lia|]. destruct (Z.leb_spec 0 (Z.of_nat i)); [|lia]. destruct (Z.ltb_spec (Z.of_nat i) (Z.of_nat (List.length l))); [|lia].
  cbn [andb]. rewrite Nat2Z.id, (nth_error_nth' l 0%Z H). reflexivity.
Qed.
Lemma perm_steps_ok n nd m : placement n nd -> placement n m -> forall is P, (forall i, In i is -> i < n) ->
  exists Q, perm_steps n nd m is P = Ok Q /\
    forall s t, Q s t = Cadd (P s t) (lsum (map (fun i => if Nat.eqb s (entry m i) && Nat.eqb t (entry nd i) then C1 else C0) is)).
Proof.
  intros Pn Pm. induction is as [|i is IH]; intros P F.
  - exists P. split; [reflexivity|]. intros s t. cbn. ring.
  - cbn [perm_steps]. assert (Hi : i < n) by (apply F; now left).
    rewrite pyindex_nth by (rewrite (placement_length n nd Pn); exact Hi). cbn [bindr]. rewrite pyindex_seq by (apply placed_range; assumption). cbn [bindr].
    rewrite pyindex_nth by (rewrite (placement_length n m Pm); exact Hi). cbn [bindr]. rewrite pyindex_seq by (apply placed_range; assumption). cbn [bindr].
    edestruct IH as (Q & E & H); [intros j J; apply F; now right|]. exists Q. split; [exact E|]. intros s t. rewrite H. cbn [map lsum]. fold (entry m i). fold (entry nd i). ring.
Qed.
Lemma perm_ok n nd m : placement n nd -> placement n m -> exists P, get_perm_matrix n nd m = Ok P /\
  forall s t, P s t = csum n (fun i => if Nat.eqb s (entry m i) && Nat.eqb t (entry nd i) then C1 else C0).
Proof.
  intros Pn Pm. destruct (perm_steps_ok n nd m Pn Pm (seq 0 n) (fun _ _ => C0)) as (Q & E & H); [intros i I; apply in_seq in I; lia|].
  exists Q. split; [exact E|]. intros s t. rewrite H, (lsum_csum _ _ 0), seq_length. replace (Cadd C0 _) with (csum n (fun k => (fun i => if Nat.eqb s (entry m i) && Nat.eqb t (entry nd i) then C1 else C0) (nth k (seq 0 n) 0))) by ring.
  apply csum_ext. intros k Hk. rewrite seq_nth by exact Hk. reflexivity.
Qed.
Section Perm.
Variables (n : nat) (nd m : list Z) (P : mat).
Hypothesis Pn : placement n nd.
Hypothesis Pm : placement n m.
Hypothesis HP : forall s t, P s t = csum n (fun i => if Nat.eqb s (entry m i) && Nat.eqb t (entry nd i) then C1 else C0).
Lemma perm_row i t : i < n -> P (entry m i) t = if Nat.eqb t (entry nd i) then C1 else C0.
Proof.
  intros Hi. rewrite HP. rewrite (csum_single n _ i Hi).
  - rewrite Nat.eqb_refl. reflexivity.
  - intros j Hj N. destruct (Nat.eqb_spec (entry m i) (entry m j)) as [E|_]; [|reflexivity]. exfalso. apply N. symmetry. eapply entry_inj; eassumption.
Qed.
Lemma perm_col s i : i < n -> P s (entry nd i) = if Nat.eqb s (entry m i) then C1 else C0.
Proof.
  intros Hi. rewrite HP. rewrite (csum_single n _ i Hi).
  - rewrite Nat.eqb_refl, andb_true_r. reflexivity.
  - intros j Hj N. destruct (Nat.eqb_spec (entry nd i) (entry nd j)) as [E|_]; [|rewrite andb_false_r; reflexivity]. exfalso. apply N. symmetry. eapply entry_inj; [exact Pn| | |]; eassumption.
Qed.
Lemma perm_apply X i c : i < n -> mmul n P X (entry m i) c = X (entry nd i) c.
Proof.
  intros Hi. unfold mmul. rewrite (csum_single n _ (entry nd i) (entry_lt n nd i Pn Hi)).
  - rewrite perm_row by exact Hi. rewrite Nat.eqb_refl. ring.
  - intros k Hk N. rewrite perm_row by exact Hi. destruct (Nat.eqb_spec k (entry nd i)); [congruence|]. ring.
Qed.
Lemma perm_back X i c : i < n -> mmul n (fun s t => P t s) X (entry nd i) c = X (entry m i) c.
Proof.
  intros Hi. unfold mmul. rewrite (csum_single n _ (entry m i) (entry_lt n m i Pm Hi)).
  - rewrite perm_col by exact Hi. rewrite Nat.eqb_refl. ring.
  - intros k Hk N. rewrite perm_col by exact Hi. destruct (Nat.eqb_spec k (entry m i)); [congruence|]. ring.
Qed.
Lemma perm_inverse : meq n (mmul n P (fun s t => P t s)) mid /\ meq n (mmul n (fun s t => P t s) P) mid.
Proof.
  split; intros r c Hr Hc.
  - destruct (entry_onto n m r Pm Hr) as (i & Hi & <-). destruct (entry_onto n m c Pm Hc) as (j & Hj & <-).
    rewrite perm_apply by exact Hi. rewrite perm_row by exact Hj. unfold mid. destruct (Nat.eqb_spec (entry nd i) (entry nd j)) as [E|N]; destruct (Nat.eqb_spec (entry m i) (entry m j)) as [E'|N']; try reflexivity; exfalso.
    + apply N'. f_equal. eapply entry_inj; [exact Pn| | |]; eassumption.
    + apply N. f_equal. eapply entry_inj; [exact Pm| | |]; eassumption.
  - destruct (entry_onto n nd r Pn Hr) as (i & Hi & <-). destruct (entry_onto n nd c Pn Hc) as (j & Hj & <-).
    rewrite perm_back by exact Hi. rewrite perm_col by exact Hj. unfold mid. destruct (Nat.eqb_spec (entry nd i) (entry nd j)) as [E|N]; destruct (Nat.eqb_spec (entry m i) (entry m j)) as [E'|N']; try reflexivity; exfalso.
    + apply N'. f_equal. eapply entry_inj; [exact Pn| | |]; eassumption.
    + apply N. f_equal. eapply entry_inj; [exact Pm| | |]; eassumption.
Qed.
End Perm.

(** *** The sequence *)
Lemma runs_ext n ms : forall v w, veq n v w -> veq n (runs n ms v) (runs n ms w).
Proof. induction ms as [|A ms IH]; intros v w H; [exact H|]. apply IH, mapply_ext; [apply meq_refl|exact H]. Qed.
Lemma run_ok n s : (forall a, In a s -> fst a = n) -> forall T, exists T', run_sequence s (n, T) = Ok (n, T') /\ forall r c, T' r c = runs n (map snd s) (fun k => T k c) r.
Proof.
  induction s as [|[k A] s IH]; intros F T.
  - exists T. split; reflexivity.
  - cbn [run_sequence fst snd]. pose proof (F (k, A) (or_introl eq_refl)) as E. cbn in E. subst k. rewrite Nat.eqb_refl. apply IH. intros; apply F; now right.
Qed.
Lemma run_mismatch n s a : In a s -> fst a <> n -> forall T, run_sequence s (n, T) = Err ValueError.
Proof.
  intros I N. induction s as [|[k A] s IH]; [destruct I|]. intros T. cbn [run_sequence fst]. destruct (Nat.eqb_spec k n) as [->|D]; [|reflexivity].
  destruct I as [<-|I]; [cbn in N; congruence|]. apply IH, I.
Qed.

(** *** The comparison *)
Lemma is_zero_true z : is_zero z = true <-> z = C0.
Proof.
  unfold is_zero, is_eq. destruct (Req_EM_T (fst z) (fst C0)) as [E|N]; [destruct (Req_EM_T (snd z) (snd C0)) as [E'|N']|]; split; intros H; try reflexivity; try discriminate; try (subst z; congruence).
  now apply Ceq.
Qed.
Lemma Cmod_pos z : z <> C0 -> (0 < Cmod z)%R.
Proof. intros H. destruct (Cmod_nonneg z) as [L|E]; [exact L|]. exfalso. apply H, Cmod_0. now symmetry. Qed.
Lemma quotient z t d : t <> C0 -> (Cmod (Csub (Cdiv z t) d) * Cmod t = Cmod (Csub z (Cmul t d)))%R.
Proof.
  intros H. rewrite Rmult_comm, <- Cmod_mul. f_equal. rewrite <- (Cdiv_mul z t H) at 2. ring.
Qed.
Definition close (n : nat) (U : mat) (t : C) (eps : R) : Prop := forall r c, r < n -> c < n -> (Cmod (Csub (U r c) (Cmul t (mid r c))) < eps)%R.
Lemma near_identity_true n U : near_identity n U = true <-> U 0 0 <> C0 /\ close n U (U 0 0) (Cmod (U 0 0) / 10000).
Proof.
  unfold near_identity. rewrite andb_true_iff, negb_true_iff. split.
  - intros [Z F]. assert (NZ : U 0 0 <> C0) by (intros E; apply is_zero_true in E; congruence). split; [exact NZ|]. intros r c Hr Hc.
    rewrite forallb_forall in F. specialize (F r (proj2 (in_seq _ _ _) (conj (Nat.le_0_l _) Hr))). rewrite forallb_forall in F. specialize (F c (proj2 (in_seq _ _ _) (conj (Nat.le_0_l _) Hc))). cbn beta in F.
    destruct (Rlt_dec _ _) as [L|]; [|discriminate]. rewrite <- (quotient _ _ _ NZ). pose proof (Cmod_pos _ NZ). apply Rmult_lt_compat_r with (r := Cmod (U 0 0)) in L; lra.
  - intros [NZ F]. split; [destruct (is_zero (U 0 0)) eqn:E; [exfalso; apply NZ, is_zero_true, E|reflexivity]|].
    apply forallb_forall. intros r Hr. apply in_seq in Hr. apply forallb_forall. intros c Hc. apply in_seq in Hc.
    specialize (F r c (proj2 Hr) (proj2 Hc)). rewrite <- (quotient _ _ _ NZ) in F. pose proof (Cmod_pos _ NZ).
    destruct (Rlt_dec _ _) as [|L]; [reflexivity|]. exfalso. apply L. apply Rmult_lt_reg_r with (r := Cmod (U 0 0)); [assumption|]. lra.
Qed.
Lemma Cmod_sym a b : Cmod (Csub a b) = Cmod (Csub b a).
Proof. unfold Cmod. f_equal. unfold Cnorm2, Csub, Cadd, Copp. cbn. ring. Qed.
Lemma triangle3 a b c : (Cmod (Csub a c) <= Cmod (Csub a b) + Cmod (Csub b c))%R.
Proof. replace (Csub a c) with (Cadd (Csub a b) (Csub b c)) by ring. apply Cmod_triangle. Qed.
Lemma near_identity_complete n U t : 0 < n -> t <> C0 -> close n U t (Cmod t / 20001) -> near_identity n U = true.
Proof.
  intros Hn Ht F. apply near_identity_true. pose proof (Cmod_pos _ Ht) as Tp.
  assert (A0 := F 0 0 Hn Hn). replace (Cmul t (mid 0 0)) with t in A0 by (unfold mid; cbn; ring).
  assert (B : (Cmod t <= Cmod (U 0%nat 0%nat) + Cmod t / 20001)%R).
  { pose proof (triangle3 t (U 0 0) C0) as Q. rewrite (Cmod_sym t (U 0 0)) in Q. replace (Csub t C0) with t in Q by ring. replace (Csub (U 0 0) C0) with (U 0 0) in Q by ring. lra. }
  split; [intros E; rewrite E in B; rewrite (proj2 (Cmod_0 C0) eq_refl) in B; lra|].
  intros r c Hr Hc. specialize (F r c Hr Hc). pose proof (triangle3 (U r c) (Cmul t (mid r c)) (Cmul (U 0 0) (mid r c))) as Q.
  assert (M : (Cmod (Csub (Cmul t (mid r c)) (Cmul (U 0%nat 0%nat) (mid r c))) <= Cmod (Csub t (U 0%nat 0%nat)))%R).
  { replace (Csub (Cmul t (mid r c)) (Cmul (U 0 0) (mid r c))) with (Cmul (Csub t (U 0 0)) (mid r c)) by ring. rewrite Cmod_mul. unfold mid.
    destruct (Nat.eqb r c); [rewrite <- RtoC_1, Cmod_RtoC by lra|rewrite (proj2 (Cmod_0 C0) eq_refl)]; pose proof (Cmod_nonneg (Csub t (U 0 0))); lra. }
  rewrite (Cmod_sym t (U 0 0)) in M. lra.
Qed.

(** *** verify *)
Section Verify.
Variable inv : nat -> mat -> res mat.
Hypothesis Hinv : inverts inv.
Variables (n : nat) (dims : list nat).
Hypothesis Hn : 0 < n.
Hypothesis Hd : dims <> [] /\ prodl dims = n.
Variables (s : list sized) (T : mat) (nd im fm : list Z).
Hypothesis Hs : forall a, In a s -> fst a = n.
Hypothesis (Pn : placement n nd) (Pi : placement n im) (Pf : placement n fm).

Definition final_amplitudes (U : mat) : Prop := forall l j v, l < n -> j < n -> put_at n nd im (mapply n T (ket l)) v -> runs n (map snd s) v (entry fm j) = U (entry nd j) l.
Lemma undone_close U t eps : final_amplitudes U -> (undone n (map snd s) T nd im fm t eps <-> close n U t eps).
Proof.
  intros F. split.
  - intros H r c Hr Hc. destruct (entry_onto n nd r Pn Hr) as (j & Hj & <-).
    set (v := fun k => mapply n T (ket c) (entry nd (hd 0 (filter (fun i => Nat.eqb (entry im i) k) (seq 0 n))))).
    assert (V : put_at n nd im (mapply n T (ket c)) v).
    { intros i Hi. unfold v. f_equal. f_equal. destruct (filter (fun i0 => Nat.eqb (entry im i0) (entry im i)) (seq 0 n)) as [|x l] eqn:E.
      - exfalso. assert (I : In i (filter (fun i0 => Nat.eqb (entry im i0) (entry im i)) (seq 0 n))) by (apply filter_In; split; [apply in_seq; lia|apply Nat.eqb_refl]). rewrite E in I. destruct I.
      - cbn. assert (I : In x (filter (fun i0 => Nat.eqb (entry im i0) (entry im i)) (seq 0 n))) by (rewrite E; now left). apply filter_In in I. destruct I as [I1 I2]. apply in_seq in I1. apply Nat.eqb_eq in I2. eapply entry_inj; [exact Pi| | |exact I2]; lia. }
    specialize (H c j v Hc Hj V). rewrite (F c j v Hc Hj V) in H. exact H.
  - intros H l j v Hl Hj V. rewrite (F l j v Hl Hj V). specialize (H (entry nd j) l (entry_lt n nd j Pn Hj) Hl). exact H.
Qed.
Lemma verify_maps : exists V U, new_verifier s (n, T) dims (Some nd) (Some im) (Some fm) = Ok V /\ final_amplitudes U /\ verify inv V = Ok (near_identity n U).
Proof.
  destruct Hd as [NE PE]. destruct (perm_ok n nd im Pn Pi) as (P & EP & HP). destruct (perm_ok n nd fm Pn Pf) as (Q & EQ & HQ).
  unfold new_verifier, total_size. destruct dims as [|d r] eqn:D; [congruence|]. cbn [bindr]. rewrite PE, EP. cbn [bindr]. rewrite EQ. cbn [bindr fst snd]. rewrite Nat.eqb_refl.
  destruct (perm_inverse n nd fm Q Pn Pf HQ) as [I1 I2]. destruct (Hinv n Q _ I1 I2) as (Qi & EQi & HQi).
  destruct (run_ok n s Hs (mmul n P T)) as (T' & ET & HT).
  eexists. exists (mmul n Qi T'). split; [reflexivity|]. split.
  - intros l j v Hl Hj V. symmetry. rewrite (mmul_ext n Qi _ T' T' HQi (meq_refl n T') (entry nd j) l (entry_lt n nd j Pn Hj) Hl).
    rewrite (perm_back n nd fm Q Pn Pf HQ T' j l Hj). rewrite HT. apply runs_ext; [|apply entry_lt; assumption].
    intros k Hk. destruct (entry_onto n im k Pi Hk) as (i & Hi & <-). rewrite (perm_apply n nd im P Pn Pi HP T i l Hi). rewrite (V i Hi). symmetry. apply mapply_ket, Hl.
  - unfold verify. cbn [v_seq v_target v_final v_n]. rewrite ET. cbn [bindr]. rewrite EQi. cbn [bindr fst snd]. rewrite Nat.eqb_refl. cbn [bindr fst snd]. rewrite Nat.eqb_refl. destruct (Nat.eqb_spec n 0); [lia|reflexivity].
Qed.
End Verify.

Lemma verify_plain inv n dims s T nodes imap fmap : 0 < n -> dims <> [] -> prodl dims = n -> (forall a, In a s -> fst a = n) -> nodes = None \/ imap = None \/ fmap = None ->
  exists V U, new_verifier s (n, T) dims nodes imap fmap = Ok V /\ final_amplitudes n s T (in_order n) (in_order n) (in_order n) U /\ verify inv V = Ok (near_identity n U).
Proof.
  intros Hn NE PE Hs O. destruct (run_ok n s Hs T) as (T' & ET & HT). exists (Verifier s (n, T) n None), T'. split; [|split].
  - unfold new_verifier, total_size. destruct dims; [congruence|]. cbn [bindr]. rewrite PE. destruct nodes, imap, fmap; try reflexivity. destruct O as [O|[O|O]]; discriminate.
  - intros l j v Hl Hj V. rewrite !entry_in_order by exact Hj. rewrite HT. apply runs_ext; [|exact Hj]. intros k Hk. specialize (V k Hk). rewrite !entry_in_order in V by exact Hk. rewrite V. apply mapply_ket, Hl.
  - unfold verify. cbn [v_seq v_target v_final v_n]. rewrite ET. cbn [bindr fst snd]. rewrite Nat.eqb_refl. destruct (Nat.eqb_spec n 0); [lia|reflexivity].
Qed.
