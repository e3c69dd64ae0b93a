From Coq Require Import List ZArith Arith Lia Sorted Permutation Reals Lra.
From Verif Require Import Base.Py Base.Cplx Base.Matrix Base.Radix Base.Fiber Base.Expm.
From Verif Require Import Circuit.GateModel Gates.FactoryModel Gates.FactorySpec Gates.ActsOn Gates.FactoryProofs Gates.Embed Gates.FactoryMain.
From Verif Require Import Gates.SingleModel Gates.SingleSpec Gates.SingleProofs Gates.TwoModel Gates.TwoSpec.
Open Scope R_scope.
Open Scope C_scope.

Lemma basis_vec_ket ds xs k : valid ds xs -> xs <> [] -> (k < prodl ds)%nat -> basis_vec xs ds k = ket (undigits ds xs) k.
Proof.
  intros Hv Hne Hk. destruct (dirac_spec ds xs Hv Hne) as (v & E & Hl & Hn). unfold basis_vec. rewrite E, (Hn k Hk). unfold ket.
  destruct (Nat.eqb k _); reflexivity.
Qed.
Lemma basis_vec_1 d i k : (i < d)%nat -> (k < d)%nat -> basis_vec [i] [d] k = ket i k.
Proof.
  intros Hi Hk. rewrite basis_vec_ket; [|repeat constructor; exact Hi|discriminate|cbn; lia]. cbn. rewrite Nat.mul_1_r, Nat.add_0_r. reflexivity.
Qed.
Lemma basis_vec_2 d0 d1 i j k : (i < d0)%nat -> (j < d1)%nat -> (k < d0 * d1)%nat -> basis_vec [i; j] [d0; d1] k = ket (i * d1 + j) k.
Proof.
  intros Hi Hj Hk. rewrite basis_vec_ket; [|repeat constructor; assumption|discriminate|cbn; lia]. cbn. rewrite !Nat.mul_1_r, Nat.add_0_r. reflexivity.
Qed.

(** *** block sums over the control level *)
Section Ctrl.
Variables (dc dt : nat) (lt : bool).
Hypothesis Hc : (0 < dc)%nat.
Hypothesis Ht : (0 < dt)%nat.
Definition prest (r : nat) : nat := if lt then (r / dt)%nat else (r mod dc)%nat.
Definition psub (r : nat) : nat := if lt then (r mod dt)%nat else (r / dc)%nat.

Lemma prest_lt r : (r < dc * dt)%nat -> (prest r < dc)%nat.
Proof. intros H. unfold prest. destruct lt; [apply Nat.div_lt_upper_bound; lia|apply Nat.mod_upper_bound; lia]. Qed.
Lemma psub_lt r : (r < dc * dt)%nat -> (psub r < dt)%nat.
Proof. intros H. unfold psub. destruct lt; [apply Nat.mod_upper_bound; lia|apply Nat.div_lt_upper_bound; lia]. Qed.
Lemma pair_lt i j : (i < dc)%nat -> (j < dt)%nat -> (pair_index lt dc dt i j < dc * dt)%nat.
Proof. intros Hi Hj. unfold pair_index. destruct lt; nia. Qed.
Lemma prest_pair i j : (i < dc)%nat -> (j < dt)%nat -> prest (pair_index lt dc dt i j) = i.
Proof.
  intros Hi Hj. unfold prest, pair_index. destruct lt.
  - rewrite Nat.div_add_l, Nat.div_small by lia. lia.
  - rewrite Nat.add_comm, Nat.mod_add, Nat.mod_small by lia. reflexivity.
Qed.
Lemma psub_pair i j : (i < dc)%nat -> (j < dt)%nat -> psub (pair_index lt dc dt i j) = j.
Proof.
  intros Hi Hj. unfold psub, pair_index. destruct lt.
  - rewrite Nat.add_comm, Nat.mod_add, Nat.mod_small by lia. reflexivity.
  - rewrite Nat.div_add_l, Nat.div_small by lia. lia.
Qed.
Lemma pair_of r : (r < dc * dt)%nat -> pair_index lt dc dt (prest r) (psub r) = r.
Proof.
  intros Hr. unfold pair_index, prest, psub. destruct lt.
  - rewrite Nat.mul_comm. symmetry. apply Nat.div_mod. lia.
  - rewrite Nat.mul_comm. symmetry. apply Nat.div_mod. lia.
Qed.
Lemma pair_fib : fibration (dc * dt) dt prest psub.
Proof.
  split.
  - apply psub_lt.
  - intros r c Hr Hc' E1 E2. rewrite <- (pair_of r Hr), <- (pair_of c Hc'), E1, E2. reflexivity.
  - intros r k Hr Hk. exists (pair_index lt dc dt (prest r) k). pose proof (prest_lt r Hr).
    repeat split; [apply pair_lt; assumption|apply prest_pair; assumption|apply psub_pair; assumption].
Qed.
Lemma ctrl_sum_fmat (U : nat -> mat) :
  meq (dc * dt) (msum dc (fun i =>
    let mapmat := outer (basis_vec [i] [dc]) (basis_vec [i] [dc]) in
    if lt then mkron dt mapmat (U i) else mkron dc (U i) mapmat)) (fmat Nat.eqb prest psub U).
Proof.
  intros r c Hr Hc'. unfold msum, fmat. pose proof (prest_lt r Hr) as H1. pose proof (prest_lt c Hc') as H2.
  rewrite (csum_single dc _ (prest r) H1).
  - cbn zeta. unfold mkron, outer. unfold prest, psub in *. destruct lt.
    + rewrite !basis_vec_1 by assumption. unfold ket. rewrite Nat.eqb_refl, (Nat.eqb_sym (c / dt)). destruct (Nat.eqb _ _); ring.
    + rewrite !basis_vec_1 by assumption. unfold ket. rewrite Nat.eqb_refl, (Nat.eqb_sym (c mod dc)). destruct (Nat.eqb _ _); ring.
  - intros i Hi Hne. cbn zeta. unfold mkron, outer. unfold prest in *. destruct lt.
    + rewrite (basis_vec_1 dc i (r / dt)) by assumption. unfold ket. destruct (Nat.eqb_spec (r / dt) i); [congruence|]. ring.
    + rewrite (basis_vec_1 dc i (r mod dc)) by assumption. unfold ket. destruct (Nat.eqb_spec (r mod dc) i); [congruence|]. ring.
Qed.
Lemma fmat_pair U i' j' i j : (i' < dc)%nat -> (j' < dt)%nat -> (i < dc)%nat -> (j < dt)%nat ->
  fmat Nat.eqb prest psub U (pair_index lt dc dt i' j') (pair_index lt dc dt i j) = if Nat.eqb i' i then U i' j' j else C0.
Proof. intros. unfold fmat. rewrite !prest_pair, !psub_pair by assumption. reflexivity. Qed.
End Ctrl.

(** *** a two-qudit gate in a register *)
Section Reg.
Variables (dims : list nat) (g : gate mat) (c t : nat) (ids : nat) (A : mat).
Hypothesis Hpos : forall d, In d dims -> (0 < d)%nat.
Hypothesis Hc : (c < List.length dims)%nat.
Hypothesis Ht : (t < List.length dims)%nat.
Hypothesis Hct : c <> t.
Hypothesis Htg : g_target g = TList [Z.of_nat c; Z.of_nat t].
Hypothesis Hctl : g_controls g = None.
Hypothesis Hids : (2 <= ids)%nat.
Hypothesis HA : generate_matrix dims ids g = Ok A.
Let dc := nth c dims 0%nat.
Let dt := nth t dims 0%nat.
Let lt := Nat.ltb c t.

Lemma two_wp : well_placed dims g.
Proof.
  unfold well_placed, target_lines. rewrite Htg, Hctl. split; [discriminate|]. split; [|split; [|exact I]].
  - constructor; [|repeat constructor; intros []]. intros [E|[]]. lia.
  - intros x [<-|[<-|[]]]; lia.
Qed.
Lemma two_dc : (0 < dc)%nat. Proof. apply Hpos. apply nth_In. exact Hc. Qed.
Lemma two_dt : (0 < dt)%nat. Proof. apply Hpos. apply nth_In. exact Ht. Qed.
Lemma two_acts : acts_on dims (if lt then [c; t] else [t; c]) [] [] (core g) A.
Proof.
  assert (E : target_nats g = [c; t]) by (unfold target_nats, target_lines; rewrite Htg; cbn; rewrite !Nat2Z.id; reflexivity).
  eapply gen_acts_free; [exact Hpos|exact two_wp|exact Hids|exact Hctl| | |exact HA]; rewrite ?E; unfold lt; destruct (Nat.ltb_spec c t).
  - apply Permutation_refl. - apply perm_swap. - repeat constructor; assumption. - repeat constructor; lia.
Qed.
Lemma two_sub k : sub_index dims (if lt then [c; t] else [t; c]) k = pair_index lt dc dt (digit dims k c) (digit dims k t).
Proof. unfold sub_index, sub_dims, pair_index. destruct lt; cbn; rewrite !Nat.mul_1_r, !Nat.add_0_r; reflexivity. Qed.
Lemma two_digit k q : (k < prodl dims)%nat -> (q < List.length dims)%nat -> (digit dims k q < nth q dims 0)%nat.
Proof. intros. apply nth_digits_lt; assumption. Qed.
Lemma two_entry r k : (r < prodl dims)%nat -> (k < prodl dims)%nat ->
  A r k = if agree_dec dims [c; t] r k
          then core g (pair_index lt dc dt (digit dims r c) (digit dims r t)) (pair_index lt dc dt (digit dims k c) (digit dims k t)) else C0.
Proof.
  intros Hr Hk. pose proof two_acts as H. rewrite <- !two_sub.
  assert (Hp : agree_off dims [c; t] r k <-> agree_off dims (if lt then [c; t] else [t; c]) r k).
  { destruct lt; [reflexivity|]. split; intros Ha i Hi Hn; apply Ha; trivial; intros Hin; apply Hn; cbn in *; tauto. }
  destruct (agree_dec dims [c; t] r k) as [Ha|Ha].
  - apply (ao_active _ _ _ _ _ _ H); trivial; [apply Hp; exact Ha|reflexivity].
  - apply (ao_off _ _ _ _ _ _ H); trivial. intros Hx. apply Ha. apply Hp. exact Hx.
Qed.
(** a block gate *)
Lemma two_block U r k : (r < prodl dims)%nat -> (k < prodl dims)%nat ->
  meq (dc * dt) (core g) (fmat Nat.eqb (prest dc dt lt) (psub dc dt lt) U) ->
  A r k = if agree_dec dims [t] r k then U (digit dims k c) (digit dims r t) (digit dims k t) else C0.
Proof.
  intros Hr Hk HU. rewrite two_entry by assumption.
  pose proof (two_digit r c Hr Hc). pose proof (two_digit r t Hr Ht). pose proof (two_digit k c Hk Hc). pose proof (two_digit k t Hk Ht).
  destruct (agree_dec dims [c; t] r k) as [Ha|Ha].
  - pose proof two_dc as Hdc. pose proof two_dt as Hdt. rewrite HU by (apply pair_lt; assumption). rewrite fmat_pair by assumption.
    destruct (agree_dec dims [t] r k) as [Hb|Hb].
    + rewrite (Hb c Hc) by (intros [E|[]]; congruence). rewrite Nat.eqb_refl. reflexivity.
    + destruct (Nat.eqb_spec (digit dims r c) (digit dims k c)) as [E|]; [|reflexivity]. exfalso. apply Hb. intros i Hi Hn.
      destruct (Nat.eq_dec i c) as [->|Hne]; [exact E|]. apply Ha; [exact Hi|]. intros [E1|[E1|[]]]; [congruence|]. apply Hn. left. exact E1.
  - destruct (agree_dec dims [t] r k) as [Hb|Hb]; [|reflexivity]. exfalso. apply Ha. eapply agree_weaken; [exact Hb|]. intros x [<-|[]]. right; left; reflexivity.
Qed.
End Reg.

(** *** CSum *)
Lemma csum_fmat dims c t : (0 < nth c dims 0)%nat -> (0 < nth t dims 0)%nat ->
  meq (nth c dims 0 * nth t dims 0)%nat (csum_array dims c t)
    (fmat Nat.eqb (prest (nth c dims 0%nat) (nth t dims 0%nat) (Nat.ltb c t)) (psub (nth c dims 0%nat) (nth t dims 0%nat) (Nat.ltb c t))
       (fun i => mpow (nth t dims 0%nat) (x_array (nth t dims 0%nat)) i)).
Proof. intros Hc Ht. apply ctrl_sum_fmat; assumption. Qed.
Lemma csum_entries dims c t i' j' i j : let dc := nth c dims 0%nat in let dt := nth t dims 0%nat in let lt := Nat.ltb c t in
  (i' < dc)%nat -> (j' < dt)%nat -> (i < dc)%nat -> (j < dt)%nat ->
  csum_array dims c t (pair_index lt dc dt i' j') (pair_index lt dc dt i j) =
  if (Nat.eqb i' i && Nat.eqb j' ((i + j) mod dt))%bool then C1 else C0.
Proof.
  intros dc dt lt Hi' Hj' Hi Hj. assert (Hc : (0 < dc)%nat) by lia. assert (Ht : (0 < dt)%nat) by lia.
  rewrite (csum_fmat dims c t Hc Ht) by (apply pair_lt; assumption).
  fold dc dt lt. rewrite fmat_pair by assumption. destruct (Nat.eqb_spec i' i) as [->|]; [|reflexivity]. cbn [andb].
  rewrite (x_pow_pmat dt i j' j Hj' Hj). unfold pmat. rewrite (Nat.add_comm j i). reflexivity.
Qed.
Lemma csum_unitary dims c t : (0 < nth c dims 0)%nat -> (0 < nth t dims 0)%nat ->
  unitary (nth c dims 0 * nth t dims 0)%nat (csum_array dims c t).
Proof.
  intros Hc Ht. eapply unitary_ext; [apply meq_sym; apply csum_fmat; assumption|].
  eapply (fmat_unitary Nat.eqb Nat.eqb_eq); [apply pair_fib; assumption|]. intros k _. apply unitary_mpow. apply x_unitary.
Qed.
Lemma csum_register dims c t ids g A : (forall d, In d dims -> (0 < d)%nat) -> (c < List.length dims)%nat -> (t < List.length dims)%nat -> c <> t ->
  g_target g = TList [Z.of_nat c; Z.of_nat t] -> g_controls g = None -> g_dagger g = false -> g_data g = csum_array dims c t ->
  (2 <= ids)%nat -> generate_matrix dims ids g = Ok A ->
  forall r k, (r < prodl dims)%nat -> (k < prodl dims)%nat ->
  (A r k = C1 /\ agree_off dims [t] r k /\ digit dims r t = ((digit dims k c + digit dims k t) mod nth t dims 0)%nat) \/
  (A r k = C0 /\ ~ (agree_off dims [t] r k /\ digit dims r t = ((digit dims k c + digit dims k t) mod nth t dims 0)%nat)).
Proof.
  intros Hp Hc Ht Hne Htg Hctl Hd Hdat Hi HA r k Hr Hk.
  assert (HU : meq (nth c dims 0 * nth t dims 0)%nat (core g)
    (fmat Nat.eqb (prest (nth c dims 0%nat) (nth t dims 0%nat) (Nat.ltb c t)) (psub (nth c dims 0%nat) (nth t dims 0%nat) (Nat.ltb c t))
       (fun i => mpow (nth t dims 0%nat) (x_array (nth t dims 0%nat)) i))).
  { unfold core. rewrite Hd, Hdat. apply csum_fmat; apply Hp; apply nth_In; assumption. }
  rewrite (two_block dims g c t ids A Hp Hc Ht Hne Htg Hctl Hi HA _ r k Hr Hk HU).
  destruct (agree_dec dims [t] r k) as [Ha|Ha]; [|right; split; [reflexivity|tauto]].
  assert (H1 : (digit dims r t < nth t dims 0)%nat) by (apply nth_digits_lt; assumption).
  assert (H2 : (digit dims k t < nth t dims 0)%nat) by (apply nth_digits_lt; assumption).
  rewrite (x_pow_pmat _ _ _ _ H1 H2). unfold pmat. rewrite (Nat.add_comm (digit dims k t)).
  destruct (Nat.eqb_spec (digit dims r t) ((digit dims k c + digit dims k t) mod nth t dims 0)%nat) as [E|E]; [left; tauto|right; tauto].
Qed.

(** *** CEx *)
Lemma cex_op_rotation a b ang d : a <> b -> meq d (cex_op a b ang) (rotation a b PI ang).
Proof.
  intros Hab i j Hi Hj. unfold cex_op, rotation, two_level, mset.
  replace (PI / 2)%R with (PI / 2)%R by reflexivity. rewrite cos_PI2, sin_PI2.
  destruct (Nat.eqb_spec i a) as [->|Hia].
  - assert (E : Nat.eqb a b = false) by (apply Nat.eqb_neq; exact Hab). rewrite E. cbn [andb].
    destruct (Nat.eqb_spec j a) as [->|Hja]; [rewrite E; reflexivity|].
    destruct (Nat.eqb_spec j b) as [->|Hjb].
    + unfold cis. rewrite cos_neg, sin_neg. csolve.
    + unfold mid. destruct (Nat.eqb_spec a j); [congruence|reflexivity].
  - cbn [andb]. destruct (Nat.eqb_spec i b) as [->|Hib].
    + cbn [andb]. destruct (Nat.eqb_spec j a) as [->|Hja].
      * destruct (Nat.eqb_spec a b); [congruence|]. unfold cis. csolve.
      * destruct (Nat.eqb_spec j b) as [->|Hjb]; [reflexivity|]. unfold mid. destruct (Nat.eqb_spec b j); [congruence|reflexivity].
    + reflexivity.
Qed.
Lemma cex_fmat dc dt lt g M : (0 < dc)%nat -> (0 < dt)%nat -> cex_array dc dt lt g = Ok M ->
  meq (dc * dt) M (fmat Nat.eqb (prest dc dt lt) (psub dc dt lt) (fun i => if (Z.of_nat i =? cx_ctrl g)%Z then cex_op (cx_a g) (cx_b g) (cx_phi g) else mid)).
Proof.
  intros Hc Ht H. unfold cex_array in H. destruct (_ && _)%bool; [discriminate|]. injection H as <-. apply (ctrl_sum_fmat dc dt lt Hc Ht (fun i => if (Z.of_nat i =? cx_ctrl g)%Z then cex_op (cx_a g) (cx_b g) (cx_phi g) else mid)).
Qed.
Lemma cex_returns dc dt lt g : (cx_b g < dt)%nat -> exists M, cex_array dc dt lt g = Ok M.
Proof. intros H. unfold cex_array. rewrite (proj2 (Nat.leb_gt _ _) H), Bool.andb_false_r. eauto. Qed.
Lemma cex_raises dc dt lt g : (0 <= cx_ctrl g < Z.of_nat dc)%Z -> (dt <= cx_b g)%nat -> cex_array dc dt lt g = Err IndexError.
Proof.
  intros Hc Hb. unfold cex_array. rewrite (proj2 (Nat.leb_le _ _) Hb), Bool.andb_true_r.
  rewrite (proj2 (existsb_exists _ _)); [reflexivity|]. exists (Z.to_nat (cx_ctrl g)). split; [apply in_seq; lia|apply Z.eqb_eq; lia].
Qed.
Lemma cex_new_spec p g : cex_new p = Ok g -> (cx_a g < cx_b g)%nat /\ (0 <= cx_phi g <= 2 * PI)%R.
Proof.
  unfold cex_new. destruct p as [|l|].
  - intros H. injection H as <-. cbn. pose proof PI_RGT_0. split; [lia|lra].
  - destruct (get_int l 0) as [a|]; [|discriminate]. destruct (get_int l 1) as [b|]; [|discriminate]. destruct (get_int l 2) as [c|]; [|discriminate].
    destruct (get_float l 3) as [f|]; [|discriminate]. cbn [bindr]. destruct ((0 <=? a)%Z && (a <? b)%Z)%bool eqn:E; [|discriminate].
    destruct (Rle_dec 0 f); [|discriminate]. destruct (Rle_dec f (2 * PI)); [|discriminate]. intros H. injection H as <-. cbn.
    apply andb_prop in E. destruct E as [E1 E2]. apply Z.leb_le in E1. apply Z.ltb_lt in E2. split; [lia|lra].
  - intros H. injection H as <-. cbn. pose proof PI_RGT_0. split; [lia|lra].
Qed.
Lemma cex_new_accepts a b c f : (0 <= a < b)%Z -> (0 <= f <= 2 * PI)%R ->
  cex_new (PList [PInt a; PInt b; PInt c; PFloat f]) = Ok (Cex (Z.to_nat a) (Z.to_nat b) c f).
Proof.
  intros H1 H2. unfold cex_new. cbn [get_int get_float nth_error bindr]. rewrite (proj2 (Z.leb_le 0 a)), (proj2 (Z.ltb_lt a b)) by lia. cbn [andb].
  destruct (Rle_dec 0 f); [|lra]. destruct (Rle_dec f (2 * PI)); [reflexivity|lra].
Qed.
Lemma cex_unitary dc dt lt g M : (0 < dc)%nat -> (cx_a g < cx_b g < dt)%nat -> cex_array dc dt lt g = Ok M -> unitary (dc * dt) M.
Proof.
  intros Hc Hl H. assert (Ht : (0 < dt)%nat) by lia. eapply unitary_ext; [apply meq_sym; apply (cex_fmat dc dt lt g M Hc Ht H)|].
  eapply (fmat_unitary Nat.eqb Nat.eqb_eq); [apply pair_fib; assumption|]. intros k _. destruct (_ =? _)%Z; [|apply unitary_id].
  eapply unitary_ext; [apply meq_sym; apply cex_op_rotation; lia|]. apply rotation_unitary; lia.
Qed.
Lemma cex_register dims c t ids p x g A : (forall d, In d dims -> (0 < d)%nat) -> (c < List.length dims)%nat -> (t < List.length dims)%nat -> c <> t ->
  cex_new p = Ok x -> (cx_b x < nth t dims 0)%nat ->
  g_target g = TList [Z.of_nat c; Z.of_nat t] -> g_controls g = None -> g_dagger g = false ->
  cex_array (nth c dims 0%nat) (nth t dims 0%nat) (Nat.ltb c t) x = Ok (g_data g) ->
  (2 <= ids)%nat -> generate_matrix dims ids g = Ok A ->
  acts_on dims [t] [c] [cx_ctrl x] (rotation (cx_a x) (cx_b x) PI (cx_phi x)) A.
Proof.
  intros Hp Hc Ht Hne Hn Hb Htg Hctl Hd Hdat Hi HA. apply cex_new_spec in Hn. destruct Hn as [Hab _].
  assert (Hdc : (0 < nth c dims 0)%nat) by (apply Hp; apply nth_In; exact Hc).
  assert (Hdt : (0 < nth t dims 0)%nat) by (apply Hp; apply nth_In; exact Ht).
  assert (HU : meq (nth c dims 0 * nth t dims 0)%nat (core g) (fmat Nat.eqb (prest (nth c dims 0%nat) (nth t dims 0%nat) (Nat.ltb c t)) (psub (nth c dims 0%nat) (nth t dims 0%nat) (Nat.ltb c t))
    (fun i => if (Z.of_nat i =? cx_ctrl x)%Z then cex_op (cx_a x) (cx_b x) (cx_phi x) else mid))).
  { unfold core. rewrite Hd. eapply cex_fmat; assumption. }
  assert (Hs : forall k, sub_index dims [t] k = digit dims k t) by (intros k; unfold sub_index; cbn; lia).
  split; intros r k Hr Hk Ha.
  - intros Hon. rewrite (two_block dims g c t ids A Hp Hc Ht Hne Htg Hctl Hi HA _ r k Hr Hk HU).
    destruct (agree_dec dims [t] r k) as [_|]; [|contradiction]. rewrite !Hs.
    unfold controls_on in Hon. cbn in Hon. injection Hon as Hon. rewrite (Ha c Hc) in Hon by (intros [E|[]]; congruence).
    rewrite Hon, Z.eqb_refl. eapply cex_op_rotation; [lia| |]; apply nth_digits_lt; assumption.
  - intros Hoff. rewrite (two_block dims g c t ids A Hp Hc Ht Hne Htg Hctl Hi HA _ r k Hr Hk HU).
    destruct (agree_dec dims [t] r k) as [_|]; [|contradiction].
    unfold controls_on in Hoff. cbn in Hoff. rewrite (Ha c Hc) in Hoff by (intros [E|[]]; congruence).
    destruct (Z.eqb_spec (Z.of_nat (digit dims k c)) (cx_ctrl x)) as [E|_]; [exfalso; apply Hoff; rewrite E; reflexivity|].
    unfold mid. destruct (Nat.eqb_spec r k) as [->|Hrk]; [rewrite Nat.eqb_refl; reflexivity|].
    destruct (Nat.eqb_spec (digit dims r t) (digit dims k t)) as [E|]; [|reflexivity]. exfalso. apply Hrk.
    apply (digit_ext dims); trivial. intros i Hil. destruct (Nat.eq_dec i t) as [->|Hit]; [exact E|]. apply Ha; [exact Hil|]. intros [E1|[]]. congruence.
  - rewrite (two_block dims g c t ids A Hp Hc Ht Hne Htg Hctl Hi HA _ r k Hr Hk HU).
    destruct (agree_dec dims [t] r k) as [Hb'|]; [contradiction|reflexivity].
Qed.

(** ** The angle of LS and MS *)
Lemma angle_iff l t : angle_new l = Ok t <->
  ((exists r, l = PFloat t :: r) \/ (exists z r, l = PInt z :: r /\ t = IZR z)) /\ (0 <= t <= 2 * PI)%R.
Proof.
  assert (A : forall x : R, (if Rle_dec 0 x then if Rle_dec x (2 * PI) then Ok x else Err AssertionError else Err AssertionError) = Ok t <-> x = t /\ (0 <= t <= 2 * PI)%R).
  { intros x. destruct (Rle_dec 0 x) as [L|L]; [destruct (Rle_dec x (2 * PI)) as [M|M]|]; (split; [intros E; try discriminate; injection E as <-; tauto|intros (-> & H); tauto]). }
  unfold angle_new. destruct l as [|[z|x|s] l]; cbn [bindr]; rewrite ?A.
  - split; [discriminate|]. intros ([(r & H)|(z & r & H & _)] & _); discriminate.
  - split; [intros (<- & H); split; [right; eauto|exact H]|]. intros ([(r & H)|(z' & r & H & ->)] & B); [discriminate|]. injection H as <- <-. tauto.
  - split; [intros (<- & H); split; [left; eauto|exact H]|]. intros ([(r & H)|(z' & r & H & ->)] & B); [|discriminate]. injection H as <- <-. tauto.
  - split; [discriminate|]. intros ([(r & H)|(z & r & H & _)] & _); discriminate.
Qed.
