From Coq Require Import List ZArith Arith Lia Reals Lra Sorted Permutation.
From Verif Require Import Base.Py Base.Cplx Base.Matrix Base.Radix Base.Fiber.
From Verif Require Import Circuit.GateModel Gates.FactoryModel Gates.FactorySpec Gates.ActsOn Gates.FactoryProofs Gates.Embed Gates.FactoryMain.
From Verif Require Import Sim.TnModel Sim.TnSpec.
Import ListNotations.
Local Open Scope nat_scope.

(** *** lists *)
Lemma set_nth_app a x b v : set_nth (List.length a) v (a ++ x :: b) = a ++ v :: b.
Proof. induction a as [|y a IH]; [reflexivity|]. cbn. now rewrite IH. Qed.
Lemma put_app b' : forall b a c, List.length b = List.length b' -> put (seq (List.length a) (List.length b)) b' (a ++ b ++ c) = a ++ b' ++ c.
Proof.
  induction b' as [|y b' IH]; intros [|x b] a c L; try discriminate; [reflexivity|]. cbn [List.length seq put app].
  rewrite set_nth_app. replace (a ++ y :: b ++ c) with ((a ++ [y]) ++ b ++ c) by (rewrite <- app_assoc; reflexivity).
  replace (S (List.length a)) with (List.length (a ++ [y])) by (rewrite app_length; cbn; lia). rewrite IH by (cbn in L; lia). rewrite <- app_assoc. reflexivity.
Qed.
Lemma get_app b : forall a c, map (fun l => nth l (a ++ b ++ c) 0) (seq (List.length a) (List.length b)) = b.
Proof.
  induction b as [|x b IH]; intros a c; [reflexivity|]. cbn [List.length seq map app]. f_equal.
  - rewrite app_nth2 by lia. now rewrite Nat.sub_diag.
  - replace (a ++ x :: b ++ c) with ((a ++ [x]) ++ b ++ c) by (rewrite <- app_assoc; reflexivity).
    replace (S (List.length a)) with (List.length (a ++ [x])) by (rewrite app_length; cbn; lia). apply IH.
Qed.
Lemma sizes_slice dims lo n : lo + n <= List.length dims -> sizes dims (seq lo n) = Ok (firstn n (skipn lo dims)).
Proof.
  revert lo. induction n as [|n IH]; intros lo L; [reflexivity|]. cbn [seq]. unfold sizes in *. cbn [mapr].
  destruct (skipn lo dims) as [|d r] eqn:E.
  - exfalso. apply (f_equal (@List.length nat)) in E. rewrite skipn_length in E. cbn in E. lia.
  - assert (N : nth_error dims lo = Some d). { rewrite <- (firstn_skipn lo dims), E. rewrite nth_error_app2; rewrite firstn_length; [|lia]. replace (lo - Nat.min lo (List.length dims)) with 0 by lia. reflexivity. }
    rewrite N. cbn [bindr]. rewrite IH by lia. cbn [bindr firstn]. f_equal. f_equal. f_equal.
    replace (skipn (S lo) dims) with (skipn 1 (skipn lo dims)) by (rewrite skipn_skipn; f_equal; lia). now rewrite E.
Qed.
Lemma lsum_csum {X} (f : X -> C) l d : lsum (map f l) = csum (List.length l) (fun k => f (nth k l d)).
Proof.
  induction l as [|x l IH]; [reflexivity|]. cbn [map lsum List.length]. rewrite IH.
  replace (S (List.length l)) with (1 + List.length l) by lia. rewrite csum_app. cbn [csum Nat.add nth]. ring.
Qed.

(** *** one gate on consecutive lines *)
Section Apply.
Variables (pre sl post : list nat).
Let dims := (pre ++ sl ++ post)%list.
Hypothesis pos : forall d, In d dims -> 0 < d.
Let S0 := prodl sl.
Let P0 := prodl post.
Variable B : mat.
Definition widen : mat := fun r c => Cmul (Cmul (mid (r / (S0 * P0)) (c / (S0 * P0))) (B ((r / P0) mod S0) ((c / P0) mod S0))) (mid (r mod P0) (c mod P0)).
Lemma apply_gate_spec (psi : tensor) r : r < prodl dims ->
  apply_gate (reshape (mtrans B) S0 (sl ++ sl)) sl (seq (List.length pre) (List.length sl)) psi (digits dims r) =
  mapply (prodl dims) widen (fun k => psi (digits dims k)) r.
Proof.
  intros Hr. pose proof (lift_S pre sl post pos) as HS. pose proof (lift_P pre sl post pos) as HP. fold S0 in HS. fold P0 in HP.
  pose proof (r1_lt pre sl post pos r Hr) as L1. pose proof (r2_lt pre sl post pos r) as L2. pose proof (r3_lt pre sl post pos r) as L3. fold S0 P0 in L1, L2, L3.
  unfold apply_gate. rewrite (lsum_csum _ _ []). rewrite length_product. fold S0.
  set (i0 := r / (S0 * P0)) in *. set (j0 := (r / P0) mod S0) in *. set (l0 := r mod P0) in *.
  assert (Dr : digits dims r = digits pre i0 ++ digits sl j0 ++ digits post l0) by (apply (lift_digits pre sl post pos r Hr)).
  transitivity (csum S0 (fun j => Cmul (B j0 j) (psi (digits pre i0 ++ digits sl j ++ digits post l0)))).
  { apply csum_ext. intros j Hj. rewrite nth_product by exact Hj. rewrite Dr.
    replace (seq (List.length pre) (List.length sl)) with (seq (List.length (digits pre i0)) (List.length (digits sl j0))) by (rewrite !length_digits; reflexivity).
    rewrite get_app, put_app by (rewrite !length_digits; reflexivity). f_equal. unfold reshape, mtrans.
    rewrite undigits_app by (apply length_digits). rewrite !undigits_digits by assumption. fold S0.
    rewrite Nat.div_add_l by exact HS. rewrite (Nat.div_small j0 S0 L2), Nat.add_0_r.
    replace (j * S0 + j0) with (j0 + j * S0) by lia. rewrite Nat.mod_add by exact HS. now rewrite (Nat.mod_small j0 S0 L2). }
  unfold mapply. assert (Sz : prodl dims = prodl pre * (S0 * P0)) by apply (lift_sizes pre sl post). rewrite Sz.
  rewrite csum_prod. transitivity (csum (prodl pre) (fun i => Cmul (mid i0 i) (csum S0 (fun j => Cmul (B j0 j) (psi (digits pre i ++ digits sl j ++ digits post l0)))))).
  { now rewrite csum_mid_l by exact L1. }
  apply csum_ext. intros i Hi. rewrite csum_prod, <- csum_mul_l. apply csum_ext. intros j Hj.
  transitivity (csum P0 (fun l => Cmul (mid l0 l) (Cmul (mid i0 i) (Cmul (B j0 j) (psi (digits pre i ++ digits sl j ++ digits post l)))))).
  { now rewrite csum_mid_l by exact L3. }
  apply csum_ext. intros l Hl. unfold widen. fold i0 j0 l0.
  assert (J : j * P0 + l < S0 * P0) by nia.
  replace ((i * (S0 * P0) + (j * P0 + l)) / (S0 * P0)) with i by (rewrite Nat.div_add_l by nia; rewrite (Nat.div_small _ _ J); lia).
  replace ((i * (S0 * P0) + (j * P0 + l)) mod P0) with l.
  2:{ replace (i * (S0 * P0) + (j * P0 + l)) with (l + (i * S0 + j) * P0) by ring. rewrite Nat.mod_add by exact HP. symmetry. now apply Nat.mod_small. }
  replace (((i * (S0 * P0) + (j * P0 + l)) / P0) mod S0) with j.
  2:{ replace (i * (S0 * P0) + (j * P0 + l)) with ((i * S0 + j) * P0 + l) by ring. rewrite Nat.div_add_l by exact HP. rewrite (Nat.div_small l P0 Hl), Nat.add_0_r.
      replace (i * S0 + j) with (j + i * S0) by lia. rewrite Nat.mod_add by exact HS. symmetry. now apply Nat.mod_small. }
  assert (Dc : digits dims (i * (S0 * P0) + (j * P0 + l)) = digits pre i ++ digits sl j ++ digits post l).
  { unfold dims. unfold S0, P0 in J |- *. rewrite <- prodl_app in J |- *. rewrite digits_app by assumption. f_equal. apply digits_app; assumption. }
  rewrite Dc. ring.
Qed.
End Apply.

(** *** one gate of a circuit *)
Lemma lo_hi_lines g : lines_of g <> [] -> match lines_of g with [] => True | l0 :: lr => minl l0 lr = lo_of g /\ maxl l0 lr = hi_of g end.
Proof. intros _. unfold lo_of, hi_of. destruct (lines_of g); auto. Qed.
Lemma ref_lines_of g zl : reference_lines g = Ok zl -> map Z.to_nat zl = lines_of g /\ zl = all_lines g.
Proof.
  unfold reference_lines. intros H. assert (E : zl = (control_lines g ++ target_lines g)%list) by (destruct (control_lines g ++ target_lines g)%list; [discriminate|congruence]).
  subst zl. split; [apply lines_control|reflexivity].
Qed.
Lemma ref_lines_ok dims g : well_placed dims g -> exists zl, reference_lines g = Ok zl.
Proof.
  intros W. unfold reference_lines. destruct (control_lines g ++ target_lines g)%list as [|z l] eqn:E; [|eauto].
  apply app_eq_nil in E. exfalso. apply (proj1 W), E.
Qed.
(** the legs of the gate are the lines from the lowest to the highest one *)
Lemma fits_lines dims g : well_placed dims g -> fits g ->
  match g_type g, g_long g with
  | SINGLE, _ => exists l, lines_of g = [l] /\ [l] = seq (lo_of g) (hi_of g + 1 - lo_of g)
  | TWO, false => exists l m, lines_of g = [l; m] /\ sortN [l; m] = seq (lo_of g) (hi_of g + 1 - lo_of g)
  | _, _ => True
  end.
Proof.
  intros W F. unfold fits in F. destruct (g_type g); [| |now destruct (g_long g)].
  - destruct F as (l & E). exists (Z.to_nat l). assert (L : lines_of g = [Z.to_nat l]) by (rewrite <- lines_control; unfold all_lines in E; now rewrite E).
    split; [exact L|]. unfold lo_of, hi_of. rewrite L. cbn [minl maxl]. replace (Z.to_nat l + 1 - Z.to_nat l) with 1 by lia. reflexivity.
  - destruct (g_long g); [exact I|]. destruct F as (l & m & E & A). specialize (A eq_refl).
    assert (L : lines_of g = [Z.to_nat l; Z.to_nat m]) by (rewrite <- lines_control; unfold all_lines in E; now rewrite E).
    exists (Z.to_nat l), (Z.to_nat m). split; [exact L|].
    assert (N : Z.to_nat l <> Z.to_nat m).
    { intros Q. unfold all_lines, control_lines in E. destruct W as (W1 & W2 & W3 & W4). destruct (g_controls g) as [[cs lv]|].
      - destruct W4 as [W4 W5]. destruct cs as [|c cs]; [congruence|]. cbn in E. injection E as -> E. destruct cs as [|c' cs].
        + cbn in E. destruct (W5 l (or_introl eq_refl)) as [R X]. apply X. rewrite E. left. specialize (W3 m). rewrite E in W3. specialize (W3 (or_introl eq_refl)). lia.
        + cbn in E. injection E as _ E. apply app_eq_nil in E. apply W1, E.
      - cbn in E. rewrite E in W2, W3. inversion W2 as [|? ? X _]; subst. apply X. left. pose proof (W3 l (or_introl eq_refl)). pose proof (W3 m (or_intror (or_introl eq_refl))). lia. }
    assert (R : (0 <= l)%Z /\ (0 <= m)%Z).
    { assert (In l (all_lines g) /\ In m (all_lines g)) as [I1 I2] by (rewrite E; cbn; auto). destruct W as (_ & _ & W3 & W4). unfold all_lines, control_lines in *.
      assert (Q : forall z, In z (match g_controls g with Some (idx, _) => idx | None => [] end ++ target_lines g)%list -> (0 <= z)%Z).
      { intros z Iz. apply in_app_iff in Iz. destruct Iz as [Iz|Iz]; [|now apply W3]. destruct (g_controls g) as [[cs lv]|]; [|destruct Iz]. now apply W4. }
      auto. }
    unfold lo_of, hi_of. rewrite L. cbn [minl maxl sortN insN]. destruct (Nat.leb_spec (Z.to_nat l) (Z.to_nat m)) as [Q|Q].
    + rewrite Nat.min_l, Nat.max_r by lia. replace (Z.to_nat m + 1 - Z.to_nat l) with 2 by lia. cbn [seq]. f_equal. f_equal. lia.
    + rewrite Nat.min_r, Nat.max_l by lia. replace (Z.to_nat l + 1 - Z.to_nat m) with 2 by lia. cbn [seq]. f_equal. f_equal. lia.
Qed.
Lemma step_unfold dims g psi : well_placed dims g -> fits g ->
  step dims g psi = let? M := generate_matrix dims 1 g in connect M (prodl (slice_of dims g)) dims (seq (lo_of g) (hi_of g + 1 - lo_of g)) psi.
Proof.
  intros W F. unfold step. destruct (generate_matrix dims 1 g) as [M|]; [|reflexivity]. cbn [bindr].
  destruct (ref_lines_ok _ _ W) as (zl & E). rewrite E. cbn [bindr]. destruct (ref_lines_of _ _ E) as [L _]. rewrite L. pose proof (fits_lines _ _ W F) as Fl.
  assert (NE : lines_of g <> []) by (pose proof (gen_lo_hi _ _ W) as (_ & _ & I & _); intros Q; rewrite Q in I; destruct I).
  assert (R : matrix_rows dims (lines_of g) = prodl (slice_of dims g)). { unfold matrix_rows, slice_of, lo_of, hi_of. destruct (lines_of g); [congruence|reflexivity]. }
  rewrite R. pose proof (lo_hi_lines g NE) as LH.
  destruct (g_type g).
  - destruct Fl as (l & E1 & E2). rewrite E1. now rewrite E2.
  - destruct (g_long g).
    + destruct (lines_of g); [congruence|]. now destruct LH as [-> ->].
    + destruct Fl as (l & m & E1 & E2). rewrite E1. now rewrite E2.
  - destruct (lines_of g); [congruence|]. now destruct LH as [-> ->].
Qed.
Lemma connect_slice dims g M psi : well_placed dims g ->
  connect M (prodl (slice_of dims g)) dims (seq (lo_of g) (hi_of g + 1 - lo_of g)) psi =
  Ok (apply_gate (reshape (mtrans M) (prodl (slice_of dims g)) (slice_of dims g ++ slice_of dims g)) (slice_of dims g) (seq (lo_of g) (hi_of g + 1 - lo_of g)) psi).
Proof.
  intros W. unfold connect. destruct (gen_lo_hi _ _ W) as (L1 & L2 & _). rewrite sizes_slice by lia. cbn [bindr]. fold (slice_of dims g). now rewrite Nat.eqb_refl.
Qed.
Lemma step_acts dims g psi psi' : (forall d, In d dims -> 0 < d) -> well_placed dims g -> fits g -> step dims g psi = Ok psi' ->
  exists A, matrix_of dims g A /\ veq (prodl dims) (fun k => psi' (digits dims k)) (mapply (prodl dims) A (fun k => psi (digits dims k))).
Proof.
  intros Hp W F H. rewrite step_unfold in H by assumption. destruct (generate_matrix dims 1 g) as [B|] eqn:G; [|discriminate]. cbn [bindr] in H.
  rewrite connect_slice in H by exact W. injection H as <-.
  pose proof (gen_local dims g W 1 B ltac:(lia) (or_introl eq_refl) G) as HB.
  pose proof (gen_split dims g W) as Es. destruct (gen_lo_hi _ _ W) as (H1 & H2 & _ & _). pose proof (gen_slice_len dims g W) as SL.
  assert (Hlo : List.length (firstn (lo_of g) dims) = lo_of g) by (rewrite firstn_length; lia).
  set (pre := firstn (lo_of g) dims) in *. set (post := skipn (hi_of g + 1) dims) in *. set (sl := slice_of dims g) in *.
  assert (Hpos' : forall d, In d (pre ++ sl ++ post)%list -> (0 < d)%nat) by (rewrite <- Es; exact Hp).
  assert (Hts : forall t, In t (shift (lo_of g) (sortN (target_nats g))) -> (t < List.length sl)%nat).
  { unfold shift. intros t Ht. apply in_map_iff in Ht. destruct Ht as (q & <- & Hq). rewrite In_sortN in Hq. apply (gen_ts_range dims g W) in Hq. rewrite SL. lia. }
  assert (Hcs : forall t, In t (shift (lo_of g) (control_nats g)) -> (t < List.length sl)%nat).
  { unfold shift. intros t Ht. apply in_map_iff in Ht. destruct Ht as (q & <- & Hq). apply (gen_cs_range dims g W) in Hq. rewrite SL. lia. }
  exists (widen sl post B). split.
  - exists (sortN (target_nats g)). split; [apply sortN_perm|]. split; [apply sorted_strict; [apply sortN_sorted|apply sortN_NoDup; eapply gen_ts_nodup; exact W]|].
    pose proof (acts_lift pre sl post Hpos' (shift (lo_of g) (sortN (target_nats g))) (shift (lo_of g) (control_nats g)) (control_levels g) Hts Hcs (core g) B (widen sl post B) HB) as HL.
    rewrite Hlo in HL. rewrite !unshift_shift in HL.
    + rewrite Es. apply HL. reflexivity.
    + intros q Hq. apply (gen_cs_range dims g W) in Hq. lia.
    + intros q Hq. rewrite In_sortN in Hq. apply (gen_ts_range dims g W) in Hq. lia.
  - intros r Hr. cbn beta. rewrite <- SL. rewrite <- Hlo at 1. revert Hr. rewrite Es. intros Hr. exact (apply_gate_spec pre sl post Hpos' B psi r Hr).
Qed.

(** *** circuits *)
Lemma evolves_veq dims gs : forall psi psi' phi, veq (prodl dims) psi psi' -> evolves dims psi' gs phi -> evolves dims psi gs phi.
Proof.
  induction gs as [|g gs IH]; intros psi psi' phi E H; cbn in *.
  - intros k Hk. rewrite (H k Hk). symmetry. now apply E.
  - destruct H as (A & M & H). exists A. split; [exact M|]. eapply IH; [|exact H]. apply mapply_ext; [intros i j _ _; reflexivity|exact E].
Qed.
Lemma steps_evolve dims gs : (forall d, In d dims -> 0 < d) -> (forall g, In g gs -> well_placed dims g /\ fits g) -> forall psi phi, steps dims gs psi = Ok phi ->
  evolves dims (fun k => psi (digits dims k)) gs (fun k => phi (digits dims k)).
Proof.
  intros Hp. induction gs as [|g gs IH]; intros F psi phi H; cbn [steps] in H.
  - injection H as <-. intros k _. reflexivity.
  - destruct (step dims g psi) as [psi'|] eqn:St; [|discriminate]. cbn [bindr] in H. destruct (F g (or_introl eq_refl)) as [W Fi].
    destruct (step_acts _ _ _ _ Hp W Fi St) as (A & MA & V). exists A. split; [exact MA|].
    eapply evolves_veq; [|apply (IH (fun g I => F g (or_intror I)) _ _ H)]. intros k Hk. symmetry. now apply V.
Qed.
Lemma digits_0 dims : forallb (Nat.eqb 0) (digits dims 0) = true.
Proof. induction dims as [|d r IH]; [reflexivity|]. cbn [digits forallb]. destruct (prodl r) as [|p] eqn:E; [|rewrite Nat.div_0_l, Nat.mod_0_l by lia; exact IH]. cbn. exact IH. Qed.
Lemma unit_ket dims : (forall d, In d dims -> 0 < d) -> veq (prodl dims) (fun k => unit_tensor (digits dims k)) (ket 0).
Proof.
  intros Hp k Hk. unfold unit_tensor, ket. destruct (Nat.eqb_spec k 0) as [->|N]; [now rewrite digits_0|].
  destruct (forallb (Nat.eqb 0) (digits dims k)) eqn:E; [|reflexivity]. exfalso. apply N. apply (digits_inj dims); [exact Hk|lia|].
  rewrite forallb_forall in E. assert (D0 : forall x, In x (digits dims 0) -> 0 = x) by (intros x I; pose proof (digits_0 dims) as Q; rewrite forallb_forall in Q; apply Nat.eqb_eq, Q, I).
  apply list_nth_ext; rewrite !length_digits; [reflexivity|]. intros i Hi. transitivity 0; [symmetry; apply Nat.eqb_eq, E, nth_In; now rewrite length_digits|apply D0, nth_In; now rewrite length_digits].
Qed.
Lemma no_zero dims : (forall d, In d dims -> 0 < d) -> existsb (Nat.eqb 0) dims = false.
Proof. intros H. destruct (existsb (Nat.eqb 0) dims) eqn:E; [|reflexivity]. apply existsb_exists in E. destruct E as (d & I & Q). apply Nat.eqb_eq in Q. specialize (H d I). lia. Qed.
Lemma execute_inv dims gs v : register dims -> execute dims gs = Ok v -> exists psi, steps dims gs unit_tensor = Ok psi /\ v = fun k => psi (digits dims k).
Proof.
  intros [NE Hp]. unfold execute. rewrite no_zero by exact Hp. destruct (steps dims gs unit_tensor) as [psi|]; [|discriminate]. cbn [bindr].
  destruct dims; [congruence|]. intros H. injection H as <-. eauto.
Qed.
Lemma execute_evolves dims gs v : register dims -> (forall g, In g gs -> well_placed dims g /\ fits g) -> execute dims gs = Ok v -> evolves dims (ket 0) gs v.
Proof.
  intros Hd F H. destruct (execute_inv _ _ _ Hd H) as (psi & St & ->). eapply evolves_veq; [|eapply steps_evolve; [apply Hd|exact F|exact St]].
  intros k Hk. symmetry. apply unit_ket; [apply Hd|exact Hk].
Qed.

(** the matrix of a gate is unique, so the evolution is *)
Lemma matrix_of_sorted dims g A : well_placed dims g -> matrix_of dims g A -> acts_on dims (sortN (target_nats g)) (control_nats g) (control_levels g) (core g) A.
Proof. intros W (ts & P & S & H). rewrite <- (sorted_targets ts (target_nats g)); [exact H|eapply gen_ts_nodup; exact W|exact P|exact S]. Qed.
Lemma matrix_of_unique dims g A A' : well_placed dims g -> matrix_of dims g A -> matrix_of dims g A' -> meq (prodl dims) A A'.
Proof.
  intros W H H'. eapply acts_unique; [apply (wp_lines_ok dims g W)|apply (wp_off dims g W)|eapply matrix_of_sorted; eassumption|eapply matrix_of_sorted; eassumption].
Qed.
Lemma evolves_unique dims gs : (forall g, In g gs -> well_placed dims g) -> forall psi phi phi', evolves dims psi gs phi -> evolves dims psi gs phi' -> veq (prodl dims) phi phi'.
Proof.
  induction gs as [|g gs IH]; intros W psi phi phi' H H'; cbn in *.
  - intros k Hk. now rewrite (H k Hk), (H' k Hk).
  - destruct H as (A & M & H), H' as (A' & M' & H'). eapply (IH (fun g I => W g (or_intror I))); [exact H|]. eapply evolves_veq; [|exact H'].
    apply mapply_ext; [|intros k _; reflexivity]. eapply matrix_of_unique; [apply W; now left| |]; assumption.
Qed.
Lemma evolves_app dims a b : forall psi phi, evolves dims psi (a ++ b) phi -> exists mid_, evolves dims psi a mid_ /\ evolves dims mid_ b phi.
Proof.
  induction a as [|g a IH]; intros psi phi H.
  - exists psi. split; [intros k _; reflexivity|exact H].
  - cbn in H. destruct H as (A & M & H). destruct (IH _ _ H) as (m & H1 & H2). exists m. split; [|exact H2]. exists A. auto.
Qed.

(** *** it returns exactly when every gate has a matrix *)
Lemma step_returns dims g psi : well_placed dims g -> fits g -> ((exists psi', step dims g psi = Ok psi') <-> exists A, generate_matrix dims 1 g = Ok A).
Proof.
  intros W F. rewrite step_unfold by assumption. destruct (generate_matrix dims 1 g) as [B|e]; cbn [bindr].
  - rewrite connect_slice by exact W. split; eauto.
  - split; intros (x & D); discriminate D.
Qed.
Lemma execute_returns dims gs : register dims -> (forall g, In g gs -> well_placed dims g /\ fits g) ->
  ((exists v, execute dims gs = Ok v) <-> forall g, In g gs -> exists A, generate_matrix dims 1 g = Ok A).
Proof.
  intros [NE Hp] F. unfold execute. rewrite no_zero by exact Hp.
  assert (Q : forall psi, (exists phi, steps dims gs psi = Ok phi) <-> forall g, In g gs -> exists A, generate_matrix dims 1 g = Ok A).
  { clear NE. induction gs as [|g gs IH]; intros psi; cbn [steps].
    - split; [intros _ g []|eauto].
    - destruct (F g (or_introl eq_refl)) as [W Fi]. pose proof (step_returns dims g psi W Fi) as R. specialize (IH (fun g I => F g (or_intror I))). split.
      + intros (phi & H). destruct (step dims g psi) as [psi'|] eqn:St; [|discriminate]. cbn [bindr] in H. intros h [<-|I]; [apply R; eauto|]. apply (proj1 (IH psi')); eauto.
      + intros H. destruct (proj2 R (H g (or_introl eq_refl))) as (psi' & St). rewrite St. cbn [bindr]. apply IH. intros h I. apply H. now right. }
  rewrite <- (Q unit_tensor). destruct dims; [congruence|]. destruct (steps _ gs unit_tensor) as [psi|]; cbn [bindr]; split; intros (x & D); try discriminate; eauto.
Qed.
Lemma uncontrolled_returns dims gs : register dims -> (forall g, In g gs -> well_placed dims g /\ fits g /\ g_controls g = None) -> exists v, execute dims gs = Ok v.
Proof.
  intros R F. apply execute_returns; [exact R|intros g I; split; apply F, I|]. intros g I. destruct (F g I) as (W & _ & N). now apply gen_uncontrolled_returns.
Qed.

(** *** norm *)
Lemma rsum_Csum n f : RtoC (rsum n f) = csum n (fun k => RtoC (f k)).
Proof. induction n as [|n IH]; [reflexivity|]. cbn [rsum csum]. rewrite <- IH. apply Ceq; cbn; ring. Qed.
Lemma norm2_csum n v : RtoC (norm2 n v) = csum n (fun k => Cmul (Cconj (v k)) (v k)).
Proof. unfold norm2. rewrite rsum_Csum. apply csum_ext. intros k _. rewrite <- Cmul_conj. ring. Qed.
Lemma norm2_unitary n A v : unitary n A -> norm2 n (mapply n A v) = norm2 n v.
Proof.
  intros [U _]. assert (E : RtoC (norm2 n (mapply n A v)) = RtoC (norm2 n v)); [|now injection E].
  rewrite !norm2_csum. unfold mapply.
  transitivity (csum n (fun k => csum n (fun i => csum n (fun j => Cmul (Cmul (Cconj (A k i)) (A k j)) (Cmul (Cconj (v i)) (v j)))))).
  { apply csum_ext. intros k Hk. rewrite csum_conj, <- csum_mul_r. apply csum_ext. intros i Hi. rewrite <- csum_mul_l. apply csum_ext. intros j Hj. rewrite Cconj_mul. ring. }
  rewrite csum_swap. apply csum_ext. intros i Hi. rewrite csum_swap.
  transitivity (csum n (fun j => Cmul (mid i j) (Cmul (Cconj (v i)) (v j)))).
  { apply csum_ext. intros j Hj. rewrite csum_mul_r. f_equal. exact (U i j Hi Hj). }
  now rewrite csum_mid_l by exact Hi.
Qed.
Lemma norm2_ext n v w : veq n v w -> norm2 n v = norm2 n w.
Proof. unfold norm2, veq. induction n as [|n IH]; intros H; [reflexivity|]. cbn [rsum]. rewrite IH by (intros; apply H; lia). now rewrite H by lia. Qed.
Lemma matrix_unitary dims g A : (forall d, In d dims -> 0 < d) -> well_placed dims g -> unitary_gate dims g -> matrix_of dims g A -> unitary (prodl dims) A.
Proof.
  intros Hp W U M. apply matrix_of_sorted in M; [|exact W]. eapply acts_unitary; [apply (wp_lines_ok dims g W)|apply (wp_off dims g W)|exact M|].
  unfold unitary_gate in U. rewrite (sub_dims_perm dims _ _ (sortN_perm (target_nats g))). unfold core. destruct (g_dagger g); [apply unitary_adj|]; exact U.
Qed.
Lemma evolves_norm dims gs : (forall d, In d dims -> 0 < d) -> (forall g, In g gs -> well_placed dims g /\ unitary_gate dims g) -> forall psi phi, evolves dims psi gs phi -> norm2 (prodl dims) phi = norm2 (prodl dims) psi.
Proof.
  intros Hp. induction gs as [|g gs IH]; intros F psi phi H; cbn in H.
  - now apply norm2_ext.
  - destruct H as (A & M & H). rewrite (IH (fun g I => F g (or_intror I)) _ _ H). destruct (F g (or_introl eq_refl)) as [W U]. apply norm2_unitary. eapply matrix_unitary; eassumption.
Qed.
Lemma norm2_ket n j : j < n -> norm2 n (ket j) = 1%R.
Proof.
  intros H. assert (E : RtoC (norm2 n (ket j)) = RtoC 1); [|now injection E]. rewrite norm2_csum. rewrite (csum_single n _ j H).
  - unfold ket. rewrite Nat.eqb_refl. apply Ceq; cbn; ring.
  - intros i _ N. unfold ket. replace (i =? j) with false by (symmetry; now apply Nat.eqb_neq). ring.
Qed.
Lemma execute_norm dims gs v : register dims -> (forall g, In g gs -> well_placed dims g /\ fits g /\ unitary_gate dims g) -> execute dims gs = Ok v -> norm2 (prodl dims) v = 1%R.
Proof.
  intros R F H. apply execute_evolves in H; [|exact R|intros g I; split; apply F, I]. apply evolves_norm in H; [|apply R|intros g I; split; apply F, I]. rewrite H. apply norm2_ket. apply prodl_pos, R.
Qed.

(** *** gates that cannot be simulated *)
Lemma steps_fail dims gs g : In g gs -> (forall psi psi', step dims g psi <> Ok psi') -> forall psi phi, steps dims gs psi <> Ok phi.
Proof.
  induction gs as [|h gs IH]; intros I H psi phi; [destruct I|]. cbn [steps]. destruct (step dims h psi) as [psi'|] eqn:St; [|discriminate]. cbn [bindr].
  destruct I as [->|I]; [exfalso; eapply H; exact St|now apply IH].
Qed.
Lemma execute_fails dims gs g : In g gs -> (forall psi psi', step dims g psi <> Ok psi') -> forall v, execute dims gs <> Ok v.
Proof.
  intros I H v. unfold execute. destruct (existsb _ dims); [discriminate|]. destruct (steps dims gs unit_tensor) as [phi|] eqn:E; [|discriminate]. exfalso. eapply steps_fail; eassumption.
Qed.
Lemma prodl_ge dims x : In x dims -> (forall d, In d dims -> 0 < d) -> x <= prodl dims.
Proof.
  induction dims as [|d r IH]; intros I H; [destruct I|]. cbn [prodl]. assert (0 < d) by (apply H; now left). assert (0 < prodl r) by (apply prodl_pos; intros; apply H; now right).
  destruct I as [->|I]; [nia|]. assert (x <= prodl r) by (apply IH; [exact I|intros; apply H; now right]). nia.
Qed.
(** a two-line gate with a line of dimension at least 2 between its lines, not marked long range *)
Lemma gap_fails dims g gs l m q : register dims -> (forall d, In d dims -> 1 < d) -> In g gs -> g_type g = TWO -> g_long g = false -> all_lines g = [l; m] ->
  (0 <= l /\ 0 <= m /\ Z.of_nat q <> l /\ Z.of_nat q <> m)%Z -> (Z.min l m < Z.of_nat q < Z.max l m)%Z -> (Z.max l m < Z.of_nat (List.length dims))%Z -> forall v, execute dims gs <> Ok v.
Proof.
  intros [_ Hp] H2 I T Lg E N Q B. apply (execute_fails dims gs g I). intros psi psi'. unfold step. destruct (generate_matrix dims 1 g) as [M|]; [|discriminate]. cbn [bindr].
  assert (R : reference_lines g = Ok [l; m]) by (unfold reference_lines; unfold all_lines in E; now rewrite E). rewrite R. cbn [bindr map]. rewrite T, Lg.
  set (a := Z.to_nat l) in *. set (b := Z.to_nat m) in *.
  assert (X : connect M (matrix_rows dims [a; b]) dims (sortN [a; b]) psi = Err ValueError); [|now rewrite X].
  assert (D : exists x y, x < y /\ y < List.length dims /\ x < q < y /\ sortN [a; b] = [x; y] /\ minl a [b] = x /\ maxl a [b] = y).
  { cbn [sortN insN minl maxl]. destruct (Nat.leb_spec a b); [exists a, b|exists b, a]; (split; [lia|]); (split; [lia|]); (split; [lia|]); (split; [reflexivity|]); lia. }
  destruct D as (x & y & Lxy & Ly & Lq & -> & Mn & Mx). unfold connect, sizes. cbn [mapr].
  destruct (nth_error dims x) as [dx|] eqn:Nx; [|apply nth_error_None in Nx; lia]. destruct (nth_error dims y) as [dy|] eqn:Ny; [|apply nth_error_None in Ny; lia]. cbn [bindr].
  assert (Rw : matrix_rows dims [a; b] = prodl (firstn (y + 1 - x) (skipn x dims))) by (unfold matrix_rows; now rewrite Mn, Mx).
  rewrite Rw. assert (Sp : firstn (y + 1 - x) (skipn x dims) = dx :: firstn (y - x - 1) (skipn (x + 1) dims) ++ [dy]).
  { destruct (nth_error_split _ _ Nx) as (l1 & l2 & E1 & L1). subst dims. rewrite skipn_app. rewrite <- L1. rewrite skipn_all, Nat.sub_diag. cbn [skipn app].
    replace (y + 1 - List.length l1) with (S (y - List.length l1)) by lia. cbn [firstn]. f_equal.
    rewrite skipn_app. rewrite skipn_all2 by lia. replace (List.length l1 + 1 - List.length l1) with 1 by lia. cbn [skipn app].
    rewrite nth_error_app2 in Ny by lia. replace (y - List.length l1) with (S (y - List.length l1 - 1)) in Ny |- * by lia. cbn [nth_error] in Ny.
    destruct (nth_error_split _ _ Ny) as (k1 & k2 & E2 & L2). subst l2. replace (S (y - List.length l1 - 1)) with (List.length k1 + 1) by lia. replace (List.length k1 + 1 - 1) with (List.length k1) by lia.
    rewrite firstn_app_2. cbn [firstn]. rewrite firstn_app, firstn_all, Nat.sub_diag. cbn [firstn]. now rewrite app_nil_r. }
  rewrite Sp. cbn [prodl]. rewrite prodl_app. cbn [prodl].
  assert (Big : 1 < prodl (firstn (y - x - 1) (skipn (x + 1) dims))).
  { destruct (nth_error dims q) as [dq|] eqn:Nq; [|apply nth_error_None in Nq; lia]. assert (1 < dq) by (apply H2; eapply nth_error_In; exact Nq).
    assert (Iq : In dq (firstn (y - x - 1) (skipn (x + 1) dims))).
    { apply (nth_error_In _ (q - (x + 1))). rewrite <- Nq. transitivity (nth_error (skipn (x + 1) dims) (q - (x + 1))).
      - rewrite <- (firstn_skipn (y - x - 1) (skipn (x + 1) dims)) at 2. rewrite nth_error_app1; [reflexivity|]. rewrite firstn_length, skipn_length. lia.
      - rewrite <- (firstn_skipn (x + 1) dims) at 2. rewrite nth_error_app2; rewrite firstn_length; [|lia]. f_equal. lia. }
    pose proof (prodl_ge _ _ Iq) as Ge. enough (dq <= prodl (firstn (y - x - 1) (skipn (x + 1) dims))) by lia. apply Ge. intros d Id. apply Hp.
    rewrite <- (firstn_skipn (x + 1) dims). apply in_or_app. right. rewrite <- (firstn_skipn (y - x - 1) (skipn (x + 1) dims)). apply in_or_app. now left. }
  assert (1 < dx) by (apply H2; eapply nth_error_In; exact Nx). assert (1 < dy) by (apply H2; eapply nth_error_In; exact Ny).
  match goal with |- (if ?u =? ?w then _ else _) = _ => replace (u =? w) with false by (symmetry; apply Nat.eqb_neq; nia) end. reflexivity.
Qed.

(** *** gates as the constructor and control() leave them *)
Lemma any_gap_two l m : any_gap (sortedZ [l; m]) = false -> (Z.abs (l - m) <= 1)%Z.
Proof.
  unfold any_gap. cbn [sortedZ insert_sorted]. destruct (l <=? m)%Z eqn:L; cbn; rewrite orb_false_r; intros H; apply Z.ltb_ge in H; lia.
Qed.
Lemma new_gate_fits num dims name t tg ctl data g : new_gate num dims name t tg ctl data = Ok g ->
  match t with
  | SINGLE => exists q, tg = TInt q
  | TWO => exists a b, tg = TList [a; b]
  | MULTI => True
  end -> fits g.
Proof.
  unfold new_gate. intros H K.
  set (g0 := Gate name t tg None false false data) in *.
  assert (F : forall g1 b, check_long_range g1 = Ok b -> (g_type g1 = SINGLE -> exists l, all_lines g1 = [l]) -> (g_type g1 = TWO -> exists l m, all_lines g1 = [l; m]) -> fits (with_long g1 b)).
  { intros g1 b C S1 S2. unfold fits. cbn [with_long g_type g_long]. change (all_lines (with_long g1 b)) with (all_lines g1). destruct (g_type g1) eqn:T1.
    - now apply S1.
    - destruct (S2 eq_refl) as (l & m & E). exists l, m. split; [exact E|]. intros ->. unfold check_long_range, reference_lines in C. unfold all_lines in E. rewrite E in C. cbn [List.length Nat.ltb Nat.leb] in C. injection C as C. now apply any_gap_two.
    - exact I. }
  assert (G0 : (t = SINGLE -> exists l, all_lines g0 = [l]) /\ (t = TWO -> exists l m, all_lines g0 = [l; m])).
  { split; intros ->; [destruct K as (q & ->)|destruct K as (a & b & ->)]; unfold g0, all_lines, control_lines, target_lines; cbn; eauto. }
  destruct ctl as [[idx st]|].
  - unfold control in H. destruct (Nat.eqb (List.length idx) 0 || Nat.eqb (List.length st) 0)%bool eqn:E0.
    + destruct (check_long_range g0) as [b|] eqn:C; cbn [bindr] in H; [|discriminate H]. injection H as <-. apply F; [exact C|apply G0|apply G0].
    + destruct (negb (is_single (g_type g0))) eqn:E1; cbn beta iota zeta in H; [discriminate H|]. destruct (Nat.ltb num (List.length idx) || existsb (fun i => (Z.of_nat num <=? i)%Z) idx)%bool; cbn beta iota zeta in H; [discriminate H|]. destruct (existsb _ idx); cbn beta iota zeta in H; [discriminate H|].
      destruct (levels_beyond dims 0 st) as [[|]|]; cbn beta iota zeta in H; try discriminate H. set (g1 := with_controls g0 _ _) in H.
      destruct (check_long_range g1) as [b|] eqn:C; cbn [bindr] in H; [|discriminate H]. injection H as <-. cbn [g0 g_type] in E1. destruct t; try discriminate E1. destruct K as (q & ->).
      apply orb_false_iff in E0. destruct E0 as [E0 _]. apply Nat.eqb_neq in E0.
      apply F; [exact C| |]; cbn [g1 with_controls g_type]; unfold g0, target_lines; cbn [g_target List.length].
      * destruct (Nat.eqb _ 2) eqn:Q; [discriminate|]. apply Nat.eqb_neq in Q. destruct (Nat.ltb_spec 2 (List.length idx + 1)); [discriminate|]. intros _. exfalso. unfold g0, target_lines in Q. cbn in Q. lia.
      * destruct (Nat.eqb_spec (List.length idx + 1) 2) as [Q|Q]; [|destruct (Nat.ltb _ _); discriminate]. intros _. destruct idx as [|i [|]]; cbn in Q; try lia. exists i, q. reflexivity.
  - destruct (check_long_range g0) as [b|] eqn:C; cbn [bindr] in H; [|discriminate H]. injection H as <-. apply F; [exact C|apply G0|apply G0].
Qed.
(** control() on a finished single-qudit gate keeps the flag *)
Lemma control_stale {A} num dims (g : gate A) c lv g' : g_type g = SINGLE -> (exists q, g_target g = TInt q) -> control num dims g [c] lv = (g', None) -> lv <> [] -> g_type g' = TWO /\ g_long g' = g_long g.
Proof.
  intros T (q & Q) H N. unfold control in H. destruct lv as [|v lv]; [congruence|]. cbn [List.length Nat.eqb orb] in H. rewrite T in H. cbn [is_single negb] in H.
  destruct (_ || _)%bool; [discriminate|]. destruct (existsb _ [c]); [discriminate|]. destruct (levels_beyond dims 0 (v :: lv)) as [[|]|]; try discriminate.
  injection H as <-. unfold with_controls, target_lines. rewrite Q. cbn. auto.
Qed.

(** *** reordering *)
Lemma valid_rev ds xs : valid ds xs -> valid (rev ds) (rev xs).
Proof. unfold valid. intros H. induction H as [|x d xs ds L H IH]; [constructor|]. cbn [rev]. apply Forall2_app; [exact IH|]. repeat constructor. exact L. Qed.
Lemma prodl_rev ds : prodl (rev ds) = prodl ds.
Proof. induction ds as [|d r IH]; [reflexivity|]. cbn [rev prodl]. rewrite prodl_app, IH. cbn. lia. Qed.
Lemma reverse_entry dims state xs : valid dims xs -> reverse_axes dims state (undigits dims xs) = state (undigits (rev dims) (rev xs)).
Proof. intros H. unfold reverse_axes. now rewrite digits_undigits by exact H. Qed.
Lemma reverse_twice dims state : veq (prodl dims) (reverse_axes (rev dims) (reverse_axes dims state)) (fun k => state k).
Proof.
  intros k Hk. unfold reverse_axes. rewrite rev_involutive. assert (V : valid (rev dims) (digits (rev dims) k)) by (apply valid_digits; now rewrite prodl_rev).
  assert (V' : valid dims (rev (digits (rev dims) k))) by (rewrite <- (rev_involutive dims) at 1; now apply valid_rev).
  rewrite digits_undigits by exact V'. rewrite rev_involutive. now rewrite undigits_digits by (now rewrite prodl_rev).
Qed.
