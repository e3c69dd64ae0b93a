From Coq Require Import List ZArith Arith Lia Sorted Permutation Reals Lra.
From Verif Require Import Base.Py Base.Cplx Base.Matrix Base.Radix Base.Fiber.
From Verif Require Import Circuit.GateModel Gates.FactoryModel Gates.FactorySpec Gates.ActsOn Gates.FactoryProofs Gates.Embed.
From Verif Require Import Gates.SingleModel Gates.SingleSpec Gates.SingleProofs.
Open Scope C_scope.

(** *** sorted targets *)
Lemma sorted_targets ts' l : NoDup l -> Permutation ts' l -> StronglySorted lt ts' -> ts' = sortN l.
Proof.
  intros Hn Hp Hs. apply strict_unique; [exact Hs|apply sorted_strict; [apply sortN_sorted|apply sortN_NoDup; exact Hn]|].
  intros x. rewrite In_sortN. split; intros H; [eapply Permutation_in; [exact Hp|exact H]|eapply Permutation_in; [apply Permutation_sym; exact Hp|exact H]].
Qed.
Lemma wp_lines_ok dims g : well_placed dims g -> lines_ok dims (sortN (target_nats g)).
Proof.
  intros H. split; [apply sortN_NoDup; eapply gen_ts_nodup; exact H|]. intros t Ht. rewrite In_sortN in Ht.
  apply (gen_lines_range dims g H). apply in_or_app. right. exact Ht.
Qed.
Lemma wp_off dims g : well_placed dims g -> off_targets dims (sortN (target_nats g)) (control_nats g).
Proof.
  intros H c Hc. split; [|rewrite In_sortN; apply (gen_cs_range dims g H c Hc)].
  apply (gen_lines_range dims g H). apply in_or_app. left. exact Hc.
Qed.

(** *** C17/C18 *)
Lemma gen_acts dims ids g A ts' : (forall d, In d dims -> (0 < d)%nat) -> well_placed dims g -> (2 <= ids)%nat ->
  Permutation ts' (target_nats g) -> StronglySorted lt ts' -> generate_matrix dims ids g = Ok A ->
  acts_on dims ts' (control_nats g) (control_levels g) (core g) A.
Proof.
  intros Hp Hw Hi Hpm Hs H. rewrite (sorted_targets ts' (target_nats g)); [|eapply gen_ts_nodup; exact Hw|exact Hpm|exact Hs].
  eapply gen_full; eassumption.
Qed.
Lemma gen_unitary dims ids g A : (forall d, In d dims -> (0 < d)%nat) -> well_placed dims g -> (2 <= ids)%nat ->
  generate_matrix dims ids g = Ok A -> unitary (prodl (sub_dims dims (sortN (target_nats g)))) (core g) -> unitary (prodl dims) A.
Proof.
  intros Hp Hw Hi H HU. eapply acts_unitary; [apply wp_lines_ok; exact Hw|apply wp_off; exact Hw|eapply gen_full; eassumption|exact HU].
Qed.
Lemma sub_dims_perm dims a b : Permutation a b -> prodl (sub_dims dims a) = prodl (sub_dims dims b).
Proof. intros H. induction H; cbn in *; unfold sub_dims in *; cbn; lia. Qed.
Lemma sortN_perm l : Permutation (sortN l) l.
Proof.
  induction l as [|x l IH]; cbn; [constructor|]. eapply perm_trans; [|apply perm_skip; exact IH].
  generalize (sortN l). clear. intros l. induction l as [|y l IH]; cbn; [apply Permutation_refl|]. destruct (Nat.leb x y); [apply Permutation_refl|].
  eapply perm_trans; [apply perm_skip; exact IH|]. apply perm_swap.
Qed.
Lemma gen_unitary' dims ids g A : (forall d, In d dims -> (0 < d)%nat) -> well_placed dims g -> (2 <= ids)%nat ->
  generate_matrix dims ids g = Ok A -> unitary (prodl (sub_dims dims (target_nats g))) (g_data g) -> unitary (prodl dims) A.
Proof.
  intros Hp Hw Hi H HU. eapply gen_unitary; try eassumption. rewrite (sub_dims_perm dims _ (target_nats g)) by apply sortN_perm.
  unfold core. destruct (g_dagger g); [apply unitary_adj|]; exact HU.
Qed.
Lemma gen_commute dims ids g1 g2 A1 A2 : (forall d, In d dims -> (0 < d)%nat) -> well_placed dims g1 -> well_placed dims g2 -> (2 <= ids)%nat ->
  generate_matrix dims ids g1 = Ok A1 -> generate_matrix dims ids g2 = Ok A2 ->
  (forall t, In t (target_nats g1) -> ~ In t (target_nats g2 ++ control_nats g2)%list) ->
  (forall t, In t (target_nats g2) -> ~ In t (control_nats g1)) ->
  meq (prodl dims) (mmul (prodl dims) A1 A2) (mmul (prodl dims) A2 A1).
Proof.
  intros Hp H1 H2 Hi E1 E2 D1 D2.
  eapply acts_commute; [apply wp_lines_ok; exact H1|apply wp_off; exact H1|apply wp_lines_ok; exact H2|apply wp_off; exact H2| | | |eapply gen_full; eassumption|eapply gen_full; eassumption].
  - intros t Ht. rewrite In_sortN in *. intros H. apply (D1 t Ht). apply in_or_app. left. exact H.
  - intros t Ht. rewrite In_sortN in *. intros H. apply (D1 t Ht). apply in_or_app. right. exact H.
  - intros t Ht. rewrite In_sortN in *. apply D2. exact Ht.
Qed.
Lemma gen_multiply dims ids g1 g2 g3 A1 A2 A3 : (forall d, In d dims -> (0 < d)%nat) ->
  well_placed dims g1 -> well_placed dims g2 -> well_placed dims g3 -> (2 <= ids)%nat ->
  target_lines g2 = target_lines g1 -> target_lines g3 = target_lines g1 ->
  g_controls g2 = g_controls g1 -> g_controls g3 = g_controls g1 ->
  meq (prodl (sub_dims dims (target_nats g1))) (core g3) (mmul (prodl (sub_dims dims (target_nats g1))) (core g1) (core g2)) ->
  generate_matrix dims ids g1 = Ok A1 -> generate_matrix dims ids g2 = Ok A2 -> generate_matrix dims ids g3 = Ok A3 ->
  meq (prodl dims) A3 (mmul (prodl dims) A1 A2).
Proof.
  intros Hp H1 H2 H3 Hi T2 T3 C2 C3 HM E1 E2 E3.
  pose proof (gen_full dims g1 H1 ids A1 Hp Hi E1) as B1. pose proof (gen_full dims g2 H2 ids A2 Hp Hi E2) as B2.
  pose proof (gen_full dims g3 H3 ids A3 Hp Hi E3) as B3.
  assert (Et2 : target_nats g2 = target_nats g1) by (unfold target_nats; rewrite T2; reflexivity).
  assert (Et3 : target_nats g3 = target_nats g1) by (unfold target_nats; rewrite T3; reflexivity).
  assert (Ec2 : control_nats g2 = control_nats g1 /\ control_levels g2 = control_levels g1) by (unfold control_nats, control_levels; rewrite C2; auto).
  assert (Ec3 : control_nats g3 = control_nats g1 /\ control_levels g3 = control_levels g1) by (unfold control_nats, control_levels; rewrite C3; auto).
  destruct Ec2 as [Ec2 El2]. destruct Ec3 as [Ec3 El3]. rewrite Et2, Ec2, El2 in B2. rewrite Et3, Ec3, El3 in B3.
  pose proof (wp_lines_ok _ _ H1) as Hl. pose proof (wp_off _ _ H1) as Ho.
  rewrite <- (sub_dims_perm dims (sortN (target_nats g1)) (target_nats g1)) in HM by apply sortN_perm.
  eapply acts_unique; [exact Hl|exact Ho|exact B3|].
  eapply acts_ext; [exact Hl|exact Ho|apply meq_sym; exact HM|apply meq_refl|]. apply acts_mul; assumption.
Qed.

(** the Kronecker form for a single-qudit gate *)
Lemma gen_kron pre d post ids g : (forall x, In x (pre ++ d :: post)%list -> (0 < x)%nat) ->
  g_target g = TInt (Z.of_nat (List.length pre)) -> g_controls g = None -> (2 <= ids)%nat ->
  exists A, generate_matrix (pre ++ d :: post) ids g = Ok A /\
    meq (prodl (pre ++ d :: post)) A (mkron (prodl post) (mkron d mid (core g)) mid).
Proof.
  intros Hp Ht Hc Hi. set (dims := (pre ++ d :: post)%list) in *.
  assert (Hw : well_placed dims g).
  { unfold well_placed, target_lines. rewrite Ht, Hc. repeat split; try discriminate.
    - constructor; [intros []|constructor].
    - destruct H as [<-|[]]. lia.
    - destruct H as [<-|[]]. unfold dims. rewrite app_length. cbn. lia. }
  destruct (gen_uncontrolled_returns dims g Hw ids Hc) as (A & HA). exists A. split; [exact HA|].
  pose proof (gen_full dims g Hw ids A Hp Hi HA) as H.
  assert (Et : target_nats g = [List.length pre]) by (unfold target_nats, target_lines; rewrite Ht; cbn; rewrite Nat2Z.id; reflexivity).
  assert (Ec : control_nats g = [] /\ control_levels g = []) by (unfold control_nats, control_levels; rewrite Hc; auto).
  destruct Ec as [Ec El]. rewrite Et, Ec, El in H. cbn [sortN insN] in H.
  assert (Hl : lines_ok dims [List.length pre]) by (rewrite <- Et; split; [eapply gen_ts_nodup; exact Hw|intros t Ht'; rewrite Et in Ht'; destruct Ht' as [<-|[]]; unfold dims; rewrite app_length; cbn; lia]).
  eapply (acts_unique dims [List.length pre] [] [] (core g)); [exact Hl|intros c []|exact H|].
  assert (Hp' : forall x, In x (pre ++ [d] ++ post)%list -> (0 < x)%nat) by exact Hp.
  assert (HL : acts_on (pre ++ [d] ++ post) (unshift (List.length pre) [0%nat]) (unshift (List.length pre) []) [] (core g) (mkron (prodl post) (mkron d mid (core g)) mid)).
  { assert (Q1 : forall t, In t [0%nat] -> (t < List.length [d])%nat) by (intros t [<-|[]]; cbn; lia).
    assert (Q2 : forall t, In t (@nil nat) -> (t < List.length [d])%nat) by (intros t []).
    eapply (acts_lift pre [d] post Hp' [0%nat] [] [] Q1 Q2).
    - pose proof (acts_full [d] (core g)) as Hf. cbn [List.length seq] in Hf. exact Hf.
    - intros r c Hr Hc'. unfold mkron. cbn [prodl]. rewrite !Nat.mul_1_r. 
      assert (Hd0 : (d <> 0)%nat) by (assert (0 < d)%nat; [apply Hp; apply in_or_app; right; left; reflexivity|lia]).
      assert (HP0 : (prodl post <> 0)%nat) by (assert (0 < prodl post)%nat; [apply prodl_pos; intros; apply Hp; apply in_or_app; right; right; assumption|lia]).
      rewrite (proj1 (div_mod_mul r d (prodl post) Hd0 HP0)), (proj1 (div_mod_mul c d (prodl post) Hd0 HP0)). reflexivity. }
  unfold unshift in HL. cbn [map] in HL. rewrite Nat.add_0_r in HL. exact HL.
Qed.

(** the slice form, identities = 1 *)
Lemma gen_slice dims g A lo k ts' : well_placed dims g ->
  (forall q, In q (control_nats g ++ target_nats g)%list -> (lo <= q <= lo + k)%nat) ->
  In lo (control_nats g ++ target_nats g)%list -> In (lo + k)%nat (control_nats g ++ target_nats g)%list ->
  Permutation (map (fun q => (lo + q)%nat) ts') (target_nats g) -> StronglySorted lt ts' ->
  generate_matrix dims 1 g = Ok A ->
  acts_on (firstn (k + 1) (skipn lo dims)) ts' (map (fun q => (q - lo)%nat) (control_nats g)) (control_levels g) (core g) A.
Proof.
  intros Hw Hr Hlo Hhi Hpm Hs H.
  destruct (gen_lo_hi dims g Hw) as (H1 & H2 & H3 & H4). pose proof (gen_lines_range dims g Hw) as HR.
  assert (E1 : lo_of g = lo) by (pose proof (Hr _ H3); pose proof (HR _ Hlo); lia).
  assert (E2 : hi_of g = (lo + k)%nat) by (pose proof (Hr _ H4); pose proof (HR _ Hhi); lia).
  apply gen_local in H; [|exact Hw|lia|left; reflexivity].
  unfold slice_of in H. rewrite E1, E2 in H. replace (lo + k + 1 - lo)%nat with (k + 1)%nat in H by lia.
  assert (Ets : shift lo (sortN (target_nats g)) = ts').
  { apply strict_unique; [|exact Hs|].
    - assert (Hss : StronglySorted lt (sortN (target_nats g))) by (apply sorted_strict; [apply sortN_sorted|apply sortN_NoDup; eapply gen_ts_nodup; exact Hw]).
      assert (Hge : forall q, In q (sortN (target_nats g)) -> (lo <= q)%nat) by (intros q Hq; rewrite In_sortN in Hq; apply Hr; apply in_or_app; right; exact Hq).
      revert Hss Hge. generalize (sortN (target_nats g)). clear. intros l Hss. induction Hss as [|x l Hl IH Hx]; intros Hge; [constructor|].
      cbn. constructor; [apply IH; intros; apply Hge; right; assumption|]. rewrite Forall_forall in *. intros y Hy. apply in_map_iff in Hy.
      destruct Hy as (z & <- & Hz). specialize (Hx z Hz). pose proof (Hge x (or_introl eq_refl)). lia.
    - intros x. unfold shift. rewrite in_map_iff. split.
      + intros (q & <- & Hq). rewrite In_sortN in Hq. apply (Permutation_in q (Permutation_sym Hpm)) in Hq. apply in_map_iff in Hq.
        destruct Hq as (y & <- & Hy). replace (lo + y - lo)%nat with y by lia. exact Hy.
      + intros Hx. exists (lo + x)%nat. split; [lia|]. rewrite In_sortN. apply (Permutation_in _ Hpm). apply in_map_iff. exists x. auto. }
  rewrite Ets in H. exact H.
Qed.

(** *** C06 *)
Definition sim {X Y} (R : X -> Y -> Prop) (a : res X) (b : res Y) : Prop :=
  match a, b with Ok x, Ok y => R x y | Err e, Err e' => e = e' | _, _ => False end.
Lemma sim_bind {X Y Z W} (R : X -> Y -> Prop) (Q : Z -> W -> Prop) a b f h :
  sim R a b -> (forall x y, R x y -> sim Q (f x) (h y)) -> sim Q (let? x := a in f x) (let? y := b in h y).
Proof. destruct a, b; cbn; intros H1 H2; try contradiction; [auto|exact H1]. Qed.
Lemma sim_refl {X} (R : X -> X -> Prop) (a : res X) : (forall x, R x x) -> sim R a a.
Proof. destruct a; cbn; auto. Qed.
Lemma tabulate_sim n e e' : (forall r c, sim (fun _ _ => True) (e r c) (e' r c)) -> sim (fun _ _ => True) (tabulate n e) (tabulate n e').
Proof.
  intros H. unfold tabulate.
  assert (E : first_err (flat_map (fun r => map (e r) (seq 0 n)) (seq 0 n)) = first_err (flat_map (fun r => map (e' r) (seq 0 n)) (seq 0 n))).
  { generalize (seq 0 n) at 2 4. intros rs. induction rs as [|r rs IH]; [reflexivity|]. cbn [flat_map].
    set (u := flat_map (fun r => map (e r) _) rs) in *. set (v := flat_map (fun r => map (e' r) _) rs) in *. clearbody u v.
    generalize (seq 0 n). intros cs. induction cs as [|c cs IHc]; [exact IH|]. cbn. specialize (H r c). unfold sim in H.
    destruct (e r c), (e' r c); try contradiction; [exact IHc|congruence]. }
  rewrite E. clear E. destruct (first_err _) as [x|]; [exact eq_refl|exact I].
Qed.
Lemma apply_sim M M' ts dims ref ctl : sim (fun _ _ => True) (apply_ids_ctrl M ts dims ref ctl) (apply_ids_ctrl M' ts dims ref ctl).
Proof.
  unfold apply_ids_ctrl. destruct ref as [|r0 rr]; [exact eq_refl|]. destruct (Nat.eqb (List.length dims) 0); [exact eq_refl|].
  destruct (Nat.eqb _ _ && _)%bool; [exact I|].
  eapply sim_bind with (R := eq).
  { apply sim_refl. reflexivity. }
  intros logic ? <-. apply tabulate_sim. intros r c.
  assert (Hv : forall r c, sim (fun _ _ => True)
    (let? rk := select (map (fun q => (q - minl r0 rr)%nat) (sortN ts)) (nth r (product_ranges dims) []) in
     let? ck := select (map (fun q => (q - minl r0 rr)%nat) (sortN ts)) (nth c (product_ranges dims) []) in
     let? i := index_from 0 rk (product_ranges logic) in
     let? j := index_from 0 ck (product_ranges logic) in Ok (M i j))
    (let? rk := select (map (fun q => (q - minl r0 rr)%nat) (sortN ts)) (nth r (product_ranges dims) []) in
     let? ck := select (map (fun q => (q - minl r0 rr)%nat) (sortN ts)) (nth c (product_ranges dims) []) in
     let? i := index_from 0 rk (product_ranges logic) in
     let? j := index_from 0 ck (product_ranges logic) in Ok (M' i j))).
  { clear. intros r c. repeat (eapply sim_bind with (R := eq); [apply sim_refl; reflexivity|intros ? ? <-]). exact I. }
  destruct ctl as [[cs lv]|].
  - repeat (eapply sim_bind with (R := eq); [apply sim_refl; reflexivity|intros ? ? <-]).
    destruct (eqb_listZ _ _ && eqb_listN _ _)%bool; [|exact I].
    eapply sim_bind with (R := eq); [apply sim_refl; reflexivity|intros b ? <-]. destruct b; [apply Hv|exact I].
  - eapply sim_bind with (R := eq); [apply sim_refl; reflexivity|intros b ? <-]. destruct b; [apply Hv|exact I].
Qed.
Lemma generate_sim dims ids (g g' : gate mat) : g_target g' = g_target g -> g_controls g' = g_controls g ->
  sim (fun _ _ => True) (generate_matrix dims ids g) (generate_matrix dims ids g').
Proof.
  intros Et Ec. unfold generate_matrix, reference_lines, control_lines, target_lines. rewrite Et, Ec.
  destruct (_ ++ _)%list as [|z l]; [exact eq_refl|]. cbn [bindr map]. 
  eapply sim_bind with (R := fun _ _ => True).
  - destruct (g_controls g) as [[cs lv]|]; [apply apply_sim|]. destruct (Nat.ltb 0 ids); [apply apply_sim|exact I].
  - intros B B' _. destruct (Nat.leb 2 ids); [|exact I]. unfold wrap_in_identities. destruct (existsb _ _); [exact eq_refl|].
    destruct (sortN _); [exact eq_refl|exact I].
Qed.

Lemma core_dag g : g_dagger g = false -> core (dag g) = madj (core g).
Proof. intros H. unfold core. cbn. rewrite H. reflexivity. Qed.
Lemma wp_dag dims g : well_placed dims g -> well_placed dims (dag g).
Proof. exact (fun H => H). Qed.
Lemma dag_matrix dims ids g : (forall d, In d dims -> (0 < d)%nat) -> well_placed dims g -> (2 <= ids)%nat -> g_dagger g = false ->
  match generate_matrix dims ids g with
  | Ok A => exists A', generate_matrix dims ids (dag g) = Ok A' /\ meq (prodl dims) A' (madj A)
  | Err e => generate_matrix dims ids (dag g) = Err e
  end.
Proof.
  intros Hp Hw Hi Hd. pose proof (generate_sim dims ids g (dag g) eq_refl eq_refl) as Hs. unfold sim in Hs.
  destruct (generate_matrix dims ids g) as [A|e] eqn:E1; destruct (generate_matrix dims ids (dag g)) as [A'|e'] eqn:E2; try contradiction; [|congruence].
  exists A'. split; [reflexivity|].
  pose proof (gen_full dims g Hw ids A Hp Hi E1) as B1. pose proof (gen_full dims (dag g) (wp_dag _ _ Hw) ids A' Hp Hi E2) as B2.
  rewrite (core_dag g Hd) in B2. pose proof (wp_lines_ok _ _ Hw) as Hl. pose proof (wp_off _ _ Hw) as Ho.
  eapply acts_unique; [exact Hl|exact Ho|exact B2|]. apply acts_adj; assumption.
Qed.
Lemma dag_matrix_bare dims g : well_placed dims g -> g_controls g = None -> g_dagger g = false ->
  exists A A', generate_matrix dims 0 g = Ok A /\ generate_matrix dims 0 (dag g) = Ok A' /\ A' = madj A.
Proof.
  intros Hw Hc Hd. exists (core g), (core (dag g)). repeat split; [apply gen_bare; assumption|apply gen_bare; [apply wp_dag; exact Hw|exact Hc]|apply core_dag; exact Hd].
Qed.
Lemma dag_inverse dims ids g A A' : (forall d, In d dims -> (0 < d)%nat) -> well_placed dims g -> (2 <= ids)%nat -> g_dagger g = false ->
  unitary (prodl (sub_dims dims (target_nats g))) (g_data g) ->
  generate_matrix dims ids g = Ok A -> generate_matrix dims ids (dag g) = Ok A' ->
  meq (prodl dims) (mmul (prodl dims) A' A) mid /\ meq (prodl dims) (mmul (prodl dims) A A') mid.
Proof.
  intros Hp Hw Hi Hd HU E1 E2. pose proof (dag_matrix dims ids g Hp Hw Hi Hd) as H. rewrite E1, E2 in H. destruct H as (A2 & E & HA).
  injection E as <-. pose proof (gen_unitary' dims ids g A Hp Hw Hi E1 HU) as [U1 U2].
  split; (eapply meq_trans; [apply mmul_ext; [|]|]).
  - exact HA. - apply meq_refl. - exact U1. - apply meq_refl. - exact HA. - exact U2.
Qed.

Lemma dag_iter_S dims ids g k : generate_matrix dims ids (Nat.iter (S k) dag g) = generate_matrix dims ids (dag g).
Proof.
  induction k as [|k IH]; [reflexivity|]. rewrite <- IH. cbn [Nat.iter]. reflexivity.
Qed.

Definition zgate3 : gate mat := Gate "Z" SINGLE (TInt 0) None false false (z_array 3).
Lemma dag_twice_witness : exists (dims : list nat) (g : gate mat) A B,
  well_placed dims g /\ (forall d, In d dims -> (0 < d)%nat) /\ g_dagger g = false /\
  generate_matrix dims 2 g = Ok A /\ generate_matrix dims 2 (dag (dag g)) = Ok B /\ ~ meq (prodl dims) B A.
Proof.
  assert (Hp : forall d, In d [3%nat] -> (0 < d)%nat) by (intros d [<-|[]]; lia).
  assert (Hw : well_placed [3%nat] zgate3).
  { split; [discriminate|]. split; [repeat constructor; intros []|]. split; [|exact I]. intros t [<-|[]]. cbn. lia. }
  destruct (gen_uncontrolled_returns [3%nat] zgate3 Hw 2 eq_refl) as (A & HA).
  destruct (gen_uncontrolled_returns [3%nat] (dag (dag zgate3)) Hw 2 eq_refl) as (B & HB).
  exists [3%nat], zgate3, A, B. split; [exact Hw|]. split; [exact Hp|]. split; [reflexivity|]. split; [exact HA|]. split; [exact HB|].
  intros Hm. pose proof (gen_full _ _ Hw 2 A Hp (le_n 2) HA) as B1. pose proof (gen_full [3%nat] (dag (dag zgate3)) Hw 2 B Hp (le_n 2) HB) as B2.
  cbn in B1, B2.
  assert (E1 : A 1%nat 1%nat = z_array 3 1%nat 1%nat).
  { rewrite (ao_active _ _ _ _ _ _ B1 1%nat 1%nat); [reflexivity|cbn; lia|cbn; lia|intros i _ _; reflexivity|reflexivity]. }
  assert (E2 : B 1%nat 1%nat = Cconj (z_array 3 1%nat 1%nat)).
  { rewrite (ao_active _ _ _ _ _ _ B2 1%nat 1%nat); [reflexivity|cbn; lia|cbn; lia|intros i _ _; reflexivity|reflexivity]. }
  specialize (Hm 1%nat 1%nat). rewrite E1, E2 in Hm by (cbn; lia). specialize (Hm ltac:(cbn; lia) ltac:(cbn; lia)).
  rewrite (z_array_diag 3 1%nat 1%nat) in Hm by lia. unfold mdiag in Hm. cbn [Nat.eqb] in Hm. cbn [Cpow] in Hm. replace (omega 3 * C1) with (omega 3) in Hm by ring.
  apply (f_equal snd) in Hm. unfold omega, cis, Cconj in Hm. cbn [snd fst] in Hm.
  assert (0 < sin (2 * PI / INR 3))%R; [|lra]. pose proof PI_RGT_0. apply sin_gt_0; cbn [INR]; lra.
Qed.

(** *** C16 *)
Lemma product_nth_value dims k : (k < List.length (product_ranges dims))%nat ->
  valid dims (nth k (product_ranges dims) []) /\ undigits dims (nth k (product_ranges dims) []) = k.
Proof.
  rewrite length_product. intros H. rewrite nth_product by exact H. split; [apply valid_digits; exact H|apply undigits_digits; exact H].
Qed.
Lemma product_once dims xs : valid dims xs ->
  (undigits dims xs < prodl dims)%nat /\ forall k, (k < prodl dims)%nat -> (nth k (product_ranges dims) [] = xs <-> k = undigits dims xs).
Proof.
  intros H. split; [apply undigits_lt; exact H|]. intros k Hk. rewrite nth_product by exact Hk. split.
  - intros <-. symmetry. apply undigits_digits. exact Hk.
  - intros ->. apply digits_undigits. exact H.
Qed.
Lemma length_kronl a b : List.length (kronl a b) = (List.length a * List.length b)%nat.
Proof. unfold kronl. induction a as [|x a IH]; [reflexivity|]. cbn. rewrite app_length, map_length, IH. reflexivity. Qed.
Lemma nth_kronl a b k : (k < List.length a * List.length b)%nat ->
  nth k (kronl a b) 0%nat = (nth (k / List.length b) a 0 * nth (k mod List.length b) b 0)%nat.
Proof.
  revert k. unfold kronl. induction a as [|x a IH]; intros k Hk; [cbn in Hk; lia|]. cbn [flat_map]. cbn in Hk.
  assert (Hb : List.length b <> 0%nat) by nia.
  destruct (lt_dec k (List.length b)) as [Hl|Hl].
  - rewrite app_nth1 by (rewrite map_length; exact Hl). rewrite (Nat.div_small k), (Nat.mod_small k) by exact Hl. cbn [nth].
    rewrite (nth_indep _ 0%nat (x * 0)%nat) by (rewrite map_length; exact Hl). apply (map_nth (fun y => (x * y)%nat)).
  - rewrite app_nth2 by (rewrite map_length; lia). rewrite map_length. rewrite IH by lia.
    replace k with (k - List.length b + 1 * List.length b)%nat at 3 4 by lia. rewrite Nat.div_add, Nat.mod_add by exact Hb.
    rewrite (Nat.add_comm _ 1). reflexivity.
Qed.
Lemma unit_vec_ket d b : is_ket d b (unit_vec d b).
Proof.
  split; [unfold unit_vec; rewrite map_length; apply seq_length|]. intros i Hi. unfold unit_vec.
  rewrite (nth_map_seq (fun i => if Nat.eqb i b then 1 else 0)%nat) by exact Hi. reflexivity.
Qed.
Lemma kron_ket n1 k1 v1 n2 k2 v2 : is_ket n1 k1 v1 -> is_ket n2 k2 v2 -> (k2 < n2)%nat -> is_ket (n1 * n2) (k1 * n2 + k2) (kronl v1 v2).
Proof.
  intros [L1 H1] [L2 H2] Hk. split; [rewrite length_kronl; congruence|]. intros i Hi. rewrite nth_kronl by (rewrite L1, L2; exact Hi). rewrite L2.
  assert (Hn : n2 <> 0%nat) by lia.
  rewrite H1 by (apply Nat.div_lt_upper_bound; lia). rewrite H2 by (apply Nat.mod_upper_bound; exact Hn).
  pose proof (Nat.div_mod i n2 Hn) as E.
  destruct (Nat.eqb_spec (i / n2) k1) as [E1|E1]; destruct (Nat.eqb_spec (i mod n2) k2) as [E2|E2]; destruct (Nat.eqb_spec i (k1 * n2 + k2)) as [E3|E3]; try reflexivity.
  - exfalso. apply E3. rewrite <- E1, <- E2. lia.
  - exfalso. apply E2. subst i. rewrite Nat.add_comm, Nat.mod_add by exact Hn. apply Nat.mod_small. exact Hk.
  - exfalso. apply E1. subst i. rewrite Nat.div_add_l by exact Hn. rewrite Nat.div_small by exact Hk. lia.
  - exfalso. apply E1. subst i. rewrite Nat.div_add_l by exact Hn. rewrite Nat.div_small by exact Hk. lia.
Qed.
Lemma fold_kron_ket ds xs : valid ds xs -> forall n k v bs, is_ket n k v -> basis_vecs (combine xs ds) = Ok bs ->
  is_ket (n * prodl ds) (k * prodl ds + undigits ds xs) (fold_left kronl bs v).
Proof.
  intros H. induction H as [|x d xs ds Hx H IH]; intros n k v bs Hv Hb.
  - cbn in Hb. injection Hb as <-. cbn. rewrite !Nat.mul_1_r, Nat.add_0_r. exact Hv.
  - unfold basis_vecs in Hb. cbn [combine mapr fst snd] in Hb. rewrite (proj2 (Nat.ltb_lt x d) Hx) in Hb. cbn [bindr] in Hb.
    destruct (mapr _ (combine xs ds)) as [l|e] eqn:E; [|discriminate]. injection Hb as <-. cbn [fold_left].
    pose proof (IH (n * d)%nat (k * d + x)%nat (kronl v (unit_vec d x)) l (kron_ket _ _ _ _ _ _ Hv (unit_vec_ket d x) Hx) E) as HI.
    cbn [prodl undigits]. replace (n * (d * prodl ds))%nat with (n * d * prodl ds)%nat by lia.
    replace (k * (d * prodl ds) + (x * prodl ds + undigits ds xs))%nat with ((k * d + x) * prodl ds + undigits ds xs)%nat by lia. exact HI.
Qed.
Lemma basis_vecs_ok ds xs : valid ds xs -> exists bs, basis_vecs (combine xs ds) = Ok bs.
Proof.
  intros H. induction H as [|x d xs ds Hx H [bs IH]]; [exists []; reflexivity|]. exists (unit_vec d x :: bs).
  unfold basis_vecs in *. cbn [combine mapr fst snd]. rewrite (proj2 (Nat.ltb_lt x d) Hx). cbn [bindr]. rewrite IH. reflexivity.
Qed.
Lemma dirac_spec ds xs : valid ds xs -> xs <> [] -> exists v, from_dirac_to_basis xs ds = Ok v /\ is_ket (prodl ds) (undigits ds xs) v.
Proof.
  intros H Hne. pose proof (valid_length _ _ H) as Hl. unfold from_dirac_to_basis. rewrite (proj2 (Nat.ltb_ge _ _)) by lia.
  destruct H as [|x d xs ds Hx H]; [congruence|]. destruct (basis_vecs_ok ds xs H) as (bs & Hb).
  unfold basis_vecs in *. cbn [combine mapr fst snd]. rewrite (proj2 (Nat.ltb_lt x d) Hx). cbn [bindr]. rewrite Hb. cbn [bindr].
  exists (fold_left kronl bs (unit_vec d x)). split; [reflexivity|]. cbn [prodl undigits].
  apply (fold_kron_ket ds xs H d x (unit_vec d x) bs (unit_vec_ket d x) Hb).
Qed.
Lemma dirac_reject ds xs : List.length xs = List.length ds -> xs <> [] -> ~ valid ds xs -> from_dirac_to_basis xs ds = Err IndexError.
Proof.
  intros Hl Hne Hv. unfold from_dirac_to_basis. rewrite (proj2 (Nat.ltb_ge _ _)) by lia.
  assert (E : basis_vecs (combine xs ds) = Err IndexError); [|rewrite E; reflexivity].
  clear Hne. revert ds Hl Hv. induction xs as [|x xs IH]; intros [|d ds] Hl Hv; try discriminate; [exfalso; apply Hv; constructor|].
  unfold basis_vecs in *. cbn [combine mapr fst snd]. destruct (Nat.ltb_spec x d) as [Hx|Hx]; [|reflexivity]. cbn [bindr].
  rewrite IH; [reflexivity|cbn in Hl; lia|]. intros H. apply Hv. constructor; assumption.
Qed.
Lemma q0q1_spec lev dim : (0 < dim)%nat -> let '(q0, q1) := calculate_q0_q1 lev dim in lev = (q0 * dim + q1)%nat /\ (q1 < dim)%nat.
Proof.
  intros H. unfold calculate_q0_q1. cbn zeta. pose proof (Nat.div_mod lev dim ltac:(lia)) as E. pose proof (Nat.mod_upper_bound lev dim ltac:(lia)).
  split; [|assumption]. replace (lev - lev mod dim)%nat with (lev / dim * dim)%nat by lia. rewrite Nat.div_mul by lia. lia.
Qed.

(** *** C18: the failing cases *)
Lemma ctrl_index_witness : exists dims (g : gate mat), well_placed dims g /\ (forall d, In d dims -> (0 < d)%nat) /\
  generate_matrix dims 2 g = Err IndexError.
Proof.
  set (g := Gate "X" TWO (TInt 2) (Some ([1%Z], [1%Z])) false false (x_array 2)). exists [2;2;2]%nat, g.
  assert (Hw : well_placed [2;2;2]%nat g).
  { split; [discriminate|]. split; [repeat constructor; intros []|]. split; [intros t [<-|[]]; cbn; lia|].
    split; [discriminate|]. intros c [<-|[]]. split; [cbn; lia|]. intros [H|[]]. discriminate. }
  split; [exact Hw|]. split; [intros d Hd; cbn in Hd; lia|].
  apply (gen_index_error _ _ Hw 2 2%nat); [reflexivity|discriminate|cbn; lia].
Qed.
Lemma ctrl_key_witness : exists dims (g : gate mat), well_placed dims g /\ (forall d, In d dims -> (0 < d)%nat) /\
  generate_matrix dims 2 g = Err KeyError.
Proof.
  set (g := Gate "X" TWO (TInt 1) (Some ([2%Z], [1%Z])) false false (x_array 3)). exists [2;3;2]%nat, g.
  split.
  { split; [discriminate|]. split; [repeat constructor; intros []|]. split; [intros t [<-|[]]; cbn; lia|].
    split; [discriminate|]. intros c [<-|[]]. split; [cbn; lia|]. intros [H|[]]. discriminate. }
  split; [intros d Hd; cbn in Hd; lia|]. unfold g. generalize (x_array 3). intros M. clear g. vm_compute. reflexivity.
Qed.
Lemma product_values dims : List.length (product_ranges dims) = prodl dims /\
  forall k, (k < prodl dims)%nat ->
    valid dims (nth k (product_ranges dims) []) /\ undigits dims (nth k (product_ranges dims) []) = k.
Proof. split; [apply length_product|]. intros k Hk. apply product_nth_value. rewrite length_product. exact Hk. Qed.
Lemma gen_acts_free dims ids g A ts' : (forall d, In d dims -> (0 < d)%nat) -> well_placed dims g -> (2 <= ids)%nat ->
  g_controls g = None -> Permutation ts' (target_nats g) -> StronglySorted lt ts' -> generate_matrix dims ids g = Ok A ->
  acts_on dims ts' [] [] (core g) A.
Proof.
  intros Hp Hw Hi Hc Hpm Hs H. pose proof (gen_acts dims ids g A ts' Hp Hw Hi Hpm Hs H) as R.
  unfold control_nats, control_levels in R. rewrite Hc in R. exact R.
Qed.
Lemma acts_determined dims ts cs lv M A B : NoDup ts -> (forall t, In t ts -> (t < List.length dims)%nat) ->
  (forall c, In c cs -> (c < List.length dims)%nat /\ ~ In c ts) ->
  acts_on dims ts cs lv M A -> acts_on dims ts cs lv M B -> meq (prodl dims) A B.
Proof. intros H1 H2 H3. apply acts_unique; [split; assumption|exact H3]. Qed.
Lemma gen_line0_returns dims g : well_placed dims g -> forall ids, In 0%nat (control_nats g ++ target_nats g)%list ->
  exists A, generate_matrix dims ids g = Ok A.
Proof.
  intros Hw ids H. apply (gen_lo0_returns _ _ Hw). assert (Hq : In 0%nat (lines_of g)) by exact H. apply (gen_lines_range _ _ Hw) in Hq. lia.
Qed.
