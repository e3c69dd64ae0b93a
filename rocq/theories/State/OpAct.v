(** How a controlled gate on one qudit changes the amplitudes. *)
From Coq Require Import Reals List Arith ZArith Lia Lra Sorted Permutation.
From Verif.Base Require Import Py Cplx Matrix Radix Fiber.
From Verif.Circuit Require Import GateModel.
From Verif.Gates Require Import AnglesModel SingleModel SingleSpec SingleProofs FactoryModel FactorySpec ActsOn.
From Verif.Sim Require Import TnModel TnSpec TnProofs.
From Verif.State Require Import DdModel PrepModel.
Import ListNotations.
Local Open Scope nat_scope.

Definition amps : Type := list nat -> C.
Definition ctl (cs : list (nat * nat)) (xs : list nat) : bool := forallb (fun c => Nat.eqb (nth (fst c) xs 0) (snd c)) cs.
(** the matrix of an operation on its qudit *)
Definition op_mat (o : operation) : mat := if o_z o then zrot 0 1 (o_theta o) else rotation (o_level o) (o_level o + 1) (o_theta o) (o_phi o).
Definition opact (dims : list nat) (o : operation) (f : amps) : amps := fun xs =>
  if ctl (o_controls o) xs then csum (nth (o_qudit o) dims 0) (fun b => Cmul (op_mat o (nth (o_qudit o) xs 0) b) (f (set_nth (o_qudit o) b xs))) else f xs.
Definition run (dims : list nat) (os : list operation) (f : amps) : amps := fold_left (fun f o => opact dims o f) os f.

(** an operation of a synthesised list *)
Definition op_ok (dims : list nat) (o : operation) : Prop :=
  o_qudit o < List.length dims /\ (if o_z o then 1 else o_level o + 1) < nth (o_qudit o) dims 0 /\
  forall c, In c (o_controls o) -> fst c < o_qudit o /\ snd c < nth (fst c) dims 0.

Definition ctl_lines (o : operation) : list nat := map fst (o_controls o).
Definition ctl_levels (o : operation) : list Z := map (fun c => Z.of_nat (snd c)) (o_controls o).
(** the matrix of an operation on the register *)
Definition op_big (dims : list nat) (o : operation) : mat :=
  fmat eqb_listN (masked dims [o_qudit o]) (sub_index dims [o_qudit o]) (block (ctl_lines o) (ctl_levels o) (op_mat o)).

Lemma op_lines dims o : op_ok dims o -> lines_ok dims [o_qudit o] /\ off_targets dims [o_qudit o] (ctl_lines o).
Proof.
  intros (Hq & _ & Hc). split; [split; [constructor; [intros []|constructor]|intros t [<-|[]]; exact Hq]|].
  intros c Hin. apply in_map_iff in Hin. destruct Hin as (x & <- & Hx). destruct (Hc x Hx) as [H _]. split; [lia|]. intros [E|[]]. lia.
Qed.
Lemma op_big_acts dims o : op_ok dims o -> acts_on dims [o_qudit o] (ctl_lines o) (ctl_levels o) (op_mat o) (op_big dims o).
Proof. intros H. destruct (op_lines dims o H) as [L F]. apply (acts_on_fmat dims _ _ _ _ _ L F). apply meq_refl. Qed.

Lemma ctl_spec dims o k : controls_on dims (ctl_lines o) (ctl_levels o) k <-> ctl (o_controls o) (digits dims k) = true.
Proof.
  unfold controls_on, ctl_lines, ctl_levels, ctl. induction (o_controls o) as [|[l v] cs IH]; cbn; [split; reflexivity|].
  rewrite Bool.andb_true_iff, <- IH. unfold digit at 1. split.
  - intros E. injection E as E1 E2. split; [apply Nat.eqb_eq; lia|exact E2].
  - intros [E1 E2]. apply Nat.eqb_eq in E1. rewrite E1, E2. reflexivity.
Qed.
Lemma sub_single dims q k : sub_index dims [q] k = digit dims k q.
Proof. unfold sub_index. cbn. lia. Qed.
Lemma prodl_single dims q : prodl (sub_dims dims [q]) = nth q dims 0.
Proof. cbn. lia. Qed.
Lemma set_nth_nth q b : forall xs i, q < List.length xs -> nth i (set_nth q b xs) 0 = if Nat.eqb i q then b else nth i xs 0.
Proof.
  induction q as [|q IH]; intros [|x xs] i H; cbn in *; try lia.
  - destruct i; reflexivity.
  - destruct i as [|i]; [reflexivity|]. cbn. apply IH. lia.
Qed.
Lemma set_nth_length q b : forall xs, List.length (set_nth q b xs) = List.length xs.
Proof. induction q as [|q IH]; intros [|x xs]; cbn; trivial. f_equal. apply IH. Qed.

(** one operation on a vector *)
Lemma op_apply dims o (f : amps) r : op_ok dims o -> r < prodl dims ->
  mapply (prodl dims) (op_big dims o) (fun k => f (digits dims k)) r = opact dims o f (digits dims r).
Proof.
  intros H Hr. destruct (op_lines dims o H) as [L F]. pose proof (op_big_acts dims o H) as A. set (q := o_qudit o) in *. assert (Hq : q < List.length dims) by apply H.
  unfold mapply, opact. fold q. destruct (ctl (o_controls o) (digits dims r)) eqn:E.
  - assert (On : controls_on dims (ctl_lines o) (ctl_levels o) r) by (apply ctl_spec; exact E).
    rewrite <- (prodl_single dims q). rewrite <- (csum_fiber eqb_listN eqb_listN_spec _ _ _ _ (acts_fibration dims [q] L) r _ Hr).
    apply csum_ext. intros c Hc. destruct (eqb_listN (masked dims [q] r) (masked dims [q] c)) eqn:M.
    + apply eqb_listN_spec in M. apply agree_masked in M. rewrite (ao_active _ _ _ _ _ _ A r c Hr Hc M On). rewrite !sub_single. f_equal. f_equal.
      apply list_nth_ext; [rewrite set_nth_length, !length_digits; reflexivity|]. intros i Hi. rewrite length_digits in Hi. rewrite set_nth_nth by (rewrite length_digits; exact Hq).
      destruct (Nat.eqb_spec i q) as [->|N]; [reflexivity|]. symmetry. apply M; [exact Hi|]. intros [X|[]]. congruence.
    + rewrite (ao_off _ _ _ _ _ _ A r c Hr Hc); [ring|]. intros X. apply agree_masked in X. apply eqb_listN_spec in X. congruence.
  - assert (Off : ~ controls_on dims (ctl_lines o) (ctl_levels o) r) by (rewrite ctl_spec; congruence).
    rewrite (csum_ext _ _ (fun c => Cmul (mid r c) (f (digits dims c)))); [apply (csum_mid_l (prodl dims) r (fun c => f (digits dims c)) Hr)|].
    intros c Hc. f_equal. destruct (agree_dec dims [q] r c) as [X|X]; [apply (ao_idle _ _ _ _ _ _ A r c Hr Hc X Off)|].
    rewrite (ao_off _ _ _ _ _ _ A r c Hr Hc X). unfold mid. destruct (Nat.eqb_spec r c) as [->|]; [|reflexivity]. exfalso. apply X. apply agree_refl.
Qed.

Definition vrun (dims : list nat) (os : list operation) (v : vec) : vec := fold_left (fun v o => mapply (prodl dims) (op_big dims o) v) os v.
Lemma vrun_veq dims os : forall v w, veq (prodl dims) v w -> veq (prodl dims) (vrun dims os v) (vrun dims os w).
Proof. induction os as [|o os IH]; intros v w H; cbn; [exact H|]. apply IH. apply mapply_ext; [apply meq_refl|exact H]. Qed.
Lemma vrun_run dims os : Forall (op_ok dims) os -> forall f : amps, veq (prodl dims) (vrun dims os (fun k => f (digits dims k))) (fun k => run dims os f (digits dims k)).
Proof.
  induction 1 as [|o os H F IH]; intros f; cbn; [intros k _; reflexivity|]. intros k Hk. etransitivity; [|apply (IH (opact dims o f) k Hk)]. apply (vrun_veq dims os); [|exact Hk].
  intros r Hr. apply op_apply; assumption.
Qed.

(** *** the gate of an operation *)
Lemma op_mat_unitary dims o : op_ok dims o -> unitary (nth (o_qudit o) dims 0) (op_mat o).
Proof. intros (_ & H & _). unfold op_mat. destruct (o_z o); [apply zrot_unitary; lia|apply rotation_unitary; lia]. Qed.
Lemma op_big_unitary dims o : op_ok dims o -> unitary (prodl dims) (op_big dims o).
Proof.
  intros H. destruct (op_lines dims o H) as [L F]. apply (acts_unitary dims _ _ _ _ _ L F (op_big_acts dims o H)). rewrite prodl_single. apply op_mat_unitary. exact H.
Qed.
Lemma op_data dims o : op_ok dims o -> exists m, (if o_z o then rz_matrix (nth (o_qudit o) dims 0) (PList [PInt 0; PInt 1; PFloat (o_theta o)])
    else r_matrix (nth (o_qudit o) dims 0) (PList [PInt (Z.of_nat (o_level o)); PInt (Z.of_nat (o_level o + 1)); PFloat (o_theta o); PFloat (o_phi o)])) = Ok m /\ meq (nth (o_qudit o) dims 0) m (op_mat o).
Proof.
  intros (_ & H & _). unfold op_mat. destruct (o_z o).
  - destruct (rz_matrix_spec (nth (o_qudit o) dims 0) 0 1 (o_theta o) []) as (m & E & M); [lia|lia|lia|]. exists m. split; [exact E|exact M].
  - eexists. split.
    + apply r_matrix_spec. exists (Z.of_nat (o_level o)), (Z.of_nat (o_level o + 1)), (o_theta o), (o_phi o), []. split; [reflexivity|]. split; [lia|]. split; [lia|]. split; [lia|reflexivity].
    + rewrite Z.min_l, Z.max_r by lia. rewrite !Nat2Z.id. eapply meq_trans; [apply r_array_rotation; lia|apply rotation_regulated].
Qed.
Lemma op_gate_matrix dims o g : op_ok dims o -> op_gate dims o = Ok g -> matrix_of dims g (op_big dims o).
Proof.
  intros H E. unfold op_gate in E. destruct (op_data dims o H) as (m & Em & M). rewrite Em in E. cbn [bindr] in E.
  unfold new_gate in E. cbn in E. destruct (op_lines dims o H) as [L F].
  assert (K : forall g' : gate mat, g_target g' = TInt (Z.of_nat (o_qudit o)) -> g_dagger g' = false -> g_data g' = m ->
    (g_controls g' = Some (map (fun c => Z.of_nat (fst c)) (o_controls o), map (fun c => Z.of_nat (snd c)) (o_controls o)) \/ o_controls o = [] /\ g_controls g' = None) -> matrix_of dims g' (op_big dims o)).
  { intros g' T D X Cc. assert (Tn : target_nats g' = [o_qudit o]) by (unfold target_nats, target_lines; rewrite T; cbn; rewrite Nat2Z.id; reflexivity).
    exists [o_qudit o]. rewrite Tn. split; [reflexivity|]. split; [repeat constructor|].
    assert (Co : control_nats g' = ctl_lines o /\ control_levels g' = ctl_levels o).
    { unfold control_nats, control_levels, ctl_lines, ctl_levels. destruct Cc as [-> |[-> ->]]; [|split; reflexivity]. split; [|reflexivity]. rewrite map_map. apply map_ext. intros x. apply Nat2Z.id. }
    destruct Co as [-> ->]. unfold core. rewrite D, X. apply (acts_ext dims _ _ _ (op_mat o) m (op_big dims o)); trivial; [rewrite prodl_single; apply meq_sym; exact M|apply meq_refl|apply op_big_acts; exact H]. }
  unfold control in E. destruct (o_controls o) as [|c cs] eqn:Oc.
  - cbn in E. injection E as <-. apply K; cbn; auto.
  - cbn [map List.length Nat.eqb orb negb is_single g_type with_long] in E. destruct (Nat.ltb _ _ || existsb _ _); [discriminate E|]. destruct (existsb _ _); [discriminate E|]. destruct (levels_beyond _ _ _) as [[]|]; try discriminate E. injection E as <-. apply K; cbn; auto.
Qed.
Lemma ops_evolve dims os gs : Forall (op_ok dims) os -> mapr (op_gate dims) os = Ok gs -> forall v, evolves dims v gs (vrun dims os v).
Proof.
  intros F. revert gs. induction F as [|o os H F IH]; intros gs E v; cbn in E.
  - injection E as <-. cbn. intros k _. reflexivity.
  - destruct (op_gate dims o) as [g|e] eqn:G; [|discriminate E]. cbn in E. destruct (mapr (op_gate dims) os) as [gs'|e]; [|discriminate E]. cbn in E. injection E as <-.
    cbn. exists (op_big dims o). split; [apply op_gate_matrix; assumption|]. apply IH. reflexivity.
Qed.
