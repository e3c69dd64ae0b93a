(** Proofs about virtual phase propagation. *)
From Coq Require Import List ZArith Arith Lia Bool Reals Lra.
From Verif.Base Require Import Py PyFacts Cplx Matrix Radix.
From Verif.Circuit Require Import GateModel.
From Verif.Gates Require Import AnglesModel AnglesSpec AnglesProofs SingleModel SingleSpec SingleProofs.
From Verif.Gates Require Import FactoryModel FactorySpec FactoryMain.
From Verif.Lanes Require Import LanesSpec UnitaryProofs.
From Verif.Levels Require Import LevelsModel RouteProofs PhaseProofs.
From Verif.Passes Require Import PhasesModel PhasesSpec.
Import ListNotations.
Local Open Scope nat_scope.

Definition zmat (z : list R) : mat := mdiag (fun l => cis (- nth l z 0%R)).
Definition prodfrom (d : nat) (l : list (gate pay)) (M : mat) : mat :=
  fold_left (fun M g => mmul d (pay_array (g_data g)) M) l M.

Lemma prodfrom_app d l1 l2 M : prodfrom d (l1 ++ l2) M = prodfrom d l2 (prodfrom d l1 M).
Proof. apply fold_left_app. Qed.
Lemma prodfrom_ext d l : forall M N, meq d M N -> meq d (prodfrom d l M) (prodfrom d l N).
Proof. induction l as [|g l IH]; intros M N H; [exact H|]. apply IH. apply mmul_ext; [apply meq_refl|exact H]. Qed.

(** *** constructors *)
Lemma check_int (A : Type) n ty t (a : A) : check_long_range (Gate n ty (TInt t) None false false a) = Ok false.
Proof. reflexivity. Qed.
Lemma make_R_ok num dims t d a b th ph : a < d -> b < d -> a <> b ->
  make_R num dims (TInt t) d a b th ph =
  Ok (Gate "R" SINGLE (TInt t) None false false
       (Pay (inl d) (KR (Rot (Nat.min a b) (Nat.max a b) (regulate_theta th) ph (Z.of_nat a) (Z.of_nat b))))).
Proof.
  intros Ha Hb Hab. unfold make_R. rewrite new_R_ok by lia. cbn [bindr].
  rewrite <- Nat2Z.inj_min, <- Nat2Z.inj_max, !Nat2Z.id. reflexivity.
Qed.
Lemma make_VirtRz_ok num dims t d l ph : l < d ->
  make_VirtRz num dims (TInt t) d l ph = Ok (Gate "VRz" SINGLE (TInt t) None false false (Pay (inl d) (KVirtRz l (regulate_theta ph)))).
Proof.
  intros Hl. unfold make_VirtRz. cbn [virtrz_validate].
  assert (E : ((0 <=? Z.of_nat l)%Z && (Z.of_nat l <? Z.of_nat d)%Z)%bool = true) by (rewrite andb_true_iff, Z.leb_le, Z.ltb_lt; lia).
  rewrite E. cbn [fst snd]. rewrite Nat2Z.id. reflexivity.
Qed.

(** *** the array of a rotation with a new phase *)
Lemma made_array d a b th ph : a < b -> b < d ->
  meq d (r_array d (Nat.min a b) (Nat.max a b) (regulate_theta th) ph) (rotation a b th ph).
Proof.
  intros L Hb. rewrite Nat.min_l, Nat.max_r by lia.
  eapply meq_trans; [apply r_array_rotation; lia|]. apply rotation_regulated.
Qed.
Lemma zmat_commute d z a b th ph : a <> b ->
  meq d (mmul d (rotation a b th ph) (zmat z)) (mmul d (zmat z) (rotation a b th (ph - nth a z 0 + nth b z 0)))%R.
Proof. intros H. apply meq_sym. apply (diag_rotation d a b th ph (fun l => nth l z 0%R) H). Qed.
Lemma zmat_commute_back d z a b th ph : a <> b ->
  meq d (mmul d (zmat z) (rotation a b th ph)) (mmul d (rotation a b th (ph + nth a z 0 - nth b z 0)) (zmat z))%R.
Proof.
  intros H. eapply meq_trans; [|apply (diag_rotation d a b th (ph + nth a z 0 - nth b z 0)%R (fun l => nth l z 0%R) H)].
  apply mmul_ext; [apply meq_refl|].
  replace (ph + nth a z 0 - nth b z 0 - nth a z 0 + nth b z 0)%R with ph by ring. apply meq_refl.
Qed.
Lemma set_nth_length {A} (l : list A) i v : List.length (set_nth l i v) = List.length l.
Proof. revert i; induction l as [|x l IH]; intros [|i]; cbn; auto. Qed.
Lemma nth_set_nth {A} (l : list A) i v k x : i < List.length l -> nth k (set_nth l i v) x = if Nat.eqb k i then v else nth k l x.
Proof.
  revert i k; induction l as [|y l IH]; intros i k H; [cbn in H; lia|].
  destruct i as [|i], k as [|k]; cbn in *; try reflexivity. apply IH. lia.
Qed.
Lemma cis_pi_mod x : cis (- pi_mod x) = cis (- x).
Proof.
  apply cis_same_mod. destruct (pi_mod_spec x) as [[k Hk] _]. exists (- k)%Z. rewrite Hk, opp_IZR. ring.
Qed.
Lemma zmat_set d z l ph : l < List.length z ->
  meq d (zmat (set_nth z l (pi_mod (nth l z 0 + ph)))%R) (mmul d (virtrz_array d l ph) (zmat z)).
Proof.
  intros Hl. eapply meq_trans; [|apply mmul_ext; [apply meq_sym, virtrz_array_diag|apply meq_refl]].
  intros i j Hi Hj. rewrite (mdiag_mul_l d _ _ i j Hi Hj). unfold zmat, mdiag.
  destruct (Nat.eqb_spec i j) as [->|N]; [|ring].
  rewrite nth_set_nth by exact Hl. destruct (Nat.eqb_spec j l) as [->|Nl]; [|ring].
  rewrite cis_pi_mod. rewrite <- cis_add. f_equal. ring.
Qed.
Lemma zmat_comm d z l ph : meq d (mmul d (virtrz_array d l ph) (zmat z)) (mmul d (zmat z) (virtrz_array d l ph)).
Proof.
  eapply meq_trans; [apply mmul_ext; [apply virtrz_array_diag|apply meq_refl]|].
  eapply meq_trans; [|apply mmul_ext; [apply meq_refl|apply meq_sym, virtrz_array_diag]].
  intros i j Hi Hj. unfold zmat. rewrite (mdiag_mul_l d _ _ i j Hi Hj), (mdiag_mul_l d _ _ i j Hi Hj). unfold mdiag.
  destruct (Nat.eqb_spec i j) as [->|N]; ring.
Qed.
Lemma angle_ok z l : l < List.length z -> angle z l = Ok (nth l z 0%R).
Proof.
  intros H. unfold angle. destruct (nth_error z l) eqn:E.
  - f_equal. symmetry. now apply nth_error_nth.
  - apply nth_error_None in E. lia.
Qed.

(** rotations of the result *)
Definition made (t : Z) (d : nat) (g : gate pay) : Prop :=
  g_type g = SINGLE /\ g_target g = TInt t /\ g_controls g = None /\ g_dagger g = false /\ p_dims (g_data g) = inl d.
Definition countR (l : list (gate pay)) : nat := List.length (filter is_R l).


Lemma filter_rev' {B} (f : B -> bool) l : filter f (rev l) = rev (filter f l).
Proof.
  induction l as [|x l IH]; [reflexivity|]. cbn. rewrite filter_app, IH. cbn. destruct (f x); cbn; [reflexivity|apply app_nil_r].
Qed.

Section Loop.
Variables (num : nat) (dims : list nat) (t : Z) (d : nat).
Notation A g := (pay_array (g_data g)).
Definition good (g : gate pay) : Prop := p_dims (g_data g) = inl d /\ rotation_or_phase d (p_kind (g_data g)).

Lemma forward_spec l : (forall g, In g l -> good g) -> forall z rots, List.length z = d ->
  exists z' new, propagate_loop num dims false (TInt t) d l z rots = Ok (z', rots ++ new) /\ List.length z' = d /\
    (forall g, In g new -> made t d g /\ is_R g = true /\ rotation_or_phase d (p_kind (g_data g))) /\ List.length new = countR l /\
    forall P Q, meq d P (mmul d (zmat z) Q) -> meq d (prodfrom d l P) (mmul d (zmat z') (prodfrom d new Q)).
Proof.
  induction l as [|g l IH]; intros G z rots Hz.
  - exists z, []. cbn. rewrite app_nil_r. repeat split; auto; contradiction.
  - assert (G' : forall x, In x l -> good x) by (intros; apply G; now right).
    destruct (G g (or_introl eq_refl)) as [Dg Kg]. destruct g as [nm ty tg ct dg lg [pd pk]]. cbn in Dg, Kg.
    unfold countR. cbn [filter is_R g_data p_kind].
    destruct pk as [r|lev ph|ra rb rph| |m]; cbn in Kg; try contradiction; cbn [propagate_loop g_data p_kind].
    + rewrite !angle_ok by lia. cbn [bindr]. rewrite make_R_ok by lia. cbn [bindr].
      set (ph := pi_mod (r_phi r - nth (lev_a r) z 0 + nth (lev_b r) z 0)%R).
      set (g' := Gate "R" SINGLE (TInt t) None false false _).
      destruct (IH G' z (rots ++ [g']) Hz) as (z' & new & E & Hz' & M & C & Pq).
      exists z', (g' :: new). rewrite E. rewrite <- app_assoc. split; [reflexivity|]. split; [exact Hz'|]. split; [|split].
      * intros x [<-|Hx]; [|now apply M]. split; [repeat split|]. split; [reflexivity|]. cbn. lia.
      * cbn. rewrite C. reflexivity.
      * intros P Q H. cbn [prodfrom fold_left g_data].
        apply Pq. cbn. subst pd.
        eapply meq_trans; [apply mmul_ext; [apply r_array_rotation; lia|exact H]|].
        eapply meq_trans; [apply meq_sym, mmul_assoc|].
        eapply meq_trans; [apply mmul_ext; [apply zmat_commute; lia|apply meq_refl]|].
        eapply meq_trans; [apply mmul_assoc|]. apply mmul_ext; [apply meq_refl|]. apply mmul_ext; [|apply meq_refl].
        apply meq_sym. eapply meq_trans; [apply made_array; lia|]. apply rotation_phi_mod. apply pi_mod_spec.
    + rewrite angle_ok by lia. cbn [bindr].
      set (z1 := set_nth z lev (pi_mod (nth lev z 0 + ph)%R)).
      assert (Hz1 : List.length z1 = d) by (unfold z1; rewrite set_nth_length; exact Hz).
      destruct (IH G' z1 rots Hz1) as (z' & new & E & Hz' & M & C & Pq).
      exists z', new. split; [exact E|]. split; [exact Hz'|]. split; [exact M|]. split; [exact C|].
      intros P Q H. cbn [prodfrom fold_left g_data]. apply Pq. cbn. subst pd.
      eapply meq_trans; [apply mmul_ext; [apply meq_refl|exact H]|].
      eapply meq_trans; [apply meq_sym, mmul_assoc|]. apply mmul_ext; [|apply meq_refl].
      apply meq_sym. apply zmat_set. lia.
Qed.

Definition prodl' (l : list (gate pay)) : mat := prodfrom d l mid.
Lemma prodfrom_mid l : forall M, meq d (prodfrom d l M) (mmul d (prodl' l) M).
Proof.
  unfold prodl'. induction l as [|g l IH]; intros M.
  - apply meq_sym, mmul_id_l.
  - change (meq d (prodfrom d l (mmul d (A g) M)) (mmul d (prodfrom d l (mmul d (A g) mid)) M)).
    eapply meq_trans; [apply IH|]. apply meq_sym. eapply meq_trans; [apply mmul_ext; [apply IH|apply meq_refl]|].
    eapply meq_trans; [apply mmul_assoc|]. apply mmul_ext; [apply meq_refl|]. apply mmul_ext; [apply mmul_id_r|apply meq_refl].
Qed.
Lemma prodl_snoc l g : meq d (prodl' (l ++ [g])) (mmul d (A g) (prodl' l)).
Proof. unfold prodl'. rewrite prodfrom_app. apply meq_refl. Qed.

Lemma backward_spec l : (forall g, In g l -> good g) -> forall z rots, List.length z = d ->
  exists z' new, propagate_loop num dims true (TInt t) d l z rots = Ok (z', rots ++ new) /\ List.length z' = d /\
    (forall g, In g new -> made t d g /\ is_R g = true /\ rotation_or_phase d (p_kind (g_data g))) /\ List.length new = countR l /\
    forall P Q, meq d P (mmul d Q (zmat z)) ->
      meq d (mmul d P (prodl' (rev l))) (mmul d (mmul d Q (prodl' (rev new))) (zmat z')).
Proof.
  induction l as [|g l IH]; intros G z rots Hz.
  - exists z, []. cbn [propagate_loop rev]. rewrite app_nil_r. split; [reflexivity|]. split; [exact Hz|]. split; [intros ? []|].
    split; [reflexivity|]. intros P Q H. unfold prodl'. cbn.
    eapply meq_trans; [apply mmul_id_r|]. eapply meq_trans; [exact H|]. apply mmul_ext; [apply meq_sym, mmul_id_r|apply meq_refl].
  - assert (G' : forall x, In x l -> good x) by (intros; apply G; now right).
    destruct (G g (or_introl eq_refl)) as [Dg Kg]. destruct g as [nm ty tg ct dg lg [pd pk]]. cbn in Dg, Kg.
    unfold countR. cbn [filter is_R g_data p_kind].
    destruct pk as [r|lev ph|ra rb rph| |m]; cbn in Kg; try contradiction; cbn [propagate_loop g_data p_kind].
    + rewrite !angle_ok by lia. cbn [bindr]. rewrite make_R_ok by lia. cbn [bindr].
      set (ph := pi_mod (r_phi r + nth (lev_a r) z 0 - nth (lev_b r) z 0)%R).
      set (g' := Gate "R" SINGLE (TInt t) None false false _).
      destruct (IH G' z (rots ++ [g']) Hz) as (z' & new & E & Hz' & M & C & Pq).
      exists z', (g' :: new). rewrite E. rewrite <- app_assoc. split; [reflexivity|]. split; [exact Hz'|]. split; [|split].
      * intros x [<-|Hx]; [|now apply M]. split; [repeat split|]. split; [reflexivity|]. cbn. lia.
      * cbn. rewrite C. reflexivity.
      * intros P Q H. cbn [rev].
        eapply meq_trans; [apply mmul_ext; [apply meq_refl|apply prodl_snoc]|]. cbn [g_data].
        eapply meq_trans; [apply meq_sym, mmul_assoc|].
        eapply meq_trans; [apply (Pq (mmul d P _) (mmul d Q (A g')))|].
        -- cbn. subst pd. eapply meq_trans; [apply mmul_ext; [exact H|apply r_array_rotation; lia]|].
           eapply meq_trans; [apply mmul_assoc|].
           eapply meq_trans; [apply mmul_ext; [apply meq_refl|apply zmat_commute_back; lia]|].
           eapply meq_trans; [apply meq_sym, mmul_assoc|]. apply mmul_ext; [|apply meq_refl]. apply mmul_ext; [apply meq_refl|].
           apply meq_sym. eapply meq_trans; [apply made_array; lia|]. apply rotation_phi_mod. apply pi_mod_spec.
        -- apply mmul_ext; [|apply meq_refl]. eapply meq_trans; [apply mmul_assoc|]. apply mmul_ext; [apply meq_refl|].
           apply meq_sym, prodl_snoc.
    + rewrite angle_ok by lia. cbn [bindr].
      set (z1 := set_nth z lev (pi_mod (nth lev z 0 + ph)%R)).
      assert (Hz1 : List.length z1 = d) by (unfold z1; rewrite set_nth_length; exact Hz).
      destruct (IH G' z1 rots Hz1) as (z' & new & E & Hz' & M & C & Pq).
      exists z', new. split; [exact E|]. split; [exact Hz'|]. split; [exact M|]. split; [exact C|].
      intros P Q H. cbn [rev].
      eapply meq_trans; [apply mmul_ext; [apply meq_refl|apply prodl_snoc]|].
      eapply meq_trans; [apply meq_sym, mmul_assoc|].
      apply Pq. cbn. subst pd. eapply meq_trans; [apply mmul_ext; [exact H|apply meq_refl]|].
      eapply meq_trans; [apply mmul_assoc|]. apply mmul_ext; [apply meq_refl|].
      apply meq_sym. eapply meq_trans; [apply zmat_set; lia|]. apply zmat_comm.
Qed.

(** the tail of phase gates *)
Definition ztail (lev : nat) (z : list R) : mat :=
  mdiag (fun l => if (lev <=? l) && (l <? lev + List.length z) then cis (- nth (l - lev) z 0%R) else C1).
Lemma z_gates_spec z : forall lev, lev + List.length z <= d -> exists zs,
  z_gates num dims (TInt t) d lev z = Ok zs /\ List.length zs = List.length z /\
  (forall i g, nth_error zs i = Some g -> made t d g /\ exists ph, p_kind (g_data g) = KVirtRz (lev + i) ph) /\
  forall M, meq d (prodfrom d zs M) (mmul d (ztail lev z) M).
Proof.
  induction z as [|x z IH]; intros lev H.
  - exists []. split; [reflexivity|]. split; [reflexivity|]. split; [intros [|i]; discriminate|].
    intros M i j Hi Hj. cbn [prodfrom fold_left]. unfold ztail. rewrite (mdiag_mul_l d _ _ i j Hi Hj). cbn [List.length].
    replace ((lev <=? i) && (i <? lev + 0)) with false; [ring|].
    symmetry. apply andb_false_iff. rewrite Nat.leb_gt, Nat.ltb_ge. lia.
  - cbn [List.length] in H. destruct (IH (S lev) ltac:(lia)) as (zs & E & L & K & Pq).
    cbn [z_gates]. rewrite make_VirtRz_ok by lia. cbn [bindr]. rewrite E. cbn [bindr].
    eexists. split; [reflexivity|]. split; [cbn; now rewrite L|]. split.
    + intros [|i] g Hi; cbn in Hi.
      * injection Hi as <-. split; [repeat split|]. eexists. cbn. rewrite Nat.add_0_r. reflexivity.
      * replace (lev + S i) with (S lev + i) by lia. now apply K.
    + intros M. cbn [prodfrom fold_left g_data]. fold (prodfrom d zs).
      change (fold_left (fun M g => mmul d (pay_array (g_data g)) M) zs) with (prodfrom d zs).
      eapply meq_trans; [apply Pq|]. eapply meq_trans; [apply meq_sym, mmul_assoc|]. apply mmul_ext; [|apply meq_refl].
      cbn. eapply meq_trans; [apply mmul_ext; [apply meq_refl|apply virtrz_array_diag]|].
      intros i j Hi Hj. unfold ztail. rewrite (mdiag_mul_l d _ _ i j Hi Hj). unfold mdiag.
      destruct (Nat.eqb_spec i j) as [->|Nij]; [|ring]. rewrite cis_regulate. cbn [List.length].
      destruct (Nat.eqb_spec j lev) as [->|Nl].
      * replace (S lev <=? lev) with false by (symmetry; apply Nat.leb_gt; lia). cbn [andb].
        replace ((lev <=? lev) && (lev <? lev + S (List.length z))) with true by (symmetry; rewrite andb_true_iff, Nat.leb_le, Nat.ltb_lt; lia).
        rewrite Nat.sub_diag. cbn. ring.
      * destruct (Nat.leb_spec lev j) as [Hl|Hl].
        -- replace (S lev <=? j) with true by (symmetry; apply Nat.leb_le; lia). cbn [andb].
           replace (j <? S lev + List.length z) with (j <? lev + S (List.length z)) by (f_equal; lia).
           destruct (j <? lev + S (List.length z)); [|ring]. replace (j - lev) with (S (j - S lev)) by lia. cbn. ring.
        -- replace (S lev <=? j) with false by (symmetry; apply Nat.leb_gt; lia). cbn [andb]. ring.
Qed.
Lemma ztail_zmat z : List.length z = d -> meq d (ztail 0 z) (zmat z).
Proof.
  intros H i j Hi Hj. unfold ztail, zmat, mdiag. destruct (Nat.eqb_spec i j) as [->|N]; [|reflexivity].
  replace ((0 <=? j) && (j <? 0 + List.length z)) with true by (symmetry; rewrite andb_true_iff, Nat.leb_le, Nat.ltb_lt; lia).
  now rewrite Nat.sub_0_r.
Qed.
Lemma zmat_zero : meq d (zmat (repeat 0%R d)) mid.
Proof.
  intros i j Hi Hj. unfold zmat, mdiag, mid. destruct (Nat.eqb_spec i j) as [->|N]; [|reflexivity].
  replace (nth j (repeat 0%R d) 0%R) with 0%R by (symmetry; apply nth_repeat). rewrite Ropp_0. apply cis_0.
Qed.

Definition combined (back : bool) (rz : list (gate pay) * list (gate pay)) : list (gate pay) :=
  if back then snd rz ++ fst rz else fst rz ++ snd rz.

Lemma propagate_spec line back : line <> [] -> (forall g, In g line -> good g) -> (forall g, In g line -> g_target g = TInt t) ->
  exists rots zs, propagate_z num dims line back = Ok (rots, zs) /\
    (forall g, In g rots -> made t d g /\ is_R g = true /\ rotation_or_phase d (p_kind (g_data g))) /\
    List.length rots = countR line /\
    List.length zs = d /\ (forall i g, nth_error zs i = Some g -> made t d g /\ exists ph, p_kind (g_data g) = KVirtRz i ph) /\
    meq d (prodl' (combined back (rots, zs))) (prodl' line).
Proof.
  intros Ne G T. unfold propagate_z. destruct line as [|g0 rest]; [contradiction|].
  destruct (G g0 (or_introl eq_refl)) as [-> _]. rewrite (T g0 (or_introl eq_refl)).
  set (line := g0 :: rest) in *.
  assert (Hz : List.length (repeat 0%R d) = d) by apply repeat_length.
  destruct back.
  - destruct (backward_spec (rev line)) with (z := repeat 0%R d) (rots := @nil (gate pay)) as (z' & new & E & Hz' & M & C & Pq); [intros g Hg; apply G, in_rev, Hg|exact Hz|].
    rewrite E. cbn [bindr fst snd app].
    destruct (z_gates_spec z' 0 ltac:(lia)) as (zs & Ez & Lz & Kz & Pz). rewrite Ez. cbn [bindr].
    exists (rev new), zs. split; [reflexivity|]. split; [intros g Hg; apply M, in_rev, Hg|].
    split; [rewrite rev_length, C; unfold countR; rewrite filter_rev', rev_length; reflexivity|].
    split; [lia|]. split; [exact Kz|].
    cbn [combined fst snd]. specialize (Pq mid mid). rewrite rev_involutive in Pq.
    assert (P0 : meq d mid (mmul d mid (zmat (repeat 0%R d)))).
    { apply meq_sym. eapply meq_trans; [apply mmul_id_l|]. apply zmat_zero. }
    specialize (Pq P0). apply meq_sym. eapply meq_trans; [apply meq_sym, mmul_id_l|]. eapply meq_trans; [exact Pq|].
    eapply meq_trans; [apply mmul_ext; [apply mmul_id_l|apply meq_refl]|].
    unfold prodl' at 2. rewrite prodfrom_app. apply meq_sym. eapply meq_trans; [apply prodfrom_mid|].
    apply mmul_ext; [apply meq_refl|]. eapply meq_trans; [apply Pz|]. eapply meq_trans; [apply mmul_id_r|]. now apply ztail_zmat.
  - destruct (forward_spec line G (repeat 0%R d) [] Hz) as (z' & new & E & Hz' & M & C & Pq).
    rewrite E. cbn [bindr fst snd app].
    destruct (z_gates_spec z' 0 ltac:(lia)) as (zs & Ez & Lz & Kz & Pz). rewrite Ez. cbn [bindr].
    exists new, zs. split; [reflexivity|]. split; [exact M|]. split; [exact C|].
    split; [lia|]. split; [exact Kz|].
    cbn [combined fst snd]. unfold prodl' at 1. rewrite prodfrom_app.
    eapply meq_trans; [apply Pz|]. eapply meq_trans; [apply mmul_ext; [now apply ztail_zmat|apply meq_refl]|].
    apply meq_sym. apply Pq. apply meq_sym. eapply meq_trans; [apply mmul_id_r|]. apply zmat_zero.
Qed.
End Loop.

(** *** on the register *)
Section Register.
Variable dims : list nat.
Hypothesis pos : forall d, In d dims -> 0 < d.
Notation D := (prodl dims).

Definition single (t : Z) (M : mat) : gate mat := Gate "" SINGLE (TInt t) None false false M.
Lemma single_fits t M : (0 <= t < Z.of_nat (List.length dims))%Z -> fits dims (single t M).
Proof.
  intros H. split.
  - split; [discriminate|]. split; [repeat constructor; intros []|]. split; [|exact I].
    intros x [<-|[]]. exact H.
  - split; [reflexivity|]. left. split; [reflexivity|]. exists t. reflexivity.
Qed.
Lemma made_fits t d g : (0 <= t < Z.of_nat (List.length dims))%Z -> made t d g -> fits dims (lower g).
Proof.
  intros H (H1 & H2 & H3 & H4 & H5). split.
  - unfold well_placed, target_lines. cbn. rewrite H2, H3. split; [discriminate|]. split; [repeat constructor; intros []|]. split; [|exact I].
    intros x [<-|[]]. exact H.
  - split; [exact H3|]. left. split; [exact H1|]. exists t. exact H2.
Qed.
Lemma made_core t d g : made t d g -> core (lower g) = pay_array (g_data g).
Proof. intros (H1 & H2 & H3 & H4 & H5). unfold core. cbn. now rewrite H4. Qed.
Lemma made_lines t d g : made t d g -> target_lines (lower g) = [t].
Proof. intros (H1 & H2 & H3 & H4 & H5). unfold target_lines. cbn. now rewrite H2. Qed.

Section Line.
Variable t : Z.
Hypothesis Ht : (0 <= t < Z.of_nat (List.length dims))%Z.
Let d := nth (Z.to_nat t) dims 0.

Lemma single_ext M N s : meq d M N -> meq D (gact dims (single t M) s) (gact dims (single t N) s).
Proof.
  intros H.
  eapply meq_trans; [apply (line_multiply dims pos (single t N) (single t mid) (single t M) t s); try reflexivity; try (apply single_fits; exact Ht)|].
  - cbn. eapply meq_trans; [exact H|]. apply meq_sym, mmul_id_r.
  - apply gact_ext. apply (line_identity dims pos _ t); [now apply single_fits|reflexivity|]. apply meq_refl.
Qed.
Lemma line_run l : (forall g, In g l -> made t d g) -> forall M s,
  meq D (grun dims (as_circuit l) (gact dims (single t M) s)) (gact dims (single t (prodfrom d l M)) s).
Proof.
  induction l as [|g l IH]; intros H M s; [apply meq_refl|].
  cbn [as_circuit map]. unfold grun. cbn [fold_left snd prodfrom].
  eapply meq_trans; [|apply IH; intros; apply H; now right].
  apply grun_ext. apply meq_sym.
  assert (Hg : made t d g) by (apply H; now left).
  apply (line_multiply dims pos (lower g) (single t M) _ t s); try reflexivity; try (apply single_fits; exact Ht).
  - now apply (made_fits t d).
  - now apply (made_lines t d).
  - rewrite (made_core t d g Hg). cbn. apply meq_refl.
Qed.
Lemma line_run_mid l s : (forall g, In g l -> made t d g) -> meq D (grun dims (as_circuit l) s) (gact dims (single t (prodfrom d l mid)) s).
Proof.
  intros H. eapply meq_trans; [|apply line_run; exact H]. apply grun_ext. apply meq_sym.
  apply (line_identity dims pos _ t); [now apply single_fits|reflexivity|apply meq_refl].
Qed.
Lemma line_equal l l' s : (forall g, In g l -> made t d g) -> (forall g, In g l' -> made t d g) ->
  meq d (prodfrom d l mid) (prodfrom d l' mid) -> meq D (grun dims (as_circuit l) s) (grun dims (as_circuit l') s).
Proof.
  intros H H' E. eapply meq_trans; [now apply line_run_mid|]. eapply meq_trans; [apply (single_ext _ (prodfrom d l' mid)); exact E|].
  apply meq_sym. now apply line_run_mid.
Qed.
End Line.

Lemma line_gate_made t g : line_gate dims t g -> made (Z.of_nat t) (nth t dims 0) g /\ good (nth t dims 0) g /\ t < List.length dims /\ g_target g = TInt (Z.of_nat t).
Proof. intros (H1 & H2 & H3 & H4 & H5 & H6 & H7). repeat split; assumption. Qed.

Lemma propagate_line num t line back : line <> [] -> (forall g, In g line -> line_gate dims t g) ->
  exists rots zs, propagate_z num dims line back = Ok (rots, zs) /\
    (forall g, In g rots -> line_gate dims t g /\ is_R g = true) /\ List.length rots = countR line /\
    List.length zs = nth t dims 0 /\
    (forall i g, nth_error zs i = Some g -> line_gate dims t g /\ exists ph, p_kind (g_data g) = KVirtRz i ph) /\
    same_unitary dims (as_circuit line) (as_circuit (combined back (rots, zs))).
Proof.
  intros Ne G. set (d := nth t dims 0).
  assert (Ht : t < List.length dims) by (destruct line as [|g l]; [contradiction|]; apply (line_gate_made t g); apply G; now left).
  destruct (propagate_spec num dims (Z.of_nat t) d line back Ne) as (rots & zs & E & M & C & Lz & Kz & Eq).
  { intros g Hg. apply (line_gate_made t g). now apply G. }
  { intros g Hg. apply (line_gate_made t g). now apply G. }
  exists rots, zs. split; [exact E|].
  assert (Mr : forall g, In g rots -> line_gate dims t g /\ is_R g = true).
  { intros g Hg. destruct (M g Hg) as ((H1 & H2 & H3 & H4 & H5) & H6 & H7). split; [|exact H6]. repeat split; assumption. }
  assert (Mz : forall i g, nth_error zs i = Some g -> line_gate dims t g /\ exists ph, p_kind (g_data g) = KVirtRz i ph).
  { intros i g Hg. destruct (Kz i g Hg) as ((H1 & H2 & H3 & H4 & H5) & ph & H6). split; [|exists ph; exact H6].
    repeat split; try assumption. rewrite H6. cbn. fold d. rewrite <- Lz. apply nth_error_Some. congruence. }
  split; [exact Mr|]. split; [exact C|]. split; [exact Lz|]. split; [exact Mz|].
  assert (Ml : forall g, In g (combined back (rots, zs)) -> made (Z.of_nat t) d g).
  { intros g Hg. assert (In g rots \/ In g zs) as [H|H].
    { destruct back; cbn in Hg; apply in_app_or in Hg; tauto. }
    - now apply M.
    - apply In_nth_error in H. destruct H as [i H]. now apply (Kz i). }
  assert (Hz : (0 <= Z.of_nat t < Z.of_nat (List.length dims))%Z) by lia.
  apply same_of_run.
  - intros o Ho. apply in_map_iff in Ho. destruct Ho as (g & <- & Hg). cbn. apply (made_fits (Z.of_nat t) d); [exact Hz|]. apply (line_gate_made t g). now apply G.
  - intros o Ho. apply in_map_iff in Ho. destruct Ho as (g & <- & Hg). cbn. apply (made_fits (Z.of_nat t) d); [exact Hz|]. now apply Ml.
  - apply (line_equal (Z.of_nat t) Hz); rewrite ?Nat2Z.id; fold d.
    + intros g Hg. apply (line_gate_made t g). now apply G.
    + exact Ml.
    + apply meq_sym, Eq.
Qed.
End Register.
