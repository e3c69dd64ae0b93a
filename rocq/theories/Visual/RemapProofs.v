(** The mapping of results. *)
From Coq Require Import Reals Lra Lia List Arith ZArith Permutation FinFun IndefiniteDescription Classical_Prop.
From Verif.Base Require Import Py PyFacts Cplx Matrix Radix.
From Verif.Visual Require Import VisModel VisSpec DensityProofs TraceProofs.
Import ListNotations.
Local Open Scope nat_scope.

Lemma perm_entry d m i : Permutation m (map Z.of_nat (seq 0 d)) -> i < d -> (0 <= nth i m 0 < Z.of_nat d)%Z.
Proof.
  intros P Hi. assert (L := Permutation_length P). rewrite map_length, seq_length in L.
  assert (X := Permutation_in _ P (nth_In m 0%Z (ltac:(lia) : i < List.length m))). apply in_map_iff in X. destruct X as (j & E & Hj). apply in_seq in Hj. lia.
Qed.
Lemma perm_inj d m i j : Permutation m (map Z.of_nat (seq 0 d)) -> i < d -> j < d -> Z.to_nat (nth i m 0%Z) = Z.to_nat (nth j m 0%Z) -> i = j.
Proof.
  intros P Hi Hj E. assert (L := Permutation_length P). rewrite map_length, seq_length in L. assert (A := perm_entry d m i P Hi). assert (B := perm_entry d m j P Hj).
  assert (ND : NoDup m). { apply (Permutation_NoDup (Permutation_sym P)). apply Injective_map_NoDup; [intros x y; lia|apply seq_NoDup]. }
  apply (proj1 (NoDup_nth m 0%Z) ND); lia.
Qed.
Lemma mapped_valid dims ms : good_mappings dims ms -> forall x, valid dims x -> valid dims (mapped ms x).
Proof.
  intros G. induction G as [|d m dims ms P G IH]; intros x V; inversion V as [|a d' xs ds' Ha Vx]; subst; [constructor|]. cbn [mapped combine map fst snd]. constructor; [|apply IH; exact Vx].
  assert (A := perm_entry d m a P Ha). lia.
Qed.
Lemma mapped_inj dims ms : good_mappings dims ms -> forall x y, valid dims x -> valid dims y -> mapped ms x = mapped ms y -> x = y.
Proof.
  intros G. induction G as [|d m dims ms P G IH]; intros x y Vx Vy E; inversion Vx as [|a d' xs ds' Ha Vx']; subst; inversion Vy as [|b d'' ys ds'' Hb Vy']; subst; [reflexivity|].
  cbn [mapped combine map fst snd] in E. injection E as E1 E2. f_equal; [apply (perm_inj d m); trivial|apply IH; trivial].
Qed.
Lemma good_length dims ms : good_mappings dims ms -> List.length dims = List.length ms.
Proof. intros G. induction G; cbn; lia. Qed.

(** *** Columns of the identity *)
Lemma pyindex_seq d z : (0 <= z < Z.of_nat d)%Z -> pyindex (seq 0 d) z = Ok (Z.to_nat z).
Proof.
  intros H. rewrite pyindex_wrap by (rewrite seq_length; lia). f_equal. unfold wrap. rewrite (proj2 (Z.ltb_ge z 0)) by lia. rewrite seq_nth by lia. reflexivity.
Qed.
Lemma mapr_seq d m : (forall z, In z m -> (0 <= z < Z.of_nat d)%Z) -> mapr (pyindex (seq 0 d)) m = Ok (map Z.to_nat m).
Proof. induction m as [|z m IH]; intros H; [reflexivity|]. cbn [mapr map]. rewrite pyindex_seq by (apply H; left; reflexivity). cbn [bindr]. rewrite IH by (intros y Hy; apply H; right; exact Hy). reflexivity. Qed.
Definition isP (ds : list nat) (ms : list (list Z)) (p : arr) : Prop :=
  rows p = prodl ds /\ cols p = prodl ds /\
  forall x y, valid ds x -> valid ds y -> ent p (undigits ds x) (undigits ds y) = if list_eq_dec Nat.eq_dec x (mapped ms y) then C1 else C0.
Lemma eye_perm d m : Permutation m (map Z.of_nat (seq 0 d)) -> exists e, eye_columns d m = Ok e /\ isP [d] [m] e.
Proof.
  intros P. assert (L := Permutation_length P). rewrite map_length, seq_length in L. unfold eye_columns.
  rewrite mapr_seq. 2:{ intros z Hz. apply (Permutation_in _ P) in Hz. apply in_map_iff in Hz. destruct Hz as (j & <- & Hj). apply in_seq in Hj. lia. }
  cbn [bindr]. eexists. split; [reflexivity|]. split; [cbn; lia|]. split; [cbn; lia|]. intros x y Vx Vy.
  inversion Vx as [|a d' xs ds' Ha Vx']; subst. inversion Vx'; subst. inversion Vy as [|b d'' ys ds'' Hb Vy']; subst. inversion Vy'; subst.
  cbn [ent undigits prodl mapped combine map fst snd]. rewrite !Nat.mul_1_r, !Nat.add_0_r.
  rewrite (nth_indep _ 0 (Z.to_nat 0)) by (rewrite map_length; lia). rewrite map_nth.
  destruct (Nat.eqb_spec a (Z.to_nat (nth b m 0%Z))) as [E|N]; destruct (list_eq_dec Nat.eq_dec [a] [Z.to_nat (nth b m 0%Z)]) as [E'|N']; trivial; congruence.
Qed.
Lemma valid_snoc ds d x : valid (ds ++ [d]) x -> exists x' a, x = x' ++ [a] /\ valid ds x' /\ a < d.
Proof.
  intros V. apply Forall2_app_inv_r in V. destruct V as (x1 & x2 & V1 & V2 & ->). inversion V2 as [|a d' xs ds' Ha Vx]; subst. inversion Vx; subst. exists x1, a. split; [reflexivity|]. split; assumption.
Qed.
Lemma undigits_snoc ds d x a : List.length x = List.length ds -> undigits (ds ++ [d]) (x ++ [a]) = undigits ds x * d + a.
Proof. intros H. rewrite undigits_app by exact H. cbn [prodl undigits]. lia. Qed.
Lemma mapped_snoc ms m x a : List.length ms = List.length x -> mapped (ms ++ [m]) (x ++ [a]) = mapped ms x ++ [Z.to_nat (nth a m 0%Z)].
Proof. revert x. induction ms as [|k ms IH]; intros [|b x] H; cbn in H; try discriminate; [reflexivity|]. cbn [app mapped combine map fst snd]. f_equal. apply IH. lia. Qed.
Lemma kron_perm ds ms d m p e : List.length ds = List.length ms -> isP ds ms p -> isP [d] [m] e -> isP (ds ++ [d]) (ms ++ [m]) (akron p e).
Proof.
  intros L (P1 & P2 & P3) (E1 & E2 & E3). cbn [prodl] in E1, E2. rewrite Nat.mul_1_r in E1, E2. split; [cbn [akron rows]; rewrite prodl_app; cbn [prodl]; rewrite P1, E1; lia|].
  split; [cbn [akron cols]; rewrite prodl_app; cbn [prodl]; rewrite P2, E2; lia|]. intros x y Vx Vy.
  destruct (valid_snoc _ _ _ Vx) as (x' & a & -> & Vx' & Ha). destruct (valid_snoc _ _ _ Vy) as (y' & b & -> & Vy' & Hb). clear Vx Vy.
  assert (Lx := valid_length _ _ Vx'). assert (Ly := valid_length _ _ Vy'). rewrite !undigits_snoc, mapped_snoc by lia. cbn [akron ent]. rewrite E1, E2.
  rewrite !Nat.div_add_l, !Nat.div_small, !Nat.add_0_r by lia. rewrite !(Nat.add_comm (_ * d)), !Nat.mod_add, !Nat.mod_small by lia.
  rewrite P3 by assumption. assert (S := E3 [a] [b]). cbn [undigits prodl mapped combine map fst snd] in S. rewrite !Nat.mul_1_r, !Nat.add_0_r in S. rewrite S by (repeat constructor; assumption).
  destruct (list_eq_dec Nat.eq_dec x' (mapped ms y')) as [->|N].
  - destruct (list_eq_dec Nat.eq_dec [a] [Z.to_nat (nth b m 0%Z)]) as [Q|Q].
    + rewrite Q. destruct (list_eq_dec Nat.eq_dec _ _) as [_|X]; [ring|congruence].
    + destruct (list_eq_dec Nat.eq_dec (mapped ms y' ++ [a]) _) as [X|_]; [apply app_inj_tail in X; destruct X; congruence|ring].
  - destruct (list_eq_dec Nat.eq_dec (x' ++ [a]) _) as [X|_]; [apply app_inj_tail in X; destruct X; congruence|ring].
Qed.
Lemma kron_columns_ok : forall ms2 ds1 ms1 ds2 p, List.length ds1 = List.length ms1 -> good_mappings ds2 ms2 -> isP ds1 ms1 p ->
  exists q, kron_columns (ds1 ++ ds2) (List.length ds1) ms2 p = Ok q /\ isP (ds1 ++ ds2) (ms1 ++ ms2) q.
Proof.
  induction ms2 as [|m ms2 IH]; intros ds1 ms1 ds2 p L G HP; inversion G as [|d m' ds ms Pm G']; subst.
  - exists p. rewrite !app_nil_r. split; [reflexivity|exact HP].
  - cbn [kron_columns]. rewrite pyindex_wrap by (rewrite app_length; cbn [List.length]; lia). unfold wrap. rewrite (proj2 (Z.ltb_ge _ 0)), Nat2Z.id by lia.
    rewrite app_nth2, Nat.sub_diag by lia. cbn [nth bindr]. destruct (eye_perm d m Pm) as (e & -> & He). cbn [bindr].
    assert (S1 : S (List.length ds1) = List.length (ds1 ++ [d])) by (rewrite app_length; cbn; lia). rewrite S1.
    replace (ds1 ++ d :: ds) with ((ds1 ++ [d]) ++ ds) by (rewrite <- app_assoc; reflexivity). replace (ms1 ++ m :: ms2) with ((ms1 ++ [m]) ++ ms2) by (rewrite <- app_assoc; reflexivity).
    apply IH; [rewrite !app_length; cbn; lia|exact G'|]. apply kron_perm; assumption.
Qed.

Definition sigma (dims : list nat) (ms : list (list Z)) (k : nat) : nat := undigits dims (mapped ms (digits dims k)).
Lemma sigma_lt dims ms k : good_mappings dims ms -> k < prodl dims -> sigma dims ms k < prodl dims.
Proof. intros G H. apply undigits_lt, (mapped_valid _ _ G), valid_digits. exact H. Qed.
Lemma sigma_inj dims ms : good_mappings dims ms -> forall j k, j < prodl dims -> k < prodl dims -> sigma dims ms j = sigma dims ms k -> j = k.
Proof.
  intros G j k Hj Hk E. apply (digits_inj dims); trivial. apply (mapped_inj dims ms G); try (apply valid_digits; assumption).
  apply (f_equal (digits dims)) in E. unfold sigma in E. rewrite !digits_undigits in E by (apply (mapped_valid _ _ G), valid_digits; assumption). exact E.
Qed.
Lemma sigma_onto dims ms : good_mappings dims ms -> forall r, r < prodl dims -> exists k, k < prodl dims /\ sigma dims ms k = r.
Proof.
  intros G. assert (B : bFun (prodl dims) (sigma dims ms)) by (intros k Hk; apply sigma_lt; assumption).
  apply (proj1 (bInjective_bSurjective B)). intros j k Hj Hk. apply sigma_inj; assumption.
Qed.
Lemma isP_sigma dims ms p : good_mappings dims ms -> isP dims ms p -> forall r c, r < prodl dims -> c < prodl dims -> ent p r c = if Nat.eqb r (sigma dims ms c) then C1 else C0.
Proof.
  intros G (_ & _ & H) r c Hr Hc. assert (E := H (digits dims r) (digits dims c) (valid_digits _ _ Hr) (valid_digits _ _ Hc)). rewrite !undigits_digits in E by assumption. rewrite E.
  assert (Vc := mapped_valid _ _ G _ (valid_digits _ _ Hc)).
  destruct (list_eq_dec _ _ _) as [Q|Q]; destruct (Nat.eqb_spec r (sigma dims ms c)) as [R|R]; trivial; exfalso.
  - apply R. unfold sigma. rewrite <- Q. symmetry. apply undigits_digits. exact Hr.
  - apply Q. rewrite R. unfold sigma. rewrite digits_undigits by exact Vc. reflexivity.
Qed.

Section Remap.
Variables (inv : nat -> mat -> res mat).
Hypothesis Hinv : inverts inv.
Theorem remap_permutes dims ms v : good_mappings dims ms -> List.length v = prodl dims ->
  exists w, remap_result inv v dims (Some ms) = Ok w /\ on_physical dims ms v w.
Proof.
  intros G Lv. destruct ms as [|m ms].
  - inversion G; subst. exists v. split; [reflexivity|]. split; [exact Lv|]. split; [exact Lv|]. intros x Vx. inversion Vx; subst. reflexivity.
  - inversion G as [|d m' ds ms' Pm G']; subst. cbn [remap_result]. rewrite pyindex_wrap by (cbn [List.length]; lia). cbn [wrap Z.ltb Z.compare Z.to_nat nth bindr].
    destruct (eye_perm d m Pm) as (e & -> & He). cbn [bindr]. destruct (kron_columns_ok ms [d] [m] ds e eq_refl G' He) as (p & Ep & HP). cbn [app List.length] in Ep, HP. rewrite Ep. cbn [bindr].
    destruct HP as (R & C & HP). rewrite R, C, Nat.eqb_refl. cbn [negb]. assert (HP' := conj R (conj C HP)). fold (isP (d :: ds) (m :: ms) p) in HP'. clear HP Ep He e.
    set (dims := d :: ds) in *. set (mm := m :: ms) in *. set (n := prodl dims) in *. assert (EP := isP_sigma dims mm p G HP'). fold n in EP.
    assert (SI := sigma_inj dims mm G). assert (SO := sigma_onto dims mm G). assert (SL := sigma_lt dims mm). fold n in SI, SO, SL.
    assert (KEY : forall c f, c < n -> csum n (fun k => ((if Nat.eqb (sigma dims mm c) (sigma dims mm k) then C1 else C0) * f k)%C) = f c).
    { intros c f Hc. rewrite <- (csum_mid_l n c f Hc). apply csum_ext. intros k Hk. f_equal. unfold mid. destruct (Nat.eqb_spec c k) as [->|N]; [rewrite Nat.eqb_refl; reflexivity|].
      destruct (Nat.eqb_spec (sigma dims mm c) (sigma dims mm k)) as [E|_]; [exfalso; apply N, SI; trivial|reflexivity]. }
    destruct (Hinv n (ent p) (fun r c => ent p c r)) as (Q & EQ & MQ).
    { intros i j Hi Hj. unfold mmul. destruct (SO i Hi) as (a & Ha & <-). rewrite (csum_ext n _ (fun k => ((if Nat.eqb (sigma dims mm a) (sigma dims mm k) then C1 else C0) * ent p j k)%C)).
      - rewrite KEY by exact Ha. rewrite EP by assumption. unfold mid. rewrite Nat.eqb_sym. reflexivity.
      - intros k Hk. rewrite (EP (sigma dims mm a) k) by assumption. reflexivity. }
    { intros i j Hi Hj. unfold mmul. assert (Si := SL i G Hi). rewrite (csum_ext n _ (fun k => (mid (sigma dims mm i) k * ent p k j)%C)).
      - rewrite csum_mid_l by exact Si. rewrite EP by assumption. unfold mid. destruct (Nat.eqb_spec i j) as [->|N]; [rewrite Nat.eqb_refl; reflexivity|].
        destruct (Nat.eqb_spec (sigma dims mm i) (sigma dims mm j)) as [E|_]; [exfalso; apply N, SI; trivial|reflexivity].
      - intros k Hk. f_equal. rewrite EP by assumption. unfold mid. rewrite Nat.eqb_sym. reflexivity. }
    rewrite EQ. cbn [bindr]. rewrite Lv, Nat.eqb_refl. cbn [negb]. eexists. split; [reflexivity|]. split; [exact Lv|]. split; [rewrite map_length, seq_length; reflexivity|].
    intros x Vx. assert (Hx := undigits_lt _ _ Vx). assert (Hm := undigits_lt _ _ (mapped_valid _ _ G _ Vx)). fold n in Hx, Hm.
    set (F := fun c => csum n (fun k => (nth k v C0 * Q k c)%C)). rewrite (nth_indep _ C0 (F 0)) by (rewrite map_length, seq_length; exact Hm). rewrite (map_nth F), seq_nth by exact Hm. cbn [Nat.add]. unfold F.
    set (c := undigits dims x) in *. assert (Ec : undigits dims (mapped mm x) = sigma dims mm c) by (unfold sigma, c; rewrite digits_undigits by exact Vx; reflexivity). rewrite Ec in *.
    rewrite <- (KEY c (fun k => nth k v C0) Hx). apply csum_ext. intros k Hk. rewrite (MQ k (sigma dims mm c) Hk Hm), EP by assumption. ring.
Qed.
Lemma physical_sigma dims ms v w : good_mappings dims ms -> on_physical dims ms v w -> forall k, k < prodl dims -> nth (sigma dims ms k) w C0 = nth k v C0.
Proof. intros G (_ & _ & H) k Hk. assert (E := H _ (valid_digits _ _ Hk)). rewrite undigits_digits in E by exact Hk. exact E. Qed.
Lemma physical_unique dims ms v w w' : good_mappings dims ms -> on_physical dims ms v w -> on_physical dims ms v w' -> w = w'.
Proof.
  intros G H H'. apply (nth_ext _ _ C0 C0); [destruct H as (_ & -> & _), H' as (_ & -> & _); reflexivity|]. intros r Hr. rewrite (proj1 (proj2 H)) in Hr.
  destruct (sigma_onto dims ms G r Hr) as (k & Hk & <-). rewrite (physical_sigma _ _ _ _ G H k Hk), (physical_sigma _ _ _ _ G H' k Hk). reflexivity.
Qed.
Lemma physical_permutation dims ms v w : good_mappings dims ms -> on_physical dims ms v w -> Permutation v w.
Proof.
  intros G H. apply Permutation_sym. apply (Permutation_nth w v C0). assert (Lv := proj1 H). assert (Lw := proj1 (proj2 H)). split; [congruence|]. exists (sigma dims ms). rewrite Lw. split; [intros k Hk; apply sigma_lt; assumption|].
  split; [intros j k Hj Hk; apply sigma_inj; assumption|]. intros k Hk. symmetry. apply physical_sigma; assumption.
Qed.
Lemma mapped_twice dims ms : good_mappings dims ms -> 0 < prodl dims -> ((forall x, valid dims x -> mapped ms (mapped ms x) = x) <-> Forall self_inverse ms).
Proof.
  intros G. induction G as [|d m dims ms P G IH]; intros Hp; cbn [prodl] in Hp; [split; [constructor|intros _ x V; inversion V; reflexivity]|].
  assert (Lm := Permutation_length P). rewrite map_length, seq_length in Lm. assert (Hd : 0 < d) by nia. assert (Hq : 0 < prodl dims) by nia. split.
  - intros H. constructor.
    + intros i Hi. rewrite Lm in Hi. assert (V : valid (d :: dims) (i :: digits dims 0)) by (constructor; [exact Hi|apply valid_digits; exact Hq]). assert (E := H _ V). cbn [mapped combine map fst snd] in E. injection E as E _.
      assert (A := perm_entry d m i P Hi). assert (B := perm_entry d m (Z.to_nat (nth i m 0%Z)) P ltac:(lia)). lia.
    + apply (IH Hq). intros x Vx. assert (V : valid (d :: dims) (0 :: x)) by (constructor; assumption). assert (E := H _ V). cbn [mapped combine map fst snd] in E. injection E as _ E. exact E.
  - intros F x V. inversion F as [|m' ms' F1 F2]; subst. inversion V as [|a d' xs ds' Ha Vx]; subst. cbn [mapped combine map fst snd]. rewrite F1 by lia. rewrite Nat2Z.id. f_equal. apply (IH Hq); assumption.
Qed.
Theorem remap_restores dims ms : good_mappings dims ms -> 0 < prodl dims ->
  ((forall v w, on_physical dims ms v w -> remap_result inv w dims (Some ms) = Ok v) <-> Forall self_inverse ms).
Proof.
  intros G Hp. rewrite <- (mapped_twice dims ms G Hp). split.
  - intros H x Vx. set (v := map (fun k => RtoC (INR k)) (seq 0 (prodl dims))).
    assert (Lv : List.length v = prodl dims) by (unfold v; rewrite map_length, seq_length; reflexivity).
    destruct (remap_permutes dims ms v G Lv) as (w & _ & Hw). assert (R := H v w Hw). destruct (remap_permutes dims ms w G (proj1 (proj2 Hw))) as (u & Eu & Hu). rewrite Eu in R. injection R as ->.
    assert (Vm := mapped_valid _ _ G _ Vx). assert (Vmm := mapped_valid _ _ G _ Vm).
    assert (E := proj2 (proj2 Hu) _ Vm). rewrite (proj2 (proj2 Hw) _ Vx) in E.
    assert (VN : forall k, k < prodl dims -> nth k v C0 = RtoC (INR k)).
    { intros k Hk. unfold v. rewrite (nth_indep _ C0 (RtoC (INR 0))) by (rewrite map_length, seq_length; exact Hk). rewrite (map_nth (fun k => RtoC (INR k))), seq_nth by exact Hk. reflexivity. }
    rewrite !VN in E by (apply undigits_lt; assumption). unfold RtoC in E. injection E as E. apply INR_eq in E. apply (f_equal (digits dims)) in E. rewrite !digits_undigits in E by assumption. exact E.
  - intros H v w Hw. destruct (remap_permutes dims ms w G (proj1 (proj2 Hw))) as (u & -> & Hu). f_equal. apply (nth_ext _ _ C0 C0); [destruct Hu as (_ & -> & _), Hw as (-> & _); reflexivity|].
    intros k Hk. rewrite (proj1 (proj2 Hu)) in Hk. assert (V := valid_digits dims k Hk). assert (Vm := mapped_valid _ _ G _ V).
    assert (E := proj2 (proj2 Hu) _ Vm). rewrite (proj2 (proj2 Hw) _ V), (H _ V), undigits_digits in E by exact Hk. exact E.
Qed.
End Remap.
(** Such a library function exists. *)
Lemma inverts_exists : exists inv, inverts inv.
Proof.
  assert (X : forall nA : nat * mat, exists Q : res mat, forall B, meq (fst nA) (mmul (fst nA) (snd nA) B) mid -> meq (fst nA) (mmul (fst nA) B (snd nA)) mid -> exists q, Q = Ok q /\ meq (fst nA) q B).
  { intros [n A]. cbn [fst snd]. destruct (Classical_Prop.classic (exists B, meq n (mmul n A B) mid /\ meq n (mmul n B A) mid)) as [(B & H1 & H2)|N].
    - exists (Ok B). intros B' H1' H2'. exists B. split; [reflexivity|].
      apply (meq_trans n _ (mmul n B (mmul n A B'))).
      + apply (meq_trans n _ (mmul n B mid)); [apply meq_sym, mmul_id_r|]. apply mmul_ext; [apply meq_refl|apply meq_sym; exact H1'].
      + apply (meq_trans n _ (mmul n (mmul n B A) B')); [apply meq_sym, mmul_assoc|]. apply (meq_trans n _ (mmul n mid B')); [apply mmul_ext; [exact H2|apply meq_refl]|apply mmul_id_l].
    - exists (Err ValueError). intros B H1 H2. exfalso. apply N. exists B. split; assumption. }
  destruct (IndefiniteDescription.functional_choice _ X) as (inv & H). exists (fun n A => inv (n, A)). intros n A B. exact (H (n, A) B).
Qed.
