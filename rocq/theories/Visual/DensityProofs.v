(** Counts as density matrices, and labels. *)
From Coq Require Import Reals Lra Lia List Arith ZArith Permutation.
From Verif.Base Require Import Py PyFacts Cplx Matrix Radix Text TextFacts.
From Verif.Gates Require Import FactoryModel FactorySpec FactoryProofs FactoryMain.
From Verif.Visual Require Import VisModel VisSpec.
Import ListNotations.
Local Open Scope nat_scope.

Lemma mapr_all {A B} (f : A -> res B) (P : A -> B -> Prop) l : (forall x, In x l -> exists y, f x = Ok y /\ P x y) -> exists ys, mapr f l = Ok ys /\ Forall2 P l ys.
Proof.
  induction l as [|x l IH]; intros H; [exists []; split; [reflexivity|constructor]|].
  destruct (H x (or_introl eq_refl)) as (y & E & Py). destruct IH as (ys & E' & F). { intros z Hz. apply H. right. exact Hz. }
  exists (y :: ys). cbn [mapr]. rewrite E. cbn [bindr]. rewrite E'. split; [reflexivity|]. constructor; assumption.
Qed.
Lemma mapr_bad {A B} (f : A -> res B) e l : (forall x, In x l -> f x = Err e \/ exists y, f x = Ok y) -> (exists x, In x l /\ f x = Err e) -> mapr f l = Err e.
Proof.
  induction l as [|x l IH]; intros H (z & Hz & E); [destruct Hz|]. cbn [mapr].
  destruct (H x (or_introl eq_refl)) as [Ex|(y & Ex)]; rewrite Ex; cbn [bindr]; [reflexivity|].
  destruct Hz as [->|Hz]; [congruence|]. rewrite IH; [reflexivity| |exists z; split; assumption]. intros w Hw. apply H. right. exact Hw.
Qed.
Lemma Forall2_map_l {A B D} (g : A -> B) (P : B -> D -> Prop) l ys : Forall2 P (map g l) ys <-> Forall2 (fun x y => P (g x) y) l ys.
Proof. revert ys. induction l as [|x l IH]; intros ys; cbn [map]; split; intros H; inversion H; subst; constructor; auto; apply IH; assumption. Qed.

(** *** Labels *)
Lemma show_small x : x < 10 -> show_nat x = [digit_char x].
Proof. intros H. unfold show_nat. cbn [show_fuel]. rewrite (proj2 (Nat.ltb_lt _ _) H), Nat.mod_small by exact H. reflexivity. Qed.
Lemma label_small xs : (forall x, In x xs -> x < 10) -> concat (map show_nat xs) = map digit_char xs.
Proof.
  induction xs as [|x xs IH]; intros H; [reflexivity|]. cbn [map concat]. rewrite show_small by (apply H; left; reflexivity).
  rewrite IH by (intros y Hy; apply H; right; exact Hy). reflexivity.
Qed.
Lemma label_value xs : (forall x, In x xs -> x < 10) -> map digit_val (concat (map show_nat xs)) = xs.
Proof.
  intros H. rewrite label_small by exact H. rewrite map_map. induction xs as [|x xs IH]; [reflexivity|]. cbn [map].
  rewrite digit_val_char by (apply H; left; reflexivity). f_equal. apply IH. intros y Hy. apply H. right. exact Hy.
Qed.
Lemma valid_small dims xs : Forall (fun d => d <= 10) dims -> valid dims xs -> forall x, In x xs -> x < 10.
Proof.
  intros F V. induction V as [|x d xs ds Hx V IH]; intros y Hy; [destruct Hy|]. inversion F; subst. destruct Hy as [<-|Hy]; [lia|]. apply IH; assumption.
Qed.
Theorem labels_distinct dims : Forall (fun d => d <= 10) dims -> NoDup (state_labels dims) /\ List.length (state_labels dims) = prodl dims.
Proof.
  intros F. unfold state_labels. split; [|rewrite map_length; apply length_product].
  assert (ND : NoDup (product_ranges dims)).
  { rewrite product_ranges_digits. assert (G : forall l, NoDup l -> (forall k, In k l -> k < prodl dims) -> NoDup (map (digits dims) l)).
    { induction l as [|k l IH]; intros ND H; [constructor|]. apply NoDup_cons_iff in ND. destruct ND as [N1 N2]. cbn [map]. constructor.
      - intros Hi. apply in_map_iff in Hi. destruct Hi as (j & E & Hj). apply N1. assert (j = k); [|congruence]. apply (digits_inj dims); [apply H; right; exact Hj|apply H; left; reflexivity|exact E].
      - apply IH; [exact N2|]. intros j Hj. apply H. right. exact Hj. }
    apply G; [apply seq_NoDup|]. intros k Hk. apply in_seq in Hk. lia. }
  assert (V : forall xs, In xs (product_ranges dims) -> valid dims xs) by (intros xs; apply In_product).
  revert ND V. generalize (product_ranges dims). induction l as [|x l IH]; intros ND V; [constructor|]. apply NoDup_cons_iff in ND. destruct ND as [N1 N2]. cbn [map]. constructor.
  - intros Hi. apply in_map_iff in Hi. destruct Hi as (y & E & Hy). apply N1. assert (y = x); [|congruence].
    rewrite <- (label_value y), <- (label_value x), E; [reflexivity| |]; eapply valid_small; try eassumption; apply V; [left; reflexivity|right; exact Hy].
  - apply IH; [exact N2|]. intros y Hy. apply V. right. exact Hy.
Qed.
Theorem labels_collide a b : 12 <= a -> 11 <= b ->
  nth (undigits [a; b] [1; 10]) (state_labels [a; b]) [] = nth (undigits [a; b] [11; 0]) (state_labels [a; b]) [] /\
  undigits [a; b] [1; 10] < undigits [a; b] [11; 0] < List.length (state_labels [a; b]).
Proof.
  intros Ha Hb.
  assert (V1 : valid [a; b] [1; 10]) by (repeat (apply Forall2_cons || apply Forall2_nil); lia).
  assert (V2 : valid [a; b] [11; 0]) by (repeat (apply Forall2_cons || apply Forall2_nil); lia).
  assert (L : forall xs, valid [a; b] xs -> nth (undigits [a; b] xs) (state_labels [a; b]) [] = concat (map show_nat xs)).
  { intros xs V. unfold state_labels. rewrite (nth_indep _ _ ((fun item => concat (map show_nat item)) [])) by (rewrite map_length, length_product; apply undigits_lt; exact V).
    rewrite (map_nth (fun item => concat (map show_nat item))), nth_product by (apply undigits_lt; exact V). rewrite digits_undigits by exact V. reflexivity. }
  split; [rewrite !L by assumption; reflexivity|]. split; [cbn [undigits prodl]; nia|]. unfold state_labels. rewrite map_length, length_product. apply undigits_lt. exact V2.
Qed.

(** *** The density matrix *)
Lemma fold_outer n p : forall m s kets M r c, Forall2 (fun k v => is_ket n k v) (seq s m) kets -> s + m <= n -> r < n -> c < n ->
  fold_left outer_step (combine kets (map p (seq s m))) M r c = (M r c + (if Nat.eqb r c && Nat.leb s r && Nat.ltb r (s + m) then p r else 0))%R.
Proof.
  induction m as [|m IH]; intros s kets M r c F Hs Hr Hc; inversion F as [|k v ks vs K F']; subst; cbn [seq map combine fold_left].
  - replace (Nat.eqb r c && Nat.leb s r && Nat.ltb r (s + 0))%bool with false; [lra|]. symmetry.
    destruct (Nat.leb_spec s r), (Nat.ltb_spec r (s + 0)), (Nat.eqb r c); cbn; lia || reflexivity.
  - rewrite IH by (trivial; lia). unfold outer_step. cbn [fst snd]. destruct K as [_ K]. rewrite !K by assumption.
    destruct (Nat.eqb_spec r s) as [->|Nr].
    + destruct (Nat.eqb_spec c s) as [->|Nc].
      * rewrite Nat.eqb_refl. replace (Nat.leb (S s) s) with false by (symmetry; apply Nat.leb_gt; lia). rewrite Nat.leb_refl, (proj2 (Nat.ltb_lt s (s + S m))) by lia. cbn [andb]. cbn. ring.
      * replace (Nat.eqb s c) with false by (symmetry; apply Nat.eqb_neq; lia). cbn. ring.
    + replace (Nat.leb s r) with (Nat.leb (S s) r) by (destruct (Nat.leb_spec s r), (Nat.leb_spec (S s) r); lia || reflexivity). replace (s + S m) with (S s + m) by lia. cbn [INR]. ring.
Qed.
Lemma count_fraction results i : (INR (count results i) / INR (List.length results))%R = fraction results i.
Proof.
  unfold fraction. do 2 f_equal. unfold count. induction results as [|z l IH]; [reflexivity|]. cbn [filter count_occ].
  destruct (Z.eq_dec z (Z.of_nat i)) as [->|N]; [rewrite Z.eqb_refl; cbn [List.length]; rewrite IH; reflexivity|]. rewrite (proj2 (Z.eqb_neq _ _)) by congruence. exact IH.
Qed.
Lemma kets_ok dims : dims <> [] -> Forall (fun d => d <= 10) dims ->
  exists kets, mapr (fun l => from_dirac_to_basis (map digit_val l) dims) (state_labels dims) = Ok kets /\ Forall2 (fun k v => is_ket (prodl dims) k v) (seq 0 (prodl dims)) kets.
Proof.
  intros Ne F. destruct (mapr_all (fun l => from_dirac_to_basis (map digit_val l) dims) (fun l v => is_ket (prodl dims) (undigits dims (map digit_val l)) v) (state_labels dims)) as (ys & E & H).
  { intros l Hl. unfold state_labels in Hl. apply in_map_iff in Hl. destruct Hl as (xs & <- & Hx). apply In_product in Hx.
    rewrite label_value by (eapply valid_small; eassumption). apply dirac_spec; [exact Hx|]. intros ->. inversion Hx. subst. contradiction. }
  exists ys. split; [exact E|]. clear E. unfold state_labels in H. rewrite Forall2_map_l, product_ranges_digits, Forall2_map_l in H.
  assert (G : forall s, (forall k, In k s -> k < prodl dims) -> forall ys, Forall2 (fun k v => is_ket (prodl dims) (undigits dims (map digit_val (concat (map show_nat (digits dims k))))) v) s ys -> Forall2 (fun k v => is_ket (prodl dims) k v) s ys).
  { intros s B l FF. revert B. induction FF as [|k v s l K FF IH]; intros B; constructor.
    - assert (Hk := B k (or_introl eq_refl)). rewrite label_value in K by (eapply valid_small; [eassumption|apply valid_digits; exact Hk]). rewrite undigits_digits in K by exact Hk. exact K.
    - apply IH. intros j Hj. apply B. right. exact Hj. }
  apply G; [|exact H]. intros k Hk. apply in_seq in Hk. lia.
Qed.
Theorem density_ok results dims : 2 <= List.length dims -> Forall (fun d => d <= 10) dims -> results <> [] ->
  exists M, density_from_counts results dims = Ok M /\ forall r c, r < prodl dims -> c < prodl dims -> M r c = if Nat.eqb r c then fraction results r else 0%R.
Proof.
  intros Hl F Hr. destruct dims as [|d0 [|d1 more]]; [cbn in Hl; lia|cbn in Hl; lia|]. set (dims := d0 :: d1 :: more) in *.
  destruct (kets_ok dims ltac:(discriminate) F) as (kets & E & K). unfold density_from_counts. fold dims.
  destruct results as [|z results]; [contradiction|]. set (res := z :: results) in *. change (Nat.eqb (List.length res) 0) with false. cbn [andb]. rewrite E. cbn [bindr].
  eexists. split; [reflexivity|]. intros r c Hr' Hc'. rewrite (fold_outer (prodl dims)) by (trivial; lia).
  rewrite (proj2 (Nat.ltb_lt r (0 + prodl dims))) by lia. cbn [Nat.leb]. rewrite !Bool.andb_true_r. rewrite Rplus_0_l. rewrite count_fraction. reflexivity.
Qed.
Theorem density_single results d : 1 <= d <= 10 -> results <> [] -> density_from_counts results [d] = Err AttributeError.
Proof.
  intros Hd Hr. destruct (kets_ok [d] ltac:(discriminate)) as (kets & E & K). { constructor; [lia|constructor]. }
  unfold density_from_counts. destruct results as [|z results]; [contradiction|]. cbn [List.length Nat.eqb andb]. rewrite E. cbn [bindr].
  cbn [prodl] in K. destruct kets as [|k kets]; [|reflexivity]. exfalso. destruct d as [|d]; [lia|]. rewrite Nat.mul_1_r in K. cbn [seq] in K. inversion K.
Qed.
Lemma dirac_kinds vec d : from_dirac_to_basis vec d = Err IndexError \/ exists y, from_dirac_to_basis vec d = Ok y.
Proof.
  unfold from_dirac_to_basis. destruct (Nat.ltb _ _); [left; reflexivity|].
  assert (B : forall l, basis_vecs l = Err IndexError \/ exists y, basis_vecs l = Ok y).
  { induction l as [|[b e] l IH]; [right; eexists; reflexivity|]. unfold basis_vecs in *. cbn [mapr fst snd]. destruct (Nat.ltb b e); cbn [bindr]; [|left; reflexivity].
    destruct IH as [->|(y & ->)]; cbn [bindr]; [left; reflexivity|right; eexists; reflexivity]. }
  destruct (B (combine vec d)) as [->|(y & ->)]; cbn [bindr]; [left; reflexivity|]. destruct y; [left; reflexivity|right; eexists; reflexivity].
Qed.
Lemma show_len x : 1 <= List.length (show_nat x).
Proof. assert (X := show_nat_ne x). destruct (show_nat x); [contradiction|cbn; lia]. Qed.
Lemma label_len xs : List.length xs <= List.length (concat (map show_nat xs)).
Proof. induction xs as [|x xs IH]; [reflexivity|]. cbn [map concat]. rewrite app_length. cbn [List.length]. assert (X := show_len x). lia. Qed.
Lemma long_label dims : Forall (fun d => 1 <= d) dims -> Exists (fun d => 10 < d) dims -> exists xs, valid dims xs /\ List.length dims < List.length (concat (map show_nat xs)).
Proof.
  intros P X. induction X as [d ds Hd|d ds X IH]; inversion P as [|? ? P1 P2]; subst.
  - exists (10 :: repeat 0 (List.length ds)). split.
    + constructor; [exact Hd|]. clear X IH P Hd P1 || clear P Hd P1. induction P2 as [|e ds He P2 IH]; cbn [List.length repeat]; constructor; [lia|exact IH].
    + cbn [map concat List.length]. rewrite app_length. change (List.length (show_nat 10)) with 2. assert (Y := label_len (repeat 0 (List.length ds))). rewrite repeat_length in Y. lia.
  - destruct (IH P2) as (xs & V & L). exists (0 :: xs). split; [constructor; [lia|exact V]|]. cbn [map concat List.length]. rewrite app_length. assert (Y := show_len 0). lia.
Qed.
Theorem density_large results dims : Forall (fun d => 1 <= d) dims -> Exists (fun d => 10 < d) dims -> results <> [] -> density_from_counts results dims = Err IndexError.
Proof.
  intros P X Hr. unfold density_from_counts. destruct dims as [|d0 more]; [inversion X|]. set (dims := d0 :: more) in *.
  destruct results as [|z results]; [contradiction|]. cbn [List.length Nat.eqb andb].
  rewrite (mapr_bad _ IndexError); [reflexivity|intros; apply dirac_kinds|].
  destruct (long_label dims P X) as (xs & V & L). exists (concat (map show_nat xs)). split.
  - unfold state_labels. apply (in_map (fun item => concat (map show_nat item))). apply In_product. exact V.
  - unfold from_dirac_to_basis. rewrite map_length, (proj2 (Nat.ltb_lt _ _) L). reflexivity.
Qed.
Theorem density_empty dims : dims <> [] -> Forall (fun d => 1 <= d) dims -> density_from_counts [] dims = Err ZeroDivisionError.
Proof.
  intros Ne P. unfold density_from_counts. destruct dims as [|d0 more]; [contradiction|]. set (dims := d0 :: more) in *.
  rewrite (proj2 (Nat.ltb_lt 0 (prodl dims))); [reflexivity|]. apply prodl_pos. intros d Hd. rewrite Forall_forall in P. apply P. exact Hd.
Qed.

(** *** Its trace *)
Lemma csum_INR n f : csum n (fun i => RtoC (INR (f i))) = RtoC (INR (fold_right Nat.add 0 (map f (seq 0 n)))).
Proof.
  induction n as [|n IH]; [reflexivity|]. rewrite seq_S, map_app, fold_right_app. cbn [map fold_right csum Nat.add]. rewrite IH.
  assert (G : forall l a, fold_right Nat.add a l = fold_right Nat.add 0 l + a) by (induction l as [|x l IHl]; intros a; cbn; [reflexivity|rewrite IHl; lia]).
  rewrite (G _ (f n + 0)). rewrite Nat.add_0_r, plus_INR, RtoC_add. reflexivity.
Qed.
Lemma counts_sum n l : fold_right Nat.add 0 (map (fun i => count_occ Z.eq_dec l (Z.of_nat i)) (seq 0 n)) = List.length (filter (fun z => (0 <=? z)%Z && (z <? Z.of_nat n)%Z) l).
Proof.
  induction l as [|z l IH].
  - cbn [count_occ filter List.length]. induction (seq 0 n) as [|x s IHs]; [reflexivity|]. exact IHs.
  - cbn [filter]. assert (G : forall s m, NoDup (seq s m) -> fold_right Nat.add 0 (map (fun i => count_occ Z.eq_dec (z :: l) (Z.of_nat i)) (seq s m)) =
      fold_right Nat.add 0 (map (fun i => count_occ Z.eq_dec l (Z.of_nat i)) (seq s m)) + (if ((Z.of_nat s <=? z) && (z <? Z.of_nat (s + m)))%Z then 1 else 0)).
    { intros s m _. revert s. induction m as [|m IHm]; intros s; cbn [seq map fold_right].
      - destruct (Z.leb_spec (Z.of_nat s) z), (Z.ltb_spec z (Z.of_nat (s + 0))); cbn; lia.
      - rewrite IHm. cbn [count_occ]. replace (S s + m) with (s + S m) by lia.
        destruct (Z.eq_dec z (Z.of_nat s)), (Z.leb_spec (Z.of_nat s) z), (Z.leb_spec (Z.of_nat (S s)) z), (Z.ltb_spec z (Z.of_nat (s + S m))); cbn [andb]; lia. }
    rewrite G by apply seq_NoDup. rewrite IH. cbn [Nat.add Z.of_nat]. destruct ((0 <=? z) && (z <? Z.of_nat n))%Z; cbn [List.length]; lia.
Qed.
Theorem density_trace results n : results <> [] ->
  csum n (fun i => RtoC (fraction results i)) = RtoC (INR (List.length (filter (fun z => (0 <=? z)%Z && (z <? Z.of_nat n)%Z) results)) / INR (List.length results)).
Proof.
  intros Hr. unfold fraction. rewrite <- counts_sum.
  transitivity (csum n (fun i => (RtoC (/ INR (List.length results)) * RtoC (INR (count_occ Z.eq_dec results (Z.of_nat i))))%C)).
  { apply csum_ext. intros k _. unfold Rdiv. rewrite RtoC_mul. ring. }
  rewrite csum_mul_l, csum_INR. unfold Rdiv. rewrite RtoC_mul. ring.
Qed.
Theorem density_unit results n : results <> [] ->
  (csum n (fun i => RtoC (fraction results i)) = C1 <-> Forall (fun z => (0 <= z < Z.of_nat n)%Z) results).
Proof.
  intros Hr. rewrite density_trace by exact Hr. set (p := fun z => ((0 <=? z) && (z <? Z.of_nat n))%Z).
  assert (L : (0 < INR (List.length results))%R). { apply lt_0_INR. destruct results; [contradiction|cbn; lia]. }
  assert (Q : List.length (filter p results) = List.length results <-> Forall (fun z => (0 <= z < Z.of_nat n)%Z) results).
  { clear. induction results as [|z l IH]; [split; [constructor|reflexivity]|]. cbn [filter List.length]. rewrite Forall_cons_iff, <- IH.
    assert (B : List.length (filter p l) <= List.length l) by (clear; induction l as [|x l IH]; cbn; [lia|]; destruct (p x); cbn; lia).
    unfold p at 1. destruct (Z.leb_spec 0 z), (Z.ltb_spec z (Z.of_nat n)); cbn [andb List.length]; split; intros; try lia; destruct H1; try lia. }
  rewrite <- Q. split.
  - intros E. injection E as E. apply INR_eq. apply (Rmult_eq_compat_r (INR (List.length results))) in E. unfold Rdiv in E. rewrite Rmult_assoc, Rinv_l in E by lra. lra.
  - intros ->. unfold Rdiv. rewrite Rinv_r by lra. reflexivity.
Qed.
