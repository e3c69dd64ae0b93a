(** The predefined states. *)
From Coq Require Import Reals List Arith Lia Lra String Permutation.
From Verif.Base Require Import Py PyFacts Cplx Matrix Radix.
From Verif.Sim Require Import TnSpec.
From Verif.Local Require Import QrMath.
From Verif.State Require Import DdModel DdSpec DdProofs CutProofs PrepSpec RetrieveModel RetrieveSpec.
Import ListNotations.
Local Open Scope nat_scope.

Lemma seq_from b n : seq (0 + b) n = map (fun k => b + k) (seq 0 n).
Proof.
  rewrite Nat.add_0_l. replace b with (b + 0) at 1 by lia. generalize 0. induction n as [|n IH]; intros z; [reflexivity|]. cbn [seq map].
  f_equal. rewrite <- IH. f_equal. lia.
Qed.
Lemma combinations dims : generate_all_combinations dims = map (digits dims) (seq 0 (prodl dims)).
Proof.
  induction dims as [|d r IH]; [reflexivity|]. cbn [generate_all_combinations prodl]. rewrite IH. clear IH.
  induction d as [|d IH]; [reflexivity|].
  rewrite seq_S, flat_map_app, IH. cbn [flat_map Nat.add]. rewrite app_nil_r.
  replace (Datatypes.S d * prodl r) with (d * prodl r + prodl r) by lia. rewrite seq_app, map_app. f_equal.
  rewrite map_map. replace (seq (0 + d * prodl r) (prodl r)) with (map (fun k => d * prodl r + k) (seq 0 (prodl r))).
  - rewrite map_map. apply map_ext_in. intros k Hk. apply in_seq in Hk. cbn [digits].
    rewrite Nat.div_add_l, Nat.div_small, Nat.add_0_r by lia. rewrite Nat.add_comm, Nat.mod_add, Nat.mod_small by lia. reflexivity.
  - symmetry. apply seq_from.
Qed.
Lemma combinations_length dims : List.length (generate_all_combinations dims) = prodl dims.
Proof. rewrite combinations, map_length, seq_length. reflexivity. Qed.

Definition entry_dec : forall a b : list nat, {a = b} + {a <> b} := list_eq_dec Nat.eq_dec.
Definition inb (e : list nat) (l : list (list nat)) : bool := if in_dec entry_dec e l then true else false.
Lemma inb_true e l : inb e l = true <-> In e l.
Proof. unfold inb. destruct (in_dec entry_dec e l); split; intros; try reflexivity; try discriminate; try assumption; contradiction. Qed.
Lemma same_entry_eq a b : List.length a = List.length b -> same_entry a b = Ok (if entry_dec a b then true else false).
Proof.
  revert b. induction a as [|x r IH]; intros [|y s] H; cbn in H; try discriminate; [destruct (entry_dec [] []); [reflexivity|contradiction]|].
  cbn [same_entry]. destruct (Nat.eqb_spec x y) as [->|N].
  - rewrite IH by lia. destruct (entry_dec r s) as [E|M], (entry_dec (y :: r) (y :: s)) as [E'|M']; try reflexivity; exfalso; congruence.
  - destruct (entry_dec (x :: r) (y :: s)) as [E|M]; [congruence|reflexivity].
Qed.
Lemma mapr_eq {A B} (f : A -> res B) g l : (forall x, In x l -> f x = Ok (g x)) -> mapr f l = Ok (map g l).
Proof. induction l as [|x r IH]; intros H; [reflexivity|]. cbn. rewrite (H x (or_introl eq_refl)). rewrite IH by (intros; apply H; right; assumption). reflexivity. Qed.
Lemma insert_perm x l : Permutation (insert_nat x l) (x :: l).
Proof. induction l as [|y r IH]; cbn; [reflexivity|]. destruct (Nat.leb x y); [reflexivity|]. rewrite IH. apply perm_swap. Qed.
Lemma sort_perm l : Permutation (sort_nat l) l.
Proof. induction l as [|x r IH]; cbn; [reflexivity|]. rewrite insert_perm. constructor. exact IH. Qed.

Lemma filter_combine {A} (f : A -> bool) (l : list A) z k : In k (map fst (filter snd (combine (seq z (List.length l)) (map f l)))) <-> exists i x, k = z + i /\ nth_error l i = Some x /\ f x = true.
Proof.
  revert z. induction l as [|x r IH]; intros z; cbn; [split; [contradiction|intros (i & x & _ & E & _); destruct i; discriminate]|].
  destruct (f x) eqn:F; cbn; rewrite IH; split.
  - intros [<-|(i & y & -> & E & Fy)]; [exists 0, x; split; [lia|split; [reflexivity|exact F]]|exists (Datatypes.S i), y; split; [lia|split; assumption]].
  - intros (i & y & -> & E & Fy). destruct i as [|i]; [left; lia|right; exists i, y; split; [lia|split; assumption]].
  - intros (i & y & -> & E & Fy). exists (Datatypes.S i), y. split; [lia|split; assumption].
  - intros (i & y & -> & E & Fy). destruct i as [|i]; cbn in E; [congruence|exists i, y; split; [lia|split; assumption]].
Qed.
Lemma nth_digits_error dims i : nth_error (map (digits dims) (seq 0 (prodl dims))) i = if i <? prodl dims then Some (digits dims i) else None.
Proof.
  destruct (Nat.ltb_spec i (prodl dims)).
  - rewrite (map_nth_error _ _ _ (d := i)); [reflexivity|]. rewrite (nth_error_nth' _ 0) by (rewrite seq_length; assumption). rewrite seq_nth by assumption. reflexivity.
  - apply nth_error_None. rewrite map_length, seq_length. assumption.
Qed.
Lemma find_ok dims entries : (forall e, In e entries -> List.length e = List.length dims) ->
  exists idx, find_entries_indices (generate_all_combinations dims) entries = Ok idx /\ forall k, In k idx <-> k < prodl dims /\ In (digits dims k) entries.
Proof.
  intros L. unfold find_entries_indices.
  set (f := fun state : list nat => map fst (filter snd (combine (seq 0 (List.length (generate_all_combinations dims))) (map (fun c => if entry_dec c state then true else false) (generate_all_combinations dims))))).
  rewrite (mapr_eq _ f).
  2:{ intros e He. rewrite (mapr_eq _ (fun c => if entry_dec c e then true else false)); [reflexivity|]. intros c Hc. apply same_entry_eq. rewrite (L e He).
      rewrite combinations in Hc. apply in_map_iff in Hc. destruct Hc as (k & <- & _). apply length_digits. }
  cbn. eexists. split; [reflexivity|]. intros k.
  transitivity (In k (concat (map f entries))).
  { split; apply Permutation_in; [|symmetry]; apply sort_perm. }
  rewrite <- flat_map_concat_map, in_flat_map. split.
  - intros (e & He & Hk). unfold f in Hk. apply filter_combine in Hk. destruct Hk as (i & x & -> & E & F). cbn.
    rewrite combinations, nth_digits_error in E. destruct (Nat.ltb_spec i (prodl dims)); [|discriminate]. injection E as <-. destruct (entry_dec (digits dims i) e) as [->|]; [|discriminate]. split; assumption.
  - intros [Hk He]. exists (digits dims k). split; [exact He|]. unfold f. apply filter_combine. exists k, (digits dims k). split; [reflexivity|]. split.
    + rewrite combinations, nth_digits_error. apply Nat.ltb_lt in Hk. rewrite Hk. reflexivity.
    + destruct (entry_dec (digits dims k) (digits dims k)); [reflexivity|contradiction].
Qed.

(** entries *)
Lemma put_length j i l : List.length (put j i l) = List.length l.
Proof. revert j. induction l as [|x r IH]; intros [|j]; cbn; try reflexivity. rewrite IH. reflexivity. Qed.
Lemma put_nth j i l k : j < List.length l -> nth k (put j i l) 0 = if Nat.eqb k j then i else nth k l 0.
Proof.
  revert j k. induction l as [|x r IH]; intros j k Hj; cbn in Hj; [lia|]. destruct j as [|j], k as [|k]; cbn; try reflexivity. apply IH. lia.
Qed.
Lemma nth_zeros n k : nth k (repeat 0 n) 0 = 0.
Proof. revert k. induction n as [|n IH]; intros [|k]; cbn; try reflexivity. apply IH. Qed.
Lemma put_excited (dims : list nat) j i : j < List.length dims -> excited dims (put j i (repeat 0 (List.length dims))) j i.
Proof.
  intros H. split; [rewrite put_length, repeat_length; reflexivity|]. split; [exact H|]. intros k _. rewrite put_nth by (rewrite repeat_length; exact H). rewrite nth_zeros. reflexivity.
Qed.
Lemma excited_put dims e j i : excited dims e j i -> e = put j i (repeat 0 (List.length dims)).
Proof.
  intros (L & Hj & H). destruct (put_excited dims j i Hj) as (L' & _ & H'). apply list_nth_ext; [congruence|]. intros k Hk. rewrite L in Hk. rewrite H, H' by assumption. reflexivity.
Qed.
Lemma excited_inj dims e j i j' i' : excited dims e j i -> excited dims e j' i' -> i <> 0 -> j = j' /\ i = i'.
Proof.
  intros (_ & Hj & H) (_ & _ & H') N. pose proof (H j Hj) as A. pose proof (H' j Hj) as B. rewrite Nat.eqb_refl in A. destruct (Nat.eqb_spec j j'); [split; congruence|congruence].
Qed.

Lemma fold_min_le r d : fold_left Nat.min r d <= d /\ forall x, In x r -> fold_left Nat.min r d <= x.
Proof.
  revert d. induction r as [|y r IH]; intros d; cbn; [split; [lia|contradiction]|]. destruct (IH (Nat.min d y)) as [A B]. split; [lia|]. intros x [<-|H]; [lia|apply B; exact H].
Qed.
Lemma fold_min_in r d : fold_left Nat.min r d = d \/ In (fold_left Nat.min r d) r.
Proof.
  revert d. induction r as [|y r IH]; intros d; cbn; [left; reflexivity|]. destruct (IH (Nat.min d y)) as [E|E]; [|right; right; exact E].
  rewrite E. destruct (Nat.min_spec d y) as [[_ ->]|[_ ->]]; [left; reflexivity|right; left; reflexivity].
Qed.
Lemma min_list_spec dims m : min_list dims = Ok m -> forall i, i < m <-> (forall d, In d dims -> i < d).
Proof.
  destruct dims as [|d r]; cbn; [discriminate|]. intros E i. injection E as <-. destruct (fold_min_le r d) as [A B]. split.
  - intros Hi x [<-|Hx]; [lia|]. specialize (B x Hx). lia.
  - intros H. destruct (fold_min_in r d) as [E|E]; [rewrite E; apply H; left; reflexivity|apply H; right; exact E].
Qed.

Lemma repeat_nth_all (e : list nat) i : (forall x, In x e -> x = i) -> e = repeat i (List.length e).
Proof. induction e as [|x r IH]; intros H; cbn; [reflexivity|]. rewrite (H x (or_introl eq_refl)) at 1. f_equal. apply IH. intros; apply H; right; assumption. Qed.

Lemma ghz_entries dims : dims <> [] -> exists l, generate_ghz_entries dims = Ok l /\ NoDup l /\ forall e, In e l <-> ghz_basis dims e.
Proof.
  intros N. unfold generate_ghz_entries. destruct (min_list dims) as [m|x] eqn:M; [|destruct dims; [contradiction|discriminate]]. cbn. eexists. split; [reflexivity|].
  pose proof (min_list_spec dims m M) as S. split.
  - apply FinFun.Injective_map_NoDup; [|apply seq_NoDup]. intros a b E. destruct dims; [contradiction|]. cbn in E. congruence.
  - intros e. rewrite in_map_iff. split.
    + intros (i & <- & Hi). apply in_seq in Hi. split; [apply repeat_length|]. exists i. split; [apply S; lia|]. intros x Hx. apply repeat_spec in Hx. exact Hx.
    + intros (L & i & Hi & H). exists i. split; [rewrite <- L; symmetry; apply repeat_nth_all; exact H|]. apply in_seq. apply S in Hi. lia.
Qed.

Lemma in_combine_seq (dims : list nat) z j d : In (j, d) (combine (seq z (List.length dims)) dims) <-> z <= j < z + List.length dims /\ d = nth (j - z) dims 0.
Proof.
  revert z. induction dims as [|x r IH]; intros z; cbn; [split; [contradiction|lia]|]. rewrite IH. split.
  - intros [E|[H ->]]; [injection E as <- <-; rewrite Nat.sub_diag; split; [lia|reflexivity]|]. split; [lia|]. replace (j - z) with (Datatypes.S (j - Datatypes.S z)) by lia. reflexivity.
  - intros [H ->]. destruct (Nat.eq_dec j z) as [->|N]; [left; rewrite Nat.sub_diag; reflexivity|right]. split; [lia|]. replace (j - z) with (Datatypes.S (j - Datatypes.S z)) by lia. reflexivity.
Qed.
Lemma w_entries dims e : In e (generate_qudit_w_entries dims) <-> w_basis dims e.
Proof.
  unfold generate_qudit_w_entries. rewrite in_flat_map. split.
  - intros ((j & d) & H & He). apply in_combine_seq in H. destruct H as [Hj ->]. rewrite Nat.sub_0_r in He. cbn [fst snd] in He. apply in_map_iff in He. destruct He as (i & <- & Hi). apply in_seq in Hi.
    exists j, i. split; [apply put_excited; lia|lia].
  - intros (j & i & H & Hi). pose proof H as (_ & Hj & _). exists (j, nth j dims 0). split; [apply in_combine_seq; rewrite Nat.sub_0_r; split; [lia|reflexivity]|].
    cbn [fst snd]. apply in_map_iff. exists i. split; [symmetry; apply excited_put; exact H|]. apply in_seq. lia.
Qed.
Lemma NoDup_flat_map {A B} (f : A -> list B) l : NoDup l -> (forall a, In a l -> NoDup (f a)) -> (forall a b x, In a l -> In b l -> In x (f a) -> In x (f b) -> a = b) -> NoDup (flat_map f l).
Proof.
  induction l as [|a r IH]; intros N F D; cbn; [constructor|]. inversion_clear N as [|? ? Na Nr].
  assert (G : NoDup (flat_map f r)). { apply IH; [exact Nr|intros; apply F; right; assumption|]. intros b c x Hb Hc. apply D; right; assumption. }
  assert (X : forall x, In x (f a) -> ~ In x (flat_map f r)).
  { intros x Hx Hr. apply in_flat_map in Hr. destruct Hr as (b & Hb & Hxb). assert (a = b) by (apply (D a b x); [left; reflexivity|right; exact Hb|exact Hx|exact Hxb]). subst. contradiction. }
  pose proof (F a (or_introl eq_refl)) as Fa. revert Fa X. generalize (f a). intros l. induction l as [|x l IHl]; cbn; intros Fa X; [exact G|]. inversion_clear Fa as [|? ? Nx Nl].
  constructor; [intros H; apply in_app_iff in H; destruct H as [H|H]; [contradiction|apply (X x (or_introl eq_refl) H)]|]. apply IHl; [exact Nl|]. intros y Hy. apply X. right. exact Hy.
Qed.
Lemma w_nodup dims : NoDup (generate_qudit_w_entries dims).
Proof.
  unfold generate_qudit_w_entries. apply NoDup_flat_map.
  - apply (NoDup_map_inv fst). replace (map fst (combine (seq 0 (List.length dims)) dims)) with (seq 0 (List.length dims)); [apply seq_NoDup|].
    generalize 0. induction dims as [|d r IH]; intros z; cbn; [reflexivity|]. f_equal. apply IH.
  - intros (j & d) H. apply in_combine_seq in H. destruct H as [Hj _]. cbn [fst snd].
    assert (X : forall l, NoDup l -> NoDup (map (fun i => put j i (repeat 0 (List.length dims))) l)); [|apply X, seq_NoDup].
    intros l Nl. apply FinFun.Injective_map_NoDup; [|exact Nl]. intros a b E. pose proof (f_equal (fun l => nth j l 0) E) as F. cbn in F. rewrite !put_nth, Nat.eqb_refl in F by (rewrite repeat_length; lia). exact F.
  - intros (j & d) (j' & d') x H H' Hx Hx'. apply in_combine_seq in H, H'. destruct H as [Hj ->], H' as [Hj' ->]. rewrite Nat.sub_0_r in *. cbn [fst snd] in *.
    apply in_map_iff in Hx, Hx'. destruct Hx as (i & <- & Hi), Hx' as (i' & E & Hi'). apply in_seq in Hi, Hi'.
    assert (P : excited dims (put j i (repeat 0 (List.length dims))) j i) by (apply put_excited; lia).
    assert (P' : excited dims (put j i (repeat 0 (List.length dims))) j' i') by (rewrite <- E; apply put_excited; lia).
    destruct (excited_inj _ _ _ _ _ _ P P' ltac:(lia)) as [-> _]. rewrite ?Nat.sub_0_r. reflexivity.
Qed.
Lemma embedded_entries dims e : In e (generate_embedded_w_entries dims) <-> embedded_basis dims e.
Proof.
  unfold generate_embedded_w_entries. rewrite in_map_iff. split.
  - intros (j & <- & Hj). apply in_seq in Hj. exists j. apply put_excited. lia.
  - intros (j & H). exists j. split; [symmetry; apply excited_put; exact H|]. destruct H as (_ & H & _). apply in_seq. lia.
Qed.
Lemma NoDup_map_in {A B} (f : A -> B) l : NoDup l -> (forall a b, In a l -> In b l -> f a = f b -> a = b) -> NoDup (map f l).
Proof.
  induction l as [|x r IH]; intros N H; cbn; [constructor|]. inversion_clear N as [|? ? Nx Nr]. constructor.
  - rewrite in_map_iff. intros (y & E & Hy). apply Nx. rewrite <- (H y x (or_intror Hy) (or_introl eq_refl) E). exact Hy.
  - apply IH; [exact Nr|]. intros a b Ha Hb. apply H; right; assumption.
Qed.
Lemma embedded_nodup dims : NoDup (generate_embedded_w_entries dims).
Proof.
  unfold generate_embedded_w_entries. apply NoDup_map_in; [apply seq_NoDup|]. intros a b Ha Hb E. apply in_seq in Ha, Hb.
  assert (P : excited dims (put a 1 (repeat 0 (List.length dims))) a 1) by (apply put_excited; lia).
  assert (P' : excited dims (put a 1 (repeat 0 (List.length dims))) b 1) by (rewrite E; apply put_excited; lia).
  apply (excited_inj _ _ _ _ _ _ P P'). lia.
Qed.

(** the vector *)
Definition validb (dims e : list nat) : bool := Nat.eqb (List.length e) (List.length dims) && forallb (fun xd => fst xd <? snd xd) (combine e dims).
Lemma validb_true dims e : validb dims e = true <-> valid dims e.
Proof.
  unfold validb. revert dims. induction e as [|x e IH]; intros [|d r]; cbn; try (split; [discriminate|intros H; inversion H]).
  - split; [constructor|reflexivity].
  - rewrite !Bool.andb_true_iff. specialize (IH r). rewrite Bool.andb_true_iff in IH. split.
    + intros (L & H & F). apply Nat.ltb_lt in H. constructor; [exact H|]. apply IH. split; assumption.
    + intros H. inversion_clear H as [|? ? ? ? Hx Hr]. apply Nat.ltb_lt in Hx. apply IH in Hr. destruct Hr. repeat split; assumption.
Qed.
Lemma count_entries dims c entries : NoDup entries -> rsum (prodl dims) (fun k => if inb (digits dims k) entries then c else 0%R) = (INR (List.length (filter (validb dims) entries)) * c)%R.
Proof.
  induction entries as [|e r IH]; intros N.
  - rewrite rsum_0 by reflexivity. cbn. ring.
  - inversion_clear N as [|? ? Ne Nr]. specialize (IH Nr). cbn [filter]. destruct (validb dims e) eqn:V.
    + apply validb_true in V. cbn [List.length]. rewrite S_INR, Rmult_plus_distr_r, <- IH, Rmult_1_l.
      pose proof (rsum_pick (prodl dims) (fun _ => c) (undigits dims e) (undigits_lt _ _ V)) as PK. cbv beta in PK.
      match goal with |- _ = (?a + c)%R => transitivity (a + rsum (prodl dims) (fun k => if Nat.eqb k (undigits dims e) then c else 0%R))%R; [|rewrite PK; reflexivity] end. clear PK. rewrite <- rsum_add. apply rsum_ext. intros k Hk.
      destruct (Nat.eqb_spec k (undigits dims e)) as [->|M].
      * rewrite digits_undigits by exact V. replace (inb e (e :: r)) with true by (symmetry; apply inb_true; left; reflexivity).
        replace (inb e r) with false; [ring|]. destruct (inb e r) eqn:Q; [apply inb_true in Q; contradiction|reflexivity].
      * replace (inb (digits dims k) (e :: r)) with (inb (digits dims k) r); [destruct (inb _ _); ring|].
        destruct (inb (digits dims k) r) eqn:Q; symmetry.
        -- apply inb_true. right. apply inb_true. exact Q.
        -- destruct (inb (digits dims k) (e :: r)) eqn:Q'; [|reflexivity]. apply inb_true in Q'. destruct Q' as [E|E]; [|apply inb_true in E; congruence].
           exfalso. apply M. rewrite E. symmetry. apply undigits_digits. exact Hk.
    + rewrite <- IH. apply rsum_ext. intros k Hk. destruct (inb (digits dims k) r) eqn:Q.
      * replace (inb (digits dims k) (e :: r)) with true; [reflexivity|]. symmetry. apply inb_true. right. apply inb_true. exact Q.
      * destruct (inb (digits dims k) (e :: r)) eqn:Q'; [|reflexivity]. apply inb_true in Q'. destruct Q' as [E|E]; [|apply inb_true in E; congruence].
        subst e. assert (W : validb dims (digits dims k) = true) by (apply validb_true; apply valid_digits; exact Hk). congruence.
Qed.

Lemma uniform_general dims name entries : state_entries dims name = Ok entries -> entries <> [] -> NoDup entries -> (forall e, In e entries -> List.length e = List.length dims) ->
  exists v, generate_uniform_state dims name = Ok v /\ uniform_on dims (fun e => In e entries) v /\
    norm2 (prodl dims) (vec_of v) = (INR (List.length (filter (validb dims) entries)) / INR (List.length entries))%R.
Proof.
  intros E NE ND L. unfold generate_uniform_state. rewrite E. cbn [bindr].
  assert (P : (0 < INR (List.length entries))%R) by (apply lt_0_INR; destruct entries; [contradiction|cbn; lia]).
  set (x := sqrt (1 / INR (List.length entries))).
  assert (X : (0 < x)%R) by (apply sqrt_lt_R0; apply Rdiv_lt_0_compat; lra).
  replace (match List.length entries with 0 => Err ZeroDivisionError | Datatypes.S m => Ok (sqrt (1 / INR (Datatypes.S m))) end) with (@Ok R x) by (unfold x; destruct entries; [contradiction|reflexivity]).
  cbn [bindr]. destruct (find_ok dims entries L) as (idx & F & Hi). rewrite F. cbn [bindr]. eexists. split; [reflexivity|].
  assert (NTH : forall k, k < prodl dims -> nth k (map (fun k => if existsb (Nat.eqb k) idx then RtoC x else C0) (seq 0 (List.length (generate_all_combinations dims)))) C0 = if inb (digits dims k) entries then RtoC x else C0).
  { intros k Hk. rewrite combinations_length. rewrite (nth_indep _ C0 (if existsb (Nat.eqb 0) idx then RtoC x else C0)) by (rewrite map_length, seq_length; exact Hk).
    rewrite (map_nth (fun k => if existsb (Nat.eqb k) idx then RtoC x else C0)), seq_nth by exact Hk. cbn [Nat.add].
    destruct (existsb (Nat.eqb k) idx) eqn:Q, (inb (digits dims k) entries) eqn:Q'; try reflexivity.
    - apply existsb_exists in Q. destruct Q as (y & Hy & Ey). apply Nat.eqb_eq in Ey. subst y. apply Hi in Hy. destruct Hy as [_ Hy]. apply inb_true in Hy. congruence.
    - apply inb_true in Q'. assert (Hy : In k idx) by (apply Hi; split; assumption). enough (existsb (Nat.eqb k) idx = true) by congruence. apply existsb_exists. exists k. split; [exact Hy|apply Nat.eqb_refl]. }
  split; [split; [rewrite map_length, seq_length, combinations_length; reflexivity|]|].
  - exists x. split; [exact X|]. intros e V. pose proof (undigits_lt _ _ V) as K. rewrite (NTH _ K), (digits_undigits _ _ V). split; intros H.
    + replace (inb e entries) with true; [reflexivity|]. symmetry. apply inb_true. exact H.
    + destruct (inb e entries) eqn:Q; [apply inb_true in Q; contradiction|reflexivity].
  - unfold norm2. rewrite (rsum_ext _ _ (fun k => if inb (digits dims k) entries then (/ INR (List.length entries))%R else 0%R)).
    + rewrite count_entries by exact ND. reflexivity.
    + intros k Hk. unfold vec_of. rewrite (NTH k Hk). destruct (inb _ _); [|unfold Cnorm2, C0; cbn; ring].
      unfold Cnorm2, RtoC. cbn. rewrite Rmult_0_l, Rplus_0_r. unfold x. rewrite sqrt_sqrt; [|apply Rlt_le, Rdiv_lt_0_compat; lra]. unfold Rdiv. ring.
Qed.
Lemma filter_all {A} (f : A -> bool) l : (forall x, In x l -> f x = true) -> filter f l = l.
Proof. induction l as [|x r IH]; intros H; cbn; [reflexivity|]. rewrite (H x (or_introl eq_refl)), IH; [reflexivity|]. intros; apply H; right; assumption. Qed.
Lemma uniform_valid dims name entries basis : state_entries dims name = Ok entries -> entries <> [] -> NoDup entries -> (forall e, In e entries <-> basis e) -> (forall e, basis e -> valid dims e) ->
  exists v, generate_uniform_state dims name = Ok v /\ uniform_on dims basis v /\ norm2 (prodl dims) (vec_of v) = 1%R.
Proof.
  intros E NE ND B V. destruct (uniform_general dims name entries E NE ND) as (v & G & U & N).
  { intros e He. apply valid_length, V, B, He. }
  exists v. split; [exact G|]. split.
  - destruct U as (L & x & X & U). split; [exact L|]. exists x. split; [exact X|]. intros e Ve. destruct (U e Ve) as [U1 U2]. split; intros H; [apply U1, B, H|apply U2; intros He; apply H, B, He].
  - rewrite N. rewrite filter_all by (intros e He; apply validb_true, V, B, He). field. apply not_0_INR. destruct entries; [contradiction|discriminate].
Qed.

Lemma excited_valid dims e j i : (forall d, In d dims -> 0 < d) -> excited dims e j i -> i < nth j dims 0 -> valid dims e.
Proof.
  intros P (L & Hj & H) Hi. apply valid_nth; [exact L|]. intros k Hk. rewrite (H k Hk). destruct (Nat.eqb_spec k j) as [->|_]; [exact Hi|]. apply P, nth_In, Hk.
Qed.
Lemma ghz_valid dims e : ghz_basis dims e -> valid dims e.
Proof.
  intros (L & i & Hi & H). apply valid_nth; [exact L|]. intros k Hk. rewrite (H (nth k e 0)) by (apply nth_In; lia). apply Hi, nth_In, Hk.
Qed.

Lemma ghz_state dims : dims <> [] -> (forall d, In d dims -> 0 < d) -> exists v, generate_uniform_state dims "ghz" = Ok v /\ uniform_on dims (ghz_basis dims) v /\ norm2 (prodl dims) (vec_of v) = 1%R.
Proof.
  intros N P. destruct (ghz_entries dims N) as (l & E & ND & B). apply (uniform_valid dims "ghz" l); [exact E| |exact ND|exact B|apply ghz_valid].
  intros ->. apply (proj2 (B (repeat 0 (List.length dims)))). split; [apply repeat_length|]. exists 0. split; [exact P|]. intros x Hx. apply repeat_spec in Hx. exact Hx.
Qed.
Lemma w_state dims : (forall d, In d dims -> 0 < d) -> (exists d, In d dims /\ 1 < d) -> exists v, generate_uniform_state dims "qudit-w-state" = Ok v /\ uniform_on dims (w_basis dims) v /\ norm2 (prodl dims) (vec_of v) = 1%R.
Proof.
  intros P (d & Hd & D). apply (uniform_valid dims "qudit-w-state" (generate_qudit_w_entries dims)); [reflexivity| |apply w_nodup|apply w_entries|].
  - apply (In_nth _ _ 0) in Hd. destruct Hd as (j & Hj & <-). intros E. apply (in_nil (a := put j 1 (repeat 0 (List.length dims)))). rewrite <- E. apply w_entries. exists j, 1. split; [apply put_excited, Hj|lia].
  - intros e (j & i & H & Hi). apply (excited_valid dims e j i P H). lia.
Qed.
Lemma w_error dims : (forall d, In d dims -> d <= 1) -> generate_uniform_state dims "qudit-w-state" = Err ZeroDivisionError.
Proof.
  intros P. unfold generate_uniform_state. cbn [state_entries String.eqb Ascii.eqb Bool.eqb bindr].
  destruct (generate_qudit_w_entries dims) as [|e r] eqn:E; [reflexivity|]. exfalso. assert (H : In e (generate_qudit_w_entries dims)) by (rewrite E; left; reflexivity).
  apply w_entries in H. destruct H as (j & i & (_ & Hj & _) & Hi). assert (nth j dims 0 <= 1) by (apply P, nth_In, Hj). lia.
Qed.
Lemma embedded_state dims : dims <> [] -> (forall d, In d dims -> 1 < d) -> exists v, generate_uniform_state dims "embedded-w-state" = Ok v /\ uniform_on dims (embedded_basis dims) v /\ norm2 (prodl dims) (vec_of v) = 1%R.
Proof.
  intros N P. apply (uniform_valid dims "embedded-w-state" (generate_embedded_w_entries dims)); [reflexivity| |apply embedded_nodup|apply embedded_entries|].
  - destruct dims; [contradiction|discriminate].
  - intros e (j & H). apply (excited_valid dims e j 1); [intros d Hd; specialize (P d Hd); lia|exact H|]. destruct H as (_ & Hj & _). apply P, nth_In, Hj.
Qed.
Lemma filter_map {A B} (f : B -> bool) (g : A -> B) l : filter f (map g l) = map g (filter (fun x => f (g x)) l).
Proof. induction l as [|x r IH]; cbn; [reflexivity|]. destruct (f (g x)); cbn; rewrite IH; reflexivity. Qed.
Lemma filter_seq_nth (f : nat -> bool) (dims : list nat) : List.length (filter (fun j => f (nth j dims 0)) (seq 0 (List.length dims))) = List.length (filter f dims).
Proof.
  induction dims as [|d r IH]; [reflexivity|]. cbn [List.length seq filter nth]. rewrite <- seq_shift, filter_map. destruct (f d); cbn [List.length]; rewrite map_length; rewrite <- IH; reflexivity.
Qed.
Lemma embedded_short dims : dims <> [] -> (forall d, In d dims -> 0 < d) -> exists v, generate_uniform_state dims "embedded-w-state" = Ok v /\
  norm2 (prodl dims) (vec_of v) = (INR (List.length (filter (fun d => 1 <? d) dims)) / INR (List.length dims))%R.
Proof.
  intros N P. destruct (uniform_general dims "embedded-w-state" (generate_embedded_w_entries dims)) as (v & G & U & M).
  - reflexivity.
  - destruct dims; [contradiction|discriminate].
  - apply embedded_nodup.
  - intros e He. apply embedded_entries in He. destruct He as (j & L & _). exact L.
  - exists v. split; [exact G|]. rewrite M. f_equal; [|unfold generate_embedded_w_entries; rewrite map_length, seq_length; reflexivity].
    rewrite <- filter_seq_nth. unfold generate_embedded_w_entries. rewrite filter_map, map_length. do 2 f_equal. apply filter_ext_in. intros j Hj. apply in_seq in Hj.
    pose proof (put_excited dims j 1 ltac:(lia)) as X. destruct (Nat.ltb_spec 1 (nth j dims 0)) as [H|H].
    + apply validb_true. apply (excited_valid _ _ j 1 P X H).
    + destruct (validb dims _) eqn:V; [|reflexivity]. apply validb_true in V. exfalso.
      assert (Y : forall ds xs, valid ds xs -> forall k, k < List.length ds -> nth k xs 0 < nth k ds 0).
      { clear. intros ds xs H. induction H as [|x d xs ds Hx H IH]; intros k Hk; cbn in Hk; [lia|]. destruct k; cbn; [exact Hx|apply IH; lia]. }
      specialize (Y _ _ V j ltac:(lia)). destruct X as (_ & _ & X). rewrite (X j) in Y by lia. rewrite Nat.eqb_refl in Y. lia.
Qed.
Lemma filter_le {A} (f : A -> bool) l : List.length (filter f l) <= List.length l.
Proof. induction l as [|x r IH]; cbn; [lia|]. destruct (f x); cbn; lia. Qed.
Lemma filter_lt {A} (f : A -> bool) l x : In x l -> f x = false -> List.length (filter f l) < List.length l.
Proof.
  induction l as [|y r IH]; [contradiction|]. intros [<-|H] F; cbn.
  - rewrite F. pose proof (filter_le f r). lia.
  - specialize (IH H F). destruct (f y); cbn; lia.
Qed.
Lemma embedded_defect dims : (forall d, In d dims -> 0 < d) -> In 1 dims -> exists v, generate_uniform_state dims "embedded-w-state" = Ok v /\ (norm2 (prodl dims) (vec_of v) < 1)%R.
Proof.
  intros P H. destruct (embedded_short dims) as (v & G & M); [intros ->; contradiction|exact P|]. exists v. split; [exact G|]. rewrite M.
  assert (L := filter_lt (fun d => 1 <? d) dims 1 H eq_refl). apply lt_INR in L. assert (0 < INR (List.length dims))%R by (pose proof (pos_INR (List.length (filter (fun d => 1 <? d) dims))); lra).
  apply (Rmult_lt_reg_r (INR (List.length dims))); [assumption|]. unfold Rdiv. rewrite Rmult_assoc, Rinv_l by lra. lra.
Qed.
Lemma wrong_name dims name : name <> "qudit-w-state"%string -> name <> "embedded-w-state"%string -> name <> "ghz"%string -> generate_uniform_state dims name = Err ValueError.
Proof.
  intros A B D. unfold generate_uniform_state, state_entries. apply String.eqb_neq in A, B, D. rewrite A, B, D. reflexivity.
Qed.

(** state preparation applies *)
Lemma uniform_nonzero dims basis v e : uniform_on dims basis v -> valid dims e -> (basis e \/ ~ basis e) -> nth (undigits dims e) v C0 <> C0 <-> basis e.
Proof.
  intros (L & x & X & U) V D. destruct (U e V) as [A B]. split.
  - intros H. destruct D as [D|D]; [exact D|]. rewrite (B D) in H. contradiction.
  - intros H. rewrite (A H). unfold RtoC, C0. intros E. injection E as E. lra.
Qed.

Lemma ghz_dec dims e : dims <> [] -> ghz_basis dims e \/ ~ ghz_basis dims e.
Proof. intros N. destruct (ghz_entries dims N) as (l & _ & _ & B). destruct (in_dec entry_dec e l); [left|right]; rewrite <- B; assumption. Qed.
Lemma w_dec dims e : w_basis dims e \/ ~ w_basis dims e.
Proof. destruct (in_dec entry_dec e (generate_qudit_w_entries dims)); [left|right]; rewrite <- w_entries; assumption. Qed.
Lemma embedded_dec dims e : embedded_basis dims e \/ ~ embedded_basis dims e.
Proof. destruct (in_dec entry_dec e (generate_embedded_w_entries dims)); [left|right]; rewrite <- embedded_entries; assumption. Qed.

Lemma valid_pos dims e : valid dims e -> forall d, In d dims -> 0 < d.
Proof. intros V. induction V as [|x d xs ds Hx V IH]; cbn; [contradiction|]. intros y [<-|Hy]; [lia|apply IH; exact Hy]. Qed.
Lemma ghz_used dims v : uniform_on dims (ghz_basis dims) v -> first_branch_used dims v.
Proof.
  intros U p i j s s' L N V V' H H'. assert (NE : dims <> []) by (intros ->; cbn in L; lia).
  apply (uniform_nonzero _ _ _ _ U V (ghz_dec _ _ NE)) in H. apply (uniform_nonzero _ _ _ _ U V' (ghz_dec _ _ NE)) in H'.
  destruct p as [|x p].
  - exists (repeat 0 (List.length dims - 1)). assert (G : ghz_basis dims ([] ++ 0 :: repeat 0 (List.length dims - 1))).
    { split; [cbn; rewrite repeat_length; cbn in L; lia|]. exists 0. split; [apply (valid_pos _ _ V)|]. intros x [<-|Hx]; [reflexivity|]. apply repeat_spec in Hx. exact Hx. }
    pose proof (ghz_valid _ _ G) as W. split; [exact W|]. apply (uniform_nonzero _ _ _ _ U W (ghz_dec _ _ NE)). exact G.
  - exfalso. apply N. destruct H as (_ & c & _ & A), H' as (_ & c' & _ & A').
    assert (i = x). { transitivity c; [|symmetry]; apply A; [apply in_app_iff; right; left; reflexivity|left; reflexivity]. }
    assert (j = x). { transitivity c'; [|symmetry]; apply A'; [apply in_app_iff; right; left; reflexivity|left; reflexivity]. } congruence.
Qed.
Lemma nth_here (p s : list nat) i : nth (List.length p) (p ++ i :: s) 0 = i.
Proof. rewrite app_nth2, Nat.sub_diag by lia. reflexivity. Qed.
Lemma w_used dims v : (forall d, In d dims -> 1 < d) -> uniform_on dims (w_basis dims) v -> first_branch_used dims v.
Proof.
  intros P U p i j s s' L N V V' H H'. pose proof H as HB. apply (uniform_nonzero _ _ _ _ U V (w_dec _ _)) in HB. pose proof H' as HB'. apply (uniform_nonzero _ _ _ _ U V' (w_dec _ _)) in HB'.
  destruct (Nat.eq_dec i 0) as [->|Ni]; [exists s; split; assumption|]. destruct (Nat.eq_dec j 0) as [->|Nj]; [exists s'; split; assumption|].
  destruct HB as (a & m & (Le & Ha & HA) & Hm).
  assert (a = List.length p). { pose proof (HA (List.length p) ltac:(lia)) as Q. rewrite nth_here in Q. destruct (Nat.eqb_spec (List.length p) a); [congruence|lia]. } subst a.
  set (n := List.length dims - List.length p - 2). exists (1 :: repeat 0 n).
  assert (G : w_basis dims (p ++ 0 :: 1 :: repeat 0 n)).
  { exists (Datatypes.S (List.length p)), 1. split; [|split; [lia|apply P, nth_In; exact L]]. split; [rewrite app_length; cbn; rewrite repeat_length; unfold n; lia|]. split; [exact L|].
    intros k Hk. destruct (Nat.lt_ge_cases k (List.length p)) as [K|K].
    - rewrite app_nth1 by exact K. specialize (HA k Hk). rewrite app_nth1 in HA by exact K. rewrite HA. destruct (Nat.eqb_spec k (List.length p)); [lia|]. destruct (Nat.eqb_spec k (Datatypes.S (List.length p))); [lia|reflexivity].
    - rewrite app_nth2 by exact K. destruct (k - List.length p) as [|[|q]] eqn:E.
      + destruct (Nat.eqb_spec k (Datatypes.S (List.length p))); [lia|reflexivity].
      + destruct (Nat.eqb_spec k (Datatypes.S (List.length p))); [reflexivity|lia].
      + cbn. rewrite nth_zeros. destruct (Nat.eqb_spec k (Datatypes.S (List.length p))); [lia|reflexivity]. }
  assert (W : valid dims (p ++ 0 :: 1 :: repeat 0 n)). { destruct G as (a & b & X & Hb). apply (excited_valid _ _ a b); [apply (valid_pos _ _ V)|exact X|lia]. }
  split; [exact W|]. apply (uniform_nonzero _ _ _ _ U W (w_dec _ _)). exact G.
Qed.
Lemma embedded_used dims v : uniform_on dims (embedded_basis dims) v -> first_branch_used dims v.
Proof.
  intros U p i j s s' L N V V' H H'. pose proof H as HB. apply (uniform_nonzero _ _ _ _ U V (embedded_dec _ _)) in HB. pose proof H' as HB'. apply (uniform_nonzero _ _ _ _ U V' (embedded_dec _ _)) in HB'.
  destruct HB as (a & _ & _ & A), HB' as (b & _ & _ & B). specialize (A (List.length p) ltac:(lia)). specialize (B (List.length p) ltac:(lia)). rewrite nth_here in A, B.
  destruct (Nat.eq_dec i 0) as [->|Ni]; [exists s; split; assumption|]. destruct (Nat.eq_dec j 0) as [->|Nj]; [exists s'; split; assumption|].
  exfalso. apply N. destruct (Nat.eqb _ a), (Nat.eqb _ b); congruence.
Qed.

(** norms *)
Lemma fold_norm2 l : fold_right Rplus 0%R (map Cnorm2 l) = norm2 (List.length l) (vec_of l).
Proof.
  rewrite sumR_fold. rewrite <- (rsum_list (map Cnorm2 l) (List.length l)) by apply map_length. apply rsum_ext. intros k Hk. unfold vec_of.
  rewrite (nth_indep _ 0%R (Cnorm2 C0)) by (rewrite map_length; exact Hk). apply map_nth.
Qed.
Lemma verify_iff state : verify_normalized_state state = true <-> (Rabs (norm2 (List.length state) (vec_of state) - 1) <= 11 / 1000000)%R.
Proof.
  unfold verify_normalized_state. rewrite fold_norm2, Rabs_R1. destruct (Rle_dec _ _) as [H|H]; split; intros X; try reflexivity; try discriminate; lra.
Qed.
Lemma random_ok re im dims : dims <> [] -> (exists k, k < prodl dims /\ (re k <> 0 \/ im k <> 0)%R) ->
  exists v, generate_random_quantum_state re im dims = Ok v /\ List.length v = prodl dims /\ norm2 (prodl dims) (vec_of v) = 1%R.
Proof.
  intros NE (k0 & H0 & Z). unfold generate_random_quantum_state. destruct dims as [|d r]; [contradiction|]. cbv zeta. set (dims := d :: r) in *.
  set (nums := @map nat C (fun k => (re k, im k)) (seq 0 (prodl dims))). assert (L : List.length nums = prodl dims) by (unfold nums; rewrite map_length, seq_length; reflexivity).
  rewrite fold_norm2, L. set (m := norm2 (prodl dims) (vec_of nums)).
  assert (NTH : forall k, k < prodl dims -> vec_of nums k = (re k, im k)).
  { intros k Hk. unfold vec_of. rewrite (nth_indep _ C0 ((re 0, im 0) : C)) by (rewrite L; exact Hk). unfold nums. rewrite (map_nth (fun k => ((re k, im k) : C)) (seq 0 (prodl dims)) 0), seq_nth by exact Hk. reflexivity. }
  assert (M : (0 < m)%R).
  { unfold m, norm2. apply Rlt_le_trans with (Cnorm2 (vec_of nums k0)); [|apply (rsum_term _ (fun k => Cnorm2 (vec_of nums k))); [intros i Hi; unfold Cnorm2; nra|exact H0]].
    rewrite (NTH _ H0). unfold Cnorm2. cbn. destruct Z as [Z|Z]; [assert (0 < re k0 * re k0)%R by nra|assert (0 < im k0 * im k0)%R by nra]; nra. }
  pose proof (sqrt_lt_R0 m M) as Q. destruct (Req_EM_T (sqrt m) 0) as [E|_]; [lra|]. eexists. split; [reflexivity|]. split; [rewrite map_length; exact L|].
  unfold norm2. rewrite (rsum_ext _ _ (fun k => (/ m * Cnorm2 (vec_of nums k))%R)).
  - rewrite rsum_scal. fold (norm2 (prodl dims) (vec_of nums)). fold m. field. lra.
  - intros k Hk. unfold vec_of. set (g := (fun z : C => ((fst z / sqrt m)%R, (snd z / sqrt m)%R)) : C -> C).
    rewrite (nth_indep _ C0 (g C0)) by (rewrite map_length, L; exact Hk). rewrite (map_nth g). unfold g, Cnorm2. cbn [fst snd].
    rewrite <- (sqrt_sqrt m) at 5 by lra. field. lra.
Qed.
Lemma unit_same n v : norm2 n v = 1%R -> forall k, unit_of n v k = v k.
Proof. intros E k. unfold unit_of. rewrite E, sqrt_1, Rinv_1. apply Ceq; cbn; ring. Qed.
