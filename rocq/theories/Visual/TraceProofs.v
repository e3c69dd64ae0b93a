(** The partial trace. *)
From Coq Require Import Reals Lra Lia List Arith ZArith Permutation.
From Verif.Base Require Import Py PyFacts Cplx Matrix Radix.
From Verif.Gates Require Import FactoryModel.
From Verif.Noise Require Import ChannelProofs.
From Verif.Visual Require Import VisModel VisSpec DensityProofs.
Import ListNotations.
Local Open Scope nat_scope.

(** *** Lists *)
Lemma filter_seq_bound (p : nat -> bool) A B : (forall l, A <= l -> p l = false) -> (forall l, B <= l -> p l = false) -> filter p (seq 0 A) = filter p (seq 0 B).
Proof.
  assert (G : forall A B, (forall l, A <= l -> p l = false) -> A <= B -> filter p (seq 0 A) = filter p (seq 0 B)).
  { intros a b H L. replace b with (a + (b - a)) by lia. rewrite seq_app, filter_app. cbn [Nat.add].
    assert (E : filter p (seq a (b - a)) = []).
    { assert (Q : forall l, In l (seq a (b - a)) -> p l = false) by (intros l Hl; apply in_seq in Hl; apply H; lia).
      revert Q. generalize (seq a (b - a)). induction l as [|x l IH]; intros Q; [reflexivity|]. cbn [filter]. rewrite (Q x (or_introl eq_refl)). apply IH. intros y Hy. apply Q. right. exact Hy. }
    rewrite E, app_nil_r. reflexivity. }
  intros HA HB. rewrite (G A (Nat.max A B)), (G B (Nat.max A B)) by (trivial; lia). reflexivity.
Qed.
Lemma index_nth L : NoDup L -> forall i, i < List.length L -> index_of (nth i L 0) L = i.
Proof.
  induction L as [|x L IH]; intros ND i Hi; [cbn in Hi; lia|]. apply NoDup_cons_iff in ND. destruct ND as [N1 N2]. destruct i as [|i]; cbn [nth index_of].
  - rewrite Nat.eqb_refl. reflexivity.
  - cbn in Hi. destruct (Nat.eqb_spec (nth i L 0) x) as [E|_]; [exfalso; apply N1; rewrite <- E; apply nth_In; lia|]. rewrite IH by (trivial; lia). reflexivity.
Qed.
Lemma index_app_l l a b : In l a -> index_of l (a ++ b) = index_of l a.
Proof. induction a as [|x a IH]; intros H; [destruct H|]. cbn [app index_of]. destruct (Nat.eqb_spec l x); [reflexivity|]. rewrite IH; [reflexivity|]. destruct H; [congruence|assumption]. Qed.
Lemma index_app_r l a b : ~ In l a -> index_of l (a ++ b) = List.length a + index_of l b.
Proof. induction a as [|x a IH]; intros H; [reflexivity|]. cbn [app index_of List.length]. destruct (Nat.eqb_spec l x) as [->|]; [exfalso; apply H; left; reflexivity|]. rewrite IH; [reflexivity|]. intros X. apply H. right. exact X. Qed.
Lemma index_lt l L : In l L -> index_of l L < List.length L.
Proof. induction L as [|x L IH]; intros H; [destruct H|]. cbn [index_of List.length]. destruct (Nat.eqb_spec l x); [lia|]. destruct H; [congruence|]. specialize (IH H). lia. Qed.
Lemma index_map (f : nat -> nat) l L : (forall a b, f a = f b -> a = b) -> index_of (f l) (map f L) = index_of l L.
Proof. intros I. induction L as [|x L IH]; [reflexivity|]. cbn [map index_of]. rewrite IH. destruct (Nat.eqb_spec l x) as [->|N]; [rewrite Nat.eqb_refl; reflexivity|]. destruct (Nat.eqb_spec (f l) (f x)) as [E|]; [exfalso; apply N, I, E|reflexivity]. Qed.
Lemma memN_In l L : memN l L = true <-> In l L.
Proof. unfold memN. rewrite existsb_exists. split; [intros (x & H & E); apply Nat.eqb_eq in E; congruence|]. intros H. exists l. split; [exact H|apply Nat.eqb_refl]. Qed.
Lemma times_app a b l : times (a ++ b) l = times a l + times b l.
Proof. unfold times. rewrite filter_app, app_length. reflexivity. Qed.
Lemma times_map_seq f s n l : (forall a b, s <= a < s + n -> s <= b < s + n -> f a = f b -> a = b) -> times (map f (seq s n)) l = if existsb (fun i => Nat.eqb l (f i)) (seq s n) then 1 else 0.
Proof.
  revert s. induction n as [|n IH]; intros s I; [reflexivity|]. unfold times in *. cbn [seq map filter existsb].
  destruct (Nat.eqb_spec l (f s)) as [->|N]; cbn [orb].
  - cbn [List.length]. rewrite IH by (intros; apply I; trivial; lia). replace (existsb (fun i => Nat.eqb (f s) (f i)) (seq (S s) n)) with false; [reflexivity|].
    symmetry. apply Bool.not_true_is_false. intros X. apply existsb_exists in X. destruct X as (i & Hi & E). apply in_seq in Hi. apply Nat.eqb_eq in E. apply I in E; lia.
  - apply IH. intros; apply I; trivial; lia.
Qed.
Lemma times_seq n l : times (seq 0 n) l = if Nat.ltb l n then 1 else 0.
Proof.
  rewrite <- (map_id (seq 0 n)), times_map_seq by auto. destruct (Nat.ltb_spec l n) as [H|H].
  - replace (existsb (fun i => Nat.eqb l i) (seq 0 n)) with true; [reflexivity|]. symmetry. apply existsb_exists. exists l. split; [apply in_seq; lia|apply Nat.eqb_refl].
  - replace (existsb (fun i => Nat.eqb l i) (seq 0 n)) with false; [reflexivity|]. symmetry. apply Bool.not_true_is_false. intros X. apply existsb_exists in X. destruct X as (i & Hi & E). apply in_seq in Hi. apply Nat.eqb_eq in E. lia.
Qed.
Lemma times_big L l : max_label L < l -> times L l = 0.
Proof. unfold times, max_label. induction L as [|x L IH]; intros H; [reflexivity|]. cbn [filter fold_right] in *. destruct (Nat.eqb_spec l x); [lia|]. apply IH. lia. Qed.
Lemma filter_map_nat (p : nat -> bool) (f : nat -> nat) (L : list nat) : filter p (map f L) = map f (filter (fun x => p (f x)) L).
Proof. induction L as [|x L IH]; [reflexivity|]. cbn [map filter]. destruct (p (f x)); cbn [map]; rewrite IH; reflexivity. Qed.

(** *** Flags *)
Lemma chosen_map {A} (f : list bool) (l : list A) : forall d, List.length f = List.length l -> chosen f l = map (fun i => nth i l d) (filter (fun i => nth i f false) (seq 0 (List.length l))).
Proof.
  intros d. revert f. induction l as [|x l IH]; intros [|b f] H; cbn in H; try discriminate; [reflexivity|].
  cbn [List.length seq]. rewrite <- seq_shift. cbn [filter nth]. rewrite filter_map_nat. cbn [nth].
  destruct b; cbn [chosen map nth]; rewrite map_map; rewrite (IH f) by lia; reflexivity.
Qed.
Lemma chosen_length {A B} f (l : list A) (m : list B) : List.length l = List.length m -> List.length (chosen f l) = List.length (chosen f m).
Proof. revert l m. induction f as [|b f IH]; intros [|x l] [|y m] H; cbn in H |- *; try discriminate; try reflexivity; destruct b; try reflexivity; cbn [List.length]; rewrite ?(IH l m) by lia; reflexivity. Qed.
Lemma prodl_chosen f dims : List.length f = List.length dims -> prodl (chosen f dims) * prodl (chosen (map negb f) dims) = prodl dims.
Proof. revert dims. induction f as [|b f IH]; intros [|d dims] H; cbn in H; try discriminate; [reflexivity|]. cbn [map chosen]. destruct b; cbn [chosen negb prodl]; rewrite <- (IH dims) by lia; lia. Qed.
Lemma valid_merged f dims a t : List.length f = List.length dims -> valid (chosen f dims) a -> valid (chosen (map negb f) dims) t -> valid dims (merged f a t).
Proof.
  revert dims a t. induction f as [|b f IH]; intros [|d dims] a t H Va Vt; cbn in H; try discriminate; [constructor|]. cbn [map chosen merged] in *. destruct b; cbn [chosen negb] in *.
  - inversion Va; subst. cbn [hd tl]. constructor; [assumption|]. apply IH; [lia|assumption|assumption].
  - inversion Vt; subst. cbn [hd tl]. constructor; [assumption|]. apply IH; [lia|assumption|assumption].
Qed.
Lemma merged_chosen f xs : List.length f = List.length xs -> merged f (chosen f xs) (chosen (map negb f) xs) = xs.
Proof. revert xs. induction f as [|b f IH]; intros [|x xs] H; cbn in H; try discriminate; [reflexivity|]. cbn [map chosen merged]. destruct b; cbn [chosen negb hd tl]; rewrite IH by lia; reflexivity. Qed.
Lemma chosen_merged f (dims : list nat) a t : List.length f = List.length dims -> valid (chosen f dims) a -> valid (chosen (map negb f) dims) t -> chosen f (merged f a t) = a /\ chosen (map negb f) (merged f a t) = t.
Proof.
  revert dims a t. induction f as [|b f IH]; intros [|d dims] a t H Va Vt; cbn in H; try discriminate.
  - cbn [chosen] in *. inversion Va. inversion Vt. split; reflexivity.
  - cbn [map chosen merged] in *. destruct b; cbn [chosen negb] in *.
    + inversion Va as [|x1 d1 x2 d2 Q1 Q2]; subst. cbn [hd tl]. destruct (IH dims x2 t ltac:(lia) Q2 Vt) as [E1 E2]. rewrite E1, E2. split; reflexivity.
    + inversion Vt as [|x1 d1 x2 d2 Q1 Q2]; subst. cbn [hd tl]. destruct (IH dims a x2 ltac:(lia) Va Q2) as [E1 E2]. rewrite E1, E2. split; reflexivity.
Qed.
Lemma valid_chosen f dims xs : valid dims xs -> valid (chosen f dims) (chosen f xs).
Proof. intros V. revert f. induction V as [|x d xs ds Hx V IH]; intros [|[|] f]; cbn [chosen]; try constructor; trivial; apply IH. Qed.

(** Labels give the merged levels. *)
Lemma merged_labels (p : nat -> bool) : forall n s a t,
  map (fun i => if p i then nth (index_of i (filter p (seq s n))) a 0 else nth (index_of i (filter (fun i => negb (p i)) (seq s n))) t 0) (seq s n) = merged (map p (seq s n)) a t.
Proof.
  induction n as [|n IH]; intros s a t; [reflexivity|]. cbn [seq map filter merged].
  destruct (p s) eqn:Ps; cbn [negb].
  - cbn [merged index_of]. rewrite Nat.eqb_refl. f_equal; [destruct a; reflexivity|]. rewrite <- (IH (S s) (tl a) t). apply map_ext_in. intros i Hi. apply in_seq in Hi.
    destruct (p i); [|reflexivity]. cbn [index_of]. destruct (Nat.eqb_spec i s); [lia|]. destruct a; [destruct (index_of i (filter p (seq (S s) n))); reflexivity|reflexivity].
  - cbn [merged index_of]. rewrite Nat.eqb_refl. f_equal; [destruct t; reflexivity|]. rewrite <- (IH (S s) a (tl t)). apply map_ext_in. intros i Hi. apply in_seq in Hi.
    destruct (p i); [reflexivity|]. cbn [index_of]. destruct (Nat.eqb_spec i s); [lia|]. destruct t; [destruct (index_of i (filter (fun i => negb (p i)) (seq (S s) n))); reflexivity|reflexivity].
Qed.

Section Trace.
Variables (dims : list nat) (p : nat -> bool).
Let nd := List.length dims.
Let idx2 := map (fun i => if p i then nd + i else i) (seq 0 nd).
Let L := seq 0 nd ++ idx2.
Let K := filter p (seq 0 nd).
Let D := filter (fun i => negb (p i)) (seq 0 nd).
Let f := map p (seq 0 nd).

Lemma idx2_inj a b : 0 <= a < 0 + nd -> 0 <= b < 0 + nd -> (if p a then nd + a else a) = (if p b then nd + b else b) -> a = b.
Proof. destruct (p a), (p b); lia. Qed.
Lemma times_L l : times L l = (if Nat.ltb l nd then (if p l then 1 else 2) else if Nat.ltb l (nd + nd) && p (l - nd) then 1 else 0).
Proof.
  unfold L. rewrite times_app, times_seq. unfold idx2. rewrite times_map_seq by (intros a b; apply idx2_inj).
  destruct (Nat.ltb_spec l nd) as [H|H].
  - destruct (p l) eqn:E.
    + replace (existsb _ _) with false; [reflexivity|]. symmetry. apply Bool.not_true_is_false. intros X. apply existsb_exists in X. destruct X as (i & Hi & Ei). apply in_seq in Hi. apply Nat.eqb_eq in Ei.
      destruct (p i) eqn:Pi; [lia|]. congruence.
    + replace (existsb _ _) with true; [reflexivity|]. symmetry. apply existsb_exists. exists l. rewrite E. split; [apply in_seq; lia|apply Nat.eqb_refl].
  - destruct (Nat.ltb_spec l (nd + nd)) as [H'|H']; cbn [andb].
    + destruct (p (l - nd)) eqn:E.
      * replace (existsb _ _) with true; [reflexivity|]. symmetry. apply existsb_exists. exists (l - nd). rewrite E. split; [apply in_seq; lia|]. apply Nat.eqb_eq. lia.
      * replace (existsb _ _) with false; [reflexivity|]. symmetry. apply Bool.not_true_is_false. intros X. apply existsb_exists in X. destruct X as (i & Hi & Ei). apply in_seq in Hi. apply Nat.eqb_eq in Ei.
        destruct (p i) eqn:Pi; [|lia]. replace (l - nd) with i in E by lia. congruence.
    + replace (existsb _ _) with false; [reflexivity|]. symmetry. apply Bool.not_true_is_false. intros X. apply existsb_exists in X. destruct X as (i & Hi & Ei). apply in_seq in Hi. apply Nat.eqb_eq in Ei. destruct (p i); lia.
Qed.
Lemma labels_range q : (forall l, times L l = 0 -> q l = false) -> filter q (seq 0 (S (max_label L))) = filter q (seq 0 nd) ++ map (Nat.add nd) (filter (fun i => q (nd + i)) (seq 0 nd)).
Proof.
  intros H. rewrite (filter_seq_bound q (S (max_label L)) (nd + nd)).
  - rewrite seq_app, filter_app. f_equal. cbn [Nat.add]. rewrite <- filter_map_nat. f_equal.
    assert (G : forall n s, seq (nd + s) n = map (Nat.add nd) (seq s n)) by (induction n as [|n IH]; intros s; [reflexivity|]; cbn [seq map]; rewrite <- IH; f_equal; f_equal; lia).
    rewrite <- G. f_equal. lia.
  - intros l Hl. apply H, times_big. lia.
  - intros l Hl. apply H. rewrite times_L. destruct (Nat.ltb_spec l nd); [lia|]. destruct (Nat.ltb_spec l (nd + nd)); [lia|reflexivity].
Qed.
Lemma out_L : out_labels L = K ++ map (Nat.add nd) K.
Proof.
  unfold out_labels. rewrite labels_range by (intros l ->; reflexivity). unfold K. f_equal; [|f_equal].
  - apply filter_ext_in. intros l Hl. apply in_seq in Hl. rewrite times_L, (proj2 (Nat.ltb_lt l nd)) by lia. destruct (p l); reflexivity.
  - apply filter_ext_in. intros l Hl. apply in_seq in Hl. rewrite times_L. destruct (Nat.ltb_spec (nd + l) nd); [lia|]. rewrite (proj2 (Nat.ltb_lt (nd + l) (nd + nd))) by lia. replace (nd + l - nd) with l by lia. destruct (p l); reflexivity.
Qed.
Lemma sum_L : sum_labels L = D.
Proof.
  unfold sum_labels. rewrite labels_range by (intros l ->; reflexivity). unfold D.
  replace (filter (fun i => Nat.ltb 1 (times L (nd + i))) (seq 0 nd)) with (@nil nat).
  - cbn [map]. rewrite app_nil_r. apply filter_ext_in. intros l Hl. apply in_seq in Hl. rewrite times_L, (proj2 (Nat.ltb_lt l nd)) by lia. destruct (p l); reflexivity.
  - symmetry. assert (G : forall s, (forall i, In i s -> Nat.ltb 1 (times L (nd + i)) = false) -> filter (fun i => Nat.ltb 1 (times L (nd + i))) s = []).
    { induction s as [|i s IH]; intros H; [reflexivity|]. cbn [filter]. rewrite (H i (or_introl eq_refl)). apply IH. intros j Hj. apply H. right. exact Hj. }
    apply G. intros i _. rewrite times_L. destruct (Nat.ltb_spec (nd + i) nd); [lia|]. destruct (Nat.ltb (nd + i) (nd + nd) && p (nd + i - nd)); reflexivity.
Qed.
Lemma index_low l : l < nd -> index_of l L = l.
Proof.
  intros H. unfold L. rewrite index_app_l by (apply in_seq; lia). assert (E := index_nth (seq 0 nd) (seq_NoDup nd 0) l ltac:(rewrite seq_length; exact H)). rewrite seq_nth in E by exact H. exact E.
Qed.
Lemma idx2_nth i : i < nd -> nth i idx2 0 = if p i then nd + i else i.
Proof. intros H. unfold idx2. rewrite (nth_indep _ 0 (if p 0 then nd + 0 else 0)) by (rewrite map_length, seq_length; exact H). rewrite (map_nth (fun i => if p i then nd + i else i)), seq_nth by exact H. reflexivity. Qed.
Lemma idx2_NoDup : NoDup idx2.
Proof.
  unfold idx2. assert (G : forall s, NoDup s -> (forall i, In i s -> i < nd) -> NoDup (map (fun i => if p i then nd + i else i) s)).
  { induction s as [|i s IH]; intros ND H; [constructor|]. apply NoDup_cons_iff in ND. destruct ND as [N1 N2]. cbn [map]. constructor; [|apply IH; [exact N2|intros j Hj; apply H; right; exact Hj]].
    intros X. apply in_map_iff in X. destruct X as (j & E & Hj). apply N1. assert (j = i); [|congruence]. assert (A := H i (or_introl eq_refl)). assert (B := H j (or_intror Hj)). apply idx2_inj; trivial; lia. }
  apply G; [apply seq_NoDup|]. intros i Hi. apply in_seq in Hi. lia.
Qed.
Lemma index_high i : i < nd -> p i = true -> index_of (nd + i) L = nd + i.
Proof.
  intros H Pi. unfold L. rewrite index_app_r by (rewrite in_seq; lia). rewrite seq_length. f_equal. assert (E := idx2_nth i H). rewrite Pi in E. rewrite <- E.
  apply index_nth; [apply idx2_NoDup|]. unfold idx2. rewrite map_length, seq_length. exact H.
Qed.
Lemma nth_f i : i < nd -> nth i f false = p i.
Proof. intros H. unfold f. rewrite (nth_indep _ false (p 0)) by (rewrite map_length, seq_length; exact H). rewrite (map_nth p), seq_nth by exact H. reflexivity. Qed.
Lemma f_length : List.length f = List.length dims.
Proof. unfold f. rewrite map_length, seq_length. reflexivity. Qed.
Lemma chosen_f {A} (l : list A) d : List.length l = nd -> chosen f l = map (fun i => nth i l d) K.
Proof.
  intros H. rewrite (chosen_map f l d) by (rewrite f_length; lia). rewrite H. unfold K. f_equal. apply filter_ext_in. intros i Hi. apply in_seq in Hi. apply nth_f. lia.
Qed.
Lemma chosen_nf {A} (l : list A) d : List.length l = nd -> chosen (map negb f) l = map (fun i => nth i l d) D.
Proof.
  intros H. rewrite (chosen_map (map negb f) l d) by (rewrite map_length, f_length; lia). rewrite H. unfold D. f_equal. apply filter_ext_in. intros i Hi. apply in_seq in Hi.
  rewrite (nth_indep _ false (negb false)) by (rewrite map_length, f_length; fold nd; lia). rewrite map_nth, nth_f by lia. reflexivity.
Qed.
Lemma In_K i : In i K <-> i < nd /\ p i = true.
Proof. unfold K. rewrite filter_In, in_seq. split; intros [A B]; split; trivial; lia. Qed.
Lemma In_D i : In i D <-> i < nd /\ p i = false.
Proof. unfold D. rewrite filter_In, in_seq, Bool.negb_true_iff. split; intros [A B]; split; trivial; lia. Qed.
Lemma out_dims : map (label_dim (dims ++ dims) L) (out_labels L) = chosen f dims ++ chosen f dims.
Proof.
  rewrite out_L, map_app, (chosen_f dims 0 eq_refl). f_equal.
  - apply map_ext_in. intros i Hi. apply In_K in Hi. unfold label_dim. rewrite index_low by apply Hi. apply app_nth1. apply Hi.
  - rewrite map_map. apply map_ext_in. intros i Hi. apply In_K in Hi. unfold label_dim. rewrite index_high by apply Hi. rewrite app_nth2 by (fold nd; lia). f_equal. unfold nd. lia.
Qed.
Lemma sum_dims : map (label_dim (dims ++ dims) L) (sum_labels L) = chosen (map negb f) dims.
Proof.
  rewrite sum_L, (chosen_nf dims 0 eq_refl). apply map_ext_in. intros i Hi. apply In_D in Hi. unfold label_dim. rewrite index_low by apply Hi. apply app_nth1. apply Hi.
Qed.
Lemma einsum_value T a b : valid (chosen f dims) a -> valid (chosen f dims) b ->
  einsum T (dims ++ dims) L (a ++ b) = csum (prodl (chosen (map negb f) dims)) (fun k => T (merged f a (digits (chosen (map negb f) dims) k) ++ merged f b (digits (chosen (map negb f) dims) k))).
Proof.
  intros Va Vb. unfold einsum. rewrite sum_dims. apply csum_ext. intros k _. f_equal. set (t := digits (chosen (map negb f) dims) k).
  assert (La : List.length a = List.length K). { rewrite (valid_length _ _ Va), (chosen_f dims 0 eq_refl), map_length. reflexivity. }
  rewrite sum_L, out_L. unfold L at 1. rewrite map_app. f_equal.
  - unfold f. rewrite <- (merged_labels p nd 0 a t). fold K D. apply map_ext_in. intros i Hi. apply in_seq in Hi. destruct (p i) eqn:Pi.
    + rewrite (proj2 (memN_In i _)) by (apply in_or_app; left; apply In_K; split; [lia|exact Pi]). rewrite index_app_l by (apply In_K; split; [lia|exact Pi]).
      apply app_nth1. rewrite La. apply index_lt. apply In_K. split; [lia|exact Pi].
    + replace (memN i (K ++ map (Nat.add nd) K)) with false; [reflexivity|]. symmetry. apply Bool.not_true_is_false. rewrite memN_In. intros X. apply in_app_or in X. destruct X as [X|X]; [apply In_K in X; destruct X; congruence|].
      apply in_map_iff in X. destruct X as (j & E & _). lia.
  - unfold f. rewrite <- (merged_labels p nd 0 b t). fold K D. unfold idx2. rewrite map_map. apply map_ext_in. intros i Hi. apply in_seq in Hi. destruct (p i) eqn:Pi.
    + assert (In i K) by (apply In_K; split; [lia|exact Pi]).
      rewrite (proj2 (memN_In (nd + i) _)) by (apply in_or_app; right; apply (in_map (Nat.add nd)); assumption).
      rewrite index_app_r by (rewrite In_K; lia). rewrite (index_map (Nat.add nd)) by (intros; lia). rewrite app_nth2 by lia. f_equal. lia.
    + replace (memN i (K ++ map (Nat.add nd) K)) with false; [reflexivity|]. symmetry. apply Bool.not_true_is_false. rewrite memN_In. intros X. apply in_app_or in X. destruct X as [X|X]; [apply In_K in X; destruct X; congruence|].
      apply in_map_iff in X. destruct X as (j & E & _). lia.
Qed.
End Trace.

(** *** The kept qudits *)
Definition keptb (keep : list Z) (i : nat) : bool := existsb (Z.eqb (Z.of_nat i)) keep.
Lemma keptb_In keep i : keptb keep i = true <-> In (Z.of_nat i) keep.
Proof. unfold keptb. rewrite existsb_exists. split; [intros (z & H & E); apply Z.eqb_eq in E; congruence|]. intros H. exists (Z.of_nat i). split; [exact H|apply Z.eqb_refl]. Qed.
Lemma keeps_keptb keep n : keeps keep n = map (keptb keep) (seq 0 n).
Proof.
  unfold keeps. apply map_ext. intros i. destruct (in_dec Z.eq_dec (Z.of_nat i) keep) as [H|H]; symmetry; [apply keptb_In; exact H|]. apply Bool.not_true_is_false. rewrite keptb_In. exact H.
Qed.
Lemma prodl_perm a b : Permutation a b -> prodl a = prodl b.
Proof. induction 1; cbn; lia. Qed.
Definition wrap (n : nat) (z : Z) : nat := Z.to_nat (if (z <? 0)%Z then (z + Z.of_nat n)%Z else z).
Lemma pyindex_wrap (dims : list nat) z : (- Z.of_nat (List.length dims) <= z < Z.of_nat (List.length dims))%Z -> pyindex dims z = Ok (nth (wrap (List.length dims) z) dims 0).
Proof.
  intros H. unfold pyindex, wrap. set (j := if (z <? 0)%Z then (z + Z.of_nat (List.length dims))%Z else z).
  assert (B : (0 <= j < Z.of_nat (List.length dims))%Z) by (unfold j; destruct (Z.ltb_spec z 0); lia).
  rewrite (proj2 (Z.leb_le 0 j)), (proj2 (Z.ltb_lt j _)) by lia. cbn [andb]. rewrite (nth_error_nth' dims 0) by lia. reflexivity.
Qed.
Lemma mapr_wrap dims keep : (forall z, In z keep -> (- Z.of_nat (List.length dims) <= z < Z.of_nat (List.length dims))%Z) -> mapr (pyindex dims) keep = Ok (map (fun z => nth (wrap (List.length dims) z) dims 0) keep).
Proof.
  induction keep as [|z keep IH]; intros H; [reflexivity|]. cbn [mapr map]. rewrite pyindex_wrap by (apply H; left; reflexivity). cbn [bindr].
  rewrite IH by (intros y Hy; apply H; right; exact Hy). reflexivity.
Qed.
(** The entries of a list that are new and not negative, and the rest. *)
Lemma split_keep (keep : list Z) : exists new extra, Permutation keep (new ++ extra) /\ NoDup new /\ (forall z, In z new <-> In z keep /\ (0 <= z)%Z) /\
  (extra = [] <-> NoDup keep /\ Forall (fun z => (0 <= z)%Z) keep).
Proof.
  induction keep as [|z keep (new & extra & P & ND & HI & HE)].
  - exists [], []. split; [constructor|]. split; [constructor|]. split; [cbn; tauto|]. split; [split; constructor|reflexivity].
  - destruct (in_dec Z.eq_dec z keep) as [Hin|Hn].
    + exists new, (z :: extra). split; [apply Permutation_cons_app; exact P|]. split; [exact ND|]. split.
      * intros y. rewrite HI. cbn [In]. split; intros [A B]; split; trivial; [right; exact A|destruct A as [<-|A]; assumption].
      * split; [discriminate|]. intros [N _]. apply NoDup_cons_iff in N. destruct N. contradiction.
    + destruct (Z.le_gt_cases 0 z) as [Hz|Hz].
      * exists (z :: new), extra. split; [constructor; exact P|]. split; [constructor; [rewrite HI; tauto|exact ND]|]. split.
        { intros y. cbn [In]. rewrite HI. split; [intros [<-|[A B]]; split; auto|]. intros [[<-|A] B]; auto. }
        { rewrite HE. split; intros [A B]; split; try constructor; trivial; [apply NoDup_cons_iff in A; apply A|inversion B; assumption]. }
      * exists new, (z :: extra). split; [apply Permutation_cons_app; exact P|]. split; [exact ND|]. split.
        { intros y. rewrite HI. cbn [In]. split; intros [A B]; split; trivial; [right; exact A|]. destruct A as [<-|A]; [lia|exact A]. }
        { split; [discriminate|]. intros [_ F]. inversion F; subst. lia. }
Qed.
Lemma new_chosen keep new dims : NoDup new -> (forall z, In z new <-> In z keep /\ (0 <= z)%Z) -> (forall z, In z new -> (z < Z.of_nat (List.length dims))%Z) ->
  prodl (map (fun z => nth (wrap (List.length dims) z) dims 0) new) = prodl (chosen (keeps keep (List.length dims)) dims).
Proof.
  intros ND HI HB. rewrite keeps_keptb, (chosen_f dims (keptb keep) dims 0 eq_refl).
  set (K := filter (keptb keep) (seq 0 (List.length dims))).
  assert (P : Permutation new (map Z.of_nat K)).
  { apply NoDup_Permutation; [exact ND| |].
    - apply FinFun.Injective_map_NoDup; [intros x y; lia|]. apply NoDup_filter, seq_NoDup.
    - intros z. rewrite HI, in_map_iff. split.
      + intros [A B]. exists (Z.to_nat z). split; [lia|]. unfold K. rewrite filter_In, in_seq, keptb_In, Z2Nat.id by exact B. assert (X := HB z (proj2 (HI z) (conj A B))). split; [lia|exact A].
      + intros (i & <- & Hi). unfold K in Hi. rewrite filter_In, keptb_In in Hi. split; [apply Hi|lia]. }
  rewrite (prodl_perm _ _ (Permutation_map _ P)), map_map. f_equal. apply map_ext. intros i. f_equal. unfold wrap. rewrite (proj2 (Z.ltb_ge (Z.of_nat i) 0)) by lia. apply Nat2Z.id.
Qed.
Lemma prodl_ge l : (forall d, In d l -> 2 <= d) -> l <> [] -> 2 <= prodl l.
Proof. destruct l as [|d l]; intros H N; [contradiction|]. cbn [prodl]. assert (A := H d (or_introl eq_refl)). assert (0 < prodl l) by (apply prodl_pos; intros e He; specialize (H e (or_intror He)); lia). nia. Qed.

Theorem partial_trace_ok rho keep dims : NoDup keep -> (forall z, In z keep -> (0 <= z < Z.of_nat (List.length dims))%Z) ->
  exists r, partial_trace (prodl dims) rho keep dims = Ok (prodl (chosen (keeps keep (List.length dims)) dims), r) /\ traced_out dims (keeps keep (List.length dims)) rho r.
Proof.
  intros ND HB. unfold partial_trace. rewrite mapr_wrap by (intros z Hz; specialize (HB z Hz); lia). cbn [bindr].
  destruct (split_keep keep) as (new & extra & P & NDn & HI & HE). assert (extra = []). { apply HE. split; [exact ND|]. apply Forall_forall. intros z Hz. apply HB. exact Hz. } subst extra. rewrite app_nil_r in P.
  assert (NK : prodl (map (fun z => nth (wrap (List.length dims) z) dims 0) keep) = prodl (chosen (keeps keep (List.length dims)) dims)).
  { rewrite (prodl_perm _ _ (Permutation_map _ P)). apply new_chosen; trivial. intros z Hz. apply HB. apply HI in Hz. apply Hz. }
  rewrite NK. rewrite prodl_app, Nat.eqb_refl. cbn [negb]. fold (keptb keep).
  assert (OD := out_dims dims (keptb keep)). assert (EV := einsum_value dims (keptb keep)). unfold keptb in OD, EV. fold (keptb keep) in OD, EV. cbv zeta in OD, EV. rewrite <- keeps_keptb in OD, EV.
  change (fun i : nat => existsb (Z.eqb (Z.of_nat i)) keep) with (keptb keep) in *.
  rewrite OD, prodl_app, Nat.eqb_refl. cbn [negb]. eexists. split; [reflexivity|].
  set (f := keeps keep (List.length dims)) in *. set (kd := chosen f dims) in *. unfold traced_out. fold kd. cbv zeta. intros a b Va Vb. set (od := chosen (map negb f) dims) in *.
  assert (Ha := undigits_lt _ _ Va). assert (Hb := undigits_lt _ _ Vb). rewrite digits_app by assumption. rewrite !digits_undigits by assumption. rewrite EV by assumption. fold od.
  apply csum_ext. intros k Hk.
  assert (Lf : List.length f = List.length dims) by (unfold f, keeps; rewrite map_length, seq_length; reflexivity).
  assert (M1 := valid_merged f dims a (digits od k) Lf Va (valid_digits od k Hk)). assert (M2 := valid_merged f dims b (digits od k) Lf Vb (valid_digits od k Hk)).
  rewrite undigits_app by (apply valid_length; exact M1). assert (U2 := undigits_lt _ _ M2).
  f_equal; [rewrite Nat.div_add_l, Nat.div_small by lia; lia|rewrite Nat.add_comm, Nat.mod_add, Nat.mod_small by lia; reflexivity].
Qed.
(** Lists with repeated or negative entries are rejected. *)
Theorem partial_trace_rejects rho keep dims : (forall d, In d dims -> 2 <= d) -> (forall z, In z keep -> (- Z.of_nat (List.length dims) <= z < Z.of_nat (List.length dims))%Z) ->
  ~ (NoDup keep /\ Forall (fun z => (0 <= z)%Z) keep) -> partial_trace (prodl dims) rho keep dims = Err ValueError.
Proof.
  intros H2 HB HN. unfold partial_trace. rewrite mapr_wrap by exact HB. cbn [bindr]. rewrite prodl_app, Nat.eqb_refl. cbn [negb].
  assert (OD := out_dims dims (keptb keep)). cbv zeta in OD. rewrite <- keeps_keptb in OD. unfold keptb in OD.
  rewrite OD, prodl_app.
  destruct (split_keep keep) as (new & extra & P & NDn & HI & HE).
  assert (Q : prodl (map (fun z => nth (wrap (List.length dims) z) dims 0) keep) = prodl (chosen (keeps keep (List.length dims)) dims) * prodl (map (fun z => nth (wrap (List.length dims) z) dims 0) extra)).
  { rewrite (prodl_perm _ _ (Permutation_map _ P)), map_app, prodl_app. f_equal. apply new_chosen; trivial. intros z Hz. apply HB. apply HI in Hz. apply Hz. }
  assert (E2 : 2 <= prodl (map (fun z => nth (wrap (List.length dims) z) dims 0) extra)).
  { apply prodl_ge; [|intros X; apply HN, HE; destruct extra; [reflexivity|discriminate]]. intros d Hd. apply in_map_iff in Hd. destruct Hd as (z & <- & Hz). apply H2, nth_In.
    assert (B := HB z (Permutation_in _ (Permutation_sym P) (in_or_app _ _ _ (or_intror Hz)))). unfold wrap. destruct (Z.ltb_spec z 0); lia. }
  assert (C1 : 0 < prodl (chosen (keeps keep (List.length dims)) dims)).
  { apply prodl_pos. intros d Hd. rewrite keeps_keptb, (chosen_f dims (keptb keep) dims 0 eq_refl) in Hd. apply in_map_iff in Hd. destruct Hd as (i & <- & Hi). apply filter_In in Hi. destruct Hi as [Hi _]. apply in_seq in Hi.
    assert (X : 2 <= nth i dims 0) by (apply H2, nth_In; lia). cbv beta. lia. }
  rewrite Q. set (A := prodl (chosen _ _)) in *. set (B := prodl _) in *. rewrite (proj2 (Nat.eqb_neq (A * A) _)); [reflexivity|]. intros X. replace (A * B * (A * B)) with (A * A * (B * B)) in X by lia. assert (4 <= B * B) by nia. assert (0 < A * A) by nia. nia.
Qed.

(** *** What the partial trace keeps *)
Theorem traced_trace dims f rho r : List.length f = List.length dims -> traced_out dims f rho r -> trace (prodl (chosen f dims)) r = trace (prodl dims) rho.
Proof.
  intros Lf H. unfold traced_out in H. cbv zeta in H. unfold trace. set (kd := chosen f dims) in *. set (od := chosen (map negb f) dims) in *.
  assert (PN : prodl kd * prodl od = prodl dims) by (apply prodl_chosen; exact Lf).
  set (g := fun x => undigits dims (merged f (digits kd (x / prodl od)) (digits od (x mod prodl od)))).
  transitivity (csum (prodl kd) (fun i => csum (prodl od) (fun k => rho (g (i * prodl od + k)%nat) (g (i * prodl od + k)%nat)))).
  { apply csum_ext. intros i Hi. assert (E := H (digits kd i) (digits kd i) (valid_digits _ _ Hi) (valid_digits _ _ Hi)). rewrite undigits_digits in E by exact Hi. rewrite E.
    apply csum_ext. intros k Hk. unfold g. rewrite Nat.div_add_l, Nat.div_small, Nat.add_0_r by lia. rewrite (Nat.add_comm (i * prodl od)), Nat.mod_add, Nat.mod_small by lia. reflexivity. }
  rewrite <- (csum_prod (prodl kd) (prodl od) (fun x => rho (g x) (g x))), PN.
  destruct (Nat.eq_dec (prodl dims) 0) as [Z|NZ]; [rewrite Z; reflexivity|].
  assert (Ho : 0 < prodl od) by nia.
  assert (D1 : forall x, x < prodl dims -> valid kd (digits kd (x / prodl od)) /\ valid od (digits od (x mod prodl od))).
  { intros x Hx. split; apply valid_digits; [apply Nat.div_lt_upper_bound; lia|apply Nat.mod_upper_bound; lia]. }
  apply (csum_bij (prodl dims) g (fun j => undigits kd (chosen f (digits dims j)) * prodl od + undigits od (chosen (map negb f) (digits dims j))) (fun j => rho j j)).
  - intros x Hx. unfold g. apply undigits_lt. destruct (D1 x Hx). apply valid_merged; assumption.
  - intros j Hj. assert (Vj := valid_digits dims j Hj). assert (Vk := valid_chosen f _ _ Vj). assert (Vo := valid_chosen (map negb f) _ _ Vj). fold kd in Vk. fold od in Vo.
    assert (A := undigits_lt _ _ Vk). assert (B := undigits_lt _ _ Vo). split; [rewrite <- PN; nia|]. unfold g.
    rewrite Nat.div_add_l, Nat.div_small, Nat.add_0_r by lia. rewrite Nat.add_comm, Nat.mod_add, Nat.mod_small by lia. rewrite !digits_undigits by assumption.
    rewrite merged_chosen by (rewrite length_digits; exact Lf). apply undigits_digits. exact Hj.
  - intros x Hx. destruct (D1 x Hx) as [Vk Vo]. unfold g. rewrite digits_undigits by (apply valid_merged; assumption).
    destruct (chosen_merged f dims _ _ Lf Vk Vo) as [-> ->]. rewrite !undigits_digits by (try apply Nat.div_lt_upper_bound; try apply Nat.mod_upper_bound; lia).
    rewrite Nat.mul_comm. symmetry. apply Nat.div_mod. lia.
Qed.
Theorem traced_hermitian dims f rho r : List.length f = List.length dims -> traced_out dims f rho r -> meq (prodl dims) (madj rho) rho -> meq (prodl (chosen f dims)) (madj r) r.
Proof.
  intros Lf H Hh i j Hi Hj. unfold traced_out in H. cbv zeta in H. set (kd := chosen f dims) in *. set (od := chosen (map negb f) dims) in *. unfold madj.
  assert (Vi := valid_digits kd i Hi). assert (Vj := valid_digits kd j Hj).
  assert (E1 := H _ _ Vi Vj). assert (E2 := H _ _ Vj Vi). rewrite !undigits_digits in E1, E2 by assumption. rewrite E1, E2, csum_conj. apply csum_ext. intros k Hk.
  apply Hh; apply undigits_lt, valid_merged; trivial; apply valid_digits; exact Hk.
Qed.
