(** Mixed radix positional notation, most significant digit first. *)
From Coq Require Import List Arith Lia.
Import ListNotations.

Fixpoint prodl (ds : list nat) : nat := match ds with [] => 1 | d :: r => d * prodl r end.
Fixpoint digits (ds : list nat) (k : nat) : list nat :=
  match ds with [] => [] | d :: r => (k / prodl r) :: digits r (k mod prodl r) end.
Fixpoint undigits (ds xs : list nat) : nat :=
  match ds, xs with d :: r, x :: s => x * prodl r + undigits r s | _, _ => 0 end.
Definition valid (ds xs : list nat) : Prop := Forall2 (fun x d => x < d) xs ds.

Lemma prodl_app a b : prodl (a ++ b) = prodl a * prodl b.
Proof. induction a as [|x a IH]; cbn; [lia|]. rewrite IH. lia. Qed.
Lemma prodl_pos ds : (forall d, In d ds -> 0 < d) -> 0 < prodl ds.
Proof.
  induction ds as [|d r IH]; cbn; intros H; [lia|].
  pose proof (H d (or_introl eq_refl)). assert (0 < prodl r) by (apply IH; intros; apply H; right; assumption). nia.
Qed.
Lemma prodl_pos_inv ds k : k < prodl ds -> forall d, In d ds -> 0 < d.
Proof.
  revert k. induction ds as [|e r IH]; cbn; intros k Hk d Hd; [contradiction|].
  destruct Hd as [->|Hd]; [nia|]. apply (IH 0); [nia|exact Hd].
Qed.
Lemma length_digits ds k : length (digits ds k) = length ds.
Proof. revert k. induction ds as [|d r IH]; intros k; cbn; [reflexivity|]. rewrite IH. reflexivity. Qed.
Lemma valid_length ds xs : valid ds xs -> length xs = length ds.
Proof. intros H. induction H; cbn; lia. Qed.
Lemma valid_digits ds k : k < prodl ds -> valid ds (digits ds k).
Proof.
  revert k. induction ds as [|d r IH]; intros k Hk; cbn in *; [constructor|].
  assert (prodl r <> 0) by nia. constructor.
  - apply Nat.div_lt_upper_bound; lia.
  - apply IH. apply Nat.mod_upper_bound. assumption.
Qed.
Lemma undigits_lt ds xs : valid ds xs -> undigits ds xs < prodl ds.
Proof. intros H. induction H as [|x d xs ds Hx H IH]; cbn; [lia|]. nia. Qed.
Lemma digits_undigits ds xs : valid ds xs -> digits ds (undigits ds xs) = xs.
Proof.
  intros H. induction H as [|x d xs ds Hx H IH]; cbn; [reflexivity|].
  pose proof (undigits_lt _ _ H).
  rewrite Nat.div_add_l, Nat.div_small, Nat.add_0_r by lia. f_equal.
  rewrite Nat.add_comm, Nat.mod_add, Nat.mod_small by lia. exact IH.
Qed.
Lemma undigits_digits ds k : k < prodl ds -> undigits ds (digits ds k) = k.
Proof.
  revert k. induction ds as [|d r IH]; intros k Hk; cbn in *; [lia|].
  assert (Hp : prodl r <> 0) by nia.
  rewrite IH by (apply Nat.mod_upper_bound; exact Hp).
  rewrite (Nat.div_mod k (prodl r)) at 3 by exact Hp. lia.
Qed.
Lemma digits_inj ds a b : a < prodl ds -> b < prodl ds -> digits ds a = digits ds b -> a = b.
Proof. intros Ha Hb E. rewrite <- (undigits_digits ds a Ha), <- (undigits_digits ds b Hb), E. reflexivity. Qed.
Lemma valid_app a b xs ys : valid a xs -> valid b ys -> valid (a ++ b) (xs ++ ys).
Proof. intros. apply Forall2_app; assumption. Qed.
Lemma undigits_app a b xs ys : length xs = length a -> 
  undigits (a ++ b) (xs ++ ys) = undigits a xs * prodl b + undigits b ys.
Proof.
  revert xs. induction a as [|d a IH]; intros [|x xs] H; cbn in *; try discriminate; [reflexivity|].
  rewrite IH by lia. rewrite prodl_app. lia.
Qed.
Lemma digits_app a b i j : i < prodl a -> j < prodl b ->
  digits (a ++ b) (i * prodl b + j) = digits a i ++ digits b j.
Proof.
  intros Hi Hj. rewrite <- (undigits_digits a i Hi) at 1. rewrite <- (undigits_digits b j Hj) at 1.
  rewrite <- undigits_app by apply length_digits.
  apply digits_undigits. apply valid_app; apply valid_digits; assumption.
Qed.
Lemma nth_digits_lt ds k i : k < prodl ds -> i < length ds -> nth i (digits ds k) 0 < nth i ds 0.
Proof.
  intros Hk. pose proof (valid_digits ds k Hk) as Hv. clear Hk. revert i. induction Hv as [|x d xs ds Hx H IH]; intros i Hi; cbn in *; [lia|].
  destruct i; [exact Hx|]. apply IH. lia.
Qed.
Lemma valid_nth ds xs : length xs = length ds -> (forall i, i < length ds -> nth i xs 0 < nth i ds 0) -> valid ds xs.
Proof.
  revert xs. induction ds as [|d ds IH]; intros [|x xs] Hl H; cbn in *; try discriminate; constructor.
  - apply (H 0). lia.
  - apply IH; [lia|]. intros i Hi. apply (H (S i)). lia.
Qed.
Lemma list_nth_ext (a b : list nat) : length a = length b -> (forall i, i < length a -> nth i a 0 = nth i b 0) -> a = b.
Proof. intros. eapply nth_ext; eassumption. Qed.
