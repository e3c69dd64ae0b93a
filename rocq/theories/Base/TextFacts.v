(** Facts about the text operations. *)
From Verif Require Import Base.Py Base.PyFacts Base.Text.

Definition allb (p : ascii -> bool) (t : text) : Prop := forall a, In a t -> p a = true.
(** the first character, if any, is not in the class *)
Definition starts_not (p : ascii -> bool) (t : text) : Prop :=
  match t with [] => True | a :: _ => p a = false end.

Lemma allb_cons p a t : allb p (a :: t) <-> p a = true /\ allb p t.
Proof.
  split.
  - intros H. split; [apply H; now left|intros b Hb; apply H; now right].
  - intros (H & Ht) b [<-|Hb]; auto.
Qed.
Lemma allb_app p a b : allb p (a ++ b) <-> allb p a /\ allb p b.
Proof.
  split.
  - intros H; split; intros x Hx; apply H, in_or_app; auto.
  - intros (Ha & Hb) x Hx. apply in_app_or in Hx as [Hx|Hx]; auto.
Qed.
Lemma allb_nil p : allb p [].
Proof. intros a []. Qed.
Lemma allb_weaken p q t : (forall a, p a = true -> q a = true) -> allb p t -> allb q t.
Proof. intros H Ht a Ha. auto. Qed.

Lemma nat_of_digit_char n : n < 10 -> nat_of_ascii (digit_char n) = 48 + n.
Proof. intros H. unfold digit_char. apply nat_ascii_embedding. lia. Qed.
Lemma digit_char_digit n : n < 10 -> is_digit (digit_char n) = true.
Proof.
  intros H. unfold is_digit, between. rewrite nat_of_digit_char by lia. apply andb_true_intro; split; apply Nat.leb_le; lia.
Qed.
Lemma digit_is_word a : is_digit a = true -> is_word a = true.
Proof. unfold is_word. intros ->. reflexivity. Qed.
Lemma digit_val_char n : n < 10 -> digit_val (digit_char n) = n.
Proof. intros H. unfold digit_val. rewrite nat_of_digit_char; lia. Qed.

Lemma show_fuel_digits f : forall n acc, allb is_digit acc -> allb is_digit (show_fuel f n acc).
Proof.
  induction f as [|f IH]; intros n acc H; cbn [show_fuel]; [exact H|].
  assert (allb is_digit (digit_char (n mod 10) :: acc)).
  { apply allb_cons; split; [|exact H]. apply digit_char_digit. apply Nat.mod_upper_bound. lia. }
  destruct (Nat.ltb n 10); [assumption|]. now apply IH.
Qed.
Lemma show_nat_digits n : allb is_digit (show_nat n).
Proof. apply show_fuel_digits, allb_nil. Qed.
Lemma show_fuel_app f : forall n acc, n < f -> exists pre, pre <> [] /\ show_fuel f n acc = pre ++ acc /\ read_nat pre = n /\ (forall x, fold_left (fun n a => 10 * n + digit_val a) pre x = x * 10 ^ List.length pre + n).
Proof.
  induction f as [|f IH]; intros n acc H; [lia|]. cbn [show_fuel].
  assert (Hm : n mod 10 < 10) by (apply Nat.mod_upper_bound; lia).
  destruct (Nat.ltb_spec n 10) as [Hlt|Hge].
  - exists [digit_char (n mod 10)]. rewrite (Nat.mod_small n 10) in * by lia. split; [discriminate|]. split; [reflexivity|].
    split.
    + unfold read_nat. cbn [fold_left]. rewrite digit_val_char by lia. lia.
    + intros x. cbn [fold_left List.length Nat.pow]. rewrite digit_val_char by lia. lia.
  - assert (Hd : n / 10 < f). { assert (n / 10 < n) by (apply Nat.div_lt; lia). lia. }
    destruct (IH (n / 10) (digit_char (n mod 10) :: acc) Hd) as (pre & Hne & E & Hr & Hf).
    exists (pre ++ [digit_char (n mod 10)]). split; [now destruct pre|]. split; [rewrite E, <- app_assoc; reflexivity|].
    assert (Hx : forall x, fold_left (fun n a => 10 * n + digit_val a) (pre ++ [digit_char (n mod 10)]) x = x * 10 ^ List.length (pre ++ [digit_char (n mod 10)]) + n).
    { intros x. rewrite fold_left_app, Hf. cbn [fold_left]. rewrite digit_val_char by lia. rewrite app_length. cbn [List.length]. rewrite Nat.add_1_r. cbn [Nat.pow].
      pose proof (Nat.div_mod n 10). lia. }
    split; [|exact Hx]. unfold read_nat. rewrite Hx. lia.
Qed.
Lemma show_nat_ne n : show_nat n <> [].
Proof. unfold show_nat. destruct (show_fuel_app (S n) n [] ltac:(lia)) as (p & Hne & E & _). rewrite E, app_nil_r. exact Hne. Qed.
Lemma read_show n : read_nat (show_nat n) = n.
Proof. unfold show_nat. destruct (show_fuel_app (S n) n [] ltac:(lia)) as (p & _ & E & Hr & _). rewrite E, app_nil_r. exact Hr. Qed.
Lemma show_Z_nonneg z : (0 <= z)%Z -> show_Z z = show_nat (Z.to_nat z).
Proof. intros H. unfold show_Z. destruct (Z.ltb_spec z 0); [lia|reflexivity]. Qed.
Lemma show_Z_of_nat n : show_Z (Z.of_nat n) = show_nat n.
Proof. rewrite show_Z_nonneg by lia. now rewrite Nat2Z.id. Qed.

Lemma st_tx s : st (tx s) = s.
Proof. apply string_of_list_ascii_of_string. Qed.
Lemma tx_st t : tx (st t) = t.
Proof. apply list_ascii_of_string_of_list_ascii. Qed.

(** splitting *)
Definition nochar (c : ascii) (t : text) : Prop := ~ In c t.
Lemma split_on_none c t : nochar c t -> split_on c t = [t].
Proof.
  induction t as [|a t IH]; intros H; [reflexivity|]. cbn. destruct (Ascii.eqb_spec a c) as [->|]; [exfalso; apply H; now left|].
  rewrite IH; [reflexivity|]. intros Hi. apply H. now right.
Qed.
Lemma split_on_app c t r : nochar c t -> split_on c (t ++ c :: r) = t :: split_on c r.
Proof.
  induction t as [|a t IH]; intros H; cbn.
  - now rewrite Ascii.eqb_refl.
  - destruct (Ascii.eqb_spec a c) as [->|]; [exfalso; apply H; now left|].
    rewrite IH; [reflexivity|]. intros Hi. apply H. now right.
Qed.
(** lines each followed by the separator *)
Lemma split_on_lines c ls r : (forall t, In t ls -> nochar c t) ->
  split_on c (concat (map (fun t => t ++ [c]) ls) ++ r) = ls ++ split_on c r.
Proof.
  induction ls as [|t ls IH]; intros H; [reflexivity|]. cbn [map concat app]. rewrite <- !app_assoc. cbn [app].
  rewrite split_on_app by (apply H; now left). f_equal. apply IH. intros x Hx. apply H. now right.
Qed.
Lemma join_cons sep t u l : join sep (t :: u :: l) = t ++ sep ++ join sep (u :: l).
Proof. reflexivity. Qed.
Lemma join_app_first sep a t l : join sep ((a ++ t) :: l) = a ++ join sep (t :: l).
Proof. destruct l; [reflexivity|]. rewrite !join_cons, <- app_assoc. reflexivity. Qed.
Lemma split_on_join c sp l : nochar c sp -> l <> [] -> (forall t, In t l -> nochar c t) ->
  split_on c (join (c :: sp) l) = match l with [] => [] | t :: r => t :: map (fun x => sp ++ x) r end.
Proof.
  intros Hsp Hne H. destruct l as [|t l]; [congruence|]. clear Hne. revert t H. induction l as [|u l IH]; intros t H.
  - cbn [join map]. rewrite split_on_none by (apply H; now left). reflexivity.
  - rewrite join_cons. cbn [app]. rewrite split_on_app by (apply H; now left). f_equal.
    rewrite <- join_app_first. rewrite IH; [reflexivity|]. intros x [<-|Hx].
    + intros Hi. apply in_app_or in Hi as [Hi|Hi]; [now apply Hsp|]. exact (H u ltac:(right; now left) Hi).
    + apply H. right. now right.
Qed.

(** stripping *)
Lemma lstrip_id p t : starts_not p t -> lstrip p t = t.
Proof. destruct t as [|a t]; [reflexivity|]. cbn. now intros ->. Qed.
Lemma strip_id p t : starts_not p t -> starts_not p (rev t) -> strip p t = t.
Proof. intros H1 H2. unfold strip. rewrite (lstrip_id p t H1), (lstrip_id p (rev t) H2). apply rev_involutive. Qed.
Lemma lstrip_app p w t : allb p w -> lstrip p (w ++ t) = lstrip p t.
Proof. induction w as [|a w IH]; intros H; [reflexivity|]. apply allb_cons in H as (Ha & Hw). cbn. now rewrite Ha, IH. Qed.

Lemma drop2_app t a b : drop2 (t ++ [a; b]) = t.
Proof. unfold drop2. rewrite app_length. cbn [List.length]. replace (List.length t + 2 - 2) with (List.length t) by lia. rewrite firstn_app, firstn_all, Nat.sub_diag; cbn [firstn]; apply app_nil_r. Qed.
