(** The text drawing of a circuit (C87). *)
From Coq Require Import Reals Lra Lia List Arith ZArith.
From Verif.Base Require Import Py PyFacts Text TextFacts.
From Verif.Circuit Require Import GateModel.
From Verif.Visual Require Import DrawModel DrawSpec.
Import ListNotations.
Local Open Scope list_scope.
Local Open Scope nat_scope.

Lemma is_here_iff line g : is_here line g = true <-> g_type g = SINGLE /\ g_target g = TInt (Z.of_nat line).
Proof.
  unfold is_here. destruct (g_type g), (g_target g) as [t|ts]; cbn; split; try discriminate; try (intros [? ?]; discriminate).
  - intros E. apply Z.eqb_eq in E. subst t. split; reflexivity.
  - intros [_ E]. injection E as ->. apply Z.eqb_refl.
Qed.
Lemma cell_written fmt line g : complete g -> exists s, sign_of fmt line g s /\ cell fmt line g = Some (written s).
Proof.
  intros C. unfold cell. destruct (is_here line g) eqn:E.
  - apply is_here_iff in E. destruct E as [E1 E2]. unfold complete in C.
    destruct (g_data g) as [[[a p]|]|[[[[a b] t] p]|]| |] eqn:D; try contradiction.
    + exists (SPhase (show_nat a) (fmt p)). split; [left; rewrite D; auto|reflexivity].
    + exists (SRot (show_nat a ++ show_nat b) (fmt t) (fmt p)). split; [left; rewrite D; auto|]. cbn [written]. rewrite <- !app_assoc. reflexivity.
    + exists SMatrix. split; [left; rewrite D; auto|reflexivity].
    + exists SGate. split; [left; rewrite D; auto|reflexivity].
  - exists SNothing. split; [|reflexivity]. right. split; [|reflexivity]. intros H. apply is_here_iff in H. congruence.
Qed.
Lemma sign_unique fmt line g s s' : sign_of fmt line g s -> sign_of fmt line g s' -> s = s'.
Proof.
  intros [(A & B & H)|(N & H)] [(A' & B' & H')|(N' & H')]; try tauto; [|congruence].
  destruct (g_data g) as [[[a p]|]|[[[[a b] t] p]|]| |]; try contradiction; congruence.
Qed.
Lemma cells_written fmt line gates after : Forall complete gates ->
  exists l, Forall2 (sign_of fmt line) gates l /\ cells fmt line gates after = say (concat (map written l)) after.
Proof.
  induction gates as [|g r IH]; intros F.
  - exists []. split; [constructor|]. cbn. destruct after; reflexivity.
  - inversion F as [|x y Cg Cr E]; subst. destruct (cell_written fmt line g Cg) as (s & S & W). destruct (IH Cr) as (l & F2 & E).
    exists (s :: l). split; [constructor; assumption|]. cbn [cells]. rewrite W, E. unfold say. cbn [map concat fst snd]. rewrite app_assoc. reflexivity.
Qed.
Lemma draw_from_rows fmt gates : Forall complete gates -> forall n line, exists rows, List.length rows = n /\
  (forall i l, nth_error rows i = Some l -> Forall2 (sign_of fmt (line + i)) gates l) /\
  draw_from fmt line n gates = (concat (map (fun l => row l ++ [nl]) rows), None).
Proof.
  intros F. induction n as [|n IH]; intros line.
  - exists []. split; [reflexivity|]. split; [intros [|i] l H; discriminate|reflexivity].
  - destruct (IH (S line)) as (rows & L & H & E). cbn [draw_from]. rewrite E.
    destruct (cells_written fmt line gates (say (tx "---=||" ++ [nl]) (concat (map (fun l => row l ++ [nl]) rows), None)) F) as (l & F2 & El). rewrite El.
    exists (l :: rows). split; [cbn; lia|]. split.
    + intros [|i] l' Hl; cbn in Hl; [injection Hl as <-; rewrite Nat.add_0_r; exact F2|]. rewrite Nat.add_succ_r. exact (H i l' Hl).
    + unfold say, row. cbn [map concat fst snd]. rewrite !app_assoc. reflexivity.
Qed.

(** *** Reading a drawing *)
Lemma plain_not a : plain a = true -> a <> nl /\ a <> "["%char /\ a <> "]"%char /\ a <> "("%char /\ a <> ")"%char /\ a <> ","%char.
Proof. intros H. repeat split; intros ->; vm_compute in H; discriminate. Qed.
Lemma digit_plain a : is_digit a = true -> plain a = true.
Proof.
  intros H. unfold is_digit, between in H. apply andb_prop in H. destruct H as [A B]. apply Nat.leb_le in A. apply Nat.leb_le in B.
  unfold plain. destruct (existsb (Ascii.eqb a) (nl :: tx "[](),")) eqn:E; [|reflexivity]. exfalso. apply existsb_exists in E. destruct E as (x & Hx & E). apply Ascii.eqb_eq in E. subst x.
  cbn in Hx. repeat (destruct Hx as [<-|Hx]; [vm_compute in A, B; lia|]). exact Hx.
Qed.
Definition sign_plain (s : sign) : Prop :=
  match s with SPhase l p => allb plain l /\ allb plain p | SRot l t p => allb plain l /\ allb plain t /\ allb plain p | _ => True end.
Lemma sign_of_plain fmt line g s : number_format fmt -> sign_of fmt line g s -> sign_plain s.
Proof.
  intros NF. assert (D : forall n, allb plain (show_nat n)) by (intros n; apply (allb_weaken is_digit); [exact digit_plain|apply show_nat_digits]).
  intros [(_ & _ & H)|(_ & ->)]; [|exact I]. destruct (g_data g) as [[[a p]|]|[[[[a b] t] p]|]| |]; try contradiction; subst s; cbn [sign_plain]; try exact I.
  - split; [apply D|apply NF].
  - split; [apply allb_app; split; apply D|]. split; apply NF.
Qed.
(** Two texts without the character c, followed by c, are equal if the whole is. *)
Lemma upto c : forall (a b r r' : text), (forall x, In x a -> x <> c) -> (forall x, In x b -> x <> c) -> a ++ c :: r = b ++ c :: r' -> a = b /\ r = r'.
Proof.
  induction a as [|x a IH]; intros [|y b] r r' Ha Hb E; cbn in E.
  - injection E as ->. auto.
  - injection E as E1 E2. exfalso. apply (Hb y (or_introl eq_refl)). auto.
  - injection E as E1 E2. exfalso. apply (Ha x (or_introl eq_refl)). auto.
  - injection E as -> E. destruct (IH b r r') as [-> ->]; auto; intros z Hz; [apply Ha|apply Hb]; right; exact Hz.
Qed.
Lemma allb_in p t x : allb p t -> In x t -> p x = true.
Proof.
  induction t as [|y t IH]; intros H; [intros []|]. apply allb_cons in H. destruct H as [A B]. intros [<-|I]; [exact A|exact (IH B I)].
Qed.
Lemma upto_plain c a b r r' : (forall x, plain x = true -> x <> c) -> allb plain a -> allb plain b -> a ++ c :: r = b ++ c :: r' -> a = b /\ r = r'.
Proof. intros P A B. apply upto; intros x Hx; apply P; [exact (allb_in _ _ _ A Hx)|exact (allb_in _ _ _ B Hx)]. Qed.
Ltac strip_eq E := cbn [written app tx list_ascii_of_string] in E; rewrite <- ?app_assoc in E; cbn [app tx list_ascii_of_string] in E; rewrite <- ?app_assoc in E; cbn [app] in E.
Lemma written_first s s' r r' : sign_plain s -> sign_plain s' -> written s ++ r = written s' ++ r' -> s = s' /\ r = r'.
Proof.
  intros P P' E. assert (PN := plain_not).
  destruct s as [l p|l t p| | |], s' as [l' p'|l' t' p'| | |]; cbn [sign_plain] in P, P'; strip_eq E; try discriminate; try (injection E as E; auto; fail).
  - injection E as E. destruct P as [P1 P2], P' as [P1' P2'].
    destruct (upto_plain "("%char _ _ _ _ (fun x H => proj1 (proj2 (proj2 (proj2 (PN x H))))) P1 P1' E) as [-> E'].
    destruct (upto_plain ")"%char _ _ _ _ (fun x H => proj1 (proj2 (proj2 (proj2 (proj2 (PN x H)))))) P2 P2' E') as [-> E'']. injection E'' as ->. auto.
  - injection E as E. destruct P as (P1 & P2 & P3), P' as (P1' & P2' & P3').
    destruct (upto_plain "("%char _ _ _ _ (fun x H => proj1 (proj2 (proj2 (proj2 (PN x H))))) P1 P1' E) as [-> E'].
    destruct (upto_plain ","%char _ _ _ _ (fun x H => proj2 (proj2 (proj2 (proj2 (proj2 (PN x H)))))) P2 P2' E') as [-> E'']. rewrite <- !app_assoc in E''. cbn [app] in E''.
    destruct (upto_plain ")"%char _ _ _ _ (fun x H => proj1 (proj2 (proj2 (proj2 (proj2 (PN x H)))))) P3 P3' E'') as [-> E3]. injection E3 as ->. auto.
Qed.
Lemma written_end s r r' : written s ++ r = tx "---=||" ++ r' -> False.
Proof. intros E. destruct s; strip_eq E; discriminate. Qed.
Lemma signs_inj : forall l l' r r', Forall sign_plain l -> Forall sign_plain l' ->
  concat (map written l) ++ tx "---=||" ++ r = concat (map written l') ++ tx "---=||" ++ r' -> l = l' /\ r = r'.
Proof.
  induction l as [|s l IH]; intros [|s' l'] r r' F F' E; cbn [map concat] in E; rewrite <- ?app_assoc in E.
  - cbn [app] in E. apply app_inv_head in E. auto.
  - exfalso. symmetry in E. exact (written_end _ _ _ E).
  - exfalso. exact (written_end _ _ _ E).
  - inversion F; inversion F'; subst. destruct (written_first s s' _ _ ltac:(assumption) ltac:(assumption) E) as [-> E'].
    destruct (IH l' r r') as [-> ->]; auto.
Qed.
Lemma rows_inj : forall (rs rs' : list (list sign)), Forall (Forall sign_plain) rs -> Forall (Forall sign_plain) rs' ->
  concat (map (fun l => row l ++ [nl]) rs) = concat (map (fun l => row l ++ [nl]) rs') -> rs = rs'.
Proof.
  induction rs as [|l rs IH]; intros [|l' rs'] F F' E; [reflexivity|discriminate|discriminate|]. cbn [map concat] in E. unfold row in E. rewrite <- !app_assoc in E.
  apply app_inv_head in E. inversion F; inversion F'; subst. destruct (signs_inj l l' _ _ ltac:(assumption) ltac:(assumption) E) as [-> E'].
  apply app_inv_head in E'. f_equal. apply IH; assumption.
Qed.
Lemma signs_of_plain fmt line gates l : number_format fmt -> Forall2 (sign_of fmt line) gates l -> Forall sign_plain l.
Proof. intros NF. induction 1; constructor; [eapply sign_of_plain; eassumption|assumption]. Qed.
Lemma nth_error_same {A} : forall (l l' : list A), (forall i, nth_error l i = nth_error l' i) -> l = l'.
Proof.
  induction l as [|x l IH]; intros [|y l'] H; [reflexivity|discriminate (H 0)|discriminate (H 0)|]. assert (X := H 0). cbn in X. injection X as ->. f_equal. apply IH. intros i. exact (H (S i)).
Qed.
Lemma nth_rows_plain fmt gates rows : number_format fmt -> (forall i l, nth_error rows i = Some l -> Forall2 (sign_of fmt (0 + i)) gates l) -> Forall (Forall sign_plain) rows.
Proof.
  intros NF H. apply Forall_forall. intros l Hl. apply In_nth_error in Hl. destruct Hl as (i & Hi). exact (signs_of_plain fmt _ gates l NF (H i l Hi)).
Qed.
Lemma signs_det fmt line gates l l' : Forall2 (sign_of fmt line) gates l -> Forall2 (sign_of fmt line) gates l' -> l = l'.
Proof.
  intros F. revert l'. induction F as [|g s gs l S F IH]; intros l' F'; inversion F'; subst; [reflexivity|]. f_equal; [eapply sign_unique; eassumption|auto].
Qed.

(** Two drawings are the same text exactly if they have as many lines and every line shows the same signs. *)
Theorem draw_same fmt n gates n' gates' : number_format fmt -> Forall complete gates -> Forall complete gates' ->
  (draw fmt n gates = draw fmt n' gates' <->
   n = n' /\ forall line, line < n -> exists l, Forall2 (sign_of fmt line) gates l /\ Forall2 (sign_of fmt line) gates' l).
Proof.
  intros NF F F'. unfold draw. destruct (draw_from_rows fmt gates F n 0) as (rs & L & H & E). destruct (draw_from_rows fmt gates' F' n' 0) as (rs' & L' & H' & E'). rewrite E, E'. split.
  - intros X. injection X as X. apply rows_inj in X; [|eapply nth_rows_plain; eassumption|eapply nth_rows_plain; eassumption]. subst rs'. split; [congruence|].
    intros line Hl. destruct (nth_error rs line) as [l|] eqn:N; [|apply nth_error_None in N; lia]. exists l. split; [exact (H line l N)|exact (H' line l N)].
  - intros [-> S]. f_equal. f_equal. f_equal. apply nth_error_same. intros i. destruct (Nat.lt_ge_cases i n') as [Hi|Hi].
    + destruct (S i Hi) as (l & A & B). destruct (nth_error rs i) as [x|] eqn:N; [|apply nth_error_None in N; lia]. destruct (nth_error rs' i) as [y|] eqn:N'; [|apply nth_error_None in N'; lia].
      f_equal. rewrite (signs_det _ _ _ _ _ (H i x N) A), (signs_det _ _ _ _ _ (H' i y N') B). reflexivity.
    + rewrite (proj2 (nth_error_None rs i)), (proj2 (nth_error_None rs' i)) by lia. reflexivity.
Qed.

(** *** What cannot be seen *)
Definition not_local (g : gate kind) : Prop := g_type g <> SINGLE.
Lemma nonlocal_signs fmt line gates l gates' : Forall2 (fun g g' => g = g' \/ (not_local g /\ not_local g')) gates gates' ->
  Forall2 (sign_of fmt line) gates l -> Forall2 (sign_of fmt line) gates' l.
Proof.
  intros F. revert l. induction F as [|g g' r r' H F IH]; intros l S; inversion S as [|a b c e S1 S2]; subst; constructor; [|apply IH; assumption].
  destruct H as [<-|[N N']]; [exact S1|]. destruct S1 as [(A & _)|(_ & ->)]; [contradiction|]. right. split; [intros [X _]; contradiction|reflexivity].
Qed.
Lemma signs_exist fmt line gates : Forall complete gates -> exists l, Forall2 (sign_of fmt line) gates l.
Proof.
  induction 1 as [|g r C F (l & IH)]; [exists []; constructor|]. destruct (cell_written fmt line g C) as (s & S & _). exists (s :: l). constructor; assumption.
Qed.
Theorem nonlocal_same fmt n gates gates' : Forall2 (fun g g' => g = g' \/ (not_local g /\ not_local g')) gates gates' -> draw fmt n gates = draw fmt n gates'.
Proof.
  intros F. unfold draw. generalize 0 as line. induction n as [|n IH]; intros line; [reflexivity|]. cbn [draw_from]. rewrite (IH (S line)). f_equal.
  generalize (say (tx "---=||" ++ [nl]) (draw_from fmt (S line) n gates')) as after. clear IH.
  induction F as [|g g' r r' H F IH]; intros after; [reflexivity|]. cbn [cells]. rewrite IH.
  assert (X : cell fmt line g = cell fmt line g').
  { destruct H as [->|[N N']]; [reflexivity|]. unfold cell. assert (Z : forall x, not_local x -> is_here line x = false).
    { intros x Nx. destruct (is_here line x) eqn:E; [apply is_here_iff in E; destruct E; contradiction|reflexivity]. }
    rewrite (Z g N), (Z g' N'). reflexivity. }
  rewrite X. reflexivity.
Qed.
Theorem dagger_same fmt n gates gates' :
  Forall2 (fun g g' => g_type g = g_type g' /\ g_target g = g_target g' /\ g_data g = g_data g') gates gates' -> draw fmt n gates = draw fmt n gates'.
Proof.
  intros F. unfold draw. generalize 0 as line. induction n as [|n IH]; intros line; [reflexivity|]. cbn [draw_from]. rewrite (IH (S line)). f_equal.
  generalize (say (tx "---=||" ++ [nl]) (draw_from fmt (S line) n gates')) as after. clear IH.
  induction F as [|g g' r r' (A & B & C) F IH]; intros after; [reflexivity|]. cbn [cells]. rewrite IH. unfold cell, is_here. rewrite A, B, C. reflexivity.
Qed.
(** Attributes that do not exist. *)
Lemma cells_stop fmt line g after : forall r, In g r -> is_here line g = true -> ~ complete g -> snd (cells fmt line r after) = Some AttributeError.
Proof.
  induction r as [|x r IH]; intros I Hh N; [destruct I|]. cbn [cells]. destruct (cell fmt line x) as [t|] eqn:E; [|reflexivity]. unfold say. cbn [snd].
  destruct I as [<-|I]; [exfalso|auto]. unfold cell in E. rewrite Hh in E. apply N. unfold complete. destruct (g_data x) as [[[a p]|]|[[[[a b] t'] p]|]| |]; try discriminate; exact I.
Qed.
Lemma cells_stopped fmt line r e : forall after, snd after = Some AttributeError -> e = AttributeError -> snd (cells fmt line r after) = Some e.
Proof.
  intros after H ->. induction r as [|x r IH]; [exact H|]. cbn [cells]. destruct (cell fmt line x); [exact IH|reflexivity].
Qed.
Theorem draw_stops fmt n gates g line : In g gates -> g_type g = SINGLE -> g_target g = TInt (Z.of_nat line) -> line < n -> ~ complete g ->
  snd (draw fmt n gates) = Some AttributeError.
Proof.
  intros I T TG L N. unfold draw. assert (G : forall k from, from <= line < from + k -> snd (draw_from fmt from k gates) = Some AttributeError).
  { induction k as [|k IH]; intros from B; [lia|]. cbn [draw_from]. unfold say at 1. cbn [snd]. destruct (Nat.eq_dec from line) as [->|D].
    - apply (cells_stop fmt line g); trivial. apply is_here_iff. auto.
    - apply cells_stopped; [|reflexivity]. unfold say. cbn [snd]. apply IH. lia. }
  apply G. lia.
Qed.
Theorem cell_same fmt n g g' : (forall line, cell fmt line g = cell fmt line g') -> draw fmt n [g] = draw fmt n [g'].
Proof.
  intros H. unfold draw. generalize 0 as line. induction n as [|n IH]; intros line; [reflexivity|]. cbn [draw_from]. rewrite (IH (S line)). cbn [cells]. rewrite (H line). reflexivity.
Qed.
