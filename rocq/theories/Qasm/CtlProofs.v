(** Lines with a control clause, register declarations. *)
From Coq Require Import Reals.
From Verif Require Import Base.Py Base.PyFacts Base.Text Base.TextFacts Base.Regex Base.RegexFacts.
From Verif Require Import Circuit.CircuitModel Circuit.CircuitSpec Circuit.GateModel Gates.SingleModel.
From Verif Require Import Qasm.QasmModel Qasm.QasmSpec Qasm.LineProofs.
Local Open Scope nat_scope.

Definition blank_dits (l : list (string * nat)) : text := concat (map (fun x => tx " " ++ dit x) l).

Lemma fails_ctl_dit w s c : gap w -> starts_not is_word s -> starts_not is_space s -> fails rx_ctl_dit (w ++ s) c.
Proof.
  intros Hw Hs Hsp. apply fails_class_seq; [exact Hw|exact Hsp|]. intros w1 w2 E. apply fails_seq, fails_seq, fails_chr.
  apply starts_gap_not_word; [|exact Hs]. subst w. apply allb_app in Hw. apply Hw.
Qed.
Lemma via_ctl_dit w x s c : gap w -> word (tx (fst x)) -> via rx_ctl_dit (w ++ dit x ++ s) c s c.
Proof.
  intros Hw Hx. unfold rx_ctl_dit.
  eapply via_seq; [apply via_gap; [exact Hw|apply starts_dit; [exact Hx|apply word_not_space]]|].
  rewrite dit_app. eapply via_seq; [apply via_word; [exact Hx|reflexivity]|].
  eapply via_seq; [apply via_gap0; reflexivity|].
  eapply via_seq; [apply via_ch|]. eapply via_seq; [apply via_digits; reflexivity|]. apply via_ch.
Qed.
Lemma via_ctl_star l : forall s c, (forall x, In x l -> word (tx (fst x))) -> starts_not is_word s -> starts_not is_space s ->
  exists c', via (Star (Grp 7 rx_ctl_dit)) (blank_dits l ++ tx " " ++ s) c (tx " " ++ s) c' /\ ext [7] c c'.
Proof.
  induction l as [|x l IH]; intros s c Hl Hs Hsp.
  - exists c. split; [|apply ext_refl]. cbn [blank_dits map concat app]. apply via_star_nil, fails_grp.
    apply fails_ctl_dit; [apply gap_blank|exact Hs|exact Hsp].
  - destruct (IH s ((7, tx " " ++ dit x) :: c) (fun y Hy => Hl y (or_intror Hy)) Hs Hsp) as (c' & Hv & He).
    exists c'. split.
    + assert (E : blank_dits (x :: l) ++ tx " " ++ s = (tx " " ++ dit x) ++ (blank_dits l ++ tx " " ++ s)) by (unfold blank_dits; cbn [map concat]; rewrite <- !app_assoc; reflexivity).
      rewrite E. eapply via_star_cons; [| |exact Hv].
      * eapply via_grp; [reflexivity|]. rewrite <- app_assoc. apply via_ctl_dit; [apply gap_blank|apply Hl; now left].
      * rewrite !app_length. cbn [List.length tx list_ascii_of_string]. lia.
    + eapply ext_trans; [|exact He]. apply ext_cons. now left.
Qed.

(** the control lines: first one, then [l]; in the text each is followed by a blank *)
Definition ctl_group (x : string * nat) (l : list (string * nat)) : text :=
  blank_dits (x :: l) ++ match l with [] => tx " " | _ => [] end.
Lemma via_ctl_dits x l s c : word (tx (fst x)) -> (forall y, In y l -> word (tx (fst y))) -> starts_not is_word s -> starts_not is_space s ->
  exists c', via (Seq rx_ctl_dits Sp) (blank_dits (x :: l) ++ tx " " ++ s) c s c' /\ ext [6; 7] c c' /\ group c' 6 = Some (ctl_group x l).
Proof.
  intros Hx Hl Hs Hsp. destruct l as [|y l].
  - exists ((6, ctl_group x []) :: c). split; [|split; [apply ext_cons; now left|reflexivity]].
    eapply via_seq; [|apply via_gap0; exact Hsp]. eapply via_grp.
    { unfold ctl_group, blank_dits. cbn [map concat]. rewrite <- !app_assoc. reflexivity. }
    unfold blank_dits. cbn [map concat]. rewrite app_nil_r, <- app_assoc.
    eapply via_seq; [apply via_gap1; [discriminate|apply gap_blank|apply starts_dit; [exact Hx|apply word_not_space]]|].
    eapply via_seq; [now apply via_dit|]. eapply via_seq; [apply via_gap; [apply gap_blank|exact Hsp]|].
    apply via_star_nil, fails_grp. apply (fails_ctl_dit [] s); [apply allb_nil|exact Hs|exact Hsp].
  - destruct (via_ctl_star l s ((7, dit y) :: c) (fun z Hz => Hl z (or_intror Hz)) Hs Hsp) as (c' & Hv & He).
    exists ((6, ctl_group x (y :: l)) :: c'). split; [|split; [|reflexivity]].
    + eapply via_seq; [|apply via_gap; [apply gap_blank|exact Hsp]]. eapply via_grp.
      { unfold ctl_group. rewrite app_nil_r. reflexivity. }
      unfold blank_dits at 1. cbn [map concat]. fold (blank_dits l). rewrite <- !app_assoc.
      eapply via_seq; [apply via_gap1; [discriminate|apply gap_blank|apply starts_dit; [exact Hx|apply word_not_space]]|].
      eapply via_seq; [now apply via_dit|]. eapply via_seq; [apply via_gap; [apply gap_blank|apply starts_dit; [apply Hl; now left|apply word_not_space]]|].
      eapply via_star_cons; [|  |exact Hv].
      * eapply via_grp; [reflexivity|]. apply (via_ctl_dit [] y); [apply allb_nil|apply Hl; now left].
      * rewrite (app_length (dit y)). unfold dit. rewrite !app_length. cbn [List.length tx list_ascii_of_string]. lia.
    + intros n Hn. rewrite group_cons. destruct (Nat.eqb_spec n 6) as [->|]; [exfalso; apply Hn; now left|].
      rewrite He by (intros [<-|[]]; apply Hn; right; now left). rewrite group_cons.
      destruct (Nat.eqb_spec n 7) as [->|]; [exfalso; apply Hn; right; now left|reflexivity].
Qed.

(** levels *)
Definition more_levels (l : list nat) : text := concat (map (fun n => tx ", " ++ show_nat n) l).
Definition levels_text (n : nat) (l : list nat) : text := tx "[" ++ show_nat n ++ more_levels l ++ tx "]".
Lemma starts_more_levels l s : starts_not is_digit (more_levels l ++ tx "]" ++ s).
Proof. destruct l; reflexivity. Qed.
Lemma via_more_levels k l : forall s c,
  exists c', via (Star (Grp k (Seq (Ch ",") (Seq Sp (Plus D))))) (more_levels l ++ tx "]" ++ s) c (tx "]" ++ s) c' /\ ext [k] c c'.
Proof.
  induction l as [|n l IH]; intros s c.
  - exists c. split; [|apply ext_refl]. cbn [more_levels map concat app]. apply via_star_nil, fails_grp, fails_seq, fails_chr. reflexivity.
  - destruct (IH s ((k, tx ", " ++ show_nat n) :: c)) as (c' & Hv & He). exists c'. split.
    + assert (E : more_levels (n :: l) ++ tx "]" ++ s = (tx ", " ++ show_nat n) ++ (more_levels l ++ tx "]" ++ s)) by (unfold more_levels; cbn [map concat]; rewrite <- !app_assoc; reflexivity).
      rewrite E. eapply via_star_cons; [| |exact Hv].
      * eapply via_grp; [reflexivity|]. rewrite <- app_assoc.
        change (tx ", " ++ show_nat n ++ more_levels l ++ tx "]" ++ s) with (","%char :: (tx " " ++ (show_nat n ++ more_levels l ++ tx "]" ++ s))).
        eapply via_seq; [apply via_ch|]. eapply via_seq; [apply via_gap; [apply gap_blank|apply starts_space_word, digits_word]|].
        apply via_digits. apply starts_more_levels.
      * rewrite !app_length. cbn [List.length tx list_ascii_of_string]. lia.
    + eapply ext_trans; [|exact He]. apply ext_cons. now left.
Qed.
Lemma via_levels n l s c :
  exists c', via rx_levels (levels_text n l ++ s) c s c' /\ ext [8; 9; 10] c c' /\ group c' 8 = Some (levels_text n l).
Proof.
  destruct (via_more_levels 10 l s c) as (c' & Hv & He).
  exists ((8, levels_text n l) :: (9, show_nat n ++ more_levels l) :: c'). split; [|split; [|reflexivity]].
  - unfold rx_levels. eapply via_grp; [reflexivity|]. unfold levels_text. rewrite <- !app_assoc.
    eapply via_seq; [apply via_ch|]. eapply via_seq; [eapply via_grp; [|eapply via_seq; [apply via_digits; apply starts_more_levels|exact Hv]]|apply via_ch].
    rewrite <- app_assoc. reflexivity.
  - intros k Hk. rewrite !group_cons. destruct (Nat.eqb_spec k 8) as [->|]; [exfalso; apply Hk; now left|].
    destruct (Nat.eqb_spec k 9) as [->|]; [exfalso; apply Hk; right; now left|]. apply He. intros [<-|[]]. apply Hk. do 2 right. now left.
Qed.

(** ** a whole line with controls (always one target) *)
Definition ctl_text (tag : text) (ps : list text) (x y : string * nat) (l : list (string * nat)) (n : nat) (ns : list nat) : text :=
  tag ++ tx " " ++ ptext ps ++ dit x ++ tx " ctl" ++ blank_dits (y :: l) ++ tx " " ++ levels_text n ns ++ tx ";".

Lemma search_ctl tag ps x y l n ns : word tag -> allb not_paren (join (tx ", ") ps) ->
  word (tx (fst x)) -> (forall z, In z (y :: l) -> word (tx (fst z))) ->
  exists c, re_search rx_gate (ctl_text tag ps x y l n ns) = Some ([], c) /\
  group c 1 = Some tag /\ group c 2 = (match ps with [] => None | _ => Some (join (tx ", ") ps) end) /\
  group c 3 = Some (dit x ++ tx " ") /\ (exists t, group c 5 = Some t) /\ group c 6 = Some (ctl_group y l) /\ group c 8 = Some (levels_text n ns).
Proof.
  intros Ht Hps Hx Hl.
  destruct (via_ctl_dits y l (levels_text n ns ++ tx ";") ((3, dit x ++ tx " ") :: head_caps tag ps)
    (Hl y (or_introl eq_refl)) (fun z Hz => Hl z (or_intror Hz)) eq_refl eq_refl) as (c1 & Hv1 & He1 & H6).
  destruct (via_levels n ns (tx ";") c1) as (c2 & Hv2 & He2 & H8).
  set (w := tx "ctl" ++ blank_dits (y :: l) ++ tx " " ++ levels_text n ns).
  exists ((5, w) :: c2). split.
  - apply re_search_via. unfold rx_gate, ctl_text.
    change (tx " ctl" ++ blank_dits (y :: l) ++ tx " " ++ levels_text n ns ++ tx ";") with (tx " " ++ tx "ctl" ++ blank_dits (y :: l) ++ tx " " ++ levels_text n ns ++ tx ";").
    apply (via_head tag ps _ Ht Hps).
    + apply starts_dit; [exact Hx|apply word_not_space].
    + apply starts_dit; [exact Hx|apply word_not_paren].
    + eapply via_seq; [apply via_target_blank; [exact Hx|reflexivity|reflexivity]|]. eapply via_seq; [apply via_gap0; reflexivity|].
      apply (via_seq _ _ _ _ (tx ";") ((5, w) :: c2)).
      { apply via_opt_some. unfold rx_ctl. apply (via_grp _ _ _ _ w); [unfold w; rewrite <- !app_assoc; reflexivity|].
        eapply via_seq; [apply via_lit|].
        intros X k z Hk. specialize (Hv1 X (fun s' c' => m rx_levels s' c' k) z). cbn [m] in Hv1 |- *. apply Hv1. apply Hv2. exact Hk. }
      eapply via_seq; [apply via_gap0; reflexivity|]. apply via_ch.
  - rewrite !group_cons. cbn [Nat.eqb]. rewrite (He2 1), (He2 2), (He2 3), (He2 6), H6, H8, (He1 1), (He1 2), (He1 3) by (cbn; lia).
    rewrite !group_cons. cbn [Nat.eqb]. split; [|split; [|split; [|split; [|split]]]]; try reflexivity.
    + destruct ps; reflexivity.
    + destruct ps; reflexivity.
    + eexists. reflexivity.
Qed.

(** ** reading the control clause back *)
Definition dit_caps (x : string * nat) : caps := [(2, tx "[" ++ show_nat (snd x) ++ tx "]"); (1, tx (fst x))].
Lemma findall_dits l : forall f post, gap post -> (post = [] \/ post = tx " ") -> (forall x, In x l -> word (tx (fst x))) ->
  List.length (blank_dits l ++ post) < f -> findall_fuel f rx_indexing (blank_dits l ++ post) = map dit_caps l.
Proof.
  induction l as [|x l IH]; intros f post Hp Hpp Hl Hf.
  - cbn [blank_dits map concat app] in *. destruct Hpp as [->| ->].
    + destruct f; [lia|]. reflexivity.
    + destruct f as [|[|f]]; [cbn in Hf; lia|cbn in Hf; lia|]. reflexivity.
  - assert (E : blank_dits (x :: l) ++ post = tx " " ++ dit x ++ (blank_dits l ++ post)) by (unfold blank_dits; cbn [map concat]; rewrite <- !app_assoc; reflexivity).
    rewrite E in *. destruct f as [|f]; [lia|]. cbn [findall_fuel].
    rewrite (re_match_via _ _ _ _ (via_indexing (tx " ") x _ [] gap_blank (Hl x (or_introl eq_refl)))).
    cbn [map]. f_equal. apply IH; [exact Hp|exact Hpp|intros y Hy; apply Hl; now right|].
    rewrite !app_length in Hf. rewrite app_length. cbn [List.length tx list_ascii_of_string] in Hf. lia.
Qed.
Lemma parse_ctls_dits sm l : parse_ctls sm (map dit_caps l) =
  let? qs := lookups sm l in Ok (map (fun q => Z.of_nat (fst q)) qs).
Proof.
  induction l as [|x l IH]; [reflexivity|]. cbn [map parse_ctls lookups].
  unfold dit_caps at 1 2. unfold grp. rewrite !group_cons. cbn [Nat.eqb]. rewrite bracket_int_show, st_tx.
  destruct (QasmModel.lookup sm (fst x) (snd x)); [|reflexivity]. cbn [bindr]. rewrite IH. destruct (lookups sm l); reflexivity.
Qed.
Lemma parse_ctl_group sm x l : word (tx (fst x)) -> (forall y, In y l -> word (tx (fst y))) ->
  parse_ctls sm (re_findall rx_indexing (ctl_group x l)) = let? qs := lookups sm (x :: l) in Ok (map (fun q => Z.of_nat (fst q)) qs).
Proof.
  intros Hx Hl. unfold re_findall, ctl_group.
  rewrite findall_dits; [apply parse_ctls_dits| | | |lia].
  - destruct l; [apply gap_blank|apply allb_nil].
  - destruct l; [now right|now left].
  - intros y [<-|Hy]; auto.
Qed.

Lemma re_match_number_none t : starts_not is_digit t -> re_match rx_number t = None.
Proof. intros H. apply re_match_fails. apply fails_grp, fails_seq, fails_chr. exact H. Qed.
Lemma findall_number f n s : starts_not is_digit s ->
  findall_fuel (S f) rx_number (show_nat n ++ s) = [(0, show_nat n)] :: findall_fuel f rx_number s.
Proof.
  intros Hs. cbn [findall_fuel]. rewrite (re_match_via rx_number _ s [(0, show_nat n)]); [reflexivity|].
  eapply via_grp; [reflexivity|]. now apply via_digits.
Qed.
Lemma findall_skip f a s : is_digit a = false -> findall_fuel (S f) rx_number (a :: s) = findall_fuel f rx_number s.
Proof. intros H. cbn [findall_fuel]. rewrite re_match_number_none by exact H. reflexivity. Qed.
Lemma findall_levels l : forall f, List.length (more_levels l ++ tx "]") < f ->
  findall_fuel f rx_number (more_levels l ++ tx "]") = map (fun n => [(0, show_nat n)]) l.
Proof.
  induction l as [|n l IH]; intros f Hf.
  - cbn [more_levels map concat app] in *. destruct f as [|[|f]]; [cbn in Hf; lia|cbn in Hf; lia|]. reflexivity.
  - assert (E : more_levels (n :: l) ++ tx "]" = ","%char :: " "%char :: (show_nat n ++ (more_levels l ++ tx "]"))) by (unfold more_levels; cbn [map concat]; rewrite <- !app_assoc; reflexivity).
    rewrite E in *. cbn [List.length] in Hf. destruct f as [|[|[|f]]]; [lia|lia|lia|].
    rewrite !findall_skip by reflexivity. rewrite findall_number by (rewrite <- (app_nil_r (more_levels l ++ tx "]")), <- app_assoc; apply starts_more_levels).
    cbn [map]. f_equal. apply IH. rewrite app_length in Hf.
    pose proof (show_nat_ne n). destruct (show_nat n); [congruence|]. cbn [List.length] in Hf. lia.
Qed.
Lemma read_levels n l : map (fun m => Z.of_nat (read_nat (grp m 0))) (re_findall rx_number (levels_text n l)) = map Z.of_nat (n :: l).
Proof.
  unfold re_findall, levels_text. change (tx "[" ++ show_nat n ++ more_levels l ++ tx "]") with ("["%char :: (show_nat n ++ (more_levels l ++ tx "]"))).
  set (k := List.length _). cbn [List.length] in k. subst k. rewrite findall_skip by reflexivity.
  rewrite findall_number by (rewrite <- (app_nil_r (more_levels l ++ tx "]")), <- app_assoc; apply starts_more_levels).
  rewrite findall_levels.
  - cbn [map]. unfold grp at 1. rewrite group_cons. cbn [Nat.eqb]. rewrite read_show. f_equal. rewrite map_map. apply map_ext. intros a.
    unfold grp. rewrite group_cons. cbn [Nat.eqb]. now rewrite read_show.
  - rewrite (app_length (show_nat n)). pose proof (show_nat_ne n). destruct (show_nat n); [congruence|]. cbn [List.length]. lia.
Qed.

(** ** register declarations *)
Definition more_dims (l : list nat) : text := concat (map (fun n => tx "," ++ show_nat n) l).
Lemma join_comma n l : join (tx ",") (map show_nat (n :: l)) = show_nat n ++ more_dims l.
Proof.
  revert n. induction l as [|m l IH]; intros n.
  - cbn [map join more_dims concat]. now rewrite app_nil_r.
  - cbn [map]. rewrite join_cons. change (show_nat m :: map show_nat l) with (map show_nat (m :: l)). rewrite IH.
    unfold more_dims. cbn [map concat]. rewrite <- !app_assoc. reflexivity.
Qed.
Lemma starts_more_dims l s : starts_not is_digit (more_dims l ++ tx "]" ++ s).
Proof. destruct l; reflexivity. Qed.
Lemma via_more_dims l : forall s c, via (Star (Seq (Ch ",") (Seq Sp (Plus D)))) (more_dims l ++ tx "]" ++ s) c (tx "]" ++ s) c.
Proof.
  induction l as [|n l IH]; intros s c.
  - cbn [more_dims map concat app]. apply via_star_nil, fails_seq, fails_chr. reflexivity.
  - assert (E : more_dims (n :: l) ++ tx "]" ++ s = (tx "," ++ show_nat n) ++ (more_dims l ++ tx "]" ++ s)) by (unfold more_dims; cbn [map concat]; rewrite <- !app_assoc; reflexivity).
    rewrite E. eapply via_star_cons; [| |apply IH].
    + rewrite <- app_assoc. eapply via_seq; [apply via_ch|]. eapply via_seq; [apply via_gap0; apply starts_space_word, digits_word|].
      apply via_digits, starts_more_dims.
    + rewrite !app_length. cbn [List.length tx list_ascii_of_string]. lia.
Qed.

Lemma match_qreg label n d ds : word label ->
  re_match rx_qreg (tx "qreg " ++ label ++ tx " [" ++ show_nat n ++ tx "]" ++ tx "[" ++ join (tx ",") (map show_nat (d :: ds)) ++ tx "]" ++ tx ";") =
  Some ([], [(3, join (tx ",") (map show_nat (d :: ds))); (2, tx "[" ++ show_nat n ++ tx "]"); (1, label)]).
Proof.
  intros Hl. apply re_match_via. rewrite join_comma. unfold rx_qreg.
  change (tx "qreg " ++ label ++ tx " [" ++ show_nat n ++ tx "]" ++ tx "[" ++ (show_nat d ++ more_dims ds) ++ tx "]" ++ tx ";")
    with (tx "qreg" ++ tx " " ++ (label ++ tx " " ++ (tx "[" ++ show_nat n ++ tx "]" ++ (tx "[" ++ (show_nat d ++ more_dims ds) ++ tx "]" ++ tx ";")))).
  eapply via_seq; [apply via_lit|].
  eapply via_seq; [apply via_gap1; [discriminate|apply gap_blank|apply starts_space_word; exact Hl]|].
  eapply via_seq; [eapply via_grp; [reflexivity|apply via_word; [exact Hl|reflexivity]]|].
  eapply via_seq; [apply via_gap1; [discriminate|apply gap_blank|reflexivity]|].
  eapply via_seq.
  { apply (via_grp _ _ _ _ (tx "[" ++ show_nat n ++ tx "]") (tx "[" ++ (show_nat d ++ more_dims ds) ++ tx "]" ++ tx ";")); [rewrite <- !app_assoc; reflexivity|].
    change (tx "[" ++ show_nat n ++ tx "]" ++ tx "[" ++ (show_nat d ++ more_dims ds) ++ tx "]" ++ tx ";")
      with ("["%char :: (show_nat n ++ "]"%char :: (tx "[" ++ (show_nat d ++ more_dims ds) ++ tx "]" ++ tx ";"))).
    eapply via_seq; [apply via_ch|]. eapply via_seq; [apply via_gap0; apply starts_space_word, digits_word|].
    eapply via_seq; [apply via_digits; reflexivity|]. eapply via_seq; [apply via_gap0; reflexivity|]. apply via_ch. }
  eapply via_seq; [|apply via_ch].
  apply via_opt_some. eapply via_seq; [apply via_gap0; reflexivity|]. eapply via_seq; [apply via_ch|].
  eapply via_seq; [eapply via_grp; [reflexivity|]|apply via_ch].
  rewrite <- app_assoc. eapply via_seq; [apply via_digits, starts_more_dims|apply via_more_dims].
Qed.

Lemma match_creg label n : word label ->
  re_match rx_creg (tx "creg " ++ label ++ tx "[" ++ show_nat n ++ tx "];") = Some ([], [(2, show_nat n); (1, label)]).
Proof.
  intros Hl. apply re_match_via. unfold rx_creg.
  change (tx "creg " ++ label ++ tx "[" ++ show_nat n ++ tx "];") with (tx "creg" ++ tx " " ++ (label ++ "["%char :: (show_nat n ++ "]"%char :: tx ";"))).
  eapply via_seq; [apply via_lit|].
  eapply via_seq; [apply via_gap1; [discriminate|apply gap_blank|apply starts_space_word; exact Hl]|].
  eapply via_seq; [eapply via_grp; [reflexivity|apply via_word; [exact Hl|reflexivity]]|].
  eapply via_seq; [apply via_gap0; reflexivity|]. eapply via_seq; [apply via_ch|].
  eapply via_seq; [apply via_gap0; apply starts_space_word, digits_word|].
  eapply via_seq; [eapply via_grp; [reflexivity|apply via_digits; reflexivity]|].
  eapply via_seq; [apply via_gap0; reflexivity|]. eapply via_seq; [apply via_ch|].
  eapply via_seq; [apply via_gap0; reflexivity|]. apply via_ch.
Qed.

Lemma read_dims d ds : map (fun s => read_nat (strip is_space s)) (split_on "," (join (tx ",") (map show_nat (d :: ds)))) = d :: ds.
Proof.
  change (tx ",") with (","%char :: []).
  rewrite split_on_join.
  - cbn [map]. assert (E : forall n, read_nat (strip is_space (show_nat n)) = n).
    { intros n. rewrite strip_id; [apply read_show| |].
      - rewrite <- (app_nil_r (show_nat n)). apply starts_space_word, digits_word.
      - destruct (digits_word n) as (Hne & Hw). destruct (exists_last Hne) as (r & a & Er). rewrite Er in *. rewrite rev_app_distr. cbn.
        apply word_not_space, Hw. apply in_or_app. right. now left. }
    rewrite E. f_equal. rewrite map_map. cbn [app]. rewrite map_map. rewrite <- (map_id ds) at 2. apply map_ext. exact E.
  - intros [].
  - discriminate.
  - intros t Ht. apply in_map_iff in Ht as (n & <- & _). apply word_nochar; [reflexivity|apply digits_word].
Qed.
