(** The printed lines are matched by the parser's expressions as intended. *)
From Coq Require Import Reals.
From Verif Require Import Base.Py Base.PyFacts Base.Text Base.TextFacts Base.Regex Base.RegexFacts.
From Verif Require Import Circuit.CircuitModel Circuit.CircuitSpec Circuit.GateModel Gates.SingleModel.
From Verif Require Import Qasm.QasmModel Qasm.QasmSpec.
Local Open Scope nat_scope.

Definition dit (x : string * nat) : text := tx (fst x) ++ tx "[" ++ show_nat (snd x) ++ tx "]".
Definition gap (t : text) : Prop := allb is_space t.

Lemma word_allb t : word t -> t <> [] /\ allb is_word t.
Proof. intros (H & Ha). split; assumption. Qed.
Lemma digits_word n : word (show_nat n).
Proof. split; [apply show_nat_ne|]. intros a Ha. apply digit_is_word. now apply (show_nat_digits n). Qed.

(** first characters *)
Lemma space_not_word a : is_space a = true -> is_word a = false.
Proof.
  unfold is_space, is_word, is_digit, between. intros H.
  destruct (is_word a) eqn:E; [|exact E]. exfalso. unfold is_word, is_digit, between in E.
  rewrite ?orb_true_iff, ?andb_true_iff, ?Nat.leb_le, ?Nat.eqb_eq in *. lia.
Qed.
Lemma word_not_space a : is_word a = true -> is_space a = false.
Proof. intros H. destruct (is_space a) eqn:E; [|reflexivity]. apply space_not_word in E. congruence. Qed.
Lemma starts_space_word t s : word t -> starts_not is_space (t ++ s).
Proof. intros (Hne & H). destruct t as [|a t]; [congruence|]. cbn. apply word_not_space, H. now left. Qed.
Lemma starts_gap_not_word w s : gap w -> starts_not is_word s -> starts_not is_word (w ++ s).
Proof. intros Hw Hs. destruct w as [|a w]; [exact Hs|]. cbn. apply space_not_word, Hw. now left. Qed.

Lemma via_word t s c : word t -> starts_not is_word s -> via (Plus W) (t ++ s) c s c.
Proof. intros (Hne & H) Hs. now apply via_class1. Qed.
Lemma via_digits n s c : starts_not is_digit s -> via (Plus D) (show_nat n ++ s) c s c.
Proof. intros Hs. apply via_class1; [apply show_nat_ne|apply show_nat_digits|exact Hs]. Qed.
Lemma via_gap w s c : gap w -> starts_not is_space s -> via Sp (w ++ s) c s c.
Proof. apply via_class. Qed.
Lemma via_gap0 s c : starts_not is_space s -> via Sp s c s c.
Proof. intros H. apply (via_gap [] s c); [apply allb_nil|exact H]. Qed.
Lemma via_gap1 w s c : w <> [] -> gap w -> starts_not is_space s -> via Sp1 (w ++ s) c s c.
Proof. apply via_class1. Qed.
Lemma gap_blank : gap (tx " ").
Proof. intros a [<-|[]]. reflexivity. Qed.

Lemma dit_app x s : dit x ++ s = tx (fst x) ++ "["%char :: show_nat (snd x) ++ "]"%char :: s.
Proof. unfold dit. rewrite <- !app_assoc. reflexivity. Qed.

Lemma via_dit x s c : word (tx (fst x)) -> via rx_dit (dit x ++ s) c s c.
Proof.
  intros H. rewrite dit_app. unfold rx_dit.
  eapply via_seq; [apply via_word; [exact H|reflexivity]|].
  eapply via_seq; [apply via_ch|].
  eapply via_seq; [apply via_digits; reflexivity|]. apply via_ch.
Qed.

(** captured groups outside a set *)
Definition ext (S : list nat) (c c' : caps) : Prop := forall n, ~ In n S -> group c' n = group c n.
Lemma ext_refl S c : ext S c c.
Proof. intros n _. reflexivity. Qed.
Lemma ext_cons S c n w : In n S -> ext S c ((n, w) :: c).
Proof. intros H k Hk. unfold group. cbn. destruct (Nat.eqb_spec k n) as [->|]; [contradiction|reflexivity]. Qed.
Lemma ext_trans S a b c : ext S a b -> ext S b c -> ext S a c.
Proof. intros H1 H2 n Hn. rewrite (H2 n Hn). now apply H1. Qed.
Lemma group_cons c n w k : group ((n, w) :: c) k = if Nat.eqb k n then Some w else group c k.
Proof. reflexivity. Qed.

Definition more (l : list (string * nat)) : text := concat (map (fun x => tx ", " ++ dit x) l).

Lemma via_more l : forall s c, (forall x, In x l -> word (tx (fst x))) -> starts_not (Ascii.eqb ",") s ->
  exists c', via (Star (Grp 4 (Seq (Ch ",") (Seq Sp rx_dit)))) (more l ++ s) c s c' /\ ext [4] c c'.
Proof.
  induction l as [|x l IH]; intros s c Hl Hs.
  - exists c. split; [|apply ext_refl]. cbn [more map concat app]. apply via_star_nil. apply fails_grp, fails_seq, fails_chr. exact Hs.
  - destruct (IH s ((4, tx ", " ++ dit x) :: c) (fun y Hy => Hl y (or_intror Hy)) Hs) as (c' & Hv & He).
    exists c'. split.
    + assert (E : more (x :: l) ++ s = (tx ", " ++ dit x) ++ (more l ++ s)) by (cbn [more map concat]; rewrite <- !app_assoc; reflexivity).
      rewrite E. eapply via_star_cons; [|  |exact Hv].
      * eapply via_grp; [reflexivity|]. rewrite <- app_assoc.
        change (tx ", " ++ dit x ++ more l ++ s) with ("," :: (tx " " ++ (dit x ++ more l ++ s)))%char.
        eapply via_seq; [apply via_ch|]. eapply via_seq; [apply via_gap; [apply gap_blank|]|apply via_dit].
        -- rewrite dit_app. apply starts_space_word. apply Hl. now left.
        -- apply Hl. now left.
      * rewrite !app_length. cbn [List.length tx list_ascii_of_string]. lia.
    + eapply ext_trans; [|exact He]. apply ext_cons. now left.
Qed.

Definition targets_text (x : string * nat) (l : list (string * nat)) : text := dit x ++ more l.

(** the targets, followed by [w] blanks that belong to group 3 only when there is one target *)
Lemma via_targets x l s c : word (tx (fst x)) -> (forall y, In y l -> word (tx (fst y))) ->
  starts_not (Ascii.eqb ",") s -> starts_not is_space s ->
  exists c', via rx_targets (targets_text x l ++ s) c s c' /\ ext [3; 4] c c' /\ group c' 3 = Some (targets_text x l).
Proof.
  intros Hx Hl Hs Hsp. destruct (via_more l s c Hl Hs) as (c' & Hv & He).
  exists ((3, targets_text x l) :: c'). split; [|split].
  - unfold rx_targets. eapply via_grp; [reflexivity|]. unfold targets_text. rewrite <- app_assoc.
    eapply via_seq; [now apply via_dit|]. eapply via_seq; [|exact Hv]. apply via_gap0.
    destruct l as [|y l]; [exact Hsp|reflexivity].
  - intros n Hn. rewrite group_cons. destruct (Nat.eqb_spec n 3) as [->|]; [exfalso; apply Hn; now left|]. apply He. intros [<-|[]]. apply Hn. right. now left.
  - reflexivity.
Qed.
(** one target followed by a blank: the blank belongs to group 3 *)
Lemma via_target_blank x s c : word (tx (fst x)) ->
  starts_not (Ascii.eqb ",") s -> starts_not is_space s ->
  via rx_targets (dit x ++ tx " " ++ s) c s ((3, dit x ++ tx " ") :: c).
Proof.
  intros Hx Hs Hsp. eapply via_grp; [rewrite <- app_assoc; reflexivity|].
  eapply via_seq; [now apply via_dit|]. eapply via_seq; [apply via_gap; [apply gap_blank|exact Hsp]|].
  apply via_star_nil. apply fails_grp, fails_seq, fails_chr. exact Hs.
Qed.

(** ** parameters in parentheses *)
Definition ptext (ps : list text) : text :=
  match ps with [] => [] | _ => tx "(" ++ join (tx ", ") ps ++ tx ") " end.

Lemma num_char_facts a : num_char a = true ->
  Ascii.eqb a ")" = false /\ Ascii.eqb a "," = false /\ is_bracket a = false /\ a <> "n"%char /\ a <> nl.
Proof.
  intros H. destruct a as [[] [] [] [] [] [] [] []]; vm_compute in H; try discriminate H;
    repeat split; try reflexivity; discriminate.
Qed.

Lemma join_In sep l a : In a (join sep l) -> In a sep \/ exists t, In t l /\ In a t.
Proof.
  induction l as [|t l IH]; [intros []|]. destruct l as [|u l].
  - cbn [join]. intros H. right. exists t. split; [now left|exact H].
  - rewrite join_cons. intros H. apply in_app_or in H as [H|H].
    + right. exists t. split; [now left|exact H].
    + apply in_app_or in H as [H|H]; [now left|]. destruct (IH H) as [?|(x & Hx & Hi)]; [now left|].
      right. exists x. split; [now right|exact Hi].
Qed.

Lemma join_nums_char ps a : (forall t, In t ps -> num_text t) -> In a (join (tx ", ") ps) ->
  num_char a = true \/ a = ","%char \/ a = " "%char.
Proof.
  intros H Ha. apply join_In in Ha as [[<-|[<-|[]]]|(t & Ht & Hi)]; [auto|auto|].
  left. now apply (H t Ht).
Qed.
Lemma join_nums_paren ps : (forall t, In t ps -> num_text t) -> allb not_paren (join (tx ", ") ps).
Proof.
  intros H a Ha. unfold not_paren. destruct (join_nums_char ps a H Ha) as [Hn|[->| ->]]; [|reflexivity|reflexivity].
  now destruct (num_char_facts a Hn) as (-> & _).
Qed.

Lemma starts_tag_blank (t : text) s : starts_not is_word (tx " " ++ s).
Proof. reflexivity. Qed.

(** label, blank, parameters and what follows *)
Definition head_caps (tag : text) (ps : list text) : caps :=
  match ps with [] => [(1, tag)] | _ => [(2, join (tx ", ") ps); (1, tag)] end.
Lemma via_head tag ps s : word tag -> allb not_paren (join (tx ", ") ps) ->
  starts_not is_space s -> starts_not (Ascii.eqb "(") s ->
  forall r s' c', via r s (head_caps tag ps) s' c' ->
  via (Seq (Grp 1 (Plus W)) (Seq Sp (Seq (Opt rx_params) (Seq Sp r)))) (tag ++ tx " " ++ ptext ps ++ s) [] s' c'.
Proof.
  intros Ht Hps Hs Hp r s' c' Hr.
  eapply via_seq; [eapply via_grp; [reflexivity|apply via_word; [exact Ht|reflexivity]]|].
  destruct ps as [|p ps].
  - cbn [ptext app]. eapply via_seq; [apply via_gap; [apply gap_blank|exact Hs]|].
    eapply via_seq; [apply via_opt_none; apply fails_seq, fails_chr; exact Hp|].
    eapply via_seq; [apply via_gap0; exact Hs|]. exact Hr.
  - cbn [ptext]. rewrite <- !app_assoc.
    eapply via_seq; [apply via_gap; [apply gap_blank|reflexivity]|].
    eapply via_seq.
    { apply via_opt_some. unfold rx_params.
      change (tx "(" ++ join (tx ", ") (p :: ps) ++ tx ") " ++ s) with ("("%char :: (join (tx ", ") (p :: ps) ++ ")"%char :: (tx " " ++ s))).
      eapply via_seq; [apply via_ch|].
      eapply via_seq; [eapply via_grp; [reflexivity|apply via_class; [exact Hps|reflexivity]]|]. apply via_ch. }
    eapply via_seq; [apply via_gap; [apply gap_blank|exact Hs]|]. exact Hr.
Qed.

(** ** a whole gate line without controls *)
Definition gate_text (tag : text) (ps : list text) (x : string * nat) (l : list (string * nat)) : text :=
  tag ++ tx " " ++ ptext ps ++ targets_text x l ++ tx ";".

Lemma starts_dit (p : ascii -> bool) x s : word (tx (fst x)) -> (forall a, is_word a = true -> p a = false) -> starts_not p (dit x ++ s).
Proof. intros (Hne & H) Hp. rewrite dit_app. destruct (tx (fst x)) as [|a t]; [congruence|]. cbn. apply Hp, H. now left. Qed.
Lemma word_not_paren a : is_word a = true -> Ascii.eqb "(" a = false.
Proof. intros H. destruct (Ascii.eqb_spec "(" a) as [<-|]; [discriminate H|reflexivity]. Qed.

Lemma search_gate tag ps x l : word tag -> allb not_paren (join (tx ", ") ps) ->
  word (tx (fst x)) -> (forall y, In y l -> word (tx (fst y))) ->
  exists c, re_search rx_gate (gate_text tag ps x l) = Some ([], c) /\
  group c 1 = Some tag /\ group c 2 = (match ps with [] => None | _ => Some (join (tx ", ") ps) end) /\
  group c 3 = Some (targets_text x l) /\ group c 5 = None /\ group c 8 = None.
Proof.
  intros Ht Hps Hx Hl.
  destruct (via_targets x l (tx ";") (head_caps tag ps) Hx Hl eq_refl eq_refl) as (c & Hv & He & H3).
  exists c. split.
  - apply re_search_via. unfold rx_gate, gate_text.
    apply (via_head tag ps (targets_text x l ++ tx ";") Ht Hps).
    + unfold targets_text. rewrite <- app_assoc. apply starts_dit; [exact Hx|apply word_not_space].
    + unfold targets_text. rewrite <- app_assoc. apply starts_dit; [exact Hx|apply word_not_paren].
    + eapply via_seq; [exact Hv|]. eapply via_seq; [apply via_gap0; reflexivity|].
      eapply via_seq; [apply via_opt_none; apply fails_grp, fails_seq, fails_seq, fails_chr; reflexivity|].
      eapply via_seq; [apply via_gap0; reflexivity|]. apply via_ch.
  - rewrite H3, (He 1), (He 2), (He 5), (He 8) by (cbn; lia).
    destruct ps; repeat split; reflexivity.
Qed.

(** ** reading the targets back *)
Lemma bracket_int_show n : bracket_int (tx "[" ++ show_nat n ++ tx "]") = Some n.
Proof.
  unfold bracket_int.
  rewrite (re_search_via rx_int _ [] [(1, show_nat n)]).
  - unfold grp. rewrite group_cons. cbn [Nat.eqb]. now rewrite read_show.
  - unfold rx_int. change (tx "[" ++ show_nat n ++ tx "]") with ("["%char :: (show_nat n ++ tx "]")).
    eapply via_seq; [apply via_ch|]. eapply via_seq; [eapply via_grp; [reflexivity|apply via_digits; reflexivity]|]. apply via_ch.
Qed.

(** blanks, a dit, blanks *)
Lemma via_indexing w x s c : gap w -> word (tx (fst x)) ->
  via rx_indexing (w ++ dit x ++ s) c s ((2, tx "[" ++ show_nat (snd x) ++ tx "]") :: (1, tx (fst x)) :: c).
Proof.
  intros Hw Hx. unfold rx_indexing.
  eapply via_seq; [apply via_gap; [exact Hw|apply starts_dit; [exact Hx|apply word_not_space]]|].
  rewrite dit_app.
  eapply via_seq; [eapply via_grp; [reflexivity|apply via_word; [exact Hx|reflexivity]]|].
  eapply via_seq; [apply via_gap0; reflexivity|].
  eapply via_grp; [rewrite <- !app_assoc; reflexivity|].
  eapply via_seq; [apply via_ch|]. eapply via_seq; [apply via_gap0|].
  { pose proof (digits_word (snd x)) as Hd. apply (starts_space_word _ ("]"%char :: s) Hd). }
  eapply via_seq; [apply via_digits; reflexivity|]. eapply via_seq; [apply via_gap0; reflexivity|]. apply via_ch.
Qed.

Lemma word_nochar (c : ascii) t : is_word c = false -> word t -> nochar c t.
Proof. intros Hc (_ & H) Hi. apply H in Hi. congruence. Qed.
Lemma dit_nochar (c : ascii) x : is_word c = false -> c <> "["%char -> c <> "]"%char -> word (tx (fst x)) -> nochar c (dit x).
Proof.
  intros Hc H1 H2 Hx Hi. unfold dit in Hi. apply in_app_or in Hi as [Hi|Hi]; [now apply (word_nochar c _ Hc Hx)|].
  apply in_app_or in Hi as [[Hi|[]]|Hi]; [congruence|]. apply in_app_or in Hi as [Hi|[Hi|[]]]; [|congruence].
  now apply (word_nochar c _ Hc (digits_word (snd x))).
Qed.

Fixpoint lookups (sm : smap) (l : list (string * nat)) : res (list (nat * nat)) :=
  match l with
  | [] => Ok []
  | x :: r => let? q := QasmModel.lookup sm (fst x) (snd x) in let? qs := lookups sm r in Ok (q :: qs)
  end.

Lemma parse_dits_step sm w x s r : gap w -> word (tx (fst x)) ->
  parse_dits sm ((w ++ dit x ++ s) :: r) = let? q := QasmModel.lookup sm (fst x) (snd x) in let? qs := parse_dits sm r in Ok (q :: qs).
Proof.
  intros Hw Hx. cbn [parse_dits]. rewrite (re_match_via _ _ _ _ (via_indexing w x s [] Hw Hx)).
  unfold grp. rewrite !group_cons. cbn [Nat.eqb]. rewrite bracket_int_show, st_tx. reflexivity.
Qed.
Lemma parse_dits_more sm l : forall w x post, gap w -> gap post -> word (tx (fst x)) -> (forall y, In y l -> word (tx (fst y))) ->
  parse_dits sm (split_on "," (w ++ dit x ++ more l ++ post)) = lookups sm (x :: l).
Proof.
  induction l as [|y l IH]; intros w x post Hw Hpost Hx Hl.
  - cbn [more map concat app]. rewrite split_on_none.
    + rewrite parse_dits_step by assumption. reflexivity.
    + intros Hi. apply in_app_or in Hi as [Hi|Hi]; [apply Hw in Hi; discriminate Hi|].
      apply in_app_or in Hi as [Hi|Hi]; [|apply Hpost in Hi; discriminate Hi].
      revert Hi. apply dit_nochar; [reflexivity|discriminate|discriminate|exact Hx].
  - assert (E : w ++ dit x ++ more (y :: l) ++ post = (w ++ dit x) ++ ","%char :: (tx " " ++ dit y ++ more l ++ post)).
    { cbn [more map concat]. rewrite <- !app_assoc. reflexivity. }
    rewrite E, split_on_app.
    + rewrite <- (app_nil_r (w ++ dit x)), <- app_assoc. rewrite parse_dits_step by assumption.
      rewrite IH; [reflexivity|apply gap_blank|exact Hpost|apply Hl; now left|intros z Hz; apply Hl; now right].
    + intros Hi. apply in_app_or in Hi as [Hi|Hi]; [apply Hw in Hi; discriminate Hi|].
      revert Hi. apply dit_nochar; [reflexivity|discriminate|discriminate|exact Hx].
Qed.

(** ** reading the parameters back *)
Lemma contains_npy_n t : containsb (tx ".npy") t = true -> In "n"%char t.
Proof.
  induction t as [|a t IH]; [discriminate|]. change (containsb (tx ".npy") (a :: t)) with (prefixb (tx ".npy") (a :: t) || containsb (tx ".npy") t).
  intros H. apply orb_true_iff in H as [H|H]; [|right; auto].
  change (prefixb (tx ".npy") (a :: t)) with (Ascii.eqb "." a && prefixb (tx "npy") t) in H.
  apply andb_true_iff in H as (_ & H). destruct t as [|b t]; [discriminate|].
  change (prefixb (tx "npy") (b :: t)) with (Ascii.eqb "n" b && prefixb (tx "py") t) in H.
  apply andb_true_iff in H as (H & _). apply Ascii.eqb_eq in H. subst b. right. now left.
Qed.
Lemma nums_no_npy ps : (forall t, In t ps -> num_text t) -> containsb (tx ".npy") (join (tx ", ") ps) = false.
Proof.
  intros H. destruct (containsb _ _) eqn:E; [|reflexivity]. apply contains_npy_n in E.
  destruct (join_nums_char ps _ H E) as [Hn|[Hn|Hn]]; [|discriminate|discriminate].
  destruct (num_char_facts _ Hn) as (_ & _ & _ & Hc & _). congruence.
Qed.
Lemma join_first sep p ps : p <> [] -> exists a r, In a p /\ join sep (p :: ps) = a :: r.
Proof.
  intros Hp. destruct p as [|a p]; [congruence|]. exists a. destruct ps as [|q ps]; [exists p; split; [now left|reflexivity]|].
  rewrite join_cons. eexists. split; [now left|]. reflexivity.
Qed.
Lemma join_last (sep : text) (ps : list text) : ps <> [] -> (forall t, In t ps -> t <> []) -> exists t a r, In t ps /\ In a t /\ join sep ps = r ++ [a].
Proof.
  induction ps as [|p ps IH]; intros Hne H; [congruence|]. destruct ps as [|q ps].
  - destruct (exists_last (H p ltac:(now left))) as (r & a & E). exists p, a, r. split; [now left|]. split; [rewrite E; apply in_or_app; right; now left|]. cbn [join]. exact E.
  - destruct IH as (t & a & r & Ht & Ha & E); [discriminate|intros u Hu; apply H; now right|].
    exists t, a, (p ++ sep ++ r). split; [now right|]. split; [exact Ha|]. rewrite join_cons. transitivity (p ++ sep ++ (r ++ [a])); [f_equal; f_equal; exact E|]. rewrite <- !app_assoc. reflexivity.
Qed.
Lemma nums_strip ps : ps <> [] -> (forall t, In t ps -> num_text t) -> strip is_bracket (join (tx ", ") ps) = join (tx ", ") ps.
Proof.
  intros Hne H. apply strip_id.
  - destruct ps as [|p ps]; [congruence|]. destruct (H p ltac:(now left)) as (Hp & Hc).
    destruct (join_first (tx ", ") p ps Hp) as (a & r & Ha & ->). change (is_bracket a = false). now destruct (num_char_facts a (Hc a Ha)) as (_ & _ & -> & _).
  - destruct (join_last (tx ", ") ps Hne) as (t & a & r & Ht & Ha & ->); [intros u Hu; apply (H u Hu)|].
    rewrite rev_app_distr. change (is_bracket a = false). now destruct (num_char_facts a (proj2 (H t Ht) a Ha)) as (_ & _ & -> & _).
Qed.
Lemma nums_ne ps : ps <> [] -> (forall t, In t ps -> num_text t) -> exists a r, join (tx ", ") ps = a :: r.
Proof.
  intros Hne H. destruct ps as [|p ps]; [congruence|]. destruct (H p ltac:(now left)) as (Hp & _).
  destruct (join_first (tx ", ") p ps Hp) as (a & r & _ & E). eauto.
Qed.
Lemma num_nocomma t : num_text t -> nochar "," t.
Proof. intros (_ & H) Hi. apply H in Hi. discriminate Hi. Qed.

Section Params.
Context {Arr : Type}.
Variable show_float : R -> text.
Variable eval : text -> res (option R).
Variable load : text -> res Arr.

Lemma mapr_eval_tail l : (forall p, In p l -> printable show_float eval p) ->
  mapr eval (map (fun x => tx " " ++ x) (map (show_param show_float) l)) = Ok (map (fun p => Some (num_of p)) l).
Proof.
  induction l as [|p l IH]; intros H; [reflexivity|]. cbn [map mapr].
  destruct (H p ltac:(now left)) as (_ & _ & E). change (written show_float p) with (show_param show_float p) in E. change (tx " " ++ show_param show_float p) with (" "%char :: show_param show_float p).
  rewrite E. cbn [bindr]. rewrite IH by (intros q Hq; apply H; now right). reflexivity.
Qed.
Lemma parse_params_list l : l <> [] -> (forall p, In p l -> printable show_float eval p) ->
  parse_params eval load (Some (join (tx ", ") (map (show_param show_float) l))) = Ok (ATuple (map (fun p => Some (num_of p)) l)).
Proof.
  intros Hne H. set (ps := map (show_param show_float) l).
  assert (Hps : forall t, In t ps -> num_text t). { intros t Ht. apply in_map_iff in Ht as (p & <- & Hp). apply (H p Hp). }
  assert (Hpne : ps <> []) by (unfold ps; destruct l; [congruence|discriminate]).
  destruct (nums_ne ps Hpne Hps) as (a & r & E). unfold parse_params. rewrite E. rewrite <- E.
  rewrite (nums_no_npy ps Hps), (nums_strip ps Hpne Hps). change (tx ", ") with (","%char :: tx " ").
  rewrite split_on_join; [|intros [Hi|[]]; discriminate Hi|exact Hpne|intros t Ht; apply num_nocomma; auto].
  unfold ps in *. destruct l as [|p l]; [congruence|]. cbn [map] in *. cbn [mapr].
  destruct (H p ltac:(now left)) as (_ & E1 & _). change (written show_float p) with (show_param show_float p) in E1. rewrite E1. cbn [bindr].
  rewrite mapr_eval_tail by (intros q Hq; apply H; now right). reflexivity.
Qed.
End Params.
