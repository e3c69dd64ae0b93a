(** Registers of imported programs. *)
From Coq Require Import Reals Lia.
From Verif Require Import Base.Py Base.PyFacts Base.Text Base.TextFacts Base.Regex Base.RegexFacts.
From Verif Require Import Circuit.CircuitModel Circuit.CircuitSpec Circuit.CircuitProofs Circuit.GateModel Gates.SingleModel.
From Verif Require Import Qasm.QasmModel Qasm.QasmSpec Qasm.LineProofs Qasm.CtlProofs Qasm.RegProofs Qasm.GateLineProofs Qasm.ParserProofs Qasm.RegisterSpec.
Local Open Scope nat_scope.

Lemma lay1_entries name k : forall dims i, lay1 name k i dims = map (fun j => ((name, j), (k + j, nth (j - i) dims 0))) (seq i (List.length dims)).
Proof.
  induction dims as [|d dims IH]; intros i; [reflexivity|]. cbn [lay1 List.length seq map]. rewrite IH. f_equal.
  - rewrite Nat.sub_diag. reflexivity.
  - apply map_ext_in. intros j Hj. apply in_seq in Hj. replace (j - i) with (S (j - S i)) by lia. reflexivity.
Qed.
Lemma match_qreg_plain label n : word label ->
  re_match rx_qreg (tx "qreg " ++ label ++ tx " [" ++ show_nat n ++ tx "];") = Some ([], [(2, tx "[" ++ show_nat n ++ tx "]"); (1, label)]).
Proof.
  intros Hl. apply re_match_via. unfold rx_qreg.
  change (tx "qreg " ++ label ++ tx " [" ++ show_nat n ++ tx "];") with (tx "qreg" ++ tx " " ++ (label ++ tx " " ++ (tx "[" ++ show_nat n ++ tx "]" ++ tx ";"))).
  eapply via_seq; [apply via_lit|].
  eapply via_seq; [apply via_gap1; [discriminate|apply gap_blank|apply starts_space_word; exact Hl]|].
  eapply via_seq; [eapply via_grp; [reflexivity|apply via_word; [exact Hl|reflexivity]]|].
  eapply via_seq; [apply via_gap1; [discriminate|apply gap_blank|reflexivity]|].
  eapply via_seq.
  { apply (via_grp _ _ _ _ (tx "[" ++ show_nat n ++ tx "]") (tx ";")); [rewrite <- !app_assoc; reflexivity|].
    change (tx "[" ++ show_nat n ++ tx "]" ++ tx ";") with ("["%char :: (show_nat n ++ "]"%char :: tx ";")).
    eapply via_seq; [apply via_ch|]. eapply via_seq; [apply via_gap0; apply starts_space_word, digits_word|].
    eapply via_seq; [apply via_digits; reflexivity|]. eapply via_seq; [apply via_gap0; reflexivity|]. apply via_ch. }
  eapply via_seq; [|apply via_ch].
  apply via_opt_none. apply (fails_class_seq is_space _ []); [intros a []|reflexivity|]. intros w1 w2 E. destruct w1; [|discriminate E]. cbn in E. subst w2. apply fails_seq, fails_chr. reflexivity.
Qed.

Lemma lay1_places name k dims : lay1 name k 0 dims = places name k dims.
Proof. rewrite lay1_entries. unfold places. apply map_ext. intros j. rewrite Nat.sub_0_r. reflexivity. Qed.

Section Lines.
Context {Arr : Type}.
Variable eval : text -> res (option R).
Variable load : text -> res Arr.
Variable arr_empty : Arr -> bool.

Theorem qreg_plain (s : @pstate Arr) label n : p_comment s = false -> word (tx label) -> (forall j, ~ In (label, j) (map fst (p_sitemap s))) ->
  parse_line eval load s (tx "qreg " ++ tx label ++ tx " [" ++ show_nat n ++ tx "];") =
  Ok (PState (p_sitemap s ++ places label (List.length (p_sitemap s)) (repeat 2 n)) (p_classic s) (p_gates s) false).
Proof.
  intros Hc Hl Hf. unfold parse_line.
  assert (Es : strip is_space (tx "qreg " ++ tx label ++ tx " [" ++ show_nat n ++ tx "];") = tx "qreg " ++ tx label ++ tx " [" ++ show_nat n ++ tx "];").
  { change (tx "];") with (tx "]" ++ tx ";"). rewrite !app_assoc. apply strip_line; [|reflexivity]. rewrite <- !app_assoc. reflexivity. }
  rewrite Es. assert (En : nonspecial (tx "qreg " ++ tx label ++ tx " [" ++ show_nat n ++ tx "];") (p_comment s) = (false, false)) by (rewrite Hc; reflexivity).
  rewrite En. cbn [p_sitemap]. unfold parse_qreg. rewrite match_qreg_plain by exact Hl.
  unfold grp at 1. rewrite !group_cons. cbn [Nat.eqb]. rewrite bracket_int_show. change (group (@nil (nat * text)) 3) with (@None text). cbv iota.
  unfold grp. rewrite !group_cons. cbn [Nat.eqb]. rewrite st_tx.
  pose proof (qreg_loop_lay1 label (repeat 2 n) 0 (p_sitemap s) (List.length (p_sitemap s)) ltac:(lia) ltac:(intros j; apply Hf)) as El.
  rewrite Nat.sub_0_r, repeat_length in El. rewrite El. cbn [bindr skipn]. rewrite lay1_places. reflexivity.
Qed.
Theorem qreg_dims (s : @pstate Arr) label d ds : p_comment s = false -> word (tx label) -> (forall j, ~ In (label, j) (map fst (p_sitemap s))) ->
  parse_line eval load s (tx "qreg " ++ tx label ++ tx " [" ++ show_nat (S (List.length ds)) ++ tx "][" ++ join (tx ",") (map show_nat (d :: ds)) ++ tx "];") =
  Ok (PState (p_sitemap s ++ places label (List.length (p_sitemap s)) (d :: ds)) (p_classic s) (p_gates s) false).
Proof.
  intros Hc Hl Hf. assert (H := parse_qreg_line eval load s label (d :: ds) (S (List.length ds)) [] Hc Hl ltac:(discriminate) eq_refl Hf). rewrite lay1_places in H. exact H.
Qed.

(** the declared bits are all different *)
Lemma creg_loop_nodup name : forall n i sm, NoDup (dkeys sm) -> NoDup (dkeys (creg_loop name i n sm)).
Proof. induction n as [|n IH]; intros i sm H; cbn [creg_loop]; [exact H|]. apply IH. apply (dset_NoDup key_eqb key_eqb_spec). exact H. Qed.
Lemma line_nodup (s : @pstate Arr) raw s' : parse_line eval load s raw = Ok s' -> NoDup (dkeys (p_classic s)) -> NoDup (dkeys (p_classic s')).
Proof.
  unfold parse_line. destruct (nonspecial _ _) as [[|] ic]; [intros H; injection H as <-; auto|]. cbn [p_sitemap p_classic p_gates].
  destruct (parse_qreg _ _) as [[sm|]|]; cbn [bindr]; [intros H; injection H as <-; auto|discriminate|].
  destruct (parse_creg _ _) as [cm|] eqn:E.
  - intros H; injection H as <-. cbn [p_classic]. unfold parse_creg in E. destruct (re_match _ _) as [[? c]|]; [|discriminate E]. injection E as <-. apply creg_loop_nodup.
  - destruct (matches rx_ignore _); [intros H; injection H as <-; auto|]. destruct (parse_gate _ _ _ _) as [[g|]|]; cbn [bindr]; [intros H; injection H as <-; auto|discriminate|]. destruct (matches _ _); discriminate.
Qed.
Lemma lines_nodup ls : forall (s s' : @pstate Arr), parse_lines eval load s ls = Ok s' -> NoDup (dkeys (p_classic s)) -> NoDup (dkeys (p_classic s')).
Proof.
  induction ls as [|l ls IH]; intros s s' H N; cbn [parse_lines] in H; [injection H as <-; exact N|].
  destruct (parse_line eval load s l) as [s1|] eqn:E; [|discriminate H]. cbn [bindr] in H. apply (IH s1 s' H). exact (line_nodup s l s1 E N).
Qed.

Definition indices (name : string) (l : clmap) : list nat := map (fun b => snd (fst b)) (filter (fun b => String.eqb name (fst (fst b))) l).
Lemma groups_get : forall (l : clmap) acc name, NoDup (dkeys l) -> (forall i is, In (name, i) (dkeys l) -> dget String.eqb acc name = Some is -> ~ In i is) ->
  dget String.eqb (creg_groups l acc) name = match dget String.eqb acc name, indices name l with Some a, is => Some (a ++ is) | None, [] => None | None, is => Some is end.
Proof.
  assert (SE : forall a b : string, String.eqb a b = true <-> a = b) by (intros; apply String.eqb_eq).
  induction l as [|[[nm i] v] l IH]; intros acc name N F.
  - cbn. destruct (dget String.eqb acc name); [rewrite app_nil_r|]; reflexivity.
  - cbn [dkeys map fst] in N. apply NoDup_cons_iff in N as [N1 N2]. cbn [creg_groups]. unfold indices in *. cbn [filter fst].
    destruct (String.eqb_spec name nm) as [<-|Hn].
    + cbn [map fst snd]. destruct (dget String.eqb acc name) as [is|] eqn:Ea.
      * assert (~ In i is) as Ni by (apply (F i is); [left; reflexivity|reflexivity]).
        replace (existsb (Nat.eqb i) is) with false by (symmetry; apply Bool.not_true_iff_false; intros X; apply existsb_exists in X as (x & X1 & X2); apply Nat.eqb_eq in X2; subst x; contradiction).
        rewrite IH; [|exact N2|].
        -- rewrite (dget_dset_same String.eqb SE). rewrite <- app_assoc. reflexivity.
        -- intros k ks Hk. rewrite (dget_dset_same String.eqb SE). intros E. injection E as <-. intros X. apply in_app_or in X as [X|[<-|[]]]; [|exact (N1 Hk)].
           apply (F k is); [right; exact Hk|reflexivity|exact X].
      * rewrite IH; [|exact N2|].
        -- rewrite (dget_dset_same String.eqb SE). reflexivity.
        -- intros k ks Hk. rewrite (dget_dset_same String.eqb SE). intros E. injection E as <-. intros [<-|[]]. exact (N1 Hk).
    + rewrite IH; [|exact N2|].
      * destruct (dget String.eqb acc nm); rewrite (dget_dset_other String.eqb SE) by exact Hn; reflexivity.
      * intros k ks Hk. destruct (dget String.eqb acc nm); rewrite (dget_dset_other String.eqb SE) by exact Hn; apply F; right; exact Hk.
Qed.
Lemma groups_nodup : forall (l : clmap) acc, NoDup (dkeys acc) -> NoDup (dkeys (creg_groups l acc)).
Proof.
  induction l as [|[[nm i] v] l IH]; intros acc N; [exact N|]. cbn [creg_groups]. apply IH. destruct (dget String.eqb acc nm); apply (dset_NoDup String.eqb (fun a b => String.eqb_eq a b)); exact N.
Qed.
Lemma appended_classic l : forall c : circuit (gate (@gdata Arr)), map (fun r => (c_label r, c_size r)) (classic_registers (fold_left append_classic l c)) =
  map (fun r => (c_label r, c_size r)) (classic_registers c) ++ map (fun r => (c_label r, c_size r)) l.
Proof.
  induction l as [|r l IH]; intros c; cbn [fold_left map]; [rewrite app_nil_r; reflexivity|]. rewrite IH. unfold append_classic at 1. destruct (append_classic_loop _ _ _ _ _ _ _) as [[local sm] inv]. cbn [classic_registers].
  rewrite map_app, <- app_assoc. reflexivity.
Qed.
Lemma appended_classical l : forall (c c' : circuit (gate (@gdata Arr))) e, append_all c l = (c', e) -> classic_registers c' = classic_registers c.
Proof.
  induction l as [|q l IH]; intros c c' e H; cbn [append_all] in H; [injection H as <- <-; reflexivity|].
  destruct (append c q) as [c1 [x|]] eqn:E; unfold append in E; destruct (append_loop _ _ _ _ _ _ _ _) as [[[local sm] inv] e1]; injection E as <- E.
  - injection H as <- <-. reflexivity.
  - apply IH in H. exact H.
Qed.
Lemma imported_classical l : forall (c c' : circuit (gate (@gdata Arr))) e, import_ops arr_empty c l = (c', e) -> classic_registers c' = classic_registers c.
Proof.
  assert (One : forall (c c' : circuit (gate (@gdata Arr))) o e, import_op arr_empty c o = (c', e) -> classic_registers c' = classic_registers c).
  { intros c c' o e. unfold import_op. destruct (dget _ _ _); [|intros H; injection H as <- <-; reflexivity]. destruct (i_qudits o); [intros H; injection H as <- <-; reflexivity|].
    destruct (bindr _ _) as [[g|]|]; cbn [add_gate]; intros H; injection H as <- <-; reflexivity. }
  induction l as [|o l IH]; intros c c' e H; cbn [import_ops] in H; [injection H as <- <-; reflexivity|].
  destruct (import_op arr_empty c o) as [c1 [x|]] eqn:E.
  - injection H as <- <-. exact (One _ _ _ _ E).
  - rewrite (IH _ _ _ H). exact (One _ _ _ _ E).
Qed.
Theorem classical_imported (c0 c' : circuit (gate (@gdata Arr))) txt p : parse_qasm eval load txt = Ok p -> from_qasm arr_empty eval load c0 txt = (c', None) ->
  NoDup (map c_label (classic_registers c')) /\
  forall label n, (exists r, In r (classic_registers c') /\ c_label r = label /\ c_size r = n) <-> (n = bits_of label (p_classic p) /\ n <> 0).
Proof.
  intros Hp H. assert (N : NoDup (dkeys (p_classic p))) by (apply (lines_nodup _ _ _ Hp); constructor).
  unfold from_qasm in H. rewrite Hp in H. destruct (append_all _ _) as [c1 [e|]] eqn:E; [discriminate H|]. apply appended_classical in E. apply imported_classical in H. cbn [reset classic_registers] in E.
  assert (L := appended_classic (cregs_from_map (p_classic p)) c1). rewrite <- H, E in L. cbn [map app] in L. unfold cregs_from_map in L. rewrite map_map in L. cbn [c_label c_size] in L.
  set (G := creg_groups (p_classic p) []) in *. assert (NG : NoDup (dkeys G)) by (apply groups_nodup; constructor).
  assert (GG : forall name, dget String.eqb G name = match indices name (p_classic p) with [] => None | is => Some is end).
  { intros name. unfold G. rewrite groups_get; [reflexivity|exact N|]. intros i is _ X. discriminate X. }
  split.
  - assert (Q : map c_label (classic_registers c') = dkeys G).
    { replace (map c_label (classic_registers c')) with (map fst (map (fun r => (c_label r, c_size r)) (classic_registers c'))) by (rewrite map_map; reflexivity). rewrite L, map_map. reflexivity. }
    rewrite Q. exact NG.
  - intros label n. assert (B : bits_of label (p_classic p) = List.length (indices label (p_classic p))) by (unfold bits_of, indices; rewrite map_length; reflexivity). rewrite B.
    assert (Q : (exists r, In r (classic_registers c') /\ c_label r = label /\ c_size r = n) <-> exists is, dget String.eqb G label = Some is /\ n = List.length is).
    { split.
      - intros (r & Hr & <- & <-). apply (in_map (fun r => (c_label r, c_size r))) in Hr. rewrite L in Hr. apply in_map_iff in Hr as ([nm is] & E1 & E2). cbn [fst snd] in E1. injection E1 as E1 E3. exists is. split; [|symmetry; exact E3].
        rewrite <- E1. apply (dget_complete String.eqb (fun a b => String.eqb_eq a b)); [exact NG|exact E2].
      - intros (is & E1 & ->). apply (dget_In String.eqb (fun a b => String.eqb_eq a b)) in E1. apply (in_map (fun x => (fst x, List.length (snd x)))) in E1. rewrite <- L in E1. apply in_map_iff in E1 as (r & E1 & E2). injection E1 as E1 E3. exists r. auto. }
    rewrite Q, GG. destruct (indices label (p_classic p)) as [|i is]; split.
    + intros (is & X & _). discriminate X.
    + intros [-> X]. contradiction X. reflexivity.
    + intros (js & X & ->). injection X as <-. split; [reflexivity|discriminate].
    + intros [-> _]. exists (i :: is). auto.
Qed.
End Lines.

Lemma all_comma (l : list text) : l <> [] -> concat (map (fun s => s ++ tx ", ") l) = join (tx ", ") l ++ tx ", ".
Proof.
  destruct l as [|t l]; [congruence|]. intros _. revert t. induction l as [|u l IH]; intros t; [cbn; rewrite app_nil_r; reflexivity|].
  change (concat (map (fun s => s ++ tx ", ") (t :: u :: l))) with ((t ++ tx ", ") ++ concat (map (fun s => s ++ tx ", ") (u :: l))). rewrite IH.
  change (join (tx ", ") (t :: u :: l)) with (t ++ tx ", " ++ join (tx ", ") (u :: l)). rewrite <- !app_assoc. reflexivity.
Qed.
Theorem exported_line {Arr} show_float {G} (c : circuit G) (g : gate (@gdata Arr)) ts : g_controls g = None -> shown show_float (d_par (g_data g)) <> [] ->
  ts <> [] -> Forall2 (fun q t => site c q = Ok t) (target_lines g) ts ->
  gate_qasm show_float c g = Ok (tx (d_tag (g_data g)) ++ tx " (" ++ join (tx ", ") (shown show_float (d_par (g_data g))) ++ tx ") " ++ join (tx ", ") ts ++ tx ";" ++ [nl]).
Proof.
  intros Hc Hp Ht F. unfold gate_qasm.
  assert (Ep : params_qasm show_float (d_par (g_data g)) = Ok (tx "(" ++ join (tx ", ") (shown show_float (d_par (g_data g))) ++ tx ") ")).
  { assert (P : forall l, l <> [] -> paren l = tx "(" ++ join (tx ", ") l ++ tx ") ") by (intros l Hl; unfold paren; rewrite all_comma by exact Hl; rewrite app_assoc, drop2_comma, <- app_assoc; reflexivity).
    destruct (d_par (g_data g)) as [|l|l| |]; cbn [shown] in *; try congruence; destruct l as [|x l]; try (contradiction Hp; reflexivity); cbn [params_qasm]; rewrite P by discriminate; reflexivity. }
  rewrite Ep. cbn [bindr].
  assert (Et : mapr (site c) (target_lines g) = Ok ts) by (clear - F; induction F as [|q t qs us E F IH]; [reflexivity|]; cbn [mapr]; rewrite E, IH; reflexivity).
  rewrite Et. cbn [bindr]. rewrite Hc. rewrite all_comma by exact Ht. rewrite !app_assoc, drop2_comma, <- !app_assoc. reflexivity.
Qed.
