(** What the parser does with the lines of a text. *)
From Coq Require Import Reals.
From Verif Require Import Base.Py Base.PyFacts Base.Text Base.TextFacts Base.Regex Base.RegexFacts Base.RegexLang.
From Verif Require Import Circuit.CircuitModel Circuit.CircuitSpec Circuit.CircuitProofs Circuit.GateModel Gates.SingleModel Gates.TwoModel.
From Verif Require Import Qasm.QasmModel Qasm.QasmSpec Qasm.LineProofs Qasm.CtlProofs Qasm.RegProofs Qasm.GateLineProofs Qasm.ImportProofs Qasm.QasmProofs.
Local Open Scope nat_scope.

Lemma startsb_app p r : startsb p (p ++ r) = true.
Proof. induction p as [|a p IH]; [reflexivity|]. cbn. now rewrite Ascii.eqb_refl. Qed.
Lemma startsb_spec p l : startsb p l = true <-> exists r, l = p ++ r.
Proof.
  split; [|intros (r & ->); apply startsb_app]. revert l. induction p as [|a p IH]; intros l H; [now exists l|].
  destruct l as [|b l]; [discriminate|]. cbn in H. apply andb_prop in H as [H1 H2]. apply Ascii.eqb_eq in H1 as <-. destruct (IH l H2) as (r & ->). now exists r.
Qed.
Lemma lit_begins p l : matches (Lit p) l = begins p l.
Proof.
  unfold begins. destruct (startsb (tx p) l) eqn:E.
  - apply matches_lang. apply startsb_spec in E as (r & ->). exists (tx p), r. split; [reflexivity|now apply lang_lits].
  - destruct (matches (Lit p) l) eqn:E2; [|reflexivity]. apply matches_lang in E2 as (w & r & -> & Hw). apply lang_lits in Hw as ->. now rewrite startsb_app in E.
Qed.
Lemma seq_begins p b l : re_match (Seq (Lit p) b) l <> None -> begins p l = true.
Proof.
  intros H. apply re_match_lang in H as (w & r & -> & Hw). apply seq_inv in Hw as (u & v & -> & Hu & _). apply lang_lits in Hu as ->.
  apply startsb_spec. exists (v ++ r). now rewrite app_assoc.
Qed.
Lemma header_begins l : matches rx_header l = true -> begins "DITQASM" l = true \/ begins "include" l = true.
Proof.
  intros H. apply matches_lang in H as (w & r & -> & Hw). unfold rx_header in Hw. apply alt_inv in Hw as [Hw|Hw]; [left|right];
    apply seq_inv in Hw as (u & v & -> & Hu & _); apply lang_lits in Hu as ->; apply startsb_spec; exists (v ++ r); now rewrite app_assoc.
Qed.
Lemma ignore_begins l : matches rx_ignore l = true -> begins "measure" l = true \/ begins "barrier" l = true.
Proof.
  intros H. apply matches_lang in H as (w & r & -> & Hw). unfold rx_ignore in Hw. apply grp_inv in Hw. apply alt_inv in Hw as [Hw|Hw]; [left|right];
    apply lang_lits in Hw as ->; apply startsb_app.
Qed.
Lemma begins_ignore l : begins "measure" l = true \/ begins "barrier" l = true -> matches rx_ignore l = true.
Proof.
  intros H. apply matches_lang. destruct H as [H|H]; apply startsb_spec in H as (r & ->); eexists; exists r; (split; [reflexivity|]); apply l_grp;
    [apply l_alt_l|apply l_alt_r]; now apply lang_lits.
Qed.
Lemma error_begins l : matches rx_error l = (begins "gate_matrix" l || begins "if" l)%bool.
Proof.
  apply eq_true_iff_eq. rewrite orb_true_iff. split.
  - intros H. apply matches_lang in H as (w & r & -> & Hw). unfold rx_error in Hw. apply alt_inv in Hw as [Hw|Hw]; [left|right];
      apply lang_lits in Hw as ->; apply startsb_app.
  - intros H. apply matches_lang. destruct H as [H|H]; apply startsb_spec in H as (r & ->); eexists; exists r; (split; [reflexivity|]);
      [apply l_alt_l|apply l_alt_r]; now apply lang_lits.
Qed.
Lemma qreg_begins l sm r : parse_qreg l sm = Some r -> begins "qreg" l = true.
Proof. unfold parse_qreg. intros H. assert (E : re_match rx_qreg l <> None) by (destruct (re_match rx_qreg l); [discriminate|discriminate H]). unfold rx_qreg in E. eapply seq_begins. exact E. Qed.
Lemma creg_begins l sm r : parse_creg l sm = Some r -> begins "creg" l = true.
Proof. unfold parse_creg. intros H. assert (E : re_match rx_creg l <> None) by (destruct (re_match rx_creg l); [discriminate|discriminate H]). unfold rx_creg in E. eapply seq_begins. exact E. Qed.

Lemma gate_has_semicolon l : re_search rx_gate l <> None -> In ";"%char l.
Proof.
  intros H. apply re_search_lang in H as (pre & w & post & -> & Hw). apply in_or_app. right. apply in_or_app. left. unfold rx_gate in Hw.
  do 8 (apply seq_inv in Hw as (? & ? & -> & _ & Hw); apply in_or_app; right). apply chr_inv in Hw as (a & -> & Ha). apply Ascii.eqb_eq in Ha as <-. now left.
Qed.

Section Parser.
Context {Arr : Type}.
Variable eval : text -> res (option R).
Variable load : text -> res Arr.
Notation pline := (@parse_line Arr eval load).
Notation plines := (@parse_lines Arr eval load).

(** In a comment: everything is skipped up to a line that begins with the closing mark. *)
Lemma in_comment_line s raw : p_comment s = true ->
  pline s raw = Ok (PState (p_sitemap s) (p_classic s) (p_gates s)
                      (negb (closes_comment (body raw)) || begins "//" (body raw))).
Proof.
  intros Hc. unfold parse_line, nonspecial. fold (body raw). unfold rx_comment, rx_comment_start, rx_comment_end. rewrite !lit_begins. unfold closes_comment. rewrite Hc.
  destruct (body raw) as [|a l] eqn:E; [reflexivity|].
  destruct (begins "//" (a :: l)) eqn:E1; [now rewrite orb_true_r|]. rewrite orb_false_r. destruct (begins "/*" (a :: l)); reflexivity.
Qed.
Lemma closes_not_line l : closes_comment l = true -> begins "//" l = false.
Proof. unfold closes_comment, begins. intros H. apply startsb_spec in H as (r & ->). reflexivity. Qed.
Lemma comment_swallows ls : forall s, p_comment s = true -> (forall l, In l ls -> closes_comment (body l) = false) -> plines s ls = Ok s.
Proof.
  induction ls as [|l ls IH]; intros s Hc H; [reflexivity|]. cbn [parse_lines]. rewrite in_comment_line by exact Hc. rewrite (H l) by now left. cbn [negb orb bindr].
  rewrite IH; [destruct s as [a b g d]; cbn in Hc; subst d; reflexivity|reflexivity|intros x Hx; apply H; now right].
Qed.
Lemma comment_opens s raw : p_comment s = false -> opens_comment (body raw) = true ->
  pline s raw = Ok (PState (p_sitemap s) (p_classic s) (p_gates s) true).
Proof.
  intros Hc Ho. unfold parse_line, nonspecial. fold (body raw). unfold rx_comment, rx_comment_start, rx_comment_end. rewrite !lit_begins. unfold opens_comment in Ho.
  apply startsb_spec in Ho as (r & ->). reflexivity.
Qed.
Lemma comment_dropped s raw ls : p_comment s = false -> opens_comment (body raw) = true ->
  (forall l, In l ls -> closes_comment (body l) = false) ->
  plines s (raw :: ls) = Ok (PState (p_sitemap s) (p_classic s) (p_gates s) true).
Proof. intros Hc Ho H. cbn [parse_lines]. rewrite comment_opens by assumption. cbn [bindr]. now rewrite comment_swallows. Qed.
Lemma comment_block s a ls b : p_comment s = false -> opens_comment (body a) = true ->
  (forall l, In l ls -> closes_comment (body l) = false) -> closes_comment (body b) = true ->
  plines s (a :: ls ++ [b]) = Ok s.
Proof.
  intros Hc Ho H Hb. rewrite app_comm_cons, parse_lines_app, comment_dropped by assumption. cbn [bindr parse_lines]. rewrite in_comment_line by reflexivity.
  rewrite Hb, (closes_not_line _ Hb). cbn. destruct s as [x y z w]. cbn in Hc. subst w. reflexivity.
Qed.

(** Outside a comment. *)
Lemma line_cases s raw s' : p_comment s = false -> pline s raw = Ok s' ->
  (ignorable (body raw) = true /\ s' = s) \/
  (opens_comment (body raw) = true /\ s' = PState (p_sitemap s) (p_classic s) (p_gates s) true) \/
  (begins "qreg" (body raw) = true /\ exists r, parse_qreg (body raw) (p_sitemap s) = Some (Ok r) /\ s' = PState r (p_classic s) (p_gates s) false) \/
  (begins "creg" (body raw) = true /\ exists r, parse_creg (body raw) (p_classic s) = Some r /\ s' = PState (p_sitemap s) r (p_gates s) false) \/
  (exists i, parse_gate eval load (body raw) (p_sitemap s) = Some (Ok i) /\ s' = PState (p_sitemap s) (p_classic s) (p_gates s ++ [i]) false).
Proof.
  intros Hc. destruct s as [sm cl gs d]. cbn in Hc. subst d. unfold parse_line, nonspecial. fold (body raw). unfold rx_comment, rx_comment_start, rx_comment_end. rewrite !lit_begins.
  cbn [p_comment p_sitemap p_classic p_gates]. destruct (body raw) as [|a l] eqn:E.
  - intros H. injection H as <-. left. auto.
  - rewrite <- E in *. assert (En : forall P, (P = true -> ignorable (body raw) = true) -> P = true -> ignorable (body raw) = true) by auto.
    destruct (begins "//" (body raw)) eqn:E1.
    { intros H. injection H as <-. left. split; [|reflexivity]. unfold ignorable. rewrite E in *. cbn [existsb]. now rewrite E1. }
    destruct (begins "/*" (body raw)) eqn:E2.
    { intros H. right. left. split; [exact E2|]. apply startsb_spec in E2 as (r & Er). rewrite Er in H. now injection H as <-. }
    destruct (matches rx_header (body raw)) eqn:E3.
    { intros H. injection H as <-. left. split; [|reflexivity]. apply header_begins in E3. unfold ignorable. rewrite E in *. cbn [existsb]. destruct E3 as [->| ->]; rewrite ?orb_true_r; reflexivity. }
    destruct (parse_qreg (body raw) sm) as [[r|]|] eqn:E4; [|discriminate|].
    { intros H. injection H as <-. right. right. left. split; [eapply qreg_begins; exact E4|]. exists r. auto. }
    destruct (parse_creg (body raw) cl) as [r|] eqn:E5.
    { intros H. injection H as <-. right. right. right. left. split; [eapply creg_begins; exact E5|]. exists r. auto. }
    destruct (matches rx_ignore (body raw)) eqn:E6.
    { intros H. injection H as <-. left. split; [|reflexivity]. apply ignore_begins in E6. unfold ignorable. rewrite E in *. cbn [existsb]. destruct E6 as [->| ->]; rewrite ?orb_true_r; reflexivity. }
    destruct (parse_gate eval load (body raw) sm) as [[i|]|] eqn:E7; [|discriminate|destruct (matches rx_error (body raw)); discriminate].
    intros H. injection H as <-. do 4 right. eauto.
Qed.

Lemma statement_gate s raw s' : p_comment s = false -> statement (body raw) = true -> pline s raw = Ok s' ->
  exists i, s' = PState (p_sitemap s) (p_classic s) (p_gates s ++ [i]) false.
Proof.
  intros Hc Hs H. unfold statement, declaration in Hs. apply negb_true_iff in Hs. apply orb_false_iff in Hs as [Hs H3]. apply orb_false_iff in Hs as [H1 H2]. apply orb_false_iff in H2 as [H2 H4].
  destruct (line_cases s raw s' Hc H) as [[E _]|[[E _]|[[E _]|[[E _]|(i & _ & E)]]]]; try congruence. eauto.
Qed.
Lemma statement_no_semicolon s raw : p_comment s = false -> statement (body raw) = true -> ~ In ";"%char (body raw) ->
  pline s raw = Err (if begins "gate_matrix" (body raw) || begins "if" (body raw) then NotImplementedError else SyntaxError)%bool.
Proof.
  intros Hc Hs Hn. unfold statement, declaration in Hs. apply negb_true_iff in Hs. apply orb_false_iff in Hs as [Hs H3]. apply orb_false_iff in Hs as [H1 H2]. apply orb_false_iff in H2 as [H2 H4].
  destruct s as [sm cl gs d]. cbn in Hc. subst d. unfold parse_line, nonspecial. fold (body raw). unfold rx_comment, rx_comment_start, rx_comment_end. rewrite !lit_begins.
  cbn [p_comment p_sitemap p_classic p_gates]. destruct (body raw) as [|a l] eqn:E; [discriminate H1|]. rewrite <- E in *.
  assert (I : existsb (fun p => begins p (body raw)) ["//"; "DITQASM"; "include"; "measure"; "barrier"]%string = false) by (unfold ignorable in H1; rewrite E in *; exact H1).
  cbn [existsb] in I. repeat (apply orb_false_iff in I as [? I]).
  rewrite H. unfold opens_comment in H3. rewrite H3.
  destruct (matches rx_header (body raw)) eqn:E3; [apply header_begins in E3 as [E3|E3]; congruence|].
  destruct (parse_qreg (body raw) sm) eqn:E4; [apply qreg_begins in E4; congruence|].
  destruct (parse_creg (body raw) cl) eqn:E5; [apply creg_begins in E5; congruence|].
  destruct (matches rx_ignore (body raw)) eqn:E6; [apply ignore_begins in E6 as [E6|E6]; congruence|].
  destruct (parse_gate eval load (body raw) sm) eqn:E7; [exfalso; apply Hn, gate_has_semicolon; unfold parse_gate in E7; destruct (re_search rx_gate (body raw)); congruence|].
  rewrite error_begins. destruct (begins "gate_matrix" (body raw) || begins "if" (body raw))%bool; reflexivity.
Qed.
Lemma statements_count ls : forall s s', p_comment s = false -> (forall l, In l ls -> opens_comment (body l) = false) -> plines s ls = Ok s' ->
  p_comment s' = false /\ exists news, p_gates s' = p_gates s ++ news /\ List.length (filter (fun l => statement (body l)) ls) <= List.length news <= List.length ls.
Proof.
  induction ls as [|l ls IH]; intros s s' Hc Ho H.
  - cbn in H. injection H as <-. split; [exact Hc|]. exists []. rewrite app_nil_r. cbn. auto.
  - cbn [parse_lines] in H. destruct (pline s l) as [s1|] eqn:E; [|discriminate]. cbn [bindr] in H.
    assert (Hol := Ho l ltac:(now left)). assert (Hor : forall x, In x ls -> opens_comment (body x) = false) by (intros x Hx; apply Ho; now right).
    destruct (line_cases s l s1 Hc E) as [[E' ->]|[[E' _]|[[E' (r & _ & ->)]|[[E' (r & _ & ->)]|(i & _ & ->)]]]]; [| congruence | | |].
    + destruct (IH _ _ Hc Hor H) as (H1 & news & H2 & H3). split; [exact H1|]. exists news. split; [exact H2|]. cbn [filter List.length].
      unfold statement at 1. rewrite E'. cbn [orb negb]. lia.
    + pose proof (fun K => IH _ _ K Hor H) as IH'; destruct (IH' eq_refl) as (H1 & news & H2 & H3). split; [exact H1|]. exists news. split; [exact H2|]. cbn [filter List.length].
      unfold statement at 1, declaration. rewrite E'. rewrite orb_true_r. cbn [orb negb]. lia.
    + pose proof (fun K => IH _ _ K Hor H) as IH'; destruct (IH' eq_refl) as (H1 & news & H2 & H3). split; [exact H1|]. exists news. split; [exact H2|]. cbn [filter List.length].
      unfold statement at 1, declaration. rewrite E'. rewrite !orb_true_r. cbn [orb negb]. lia.
    + pose proof (fun K => IH _ _ K Hor H) as IH'; destruct (IH' eq_refl) as (H1 & news & H2 & H3). split; [exact H1|]. exists (i :: news). cbn [p_gates] in H2. rewrite <- app_assoc in H2. split; [exact H2|]. cbn [filter List.length].
      destruct (statement (body l)); cbn [List.length]; lia.
Qed.

(** ** from the parsed program to the circuit *)
Lemma construct_some num dims (a : @call Arr) g : construct num dims a = Ok (Some g) -> g_target g = a_qudits a.
Proof.
  destruct a as [m q p ctl]. unfold construct. cbn [a_method a_qudits a_par a_ctl].
  assert (Hmk : forall pre sh ty tag ds p c (g : gate (@gdata Arr)), mk num dims pre sh ty tag q ds p c = Ok g -> g_target g = q).
  { intros pre sh ty tag ds p' c g'. unfold mk. intros H. now apply new_gate_inv in H as (_ & H & _). }
  assert (Hpl : forall pre tag c, bindr (plain_one num dims pre tag (Call m q p c)) (fun g => Ok (Some g)) = Ok (Some g) -> g_target g = q).
  { intros pre tag c H. unfold plain_one in H. cbn [a_qudits a_ctl] in H. destruct (one_dim dims q); [|discriminate]. cbn [bindr] in H. destruct (mk _ _ _ _ _ _ _ _ _ _) eqn:E; [|discriminate]. cbn [bindr] in H. injection H as <-. eapply Hmk; exact E. }
  assert (Hpa : forall pre tag v c, bindr (param_one num dims pre tag v (Call m q p c)) (fun g => Ok (Some g)) = Ok (Some g) -> g_target g = q).
  { intros pre tag v c H. unfold param_one in H. cbn [a_qudits a_ctl a_par] in H. destruct (one_dim dims q) as [n|]; [|discriminate]. cbn [bindr] in H. destruct (mk _ _ _ _ _ _ _ _ _ _) eqn:E; [|discriminate]. cbn [bindr] in H.
    destruct (v n (as_params p)) as [b|]; [|discriminate]. cbn [bindr] in H. destruct b; injection H as <-; cbn [with_par g_target]; eapply Hmk; exact E. }
  repeat match goal with |- context [if ?b then _ else _] => destruct b end; try discriminate; try (apply Hpl); try (apply Hpa).
  all: intros H; try (destruct (one_dim dims q); [|discriminate]); try (destruct (many_dims dims q); [|discriminate]); cbn [bindr] in H.
  all: try (destruct (s_new _); [|discriminate]; cbn [bindr] in H; eapply Hpl; exact H).
  all: try (destruct p; try discriminate; cbn [bindr] in H).
  all: repeat match goal with H : context [match ?l with [] => _ | _ => _ end] |- _ => destruct l; try discriminate; cbn [bindr] in H end.
  all: try (destruct (mk _ _ _ _ _ _ _ _ _ _) eqn:E; [|discriminate]; cbn [bindr] in H).
  all: repeat match goal with H : context [bindr ?r _] |- _ => lazymatch r with bindr _ _ => fail | Ok _ => fail | _ => destruct r; try discriminate; cbn [bindr] in H end end.
  all: try discriminate; injection H as <-; cbn [with_par g_target]; eapply Hmk; exact E.
Qed.
Lemma construct_none num dims (a : @call Arr) : construct num dims a = Ok None -> a_method a = "gellmann"%string.
Proof.
  unfold construct. intros H. destruct (String.eqb_spec (a_method a) "gellmann") as [Em|_]; [exact Em|]. exfalso.
  repeat match type of H with context [if ?b then _ else _] => destruct b end; try discriminate.
  all: match type of H with (let? g := ?r in Ok (Some g)) = _ => destruct r; discriminate end.
Qed.

Variable arr_empty : Arr -> bool.
Lemma import_op_known (c c' : circuit (gate (@gdata Arr))) o m : dget String.eqb qasm_set (i_name o) = Some m -> m <> "gellmann"%string ->
  import_op arr_empty c o = (c', None) -> exists g, c' = fst (add_gate c (Ok g)) /\ target_lines g = map (fun x => Z.of_nat (fst x)) (i_qudits o).
Proof.
  intros Hm Hg H. unfold import_op in H. rewrite Hm in H. destruct (i_qudits o) as [|q0 qs] eqn:Eq; [discriminate|].
  destruct (positional arr_empty m _ (i_params o) (i_controls o)) as [a|] eqn:Ep; [|discriminate]. cbn [bindr] in H.
  assert (Ea : a_method a = m /\ a_qudits a = match qs with [] => TInt (Z.of_nat (fst q0)) | _ => TList (map (fun x => Z.of_nat (fst x)) (q0 :: qs)) end).
  { unfold positional in Ep. destruct (signature m) as [[tp np] tc]. repeat match type of Ep with context [if ?b then _ else _] => destruct b | context [match i_controls o with _ => _ end] => destruct (i_controls o) as [[? ?]|] end;
      try discriminate; injection Ep as <-; cbn [a_method a_qudits]; split; reflexivity. }
  destruct (construct (num_qudits c) (dimensions c) a) as [[g|]|] eqn:Ec; [| |discriminate].
  - injection H as <-. exists g. split; [reflexivity|]. apply construct_some in Ec. unfold target_lines. rewrite Ec. destruct Ea as [_ ->]. destruct qs; reflexivity.
  - apply construct_none in Ec. destruct Ea. congruence.
Qed.
Lemma import_op_unknown (c : circuit (gate (@gdata Arr))) o : dget String.eqb qasm_set (i_name o) = None -> import_op arr_empty c o = (c, None).
Proof. intros H. unfold import_op. now rewrite H. Qed.

Lemma import_ops_count l : forall (c c' : circuit (gate (@gdata Arr))),
  (forall o, In o l -> exists m, dget String.eqb qasm_set (i_name o) = Some m /\ m <> "gellmann"%string) ->
  import_ops arr_empty c l = (c', None) ->
  exists gs, instructions c' = instructions c ++ gs /\ map (fun g => target_lines g) gs = map (fun o => map (fun x => Z.of_nat (fst x)) (i_qudits o)) l.
Proof.
  induction l as [|o l IH]; intros c c' Hk H; cbn [import_ops] in H.
  - injection H as <-. exists []. now rewrite app_nil_r.
  - destruct (import_op arr_empty c o) as [c1 [e|]] eqn:E; [discriminate|]. destruct (Hk o ltac:(now left)) as (m & Hm & Hg).
    destruct (import_op_known c c1 o m Hm Hg E) as (g & -> & Ht). destruct (IH _ _ (fun x Hx => Hk x (or_intror Hx)) H) as (gs & H1 & H2).
    exists (g :: gs). cbn [map]. rewrite Ht, H2. split; [|reflexivity]. rewrite H1. cbn. now rewrite <- app_assoc.
Qed.
Lemma append_all_instr l : forall (c c' : circuit (gate (@gdata Arr))) e, append_all c l = (c', e) -> instructions c' = instructions c.
Proof.
  induction l as [|q l IH]; intros c c' e H; cbn [append_all] in H; [now injection H as <- _|].
  destruct (append c q) as [c1 [x|]] eqn:E.
  - injection H as <- _. pose proof (append_fields c q) as F. rewrite E in F. apply F.
  - apply IH in H. rewrite H. pose proof (append_fields c q) as F. rewrite E in F. apply F.
Qed.
Lemma classics_instr l : forall c : circuit (gate (@gdata Arr)), instructions (fold_left append_classic l c) = instructions c.
Proof. induction l as [|r l IH]; intros c; [reflexivity|]. cbn [fold_left]. rewrite IH. apply append_classic_fields. Qed.
Lemma program_gates (c0 c' : circuit (gate (@gdata Arr))) txt p : parse_qasm eval load txt = Ok p -> from_qasm arr_empty eval load c0 txt = (c', None) ->
  (forall o, In o (p_gates p) -> exists m, dget String.eqb qasm_set (i_name o) = Some m /\ m <> "gellmann"%string) ->
  map (fun g => target_lines g) (instructions c') = map (fun o => map (fun x => Z.of_nat (fst x)) (i_qudits o)) (p_gates p).
Proof.
  intros Hp H Hk. unfold from_qasm in H. rewrite Hp in H. destruct (append_all (reset c0) _) as [c1 [e|]] eqn:E; [discriminate|].
  apply import_ops_count in H as (gs & H1 & H2); [|exact Hk]. rewrite H1, classics_instr. apply append_all_instr in E. rewrite E. exact H2.
Qed.
End Parser.
