(** From a gate to its line and back to an instruction. *)
From Coq Require Import Reals.
From Verif Require Import Base.Py Base.PyFacts Base.Text Base.TextFacts Base.Regex Base.RegexFacts.
From Verif Require Import Circuit.CircuitModel Circuit.CircuitSpec Circuit.CircuitProofs Circuit.GateModel Gates.SingleModel.
From Verif Require Import Qasm.QasmModel Qasm.QasmSpec Qasm.LineProofs Qasm.CtlProofs Qasm.RegProofs.
Local Open Scope nat_scope.

Lemma concat_comma (sep : text) t l : concat (map (fun u => u ++ sep) (t :: l)) = join sep (t :: l) ++ sep.
Proof.
  revert t. induction l as [|u l IH]; intros t.
  - cbn. now rewrite app_nil_r.
  - cbn [map concat]. cbn [map concat] in IH. rewrite IH, join_cons, <- !app_assoc. reflexivity.
Qed.
Lemma drop2_comma t : drop2 (t ++ tx ", ") = t.
Proof. apply drop2_app. Qed.
Lemma join_targets x l : join (tx ", ") (map dit (x :: l)) = targets_text x l.
Proof.
  unfold targets_text. revert x. induction l as [|y l IH]; intros x.
  - cbn [map join more concat]. now rewrite app_nil_r.
  - cbn [map]. rewrite join_cons. change (dit y :: map dit l) with (map dit (y :: l)). rewrite IH.
    unfold more. cbn [map concat]. rewrite <- !app_assoc. reflexivity.
Qed.
Lemma concat_targets x l : concat (map (fun u => u ++ tx ", ") (map dit (x :: l))) = targets_text x l ++ tx ", ".
Proof. rewrite <- join_targets. cbn [map]. apply (concat_comma (tx ", ")). Qed.
Lemma targets_one x : targets_text x [] = dit x.
Proof. unfold targets_text. cbn. apply app_nil_r. Qed.
Lemma paren_ptext t l : paren (t :: l) = ptext (t :: l).
Proof. unfold paren, ptext. rewrite concat_comma, app_assoc, drop2_comma, <- app_assoc. reflexivity. Qed.

(** the words that start gate lines *)
Definition tags : list string :=
  ["x"; "z"; "h"; "s"; "rxy"; "rz"; "rh"; "virtrz"; "pm"; "csum"; "rdu"; "cx"; "ls"; "ms"; "noisex"; "noisey"; "cuone"; "cutwo"; "cumulti"]%string.
Lemma tag_facts tag (r : text) : In tag tags ->
  word (tx tag) /\ starts_not is_space (tx tag ++ tx " " ++ r) /\ nonspecial (tx tag ++ tx " " ++ r) false = (false, false) /\
  (forall sm, parse_qreg (tx tag ++ tx " " ++ r) sm = None) /\ (forall sm, parse_creg (tx tag ++ tx " " ++ r) sm = None) /\
  matches rx_ignore (tx tag ++ tx " " ++ r) = false.
Proof.
  intros H. split; [|unfold tags in H; repeat (destruct H as [<-|H]; [repeat split; reflexivity|]); destruct H].
  unfold tags in H. repeat (destruct H as [<-|H]; [split; [discriminate|]; intros a Ha; cbn in Ha; repeat (destruct Ha as [<-|Ha]; [reflexivity|]); destruct Ha|]). destruct H.
Qed.

Section Lines.
Context {Arr : Type}.
Variable show_float : R -> text.
Variable eval : text -> res (option R).
Variable load : text -> res Arr.
Notation gdata := (@gdata Arr).

Definition params_text (ps : list text) : option text := match ps with [] => None | _ => Some (join (tx ", ") ps) end.

Lemma gate_text_semicolon tag ps x l : gate_text (tx tag) ps x l = (tx tag ++ tx " " ++ (ptext ps ++ targets_text x l)) ++ [";"%char].
Proof. unfold gate_text. rewrite <- !app_assoc. reflexivity. Qed.

Lemma parse_gate_line (s : @pstate Arr) tag ps x l : In tag tags -> p_comment s = false ->
  allb not_paren (join (tx ", ") ps) -> word (tx (fst x)) -> (forall y, In y l -> word (tx (fst y))) ->
  parse_line eval load s (gate_text (tx tag) ps x l) =
  (let? p := parse_params eval load (params_text ps) in
   let? qs := lookups (p_sitemap s) (x :: l) in
   Ok (PState (p_sitemap s) (p_classic s) (p_gates s ++ [Instr tag p qs None]) false)).
Proof.
  intros Ht Hc Hps Hx Hl. 
  destruct (tag_facts tag (ptext ps ++ targets_text x l ++ tx ";") Ht) as (Hw & Hsp & Hn & Hq & Hcr & Hig).
  unfold parse_line.
  assert (Es : strip is_space (gate_text (tx tag) ps x l) = gate_text (tx tag) ps x l).
  { rewrite gate_text_semicolon. apply strip_line; [|reflexivity]. apply (proj1 (proj2 (tag_facts tag (ptext ps ++ targets_text x l) Ht))). }
  rewrite Es, Hc. destruct (search_gate (tx tag) ps x l Hw Hps Hx Hl) as (c & E & H1 & H2 & H3 & H5 & H8).
  assert (Eg : parse_gate eval load (gate_text (tx tag) ps x l) (p_sitemap s) =
    Some (let? p := parse_params eval load (params_text ps) in let? qs := lookups (p_sitemap s) (x :: l) in Ok (Instr tag p qs None))).
  { unfold parse_gate. rewrite E, H5, H8, H2. f_equal. unfold params_text.
    destruct (parse_params eval load match ps with [] => None | _ => Some (join (tx ", ") ps) end); [|reflexivity]. cbn [bindr].
    unfold grp. rewrite H3, H1, st_tx. rewrite <- (app_nil_r (targets_text x l)). unfold targets_text. rewrite <- app_assoc.
    pose proof (parse_dits_more (p_sitemap s) l [] x [] (allb_nil _) (allb_nil _) Hx Hl) as Ed. cbn [app] in Ed. rewrite Ed.
    destruct (lookups (p_sitemap s) (x :: l)); reflexivity. }
  unfold gate_text in *. rewrite Hn. cbv iota beta. cbn [p_sitemap p_classic p_gates]. rewrite Hq, Hcr, Hig, Eg.
  destruct (parse_params eval load (params_text ps)); [|reflexivity]. cbn [bindr].
  destruct (lookups (p_sitemap s) (x :: l)); reflexivity.
Qed.

Lemma parse_ctl_line (s : @pstate Arr) tag ps x y l n ns : In tag tags -> p_comment s = false ->
  allb not_paren (join (tx ", ") ps) -> word (tx (fst x)) -> word (tx (fst y)) -> (forall z, In z l -> word (tx (fst z))) ->
  parse_line eval load s (ctl_text (tx tag) ps x y l n ns) =
  (let? p := parse_params eval load (params_text ps) in
   let? qs := lookups (p_sitemap s) [x] in
   let? cs := lookups (p_sitemap s) (y :: l) in
   Ok (PState (p_sitemap s) (p_classic s) (p_gates s ++ [Instr tag p qs (Some (map (fun q => Z.of_nat (fst q)) cs, map Z.of_nat (n :: ns)))]) false)).
Proof.
  intros Ht Hc Hps Hx Hy Hl.
  destruct (tag_facts tag (ptext ps ++ dit x ++ tx " ctl" ++ blank_dits (y :: l) ++ tx " " ++ levels_text n ns ++ tx ";") Ht) as (Hw & Hsp & Hn & Hq & Hcr & Hig).
  unfold parse_line.
  assert (Es : strip is_space (ctl_text (tx tag) ps x y l n ns) = ctl_text (tx tag) ps x y l n ns).
  { unfold ctl_text. assert (E : tx tag ++ tx " " ++ ptext ps ++ dit x ++ tx " ctl" ++ blank_dits (y :: l) ++ tx " " ++ levels_text n ns ++ tx ";" =
      (tx tag ++ tx " " ++ (ptext ps ++ dit x ++ tx " ctl" ++ blank_dits (y :: l) ++ tx " " ++ levels_text n ns)) ++ [";"%char]) by (rewrite <- !app_assoc; reflexivity).
    rewrite E. apply strip_line; [|reflexivity]. apply (proj1 (proj2 (tag_facts tag _ Ht))). }
  rewrite Es, Hc.
  destruct (search_ctl (tx tag) ps x y l n ns Hw Hps Hx) as (c & E & H1 & H2 & H3 & (t5 & H5) & H6 & H8).
  { intros z [<-|Hz]; auto. }
  assert (Eg : parse_gate eval load (ctl_text (tx tag) ps x y l n ns) (p_sitemap s) =
    Some (let? p := parse_params eval load (params_text ps) in let? qs := lookups (p_sitemap s) [x] in
          let? cs := lookups (p_sitemap s) (y :: l) in Ok (Instr tag p qs (Some (map (fun q => Z.of_nat (fst q)) cs, map Z.of_nat (n :: ns)))))).
  { unfold parse_gate. rewrite E, H5, H8, H2. f_equal. unfold params_text.
    destruct (parse_params eval load match ps with [] => None | _ => Some (join (tx ", ") ps) end); [|reflexivity]. cbn [bindr].
    unfold grp at 1 2 3. rewrite H3, H1, H6, st_tx.
    pose proof (parse_dits_more (p_sitemap s) [] [] x (tx " ") (allb_nil _) gap_blank Hx ltac:(intros ? [])) as Ed. cbn [more map concat app] in Ed. rewrite Ed.
    destruct (lookups (p_sitemap s) [x]); [|reflexivity]. cbn [bindr]. rewrite parse_ctl_group by assumption.
    destruct (lookups (p_sitemap s) (y :: l)) as [cs|]; [|reflexivity]. cbn [bindr].
    assert (Er : map (fun m => Z.of_nat (read_nat (grp m 0))) (re_findall rx_number (levels_text n ns)) = map Z.of_nat (n :: ns)) by apply read_levels.
    rewrite Er. cbn [map]. destruct (map (fun q : nat * nat => Z.of_nat (fst q)) cs); reflexivity. }
  unfold ctl_text in *. rewrite Hn. cbv iota beta. cbn [p_sitemap p_classic p_gates]. rewrite Hq, Hcr, Hig, Eg.
  destruct (parse_params eval load (params_text ps)); [|reflexivity]. cbn [bindr].
  destruct (lookups (p_sitemap s) [x]); [|reflexivity]. cbn [bindr]. destruct (lookups (p_sitemap s) (y :: l)); reflexivity.
Qed.

(** ** printing *)
Section Print.
Context {G : Type}.
Variables (c : circuit G) (ds : decls).
Hypothesis Hinv : reg_inv c ds.
Hypothesis Hok : regs_ok ds.

Definition in_range (g : gate gdata) : Prop := forall t, In t (target_lines g) -> (0 <= t < Z.of_nat (num_qudits c))%Z.
Lemma mapr_site l : (forall t, In t l -> (0 <= t < Z.of_nat (num_qudits c))%Z) ->
  mapr (site c) l = Ok (map dit (map (fun t => addr ds (Z.to_nat t)) l)).
Proof.
  induction l as [|t l IH]; intros H; [reflexivity|]. cbn [mapr map]. rewrite (site_addr c ds Hinv) by (apply H; now left).
  cbn [bindr]. rewrite IH by (intros u Hu; apply H; now right). reflexivity.
Qed.

Lemma gate_qasm_plain (g : gate gdata) ps t ts : g_controls g = None -> in_range g -> target_lines g = t :: ts ->
  params_qasm show_float (d_par (g_data g)) = Ok (ptext ps) ->
  gate_qasm show_float c g = Ok (gate_text (tx (d_tag (g_data g))) ps (addr ds (Z.to_nat t)) (map (fun t => addr ds (Z.to_nat t)) ts) ++ [nl]).
Proof.
  intros Hc Hr Ht Hp. unfold gate_qasm. rewrite Hp. cbn [bindr]. rewrite Ht, mapr_site by (rewrite <- Ht; exact Hr). cbn [bindr]. rewrite Hc. f_equal.
  change (map (fun t => addr ds (Z.to_nat t)) (t :: ts)) with (addr ds (Z.to_nat t) :: map (fun t => addr ds (Z.to_nat t)) ts). rewrite concat_targets.
  rewrite !app_assoc, drop2_comma. unfold gate_text. rewrite <- !app_assoc. reflexivity.
Qed.

Lemma concat_blank x n : concat (map (fun t => t ++ tx " ") (repeat (dit x) (S n))) = skipn 1 (blank_dits (repeat x (S n)) ++ tx " ").
Proof.
  assert (E : forall n, concat (map (fun t => t ++ tx " ") (repeat (dit x) n)) = match n with O => [] | S _ => skipn 1 (blank_dits (repeat x n) ++ tx " ") end).
  { clear n. induction n as [|n IH]; [reflexivity|]. cbn [repeat map concat]. rewrite IH. unfold blank_dits. cbn [repeat map concat].
    destruct n as [|n]; [cbn; now rewrite !app_nil_r|]. fold (blank_dits (repeat x (S n))).
    change (skipn 1 (((tx " " ++ dit x) ++ blank_dits (repeat x (S n))) ++ tx " ")) with ((dit x ++ blank_dits (repeat x (S n))) ++ tx " ").
    rewrite <- !app_assoc. f_equal. }
  apply (E (S n)).
Qed.
Lemma show_levels n ns : show_list (map Z.of_nat (n :: ns)) = levels_text n ns.
Proof.
  unfold show_list, levels_text. f_equal. rewrite app_assoc. f_equal. revert n. induction ns as [|m ns IH]; intros n.
  - cbn [map join more_levels concat]. now rewrite show_Z_of_nat, app_nil_r.
  - cbn [map]. rewrite join_cons, show_Z_of_nat. change (show_Z (Z.of_nat m) :: map show_Z (map Z.of_nat ns)) with (map show_Z (map Z.of_nat (m :: ns))). rewrite IH.
    unfold more_levels. cbn [map concat]. rewrite <- !app_assoc. reflexivity.
Qed.
Lemma mapr_const {A B} (f : res B) (b : B) (l : list A) : f = Ok b -> mapr (fun _ => f) l = Ok (repeat b (List.length l)).
Proof. intros ->. induction l as [|x l IH]; [reflexivity|]. cbn [mapr bindr List.length repeat]. rewrite IH. reflexivity. Qed.

Lemma gate_qasm_ctl (g : gate gdata) ps t i idx n ns : g_controls g = Some (i :: idx, map Z.of_nat (n :: ns)) -> in_range g -> target_lines g = [t] ->
  params_qasm show_float (d_par (g_data g)) = Ok (ptext ps) ->
  gate_qasm show_float c g = Ok (ctl_text (tx (d_tag (g_data g))) ps (addr ds (Z.to_nat t)) (addr ds (Z.to_nat t)) (repeat (addr ds (Z.to_nat t)) (List.length idx)) n ns ++ [nl]).
Proof.
  intros Hc Hr Ht Hp. unfold gate_qasm. rewrite Hp. cbn [bindr]. rewrite Ht, mapr_site by (rewrite <- Ht; exact Hr). cbn [bindr]. rewrite Hc. cbn [rev app bindr].
  rewrite (mapr_const (site c t) (dit (addr ds (Z.to_nat t))) (i :: idx)) by (apply (site_addr c ds Hinv); apply Hr; rewrite Ht; now left).
  cbn [bindr List.length]. f_equal. change (map (fun t => addr ds (Z.to_nat t)) [t]) with [addr ds (Z.to_nat t)]. rewrite concat_targets. rewrite targets_one.
  rewrite concat_blank. rewrite show_levels. unfold ctl_text.
  rewrite !app_assoc, drop2_comma, <- !app_assoc. do 4 f_equal.
  rewrite (app_assoc (blank_dits _) (tx " ")). reflexivity.
Qed.
End Print.
End Lines.
