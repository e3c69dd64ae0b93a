(** Proofs about the classical registers: the layout of Circuit/CircuitProofs.v with dummy dimensions. *)
From Coq Require Import FinFun.
From Verif Require Import Base.Py Base.PyFacts.
From Verif Require Import Circuit.CircuitModel Circuit.CircuitSpec Circuit.CircuitProofs Circuit.ClassicSpec.

Definition blow (ds : cdecls) : decls := map (fun e => (fst e, repeat 0 (snd e))) ds.
Definition strip (m : list ((string * nat) * (nat * nat))) : list ((string * nat) * nat) :=
  map (fun e => (fst e, fst (snd e))) m.

Lemma strip_app a b : strip (a ++ b) = strip a ++ strip b.
Proof. apply map_app. Qed.
Lemma strip_keys m : map fst (strip m) = map fst m.
Proof. unfold strip. rewrite map_map. reflexivity. Qed.
Lemma strip_length m : List.length (strip m) = List.length m.
Proof. apply map_length. Qed.
Lemma blow_labels ds : map fst (blow ds) = map fst ds.
Proof. unfold blow. rewrite map_map. reflexivity. Qed.
Lemma blow_app a b : blow (a ++ b) = blow a ++ blow b.
Proof. apply map_app. Qed.
Lemma concat_blow ds : List.length (List.concat (map snd (blow ds))) = list_sum (map snd ds).
Proof.
  induction ds as [|[l s] r IH]; [reflexivity|].
  change (List.length (repeat 0 s ++ List.concat (map snd (blow r))) = s + list_sum (map snd r)).
  rewrite app_length, repeat_length, IH. reflexivity.
Qed.
Lemma total_blow ds : total_lines (blow ds) = list_sum (map snd ds).
Proof. apply concat_blow. Qed.
Lemma line_blow ds k i : line_of (blow ds) k i = bit_of ds k i.
Proof.
  unfold line_of, bit_of. f_equal. replace (firstn k (blow ds)) with (blow (firstn k ds)); [apply concat_blow|].
  unfold blow. symmetry. apply firstn_map.
Qed.
Lemma addressed_blow ds label i n : (exists d, addressed (blow ds) label i n d) <-> caddressed ds label i n.
Proof.
  unfold addressed, caddressed. split.
  - intros (d & k & dims & H1 & H2 & ->). unfold blow in H1. rewrite nth_error_map in H1.
    destruct (nth_error ds k) as [[l s]|] eqn:E; [|discriminate]. cbn in H1. injection H1 as -> <-.
    exists k, s. split; [exact E|]. split; [|apply line_blow].
    rewrite <- (repeat_length 0 s). apply nth_error_Some. congruence.
  - intros (k & s & H1 & H2 & ->). exists 0, k, (repeat 0 s). split; [|split].
    + unfold blow. rewrite nth_error_map, H1. reflexivity.
    + now apply nth_error_repeat.
    + symmetry. apply line_blow.
Qed.

Lemma append_classic_loop_spec label stored n :
  forall i local sm inv,
  (forall j, ~ In (label, i + j) (map fst sm)) ->
  (forall j, ~ In (stored + i + j) (map fst inv)) ->
  (forall j, ~ In (i + j) (map fst local)) ->
  append_classic_loop label stored i n local sm inv =
    (local ++ map (fun j => (j, stored + j)) (seq i n),
     sm ++ strip (lay1 label stored i (repeat 0 n)),
     inv ++ flip (lay1 label stored i (repeat 0 n))).
Proof.
  induction n as [|n IH]; intros i local sm inv Hsm Hinv Hloc; cbn [append_classic_loop].
  - cbn. rewrite !app_nil_r. reflexivity.
  - rewrite (dset_fresh key_eqb key_eqb_spec sm) by (specialize (Hsm 0); rewrite Nat.add_0_r in Hsm; exact Hsm).
    rewrite (dset_fresh Nat.eqb nat_eqb_spec' inv) by (specialize (Hinv 0); rewrite Nat.add_0_r in Hinv; exact Hinv).
    rewrite (dset_fresh Nat.eqb nat_eqb_spec' local) by (specialize (Hloc 0); rewrite Nat.add_0_r in Hloc; exact Hloc).
    rewrite IH.
    + cbn. rewrite <- !app_assoc. reflexivity.
    + intros j Hj. rewrite map_app in Hj. apply in_app_or in Hj. destruct Hj as [Hj|[Hj|[]]].
      * apply (Hsm (S j)). replace (i + S j) with (S i + j) by lia. exact Hj.
      * cbn in Hj. injection Hj as Hj. lia.
    + intros j Hj. rewrite map_app in Hj. apply in_app_or in Hj. destruct Hj as [Hj|[Hj|[]]].
      * apply (Hinv (S j)). replace (stored + i + S j) with (stored + S i + j) by lia. exact Hj.
      * cbn in Hj. lia.
    + intros j Hj. rewrite map_app in Hj. apply in_app_or in Hj. destruct Hj as [Hj|[Hj|[]]].
      * apply (Hloc (S j)). replace (i + S j) with (S i + j) by lia. exact Hj.
      * cbn in Hj. lia.
Qed.

Section Inv.
Context {G : Type}.

Record cl_inv (c : circuit G) (ds : cdecls) : Prop := {
  ci_nodup : NoDup (map fst ds);
  ci_map : classic_site_map c = strip (layout 0 (blow ds));
  ci_inverse : cl_inverse_sitemap c = flip (layout 0 (blow ds));
  ci_num : num_cl c = list_sum (map snd ds);
  ci_regs : map (fun r => (c_label r, c_size r)) (classic_registers c) = ds;
  ci_local : forall k r, nth_error (classic_registers c) k = Some r ->
             c_local r = map (fun j => (j, bit_of ds k j)) (seq 0 (c_size r))
}.

Lemma bit_of_app ds x k i : k < List.length ds -> bit_of (ds ++ x) k i = bit_of ds k i.
Proof.
  intros H. unfold bit_of. rewrite firstn_app.
  replace (k - List.length ds) with 0 by lia. rewrite firstn_O, app_nil_r. reflexivity.
Qed.

Lemma append_classic_inv (c : circuit G) ds r :
  cl_inv c ds -> ~ In (c_label r) (map fst ds) -> c_local r = [] ->
  cl_inv (append_classic c r) (ds ++ [(c_label r, c_size r)]).
Proof.
  intros [Hnd Hsm Hinv Hnum Hregs Hloc] Hfresh Hq.
  unfold append_classic. rewrite append_classic_loop_spec.
  - cbn. constructor; cbn.
    + rewrite map_app. cbn. apply NoDup_app_intro; [exact Hnd|repeat constructor; intros []|].
      intros x Hx [<-|[]]. contradiction.
    + rewrite blow_app. cbn. rewrite layout_snoc, strip_app, Hsm, strip_length, layout_length. reflexivity.
    + rewrite blow_app. cbn. rewrite layout_snoc, flip_app, Hinv, Hsm, strip_length, layout_length. reflexivity.
    + rewrite Hnum, map_app. rewrite list_sum_app. cbn. lia.
    + rewrite map_app, Hregs. reflexivity.
    + assert (Hl : List.length (classic_registers c) = List.length ds) by (rewrite <- Hregs, map_length; reflexivity).
      intros k q' Hk.
      destruct (Nat.lt_ge_cases k (List.length (classic_registers c))) as [Hlt|Hge].
      * rewrite nth_error_app1 in Hk by exact Hlt. rewrite (Hloc k q' Hk).
        apply map_ext. intros j. rewrite bit_of_app by lia. reflexivity.
      * rewrite nth_error_app2 in Hk by exact Hge.
        destruct (k - List.length (classic_registers c)) as [|m] eqn:Ek; cbn in Hk.
        2:{ destruct m; discriminate. }
        injection Hk as <-. cbn. rewrite Hq. cbn.
        apply map_ext. intros j. f_equal. unfold bit_of.
        replace k with (List.length ds) by lia. rewrite firstn_app, firstn_all, Nat.sub_diag. cbn.
        rewrite app_nil_r. rewrite Hsm, strip_length, layout_length, total_blow. reflexivity.
  - intros j Hj. rewrite Hsm, strip_keys in Hj. apply layout_key_label in Hj. rewrite blow_labels in Hj. cbn in Hj. contradiction.
  - intros j Hj. rewrite Hinv, flip_keys, layout_lines in Hj. apply in_seq in Hj.
    rewrite Hsm, strip_length, layout_length in Hj. lia.
  - intros j Hj. rewrite Hq in Hj. exact Hj.
Qed.

Lemma cl_inv_empty : cl_inv (empty_circuit (G:=G)) [].
Proof. constructor; try reflexivity; try constructor. intros k q H. destruct k; discriminate. Qed.
Lemma cl_inv_reset c : cl_inv (reset (G:=G) c) [].
Proof. constructor; try reflexivity; try constructor. intros k q H. destruct k; discriminate. Qed.
Lemma cl_inv_transfer (c c' : circuit G) ds : cl_inv c ds ->
  classic_site_map c' = classic_site_map c -> cl_inverse_sitemap c' = cl_inverse_sitemap c -> num_cl c' = num_cl c ->
  classic_registers c' = classic_registers c -> cl_inv c' ds.
Proof.
  intros [Hnd Hsm Hinv Hnum Hregs Hloc] E1 E2 E3 E4. constructor; try congruence; try assumption.
  intros k q. rewrite E4. apply Hloc.
Qed.
Lemma run_cl_inv ops : forall (c : circuit G) ds,
  cl_inv c ds -> legal_classic ds ops -> cl_inv (run c ops) (cdeclared ds ops).
Proof.
  induction ops as [|o ops IH]; intros c ds Hc Hleg; cbn; [exact Hc|].
  destruct o as [q|r|out|i s|s|m|]; cbn in Hleg.
  - apply IH; [|exact Hleg]. unfold step, append. destruct (append_loop _ _ _ _ _ _ _ _) as [[[local sm] inv] e].
    cbn [fst]. eapply cl_inv_transfer; [exact Hc|reflexivity..].
  - destruct Hleg as (H1 & H2 & H3). apply IH; [|exact H3]. apply append_classic_inv; assumption.
  - apply IH; [|exact Hleg]. destruct out as [g|e]; cbn; [|exact Hc]. eapply cl_inv_transfer; [exact Hc|reflexivity..].
  - apply IH; [|exact Hleg]. eapply cl_inv_transfer; [exact Hc|reflexivity..].
  - apply IH; [|exact Hleg]. eapply cl_inv_transfer; [exact Hc|reflexivity..].
  - apply IH; [|exact Hleg]. eapply cl_inv_transfer; [exact Hc|reflexivity..].
  - apply IH; [apply cl_inv_reset|exact Hleg].
Qed.

Lemma cl_lookup c ds label i n : cl_inv c ds -> lookup (classic_site_map c) label i = Some n <-> caddressed ds label i n.
Proof.
  intros Hc. unfold lookup. rewrite (ci_map _ _ Hc), <- addressed_blow.
  assert (Nd : NoDup (map fst (strip (layout 0 (blow ds))))).
  { rewrite strip_keys. apply layout_NoDup. rewrite blow_labels. apply (ci_nodup _ _ Hc). }
  split.
  - intros H. apply (dget_In key_eqb key_eqb_spec) in H. unfold strip in H. apply in_map_iff in H.
    destruct H as ([k [n' d]] & E & H). cbn in E. injection E as -> ->. exists d. now apply layout_addressed.
  - intros (d & H). apply layout_addressed in H. apply (dget_complete key_eqb key_eqb_spec); [exact Nd|].
    unfold strip. apply in_map_iff. exists ((label, i), (n, d)). split; [reflexivity|exact H].
Qed.
Lemma cl_lookup_inv c ds label i n : cl_inv c ds -> lookup_inv (cl_inverse_sitemap c) n = Some (label, i) <-> caddressed ds label i n.
Proof.
  intros Hc. unfold lookup_inv. rewrite (ci_inverse _ _ Hc), <- addressed_blow. split.
  - intros H. apply (dget_In Nat.eqb nat_eqb_spec') in H. unfold flip in H.
    apply in_map_iff in H. destruct H as ([k [n' d]] & E & H). cbn in E. injection E as -> ->.
    exists d. apply layout_addressed. exact H.
  - intros (d & H). apply layout_addressed in H.
    apply (dget_complete Nat.eqb nat_eqb_spec'); [apply flip_layout_NoDup|].
    unfold flip. apply in_map_iff. exists ((label, i), (n, d)). split; [reflexivity|exact H].
Qed.
Lemma dget_seq (f : nat -> nat) n : forall i j, dget Nat.eqb (map (fun j => (j, f j)) (seq i n)) j =
  if (i <=? j) && (j <? i + n) then Some (f j) else None.
Proof.
  induction n as [|n IH]; intros i j; cbn [seq map dget].
  - destruct (Nat.leb_spec i j); cbn [andb]; [|reflexivity]. destruct (Nat.ltb_spec j (i + 0)); [lia|reflexivity].
  - destruct (Nat.eqb_spec j i) as [->|Ne].
    + rewrite Nat.leb_refl. cbn [andb]. destruct (Nat.ltb_spec i (i + S n)); [reflexivity|lia].
    + rewrite IH. destruct (Nat.leb_spec (S i) j), (Nat.leb_spec i j); cbn [andb]; try lia; try reflexivity.
      destruct (Nat.ltb_spec j (S i + n)), (Nat.ltb_spec j (i + S n)); try lia; reflexivity.
Qed.
Lemma cl_getitem c ds r i : cl_inv c ds -> In r (classic_registers c) -> i < c_size r ->
  exists n, creg_getitem r i = Ok n /\ lookup (classic_site_map c) (c_label r) i = Some n.
Proof.
  intros Hc Hr Hi. apply In_nth_error in Hr. destruct Hr as [k Hk]. unfold creg_getitem.
  rewrite (ci_local _ _ Hc k r Hk), dget_seq. cbn [Nat.leb andb Nat.add].
  destruct (Nat.ltb_spec i (c_size r)); [|lia]. eexists; split; [reflexivity|].
  apply (cl_lookup c ds _ _ _ Hc). exists k, (c_size r). split; [|auto].
  rewrite <- (ci_regs _ _ Hc), nth_error_map, Hk. reflexivity.
Qed.
End Inv.
Section Main.
Context {G : Type}.
Variable ops : list (op G).
Hypothesis L : legal_classic [] ops.
Lemma cl_main : cl_inv (run empty_circuit ops) (cdeclared [] ops).
Proof. apply run_cl_inv; [apply cl_inv_empty|exact L]. Qed.
Lemma cl_num : num_cl (run empty_circuit ops) = list_sum (map snd (cdeclared [] ops)).
Proof. apply (ci_num _ _ cl_main). Qed.
Lemma caddressed_lt ds label i n : caddressed ds label i n -> n < list_sum (map snd ds).
Proof.
  intros (k & s & H1 & H2 & ->). unfold bit_of. apply nth_error_split in H1. destruct H1 as (l1 & l2 & -> & <-).
  rewrite firstn_app, Nat.sub_diag, firstn_all. cbn [firstn]. rewrite app_nil_r, map_app, list_sum_app. cbn. lia.
Qed.
Lemma caddressed_all ds n : n < list_sum (map snd ds) -> exists label i, caddressed ds label i n.
Proof.
  intros H. assert (Hin : In n (map (fun e => fst (snd e)) (layout 0 (blow ds)))).
  { rewrite layout_lines, total_blow. apply in_seq. lia. }
  apply in_map_iff in Hin. destruct Hin as ([[label i] [n' d]] & <- & Hin). cbn.
  exists label, i. apply addressed_blow. exists d. now apply layout_addressed.
Qed.
Lemma cl_all n : n < num_cl (run empty_circuit ops) <-> exists label i, lookup (classic_site_map (run empty_circuit ops)) label i = Some n.
Proof.
  rewrite cl_num. split.
  - intros H. destruct (caddressed_all _ _ H) as (l & i & Ha). exists l, i. now apply (cl_lookup _ _ _ _ _ cl_main).
  - intros (l & i & H). apply (cl_lookup _ _ _ _ _ cl_main) in H. eapply caddressed_lt; exact H.
Qed.
End Main.
