(** Proofs about the circuit container. *)
From Coq Require Import FinFun.
From Verif Require Import Base.Py Base.PyFacts.
From Verif Require Import Circuit.CircuitModel Circuit.CircuitSpec.

Lemma key_eqb_spec a b : key_eqb a b = true <-> a = b.
Proof.
  destruct a as [l i], b as [l' i']. unfold key_eqb; cbn.
  rewrite andb_true_iff, String.eqb_eq, Nat.eqb_eq. split.
  - intros [-> ->]. reflexivity.
  - intros H. injection H as -> ->. auto.
Qed.

Lemma nat_eqb_spec' a b : Nat.eqb a b = true <-> a = b.
Proof. apply Nat.eqb_eq. Qed.

(** *** Layout as an explicit list *)
Fixpoint lay1 (label : string) (n i : nat) (dims : list nat) : list ((string * nat) * (nat * nat)) :=
  match dims with
  | [] => []
  | d :: r => ((label, i), (n + i, d)) :: lay1 label n (S i) r
  end.
Fixpoint layout (n : nat) (ds : decls) : list ((string * nat) * (nat * nat)) :=
  match ds with
  | [] => []
  | (l, dims) :: r => lay1 l n 0 dims ++ layout (n + List.length dims) r
  end.
Definition flip (m : list ((string * nat) * (nat * nat))) : list (nat * (string * nat)) :=
  map (fun e => (fst (snd e), fst e)) m.

Lemma lay1_length label n i dims : List.length (lay1 label n i dims) = List.length dims.
Proof. revert i; induction dims as [|d r IH]; intros i; cbn; [reflexivity|]. rewrite IH. reflexivity. Qed.

Lemma layout_length n ds : List.length (layout n ds) = total_lines ds.
Proof.
  revert n; induction ds as [|[l dims] r IH]; intros n; cbn; [reflexivity|].
  rewrite app_length, lay1_length, IH. unfold total_lines. cbn. rewrite app_length. reflexivity.
Qed.

Lemma layout_snoc n ds l dims :
  layout n (ds ++ [(l, dims)]) = layout n ds ++ lay1 l (n + total_lines ds) 0 dims.
Proof.
  revert n; induction ds as [|[l' dims'] r IH]; intros n; cbn.
  - rewrite app_nil_r. f_equal. unfold total_lines; cbn; lia.
  - rewrite IH, <- app_assoc. do 2 f_equal. unfold total_lines; cbn. rewrite app_length. f_equal. lia.
Qed.

Lemma lay1_In label n i dims k v :
  In (k, v) (lay1 label n i dims) <->
  exists j, nth_error dims j = Some (snd v) /\ k = (label, i + j) /\ fst v = n + i + j.
Proof.
  revert i; induction dims as [|d r IH]; intros i; cbn.
  - split; [intros []|]. intros (j & H & _). destruct j; discriminate.
  - rewrite IH. split.
    + intros [H|(j & H1 & H2 & H3)].
      * injection H as <- <-. exists 0. cbn. repeat split; [f_equal; lia|lia].
      * exists (S j). cbn. repeat split; [exact H1|rewrite H2; f_equal; lia|lia].
    + intros (j & H1 & H2 & H3). destruct j as [|j]; cbn in H1.
      * left. injection H1 as H1. subst k. destruct v as [v1 v2]; cbn in *. f_equal; f_equal; try lia; congruence.
      * right. exists j. repeat split; [exact H1|rewrite H2; f_equal; lia|lia].
Qed.

Lemma layout_In n ds k v :
  In (k, v) (layout n ds) <->
  exists kk dims, nth_error ds kk = Some (fst k, dims) /\ nth_error dims (snd k) = Some (snd v) /\
                  fst v = n + line_of ds kk (snd k).
Proof.
  revert n; induction ds as [|[l dims] r IH]; intros n; cbn.
  - split; [intros []|]. intros (kk & d & H & _). destruct kk; discriminate.
  - rewrite in_app_iff, lay1_In, IH. split.
    + intros [(j & H1 & -> & H3)|(kk & d & H1 & H2 & H3)].
      * exists 0, dims. cbn. repeat split; [exact H1|]. unfold line_of; cbn. lia.
      * exists (S kk), d. cbn. repeat split; [exact H1|exact H2|].
        rewrite H3. unfold line_of; cbn. rewrite app_length. lia.
    + intros (kk & d & H1 & H2 & H3). destruct kk as [|kk]; cbn in H1.
      * left. injection H1 as H1 H1'. subst. exists (snd k). cbn. repeat split; [exact H2|destruct k; reflexivity|].
        rewrite H3. unfold line_of; cbn. lia.
      * right. exists kk, d. repeat split; [exact H1|exact H2|].
        rewrite H3. unfold line_of; cbn. rewrite app_length. lia.
Qed.

Lemma layout_addressed ds label i n d :
  In ((label, i), (n, d)) (layout 0 ds) <-> addressed ds label i n d.
Proof.
  rewrite layout_In. cbn. unfold addressed. split.
  - intros (k & dims & H). exists k, dims. tauto.
  - intros (k & dims & H). exists k, dims. tauto.
Qed.

Lemma addressed_label ds label i n d : addressed ds label i n d -> In label (map fst ds).
Proof.
  intros (k & dims & H & _). apply nth_error_In in H. apply in_map_iff. exists (label, dims). auto.
Qed.

Lemma line_of_lt ds k label dims i d :
  nth_error ds k = Some (label, dims) -> nth_error dims i = Some d -> line_of ds k i < total_lines ds.
Proof.
  intros H1 H2. unfold line_of, total_lines.
  apply nth_error_split in H1. destruct H1 as (l1 & l2 & -> & <-).
  rewrite firstn_app, Nat.sub_diag, firstn_all. cbn. rewrite app_nil_r.
  rewrite map_app, concat_app, app_length. cbn. rewrite app_length.
  assert (i < List.length dims) by (apply nth_error_Some; congruence). lia.
Qed.

(** lines are sequential: the [n]-th entry of the layout is line [n] *)
Lemma lay1_lines label n i dims : map (fun e => fst (snd e)) (lay1 label n i dims) = seq (n + i) (List.length dims).
Proof.
  revert i; induction dims as [|d r IH]; intros i; cbn; [reflexivity|].
  rewrite IH. f_equal. f_equal. lia.
Qed.
Lemma layout_lines n ds : map (fun e => fst (snd e)) (layout n ds) = seq n (total_lines ds).
Proof.
  revert n; induction ds as [|[l dims] r IH]; intros n; cbn; [reflexivity|].
  rewrite map_app, lay1_lines, IH. unfold total_lines; cbn.
  rewrite app_length, seq_app, Nat.add_0_r. reflexivity.
Qed.

Lemma flip_keys m : map fst (flip m) = map (fun e => fst (snd e)) m.
Proof. unfold flip. rewrite map_map. reflexivity. Qed.
Lemma flip_app a b : flip (a ++ b) = flip a ++ flip b.
Proof. apply map_app. Qed.

Lemma lay1_keys label n i dims : map fst (lay1 label n i dims) = map (fun j => (label, j)) (seq i (List.length dims)).
Proof. revert i; induction dims as [|d r IH]; intros i; cbn; [reflexivity|]. rewrite IH. reflexivity. Qed.

Lemma NoDup_app_intro {A} (a b : list A) :
  NoDup a -> NoDup b -> (forall x, In x a -> In x b -> False) -> NoDup (a ++ b).
Proof.
  intros Ha Hb H. induction Ha as [|x a Hx Ha IH]; cbn; [exact Hb|].
  constructor.
  - intros Hi. apply in_app_or in Hi. destruct Hi as [Hi|Hi]; [contradiction|].
    apply (H x); [left; reflexivity|exact Hi].
  - apply IH. intros y Hy1 Hy2. apply (H y); [right; exact Hy1|exact Hy2].
Qed.

Lemma layout_key_label n ds k : In k (map fst (layout n ds)) -> In (fst k) (map fst ds).
Proof.
  intros H. apply in_map_iff in H. destruct H as ([k' v] & <- & H).
  apply layout_In in H. destruct H as (kk & dims & H & _). cbn.
  apply nth_error_In in H. apply in_map_iff. eexists; split; [|exact H]. reflexivity.
Qed.

Lemma layout_NoDup n ds : NoDup (map fst ds) -> NoDup (map fst (layout n ds)).
Proof.
  revert n; induction ds as [|[l dims] r IH]; intros n H; cbn; [constructor|].
  inversion H as [|? ? Hni Hnd]; subst. rewrite map_app. apply NoDup_app_intro.
  - rewrite lay1_keys. apply FinFun.Injective_map_NoDup; [|apply seq_NoDup].
    intros a b E. injection E as ->. reflexivity.
  - apply IH; exact Hnd.
  - intros x Hx Hy. apply layout_key_label in Hy. rewrite lay1_keys in Hx.
    apply in_map_iff in Hx. destruct Hx as (j & <- & _). cbn in Hy. contradiction.
Qed.

Lemma flip_layout_NoDup n ds : NoDup (map fst (flip (layout n ds))).
Proof. rewrite flip_keys, layout_lines. apply seq_NoDup. Qed.

(** *** the append loop *)
Lemma append_loop_spec label dims stored n :
  forall i local sm inv,
  n = List.length dims - i -> i <= List.length dims ->
  (forall j, ~ In (label, i + j) (map fst sm)) ->
  (forall j, ~ In (stored + i + j) (map fst inv)) ->
  (forall j, ~ In (i + j) (map fst local)) ->
  append_loop label dims stored i n local sm inv =
    ((local ++ map (fun j => (j, stored + j)) (seq i n),
      sm ++ lay1 label stored i (skipn i dims),
      inv ++ flip (lay1 label stored i (skipn i dims))), None).
Proof.
  induction n as [|n IH]; intros i local sm inv Hn Hi Hsm Hinv Hloc; cbn [append_loop].
  - rewrite skipn_all2 by lia. cbn. rewrite !app_nil_r. reflexivity.
  - destruct (nth_error dims i) as [d|] eqn:E.
    2:{ apply nth_error_None in E. lia. }
    rewrite (dset_fresh key_eqb key_eqb_spec sm) by (specialize (Hsm 0); rewrite Nat.add_0_r in Hsm; exact Hsm).
    rewrite (dset_fresh Nat.eqb nat_eqb_spec' inv) by (specialize (Hinv 0); rewrite Nat.add_0_r in Hinv; exact Hinv).
    rewrite (dset_fresh Nat.eqb nat_eqb_spec' local) by (specialize (Hloc 0); rewrite Nat.add_0_r in Hloc; exact Hloc).
    rewrite IH; [| lia | lia | | | ].
    + apply nth_error_split in E. destruct E as (l1 & l2 & -> & <-).
      replace (skipn (S (List.length l1)) (l1 ++ d :: l2)) with l2.
      2:{ rewrite skipn_app. rewrite skipn_all2 by lia.
          replace (S (List.length l1) - List.length l1) with 1 by lia. reflexivity. }
      rewrite skipn_app, skipn_all, Nat.sub_diag. cbn.
      rewrite <- !app_assoc. cbn. reflexivity.
    + intros j Hj. rewrite map_app in Hj. apply in_app_or in Hj. destruct Hj as [Hj|[Hj|[]]].
      * apply (Hsm (S j)). replace (i + S j) with (S i + j) by lia. exact Hj.
      * cbn in Hj. injection Hj as Hj. lia.
    + intros j Hj. rewrite map_app in Hj. apply in_app_or in Hj. destruct Hj as [Hj|[Hj|[]]].
      * apply (Hinv (S j)). replace (stored + i + S j) with (stored + S i + j) by lia. exact Hj.
      * cbn in Hj. lia.
    + intros j Hj. rewrite map_app in Hj. apply in_app_or in Hj. destruct Hj as [Hj|[Hj|[]]].
      * apply (Hloc (S j)). replace (i + S j) with (S i + j) by lia. exact Hj.
      * cbn in Hj. lia.
Qed.

Section Inv.
Context {G : Type}.

Record reg_inv (c : circuit G) (ds : decls) : Prop := {
  ri_nodup : NoDup (map fst ds);
  ri_sitemap : sitemap c = layout 0 ds;
  ri_inverse : inverse_sitemap c = flip (layout 0 ds);
  ri_num : num_qudits c = total_lines ds;
  ri_dims : dimensions c = List.concat (map snd ds);
  ri_regs : map (fun q => (q_label q, q_dims q)) (quantum_registers c) = ds;
  ri_local : forall k q, nth_error (quantum_registers c) k = Some q ->
             q_local q = map (fun j => (j, line_of ds k j)) (seq 0 (List.length (q_dims q)))
}.

Lemma line_of_app ds x k i : k < List.length ds -> line_of (ds ++ x) k i = line_of ds k i.
Proof.
  intros H. unfold line_of. rewrite firstn_app.
  replace (k - List.length ds) with 0 by lia. rewrite firstn_O, app_nil_r. reflexivity.
Qed.

Lemma append_inv c ds q :
  reg_inv c ds -> ~ In (q_label q) (map fst ds) -> List.length (q_dims q) = q_size q -> q_local q = [] ->
  reg_inv (fst (append c q)) (ds ++ [(q_label q, q_dims q)]) /\ snd (append c q) = None.
Proof.
  intros [Hnd Hsm Hinv Hnum Hdims Hregs Hloc] Hfresh Hlen Hq.
  unfold append. rewrite append_loop_spec.
  - split; [|reflexivity]. cbn. constructor; cbn.
    + rewrite map_app. cbn. apply NoDup_app_intro; [exact Hnd|repeat constructor; intros []|].
      intros x Hx [<-|[]]. contradiction.
    + rewrite layout_snoc. rewrite Hsm. f_equal. rewrite layout_length. reflexivity.
    + rewrite layout_snoc, flip_app. rewrite Hinv. f_equal. rewrite Hsm, layout_length. reflexivity.
    + rewrite Hnum. unfold total_lines. rewrite map_app, concat_app, app_length. cbn.
      rewrite app_nil_r, Hlen. reflexivity.
    + rewrite Hdims, map_app, concat_app. cbn. rewrite app_nil_r. reflexivity.
    + rewrite map_app, Hregs. reflexivity.
    + assert (Hl : List.length (quantum_registers c) = List.length ds) by (rewrite <- Hregs, map_length; reflexivity).
      intros k q' Hk.
      destruct (Nat.lt_ge_cases k (List.length (quantum_registers c))) as [Hlt|Hge].
      * rewrite nth_error_app1 in Hk by exact Hlt. rewrite (Hloc k q' Hk).
        apply map_ext. intros j. rewrite line_of_app by lia. reflexivity.
      * rewrite nth_error_app2 in Hk by exact Hge.
        destruct (k - List.length (quantum_registers c)) as [|m] eqn:Ek; cbn in Hk.
        2:{ destruct m; discriminate. }
        injection Hk as <-. cbn. rewrite Hq. cbn. rewrite Hlen.
        apply map_ext. intros j. f_equal. unfold line_of.
        replace k with (List.length ds) by lia. rewrite firstn_app, firstn_all, Nat.sub_diag. cbn.
        rewrite app_nil_r. rewrite Hsm, layout_length. reflexivity.
  - lia.
  - lia.
  - intros j Hj. rewrite Hsm in Hj. apply layout_key_label in Hj. cbn in Hj. contradiction.
  - intros j Hj. rewrite Hinv, flip_keys, layout_lines in Hj. apply in_seq in Hj.
    rewrite Hsm, layout_length in Hj. lia.
  - intros j Hj. rewrite Hq in Hj. exact Hj.
Qed.

Lemma reg_inv_empty : reg_inv (empty_circuit (G:=G)) [].
Proof.
  constructor; try reflexivity; try constructor.
  intros k q H. destruct k; discriminate.
Qed.
Lemma reg_inv_reset c : reg_inv (reset (G:=G) c) [].
Proof.
  constructor; try reflexivity; try constructor.
  intros k q H. destruct k; discriminate.
Qed.
Lemma reg_inv_transfer (c c' : circuit G) ds :
  reg_inv c ds ->
  sitemap c' = sitemap c -> inverse_sitemap c' = inverse_sitemap c -> num_qudits c' = num_qudits c ->
  dimensions c' = dimensions c -> quantum_registers c' = quantum_registers c ->
  reg_inv c' ds.
Proof.
  intros [Hnd Hsm Hinv Hnum Hdims Hregs Hloc] E1 E2 E3 E4 E5.
  constructor; try congruence; try assumption.
  intros k q. rewrite E5. apply Hloc.
Qed.

Lemma append_classic_fields (c : circuit G) r :
  sitemap (append_classic c r) = sitemap c /\ inverse_sitemap (append_classic c r) = inverse_sitemap c /\
  num_qudits (append_classic c r) = num_qudits c /\ dimensions (append_classic c r) = dimensions c /\
  quantum_registers (append_classic c r) = quantum_registers c /\
  number_gates (append_classic c r) = number_gates c /\ instructions (append_classic c r) = instructions c.
Proof.
  unfold append_classic.
  destruct (append_classic_loop _ _ _ _ _ _ _) as [[local sm] inv]. cbn. repeat split.
Qed.
Lemma append_fields (c : circuit G) q :
  number_gates (fst (append c q)) = number_gates c /\ instructions (fst (append c q)) = instructions c.
Proof.
  unfold append. destruct (append_loop _ _ _ _ _ _ _ _) as [[[local sm] inv] e]. cbn. split; reflexivity.
Qed.

Lemma run_reg_inv ops : forall (c : circuit G) ds,
  reg_inv c ds -> legal_appends ds ops -> reg_inv (run c ops) (declared ds ops).
Proof.
  induction ops as [|o ops IH]; intros c ds Hc Hleg; cbn; [exact Hc|].
  destruct o as [q|r|out|i s|s|m|]; cbn in Hleg.
  - destruct Hleg as (H1 & H2 & H3 & H4). apply IH; [|exact H4].
    apply append_inv; assumption.
  - apply IH; [|exact Hleg]. destruct (append_classic_fields c r) as (E1 & E2 & E3 & E4 & E5 & _).
    eapply reg_inv_transfer; eassumption.
  - apply IH; [|exact Hleg]. destruct out as [g|e]; cbn; [|exact Hc].
    eapply reg_inv_transfer; [exact Hc|reflexivity..].
  - apply IH; [|exact Hleg]. eapply reg_inv_transfer; [exact Hc|reflexivity..].
  - apply IH; [|exact Hleg]. eapply reg_inv_transfer; [exact Hc|reflexivity..].
  - apply IH; [|exact Hleg]. eapply reg_inv_transfer; [exact Hc|reflexivity..].
  - apply IH; [apply reg_inv_reset|exact Hleg].
Qed.

(** *** Consequences *)
Lemma reg_inv_lookup c ds label i n d :
  reg_inv c ds -> lookup (sitemap c) label i = Some (n, d) <-> addressed ds label i n d.
Proof.
  intros Hc. unfold lookup. rewrite (ri_sitemap _ _ Hc), <- layout_addressed. split.
  - apply (dget_In key_eqb key_eqb_spec).
  - apply (dget_complete key_eqb key_eqb_spec). apply layout_NoDup. apply (ri_nodup _ _ Hc).
Qed.
Lemma reg_inv_lookup_inv c ds label i n :
  reg_inv c ds -> lookup_inv (inverse_sitemap c) n = Some (label, i) <-> exists d, addressed ds label i n d.
Proof.
  intros Hc. unfold lookup_inv. rewrite (ri_inverse _ _ Hc). split.
  - intros H. apply (dget_In Nat.eqb nat_eqb_spec') in H. unfold flip in H.
    apply in_map_iff in H. destruct H as ([k [n' d]] & E & H). cbn in E. injection E as -> ->.
    exists d. apply layout_addressed. exact H.
  - intros (d & H). apply layout_addressed in H.
    apply (dget_complete Nat.eqb nat_eqb_spec'); [apply flip_layout_NoDup|].
    unfold flip. apply in_map_iff. exists ((label, i), (n, d)). split; [reflexivity|exact H].
Qed.
Lemma reg_inv_total c ds n :
  reg_inv c ds -> n < num_qudits c <-> exists label i d, addressed ds label i n d.
Proof.
  intros Hc. rewrite (ri_num _ _ Hc). split.
  - intros H. assert (Hin : In n (map (fun e => fst (snd e)) (layout 0 ds))).
    { rewrite layout_lines. apply in_seq. lia. }
    apply in_map_iff in Hin. destruct Hin as ([[label i] [n' d]] & <- & Hin).
    exists label, i, d. apply layout_addressed. exact Hin.
  - intros (label & i & d & k & dims & H1 & H2 & ->). eapply line_of_lt; eassumption.
Qed.
Lemma nth_error_concat (ds : list (list nat)) k dims i d :
  nth_error ds k = Some dims -> nth_error dims i = Some d ->
  nth_error (List.concat ds) (List.length (List.concat (firstn k ds)) + i) = Some d.
Proof.
  revert k; induction ds as [|x r IH]; intros k H1 H2; destruct k as [|k]; cbn in *; try discriminate.
  - injection H1 as ->. rewrite nth_error_app1; [exact H2|]. apply nth_error_Some. congruence.
  - rewrite app_length, nth_error_app2 by lia.
    replace (List.length x + List.length (List.concat (firstn k r)) + i - List.length x)
      with (List.length (List.concat (firstn k r)) + i) by lia.
    apply IH; assumption.
Qed.
Lemma reg_inv_dim c ds label i n d :
  reg_inv c ds -> addressed ds label i n d -> nth_error (dimensions c) n = Some d.
Proof.
  intros Hc (k & dims & H1 & H2 & ->). rewrite (ri_dims _ _ Hc). unfold line_of.
  rewrite <- firstn_map. apply nth_error_concat with (dims := dims); [|exact H2].
  rewrite nth_error_map, H1. reflexivity.
Qed.
Lemma reg_inv_getitem c ds k q i :
  reg_inv c ds -> nth_error (quantum_registers c) k = Some q -> i < List.length (q_dims q) ->
  qreg_getitem q i = Ok (line_of ds k i).
Proof.
  intros Hc Hk Hi. unfold qreg_getitem. rewrite (ri_local _ _ Hc k q Hk).
  rewrite (dget_complete Nat.eqb nat_eqb_spec' _ i (line_of ds k i)); [reflexivity| |].
  - unfold dkeys. rewrite map_map. cbn. rewrite map_id. apply seq_NoDup.
  - apply in_map_iff. exists i. split; [reflexivity|]. apply in_seq. lia.
Qed.

(** the addressing relation is a bijection between addresses and lines *)
Lemma addressed_line_inj ds l i l' i' n d d' :
  addressed ds l i n d -> addressed ds l' i' n d' -> l = l' /\ i = i' /\ d = d'.
Proof.
  intros H1 H2. apply layout_addressed in H1, H2.
  assert (Hnd : NoDup (map (fun e => fst (snd e)) (layout 0 ds))) by (rewrite layout_lines; apply seq_NoDup).
  assert (E : ((l, i), (n, d)) = ((l', i'), (n, d'))).
  { revert H1 H2 Hnd. induction (layout 0 ds) as [|x r IH]; cbn; [intros []|].
    intros [->|H1] [H2|H2] Hnd; inversion Hnd as [|? ? Hni Hnd']; subst.
    - exact H2.
    - exfalso. apply Hni. apply in_map_iff. eexists; split; [|exact H2]. reflexivity.
    - exfalso. apply Hni. cbn. apply in_map_iff. eexists; split; [|exact H1]. reflexivity.
    - apply IH; assumption. }
  injection E as -> -> ->. auto.
Qed.
Lemma addressed_addr_inj ds l i n n' d d' :
  NoDup (map fst ds) -> addressed ds l i n d -> addressed ds l i n' d' -> n = n' /\ d = d'.
Proof.
  intros Hnd H1 H2. apply layout_addressed in H1, H2.
  apply (dget_complete key_eqb key_eqb_spec) in H1, H2; try (apply layout_NoDup; exact Hnd).
  rewrite H1 in H2. injection H2 as -> ->. auto.
Qed.

(** *** C02 *)
Lemma replace_in_range (l : list G) i s :
  index_ok (List.length l) i ->
  pyslice_assign l i (i + 1) s = program_step l (OpReplace i s) /\
  Z.of_nat (List.length (pyslice_assign l i (i + 1) s)) =
    (Z.of_nat (List.length l) - 1 + Z.of_nat (List.length s))%Z.
Proof.
  intros H. unfold index_ok in H. unfold pyslice_assign, program_step, slice_pos.
  set (k := Z.to_nat (if (i <? 0)%Z then (i + Z.of_nat (List.length l))%Z else i)).
  assert (Ha : Z.to_nat (Z.min (Z.of_nat (List.length l)) (Z.max 0 (if (i <? 0)%Z then (i + Z.of_nat (List.length l))%Z else i))) = k).
  { unfold k. destruct (Z.ltb_spec i 0); f_equal; lia. }
  assert (Hb : Z.to_nat (Z.min (Z.of_nat (List.length l)) (Z.max 0 (if (i + 1 <? 0)%Z then (i + 1 + Z.of_nat (List.length l))%Z else (i + 1)%Z))) = S k).
  { unfold k. destruct (Z.ltb_spec i 0); destruct (Z.ltb_spec (i + 1) 0); try lia. }
  rewrite Ha, Hb. replace (Nat.max k (S k)) with (S k) by lia. split; [reflexivity|].
  assert (k < List.length l) by (unfold k; destruct (Z.ltb_spec i 0); lia).
  rewrite !app_length, firstn_length, skipn_length. lia.
Qed.

Lemma run_program ops : forall (c : circuit G),
  number_gates c = Z.of_nat (List.length (instructions c)) ->
  replaces_ok (instructions c) ops ->
  instructions (run c ops) = program (instructions c) ops /\
  number_gates (run c ops) = Z.of_nat (List.length (instructions (run c ops))).
Proof.
  induction ops as [|o ops IH]; intros c Hc Hok; cbn; [auto|].
  cbn in Hok. destruct Hok as [Ho Hrest].
  assert (Hstep : instructions (fst (step c o)) = program_step (instructions c) o /\
                  number_gates (fst (step c o)) = Z.of_nat (List.length (instructions (fst (step c o))))).
  { destruct o as [q|r|out|i s|s|m|]; cbn [step].
    - destruct (append_fields c q) as [E1 E2]. rewrite E1, E2. split; [reflexivity|exact Hc].
    - destruct (append_classic_fields c r) as (_ & _ & _ & _ & _ & E1 & E2). cbn [fst]. rewrite E1, E2.
      split; [reflexivity|exact Hc].
    - destruct out as [g|e]; cbn.
      + split; [reflexivity|]. rewrite app_length, Hc. cbn. lia.
      + split; [reflexivity|exact Hc].
    - cbn [fst replace_gate with_instructions instructions number_gates].
      destruct (replace_in_range (instructions c) i s Ho) as [E1 E2]. split; [exact E1|].
      rewrite E2, Hc. reflexivity.
    - cbn. split; reflexivity.
    - cbn. split; [reflexivity|exact Hc].
    - cbn. split; reflexivity. }
  destruct Hstep as [E1 E2].
  specialize (IH (fst (step c o)) E2). rewrite E1 in IH. apply IH. exact Hrest.
Qed.

Lemma replace_consistent_iff (c : circuit G) i s :
  number_gates c = Z.of_nat (List.length (instructions c)) ->
  (number_gates (replace_gate c i s) = Z.of_nat (List.length (instructions (replace_gate c i s)))
   <-> index_ok (List.length (instructions c)) i).
Proof.
  intros Hc. cbn. rewrite Hc. set (l := instructions c). split.
  - unfold index_ok, pyslice_assign, slice_pos. rewrite !app_length, firstn_length, skipn_length.
    destruct (Z.ltb_spec i 0); destruct (Z.ltb_spec (i + 1) 0); lia.
  - intros H. destruct (replace_in_range l i s H) as [_ E]. rewrite E. reflexivity.
Qed.

Lemma rejected_unchanged (c : circuit G) e : step c (OpAdd (Err e)) = (c, Some e).
Proof. reflexivity. Qed.

(** *** C03 *)
Lemma reset_fresh_upto_mappings (c : circuit G) :
  set_mapping (reset c) [] = set_mapping empty_circuit [].
Proof. reflexivity. Qed.
Lemma reset_mappings (c : circuit G) : mappings (reset c) = mappings c.
Proof. reflexivity. Qed.
Lemma reset_fresh_iff (c : circuit G) : reset c = empty_circuit <-> mappings c = None.
Proof.
  split.
  - intros H. apply (f_equal mappings) in H. exact H.
  - intros H. unfold reset, empty_circuit. rewrite H. reflexivity.
Qed.

Lemma run_no_mapping ops : forall (c : circuit G),
  mappings c = None -> (forall m, ~ In (OpSetMapping m) ops) -> mappings (run c ops) = None.
Proof.
  induction ops as [|o ops IH]; intros c Hc Hno; cbn; [exact Hc|].
  apply IH.
  - destruct o as [q|r|out|i s|s|m|]; cbn [step]; try exact Hc.
    + unfold append. destruct (append_loop _ _ _ _ _ _ _ _) as [[[local sm] inv] e]. exact Hc.
    + cbn [fst]. unfold append_classic. destruct (append_classic_loop _ _ _ _ _ _ _) as [[local sm] inv]. exact Hc.
    + destruct out; exact Hc.
    + exfalso. apply (Hno m). left. reflexivity.
  - intros m Hm. apply (Hno m). right. exact Hm.
Qed.
End Inv.

(** *** forms used in CircuitProps *)
Lemma C01_inverse_lemma :
  forall (G : Type) (ops : list (op G)), legal_appends [] ops ->
  forall label i n,
    lookup_inv (inverse_sitemap (run empty_circuit ops)) n = Some (label, i) <->
    exists d, lookup (sitemap (run empty_circuit ops)) label i = Some (n, d).
Proof.
  intros G ops H label i n. pose proof (run_reg_inv ops _ _ reg_inv_empty H) as Hi.
  rewrite (reg_inv_lookup_inv _ _ _ _ _ Hi).
  split; intros (d & Hd); exists d; apply (reg_inv_lookup _ _ _ _ _ _ Hi); exact Hd.
Qed.
Lemma C01_total_lemma :
  forall (G : Type) (ops : list (op G)), legal_appends [] ops ->
  forall n, n < num_qudits (run empty_circuit ops) <->
    exists label i d, lookup (sitemap (run empty_circuit ops)) label i = Some (n, d).
Proof.
  intros G ops H n. pose proof (run_reg_inv ops _ _ reg_inv_empty H) as Hi.
  rewrite (reg_inv_total _ _ _ Hi).
  split; intros (l & i & d & Hd); exists l, i, d; apply (reg_inv_lookup _ _ _ _ _ _ Hi); exact Hd.
Qed.
Lemma C01_inj_lemma :
  forall (G : Type) (ops : list (op G)), legal_appends [] ops ->
  forall l i l' i' n d d',
    lookup (sitemap (run empty_circuit ops)) l i = Some (n, d) ->
    lookup (sitemap (run empty_circuit ops)) l' i' = Some (n, d') ->
    l = l' /\ i = i' /\ d = d'.
Proof.
  intros G ops H l i l' i' n d d' H1 H2. pose proof (run_reg_inv ops _ _ reg_inv_empty H) as Hi.
  apply (reg_inv_lookup _ _ _ _ _ _ Hi) in H1, H2. eapply addressed_line_inj; eassumption.
Qed.
Lemma C01_dims_lemma :
  forall (G : Type) (ops : list (op G)), legal_appends [] ops ->
  List.length (dimensions (run empty_circuit ops)) = num_qudits (run empty_circuit ops) /\
  (forall label i n d,
    lookup (sitemap (run empty_circuit ops)) label i = Some (n, d) ->
    nth_error (dimensions (run empty_circuit ops)) n = Some d).
Proof.
  intros G ops H. pose proof (run_reg_inv ops _ _ reg_inv_empty H) as Hi. split.
  - rewrite (ri_dims _ _ Hi), (ri_num _ _ Hi). reflexivity.
  - intros label i n d Hl. apply (reg_inv_lookup _ _ _ _ _ _ Hi) in Hl.
    eapply reg_inv_dim; eassumption.
Qed.
Lemma C01_getitem_lemma :
  forall (G : Type) (ops : list (op G)), legal_appends [] ops ->
  forall q i, In q (quantum_registers (run empty_circuit ops)) -> i < List.length (q_dims q) ->
  exists n d, qreg_getitem q i = Ok n /\
              lookup (sitemap (run empty_circuit ops)) (q_label q) i = Some (n, d).
Proof.
  intros G ops H q i Hq Hlt. pose proof (run_reg_inv ops _ _ reg_inv_empty H) as Hi.
  apply In_nth_error in Hq. destruct Hq as (k & Hk).
  destruct (nth_error (q_dims q) i) as [d|] eqn:Ed; [|apply nth_error_None in Ed; lia].
  exists (line_of (declared [] ops) k i), d. split.
  - apply (reg_inv_getitem _ _ _ _ _ Hi Hk Hlt).
  - apply (reg_inv_lookup _ _ _ _ _ _ Hi). exists k, (q_dims q). repeat split; [|exact Ed].
    rewrite <- (ri_regs _ _ Hi) at 1. rewrite nth_error_map, Hk. reflexivity.
Qed.
Lemma C01_duplicate_witness :
  exists ops : list (op nat),
    num_qudits (run empty_circuit ops) = 2 /\
    (forall label i n d, lookup (sitemap (run empty_circuit ops)) label i = Some (n, d) -> n = 1) /\
    lookup_inv (inverse_sitemap (run empty_circuit ops)) 0 = Some ("q"%string, 0).
Proof.
  exists [OpAppend (new_qreg "q" 1 None); OpAppend (new_qreg "q" 1 None)].
  repeat split. intros label i n d H. apply (dget_In key_eqb key_eqb_spec) in H.
  vm_compute in H. destruct H as [H|[]]. congruence.
Qed.
Lemma C01_mismatch_witness :
  (exists ops : list (op nat),
     List.length (dimensions (run empty_circuit ops)) <> num_qudits (run empty_circuit ops)) /\
  (exists q : qreg, snd (append (empty_circuit (G:=nat)) q) = Some IndexError /\
     num_qudits (fst (append (empty_circuit (G:=nat)) q)) <> List.length (sitemap (fst (append (empty_circuit (G:=nat)) q)))).
Proof.
  split.
  - exists [OpAppend (new_qreg "q" 1 (Some [2;3]))]. vm_compute. discriminate.
  - exists (new_qreg "q" 2 (Some [3])). split; [reflexivity|]. vm_compute. discriminate.
Qed.
Lemma C02_witness :
  exists ops : list (op nat),
    number_gates (run empty_circuit ops) <> Z.of_nat (List.length (instructions (run empty_circuit ops))) /\
    instructions (run empty_circuit ops) = [1; 2; 3].
Proof.
  exists [OpAdd (Ok 1); OpAdd (Ok 3); OpReplace (-1) [2]]. split; [vm_compute; discriminate|reflexivity].
Qed.
Lemma run_app {G} (c : circuit G) a b : run c (a ++ b) = run (run c a) b.
Proof. unfold run. apply fold_left_app. Qed.
Lemma C03_lemma :
  forall (G : Type) (ops : list (op G)),
    run empty_circuit (ops ++ [OpReset]) = empty_circuit <-> mappings (run empty_circuit ops) = None.
Proof. intros G ops. rewrite run_app. apply reset_fresh_iff. Qed.
Lemma C03_fresh_start_lemma :
  forall (G : Type) (ops later : list (op G)), (forall m, ~ In (OpSetMapping m) ops) ->
    run empty_circuit (ops ++ OpReset :: later) = run empty_circuit later.
Proof.
  intros G ops later H. rewrite run_app. cbn.
  replace (reset (run empty_circuit ops)) with (empty_circuit (G:=G)); [reflexivity|].
  symmetry. apply reset_fresh_iff. apply run_no_mapping; [reflexivity|exact H].
Qed.
Lemma C03_except_mapping_lemma :
  forall (G : Type) (ops : list (op G)) m,
    run empty_circuit (ops ++ [OpReset; OpSetMapping m]) = run empty_circuit [OpSetMapping m].
Proof. intros G ops m. rewrite run_app. reflexivity. Qed.
Lemma C03_witness : exists ops : list (op nat), run empty_circuit (ops ++ [OpReset]) <> empty_circuit.
Proof. exists [OpSetMapping [[0]]]. intros H. apply (f_equal mappings) in H. discriminate. Qed.
