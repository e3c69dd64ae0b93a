(** Registers: from the site map back to register objects, and the whole text in lines. *)
From Coq Require Import Reals.
From Verif Require Import Base.Py Base.PyFacts Base.Text Base.TextFacts Base.Regex Base.RegexFacts.
From Verif Require Import Circuit.CircuitModel Circuit.CircuitSpec Circuit.CircuitProofs Circuit.GateModel Gates.SingleModel.
From Verif Require Import Qasm.QasmModel Qasm.QasmSpec Qasm.LineProofs Qasm.CtlProofs.
Local Open Scope nat_scope.

(** the register objects of a circuit with the declarations [ds], the first line being [n] *)
Definition locals (n : nat) (len : nat) : list (nat * nat) := map (fun j => (j, n + j)) (seq 0 len).
Fixpoint regs_of (n : nat) (ds : decls) : list qreg :=
  match ds with
  | [] => []
  | (l, dims) :: r => QReg l (List.length dims) dims (locals n (List.length dims)) :: regs_of (n + List.length dims) r
  end.
Lemma total_cons l dims r : total_lines ((l, dims) :: r) = List.length dims + total_lines r.
Proof. unfold total_lines. cbn. apply app_length. Qed.
Lemma regs_of_snoc n ds l dims :
  regs_of n (ds ++ [(l, dims)]) = regs_of n ds ++ [QReg l (List.length dims) dims (locals (n + total_lines ds) (List.length dims))].
Proof.
  revert n; induction ds as [|[l' dims'] r IH]; intros n; cbn [regs_of app].
  - unfold total_lines. cbn. now rewrite Nat.add_0_r.
  - rewrite IH, total_cons. now rewrite Nat.add_assoc.
Qed.

Section Regs.
Context {G : Type}.

(** the loop over a local map that is empty or already right *)
Lemma append_loop_local label dims stored n : forall i local local' sm inv,
  append_loop label dims stored i n local sm inv =
  (let '((l, s, v), e) := append_loop label dims stored i n local' sm inv in ((fst (fst (fst (append_loop label dims stored i n local sm inv))), s, v), e)).
Proof.
  induction n as [|n IH]; intros i local local' sm inv; cbn [append_loop]; [reflexivity|].
  destruct (nth_error dims i); [|reflexivity]. apply IH.
Qed.
Lemma dset_same (l : list (nat * nat)) : forall k v, NoDup (map fst l) -> In (k, v) l -> dset Nat.eqb l k v = l.
Proof.
  induction l as [|(k', v') l IH]; intros k v Hnd Hin; [destruct Hin|]. cbn [dset map fst] in *. apply NoDup_cons_iff in Hnd as (Hni & Hnd).
  destruct Hin as [E|Hin].
  - injection E as -> ->. now rewrite Nat.eqb_refl.
  - destruct (Nat.eqb_spec k k') as [->|].
    + exfalso. apply Hni. apply (in_map fst) in Hin. exact Hin.
    + now rewrite IH.
Qed.
Lemma append_loop_kept label dims stored n : forall i local sm inv, NoDup (map fst local) ->
  (forall j, i <= j < i + n -> In (j, stored + j) local) ->
  fst (fst (fst (append_loop label dims stored i n local sm inv))) = local.
Proof.
  induction n as [|n IH]; intros i local sm inv Hnd H; cbn [append_loop]; [reflexivity|].
  rewrite dset_same; [|exact Hnd|apply H; lia]. destruct (nth_error dims i); [|reflexivity].
  apply IH; [exact Hnd|]. intros j Hj. apply H. lia.
Qed.

Record reg_state (c : circuit G) (ds : decls) : Prop := {
  rs_inv : reg_inv c ds;
  rs_regs : quantum_registers c = regs_of 0 ds
}.
Lemma locals_nodup n len : NoDup (map fst (locals n len)).
Proof. unfold locals. rewrite map_map. cbn. rewrite map_id. apply seq_NoDup. Qed.

Lemma append_state c ds q : reg_state c ds -> ~ In (q_label q) (map fst ds) -> List.length (q_dims q) = q_size q ->
  (q_local q = [] \/ q_local q = locals (total_lines ds) (q_size q)) ->
  reg_state (fst (append c q)) (ds ++ [(q_label q, q_dims q)]) /\ snd (append c q) = None.
Proof.
  intros [Hinv Hregs] Hfresh Hlen Hloc.
  set (q0 := QReg (q_label q) (q_size q) (q_dims q) []).
  destruct (append_inv c ds q0 Hinv Hfresh Hlen eq_refl) as (H0 & He0).
  assert (Es : List.length (sitemap c) = total_lines ds) by (rewrite (ri_sitemap _ _ Hinv); apply layout_length).
  assert (Hspec : append_loop (q_label q) (q_dims q) (total_lines ds) 0 (q_size q) [] (sitemap c) (inverse_sitemap c) =
    ((locals (total_lines ds) (q_size q), sitemap c ++ lay1 (q_label q) (total_lines ds) 0 (q_dims q), inverse_sitemap c ++ flip (lay1 (q_label q) (total_lines ds) 0 (q_dims q))), None)).
  { rewrite append_loop_spec; [reflexivity|lia|lia| | |].
    - intros j Hj. rewrite (ri_sitemap _ _ Hinv) in Hj. apply layout_key_label in Hj. contradiction.
    - intros j Hj. rewrite (ri_inverse _ _ Hinv), flip_keys, layout_lines in Hj. apply in_seq in Hj. lia.
    - intros j []. }
  assert (E : append c q = append c q0).
  { unfold append, q0. cbn [q_label q_size q_dims q_local]. rewrite Es.
    rewrite (append_loop_local _ _ _ _ 0 (q_local q) []). rewrite Hspec. cbn [fst snd].
    assert (El : fst (fst (fst (append_loop (q_label q) (q_dims q) (total_lines ds) 0 (q_size q) (q_local q) (sitemap c) (inverse_sitemap c)))) = locals (total_lines ds) (q_size q)).
    { destruct Hloc as [El|El]; rewrite El.
      - now rewrite Hspec.
      - apply append_loop_kept; [apply locals_nodup|]. intros j Hj. unfold locals. apply in_map_iff. exists j. split; [reflexivity|apply in_seq; lia]. }
    now rewrite El. }
  rewrite E. split; [|exact He0]. split; [exact H0|].
  rewrite regs_of_snoc. unfold append, q0. cbn [q_label q_size q_dims q_local]. rewrite Es, Hspec. cbn [fst quantum_registers].
  rewrite Hregs, Hlen. reflexivity.
Qed.

Lemma state_transfer (c c' : circuit G) ds : reg_state c ds -> 
  sitemap c' = sitemap c -> inverse_sitemap c' = inverse_sitemap c -> num_qudits c' = num_qudits c ->
  dimensions c' = dimensions c -> quantum_registers c' = quantum_registers c -> reg_state c' ds.
Proof. intros [H1 H2] E1 E2 E3 E4 E5. split; [now apply (reg_inv_transfer c)|]. now rewrite E5. Qed.
Lemma state_empty : reg_state (empty_circuit (G:=G)) [].
Proof. split; [apply reg_inv_empty|reflexivity]. Qed.
Lemma state_reset c : reg_state (reset (G:=G) c) [].
Proof. split; [apply reg_inv_reset|reflexivity]. Qed.
Lemma run_state ops : forall (c : circuit G) ds, reg_state c ds -> legal_appends ds ops -> reg_state (run c ops) (declared ds ops).
Proof.
  induction ops as [|o ops IH]; intros c ds Hc Hleg; [exact Hc|]. change (run c (o :: ops)) with (run (fst (step c o)) ops).
  destruct o as [q|r|out|i s|s|m|]; cbn [declared legal_appends step fst] in *; try (apply IH; [|exact Hleg]).
  - destruct Hleg as (Hf & Hl & Hq & Hleg). apply IH; [|exact Hleg]. apply append_state; auto.
  - destruct (append_classic_fields c r) as (E1 & E2 & E3 & E4 & E5 & _). now apply (state_transfer c).
  - destruct out; [|exact Hc]. now apply (state_transfer c).
  - now apply (state_transfer c).
  - now apply (state_transfer c).
  - now apply (state_transfer c).
  - apply state_reset.
Qed.

(** appending the registers of [ds] again *)
Lemma append_all_regs ds : forall ds0 (c : circuit G), reg_state c ds0 -> NoDup (map fst (ds0 ++ ds)) ->
  exists c', append_all c (regs_of (total_lines ds0) ds) = (c', None) /\ reg_state c' (ds0 ++ ds) /\
    instructions c' = instructions c /\ number_gates c' = number_gates c.
Proof.
  induction ds as [|(l, dims) ds IH]; intros ds0 c Hc Hnd.
  - exists c. rewrite app_nil_r. repeat split; try reflexivity; apply Hc.
  - cbn [regs_of append_all]. set (q := QReg l (List.length dims) dims _).
    destruct (append_state c ds0 q Hc) as (Hs & He).
    + intros Hi. rewrite map_app in Hnd. cbn [map fst] in Hnd. apply NoDup_remove_2 in Hnd. apply Hnd, in_or_app. now left.
    + reflexivity.
    + now right.
    + pose proof (append_fields c q) as (F1 & F2). destruct (append c q) as [c1 e] eqn:E. cbn [fst snd] in Hs, He, F1, F2. subst e.
      destruct (IH (ds0 ++ [(l, dims)]) c1 Hs) as (c' & E' & Hs' & Hi & Hn).
      * rewrite <- app_assoc. exact Hnd.
      * exists c'. assert (Et : total_lines (ds0 ++ [(l, dims)]) = total_lines ds0 + List.length dims).
        { unfold total_lines. rewrite map_app, concat_app, app_length. cbn. now rewrite app_nil_r. }
        rewrite Et in E'. rewrite <- app_assoc in Hs'. cbn [app] in Hs'. split; [exact E'|]. split; [exact Hs'|]. split; congruence.
Qed.
End Regs.

(** ** register objects from the site map *)
Lemma dget_last (acc : list (string * (list (nat * nat) * list nat))) l v : ~ In l (map fst acc) ->
  dget String.eqb (acc ++ [(l, v)]) l = Some v.
Proof.
  induction acc as [|(k, w) acc IH]; intros H; cbn [dget app].
  - now rewrite String.eqb_refl.
  - destruct (String.eqb_spec l k) as [->|]; [exfalso; apply H; now left|]. apply IH. intros Hi. apply H. now right.
Qed.
Lemma dset_last (acc : list (string * (list (nat * nat) * list nat))) l v v' : ~ In l (map fst acc) ->
  dset String.eqb (acc ++ [(l, v)]) l v' = acc ++ [(l, v')].
Proof.
  induction acc as [|(k, w) acc IH]; intros H; cbn [dset app].
  - now rewrite String.eqb_refl.
  - destruct (String.eqb_spec l k) as [->|]; [exfalso; apply H; now left|]. rewrite IH; [reflexivity|]. intros Hi. apply H. now right.
Qed.
Lemma reg_groups_more label n dims : forall i mp ds acc rest, ~ In label (map fst acc) -> (forall j, In j (map fst mp) -> j < i) ->
  reg_groups (lay1 label n i dims ++ rest) (acc ++ [(label, (mp, ds))]) =
  reg_groups rest (acc ++ [(label, (mp ++ map (fun j => (j, n + j)) (seq i (List.length dims)), ds ++ dims))]).
Proof.
  induction dims as [|d dims IH]; intros i mp ds acc rest Hacc Hmp; cbn [lay1 app List.length seq map].
  - now rewrite !app_nil_r.
  - cbn [reg_groups]. rewrite dget_last by exact Hacc. rewrite dset_last by exact Hacc.
    rewrite dset_fresh; [|intros a b; apply Nat.eqb_eq|intros Hi; apply Hmp in Hi; lia].
    rewrite IH; [rewrite <- !app_assoc; reflexivity|exact Hacc|].
    intros j Hj. rewrite map_app in Hj. apply in_app_or in Hj as [Hj|[<-|[]]]; [apply Hmp in Hj; lia|cbn; lia].
Qed.
Lemma dget_None_string {V} (acc : list (string * V)) l : ~ In l (map fst acc) -> dget String.eqb acc l = None.
Proof.
  induction acc as [|(k, w) acc IH]; intros H; cbn [dget]; [reflexivity|].
  destruct (String.eqb_spec l k) as [->|]; [exfalso; apply H; now left|]. apply IH. intros Hi. apply H. now right.
Qed.
Fixpoint groups_of (n : nat) (ds : decls) : list (string * (list (nat * nat) * list nat)) :=
  match ds with
  | [] => []
  | (l, dims) :: r => (l, (locals n (List.length dims), dims)) :: groups_of (n + List.length dims) r
  end.
Lemma reg_groups_layout ds : forall n acc, NoDup (map fst acc ++ map fst ds) -> (forall l dims, In (l, dims) ds -> dims <> []) ->
  reg_groups (layout n ds) acc = acc ++ groups_of n ds.
Proof.
  induction ds as [|(l, dims) ds IH]; intros n acc Hnd Hne; cbn [layout groups_of].
  - cbn. now rewrite app_nil_r.
  - cbn [map fst] in Hnd. pose proof (NoDup_remove_2 _ _ _ Hnd) as Hl.
    assert (Hacc : ~ In l (map fst acc)) by (intros Hi; apply Hl, in_or_app; now left).
    destruct dims as [|d dims]; [exfalso; apply (Hne l [] ltac:(now left)); reflexivity|].
    cbn [lay1 app reg_groups]. rewrite (dget_None_string acc l Hacc).
    rewrite dset_fresh; [|intros a b; apply String.eqb_eq|exact Hacc].
    rewrite reg_groups_more; [|exact Hacc|intros j [<-|[]]; cbn; lia].
    rewrite IH.
    + rewrite <- app_assoc. reflexivity.
    + rewrite map_app. cbn [map fst]. rewrite <- app_assoc. exact Hnd.
    + intros l' dims' Hi. apply (Hne l'). now right.
Qed.
Lemma regs_of_groups ds : forall n, map (fun x => QReg (fst x) (List.length (fst (snd x))) (snd (snd x)) (fst (snd x))) (groups_of n ds) = regs_of n ds.
Proof.
  induction ds as [|(l, dims) ds IH]; intros n; [reflexivity|]. cbn [groups_of map regs_of fst snd]. rewrite IH.
  unfold locals at 1. now rewrite map_length, seq_length.
Qed.
Lemma qregs_layout ds : NoDup (map fst ds) -> regs_ok ds -> qregs_from_map (layout 0 ds) = regs_of 0 ds.
Proof.
  intros Hnd Hok. unfold qregs_from_map. rewrite reg_groups_layout; [apply regs_of_groups|exact Hnd|].
  intros l dims Hi. apply (Hok l dims Hi).
Qed.

(** ** addresses *)
Definition addr (ds : decls) (n : nat) : string * nat := nth n (map fst (layout 0 ds)) (""%string, 0).
Definition dim_at (ds : decls) (n : nat) : nat := nth n (List.concat (map snd ds)) 0.
Lemma addr_addressed ds n : n < total_lines ds -> exists d, addressed ds (fst (addr ds n)) (snd (addr ds n)) n d.
Proof.
  intros H. set (e := nth n (layout 0 ds) ((""%string, 0), (0, 0))).
  assert (He : In e (layout 0 ds)) by (apply nth_In; now rewrite layout_length).
  assert (Ea : addr ds n = fst e) by (unfold addr, e; change (""%string, 0) with (fst ((""%string, 0), (0, 0))) at 1; apply map_nth).
  assert (El : fst (snd e) = n).
  { pose proof (map_nth (fun x : string * nat * (nat * nat) => fst (snd x)) (layout 0 ds) ((""%string, 0), (0, 0)) n) as Em.
    fold e in Em. rewrite <- Em, layout_lines. now rewrite seq_nth. }
  exists (snd (snd e)). apply layout_addressed. rewrite Ea. destruct e as [(l, i) (k, d)]. cbn [fst snd] in *. subst k. exact He.
Qed.

Section Addr.
Context {G : Type}.
Variables (c : circuit G) (ds : decls).
Hypothesis Hinv : reg_inv c ds.

Lemma dims_total : List.length (dimensions c) = total_lines ds.
Proof. rewrite (ri_dims _ _ Hinv). reflexivity. Qed.
Lemma site_addr t : (0 <= t < Z.of_nat (num_qudits c))%Z -> site c t = Ok (dit (addr ds (Z.to_nat t))).
Proof.
  intros H. unfold site. destruct (Z.ltb_spec t 0); [lia|].
  rewrite (ri_num _ _ Hinv) in H. destruct (addr_addressed ds (Z.to_nat t) ltac:(lia)) as (d & Hd).
  assert (El : lookup_inv (inverse_sitemap c) (Z.to_nat t) = Some (addr ds (Z.to_nat t))).
  { rewrite (surjective_pairing (addr ds (Z.to_nat t))). apply (reg_inv_lookup_inv c ds _ _ _ Hinv). exists d. exact Hd. }
  unfold lookup_inv in El. rewrite El. destruct (addr ds (Z.to_nat t)) as [l i]. reflexivity.
Qed.
Lemma dim_lookup n : n < total_lines ds -> nth_error (dimensions c) n = Some (dim_at ds n).
Proof.
  intros H. rewrite (ri_dims _ _ Hinv). unfold dim_at. apply nth_error_nth'. exact H.
Qed.
Lemma lookup_addr n : n < total_lines ds -> QasmModel.lookup (layout 0 ds) (fst (addr ds n)) (snd (addr ds n)) = Ok (n, dim_at ds n).
Proof.
  intros H. destruct (addr_addressed ds n H) as (d & Hd). unfold QasmModel.lookup.
  pose proof Hd as Hl. rewrite <- (reg_inv_lookup c ds _ _ _ _ Hinv) in Hl. unfold CircuitSpec.lookup in Hl. rewrite (ri_sitemap _ _ Hinv) in Hl. rewrite Hl.
  apply (reg_inv_dim c ds _ _ _ _ Hinv) in Hd. rewrite (dim_lookup n H) in Hd. injection Hd as ->. reflexivity.
Qed.
Lemma addr_word n : regs_ok ds -> n < total_lines ds -> word (tx (fst (addr ds n))).
Proof.
  intros Hok H. destruct (addr_addressed ds n H) as (d & (k & dims & Hk & _)). apply nth_error_In in Hk. apply (Hok _ _ Hk).
Qed.
Lemma lookups_addr l : (forall n, In n l -> n < total_lines ds) -> lookups (layout 0 ds) (map (addr ds) l) = Ok (map (fun n => (n, dim_at ds n)) l).
Proof.
  induction l as [|n l IH]; intros H; [reflexivity|]. cbn [map lookups]. rewrite lookup_addr by (apply H; now left). cbn [bindr].
  rewrite IH by (intros k Hk; apply H; now right). reflexivity.
Qed.
End Addr.

(** ** parsing the register lines *)
Lemma qreg_loop_lay1 name dims : forall i sm stored, List.length sm = stored + i -> (forall j, ~ In (name, i + j) (map fst sm)) ->
  qreg_loop name dims i (List.length dims - i) sm = Ok (sm ++ lay1 name stored i (skipn i dims)).
Proof.
  intros i sm stored. remember (List.length dims - i) as n eqn:Hn. revert i sm Hn.
  induction n as [|n IH]; intros i sm Hn Hl Hf; cbn [qreg_loop].
  - rewrite skipn_all2 by lia. cbn. now rewrite app_nil_r.
  - destruct (nth_error dims i) as [d|] eqn:E; [|apply nth_error_None in E; lia].
    rewrite dset_fresh; [|apply key_eqb_spec|specialize (Hf 0); now rewrite Nat.add_0_r in Hf].
    rewrite IH; [|lia| |].
    + apply nth_error_split in E. destruct E as (l1 & l2 & -> & <-).
      replace (skipn (S (List.length l1)) (l1 ++ d :: l2)) with l2.
      2:{ rewrite skipn_app. rewrite skipn_all2 by lia. replace (S (List.length l1) - List.length l1) with 1 by lia. reflexivity. }
      rewrite skipn_app, skipn_all, Nat.sub_diag. cbn [skipn app lay1]. rewrite <- app_assoc. cbn [app]. rewrite Hl. reflexivity.
    + rewrite app_length. cbn [List.length]. lia.
    + intros j Hj. rewrite map_app in Hj. apply in_app_or in Hj as [Hj|[Hj|[]]].
      * apply (Hf (S j)). replace (i + S j) with (S i + j) by lia. exact Hj.
      * cbn in Hj. injection Hj as Hj. lia.
Qed.

Lemma strip_line t a : starts_not is_space t -> is_space a = false -> strip is_space (t ++ [a]) = t ++ [a].
Proof.
  intros H Ha. apply strip_id.
  - destruct t; [exact Ha|exact H].
  - rewrite rev_app_distr. exact Ha.
Qed.

Section Lines.
Context {Arr : Type}.
Variable eval : text -> res (option R).
Variable load : text -> res Arr.

Lemma parse_qreg_line (s : @pstate Arr) label dims n local : p_comment s = false -> word (tx label) -> dims <> [] ->
  n = List.length dims -> (forall j, ~ In (label, j) (map fst (p_sitemap s))) ->
  parse_line eval load s (qreg_qasm (QReg label n dims local)) =
  Ok (PState (p_sitemap s ++ lay1 label (List.length (p_sitemap s)) 0 dims) (p_classic s) (p_gates s) false).
Proof.
  intros Hc Hl Hd Hn Hf. destruct dims as [|d ds]; [congruence|].
  assert (E : qreg_qasm (QReg label n (d :: ds) local) = tx "qreg " ++ tx label ++ tx " [" ++ show_nat n ++ tx "]" ++ tx "[" ++ join (tx ",") (map show_nat (d :: ds)) ++ tx "]" ++ tx ";") by reflexivity.
  unfold parse_line.
  assert (Es : strip is_space (qreg_qasm (QReg label n (d :: ds) local)) = qreg_qasm (QReg label n (d :: ds) local)).
  { rewrite E. rewrite !app_assoc. apply strip_line; [|reflexivity]. rewrite <- !app_assoc. reflexivity. }
  rewrite Es. assert (En : nonspecial (qreg_qasm (QReg label n (d :: ds) local)) (p_comment s) = (false, false)) by (rewrite Hc; reflexivity).
  rewrite En. cbn [p_sitemap]. unfold parse_qreg. rewrite E. rewrite match_qreg by exact Hl.
  unfold grp at 1. rewrite !group_cons. cbn [Nat.eqb]. rewrite bracket_int_show. rewrite read_dims.
  unfold grp. rewrite !group_cons. cbn [Nat.eqb]. rewrite st_tx. subst n.
  pose proof (qreg_loop_lay1 label (d :: ds) 0 (p_sitemap s) (List.length (p_sitemap s)) ltac:(lia) ltac:(intros j; apply Hf)) as El.
  rewrite Nat.sub_0_r in El. rewrite El. reflexivity.
Qed.

Lemma parse_qregs ds : forall (s : @pstate Arr) ds0 n, p_comment s = false -> p_sitemap s = layout 0 ds0 -> regs_ok ds -> NoDup (map fst (ds0 ++ ds)) ->
  n = total_lines ds0 ->
  parse_lines eval load s (map qreg_qasm (regs_of n ds)) = Ok (PState (layout 0 (ds0 ++ ds)) (p_classic s) (p_gates s) false).
Proof.
  induction ds as [|(l, dims) ds IH]; intros s ds0 n Hc Hs Hok Hnd Hn; cbn [regs_of map parse_lines].
  - rewrite app_nil_r, <- Hs, <- Hc. now destruct s.
  - destruct (Hok l dims ltac:(now left)) as (Hl & Hd). rewrite parse_qreg_line; [|exact Hc|exact Hl|exact Hd|reflexivity|].
    + cbn [bindr]. rewrite Hs, layout_length. rewrite (IH _ (ds0 ++ [(l, dims)])); cbn [p_comment p_sitemap p_classic p_gates].
      * rewrite <- app_assoc. reflexivity.
      * reflexivity.
      * rewrite layout_snoc. reflexivity.
      * intros l' d' Hi. apply (Hok l' d'). now right.
      * rewrite <- app_assoc. exact Hnd.
      * unfold total_lines in *. rewrite map_app, concat_app, app_length. cbn. rewrite app_nil_r. lia.
    + intros j Hj. rewrite Hs in Hj. apply layout_key_label in Hj. cbn in Hj.
      rewrite map_app in Hnd. cbn [map fst] in Hnd. apply NoDup_remove_2 in Hnd. apply Hnd, in_or_app. now left.
Qed.

Lemma parse_creg_line (s : @pstate Arr) n : p_comment s = false ->
  parse_line eval load s (tx "creg meas[" ++ show_nat n ++ tx "];") =
  Ok (PState (p_sitemap s) (creg_loop "meas" 0 n (p_classic s)) (p_gates s) false).
Proof.
  intros Hc. unfold parse_line.
  assert (Es : strip is_space (tx "creg meas[" ++ show_nat n ++ tx "];") = tx "creg meas[" ++ show_nat n ++ tx "];").
  { change (tx "];") with (tx "]" ++ tx ";"). rewrite !app_assoc. apply strip_line; reflexivity. }
  rewrite Es, Hc. change (nonspecial (tx "creg meas[" ++ show_nat n ++ tx "];") false) with (false, false). cbv iota beta.
  change (parse_qreg (tx "creg meas[" ++ show_nat n ++ tx "];")) with (fun sm : smap => @None (res smap)). cbn [p_sitemap p_classic].
  unfold parse_creg. change (tx "creg meas[" ++ show_nat n ++ tx "];") with (tx "creg " ++ tx "meas" ++ tx "[" ++ show_nat n ++ tx "];").
  rewrite match_creg. 2:{ split; [discriminate|]. intros a Ha. cbn in Ha. decompose [or] Ha; subst; try reflexivity. contradiction. }
  unfold grp. rewrite !group_cons. cbn [Nat.eqb]. rewrite read_show. reflexivity.
Qed.

Lemma parse_measure_line (s : @pstate Arr) t : p_comment s = false ->
  parse_line eval load s (tx "measure " ++ t ++ tx ";") = Ok s.
Proof.
  intros Hc. unfold parse_line.
  assert (Es : strip is_space (tx "measure " ++ t ++ tx ";") = tx "measure " ++ t ++ tx ";").
  { rewrite !app_assoc. apply strip_line; reflexivity. }
  rewrite Es, Hc. change (nonspecial (tx "measure " ++ t ++ tx ";") false) with (false, false). cbv iota beta. destruct s as [a b c d]. cbn in Hc. subst d. reflexivity.
Qed.

(** the measure lines *)
Definition measure_line (label : string) (i k : nat) : text :=
  tx "measure " ++ (tx label ++ tx "[" ++ show_nat i ++ tx "] -> meas[" ++ show_nat k ++ tx "]") ++ tx ";".
Lemma measure_reg_lines label n : forall total k i, k + n <= total ->
  measure_reg label n total k i = Ok (concat (map (fun t => t ++ [nl]) (map (fun j => measure_line label (i + j) (k + j)) (seq 0 n))), k + n).
Proof.
  induction n as [|n IH]; intros total k i H; cbn [measure_reg].
  - cbn. now rewrite Nat.add_0_r.
  - destruct (Nat.ltb_spec k total); [|lia]. rewrite IH by lia. cbn [bindr]. f_equal. f_equal; [|lia].
    assert (Et : map (fun j => measure_line label (S i + j) (S k + j)) (seq 0 n) = map (fun j => measure_line label (i + j) (k + j)) (seq 1 n)).
    { rewrite <- (seq_shift n 0), map_map. apply map_ext. intros j. now rewrite !Nat.add_succ_r. }
    rewrite Et. cbn [seq map concat]. rewrite !Nat.add_0_r. unfold measure_line at 2. change (tx "];") with (tx "]" ++ tx ";").
    rewrite <- !app_assoc. reflexivity.
Qed.
Fixpoint measure_lines (n : nat) (ds : decls) : list text :=
  match ds with
  | [] => []
  | (l, dims) :: r => map (fun j => measure_line l (0 + j) (n + j)) (seq 0 (List.length dims)) ++ measure_lines (n + List.length dims) r
  end.
Lemma measure_regs_lines ds : forall total n, n + total_lines ds <= total ->
  measure_regs (regs_of n ds) total n = Ok (concat (map (fun t => t ++ [nl]) (measure_lines n ds))).
Proof.
  induction ds as [|(l, dims) ds IH]; intros total n H; cbn [regs_of measure_regs measure_lines]; [reflexivity|].
  rewrite total_cons in H. cbn [q_label q_size]. rewrite measure_reg_lines by lia. cbn [bindr]. rewrite IH by lia. cbn [bindr].
  now rewrite map_app, concat_app.
Qed.
Lemma parse_lines_app a : forall (s : @pstate Arr) b,
  parse_lines eval load s (a ++ b) = let? s' := parse_lines eval load s a in parse_lines eval load s' b.
Proof.
  induction a as [|x a IH]; intros s b; [reflexivity|]. cbn [parse_lines app]. destruct (parse_line eval load s x); [|reflexivity]. cbn [bindr]. apply IH.
Qed.
Lemma parse_measures ds : forall n (s : @pstate Arr), p_comment s = false -> parse_lines eval load s (measure_lines n ds) = Ok s.
Proof.
  induction ds as [|(l, dims) ds IH]; intros n s Hc; [reflexivity|]. cbn [measure_lines]. rewrite parse_lines_app.
  assert (E : forall js, parse_lines eval load s (map (fun j => measure_line l (0 + j) (n + j)) js) = Ok s).
  { induction js as [|j js IHj]; [reflexivity|]. cbn [map parse_lines]. unfold measure_line at 1. rewrite parse_measure_line by exact Hc. exact IHj. }
  rewrite E. cbn [bindr]. now apply IH.
Qed.
End Lines.
