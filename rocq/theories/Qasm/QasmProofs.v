(** Export followed by import. *)
From Coq Require Import Reals.
From Verif Require Import Base.Py Base.PyFacts Base.Text Base.TextFacts Base.Regex Base.RegexFacts.
From Verif Require Import Circuit.CircuitModel Circuit.CircuitSpec Circuit.CircuitProofs Circuit.GateModel Gates.SingleModel Gates.TwoModel.
From Verif Require Import Qasm.QasmModel Qasm.QasmSpec Qasm.LineProofs Qasm.CtlProofs Qasm.RegProofs Qasm.GateLineProofs Qasm.ImportProofs.
Local Open Scope nat_scope.

(** ** controlled gates *)
Lemma new_gate_overlap {A} num dims name tg i s (data : A) t : i <> [] -> s <> [] -> In t i -> In t (lines_of tg) ->
  new_gate num dims name SINGLE tg (Some (i, s)) data = Err IndexError.
Proof.
  intros Hi Hs Hti Htl. unfold new_gate, control. destruct i as [|i0 i]; [congruence|]. destruct s as [|s0 s]; [congruence|].
  cbn [List.length Nat.eqb orb is_single g_type negb].
  destruct (Nat.ltb num (S (List.length i)) || existsb (fun i => (Z.of_nat num <=? i)%Z) (i0 :: i)); [reflexivity|].
  assert (E : existsb (fun k => existsb (Z.eqb k) (target_lines (Gate name SINGLE tg None false false data))) (i0 :: i) = true).
  { apply existsb_exists. exists t. split; [exact Hti|]. apply existsb_exists. exists t. split; [exact Htl|apply Z.eqb_refl]. }
  rewrite E. reflexivity.
Qed.

Section RoundTrip.
Context {Arr : Type}.
Notation gdata := (@gdata Arr).

Definition ctl_methods : list string := ["x"; "z"; "h"; "s"; "r"; "rz"; "rh"; "virtrz"; "noisex"; "noisey"]%string.

Definition ctl_facts num dims (a : @call Arr) (g : gate gdata) : Prop :=
  forall i s, g_controls g = Some (i, s) ->
  In (a_method a) ctl_methods /\ i <> [] /\ s <> [] /\ exists t, a_qudits a = TInt t /\
  forall (p : @parg Arr) i' s', i' <> [] -> s' <> [] -> In t i' ->
    construct num dims (Call (a_method a) (a_qudits a) p (Some (i', s'))) = Err IndexError.

Lemma plain_one_ctl num dims pre tag (a : @call Arr) g : plain_one num dims pre tag a = Ok g -> forall i s, g_controls g = Some (i, s) ->
  i <> [] /\ s <> [] /\ exists t, a_qudits a = TInt t /\
  forall m (p : @parg Arr) i' s', i' <> [] -> s' <> [] -> In t i' -> plain_one num dims pre tag (Call m (a_qudits a) p (Some (i', s'))) = Err IndexError.
Proof.
  unfold plain_one. destruct (one_dim dims (a_qudits a)) as [d|] eqn:Ed; [|discriminate]. cbn [bindr]. intros H i s Hc.
  unfold mk in H. apply new_gate_inv in H as (_ & _ & _ & _ & [(Hn & _)|(i1 & s1 & _ & Hs & Hi1 & Hs1 & _)]); [congruence|].
  rewrite Hc in Hs. injection Hs as <- <-. split; [exact Hi1|]. split; [exact Hs1|].
  destruct (a_qudits a) as [t|ts]; [|discriminate Ed]. exists t. split; [reflexivity|]. intros m p i' s' Hi' Hs' Ht.
  cbn [a_qudits a_ctl]. rewrite Ed. cbn [bindr]. unfold mk. apply (new_gate_overlap _ _ _ _ _ _ _ t); auto. now left.
Qed.
Lemma param_one_ctl num dims pre tag v (a : @call Arr) g : param_one num dims pre tag v a = Ok g -> forall i s, g_controls g = Some (i, s) ->
  i <> [] /\ s <> [] /\ exists t, a_qudits a = TInt t /\
  forall m (p : @parg Arr) i' s', i' <> [] -> s' <> [] -> In t i' -> param_one num dims pre tag v (Call m (a_qudits a) p (Some (i', s'))) = Err IndexError.
Proof.
  unfold param_one. destruct (one_dim dims (a_qudits a)) as [d|] eqn:Ed; [|discriminate]. cbn [bindr]. intros H i s Hc.
  destruct (mk num dims pre (show_nat d) SINGLE tag (a_qudits a) [d] ANone (a_ctl a)) as [g0|] eqn:Eg; [|discriminate]. cbn [bindr] in H.
  destruct (v d (as_params (a_par a))) as [b|]; [|discriminate]. cbn [bindr] in H.
  assert (Hc0 : g_controls g0 = Some (i, s)) by (destruct b; injection H as <-; exact Hc).
  unfold mk in Eg. apply new_gate_inv in Eg as (_ & _ & _ & _ & [(Hn & _)|(i1 & s1 & _ & Hs & Hi1 & Hs1 & _)]); [congruence|].
  rewrite Hc0 in Hs. injection Hs as <- <-. split; [exact Hi1|]. split; [exact Hs1|].
  destruct (a_qudits a) as [t|ts]; [|discriminate Ed]. exists t. split; [reflexivity|]. intros m p i' s' Hi' Hs' Ht.
  cbn [a_qudits a_ctl]. rewrite Ed. cbn [bindr]. unfold mk. rewrite (new_gate_overlap _ _ _ _ _ _ _ t); auto. now left.
Qed.
Lemma mk_none_ctl num dims pre shown ty tag q ds p (g : gate gdata) : mk num dims pre shown ty tag q ds p None = Ok g -> g_controls g = None.
Proof. unfold mk. intros H. apply new_gate_inv in H as (_ & _ & _ & _ & [(Hn & _)|(i & s & E & _)]); [exact Hn|discriminate]. Qed.

Lemma ctl_facts_all num dims (a : @call Arr) g : In (a_method a) exportable -> construct num dims a = Ok (Some g) -> ctl_facts num dims a g.
Proof.
  destruct a as [m q p0 ctl]. cbn [a_method]. intros Hm H i s Hc.
  assert (some_inv : forall r : res (gate gdata), bindr r (fun g => Ok (Some g)) = Ok (Some g) -> r = Ok g).
  { intros [x|e]; [|discriminate]. cbn. intros E. now injection E as <-. }
  assert (Splain : forall pre tag, In m ctl_methods -> (forall (p : @parg Arr) c, construct num dims (Call m q p c) = bindr (plain_one num dims pre tag (Call m q p c)) (fun g => Ok (Some g))) ->
    In m ctl_methods /\ i <> [] /\ s <> [] /\ exists t, q = TInt t /\ forall (p : @parg Arr) i' s', i' <> [] -> s' <> [] -> In t i' -> construct num dims (Call m q p (Some (i', s'))) = Err IndexError).
  { intros pre tag Hin E. split; [exact Hin|]. rewrite E in H. apply some_inv in H. destruct (plain_one_ctl _ _ _ _ _ _ H i s Hc) as (Hi & Hs & t & Hq & Ht). cbn [a_qudits] in *.
    split; [exact Hi|]. split; [exact Hs|]. exists t. split; [exact Hq|]. intros p i' s' Hi' Hs' Hti. rewrite E, Ht by assumption. reflexivity. }
  assert (Sparam : forall pre tag v, In m ctl_methods -> (forall (p : @parg Arr) c, construct num dims (Call m q p c) = bindr (param_one num dims pre tag v (Call m q p c)) (fun g => Ok (Some g))) ->
    In m ctl_methods /\ i <> [] /\ s <> [] /\ exists t, q = TInt t /\ forall (p : @parg Arr) i' s', i' <> [] -> s' <> [] -> In t i' -> construct num dims (Call m q p (Some (i', s'))) = Err IndexError).
  { intros pre tag v Hin E. split; [exact Hin|]. rewrite E in H. apply some_inv in H. destruct (param_one_ctl _ _ _ _ _ _ _ H i s Hc) as (Hi & Hs & t & Hq & Ht). cbn [a_qudits] in *.
    split; [exact Hi|]. split; [exact Hs|]. exists t. split; [exact Hq|]. intros p i' s' Hi' Hs' Hti. rewrite E, Ht by assumption. reflexivity. }
  cbn [a_method a_qudits]. unfold exportable in Hm. repeat (destruct Hm as [<-|Hm]); [..|destruct Hm].
  - apply (Splain "X" "x")%string; [unfold ctl_methods; cbn; tauto|reflexivity].
  - apply (Splain "Z" "z")%string; [unfold ctl_methods; cbn; tauto|reflexivity].
  - apply (Splain "H" "h")%string; [unfold ctl_methods; cbn; tauto|reflexivity].
  - split; [unfold ctl_methods; cbn; tauto|].
    assert (Es : forall (p : @parg Arr) c, construct num dims (Call "s" q p c) = bindr (let? d := one_dim dims q in let? u := s_new d in plain_one num dims "S" "s" (Call "s" q p c)) (fun g => Ok (Some g))) by reflexivity.
    rewrite Es in H. apply some_inv in H. destruct (one_dim dims q) as [d|] eqn:Ed; [|discriminate]. cbn [bindr] in *. destruct (s_new d) as [u|] eqn:Eu; [|discriminate]. cbn [bindr] in *.
    destruct (plain_one_ctl _ _ _ _ _ _ H i s Hc) as (Hi & Hs & t & Hq & Ht). cbn [a_qudits] in *.
    split; [exact Hi|]. split; [exact Hs|]. exists t. split; [exact Hq|]. intros p i' s' Hi' Hs' Hti. rewrite Es. rewrite Ht by assumption. reflexivity.
  - apply (Sparam "R" "rxy" r_validate)%string; [unfold ctl_methods; cbn; tauto|reflexivity].
  - apply (Sparam "Rz" "rz" rz_validate)%string; [unfold ctl_methods; cbn; tauto|reflexivity].
  - apply (Sparam "Rh" "rh" rh_validate)%string; [unfold ctl_methods; cbn; tauto|reflexivity].
  - apply (Sparam "VirtRz" "virtrz" vz_validate)%string; [unfold ctl_methods; cbn; tauto|reflexivity].
  - exfalso. change (bindr (let? d := one_dim dims q in let? g := mk num dims "Pm" (show_nat d) SINGLE "pm" q [d] p0 None in
          let? b := match p0 with AList l => pm_check d (List.length l) l | _ => Ok false end in Ok g) (fun g => Ok (Some g)) = Ok (Some g)) in H.
    apply some_inv in H. destruct (one_dim dims q) as [d|]; [|discriminate]. cbn [bindr] in H. destruct (mk _ _ _ _ _ _ _ _ _ _) as [g0|] eqn:Eg; [|discriminate]. cbn [bindr] in H.
    destruct (match p0 with AList l => pm_check d (List.length l) l | _ => Ok false end) as [b|]; [|discriminate]. injection H as <-. apply mk_none_ctl in Eg. congruence.
  - exfalso. change (bindr (let? ds := many_dims dims q in mk num dims "CSum" (show_dims ds) TWO "csum" q ds ANone None) (fun g => Ok (Some g)) = Ok (Some g)) in H.
    apply some_inv in H. destruct (many_dims dims q); [|discriminate]. cbn [bindr] in H. apply mk_none_ctl in H. congruence.
  - exfalso. change (bindr (let? ds := many_dims dims q in mk num dims "RandU" (show_dims ds) MULTI "rdu" q ds ANone None) (fun g => Ok (Some g)) = Ok (Some g)) in H.
    apply some_inv in H. destruct (many_dims dims q); [|discriminate]. cbn [bindr] in H. apply mk_none_ctl in H. congruence.
  - exfalso. change (bindr (let? ds := many_dims dims q in
          let? g := mk num dims "CEx" (show_dims ds) TWO "cx" q ds (AList [PInt 0; PInt 1; PInt 1; PFloat 0]) None in
          match p0 with AList l => let? x := cex_new (PList l) in Ok (with_par g (AList l)) | _ => Ok g end) (fun g => Ok (Some g)) = Ok (Some g)) in H.
    apply some_inv in H. destruct (many_dims dims q) as [ds|]; [|discriminate]. cbn [bindr] in H. destruct (mk _ _ _ _ _ _ _ _ _ _) as [g0|] eqn:Eg; [|discriminate]. cbn [bindr] in H.
    apply mk_none_ctl in Eg. destruct p0 as [|l| | |]; try (injection H as <-; congruence). destruct (cex_new (PList l)); [|discriminate]. injection H as <-. cbn in Hc. congruence.
  - exfalso. change (bindr (let? ds := many_dims dims q in
          let? u := match p0 with AList [] | ATuple [] => Err IndexError | ANone | ACtl _ _ => Err TypeError | _ => Ok tt end in
          let? g := mk num dims "LS" (show_dims ds) TWO "ls" q ds p0 None in
          match p0 with AList l => let? x := angle_new l in Ok g | _ => Ok g end) (fun g => Ok (Some g)) = Ok (Some g)) in H.
    apply some_inv in H. destruct (many_dims dims q) as [ds|]; [|discriminate]. cbn [bindr] in H.
    destruct (match p0 with AList [] | ATuple [] => Err IndexError | ANone | ACtl _ _ => Err TypeError | _ => Ok tt end) as [u|]; [|discriminate]. cbn [bindr] in H.
    destruct (mk _ _ _ _ _ _ _ _ _ _) as [g0|] eqn:Eg; [|discriminate]. cbn [bindr] in H.
    apply mk_none_ctl in Eg. destruct p0 as [|l| | |]; try (injection H as <-; congruence). destruct (angle_new l); [|discriminate]. injection H as <-. congruence.
  - exfalso. change (bindr (let? ds := many_dims dims q in
          let? u := match p0 with AList [] | ATuple [] => Err IndexError | ANone | ACtl _ _ => Err TypeError | _ => Ok tt end in
          let? g := mk num dims "MS" (show_dims ds) TWO "ms" q ds p0 None in
          match p0 with AList l => let? x := angle_new l in Ok g | _ => Ok g end) (fun g => Ok (Some g)) = Ok (Some g)) in H.
    apply some_inv in H. destruct (many_dims dims q) as [ds|]; [|discriminate]. cbn [bindr] in H.
    destruct (match p0 with AList [] | ATuple [] => Err IndexError | ANone | ACtl _ _ => Err TypeError | _ => Ok tt end) as [u|]; [|discriminate]. cbn [bindr] in H.
    destruct (mk _ _ _ _ _ _ _ _ _ _) as [g0|] eqn:Eg; [|discriminate]. cbn [bindr] in H.
    apply mk_none_ctl in Eg. destruct p0 as [|l| | |]; try (injection H as <-; congruence). destruct (angle_new l); [|discriminate]. injection H as <-. congruence.
  - apply (Sparam "NoiseX" "noisex" rh_validate)%string; [unfold ctl_methods; cbn; tauto|reflexivity].
  - apply (Sparam "NoiseY" "noisey" rh_validate)%string; [unfold ctl_methods; cbn; tauto|reflexivity].
Qed.

(** ** one gate, printed and parsed *)
Variable arr_empty : Arr -> bool.
Variable show_float : R -> text.
Variable eval : text -> res (option R).
Variable load : text -> res Arr.

Definition params_of (g : gate gdata) : list param := match d_par (g_data g) with AList l => l | _ => [] end.
Definition levels_nonneg (g : gate gdata) : Prop := forall i s, g_controls g = Some (i, s) -> forall z, In z s -> (0 <= z)%Z.

Definition instr_of (ds : decls) (g : gate gdata) : @instr Arr :=
  Instr (d_tag (g_data g)) (ATuple (map (fun p => Some (num_of p)) (params_of g)))
    (map (fun t => (Z.to_nat t, dim_at ds (Z.to_nat t))) (target_lines g))
    (match g_controls g with Some (i, s) => Some (map (fun _ => hd 0%Z (target_lines g)) i, s) | None => None end).

Lemma of_nat_levels s : s <> [] -> (forall z, In z s -> (0 <= z)%Z) -> exists n ns, s = map Z.of_nat (n :: ns).
Proof.
  intros Hs H. destruct s as [|z s]; [congruence|]. exists (Z.to_nat z), (map Z.to_nat s). cbn [map].
  rewrite Z2Nat.id by (apply H; now left). f_equal. rewrite map_map. rewrite <- (map_id s) at 1. apply map_ext_in. intros y Hy. rewrite Z2Nat.id; [reflexivity|]. apply H. now right.
Qed.

Section OneGate.
Context {G : Type}.
Variables (c : circuit G) (ds : decls).
Hypothesis Hinv : reg_inv c ds.
Hypothesis Hok : regs_ok ds.
Notation made g := (@made_by Arr show_float eval (num_qudits c) (dimensions c) g).

Lemma made_targets g : made g -> exists t ts, target_lines g = t :: ts /\ (forall u, In u (t :: ts) -> (0 <= u < Z.of_nat (num_qudits c))%Z).
Proof.
  intros (a & _ & _ & _ & Hr & H2). unfold target_lines in *. destruct (g_target g) as [t|ts].
  - exists t, []. split; [reflexivity|exact Hr].
  - specialize (H2 ts eq_refl). destruct ts as [|t ts]; [cbn in H2; lia|]. exists t, ts. split; [reflexivity|exact Hr].
Qed.
Lemma made_params g : made g -> params_qasm show_float (d_par (g_data g)) = Ok (ptext (map (show_param show_float) (params_of g))) /\
  (forall p, In p (params_of g) -> printable show_float eval p).
Proof.
  intros (a & Hm & Hc & Hp & _). unfold params_of. destruct Hp as [Hp|(l & El & Hl & Hp)].
  - destruct (import_facts_all _ _ _ _ Hm Hc) as (_ & _ & _ & Hpl & _). rewrite Hpl; [split; [reflexivity|intros p []]|].
    apply existsb_exists. exists (a_method a). split; [exact Hp|apply String.eqb_refl].
  - rewrite El. split; [|exact Hp]. destruct l as [|p l]; [congruence|]. cbn [params_qasm]. cbn [map]. now rewrite paren_ptext.
Qed.
Lemma shown_num l t : (forall p, In p l -> printable show_float eval p) -> In t (map (show_param show_float) l) -> num_text t.
Proof. intros H Ht. apply in_map_iff in Ht as (p & <- & Hp). apply (H p Hp). Qed.

Lemma nochar_app (a : ascii) t u : nochar a t -> nochar a u -> nochar a (t ++ u).
Proof. intros H1 H2 Hi. apply in_app_or in Hi as [Hi|Hi]; auto. Qed.
Lemma dit_line x : word (tx (fst x)) -> nochar nl (dit x).
Proof. intros H. apply dit_nochar; [reflexivity|discriminate|discriminate|exact H]. Qed.
Lemma ptext_line ps : (forall t, In t ps -> num_text t) -> nochar nl (ptext ps).
Proof.
  intros H. destruct ps as [|p ps]; [intros []|]. unfold ptext. apply nochar_app; [intros [E|[]]; discriminate|].
  apply nochar_app; [|intros [E|[E|[]]]; discriminate]. intros Hi. destruct (join_nums_char _ _ H Hi) as [Hn|[Hn|Hn]]; [|discriminate|discriminate].
  now destruct (num_char_facts _ Hn) as (_ & _ & _ & _ & Hc).
Qed.
Lemma more_line l : (forall x, In x l -> word (tx (fst x))) -> nochar nl (more l).
Proof.
  intros H Hi. unfold more in Hi. apply in_concat in Hi as (u & Hu & Hi). apply in_map_iff in Hu as (x & <- & Hx).
  apply in_app_or in Hi as [[E|[E|[]]]|Hi]; [discriminate|discriminate|]. now apply (dit_line x (H x Hx)).
Qed.
Lemma digits_line n : nochar nl (show_nat n).
Proof. apply word_nochar; [reflexivity|apply digits_word]. Qed.
Lemma addr_words t ts : (forall u, In u (t :: ts) -> (0 <= u < Z.of_nat (num_qudits c))%Z) ->
  word (tx (fst (addr ds (Z.to_nat t)))) /\ forall y, In y (map (fun t => addr ds (Z.to_nat t)) ts) -> word (tx (fst y)).
Proof.
  intros H. rewrite (ri_num _ _ Hinv) in H. split.
  - apply (addr_word ds _ Hok). specialize (H t ltac:(now left)). lia.
  - intros y Hy. apply in_map_iff in Hy as (u & <- & Hu). apply (addr_word ds _ Hok). specialize (H u ltac:(now right)). lia.
Qed.

Lemma gate_line g : made g -> levels_nonneg g -> In (d_tag (g_data g)) tags /\ exists line, gate_qasm show_float c g = Ok (line ++ [nl]) /\ nochar nl line /\
  forall s, p_comment s = false -> p_sitemap s = layout 0 ds ->
  parse_line eval load s line = Ok (PState (p_sitemap s) (p_classic s) (p_gates s ++ [instr_of ds g]) false).
Proof.
  intros Hmade Hlev. destruct (made_targets g Hmade) as (t & ts & Et & Hr). destruct (made_params g Hmade) as (Ep & Hprint).
  destruct (addr_words t ts Hr) as (Hw & Hws).
  assert (Hnum := fun u => shown_num (params_of g) u Hprint).
  destruct Hmade as (a & Hm & Hc & Hp & Hrange & H2). destruct (import_facts_all _ _ _ _ Hm Hc) as (Htag & Htg & _ & _ & _).
  assert (Hpp : allb not_paren (join (tx ", ") (map (show_param show_float) (params_of g)))) by (apply join_nums_paren; exact Hnum).
  assert (Epar : parse_params eval load (params_text (map (show_param show_float) (params_of g))) = Ok (ATuple (map (fun p => Some (num_of p)) (params_of g)))).
  { destruct (params_of g) as [|p l]; [reflexivity|]. change (params_text (map (show_param show_float) (p :: l))) with (Some (join (tx ", ") (map (show_param show_float) (p :: l)))).
    apply (parse_params_list show_float eval load (p :: l)); [discriminate|exact Hprint]. }
  assert (Ell : forall l, (forall u, In u l -> (0 <= u < Z.of_nat (num_qudits c))%Z) -> lookups (layout 0 ds) (map (fun t => addr ds (Z.to_nat t)) l) = Ok (map (fun t => (Z.to_nat t, dim_at ds (Z.to_nat t))) l)).
  { intros l Hl. rewrite <- (map_map Z.to_nat (addr ds)). rewrite (lookups_addr c ds Hinv); [now rewrite map_map|].
    intros n Hn. apply in_map_iff in Hn as (u & <- & Hu). specialize (Hl u Hu). rewrite (ri_num _ _ Hinv) in Hl. lia. }
  split; [exact Htag|]. destruct (g_controls g) as [[i sts]|] eqn:Ectl.
  - destruct (ctl_facts_all _ _ _ _ Hm Hc i sts Ectl) as (_ & Hi & Hs & t0 & Hq & _).
    assert (Ets : target_lines g = [t]) by (unfold target_lines in *; rewrite Htg, Hq in Et |- *; injection Et as -> _; reflexivity).
    destruct (of_nat_levels sts Hs (Hlev i sts Ectl)) as (n & ns & En). destruct i as [|i0 idx]; [congruence|]. rewrite En in Ectl.
    eexists. split; [apply (gate_qasm_ctl show_float c ds Hinv g _ t i0 idx n ns Ectl Hrange Ets Ep)|].
    set (x := addr ds (Z.to_nat t)) in *.
    assert (Hrep : forall z, In z (repeat x (List.length idx)) -> word (tx (fst z))) by (intros z Hz; apply repeat_spec in Hz; subst z; exact Hw).
    split.
    + unfold ctl_text. apply nochar_app; [apply word_nochar; [reflexivity|apply (tag_facts _ [] Htag)]|]. apply nochar_app; [intros [E|[]]; discriminate|].
      apply nochar_app; [now apply ptext_line|]. apply nochar_app; [now apply dit_line|]. apply nochar_app; [intros Hx; cbn in Hx; decompose [or] Hx; try discriminate; contradiction|].
      apply nochar_app; [|apply nochar_app; [intros [E|[]]; discriminate|apply nochar_app; [|intros [E|[]]; discriminate]]].
      * unfold blank_dits. intros Hx. apply in_concat in Hx as (u & Hu & Hx). apply in_map_iff in Hu as (z & <- & Hz). apply in_app_or in Hx as [[E|[]]|Hx]; [discriminate|].
        apply (dit_line z); [|exact Hx]. destruct Hz as [<-|Hz]; auto.
      * unfold levels_text. apply nochar_app; [intros [E|[]]; discriminate|]. apply nochar_app; [apply digits_line|]. apply nochar_app; [|intros [E|[]]; discriminate].
        intros Hx. unfold more_levels in Hx. apply in_concat in Hx as (u & Hu & Hx). apply in_map_iff in Hu as (k & <- & Hk). apply in_app_or in Hx as [[E|[E|[]]]|Hx]; [discriminate|discriminate|]. now apply (digits_line k).
    + intros s Hs0 Hsm. rewrite (parse_ctl_line eval load s (d_tag (g_data g)) _ x x (repeat x (List.length idx)) n ns Htag Hs0 Hpp Hw Hw Hrep).
      rewrite Epar. cbn [bindr]. rewrite Hsm.
      pose proof (Ell [t] ltac:(intros u [<-|[]]; apply Hr; now left)) as E1. cbn [map] in E1. fold x in E1. rewrite E1. cbn [bindr].
      assert (E2 : lookups (layout 0 ds) (x :: repeat x (List.length idx)) = Ok (map (fun _ => (Z.to_nat t, dim_at ds (Z.to_nat t))) (i0 :: idx))).
      { pose proof (Ell (map (fun _ => t) (i0 :: idx))) as E2. rewrite !map_map in E2. rewrite <- E2.
        - cbn [map]. fold x. do 2 f_equal. clear. induction idx as [|z idx IH]; [reflexivity|]. cbn [List.length repeat map]. now rewrite IH.
        - intros u Hu. apply in_map_iff in Hu as (z & <- & _). apply Hr. now left. }
      rewrite E2. cbn [bindr]. unfold instr_of. rewrite Ectl, Ets. rewrite map_map. cbn [hd map fst]. rewrite Z2Nat.id by (specialize (Hr t ltac:(now left)); lia). reflexivity.
  - eexists. split; [apply (gate_qasm_plain show_float c ds Hinv g _ t ts Ectl Hrange Et Ep)|]. split.
    + unfold gate_text. apply nochar_app; [apply word_nochar; [reflexivity|apply (tag_facts _ [] Htag)]|]. apply nochar_app; [intros [E|[]]; discriminate|].
      apply nochar_app; [now apply ptext_line|]. apply nochar_app; [|intros [E|[]]; discriminate]. unfold targets_text. apply nochar_app; [now apply dit_line|now apply more_line].
    + intros s Hs Hsm. rewrite (parse_gate_line eval load s _ _ _ _ Htag Hs Hpp Hw Hws). rewrite Epar. cbn [bindr]. rewrite Hsm.
      change (addr ds (Z.to_nat t) :: map (fun t => addr ds (Z.to_nat t)) ts) with (map (fun t => addr ds (Z.to_nat t)) (t :: ts)). rewrite Ell by exact Hr.
      cbn [bindr]. unfold instr_of. rewrite Ectl, Et. reflexivity.
Qed.

Lemma gate_qasm_dag (g : gate gdata) : gate_qasm show_float c (dag g) = gate_qasm show_float c g.
Proof. reflexivity. Qed.
Lemma gate_qasm_user (x : gate gdata * bool) : gate_qasm show_float c (user_gate x) = gate_qasm show_float c (fst x).
Proof. unfold user_gate. destruct (snd x); reflexivity. Qed.

Lemma gate_lines (l : list (gate gdata * bool)) : (forall x, In x l -> made (fst x) /\ levels_nonneg (fst x)) ->
  exists lines, mapr (gate_qasm show_float c) (map user_gate l) = Ok (map (fun t => t ++ [nl]) lines) /\ (forall t, In t lines -> nochar nl t) /\
  forall s, p_comment s = false -> p_sitemap s = layout 0 ds ->
  parse_lines eval load s lines = Ok (PState (p_sitemap s) (p_classic s) (p_gates s ++ map (fun x => instr_of ds (fst x)) l) false).
Proof.
  induction l as [|x l IH]; intros H.
  - exists []. split; [reflexivity|]. split; [intros t []|]. intros s Hc _. cbn. rewrite app_nil_r, <- Hc. now destruct s.
  - destruct IH as (lines & E & Hn & Hp); [intros y Hy; apply H; now right|]. destruct (H x ltac:(now left)) as (Hx & Hlev).
    destruct (gate_line (fst x) Hx Hlev) as (_ & line & El & Hnl & Hpl). exists (line :: lines). split; [|split].
    + cbn [map mapr]. rewrite gate_qasm_user, El. cbn [bindr]. rewrite E. reflexivity.
    + intros t [<-|Ht]; auto.
    + intros s Hc Hs. cbn [parse_lines]. rewrite Hpl by assumption. cbn [bindr]. rewrite Hp by (cbn; auto). cbn [p_sitemap p_classic p_gates map]. rewrite <- app_assoc. reflexivity.
Qed.
End OneGate.

(** ** the whole text *)
Lemma header_line (s : @pstate Arr) : p_comment s = false -> parse_line eval load s (tx "DITQASM 2.0;") = Ok s.
Proof. intros Hc. destruct s as [a b g d]. cbn in Hc. subst d. reflexivity. Qed.
Lemma qreg_nonl ds : regs_ok ds -> forall n t, In t (map qreg_qasm (regs_of n ds)) -> nochar nl t.
Proof.
  induction ds as [|(l, dims) ds IH]; intros Hok n t Ht; [destruct Ht|]. cbn [regs_of map] in Ht. destruct Ht as [<-|Ht].
  - destruct (Hok l dims ltac:(now left)) as (Hl & _). unfold qreg_qasm. cbn [q_label q_size q_dims].
    repeat apply nochar_app; try (intros Hx; cbn in Hx; decompose [or] Hx; try discriminate; contradiction).
    + now apply word_nochar.
    + apply digits_line.
    + intros Hi. apply join_In in Hi as [[E|[]]|(u & Hu & Hi)]; [discriminate|]. apply in_map_iff in Hu as (k & <- & _). now apply (digits_line k).
  - apply (IH (fun l' d' Hi => Hok l' d' (or_intror Hi)) _ _ Ht).
Qed.
Lemma measure_nonl ds : regs_ok ds -> forall n t, In t (measure_lines n ds) -> nochar nl t.
Proof.
  induction ds as [|(l, dims) ds IH]; intros Hok n t Ht; [destruct Ht|]. cbn [measure_lines] in Ht. apply in_app_or in Ht as [Ht|Ht].
  - destruct (Hok l dims ltac:(now left)) as (Hl & _). apply in_map_iff in Ht as (j & <- & _). unfold measure_line.
    repeat apply nochar_app; try (intros Hx; cbn in Hx; decompose [or] Hx; try discriminate; contradiction); try apply digits_line. now apply word_nochar.
  - apply (IH (fun l' d' Hi => Hok l' d' (or_intror Hi)) _ _ Ht).
Qed.

Lemma whole_text (c : circuit (gate gdata)) ds ops lines :
  reg_state c ds -> regs_ok ds -> mapr (gate_qasm show_float c) ops = Ok (map (fun t => t ++ [nl]) lines) -> instructions c = ops ->
  (forall t, In t lines -> nochar nl t) ->
  exists txt, to_qasm show_float c = Ok txt /\
    parse_qasm eval load txt = (let? s := parse_lines eval load (PState (layout 0 ds) (creg_loop "meas" 0 (List.length (dimensions c)) []) [] false) lines in
                                parse_lines eval load s (measure_lines 0 ds ++ [[]])).
Proof.
  intros [Hinv Hregs] Hok Hops Hins Hnl. unfold to_qasm. rewrite Hins, Hops. cbn [bindr]. rewrite Hregs.
  rewrite (measure_regs_lines ds) by (rewrite (dims_total c ds Hinv); lia). cbn [bindr].
  eexists. split; [reflexivity|]. set (n := List.length (dimensions c)).
  set (creg := tx "creg meas[" ++ show_nat n ++ tx "];").
  set (all := tx "DITQASM 2.0;" :: map qreg_qasm (regs_of 0 ds) ++ creg :: lines ++ measure_lines 0 ds).
  match goal with |- parse_qasm _ _ ?T = _ => assert (E : T = concat (map (fun t => t ++ [nl]) all) ++ []) end.
  { rewrite app_nil_r. unfold all. cbn [map concat]. rewrite map_app, concat_app. cbn [map concat]. rewrite map_app, concat_app, map_map. unfold creg.
    rewrite <- !app_assoc. reflexivity. }
  rewrite E. unfold parse_qasm. rewrite split_on_lines.
  - cbn [split_on]. unfold all. cbn [app]. cbn [parse_lines]. rewrite header_line by reflexivity. cbn [bindr].
    rewrite <- app_assoc. rewrite parse_lines_app.
    rewrite (parse_qregs eval load ds pinit [] 0); [|reflexivity|reflexivity|exact Hok|exact (ri_nodup _ _ Hinv)|reflexivity]. cbn [bindr].
    cbn [app]. cbn [parse_lines]. unfold creg. rewrite parse_creg_line by reflexivity. cbn [bindr p_sitemap p_classic p_gates pinit].
    rewrite <- app_assoc. rewrite parse_lines_app. reflexivity.
  - intros t Ht. unfold all in Ht. destruct Ht as [<-|Ht]; [intros Hx; cbn in Hx; decompose [or] Hx; try discriminate; contradiction|].
    apply in_app_or in Ht as [Ht|[<-|Ht]].
    + apply (qreg_nonl ds Hok 0 t Ht).
    + unfold creg. repeat apply nochar_app; try (intros Hx; cbn in Hx; decompose [or] Hx; try discriminate; contradiction). apply digits_line.
    + apply in_app_or in Ht as [Ht|Ht]; [now apply Hnl|]. apply (measure_nonl ds Hok 0 t Ht).
Qed.
Lemma parse_tail ds (s : @pstate Arr) : p_comment s = false -> parse_lines eval load s (measure_lines 0 ds ++ [[]]) = Ok s.
Proof.
  intros Hc. rewrite parse_lines_app, parse_measures by exact Hc. cbn [bindr parse_lines].
  destruct s as [a b g d]. cbn in Hc. subst d. reflexivity.
Qed.

(** ** importing the parsed gates *)
Lemma with_par_gate_back (g : gate gdata) : existsb (String.eqb (d_tag (g_data g))) not_read = false ->
  gate_back g = [with_par g (par_back (d_tag (g_data g)) (d_par (g_data g)))].
Proof. intros H. unfold gate_back. rewrite H. reflexivity. Qed.

Definition target_of (l : list (nat * nat)) : target :=
  match l with [x] => TInt (Z.of_nat (fst x)) | _ => TList (map (fun x => Z.of_nat (fst x)) l) end.

Section Import.
Variables (c : circuit (gate gdata)) (ds : decls).
Notation made g := (@made_by Arr show_float eval (num_qudits c) (dimensions c) g).

Lemma target_back g : made g ->
  target_of (map (fun t => (Z.to_nat t, dim_at ds (Z.to_nat t))) (target_lines g)) = g_target g.
Proof.
  intros (a & _ & _ & _ & Hr & H2). unfold target_of. unfold target_lines in *. destruct (g_target g) as [t|ts].
  - cbn [map fst]. rewrite Z2Nat.id; [reflexivity|]. specialize (Hr t ltac:(now left)). lia.
  - specialize (H2 ts eq_refl). destruct ts as [|t [|u ts]]; [cbn in H2; lia|cbn in H2; lia|].
    assert (E : map (fun x : nat * nat => Z.of_nat (fst x)) (map (fun t => (Z.to_nat t, dim_at ds (Z.to_nat t))) (t :: u :: ts)) = t :: u :: ts).
    { rewrite map_map. cbn [fst]. rewrite <- (map_id (t :: u :: ts)) at 2. apply map_ext_in. intros z Hz. rewrite Z2Nat.id; [reflexivity|]. specialize (Hr z Hz). lia. }
    cbn [map] in *. now rewrite E.
Qed.

Lemma par_back_stored g a : In (a_method a) exportable -> import_facts (num_qudits c) (dimensions c) a g ->
  (In (a_method a) plain_methods \/ exists l, d_par (g_data g) = AList l /\ l <> []) ->
  existsb (String.eqb (a_method a)) noise_methods = false ->
  exists p, handed (a_method a) p /\ stored (d_tag (g_data g)) p = par_back (d_tag (g_data g)) (d_par (g_data g)) /\
    (if existsb (String.eqb (a_method a)) plain_methods then params_of g = [] /\ p = ANone
     else p = ATuple (map (fun x => Some (num_of x)) (params_of g)) /\ params_of g <> []).
Proof.
  intros Hm (Htag & _ & _ & Hpl & Hrest) Hpar Hno. rewrite Hno in Hrest. destruct Hrest as (Hnr & Hq & _). unfold handed, params_of.
  destruct (existsb (String.eqb (a_method a)) plain_methods) eqn:Epl.
  - rewrite (Hpl eq_refl). exists ANone. repeat split; try reflexivity.
  - destruct Hpar as [Hin|(l & El & Hl)].
    + exfalso. assert (E : existsb (String.eqb (a_method a)) plain_methods = true) by (apply existsb_exists; exists (a_method a); split; [exact Hin|apply String.eqb_refl]). congruence.
    + rewrite El. exists (ATuple (map (fun x => Some (num_of x)) l)). split; [|split; [reflexivity|split; [reflexivity|exact Hl]]].
      eexists. split; [reflexivity|]. destruct l; [congruence|discriminate].
Qed.

Lemma sig_plain m : In m exportable -> existsb (String.eqb m) plain_methods = true -> exists tc, signature m = (false, false, tc).
Proof. unfold exportable. intros H E. repeat (destruct H as [<-|H]; [try discriminate E; eexists; reflexivity|]). destruct H. Qed.
Lemma sig_param m : In m exportable -> existsb (String.eqb m) plain_methods = false -> exists np tc, signature m = (true, np, tc).
Proof. unfold exportable. intros H E. repeat (destruct H as [<-|H]; [try discriminate E; do 2 eexists; reflexivity|]). destruct H. Qed.
Lemma sig_ctl m : In m ctl_methods -> exists tp np, signature m = (tp, np, true).
Proof. unfold ctl_methods. intros H. repeat (destruct H as [<-|H]; [do 2 eexists; reflexivity|]). destruct H. Qed.

Lemma import_gate g : made g -> 
  match g_controls g with
  | None => import_op arr_empty c (instr_of ds g) = (fold_left (fun c g => fst (add_gate c (Ok g))) (gate_back g) c, None)
  | Some _ => existsb (String.eqb (d_tag (g_data g))) not_read = false -> import_op arr_empty c (instr_of ds g) = (c, Some IndexError)
  end.
Proof.
  intros Hmade. pose proof (target_back g Hmade) as Htb. 
  destruct Hmade as (a & Hm & Hc & Hp & Hr & H2). pose proof (import_facts_all _ _ _ _ Hm Hc) as Hf. pose proof Hf as (Htag & Htg & _ & _ & Hrest).
  unfold import_op, instr_of. cbn [i_name i_qudits i_params i_controls].
  assert (Hqs : match map (fun t => (Z.to_nat t, dim_at ds (Z.to_nat t))) (target_lines g) with [] => False | _ => True end).
  { unfold target_lines. destruct (g_target g) as [t|ts]; [exact I|]. specialize (H2 ts eq_refl). destruct ts; [cbn in H2; lia|exact I]. }
  destruct (existsb (String.eqb (a_method a)) noise_methods) eqn:Eno.
  - destruct Hrest as (Hnr & Hd). rewrite Hd, Hnr. unfold gate_back. rewrite Hnr. destruct (g_controls g) as [x|]; [discriminate|reflexivity].
  - destruct Hrest as (Hnr & Hd & Hcon). rewrite Hd.
    destruct (par_back_stored g a Hm Hf) as (p & Hhand & Hst & Hpp); [|exact Eno|].
    { destruct Hp as [Hp|(l & El & Hl & _)]; [now left|right; eauto]. }
    destruct (map (fun t => (Z.to_nat t, dim_at ds (Z.to_nat t))) (target_lines g)) as [|q0 qs] eqn:Eq; [contradiction|].
    assert (Etg : match q0 :: qs with [x] => TInt (Z.of_nat (fst x)) | _ => TList (map (fun x => Z.of_nat (fst x)) (q0 :: qs)) end = a_qudits a) by (rewrite <- Htg; exact Htb).
    cbv zeta. rewrite Etg. clear Etg.
    assert (Epos : forall ctl, match ctl with None => True | Some _ => In (a_method a) ctl_methods end ->
      positional arr_empty (a_method a) (a_qudits a) (ATuple (map (fun x => Some (num_of x)) (params_of g))) ctl = Ok (Call (a_method a) (a_qudits a) p ctl)).
    { intros ctl Hctl. unfold positional. destruct (existsb (String.eqb (a_method a)) plain_methods) eqn:Epl.
      - destruct (sig_plain _ Hm Epl) as (tc & Es). rewrite Es. destruct Hpp as (-> & ->). cbn [map par_nonempty].
        destruct ctl as [[i s]|]; [|reflexivity]. destruct (sig_ctl _ Hctl) as (tp & np & Es'). rewrite Es in Es'. injection Es' as _ _ ->. reflexivity.
      - destruct (sig_param _ Hm Epl) as (np & tc & Es). rewrite Es. destruct Hpp as (-> & Hne). destruct (params_of g) as [|y ys]; [congruence|]. cbn [map par_nonempty].
        destruct ctl as [[i s]|]; [|reflexivity]. destruct (sig_ctl _ Hctl) as (tp & np' & Es'). rewrite Es in Es'. injection Es' as _ _ ->. reflexivity. }
    destruct (g_controls g) as [[i s]|] eqn:Ectl.
    + intros _. destruct (ctl_facts_all _ _ _ _ Hm Hc i s Ectl) as (Hcm & Hi & Hs & t & Hq & Herr).
      rewrite (Epos (Some _) Hcm). cbn [bindr].
      assert (Eh : hd 0%Z (target_lines g) = t) by (unfold target_lines; rewrite Htg, Hq; reflexivity).
      rewrite Herr; [reflexivity| |exact Hs|].
      * destruct i; [congruence|discriminate].
      * rewrite Eh. destruct i as [|i0 i]; [congruence|]. now left.
    + rewrite (Epos None I). cbn [bindr]. rewrite (Hcon eq_refl p Hhand). rewrite with_par_gate_back by exact Hnr. rewrite Hst. reflexivity.
Qed.
End Import.

Lemma add_gates_fields (l : list (gate gdata)) : forall c,
  let c' := fold_left (fun c g => fst (add_gate c (Ok g))) l c in
  instructions c' = instructions c ++ l /\ number_gates c' = (number_gates c + Z.of_nat (List.length l))%Z /\
  sitemap c' = sitemap c /\ inverse_sitemap c' = inverse_sitemap c /\ num_qudits c' = num_qudits c /\
  dimensions c' = dimensions c /\ quantum_registers c' = quantum_registers c.
Proof.
  induction l as [|g l IH]; intros c; cbn [fold_left].
  - cbn. rewrite app_nil_r, Z.add_0_r. repeat split.
  - specialize (IH (fst (add_gate c (Ok g)))). cbn [add_gate fst with_instructions instructions number_gates sitemap inverse_sitemap num_qudits dimensions quantum_registers] in IH.
    destruct IH as (I1 & I2 & I3 & I4 & I5 & I6 & I7). cbn [add_gate fst] in *. rewrite I1, I2, I3, I4, I5, I6, I7. rewrite <- app_assoc. repeat split.
    cbn [List.length]. lia.
Qed.

Lemma import_gates ds (l : list (gate gdata * bool)) : forall c,
  (forall x, In x l -> made_by show_float eval (num_qudits c) (dimensions c) (fst x) /\ g_controls (fst x) = None) ->
  import_ops arr_empty c (map (fun x => instr_of ds (fst x)) l) = (fold_left (fun c g => fst (add_gate c (Ok g))) (flat_map gate_back (map fst l)) c, None).
Proof.
  induction l as [|x l IH]; intros c H; [reflexivity|]. cbn [map import_ops flat_map].
  destruct (H x ltac:(now left)) as (Hm & Hn). pose proof (import_gate c ds (fst x) Hm) as Hi. rewrite Hn in Hi. rewrite Hi. rewrite fold_left_app. apply IH.
  intros y Hy. destruct (add_gates_fields (gate_back (fst x)) c) as (_ & _ & _ & _ & -> & -> & _). apply H. now right.
Qed.
Lemma import_gates_ctl ds (l : list (gate gdata * bool)) : forall c,
  (forall x, In x l -> made_by show_float eval (num_qudits c) (dimensions c) (fst x)) ->
  (exists x, In x l /\ g_controls (fst x) <> None) ->
  (forall x, In x l -> g_controls (fst x) <> None -> existsb (String.eqb (d_tag (g_data (fst x)))) not_read = false) ->
  snd (import_ops arr_empty c (map (fun x => instr_of ds (fst x)) l)) = Some IndexError.
Proof.
  induction l as [|x l IH]; intros c H (y & Hy & Hyc) Hn; [destruct Hy|]. cbn [map import_ops].
  pose proof (import_gate c ds (fst x) (H x ltac:(now left))) as Hi. destruct (g_controls (fst x)) as [u|] eqn:Ec.
  - rewrite Hi; [reflexivity|]. apply Hn; [now left|congruence].
  - rewrite Hi. apply IH.
    + intros z Hz. destruct (add_gates_fields (gate_back (fst x)) c) as (_ & _ & _ & _ & -> & -> & _). apply H. now right.
    + exists y. split; [|exact Hyc]. destruct Hy as [->|Hy]; [congruence|exact Hy].
    + intros z Hz. apply Hn. now right.
Qed.

Lemma classics_state (l : list creg) : forall (c : circuit (gate gdata)) ds, reg_state c ds ->
  reg_state (fold_left append_classic l c) ds /\ instructions (fold_left append_classic l c) = instructions c /\ number_gates (fold_left append_classic l c) = number_gates c.
Proof.
  induction l as [|r l IH]; intros c ds H; [auto|]. cbn [fold_left]. destruct (append_classic_fields c r) as (E1 & E2 & E3 & E4 & E5 & E6 & E7).
  destruct (IH (append_classic c r) ds) as (H1 & H2 & H3); [now apply (state_transfer c)|]. rewrite H2, H3. auto.
Qed.

(** what happens between parsing and calling the methods *)
Lemma from_qasm_parsed (c0 : circuit (gate gdata)) txt ds cl gs :
  NoDup (map fst ds) -> regs_ok ds -> parse_qasm eval load txt = Ok (PState (layout 0 ds) cl gs false) ->
  exists c1, reg_state c1 ds /\ instructions c1 = [] /\ number_gates c1 = 0%Z /\
  from_qasm arr_empty eval load c0 txt = import_ops arr_empty c1 gs.
Proof.
  intros Hnd Hok Hp. unfold from_qasm. rewrite Hp. cbn [p_sitemap p_classic p_gates]. rewrite (qregs_layout ds Hnd Hok).
  destruct (append_all_regs ds [] (reset c0) (state_reset c0) Hnd) as (c1 & E & Hs & Hi & Hn). change (total_lines []) with 0 in E. rewrite E.
  destruct (classics_state (cregs_from_map cl) c1 ds Hs) as (Hs' & Hi' & Hn'). eexists. split; [exact Hs'|]. split; [rewrite Hi'; exact Hi|]. split; [rewrite Hn'; exact Hn|]. reflexivity.
Qed.

Definition same_registers (c c' : circuit (gate gdata)) : Prop :=
  quantum_registers c' = quantum_registers c /\ sitemap c' = sitemap c /\ inverse_sitemap c' = inverse_sitemap c /\
  num_qudits c' = num_qudits c /\ dimensions c' = dimensions c.
Lemma states_same c c' ds : reg_state c ds -> reg_state c' ds -> same_registers c c'.
Proof.
  intros [I1 R1] [I2 R2]. unfold same_registers. rewrite R1, R2, (ri_sitemap _ _ I1), (ri_sitemap _ _ I2), (ri_inverse _ _ I1), (ri_inverse _ _ I2), (ri_num _ _ I1), (ri_num _ _ I2), (ri_dims _ _ I1), (ri_dims _ _ I2). auto.
Qed.

Lemma round_trip (c : circuit (gate gdata)) ds (l : list (gate gdata * bool)) : reg_state c ds -> regs_ok ds -> instructions c = map user_gate l ->
  (forall x, In x l -> made_by show_float eval (num_qudits c) (dimensions c) (fst x) /\ g_controls (fst x) = None) ->
  exists txt, to_qasm show_float c = Ok txt /\
  forall c0, exists c', from_qasm arr_empty eval load c0 txt = (c', None) /\ same_registers c c' /\
    instructions c' = flat_map gate_back (map fst l) /\ number_gates c' = Z.of_nat (List.length (instructions c')).
Proof.
  intros Hs Hok Hins Hl. pose proof Hs as [Hinv Hregs].
  destruct (gate_lines c ds Hinv Hok l) as (lines & El & Hnl & Hpl).
  { intros x Hx. destruct (Hl x Hx) as (H1 & H2). split; [exact H1|]. intros i s E. congruence. }
  destruct (whole_text c ds (map user_gate l) lines Hs Hok El Hins Hnl) as (txt & Et & Ep). exists txt. split; [exact Et|]. intros c0.
  rewrite Hpl in Ep by reflexivity. cbn [bindr p_sitemap p_classic p_gates app] in Ep. rewrite parse_tail in Ep by reflexivity.
  destruct (from_qasm_parsed c0 txt ds _ _ (ri_nodup _ _ Hinv) Hok Ep) as (c1 & Hs1 & Hi1 & Hn1 & Ef).
  destruct (states_same c c1 ds Hs Hs1) as (S1 & S2 & S3 & S4 & S5).
  rewrite import_gates in Ef by (rewrite S4, S5; exact Hl).
  eexists. split; [exact Ef|]. destruct (add_gates_fields (flat_map gate_back (map fst l)) c1) as (F1 & F2 & F3 & F4 & F5 & F6 & F7).
  split; [unfold same_registers; rewrite F3, F4, F5, F6, F7; repeat split; assumption|]. rewrite F1, F2, Hi1, Hn1. split; reflexivity.
Qed.

Lemma round_trip_ctl (c : circuit (gate gdata)) ds (l : list (gate gdata * bool)) : reg_state c ds -> regs_ok ds -> instructions c = map user_gate l ->
  (forall x, In x l -> made_by show_float eval (num_qudits c) (dimensions c) (fst x) /\ levels_nonneg (fst x)) ->
  (exists x, In x l /\ g_controls (fst x) <> None) ->
  (forall x, In x l -> g_controls (fst x) <> None -> existsb (String.eqb (d_tag (g_data (fst x)))) not_read = false) ->
  exists txt, to_qasm show_float c = Ok txt /\
  forall c0, snd (from_qasm arr_empty eval load c0 txt) = Some IndexError.
Proof.
  intros Hs Hok Hins Hl Hex Hnr. pose proof Hs as [Hinv Hregs].
  destruct (gate_lines c ds Hinv Hok l Hl) as (lines & El & Hnl & Hpl).
  destruct (whole_text c ds (map user_gate l) lines Hs Hok El Hins Hnl) as (txt & Et & Ep). exists txt. split; [exact Et|]. intros c0.
  rewrite Hpl in Ep by reflexivity. cbn [bindr p_sitemap p_classic p_gates app] in Ep. rewrite parse_tail in Ep by reflexivity.
  destruct (from_qasm_parsed c0 txt ds _ _ (ri_nodup _ _ Hinv) Hok Ep) as (c1 & Hs1 & Hi1 & Hn1 & Ef).
  destruct (states_same c c1 ds Hs Hs1) as (S1 & S2 & S3 & S4 & S5). rewrite Ef.
  apply import_gates_ctl; [|exact Hex|exact Hnr]. intros x Hx. rewrite S4, S5. now apply Hl.
Qed.

(** ** gates given by a matrix *)
Lemma custom_facts num dims (a : @call Arr) g : In (a_method a) ["cu_one"; "cu_two"; "cu_multi"]%string -> construct num dims a = Ok (Some g) ->
  In (d_tag (g_data g)) tags /\ d_par (g_data g) = a_par a.
Proof.
  destruct a as [m q p ctl]. cbn [a_method a_par]. intros Hm H.
  assert (some_inv : forall r : res (gate gdata), bindr r (fun g => Ok (Some g)) = Ok (Some g) -> r = Ok g).
  { intros [x|e]; [|discriminate]. cbn. intros E. now injection E as <-. }
  destruct Hm as [<-|[<-|[<-|[]]]].
  - change (bindr (let? d := one_dim dims q in mk num dims "CUo" (show_nat d) SINGLE "cuone" q [d] p ctl) (fun g => Ok (Some g)) = Ok (Some g)) in H.
    apply some_inv in H. destruct (one_dim dims q); [|discriminate]. apply mk_facts in H as (E & _). rewrite E. split; [unfold tags; cbn; tauto|reflexivity].
  - change (bindr (let? d := many_dims dims q in mk num dims "CUt" (show_dims d) TWO "cutwo" q d p ctl) (fun g => Ok (Some g)) = Ok (Some g)) in H.
    apply some_inv in H. destruct (many_dims dims q); [|discriminate]. apply mk_facts in H as (E & _). rewrite E. split; [unfold tags; cbn; tauto|reflexivity].
  - change (bindr (let? d := many_dims dims q in mk num dims "CUm" (show_dims d) MULTI "cumulti" q d p ctl) (fun g => Ok (Some g)) = Ok (Some g)) in H.
    apply some_inv in H. destruct (many_dims dims q); [|discriminate]. apply mk_facts in H as (E & _). rewrite E. split; [unfold tags; cbn; tauto|reflexivity].
Qed.
Lemma custom_params (e : exn) : eval (tx "custom_data") = Err e -> parse_params eval load (params_text [tx "custom_data"]) = Err e.
Proof.
  intros H. unfold params_text, parse_params. change (join (tx ", ") [tx "custom_data"]) with (tx "custom_data").
  change (containsb (tx ".npy") (tx "custom_data")) with false. change (split_on "," (strip is_bracket (tx "custom_data"))) with [tx "custom_data"].
  cbn [mapr]. rewrite H. reflexivity.
Qed.
Lemma custom_line (c : circuit (gate gdata)) ds (g : gate gdata) e : reg_inv c ds -> regs_ok ds -> made_custom (num_qudits c) (dimensions c) g -> eval (tx "custom_data") = Err e ->
  exists line, gate_qasm show_float c g = Ok (line ++ [nl]) /\ nochar nl line /\ forall s, p_comment s = false -> parse_line eval load s line = Err e.
Proof.
  intros Hinv Hok (a & Hm & Hc & (mx & Epar) & Hctl & Hne & Hr) He. destruct (custom_facts _ _ _ _ Hm Hc) as (Htag & Hpar).
  destruct (target_lines g) as [|t ts] eqn:Et; [congruence|]. destruct (addr_words c ds Hinv Hok t ts Hr) as (Hw & Hws).
  eexists. split; [apply (gate_qasm_plain show_float c ds Hinv g [tx "custom_data"] t ts Hctl)|].
  - unfold in_range. rewrite Et. exact Hr.
  - exact Et.
  - rewrite Hpar, Epar. reflexivity.
  - split.
    + unfold gate_text. apply nochar_app; [apply word_nochar; [reflexivity|apply (tag_facts _ [] Htag)]|]. apply nochar_app; [intros [E|[]]; discriminate|].
      apply nochar_app; [intros Hx; cbn in Hx; decompose [or] Hx; try discriminate; contradiction|]. apply nochar_app; [|intros [E|[]]; discriminate]. unfold targets_text. apply nochar_app; [now apply dit_line|now apply more_line].
    + intros s Hs. rewrite parse_gate_line; [|exact Htag|exact Hs| |exact Hw|exact Hws].
      * rewrite (custom_params e He). reflexivity.
      * intros b Hb. cbn in Hb. decompose [or] Hb; subst; try reflexivity. contradiction.
Qed.
Lemma round_trip_custom (c : circuit (gate gdata)) ds (l rest : list (gate gdata * bool)) g e : reg_state c ds -> regs_ok ds ->
  instructions c = map user_gate (l ++ g :: rest) ->
  (forall x, In x (l ++ rest) -> (made_by show_float eval (num_qudits c) (dimensions c) (fst x) /\ levels_nonneg (fst x))) ->
  made_custom (num_qudits c) (dimensions c) (fst g) -> eval (tx "custom_data") = Err e ->
  exists txt, to_qasm show_float c = Ok txt /\ forall c0, from_qasm arr_empty eval load c0 txt = (reset c0, Some e).
Proof.
  intros Hs Hok Hins Hl Hg He. pose proof Hs as [Hinv Hregs].
  destruct (gate_lines c ds Hinv Hok l) as (lines & El & Hnl & Hpl); [intros x Hx; apply Hl, in_or_app; now left|].
  destruct (gate_lines c ds Hinv Hok rest) as (lines2 & El2 & Hnl2 & _); [intros x Hx; apply Hl, in_or_app; now right|].
  destruct (custom_line c ds (fst g) e Hinv Hok Hg He) as (line & Eg & Hng & Hpg).
  assert (Eall : mapr (gate_qasm show_float c) (map user_gate (l ++ g :: rest)) = Ok (map (fun t => t ++ [nl]) (lines ++ line :: lines2))).
  { rewrite !map_app. cbn [map]. clear - El El2 Eg. revert lines El. induction l as [|x l IH]; intros lines El; cbn [map app mapr] in *.
    - injection El as El. destruct lines; [|discriminate]. cbn [map app]. rewrite gate_qasm_user, Eg. cbn [bindr]. rewrite El2. reflexivity.
    - destruct (gate_qasm show_float c (user_gate x)) as [t|]; [|discriminate]. cbn [bindr] in *. destruct (mapr (gate_qasm show_float c) (map user_gate l)) as [ts|] eqn:E; [|discriminate]. cbn [bindr] in El. injection El as El.
      destruct lines as [|u lines]; [discriminate|]. cbn [map] in El. injection El as -> ->. rewrite (IH lines eq_refl). reflexivity. }
  destruct (whole_text c ds _ (lines ++ line :: lines2) Hs Hok Eall Hins) as (txt & Et & Ep).
  { intros t Ht. apply in_app_or in Ht as [Ht|[<-|Ht]]; auto. }
  exists txt. split; [exact Et|]. intros c0. unfold from_qasm. rewrite Ep.
  rewrite parse_lines_app, Hpl by reflexivity. cbn [bindr parse_lines p_sitemap p_classic p_gates]. rewrite Hpg by reflexivity. reflexivity.
Qed.
End RoundTrip.
