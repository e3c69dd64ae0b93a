(** Calling the gate methods again with what the parser returns. *)
From Coq Require Import Reals.
From Verif Require Import Base.Py Base.PyFacts Base.Text Base.TextFacts.
From Verif Require Import Circuit.CircuitModel Circuit.CircuitSpec Circuit.CircuitProofs Circuit.GateModel Gates.SingleModel Gates.TwoModel.
From Verif Require Import Qasm.QasmModel Qasm.QasmSpec Qasm.GateLineProofs.
Local Open Scope nat_scope.

Section NewGate.
Context {A : Type}.
Definition lines_of (tg : target) : list Z := match tg with TInt t => [t] | TList ts => ts end.
Definition long_of (tg : target) : res bool :=
  match lines_of tg with [] => Err CircuitError | l => Ok (if Nat.ltb 1 (List.length l) then any_gap (sortedZ l) else false) end.
Lemma new_gate_none num dims name t tg (data : A) :
  new_gate num dims name t tg None data = let? b := long_of tg in Ok (Gate name t tg None false b data).
Proof.
  unfold new_gate. cbv iota beta zeta. unfold check_long_range, reference_lines, control_lines, target_lines, long_of, lines_of. cbn [g_controls g_target app].
  destruct tg as [z|[|z ts]]; reflexivity.
Qed.
Lemma control_inv num dims (g0 : gate A) i s g1 : control num dims g0 i s = (g1, None) ->
  g1 = g0 \/ (i <> [] /\ s <> [] /\ is_single (g_type g0) = true /\ exists t, g1 = with_controls g0 (Some (i, s)) t).
Proof.
  unfold control. destruct (Nat.eqb_spec (List.length i) 0) as [|Hi]; [cbn [orb]; intros E; injection E as <-; now left|].
  destruct (Nat.eqb_spec (List.length s) 0) as [|Hs]; [cbn [orb]; intros E; injection E as <-; now left|]. cbn [orb].
  destruct (is_single (g_type g0)); [|discriminate]. cbn [negb].
  destruct (Nat.ltb num (List.length i) || existsb _ i); [discriminate|]. destruct (existsb _ i); [discriminate|].
  destruct (levels_beyond dims 0 s) as [[|]|]; try discriminate. intros E. injection E as <-. right.
  split; [intros ->; apply Hi; reflexivity|]. split; [intros ->; apply Hs; reflexivity|]. split; [reflexivity|]. eexists. reflexivity.
Qed.
Lemma new_gate_inv num dims name t tg ctl (data : A) g : new_gate num dims name t tg ctl data = Ok g ->
  g_name g = name /\ g_target g = tg /\ g_dagger g = false /\ g_data g = data /\
  ((g_controls g = None /\ new_gate num dims name t tg None data = Ok g) \/
   (exists i s, ctl = Some (i, s) /\ g_controls g = Some (i, s) /\ i <> [] /\ s <> [] /\ t = SINGLE)).
Proof.
  intros H. destruct ctl as [[i s]|].
  - unfold new_gate in H. destruct (control num dims (Gate name t tg None false false data) i s) as [g1 e] eqn:E. destruct e; [discriminate|].
    apply control_inv in E as [->|(Hi & Hs & Ht & t' & ->)].
    + split; [|split; [|split; [|split]]]; try (destruct (check_long_range _); [|discriminate H]; injection H as <-; reflexivity).
      left. split; [|exact H]. destruct (check_long_range _); [|discriminate H]. injection H as <-. reflexivity.
    + destruct (check_long_range _); [|discriminate H]. injection H as <-. repeat split; try reflexivity. right. exists i, s.
      cbn in Ht. destruct t; try discriminate Ht. repeat split; auto.
  - pose proof H as H'. rewrite new_gate_none in H. destruct (long_of tg); [|discriminate H]. injection H as <-.
    repeat split; try reflexivity. left. split; [reflexivity|exact H'].
Qed.
Lemma new_gate_data num dims name t tg (data data' : A) g : new_gate num dims name t tg None data = Ok g ->
  new_gate num dims name t tg None data' = Ok (Gate (g_name g) (g_type g) (g_target g) (g_controls g) (g_dagger g) (g_long g) data').
Proof. rewrite !new_gate_none. destruct (long_of tg); [|discriminate]. cbn [bindr]. intros E. injection E as <-. reflexivity. Qed.
End NewGate.

Section Import.
Context {Arr : Type}.
Notation gdata := (@gdata Arr).

Definition plain_methods : list string := ["x"; "z"; "h"; "s"; "csum"; "randu"]%string.
Definition noise_methods : list string := ["noisex"; "noisey"]%string.
(** what the parser hands over for the parameters *)
Definition handed (m : string) (p : @parg Arr) : Prop :=
  if existsb (String.eqb m) plain_methods then p = ANone else exists l, p = ATuple l /\ l <> [].
(** the parameters stored for what was handed over *)
Definition stored (tag : string) (p : @parg Arr) : @parg Arr :=
  if existsb (String.eqb tag) loses_params then ANone
  else if String.eqb tag "cx" then AList [PInt 0; PInt 1; PInt 1; PFloat 0] else p.

Definition import_facts num dims (a : @call Arr) (g : gate gdata) : Prop :=
  In (d_tag (g_data g)) tags /\ g_target g = a_qudits a /\ g_dagger g = false /\
  (existsb (String.eqb (a_method a)) plain_methods = true -> d_par (g_data g) = ANone) /\
  (if existsb (String.eqb (a_method a)) noise_methods
   then existsb (String.eqb (d_tag (g_data g))) not_read = true /\ dget String.eqb qasm_set (d_tag (g_data g)) = None
   else existsb (String.eqb (d_tag (g_data g))) not_read = false /\ dget String.eqb qasm_set (d_tag (g_data g)) = Some (a_method a) /\
        (g_controls g = None -> forall p : @parg Arr, handed (a_method a) p ->
           construct num dims (Call (a_method a) (a_qudits a) p None) = Ok (Some (with_par g (stored (d_tag (g_data g)) p))))).

Lemma with_par_data (g : gate gdata) tag ds p q : g_data g = GData tag ds p -> with_par g q = Gate (g_name g) (g_type g) (g_target g) (g_controls g) (g_dagger g) (g_long g) (GData tag ds q).
Proof. intros E. unfold with_par. rewrite E. reflexivity. Qed.
Lemma mk_again num dims pre shown t tag q ds p p' (g : gate gdata) ctl : mk num dims pre shown t tag q ds p ctl = Ok g -> g_controls g = None ->
  mk num dims pre shown t tag q ds p' None = Ok (with_par g p').
Proof.
  unfold mk. intros H Hc. destruct (new_gate_inv _ _ _ _ _ _ _ _ H) as (_ & _ & _ & Hd & [(_ & H0)|(i & s & _ & Hs & _)]); [|congruence].
  rewrite (new_gate_data _ _ _ _ _ _ (GData tag ds p') _ H0). now rewrite (with_par_data g tag ds p p' Hd).
Qed.
Lemma mk_facts num dims pre shown t tag q ds p (g : gate gdata) ctl : mk num dims pre shown t tag q ds p ctl = Ok g ->
  g_data g = GData tag ds p /\ g_target g = q /\ g_dagger g = false.
Proof. unfold mk. intros H. apply new_gate_inv in H as (_ & Ht & Hd & Hdata & _). auto. Qed.
Lemma with_par_id (g : gate gdata) : with_par g (d_par (g_data g)) = g.
Proof. destruct g as [? ? ? ? ? ? [? ? ?]]. reflexivity. Qed.


Lemma plain_one_facts num dims pre tag (a : @call Arr) g : plain_one num dims pre tag a = Ok g ->
  d_tag (g_data g) = tag /\ d_par (g_data g) = ANone /\ g_target g = a_qudits a /\ g_dagger g = false /\
  (g_controls g = None -> forall m p, plain_one num dims pre tag (Call m (a_qudits a) p None) = Ok (with_par g ANone)).
Proof.
  unfold plain_one. destruct (one_dim dims (a_qudits a)) as [d|] eqn:Ed; [|discriminate]. cbn [bindr]. intros H.
  destruct (mk_facts _ _ _ _ _ _ _ _ _ _ _ H) as (E & Et & Eg). rewrite E. repeat split; auto.
  intros Hc m p. cbn [a_qudits a_ctl]. rewrite Ed. cbn [bindr]. now apply (mk_again _ _ _ _ _ _ _ _ ANone ANone g (a_ctl a)).
Qed.
Lemma param_one_facts num dims pre tag v (a : @call Arr) g : (forall d, v d POther = Ok false) -> param_one num dims pre tag v a = Ok g ->
  d_tag (g_data g) = tag /\ g_target g = a_qudits a /\ g_dagger g = false /\
  (g_controls g = None -> forall m l, param_one num dims pre tag v (Call m (a_qudits a) (ATuple l) None) = Ok (with_par g ANone)).
Proof.
  unfold param_one. intros Hv. destruct (one_dim dims (a_qudits a)) as [d|] eqn:Ed; [|discriminate]. cbn [bindr].
  destruct (mk num dims pre (show_nat d) SINGLE tag (a_qudits a) [d] ANone (a_ctl a)) as [g0|] eqn:Eg; [|discriminate]. cbn [bindr].
  destruct (v d (as_params (a_par a))) as [b|]; [|discriminate]. cbn [bindr].
  destruct (mk_facts _ _ _ _ _ _ _ _ _ _ _ Eg) as (E & Et & Eda). intros H.
  assert (Hg : g = g0 \/ g = with_par g0 (a_par a)) by (destruct b; injection H as <-; auto). clear H.
  assert (F : d_tag (g_data g) = tag /\ g_target g = a_qudits a /\ g_dagger g = false /\ g_controls g = g_controls g0 /\ with_par g ANone = with_par g0 ANone).
  { destruct Hg as [->| ->]; cbn; rewrite E; repeat split; auto. }
  destruct F as (F1 & F2 & F3 & F4 & F5). repeat split; auto. intros Hc m l. cbn [a_qudits a_ctl a_par as_params]. rewrite Ed. cbn [bindr].
  rewrite (mk_again _ _ _ _ _ _ _ _ ANone ANone g0 (a_ctl a) Eg) by congruence. cbn [bindr]. rewrite Hv. cbn [bindr]. now rewrite F5.
Qed.

Lemma r_other d : r_validate d POther = Ok false. Proof. reflexivity. Qed.
Lemma rz_other d : rz_validate d POther = Ok false. Proof. reflexivity. Qed.
Lemma rh_other d : rh_validate d POther = Ok false. Proof. reflexivity. Qed.
Lemma vz_other d : vz_validate d POther = Ok false. Proof. reflexivity. Qed.


Lemma import_facts_all num dims (a : @call Arr) g : In (a_method a) exportable -> construct num dims a = Ok (Some g) -> import_facts num dims a g.
Proof.
  destruct a as [m q p0 ctl]. cbn [a_method]. intros Hm H. unfold exportable in Hm.
  assert (some_inv : forall r : res (gate gdata), bindr r (fun g => Ok (Some g)) = Ok (Some g) -> r = Ok g).
  { intros [x|e]; [|discriminate]. cbn. intros E. now injection E as <-. }
  assert (Splain : forall pre tag, In m plain_methods -> (forall (p : @parg Arr) c, construct num dims (Call m q p c) = bindr (plain_one num dims pre tag (Call m q p c)) (fun g => Ok (Some g))) ->
    In tag tags -> dget String.eqb qasm_set tag = Some m -> existsb (String.eqb m) plain_methods = true -> existsb (String.eqb m) noise_methods = false ->
    existsb (String.eqb tag) not_read = false -> existsb (String.eqb tag) loses_params = false -> String.eqb tag "cx" = false -> import_facts num dims (Call m q p0 ctl) g).
  { intros pre tag _ E Ht Hq Hpl Hno Hnr Hlo Hcx. rewrite E in H. apply some_inv in H. apply plain_one_facts in H as (E1 & E2 & E3 & E4 & E5). cbn [a_qudits] in *.
    unfold import_facts. cbn [a_method a_qudits]. rewrite E1, Hno. repeat split; auto. intros Hc p Hp. unfold handed in Hp. rewrite Hpl in Hp. subst p.
    rewrite E, (E5 Hc). unfold stored. rewrite Hlo, Hcx. reflexivity. }
  assert (Sparam : forall pre tag v, (forall d, v d POther = Ok false) -> (forall (p : @parg Arr) c, construct num dims (Call m q p c) = bindr (param_one num dims pre tag v (Call m q p c)) (fun g => Ok (Some g))) ->
    In tag tags -> dget String.eqb qasm_set tag = Some m -> existsb (String.eqb m) plain_methods = false -> existsb (String.eqb m) noise_methods = false ->
    existsb (String.eqb tag) not_read = false -> existsb (String.eqb tag) loses_params = true -> import_facts num dims (Call m q p0 ctl) g).
  { intros pre tag v Hv E Ht Hq Hpl Hno Hnr Hlo. rewrite E in H. apply some_inv in H. apply param_one_facts in H as (E1 & E3 & E4 & E5); [|exact Hv]. cbn [a_qudits] in *.
    unfold import_facts. cbn [a_method a_qudits]. rewrite E1, Hno, Hpl. repeat split; auto; [discriminate|]. intros Hc p Hp. unfold handed in Hp. rewrite Hpl in Hp. destruct Hp as (l & -> & _).
    rewrite E, (E5 Hc). unfold stored. rewrite Hlo. reflexivity. }
  assert (Snoise : forall pre tag v, (forall d, v d POther = Ok false) -> (forall (p : @parg Arr) c, construct num dims (Call m q p c) = bindr (param_one num dims pre tag v (Call m q p c)) (fun g => Ok (Some g))) ->
    In tag tags -> dget String.eqb qasm_set tag = None -> existsb (String.eqb m) plain_methods = false -> existsb (String.eqb m) noise_methods = true ->
    existsb (String.eqb tag) not_read = true -> import_facts num dims (Call m q p0 ctl) g).
  { intros pre tag v Hv E Ht Hq Hpl Hno Hnr. rewrite E in H. apply some_inv in H. apply param_one_facts in H as (E1 & E3 & E4 & E5); [|exact Hv]. cbn [a_qudits] in *.
    unfold import_facts. cbn [a_method a_qudits]. rewrite E1, Hno, Hpl. repeat split; auto. discriminate. }
  repeat (destruct Hm as [<-|Hm]); [..|destruct Hm].
  - apply (Splain "X" "x")%string; try reflexivity; unfold plain_methods, tags; cbn; tauto.
  - apply (Splain "Z" "z")%string; try reflexivity; unfold plain_methods, tags; cbn; tauto.
  - apply (Splain "H" "h")%string; try reflexivity; unfold plain_methods, tags; cbn; tauto.
  - (* s *) change (bindr (let? d := one_dim dims q in let? u := s_new d in plain_one num dims "S" "s" (Call "s" q p0 ctl)) (fun g => Ok (Some g)) = Ok (Some g)) in H.
    apply some_inv in H. destruct (one_dim dims q) as [d|] eqn:Ed; [|discriminate]. cbn [bindr] in H. destruct (s_new d) as [u|] eqn:Eu; [|discriminate]. cbn [bindr] in H.
    apply plain_one_facts in H as (E1 & E2 & E3 & E4 & E5). cbn [a_qudits] in *. unfold import_facts. cbn [a_method a_qudits]. rewrite E1.
    split; [unfold tags; cbn; tauto|]. split; [exact E3|]. split; [exact E4|]. split; [auto|]. split; [reflexivity|]. split; [reflexivity|].
    intros Hc p Hp. change (p = ANone) in Hp. subst p.
    change (bindr (let? d := one_dim dims q in let? u := s_new d in plain_one num dims "S" "s" (Call "s" q ANone None)) (fun g => Ok (Some g)) = Ok (Some (with_par g (stored "s" ANone)))).
    rewrite Ed. cbn [bindr]. rewrite Eu. cbn [bindr]. rewrite (E5 Hc). reflexivity.
  - apply (Sparam "R" "rxy" r_validate)%string; try reflexivity. unfold tags; cbn; tauto.
  - apply (Sparam "Rz" "rz" rz_validate)%string; try reflexivity. unfold tags; cbn; tauto.
  - apply (Sparam "Rh" "rh" rh_validate)%string; try reflexivity. unfold tags; cbn; tauto.
  - apply (Sparam "VirtRz" "virtrz" vz_validate)%string; try reflexivity. unfold tags; cbn; tauto.
  - (* pm *)
    assert (Epm : forall (p : @parg Arr) c, construct num dims (Call "pm" q p c) = bindr (let? d := one_dim dims q in
          let? g := mk num dims "Pm" (show_nat d) SINGLE "pm" q [d] p None in
          let? b := match p with AList l => pm_check d (List.length l) l | _ => Ok false end in Ok g) (fun g => Ok (Some g))) by reflexivity.
    rewrite Epm in H. apply some_inv in H. destruct (one_dim dims q) as [d|] eqn:Ed; [|discriminate]. cbn [bindr] in *.
    destruct (mk num dims "Pm" (show_nat d) SINGLE "pm" q [d] p0 None) as [g0|] eqn:Eg; [|discriminate]. cbn [bindr] in H.
    destruct (match p0 with AList l => pm_check d (List.length l) l | _ => Ok false end) as [b|]; [|discriminate]. cbn [bindr] in H. injection H as <-.
    destruct (mk_facts _ _ _ _ _ _ _ _ _ _ _ Eg) as (E & Et & Eda). unfold import_facts. cbn [a_method a_qudits]. rewrite E. cbn [d_tag].
    split; [unfold tags; cbn; tauto|]. split; [exact Et|]. split; [exact Eda|]. split; [discriminate|]. split; [reflexivity|]. split; [reflexivity|].
    intros Hc p Hp. change (exists l, p = ATuple l /\ l <> []) in Hp. destruct Hp as (l & -> & _). rewrite Epm.
    rewrite (mk_again _ _ _ _ _ _ _ _ p0 (ATuple l) g0 None Eg Hc). reflexivity.
  - (* csum *)
    assert (Ecs : forall (p : @parg Arr) c, construct num dims (Call "csum" q p c) = bindr (let? ds := many_dims dims q in
          mk num dims "CSum" (show_dims ds) TWO "csum" q ds ANone None) (fun g => Ok (Some g))) by reflexivity.
    rewrite Ecs in H. pose proof H as H'. apply some_inv in H. destruct (many_dims dims q) as [ds|] eqn:Ed; [|discriminate]. cbn [bindr] in *.
    destruct (mk_facts _ _ _ _ _ _ _ _ _ _ _ H) as (E & Et & Eda). unfold import_facts. cbn [a_method a_qudits]. rewrite E. cbn [d_tag d_par].
    split; [unfold tags; cbn; tauto|]. split; [exact Et|]. split; [exact Eda|]. split; [reflexivity|]. split; [reflexivity|]. split; [reflexivity|].
    intros Hc p Hp. change (p = ANone) in Hp. subst p. rewrite Ecs, H'. change (stored "csum" ANone) with (d_par (GData "csum" ds (@ANone Arr))). rewrite <- E. now rewrite with_par_id.
  - (* randu *)
    assert (Ecs : forall (p : @parg Arr) c, construct num dims (Call "randu" q p c) = bindr (let? ds := many_dims dims q in
          mk num dims "RandU" (show_dims ds) MULTI "rdu" q ds ANone None) (fun g => Ok (Some g))) by reflexivity.
    rewrite Ecs in H. pose proof H as H'. apply some_inv in H. destruct (many_dims dims q) as [ds|] eqn:Ed; [|discriminate]. cbn [bindr] in *.
    destruct (mk_facts _ _ _ _ _ _ _ _ _ _ _ H) as (E & Et & Eda). unfold import_facts. cbn [a_method a_qudits]. rewrite E. cbn [d_tag d_par].
    split; [unfold tags; cbn; tauto|]. split; [exact Et|]. split; [exact Eda|]. split; [reflexivity|]. split; [reflexivity|]. split; [reflexivity|].
    intros Hc p Hp. change (p = ANone) in Hp. subst p. rewrite Ecs, H'. change (stored "rdu" ANone) with (d_par (GData "rdu" ds (@ANone Arr))). rewrite <- E. now rewrite with_par_id.
  - (* cx *)
    assert (Ecx : forall (p : @parg Arr) c, construct num dims (Call "cx" q p c) = bindr (let? ds := many_dims dims q in
          let? g := mk num dims "CEx" (show_dims ds) TWO "cx" q ds (AList [PInt 0; PInt 1; PInt 1; PFloat 0]) None in
          match p with AList l => let? x := cex_new (PList l) in Ok (with_par g (AList l)) | _ => Ok g end) (fun g => Ok (Some g))) by reflexivity.
    rewrite Ecx in H. apply some_inv in H. destruct (many_dims dims q) as [ds|] eqn:Ed; [|discriminate]. cbn [bindr] in *.
    set (d0 := @AList Arr [PInt 0; PInt 1; PInt 1; PFloat 0]) in *.
    destruct (mk num dims "CEx" (show_dims ds) TWO "cx" q ds d0 None) as [g0|] eqn:Eg; [|discriminate]. cbn [bindr] in H.
    destruct (mk_facts _ _ _ _ _ _ _ _ _ _ _ Eg) as (E & Et & Eda).
    assert (Hg : g = g0 \/ exists l, g = with_par g0 (AList l)).
    { destruct p0 as [|l| | | ]; try (injection H as <-; now left). destruct (cex_new (PList l)); [|discriminate]. injection H as <-. right. now exists l. }
    assert (F : d_tag (g_data g) = "cx"%string /\ g_target g = q /\ g_dagger g = false /\ with_par g d0 = g0).
    { assert (Ewp : with_par g0 d0 = g0) by (replace d0 with (d_par (g_data g0)) by (rewrite E; reflexivity); apply with_par_id).
      destruct Hg as [->|(l & ->)]; cbn; rewrite E; repeat split; auto. }
    destruct F as (F1 & F2 & F3 & F4). unfold import_facts. cbn [a_method a_qudits]. rewrite F1.
    split; [unfold tags; cbn; tauto|]. split; [exact F2|]. split; [exact F3|]. split; [discriminate|]. split; [reflexivity|]. split; [reflexivity|].
    intros Hc p Hp. change (exists l, p = ATuple l /\ l <> []) in Hp. destruct Hp as (l & -> & _). rewrite Ecx. change (stored "cx" (ATuple l)) with d0. now rewrite F4.
  - (* ls *)
    assert (Els : forall (p : @parg Arr) c, construct num dims (Call "ls" q p c) = bindr (let? ds := many_dims dims q in
          let? u := match p with AList [] | ATuple [] => Err IndexError | ANone | ACtl _ _ => Err TypeError | _ => Ok tt end in
          let? g := mk num dims "LS" (show_dims ds) TWO "ls" q ds p None in
          match p with AList l => let? x := angle_new l in Ok g | _ => Ok g end) (fun g => Ok (Some g))) by reflexivity.
    rewrite Els in H. apply some_inv in H. destruct (many_dims dims q) as [ds|] eqn:Ed; [|discriminate]. cbn [bindr] in *.
    destruct (match p0 with AList [] | ATuple [] => Err IndexError | ANone | ACtl _ _ => Err TypeError | _ => Ok tt end) as [u|]; [|discriminate]. cbn [bindr] in H.
    destruct (mk num dims "LS" (show_dims ds) TWO "ls" q ds p0 None) as [g0|] eqn:Eg; [|discriminate]. cbn [bindr] in H.
    assert (Hg : g0 = g) by (destruct p0 as [|l0| | |]; try (now injection H as <-); destruct (angle_new l0); [now injection H as <-|discriminate]). subst g0.
    destruct (mk_facts _ _ _ _ _ _ _ _ _ _ _ Eg) as (E & Et & Eda). unfold import_facts. cbn [a_method a_qudits]. rewrite E. cbn [d_tag d_par].
    split; [unfold tags; cbn; tauto|]. split; [exact Et|]. split; [exact Eda|]. split; [discriminate|]. split; [reflexivity|]. split; [reflexivity|].
    intros Hc p Hp. change (exists l, p = ATuple l /\ l <> []) in Hp. destruct Hp as (l & -> & Hl). rewrite Els. destruct l as [|x l]; [congruence|]. cbn [bindr].
    rewrite (mk_again _ _ _ _ _ _ _ _ p0 (ATuple (x :: l)) g None Eg Hc). reflexivity.
  - (* ms *)
    assert (Els : forall (p : @parg Arr) c, construct num dims (Call "ms" q p c) = bindr (let? ds := many_dims dims q in
          let? u := match p with AList [] | ATuple [] => Err IndexError | ANone | ACtl _ _ => Err TypeError | _ => Ok tt end in
          let? g := mk num dims "MS" (show_dims ds) TWO "ms" q ds p None in
          match p with AList l => let? x := angle_new l in Ok g | _ => Ok g end) (fun g => Ok (Some g))) by reflexivity.
    rewrite Els in H. apply some_inv in H. destruct (many_dims dims q) as [ds|] eqn:Ed; [|discriminate]. cbn [bindr] in *.
    destruct (match p0 with AList [] | ATuple [] => Err IndexError | ANone | ACtl _ _ => Err TypeError | _ => Ok tt end) as [u|]; [|discriminate]. cbn [bindr] in H.
    destruct (mk num dims "MS" (show_dims ds) TWO "ms" q ds p0 None) as [g0|] eqn:Eg; [|discriminate]. cbn [bindr] in H.
    assert (Hg : g0 = g) by (destruct p0 as [|l0| | |]; try (now injection H as <-); destruct (angle_new l0); [now injection H as <-|discriminate]). subst g0.
    destruct (mk_facts _ _ _ _ _ _ _ _ _ _ _ Eg) as (E & Et & Eda). unfold import_facts. cbn [a_method a_qudits]. rewrite E. cbn [d_tag d_par].
    split; [unfold tags; cbn; tauto|]. split; [exact Et|]. split; [exact Eda|]. split; [discriminate|]. split; [reflexivity|]. split; [reflexivity|].
    intros Hc p Hp. change (exists l, p = ATuple l /\ l <> []) in Hp. destruct Hp as (l & -> & Hl). rewrite Els. destruct l as [|x l]; [congruence|]. cbn [bindr].
    rewrite (mk_again _ _ _ _ _ _ _ _ p0 (ATuple (x :: l)) g None Eg Hc). reflexivity.
  - apply (Snoise "NoiseX" "noisex" rh_validate)%string; try reflexivity. unfold tags; cbn; tauto.
  - apply (Snoise "NoiseY" "noisey" rh_validate)%string; try reflexivity. unfold tags; cbn; tauto.
Qed.
End Import.
