(** The round trip for circuits built by a history of operations, its consequences and witnesses. *)
From Coq Require Import Reals Lra.
From Verif Require Import Base.Py Base.PyFacts Base.Text Base.TextFacts Base.Regex Base.RegexFacts.
From Verif Require Import Circuit.CircuitModel Circuit.CircuitSpec Circuit.CircuitProofs Circuit.GateModel Gates.SingleModel Gates.TwoModel.
From Verif Require Import Qasm.QasmModel Qasm.QasmSpec Qasm.LineProofs Qasm.CtlProofs Qasm.RegProofs Qasm.GateLineProofs Qasm.ImportProofs Qasm.QasmProofs Qasm.ParserProofs.
Local Open Scope nat_scope.

Section Facts.
Context {Arr : Type}.
Variable arr_empty : Arr -> bool.
Variable show_float : R -> text.
Variable eval : text -> res (option R).
Variable load : text -> res Arr.
Notation gdata := (@gdata Arr).

Lemma run_round_trip (ops : list (op (gate gdata))) (l : list (gate gdata * bool)) :
  legal_appends [] ops -> regs_ok (declared [] ops) ->
  instructions (run empty_circuit ops) = map user_gate l ->
  (forall x, In x l -> made_by show_float eval (num_qudits (run empty_circuit ops)) (dimensions (run empty_circuit ops)) (fst x) /\ g_controls (fst x) = None) ->
  exists txt, to_qasm show_float (run empty_circuit ops) = Ok txt /\
  forall c0, exists c', from_qasm arr_empty eval load c0 txt = (c', None) /\ same_registers (run empty_circuit ops) c' /\
    instructions c' = flat_map gate_back (map fst l) /\ number_gates c' = Z.of_nat (List.length (instructions c')).
Proof. intros Hl Hok Hi Hm. apply (round_trip arr_empty show_float eval load _ (declared [] ops)); [|exact Hok|exact Hi|exact Hm]. apply (run_state ops empty_circuit [] state_empty Hl). Qed.

Lemma gate_back_unchanged num dims (g : gate gdata) : made_by show_float eval num dims g -> unchanged g -> gate_back g = [g].
Proof.
  intros (a & Hm & Hc & Hp & _) Hu. destruct (import_facts_all _ _ _ _ Hm Hc) as (_ & _ & _ & Hpl & Hrest).
  assert (Hnr : existsb (String.eqb (d_tag (g_data g))) not_read = false).
  { destruct Hu as [Hu|[-> _]]; [|reflexivity]. unfold not_read. repeat (destruct Hu as [<-|Hu]; [reflexivity|]). destruct Hu. }
  assert (Hpar : par_back (d_tag (g_data g)) (d_par (g_data g)) = d_par (g_data g)).
  { destruct Hu as [Hu|[-> ->]]; [|reflexivity]. destruct (existsb (String.eqb (a_method a)) noise_methods).
    - destruct Hrest as [Hn _]. congruence.
    - destruct Hrest as (_ & Hq & _). rewrite Hpl; [repeat (destruct Hu as [<-|Hu]; [reflexivity|]); destruct Hu|].
      repeat (destruct Hu as [Hu|Hu]; [rewrite <- Hu in Hq; injection Hq as <-; reflexivity|]). destruct Hu. }
  unfold gate_back. rewrite Hnr, Hpar. destruct g as [n t tg ct dg lg [tag ds p]]. reflexivity.
Qed.
Lemma exact_round_trip (ops : list (op (gate gdata))) :
  legal_appends [] ops -> regs_ok (declared [] ops) ->
  (forall g, In g (instructions (run empty_circuit ops)) -> made_by show_float eval (num_qudits (run empty_circuit ops)) (dimensions (run empty_circuit ops)) g /\ g_controls g = None /\ unchanged g) ->
  exists txt, to_qasm show_float (run empty_circuit ops) = Ok txt /\
  forall c0, exists c', from_qasm arr_empty eval load c0 txt = (c', None) /\ same_registers (run empty_circuit ops) c' /\
    instructions c' = instructions (run empty_circuit ops) /\ number_gates c' = Z.of_nat (List.length (instructions c')).
Proof.
  intros Hl Hok Hm. set (c := run empty_circuit ops) in *.
  assert (E : instructions c = map user_gate (map (fun g => (g, false)) (instructions c))) by (rewrite map_map; cbn; symmetry; apply map_id).
  destruct (run_round_trip ops (map (fun g => (g, false)) (instructions c)) Hl Hok E) as (txt & Ht & H).
  { intros x Hx. apply in_map_iff in Hx as (g & <- & Hg). cbn. fold c. destruct (Hm g Hg) as (H1 & H2 & _). auto. }
  exists txt. split; [exact Ht|]. intros c0. destruct (H c0) as (c' & H1 & H2 & H3 & H4). exists c'. split; [exact H1|]. split; [exact H2|]. split; [|exact H4].
  rewrite H3, map_map. cbn [fst]. rewrite map_id. clear - Hm. revert Hm. fold c. induction (instructions c) as [|g gs IH]; intros Hm; [reflexivity|]. cbn [flat_map].
  destruct (Hm g ltac:(now left)) as (M1 & _ & M2). rewrite (gate_back_unchanged _ _ g M1 M2). cbn [app]. f_equal. apply IH. intros x Hx. apply Hm. now right.
Qed.

Lemma lost_information (ops : list (op (gate gdata))) (l : list (gate gdata * bool)) :
  legal_appends [] ops -> regs_ok (declared [] ops) ->
  instructions (run empty_circuit ops) = map user_gate l ->
  (forall x, In x l -> made_by show_float eval (num_qudits (run empty_circuit ops)) (dimensions (run empty_circuit ops)) (fst x) /\ g_controls (fst x) = None) ->
  exists txt, to_qasm show_float (run empty_circuit ops) = Ok txt /\
  forall c0, exists c', from_qasm arr_empty eval load c0 txt = (c', None) /\
    forall g, In g (instructions c') -> g_dagger g = false /\ ~ In (d_tag (g_data g)) not_read /\ (In (d_tag (g_data g)) loses_params -> d_par (g_data g) = ANone).
Proof.
  intros Hl Hok Hi Hm. destruct (run_round_trip ops l Hl Hok Hi Hm) as (txt & Ht & H). exists txt. split; [exact Ht|]. intros c0.
  destruct (H c0) as (c' & H1 & _ & H3 & _). exists c'. split; [exact H1|]. intros g Hg. rewrite H3 in Hg. apply in_flat_map in Hg as (g0 & Hg0 & Hg).
  apply in_map_iff in Hg0 as (x & <- & Hx). destruct (Hm x Hx) as ((a & Ha & Hc & _) & _). destruct (import_facts_all _ _ _ _ Ha Hc) as (_ & _ & Hd & _).
  unfold gate_back in Hg. destruct (existsb (String.eqb (d_tag (g_data (fst x)))) not_read) eqn:En; [destruct Hg|]. destruct Hg as [<-|[]]. cbn [g_dagger g_data d_tag d_par].
  split; [exact Hd|]. split.
  - intros Hin. assert (E : existsb (String.eqb (d_tag (g_data (fst x)))) not_read = true) by (apply existsb_exists; eexists; split; [exact Hin|apply String.eqb_refl]). congruence.
  - intros Hin. unfold par_back. assert (E : existsb (String.eqb (d_tag (g_data (fst x)))) loses_params = true) by (apply existsb_exists; eexists; split; [exact Hin|apply String.eqb_refl]). now rewrite E.
Qed.

Lemma run_ctl (ops : list (op (gate gdata))) (l : list (gate gdata * bool)) :
  legal_appends [] ops -> regs_ok (declared [] ops) ->
  instructions (run empty_circuit ops) = map user_gate l ->
  (forall x, In x l -> made_by show_float eval (num_qudits (run empty_circuit ops)) (dimensions (run empty_circuit ops)) (fst x) /\
     ~ In (d_tag (g_data (fst x))) not_read /\
     (forall i s, g_controls (fst x) = Some (i, s) -> forall z, In z s -> (0 <= z)%Z)) ->
  (exists x, In x l /\ g_controls (fst x) <> None) ->
  exists txt, to_qasm show_float (run empty_circuit ops) = Ok txt /\ forall c0, snd (from_qasm arr_empty eval load c0 txt) = Some IndexError.
Proof.
  intros Hl Hok Hi Hm Hex. apply (round_trip_ctl arr_empty show_float eval load _ (declared [] ops) l); [|exact Hok|exact Hi| |exact Hex|].
  - apply (run_state ops empty_circuit [] state_empty Hl).
  - intros x Hx. destruct (Hm x Hx) as (H1 & _ & H3). split; assumption.
  - intros x Hx _. destruct (Hm x Hx) as (_ & H2 & _). destruct (existsb (String.eqb (d_tag (g_data (fst x)))) not_read) eqn:E; [|reflexivity].
    exfalso. apply H2. apply existsb_exists in E as (t & Ht & E). apply String.eqb_eq in E as ->. exact Ht.
Qed.
Lemma run_custom (ops : list (op (gate gdata))) (l rest : list (gate gdata)) g e :
  legal_appends [] ops -> regs_ok (declared [] ops) ->
  instructions (run empty_circuit ops) = l ++ g :: rest ->
  (forall x, In x (l ++ rest) -> made_by show_float eval (num_qudits (run empty_circuit ops)) (dimensions (run empty_circuit ops)) x /\ g_controls x = None) ->
  made_custom (num_qudits (run empty_circuit ops)) (dimensions (run empty_circuit ops)) g -> eval (tx "custom_data") = Err e ->
  exists txt, to_qasm show_float (run empty_circuit ops) = Ok txt /\ forall c0, from_qasm arr_empty eval load c0 txt = (reset c0, Some e).
Proof.
  intros Hl Hok Hi Hm Hg He.
  apply (round_trip_custom arr_empty show_float eval load _ (declared [] ops) (map (fun g => (g, false)) l) (map (fun g => (g, false)) rest) (g, false) e).
  - apply (run_state ops empty_circuit [] state_empty Hl).
  - exact Hok.
  - rewrite Hi. rewrite map_app. cbn [map]. rewrite !map_map. cbn. now rewrite !map_id.
  - intros x Hx. rewrite <- map_app in Hx. apply in_map_iff in Hx as (y & <- & Hy). cbn. destruct (Hm y Hy) as (H1 & H2). split; [exact H1|]. intros i s E. cbn in E. congruence.
  - exact Hg.
  - exact He.
Qed.

(** A parameter gate without parameters, which is what the importer makes of R, Rz, Rh and VirtRz,
    is exported as a line that cannot be imported. *)
Lemma second_trip_line : forall c0 : circuit (gate gdata), forall tag, In tag loses_params ->
  snd (from_qasm arr_empty eval load c0 (tx "qreg q [1][3];" ++ [nl] ++ tx tag ++ tx " q[0];")) = Some TypeError.
Proof. intros c0 tag [<-|[<-|[<-|[<-|[]]]]]; reflexivity. Qed.
Lemma classical_lost : forall c0 : circuit (gate gdata), exists (c : circuit (gate gdata)) txt c',
  classic_registers c = [CReg "answer" 1 [(0, 0)]] /\ to_qasm show_float c = Ok txt /\ from_qasm arr_empty eval load c0 txt = (c', None) /\
  map c_label (classic_registers c') = ["meas"%string].
Proof.
  intros c0. exists (append_classic (fst (append empty_circuit (new_qreg "q" 1 None))) (new_creg "answer" 1)). do 2 eexists. repeat split; reflexivity.
Qed.
Lemma conditional_made_unconditional : forall s : @pstate Arr, p_sitemap s = [(("q"%string, 0), (0, 2))] -> p_comment s = false ->
  parse_line eval load s (tx "if(c==1) x q[0];") = Ok (PState (p_sitemap s) (p_classic s) (p_gates s ++ [Instr "x" (ATuple []) [(0, 2)] None]) false).
Proof. intros [sm cl gs d] H1 H2. cbn in H1, H2. subst sm d. reflexivity. Qed.
Lemma second_statement_dropped : forall s : @pstate Arr, p_sitemap s = [(("q"%string, 0), (0, 2))] -> p_comment s = false ->
  parse_line eval load s (tx "x q[0]; z q[0];") = Ok (PState (p_sitemap s) (p_classic s) (p_gates s ++ [Instr "x" (ATuple []) [(0, 2)] None]) false).
Proof. intros [sm cl gs d] H1 H2. cbn in H1, H2. subst sm d. reflexivity. Qed.
Lemma unknown_name_dropped : forall c0 : circuit (gate gdata), exists c',
  from_qasm arr_empty eval load c0 (tx "qreg q [1][3];" ++ [nl] ++ tx "x q[0];" ++ [nl] ++ tx "foo q[0];") = (c', None) /\ List.length (instructions c') = 1.
Proof. intros c0. eexists. split; reflexivity. Qed.
Lemma gellmann_dropped (c : circuit (gate gdata)) o c' : i_name o = "gell"%string -> import_op arr_empty c o = (c', None) -> c' = c.
Proof.
  intros Hn. unfold import_op. rewrite Hn. change (dget String.eqb qasm_set "gell"%string) with (Some "gellmann"%string). destruct (i_qudits o) as [|q0 qs]; [discriminate|].
  destruct (positional _ _ _ _ _) as [a|] eqn:Ep; [|discriminate]. cbn [bindr].
  assert (Ea : a_method a = "gellmann"%string).
  { unfold positional in Ep. destruct (signature "gellmann"%string) as [[tp np] tc]. repeat match type of Ep with context [if ?b then _ else _] => destruct b | context [match i_controls o with _ => _ end] => destruct (i_controls o) as [[? ?]|] end;
      try discriminate; injection Ep as <-; reflexivity. }
  destruct (construct (num_qudits c) (dimensions c) a) as [[g|]|] eqn:Ec; [|intros H; now injection H|discriminate].
  exfalso. unfold construct in Ec. rewrite Ea in Ec. cbn [String.eqb Ascii.eqb Bool.eqb] in Ec.
  change (match a_par a with
    | AList l => let? d := one_dim (dimensions c) (a_qudits a) in
                 let? x := get_int l 0 in let? y := get_int l 1 in let? s := get_str l 2 in
                 let? b := gellmann_validate x y in Ok None
    | _ => Err AssertionError
    end = Ok (Some g)) in Ec. destruct (a_par a); try discriminate.
  repeat match type of Ec with context [bindr ?r _] => destruct r; try discriminate; cbn [bindr] in Ec end.
Qed.
End Facts.

(** ** a concrete circuit *)
Definition ex_show (x : R) : text := tx "0.5".
Definition ex_eval (t : text) : res (option R) :=
  if containsb (tx "custom") t then Err NameError
  else if containsb (tx ".") t then Ok (Some (1 / 2)%R) else Ok (Some (INR (read_nat (strip is_space t)))).
Definition ex_gate (r : res (option (gate (@gdata unit)))) : gate (@gdata unit) :=
  match r with Ok (Some g) => g | _ => Gate "" SINGLE (TInt 0) None false false (GData "" [] ANone) end.
Definition ex_x := ex_gate (construct 3 [3; 2; 4] (Call "x" (TInt 2) ANone None)).
Definition ex_csum := ex_gate (construct 3 [3; 2; 4] (Call "csum" (TList [1; 0]%Z) ANone None)).
Definition ex_pm := ex_gate (let? g := mk 3 [3; 2; 4] "Pm" (tx "3") SINGLE "pm" (TInt 0) [3] (AList [PInt 2; PInt 0; PInt 1]) None in Ok (Some g)).
Definition ex_cx := ex_gate (construct 3 [3; 2; 4] (Call "x" (TInt 0) ANone (Some ([2]%Z, [1]%Z)))).
Definition ex_cu := ex_gate (construct 3 [3; 2; 4] (Call "cu_one" (TInt 0) (AArray tt) None)).
Definition ex_ops (gs : list (gate (@gdata unit))) : list (op (gate (@gdata unit))) :=
  [OpAppend (new_qreg "q" 2 (Some [3; 2])); OpAppend (new_qreg "anc" 1 (Some [4]))] ++ map (fun g => OpAdd (Ok g)) gs.
Lemma ex_pm_made : construct 3 [3; 2; 4] (Call "pm" (TInt 0) (AList [PInt 2; PInt 0; PInt 1]) None) = Ok (Some ex_pm).
Proof.
  assert (E : pm_check 3 3 [PInt 2; PInt 0; PInt 1] = Ok true).
  { cbn [pm_check]. unfold below. cbn [INR]. repeat (destruct (Rle_dec _ _); [|lra]); repeat (destruct (Rlt_dec _ _); [|lra]). reflexivity. }
  unfold construct. cbn [a_method a_qudits a_par]. change (List.length [PInt 2; PInt 0; PInt 1]) with 3.
  change (one_dim [3; 2; 4] (TInt 0)) with (Ok 3). cbn [bindr]. rewrite E. reflexivity.
Qed.
Lemma ex_legal gs : legal_appends [] (ex_ops gs).
Proof.
  unfold ex_ops. cbn. repeat split; try (intros H; repeat destruct H as [H|H]; discriminate || assumption).
  induction gs; [exact I|exact IHgs].
Qed.
Lemma ex_declared gs : declared [] (ex_ops gs) = [("q"%string, [3; 2]); ("anc"%string, [4])].
Proof. unfold ex_ops. cbn. induction gs; [reflexivity|exact IHgs]. Qed.
Lemma ex_regs gs : regs_ok (declared [] (ex_ops gs)).
Proof.
  rewrite ex_declared. intros label dims [H|[H|[]]]; injection H as <- <-; (split; [|discriminate]); (split; [discriminate|]); intros a Ha; cbn in Ha; decompose [or] Ha; subst; try reflexivity; contradiction.
Qed.
Lemma ex_run gs : let c := run empty_circuit (ex_ops gs) in instructions c = gs /\ num_qudits c = 3 /\ dimensions c = [3; 2; 4].
Proof.
  cbv zeta. unfold ex_ops. cbn [app]. unfold run. cbn [fold_left].
  set (c := fst (step (fst (step empty_circuit _)) _)). assert (Hc : instructions c = [] /\ num_qudits c = 3 /\ dimensions c = [3; 2; 4]) by (repeat split).
  change gs with ([] ++ gs) at 2. destruct Hc as (H1 & H2 & H3). rewrite <- H1. clearbody c. clear H1. revert c H2 H3. induction gs as [|g gs IH]; intros c H2 H3; cbn [map fold_left].
  - rewrite app_nil_r. auto.
  - destruct (IH (fst (step c (OpAdd (Ok g)))) H2 H3) as (E1 & E2 & E3). rewrite E1, E2, E3. cbn. rewrite <- app_assoc. auto.
Qed.
Lemma ex_made g : g = ex_x \/ g = ex_csum \/ g = ex_pm \/ g = ex_cx -> made_by ex_show ex_eval 3 [3; 2; 4] g.
Proof.
  intros [->|[->|[->| ->]]].
  - exists (Call "x" (TInt 2) ANone None). split; [cbn; tauto|]. split; [reflexivity|]. split; [left; cbn; tauto|]. split; [intros t [<-|[]]; lia|discriminate].
  - exists (Call "csum" (TList [1; 0]%Z) ANone None). split; [cbn; tauto|]. split; [reflexivity|]. split; [left; cbn; tauto|]. split; [intros t [<-|[<-|[]]]; lia|].
    intros ts E. injection E as <-. auto.
  - exists (Call "pm" (TInt 0) (AList [PInt 2; PInt 0; PInt 1]) None). split; [cbn; tauto|]. split; [exact ex_pm_made|].
    split; [right; exists [PInt 2; PInt 0; PInt 1]; split; [reflexivity|]; split; [discriminate|]|].
    + assert (P : forall n, n < 3 -> printable ex_show ex_eval (PInt (Z.of_nat n))).
      { intros n Hn. assert (E : INR n = num_of (PInt (Z.of_nat n))) by (cbn; now rewrite INR_IZR_INZ). unfold printable. rewrite <- E.
        destruct n as [|[|[|n]]]; [| | |lia]; (split; [split; [discriminate|intros a [<-|[]]; reflexivity]|]); split; reflexivity. }
      intros p [<-|[<-|[<-|[]]]]; [apply (P 2)|apply (P 0)|apply (P 1)]; lia.
    + split; [intros t [<-|[]]; lia|discriminate].
  - exists (Call "x" (TInt 0) ANone (Some ([2]%Z, [1]%Z))). split; [cbn; tauto|]. split; [reflexivity|]. split; [left; cbn; tauto|]. split; [intros t [<-|[]]; lia|discriminate].
Qed.
Lemma ex_made_custom : made_custom 3 [3; 2; 4] ex_cu.
Proof. exists (Call "cu_one" (TInt 0) (AArray tt) None). split; [cbn; tauto|]. split; [reflexivity|]. split; [now exists tt|]. split; [reflexivity|]. split; [discriminate|]. intros t [<-|[]]; lia. Qed.
