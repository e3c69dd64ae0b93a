(** What becomes of control clauses, of the bits of classical registers and of bracketed parameters on import (C20), and
    which lists the method pm takes (C15). *)
From Coq Require Import Reals Lia Lra.
From Verif Require Import Base.Py Base.PyFacts Base.Text Base.Regex.
From Verif Require Import Circuit.CircuitModel Circuit.CircuitProofs Circuit.GateModel Circuit.GateProofs Circuit.ConstructorProofs Gates.SingleModel Gates.TwoModel.
From Verif Require Import Qasm.QasmModel Qasm.QasmSpec Qasm.ParserProofs Qasm.RegProofs Qasm.LineProofs.
Local Open Scope nat_scope.

(** *** Controls *)
Lemma controls_of_mk {Arr} num dims pre sh t tag q ds (p : @parg Arr) i s g : i <> [] -> s <> [] -> mk num dims pre sh t tag q ds p (Some (i, s)) = Ok g -> g_controls g = Some (i, s).
Proof. intros Hi Hs H. unfold mk in H. apply gate_controls in H; tauto. Qed.
Lemma construct_controls {Arr} num dims (a : @call Arr) g i s : i <> [] -> s <> [] -> a_ctl a = Some (i, s) ->
  In (a_method a) ["x"; "z"; "h"; "s"; "r"; "rz"; "rh"; "virtrz"; "cu_one"; "cu_two"; "cu_multi"]%string ->
  construct num dims a = Ok (Some g) -> g_controls g = Some (i, s).
Proof.
  intros Hi Hs Ea Hm H. destruct a as [m q p ctl]. cbn [a_method a_ctl] in *. subst ctl.
  repeat (destruct Hm as [<-|Hm]; [unfold construct in H; cbn in H; unfold plain_one, param_one in H; cbn [a_qudits a_par a_ctl] in H|]); [..|contradiction].
  all: repeat match type of H with
    | context [one_dim ?x ?y] => destruct (one_dim x y); cbn [bindr] in H; try discriminate
    | context [many_dims ?x ?y] => destruct (many_dims x y); cbn [bindr] in H; try discriminate
    | context [s_new ?x] => destruct (s_new x); cbn [bindr] in H; try discriminate
    end.
  all: match type of H with context [mk ?a1 ?a2 ?a3 ?a4 ?a5 ?a6 ?a7 ?a8 ?a9 ?a10] => destruct (mk a1 a2 a3 a4 a5 a6 a7 a8 a9 a10) as [g0|] eqn:E; cbn [bindr] in H; [|discriminate] end.
  all: apply controls_of_mk in E; trivial.
  all: try (injection H as <-; exact E).
  all: match type of H with context [bindr ?r _] => destruct r as [[|]|]; cbn [bindr] in H; try discriminate end; injection H as <-; exact E.
Qed.
Lemma import_controls {Arr} (arr_empty : Arr -> bool) (c c' : circuit (gate (@gdata Arr))) o m i s : dget String.eqb qasm_set (i_name o) = Some m -> m <> "gellmann"%string ->
  i_controls o = Some (i, s) -> i <> [] -> s <> [] -> par_nonempty arr_empty (i_params o) = true \/ In m ["x"; "z"; "h"; "s"]%string ->
  import_op arr_empty c o = (c', None) -> exists g, instructions c' = instructions c ++ [g] /\ g_controls g = Some (i, s).
Proof.
  intros Hm Hg Ec Hi Hs Hp H. unfold import_op in H. rewrite Hm in H. destruct (i_qudits o) as [|q0 qs]; [discriminate|]. rewrite Ec in H.
  destruct (positional arr_empty m _ (i_params o) (Some (i, s))) as [a|] eqn:Ep; [|discriminate]. cbn [bindr] in H.
  assert (A : a_ctl a = Some (i, s) /\ In (a_method a) ["x"; "z"; "h"; "s"; "r"; "rz"; "rh"; "virtrz"; "cu_one"; "cu_two"; "cu_multi"]%string).
  { clear H. unfold positional in Ep. apply (dget_In String.eqb (fun a b => String.eqb_eq a b)) in Hm.
    destruct (par_nonempty arr_empty (i_params o)).
    - cbn in Hm. repeat (destruct Hm as [Hm|Hm]; [injection Hm as _ <-; cbn in Ep; try discriminate; try (contradiction (Hg eq_refl)); injection Ep as <-; cbn; tauto|]). contradiction.
    - destruct Hp as [Hp|Hp]; [discriminate|]. repeat (destruct Hp as [<-|Hp]; [cbn in Ep; injection Ep as <-; cbn; tauto|]). contradiction. }
  destruct A as [A1 A2]. destruct (construct (num_qudits c) (dimensions c) a) as [[g|]|] eqn:E; [| |discriminate].
  - injection H as <-. exists g. split; [reflexivity|]. apply (construct_controls _ _ a g i s Hi Hs A1 A2 E).
  - apply construct_none in E. rewrite E in A2. cbn in A2. decompose [or] A2; discriminate || contradiction.
Qed.
(** A controlled gate that needs parameters and is written without: the controls are taken for the parameters and dropped. *)
Lemma controls_lost (Arr : Type) (arr_empty : Arr -> bool) eval load (c0 : circuit (gate (@gdata Arr))) : exists c' g,
  from_qasm arr_empty eval load c0 (tx "qreg q [2][3,2];" ++ [nl] ++ tx "rz q[0] ctl q[1] [1];") = (c', None) /\ instructions c' = [g] /\ g_controls g = None /\ target_lines g = [0%Z].
Proof. eexists. eexists. split; [vm_compute; reflexivity|]. split; [reflexivity|]. split; reflexivity. Qed.

(** *** Bits *)
Lemma creg_loop_get name n : forall i sm k, (forall j, i <= j -> dget key_eqb sm (name, j) = None) ->
  dget key_eqb (creg_loop name i n sm) k = if (String.eqb (fst k) name && (i <=? snd k) && (snd k <? i + n))%bool then Some (List.length sm + (snd k - i)) else dget key_eqb sm k.
Proof.
  induction n as [|n IH]; intros i sm k H; cbn [creg_loop].
  - replace (_ && _)%bool with false; [reflexivity|]. destruct (String.eqb (fst k) name); [|reflexivity]. destruct (Nat.leb_spec i (snd k)); [|reflexivity]. destruct (Nat.ltb_spec (snd k) (i + 0)); [lia|reflexivity].
  - assert (FR : ~ In (name, i) (dkeys sm)) by (apply (dget_None key_eqb key_eqb_spec); apply H; lia).
    rewrite IH.
    + rewrite (dset_fresh key_eqb key_eqb_spec sm _ _ FR), app_length. cbn [List.length].
      destruct (String.eqb_spec (fst k) name) as [En|En]; cbn [andb].
      * destruct (Nat.leb_spec (S i) (snd k)); cbn [andb].
        -- rewrite (proj2 (Nat.leb_le i (snd k))) by lia. cbn [andb]. replace (i + S n) with (S i + n) by lia. destruct (snd k <? S i + n) eqn:E.
           ++ f_equal. lia.
           ++ rewrite <- (dset_fresh key_eqb key_eqb_spec sm _ (List.length sm) FR). apply (dget_dset_other key_eqb key_eqb_spec). intros ->. cbn in *. lia.
        -- destruct (Nat.leb_spec i (snd k)); cbn [andb].
           ++ assert (snd k = i) by lia. rewrite (proj2 (Nat.ltb_lt _ _)) by lia. destruct k as [a b]. cbn in *. subst. rewrite <- (dset_fresh key_eqb key_eqb_spec sm _ (List.length sm) FR).
              rewrite (dget_dset_same key_eqb key_eqb_spec). f_equal. lia.
           ++ rewrite <- (dset_fresh key_eqb key_eqb_spec sm _ (List.length sm) FR). apply (dget_dset_other key_eqb key_eqb_spec). intros ->. cbn in *. lia.
      * rewrite <- (dset_fresh key_eqb key_eqb_spec sm _ (List.length sm) FR). apply (dget_dset_other key_eqb key_eqb_spec). intros ->. cbn in *. congruence.
    + intros j Hj. rewrite (dget_dset_other key_eqb key_eqb_spec); [apply H; lia|]. intros Q. injection Q as Q. lia.
Qed.
Lemma creg_lines (Arr : Type) eval load (s : @pstate Arr) n : p_comment s = false -> (forall j, dget key_eqb (p_classic s) ("meas"%string, j) = None) ->
  exists s', parse_line eval load s (tx "creg meas[" ++ show_nat n ++ tx "];") = Ok s' /\ p_sitemap s' = p_sitemap s /\ p_gates s' = p_gates s /\
    (forall i, i < n -> dget key_eqb (p_classic s') ("meas"%string, i) = Some (List.length (p_classic s) + i)) /\
    (forall k, fst k <> "meas"%string \/ n <= snd k -> dget key_eqb (p_classic s') k = dget key_eqb (p_classic s) k).
Proof.
  intros Hc H. eexists. split; [apply parse_creg_line; exact Hc|]. cbn [p_sitemap p_gates p_classic]. split; [reflexivity|]. split; [reflexivity|]. split.
  - intros i Hi. rewrite creg_loop_get by (intros j _; apply H). cbn [fst snd]. rewrite String.eqb_refl, (proj2 (Nat.ltb_lt i (0 + n))) by lia. cbn. f_equal. lia.
  - intros k Hk. rewrite creg_loop_get by (intros j _; apply H). destruct (String.eqb_spec (fst k) "meas"); [|reflexivity]. destruct Hk as [Hk|Hk]; [contradiction|].
    rewrite (proj2 (Nat.ltb_ge (snd k) (0 + n))) by lia. rewrite Bool.andb_false_r. reflexivity.
Qed.

(** *** Brackets *)
Lemma strip_wrapped p x y a r b m : p x = true -> p y = true -> p a = false -> p b = false -> a :: r = m ++ [b] -> strip p (x :: (a :: r) ++ [y]) = a :: r.
Proof.
  intros Hx Hy Ha Hb E. unfold strip. cbn [lstrip app]. rewrite Hx, Ha. change (a :: r ++ [y]) with ((a :: r) ++ [y]). rewrite E, !rev_app_distr. cbn [rev app lstrip]. rewrite Hy, Hb.
  cbn [rev]. rewrite rev_involutive. reflexivity.
Qed.
Lemma bracketed (Arr : Type) eval (load : text -> res Arr) ps : ps <> [] -> (forall t, In t ps -> num_text t) ->
  parse_params eval load (Some (tx "[" ++ join (tx ", ") ps ++ tx "]")) = parse_params eval load (Some (join (tx ", ") ps)).
Proof.
  intros Hne H. destruct (nums_ne ps Hne H) as (a & r & E). assert (S := nums_strip ps Hne H).
  destruct (join_last (tx ", ") ps Hne) as (t & b & m & Ht & Hb & El); [intros u Hu; apply (H u Hu)|].
  assert (Fb : is_bracket b = false) by (destruct (num_char_facts b (proj2 (H t Ht) b Hb)) as (_ & _ & -> & _); reflexivity).
  assert (Fa : is_bracket a = false).
  { destruct ps as [|q ps]; [congruence|]. destruct (H q ltac:(now left)) as (Hq & Hc). destruct (join_first (tx ", ") q ps Hq) as (a' & r' & Ha' & E'). rewrite E in E'. injection E' as <- <-.
    destruct (num_char_facts a (Hc a Ha')) as (_ & _ & -> & _). reflexivity. }
  rewrite E in *. change (tx "[" ++ (a :: r) ++ tx "]") with ("["%char :: (a :: r) ++ ["]"%char]).
  unfold parse_params. rewrite (strip_wrapped is_bracket "[" "]" a r b m eq_refl eq_refl Fa Fb El). rewrite S.
  replace (containsb (tx ".npy") ("["%char :: (a :: r) ++ ["]"%char])) with false; [replace (containsb (tx ".npy") (a :: r)) with false; [reflexivity|]|]; symmetry.
  - rewrite <- E. apply nums_no_npy, H.
  - destruct (containsb _ _) eqn:Ec; [|reflexivity]. apply contains_npy_n in Ec. destruct Ec as [Ec|Ec]; [discriminate|]. apply in_app_or in Ec as [Ec|[Ec|[]]]; [|discriminate].
    rewrite <- E in Ec. destruct (join_nums_char ps _ H Ec) as [Hn|[Hn|Hn]]; [|discriminate|discriminate]. destruct (num_char_facts _ Hn) as (_ & _ & _ & Hc & _). congruence.
Qed.

(** *** pm *)
Lemma below_int z n : below (IZR z) n = ((0 <=? z) && (z <? Z.of_nat n))%Z%bool.
Proof.
  unfold below. rewrite INR_IZR_INZ. destruct (Rle_dec 0 (IZR z)) as [L|L]; destruct (Z.leb_spec 0 z) as [A|A]; cbn [andb]; try reflexivity.
  - destruct (Rlt_dec (IZR z) (IZR (Z.of_nat n))) as [B|B]; destruct (Z.ltb_spec z (Z.of_nat n)) as [C|C]; try reflexivity; [apply lt_IZR in B; lia|contradiction B; apply IZR_lt; exact C].
  - apply le_IZR in L. lia.
  - contradiction L. apply IZR_le. exact A.
Qed.
Lemma pm_ints d n l : pm_check d n (map PInt l) = if forallb (fun z => ((0 <=? z) && (z <? Z.of_nat n) && (z <? Z.of_nat d))%Z%bool) l then Ok true else Err AssertionError.
Proof.
  induction l as [|z l IH]; [reflexivity|]. cbn [map pm_check forallb]. rewrite !below_int, IH.
  destruct (0 <=? z)%Z, (z <? Z.of_nat n)%Z, (z <? Z.of_nat d)%Z; reflexivity.
Qed.
Lemma construct_pm {Arr} num dims (a : @call Arr) : a_method a = "pm"%string ->
  construct num dims a = (let? g := (let? d := one_dim dims (a_qudits a) in
          let? g := mk num dims "Pm" (show_nat d) SINGLE "pm" (a_qudits a) [d] (a_par a) None in
          let? b := match a_par a with AList l => pm_check d (List.length l) l | _ => Ok false end in
          Ok g) in Ok (Some g)).
Proof. intros H. unfold construct. rewrite H. reflexivity. Qed.
Lemma mk_pm {Arr} num dims sh q d par : mk num dims "Pm" sh SINGLE "pm" (TInt q) [d] par None =
  Ok (@Gate (@gdata Arr) ("Pm" ++ st sh)%string SINGLE (TInt q) None false false (GData "pm" [d] par)).
Proof. unfold mk, new_gate. reflexivity. Qed.
Lemma pm_method {Arr} num dims q d l : pyindex dims q = Ok d ->
  ((exists g, construct num dims (@Call Arr "pm" (TInt q) (AList (map PInt l)) None) = Ok (Some g)) <-> exists M, perm_new d l = Ok M) /\
  forall g, construct num dims (@Call Arr "pm" (TInt q) (AList (map PInt l)) None) = Ok (Some g) -> g_target g = TInt q /\ d_dims (g_data g) = [d] /\ d_par (g_data g) = AList (map PInt l) /\ g_controls g = None.
Proof.
  intros Hq. 
  assert (E : construct num dims (@Call Arr "pm" (TInt q) (AList (map PInt l)) None) =
    (let? b := perm_validate d l in Ok (Some (Gate ("Pm" ++ st (show_nat d))%string SINGLE (TInt q) None false false (GData "pm" [d] (AList (map PInt l))))))).
  { rewrite construct_pm by reflexivity. cbn [a_qudits a_par one_dim]. rewrite Hq. cbn [bindr]. rewrite mk_pm. cbn [bindr]. rewrite pm_ints, map_length. unfold perm_validate.
    destruct (forallb _ l); reflexivity. }
  rewrite E. split.
  - unfold perm_new. destruct (perm_validate d l); cbn [bindr]; split; intros (x & H); try discriminate; eexists; reflexivity.
  - intros g H. destruct (perm_validate d l); cbn [bindr] in H; [|discriminate]. injection H as <-. repeat split.
Qed.
