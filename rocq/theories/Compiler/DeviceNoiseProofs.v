(** The noise of the fake devices and what it does to compiled circuits. *)
From Coq Require Import Reals List ZArith Lia Lra String.
From Verif.Base Require Import Py PyFacts Cplx Matrix.
From Verif.Circuit Require Import CircuitModel GateModel.
From Verif.Gates Require Import SingleModel TwoModel.
From Verif.Noise Require Import NoiseModel NoiseSpec InsertModel InsertSpec InsertProofs ChannelSpec.
From Verif.Sim Require Import BackendModel.
From Verif.Local Require Import QrModel.
From Verif.Levels Require Import LevelsModel.
From Verif.Ent Require Import BlockModel PassModel.
From Verif.Compiler Require Import DispatchModel WholeModel WholeSpec WholeMerge ElementarySpec WholeElementary DeviceNoiseModel DeviceNoiseSpec.
Import ListNotations.
Local Open Scope nat_scope.

Definition trap_model : state := run_calls new_model trap_calls.
Definition trap_table : list (string * list (string * value)) :=
  [("csum", [("all", Math local_error); ("control", Math entangling_error_on_control); ("nonlocal", Math entangling_error_extra)]);
   ("cx", [("nonlocal", Math entangling_error); ("target", Math entangling_error_on_target); ("control", Math entangling_error_on_control)]);
   ("ls", [("nonlocal", Math entangling_error); ("target", Math entangling_error_on_target); ("control", Math entangling_error_on_control)]);
   ("ms", [("nonlocal", Math entangling_error); ("target", Math entangling_error_on_target); ("control", Math entangling_error_on_control)]);
   ("h", [("local", Math local_error)]); ("rxy", [("local", Math local_error)]); ("s", [("local", Math local_error)]);
   ("x", [("local", Math local_error)]); ("z", [("local", Math local_error)]);
   ("rz", [("local", Math local_error_rz)]); ("virtrz", [("local", Math local_error_rz)])]%string.
Lemma trap_model_is : trap_model = State [] trap_table.
Proof. reflexivity. Qed.
Lemma calls_are k calls : device_calls k = Some calls -> calls = trap_calls.
Proof. destruct k; cbn; intros [= <-]; reflexivity. Qed.
Lemma device_accepted k calls : device_calls k = Some calls -> accepted new_model calls.
Proof. intros H. rewrite (calls_are _ _ H). repeat split. Qed.
Lemma device_holds k calls : device_calls k = Some calls -> forall tag mode c,
  holds (run_calls new_model calls) tag mode = Some c <-> exists p f, rate tag mode p f /\ c = HMath (Noise p f).
Proof.
  intros H tag mode c. rewrite (calls_are _ _ H). fold trap_model. rewrite trap_model_is. unfold holds, slot, trap_table. cbn [errors heap]. split.
  - intros E.
    assert (A : exists modes v, In (tag, modes) trap_table /\ In (mode, v) modes /\ read [] v = Some c).
    { destruct (sget _ tag) as [d|] eqn:E1; [|discriminate]. destruct (sget d mode) as [v|] eqn:E2; [|discriminate].
      apply (dget_In String.eqb (fun a b => String.eqb_eq a b)) in E1, E2. eauto. }
    destruct A as (modes & v & H1 & H2 & H3). cbn in H1.
    repeat (destruct H1 as [H1|H1]; [injection H1 as <- <-; cbn in H2; repeat (destruct H2 as [H2|H2]; [injection H2 as <- <-; cbn in H3; injection H3 as <-; eexists _, _; split; [constructor; cbn; tauto|reflexivity]|]); contradiction|]). contradiction.
  - intros (p & f & [t Ht|t Ht|t Ht|t Ht|t Ht| |] & ->); try (cbn in Ht; repeat (destruct Ht as [<-|Ht]; [reflexivity|]); contradiction); reflexivity.
Qed.

Lemma chances_are p d : 0 < d -> math_probs p d = chances p d.
Proof.
  intros H. unfold math_probs, chances. assert (D : INR d <> 0%R) by (apply not_0_INR; lia).
  assert (E : (p / INR d / INR d = p / (INR d * INR d))%R) by (field; exact D). rewrite E. f_equal.
  rewrite minus_INR by nia. rewrite mult_INR. reflexivity.
Qed.
Lemma rate_probability tag mode p f : rate tag mode p f -> probability p.
Proof. unfold probability. intros []; lra. Qed.
Lemma math_dit_is draw dims n q d k : probability (p_depol n) -> pyindex dims q = Ok d -> 0 < d ->
  math_dit draw dims n q k = Ok (weyl q d (draw k (chances (p_depol n) d)), S k).
Proof.
  intros P E D. unfold math_dit. rewrite E. destruct d as [|d]; [lia|]. unfold bind. rewrite choice_total by (apply math_nonneg; [exact P|lia]).
  rewrite chances_are by lia. reflexivity.
Qed.

Lemma each_one draw dims n a da k : probability (p_depol n) -> pyindex dims a = Ok da -> 0 < da ->
  each (math_dit draw dims n) [a] k = Ok (weyl a da (draw k (chances (p_depol n) da)), S k).
Proof. intros P Ea Da. unfold each, bind, ret. rewrite (math_dit_is draw dims n a da k P Ea Da). now rewrite app_nil_r. Qed.
Lemma each_two draw dims n a b da db k : probability (p_depol n) -> pyindex dims a = Ok da -> pyindex dims b = Ok db -> 0 < da -> 0 < db ->
  each (math_dit draw dims n) [a; b] k = Ok (weyl a da (draw k (chances (p_depol n) da)) ++ weyl b db (draw (S k) (chances (p_depol n) db)), S (S k)).
Proof. intros P Ea Eb Da Db. unfold each, bind, ret. rewrite (math_dit_is draw dims n a da k P Ea Da), (math_dit_is draw dims n b db _ P Eb Db). now rewrite app_nil_r. Qed.
Section After.
Variables (kd : kind) (calls : list call) (draw : nat -> list R -> nat) (dims : list nat).
Hypothesis HD : device_calls kd = Some calls.
Notation m := (run_calls new_model calls).

Lemma after_local g q d p f k : rate (qasm_tag (g_data g)) "local" p f -> g_controls g = None -> g_target g = TInt q -> pyindex dims q = Ok d -> 0 < d ->
  apply_noise draw dims m g k = Ok (weyl q d (draw k (chances p d)), S k).
Proof.
  intros R C T E D. rewrite (calls_are _ _ HD). fold trap_model. rewrite trap_model_is. unfold apply_noise. cbn [errors heap].
  assert (A : affected g "local" = Ok [q]) by (unfold affected; cbn [String.eqb Ascii.eqb Bool.eqb]; rewrite ref_lines; unfold lines; rewrite C, T; reflexivity).
  assert (B : forall n, p_depol n = p -> each (apply_mode draw dims [] g) [("local"%string, Math n)] k = Ok (weyl q d (draw k (chances p d)), S k)).
  { intros n <-. cbn [each]. unfold bind at 1. unfold apply_mode at 1. rewrite A. cbn [each]. unfold bind at 1. rewrite (math_dit_is draw dims n q d k (rate_probability _ _ _ _ R) E D). cbn. now rewrite !app_nil_r. }
  inversion R as [t Ht Et|t Ht Et| | | | |]; subst; cbn in Ht; repeat (destruct Ht as [Ht|Ht]; [rewrite <- Ht; apply B; reflexivity|]); contradiction.
Qed.
Lemma after_two g a b da db k : In (qasm_tag (g_data g)) ["cx"; "ls"; "ms"]%string -> g_type g = TWO -> g_controls g = None -> g_target g = TList [a; b] ->
  pyindex dims a = Ok da -> pyindex dims b = Ok db -> 0 < da -> 0 < db ->
  apply_noise draw dims m g k = Ok (weyl a da (draw k (chances (1 / 10) da)) ++ weyl b db (draw (k + 1) (chances (1 / 10) db)) ++
    weyl b db (draw (k + 2) (chances (1 / 10) db)) ++ weyl a da (draw (k + 3) (chances (1 / 100) da)), k + 4).
Proof.
  intros Ht Ty C T Ea Eb Da Db. rewrite (calls_are _ _ HD). fold trap_model. rewrite trap_model_is. unfold apply_noise. cbn [errors heap].
  assert (P1 : probability (1 / 10)) by (unfold probability; lra). assert (P2 : probability (1 / 100)) by (unfold probability; lra).
  assert (A1 : affected g "nonlocal" = Ok [a; b]) by (unfold affected; cbn [String.eqb Ascii.eqb Bool.eqb]; rewrite Ty, ref_lines; unfold lines; rewrite C, T; reflexivity).
  assert (A2 : affected g "target" = Ok [b]) by (unfold affected; cbn [String.eqb Ascii.eqb Bool.eqb]; rewrite Ty, ref_lines; unfold lines; rewrite C, T; reflexivity).
  assert (A3 : affected g "control" = Ok [a]) by (unfold affected; cbn [String.eqb Ascii.eqb Bool.eqb]; rewrite Ty, T; reflexivity).
  assert (B : each (apply_mode draw dims [] g) [("nonlocal", Math entangling_error); ("target", Math entangling_error_on_target); ("control", Math entangling_error_on_control)]%string k =
    Ok (weyl a da (draw k (chances (1 / 10) da)) ++ weyl b db (draw (k + 1) (chances (1 / 10) db)) ++
    weyl b db (draw (k + 2) (chances (1 / 10) db)) ++ weyl a da (draw (k + 3) (chances (1 / 100) da)), k + 4)).
  { replace (k + 1) with (S k) by lia. replace (k + 2) with (S (S k)) by lia. replace (k + 3) with (S (S (S k))) by lia. replace (k + 4) with (S (S (S (S k)))) by lia.
    unfold each, bind, apply_mode, ret. rewrite A1, A2, A3.
    rewrite (each_two draw dims entangling_error a b da db) by assumption. rewrite (each_one draw dims entangling_error_on_target b db) by assumption.
    rewrite (each_one draw dims entangling_error_on_control a da) by assumption.
    cbn [p_depol entangling_error entangling_error_on_target entangling_error_on_control]. rewrite !app_nil_r, <- !app_assoc. reflexivity. }
  cbn in Ht. repeat (destruct Ht as [Ht|Ht]; [rewrite <- Ht; exact B|]). contradiction.
Qed.
Lemma quiet g k : (forall mode p f, ~ rate (qasm_tag (g_data g)) mode p f) -> apply_noise draw dims m g k = Ok ([], k).
Proof.
  intros N. rewrite (calls_are _ _ HD). fold trap_model. rewrite trap_model_is. unfold apply_noise. cbn [errors heap].
  destruct (sget trap_table (qasm_tag (g_data g))) as [ms|] eqn:E; [|reflexivity]. exfalso.
  apply (dget_In String.eqb (fun a b => String.eqb_eq a b)) in E. cbn in E.
  repeat (destruct E as [E|E]; [injection E as Et _; rewrite <- Et in N; first [apply (N "local"%string (1/1000)%R (1/1000)%R); constructor; cbn; tauto|apply (N "local"%string (3/100)%R (3/100)%R); constructor; cbn; tauto|apply (N "control"%string (1/100)%R 0%R); constructor; cbn; tauto]|]). contradiction.
Qed.
End After.

(** Circuits whose gates are elementary and in the register always get their noise. *)
Lemma slot_rate kd calls tag mode v : device_calls kd = Some calls -> slot (run_calls new_model calls) tag mode = Some v ->
  exists p f, rate tag mode p f /\ v = Math (Noise p f).
Proof.
  intros HD E. destruct (proj1 (device_holds _ _ HD tag mode (match v with Math n => HMath n | Sub _ => HMath (Noise 0 0) end))) as (p & f & R & Hc).
  - unfold holds. rewrite E. destruct v as [n|a]; [reflexivity|]. exfalso. revert E. rewrite (calls_are _ _ HD). fold trap_model. rewrite trap_model_is. unfold slot. cbn [errors].
    intros E. destruct (sget trap_table tag) as [d|] eqn:E1; [|discriminate]. apply (dget_In String.eqb (fun a b => String.eqb_eq a b)) in E1, E. cbn in E1.
    repeat (destruct E1 as [E1|E1]; [injection E1 as <- <-; cbn in E; repeat (destruct E as [E|E]; [discriminate E|]); contradiction|]). contradiction.
  - exists p, f. split; [exact R|]. destruct v as [n|a]; [now injection Hc as ->|]. exfalso. revert E. rewrite (calls_are _ _ HD). fold trap_model. rewrite trap_model_is. unfold slot. cbn [errors].
    intros E. destruct (sget trap_table tag) as [d|] eqn:E1; [|discriminate]. apply (dget_In String.eqb (fun a b => String.eqb_eq a b)) in E1, E. cbn in E1.
    repeat (destruct E1 as [E1|E1]; [injection E1 as <- <-; cbn in E; repeat (destruct E as [E|E]; [discriminate E|]); contradiction|]). contradiction.
Qed.
Lemma tag_single g mode p f : made g -> type_of g = SINGLE -> rate (tag_of g) mode p f -> mode = "local"%string.
Proof.
  intros M T R. destruct g as [| | |q d [[r|v] b]|q0 q1 dc dt [s k0 dag|dag]|]; try contradiction M; try discriminate T; try destruct k0; cbn [tag_of] in R;
    inversion R as [t Ht|t Ht|t Ht|t Ht|t Ht| |]; subst; try reflexivity; cbn in Ht; repeat (destruct Ht as [Ht|Ht]; [discriminate Ht|]); contradiction.
Qed.
Lemma tag_two g mode p f : made g -> type_of g = TWO -> rate (tag_of g) mode p f -> In mode ["nonlocal"; "target"; "control"]%string.
Proof.
  intros M T R. destruct g as [| | |q d [[r|v] b]|q0 q1 dc dt [s k0 dag|dag]|]; try contradiction M; try discriminate T; cbn [tag_of] in R;
    inversion R as [t Ht|t Ht|t Ht|t Ht|t Ht| |]; subst; try (cbn; tauto); cbn in Ht; repeat (destruct Ht as [Ht|Ht]; [discriminate Ht|]); contradiction.
Qed.
Lemma as_instr_lines n g : made g \/ type_of g = MULTI -> lines (as_instr n g) = target_lines (as_gate g).
Proof. intros [M|M]; destruct g as [| | |q d [o b]|q0 q1 dc dt [s k dag|dag]|]; try contradiction M; try discriminate M; reflexivity. Qed.
Lemma in_range_dim dims q : (forall d, In d dims -> 0 < d) -> (0 <= q < Z.of_nat (List.length dims))%Z -> exists d, pyindex dims q = Ok d /\ 0 < d.
Proof.
  intros D H. unfold pyindex. destruct (q <? 0)%Z eqn:E; [apply Z.ltb_lt in E; lia|].
  destruct (nth_error dims (Z.to_nat q)) as [d|] eqn:En; [|apply nth_error_None in En; lia].
  assert (B : ((0 <=? q) && (q <? Z.of_nat (List.length dims)))%Z = true) by (apply andb_true_intro; split; [apply Z.leb_le|apply Z.ltb_lt]; lia). rewrite ?B. exists d. split; [reflexivity|]. apply D. exact (nth_error_In _ _ En).
Qed.
Lemma device_compatible kd calls dims gs : device_calls kd = Some calls -> (forall d, In d dims -> 0 < d) ->
  (forall g, In g gs -> made g \/ exists ts U, g = CUserN ts U) -> (forall g, In g gs -> in_register (List.length dims) g) ->
  compatible dims (run_calls new_model calls) (map (as_instr (List.length dims)) gs).
Proof.
  intros HD D M L g mode Hg v Hs. apply in_map_iff in Hg as (h & <- & Hh). cbn [as_instr qasm_tag g_data] in Hs.
  destruct (slot_rate _ _ _ _ _ HD Hs) as (p & f & R & ->). cbn [read].
  assert (N : forall q, In q (target_lines (as_gate h)) -> exists d, pyindex dims q = Ok d /\ 0 < d) by (intros q Hq; apply in_range_dim; [exact D|exact (L h Hh q Hq)]).
  assert (F : forall qs, incl qs (target_lines (as_gate h)) -> fits dims (as_instr (List.length dims) h) qs (HMath (Noise p f))).
  { intros qs Hq. split; [exact (rate_probability _ _ _ _ R)|]. intros q Q. apply N. apply Hq. exact Q. }
  destruct (M h Hh) as [Mh|(ts & U & ->)].
  2:{ exfalso. cbn in R. inversion R as [t Ht|t Ht|t Ht|t Ht|t Ht| |]; subst; cbn in Ht; repeat (destruct Ht as [Ht|Ht]; [discriminate Ht|]); contradiction. }
  pose proof (as_instr_lines (List.length dims) h (or_introl Mh)) as AL.
  destruct (made_elementary h Mh) as (_ & Ty & Len). destruct (type_of h) eqn:T; [| |contradiction].
  - rewrite (tag_single h mode p f Mh T R). exists (target_lines (as_gate h)), (HMath (Noise p f)). split; [|split; [reflexivity|apply F; apply incl_refl]].
    unfold affected. cbn [String.eqb Ascii.eqb Bool.eqb]. rewrite ref_lines, AL. destruct (target_lines (as_gate h)); [discriminate Len|reflexivity].
  - assert (Ty' : g_type (as_instr (List.length dims) h) = TWO) by exact Ty.
    assert (Tg : exists a b, g_target (as_instr (List.length dims) h) = TList [a; b] /\ target_lines (as_gate h) = [a; b]).
    { destruct h as [| | |q d [o b]|q0 q1 dc dt [s k dag|dag]|]; try contradiction Mh; try discriminate T; eexists _, _; split; reflexivity. }
    destruct Tg as (a & b & Tg & TL). destruct (tag_two h mode p f Mh T R) as [<-|[<-|[<-|[]]]].
    + exists [a; b], (HMath (Noise p f)). split; [|split; [reflexivity|apply F; rewrite TL; apply incl_refl]]. unfold affected. cbn [String.eqb Ascii.eqb Bool.eqb]. rewrite Ty', ref_lines, AL, TL. reflexivity.
    + exists [b], (HMath (Noise p f)). split; [|split; [reflexivity|apply F; rewrite TL; intros x [<-|[]]; right; left; reflexivity]]. unfold affected. cbn [String.eqb Ascii.eqb Bool.eqb]. rewrite Ty', ref_lines, AL, TL. reflexivity.
    + exists [a], (HMath (Noise p f)). split; [|split; [reflexivity|apply F; rewrite TL; intros x [<-|[]]; left; reflexivity]]. unfold affected. cbn [String.eqb Ascii.eqb Bool.eqb]. rewrite Ty', Tg. reflexivity.
Qed.

(** The passes stay on the lines of the gate they rewrite. *)
Section W.
Variable sp : lgraph -> Z -> Z -> res (list Z).
Variable round6 : R -> R.
Variable det : nat -> (nat -> nat -> R) -> R.
Variable solve : nat -> (nat -> nat -> R) -> (nat -> R) -> res (list R).
Variable fuel : nat.
Notation pass := (the_pass sp round6 det solve fuel).

Lemma rot_lines q d o : target_lines (as_gate (CRot q d o)) = [Z.of_nat q].
Proof. destruct o. reflexivity. Qed.
Lemma block_lines q0 q1 dc dt e : incl (target_lines (as_gate (CBlock q0 q1 dc dt e))) [Z.of_nat q0; Z.of_nat q1].
Proof. destruct e as [[] k dag|dag]; cbn; intros x; cbn; tauto. Qed.
Lemma single_lines g q d U : single g = Ok (q, d, U) -> target_lines (as_gate g) = [Z.of_nat q].
Proof. destruct g as [| | |q' d' [o b]|q0 q1 dc dt [s k dag|dag]|]; cbn; try discriminate; intros E; injection E as <- _ _; reflexivity. Qed.
Lemma double_lines g t : double g = Ok t -> target_lines (as_gate g) = [Z.of_nat (tw_q0 t); Z.of_nat (tw_q1 t)].
Proof. destruct g as [|[q0 q1 dc dt [x dag|U]]| |q' d' [o b]|q0 q1 dc dt [s k dag|dag]|]; cbn; try discriminate; intros E; injection E as <-; reflexivity. Qed.
Lemma phy_ent_lines gs t l gs' : phy_ent_gate sp round6 det solve gs t = Ok (l, gs') -> forall e, In e l ->
  (exists x, e = EGate (tw_q0 t) (tw_q1 t) x) \/ (exists x, e = ENewCex (tw_q0 t) (tw_q1 t) x).
Proof.
  unfold phy_ent_gate. do 4 (match goal with |- context [bindr ?e _] => destruct e; cbn [bindr]; [|discriminate] end).
  destruct (tw_op t); repeat (match goal with |- context [bindr ?e _] => destruct e; cbn [bindr]; [|discriminate] end); intros [= <- <-] e He.
  - destruct He as [<-|[]]. right; eexists; reflexivity.
  - apply in_map_iff in He as (x & <- & _). left; eexists; reflexivity.
Qed.
Lemma pass_lines c f gs g gs' l : pass c f gs g = (gs', Ok l) -> forall h, In h l -> incl (target_lines (as_gate h)) (target_lines (as_gate g)).
Proof.
  unfold the_pass. destruct (pass_result sp round6 det solve fuel c f gs g) as [[l0 g0]|] eqn:E; [|discriminate]. intros [= <- <-] h Hh. revert E. unfold pass_result.
  destruct c; try discriminate.
  1-3: destruct (single g) as [[[q d] U]|] eqn:Es; cbn [bindr]; [|discriminate];
    repeat match goal with |- context [bindr ?e _] => destruct e; cbn [bindr]; [|intros; discriminate] end; intros [= E _]; subst l0;
    rewrite (single_lines _ _ _ _ Es); apply in_map_iff in Hh as (y & <- & _); rewrite rot_lines; apply incl_refl.
  all: destruct (double g) as [t|] eqn:Es; cbn [bindr]; [|discriminate]; rewrite (double_lines _ _ Es).
  - match goal with |- context [bindr ?e _] => destruct e; cbn [bindr]; [|intros; discriminate] end. intros [= E _]; subst l0. apply in_map_iff in Hh as (y & <- & _). apply block_lines.
  - destruct (phy_ent_gate sp round6 det solve gs t) as [[le ge]|] eqn:P; cbn [bindr]; [|discriminate]. intros [= E _]; subst l0.
    apply in_flat_map in Hh as (y & Hy & Hi). destruct (phy_ent_lines _ _ _ _ P y Hy) as [[x ->]|[x ->]]; destruct Hi as [<-|[]]; [apply block_lines|apply incl_refl].
Qed.

Lemma rewrite_all_lines d n : forall l gs new gs' l', rewrite_all type_of pass d gs l new = (gs', Ok l') ->
  (forall h, In h l -> in_register n h) -> (forall h, In h new -> in_register n h) -> forall h, In h l' -> in_register n h.
Proof.
  induction l as [|g l IH]; intros gs new gs' l' E Hl Hn h Hh; cbn [rewrite_all] in E.
  - injection E as E1 E2. subst. auto.
  - destruct (dget gtype_eqb d (type_of g)) as [c|].
    + destruct (transpile_gate pass c false gs g) as [g1 [l1|]] eqn:E1; [|discriminate].
      apply (IH _ _ _ _ E); [intros x Hx; apply Hl; right; exact Hx| |exact Hh]. intros x Hx. apply in_app_or in Hx as [Hx|Hx]; [apply Hn; exact Hx|].
      intros y Hy. apply (Hl g (or_introl eq_refl)). unfold transpile_gate in E1. destruct c; try exact (pass_lines _ _ _ _ _ _ E1 x Hx y Hy); [..|discriminate];
      injection E1 as _ <-; destruct Hx as [<-|[]]; exact Hy.
    + apply (IH _ _ _ _ E); [intros x Hx; apply Hl; right; exact Hx| |exact Hh]. intros x Hx. apply in_app_or in Hx as [Hx|[<-|[]]]; [apply Hn; exact Hx|apply Hl; left; reflexivity].
Qed.

Lemma O0_lines n gs c gs' out : whole_O0 sp round6 det solve fuel gs c = (gs', Ok out) -> (forall h, In h (instructions c) -> in_register n h) ->
  forall h, In h (instructions out) -> in_register n h.
Proof.
  unfold whole_O0, compile_O0, compile. destruct O0_dict as (d & -> & _).
  destruct (rewrite_all _ _ d gs (instructions c) []) as [g1 [l'|]] eqn:E; [|discriminate].
  destruct (mappings_of level_maps g1 c) as [ms|] eqn:Em; cbn [bindr]; [|discriminate]. intros [= <- <-] Hc h Hh. cbn in Hh.
  apply (rewrite_all_lines d n _ _ _ _ _ E Hc); [intros x []|exact Hh].
Qed.
Lemma rewrite_split_lines n (f : bool) : forall l gs new gs' l', rewrite_split type_of pass (fun _ => Ok (PhyLocQR, f)) gs l new = (gs', Ok l') ->
  (forall h, In h l -> in_register n h) -> (forall h, In h new -> in_register n h) -> forall h, In h l' -> in_register n h.
Proof.
  induction l as [|g l IH]; intros gs new gs' l' E Hl Hn; cbn [rewrite_split] in E.
  - injection E as E1 E2. subst. auto.
  - destruct (type_of g) eqn:T; cbn [transpile_gate] in E;
    match type of E with context [pass ?c ?f gs g] => destruct (pass c f gs g) as [g1 [l1|]] eqn:E1; [|discriminate] end;
      (apply (IH _ _ _ _ E); [intros x Hx; apply Hl; right; exact Hx|]; intros x Hx; apply in_app_or in Hx as [Hx|Hx]; [apply Hn; exact Hx|];
       intros y Hy; apply (Hl g (or_introl eq_refl)); exact (pass_lines _ _ _ _ _ _ E1 x Hx y Hy)).
Qed.
Lemma O1_lines n gs c l gs' out : resynthesised (dimensions c) (instructions c) = Ok l -> (forall h, In h l -> in_register n h) ->
  whole_O1 sp round6 det solve fuel gs c = (gs', Ok out) -> forall h, In h (instructions out) -> in_register n h.
Proof.
  intros R Hl. unfold whole_O1, compile_O1. rewrite R.
  destruct (mappings_of level_maps gs c) as [ms|]; [|discriminate]. unfold finish.
  destruct (rewrite_split _ _ _ gs _ []) as [g1 [l'|]] eqn:E; cbn [finish]; [|try destruct (mappings_of _ _ _); discriminate].
  intros H h Hh. apply (rewrite_split_lines n _ _ _ _ _ _ E Hl); [intros x []|].
  revert H. match goal with |- context [bindr ?e _] => destruct e; cbn [bindr]; [|discriminate] end. intros H. injection H as _ H. subst out. exact Hh.
Qed.
Lemma rewrite_split_lines2 n nl : forall l gs new gs' l',
  rewrite_split (fun o => type_of (snd o)) (object_pass sp round6 det solve fuel) (fun g => let? f := nl g in Ok (PhyLocAda, f)) gs l new = (gs', Ok l') ->
  (forall o, In o l -> in_register n (snd o)) -> (forall o, In o new -> in_register n (snd o)) -> forall o, In o l' -> in_register n (snd o).
Proof.
  induction l as [|g l IH]; intros gs new gs' l' E Hl Hn; cbn [rewrite_split] in E.
  - injection E as E1 E2. subst. auto.
  - assert (P : forall c f g1 l1, object_pass sp round6 det solve fuel c f gs g = (g1, Ok l1) -> forall o, In o l1 -> in_register n (snd o)).
    { intros c f g1 l1. unfold object_pass. destruct (pass c f gs (snd g)) as [g2 [l2|]] eqn:E2; cbn [bindr]; [|discriminate]. intros [= <- <-].
      intros o Ho. apply in_map_iff in Ho as (x & <- & Hx). cbn [snd]. intros y Hy. apply (Hl g (or_introl eq_refl)). exact (pass_lines _ _ _ _ _ _ E2 x Hx y Hy). }
    destruct (type_of (snd g)) eqn:T; cbn [transpile_gate] in E; try (destruct (nl g) as [f|]; cbn [bindr] in E; [|discriminate]);
    cbn [transpile_gate] in E; match type of E with context [object_pass sp round6 det solve fuel ?c ?f gs g] => destruct (object_pass sp round6 det solve fuel c f gs g) as [g1 [l1|]] eqn:E1; [|discriminate] end;
      (apply (IH _ _ _ _ E); [intros x Hx; apply Hl; right; exact Hx|]; intros x Hx; apply in_app_or in Hx as [Hx|Hx]; [apply Hn; exact Hx|exact (P _ _ _ _ E1 x Hx)]).
Qed.
Lemma O2_lines n gs c gs' out : whole_O2 sp round6 det solve fuel gs c = (gs', Ok out) -> (forall h, In h (instructions c) -> in_register n h) ->
  forall h, In h (instructions out) -> in_register n h.
Proof.
  unfold whole_O2, compile_O2. destruct (lookahead (instructions c)) as [nl|]; [|discriminate].
  destruct (rewrite_split _ _ _ gs _ []) as [g1 [l'|]] eqn:E; cbn [finish]; [|discriminate].
  intros H Hc h Hh. assert (K : forall o, In o l' -> in_register n (snd o)).
  { apply (rewrite_split_lines2 n _ _ _ _ _ _ E); [|intros x []]. cbn [instructions with_gates]. intros o Ho. destruct o as [i g]. apply in_combine_r in Ho. apply Hc. exact Ho. }
  revert H. repeat match goal with |- context [bindr ?e _] => destruct e eqn:?; cbn [bindr]; [|discriminate] end. intros [= _ <-]. cbn in Hh.
  match goal with H : bindr ?e _ = Ok _ |- _ => destruct e; cbn [bindr] in H; [|discriminate]; injection H as <- end. cbn in Hh. apply in_map_iff in Hh as (o & <- & Ho). exact (K _ Ho).
Qed.
End W.

(** The compiled circuits get their noise. *)
Lemma made_or_many g : elementary g \/ type_of g = MULTI -> made g \/ exists ts U, g = CUserN ts U.
Proof. intros [[M _]|T]; [left; exact M|]. right. destruct g as [| | | |q0 q1 dc dt [? ? ?|?]|]; try discriminate T. eexists _, _. reflexivity. Qed.
Lemma noisy_circuit kd calls dims gs draw k : device_calls kd = Some calls -> (forall d, In d dims -> 0 < d) ->
  (forall g, In g gs -> elementary g \/ type_of g = MULTI) -> (forall g, In g gs -> in_register (List.length dims) g) ->
  exists out k', generate draw dims (run_calls new_model calls) (map (as_instr (List.length dims)) gs) k = Ok (out, k').
Proof. intros HD D M L. apply generate_total. apply (device_compatible kd); auto. intros g Hg. apply made_or_many. apply M. exact Hg. Qed.

(** Two depolarising channels in a row. *)
Lemma csum_ext' n f g : (forall i, i < n -> f i = g i) -> csum n f = csum n g.
Proof. induction n as [|n IH]; intros H; [reflexivity|]. cbn. rewrite IH by (intros; apply H; lia). rewrite H by lia. reflexivity. Qed.
Lemma trace_depolarized d p rho : 0 < d -> trace d (depolarized d p rho) = trace d rho.
Proof.
  intros D. unfold trace, depolarized. set (t := csum d (fun i => rho i i)).
  assert (N : INR d <> 0%R) by (apply not_0_INR; lia).
  assert (A : forall n, csum n (fun i => Cadd (Cmul (RtoC (1 - p)) (rho i i)) (if i =? i then Cmul (RtoC (p / INR d)) t else C0)) =
    Cadd (Cmul (RtoC (1 - p)) (csum n (fun i => rho i i))) (Cmul (RtoC (INR n * (p / INR d))) t)).
  { induction n as [|n IH]; [cbn; apply Ceq; cbn; ring|]. cbn [csum]. rewrite IH, Nat.eqb_refl, S_INR. apply Ceq; cbn; ring. }
  rewrite A. fold t. apply Ceq; cbn; field; exact N.
Qed.
Lemma depolarized_twice d p q rho : 0 < d -> meq d (depolarized d q (depolarized d p rho)) (depolarized d (p + q - p * q) rho).
Proof.
  intros D i j Hi Hj. unfold depolarized at 1. rewrite trace_depolarized by exact D. unfold depolarized. assert (N : INR d <> 0%R) by (apply not_0_INR; lia).
  destruct (i =? j); apply Ceq; cbn; field; exact N.
Qed.

(** A gate with added controls cannot be followed by noise. *)
Lemma controlled_fails kd calls draw dims gs g k : device_calls kd = Some calls -> In g gs -> In (qasm_tag (g_data g)) ["csum"; "cx"; "ls"; "ms"]%string -> g_type g <> TWO ->
  forall out k', generate draw dims (run_calls new_model calls) gs k <> Ok (out, k').
Proof.
  intros HD I Ht Ty. apply (generate_fails draw _ dims gs k g I). apply (slot_fails draw (run_calls new_model calls) dims g "control"%string (Math (Noise (1 / 100) 0))).
  - assert (H : holds (run_calls new_model calls) (qasm_tag (g_data g)) "control"%string = Some (HMath (Noise (1 / 100) 0))) by (apply (device_holds _ _ HD); eexists _, _; split; [constructor; exact Ht|reflexivity]).
    unfold holds in H. destruct (slot (run_calls new_model calls) (qasm_tag (g_data g)) "control"%string) as [v|] eqn:E; [|discriminate].
    destruct (slot_rate _ _ _ _ _ HD E) as (p & f & _ & ->). cbn in H. injection H as -> ->. reflexivity.
  - intros k1 o k2. unfold apply_mode, affected. cbn [String.eqb Ascii.eqb Bool.eqb]. destruct (g_type g); try discriminate. contradiction Ty; reflexivity.
Qed.

(** Whatever the dephasing probabilities of the device are, the noisy circuit is the same. *)
Definition redephased (f : noise -> R) (c : call) : call :=
  match c with CAddError (Math n) tags mode => CAddError (Math (Noise (p_depol n) (f n))) tags mode | _ => c end.
Definition revalue (f : noise -> R) (v : value) : value := match v with Math n => Math (Noise (p_depol n) (f n)) | Sub a => Sub a end.
Lemma each_pointwise {X A} (f g : X -> rnd (list A)) l k : (forall x j, In x l -> f x j = g x j) -> each f l k = each g l k.
Proof.
  revert k. induction l as [|x l IH]; intros k H; [reflexivity|]. cbn [each]. unfold bind. rewrite (H x k (or_introl eq_refl)).
  destruct (g x k) as [[a k1]|]; [|reflexivity]. rewrite IH by (intros; apply H; right; assumption). reflexivity.
Qed.
Lemma dephasing_ignored kd calls f draw dims gs k : device_calls kd = Some calls ->
  generate draw dims (run_calls new_model (map (redephased f) calls)) gs k = generate draw dims (run_calls new_model calls) gs k.
Proof.
  intros HD. rewrite (calls_are _ _ HD). unfold generate. apply each_pointwise. intros g j _. unfold bind.
  assert (E : apply_noise draw dims (run_calls new_model (map (redephased f) trap_calls)) g j = apply_noise draw dims (run_calls new_model trap_calls) g j); [|rewrite E; reflexivity].
  fold trap_model. rewrite trap_model_is.
  assert (F : run_calls new_model (map (redephased f) trap_calls) =
    State [] (map (fun e => (fst e, map (fun x => (fst x, revalue f (snd x))) (snd e))) trap_table)) by reflexivity.
  rewrite F. clear F. unfold apply_noise. cbn [errors heap].
  assert (G : forall t tag, sget (map (fun e : string * list (string * value) => (fst e, map (fun x => (fst x, revalue f (snd x))) (snd e))) t) tag =
    option_map (map (fun x => (fst x, revalue f (snd x)))) (sget t tag)).
  { induction t as [|[a b] t IH]; intros tag; [reflexivity|]. cbn. destruct (String.eqb tag a); [reflexivity|]. apply IH. }
  rewrite G. destruct (sget trap_table (qasm_tag (g_data g))) as [ms|]; [|reflexivity]. cbn [option_map].
  generalize j. induction ms as [|[mode v] ms IH]; intros i; [reflexivity|]. cbn [map each fst snd]. unfold bind.
  assert (M : apply_mode draw dims [] g (mode, revalue f v) i = apply_mode draw dims [] g (mode, v) i).
  { destruct v as [n|a]; [|reflexivity]. symmetry. apply math_dephasing. }
  rewrite M. destruct (apply_mode draw dims [] g (mode, v) i) as [[a k1]|]; [|reflexivity]. rewrite IH. reflexivity.
Qed.

(** Compiled two-qudit gates contain gates without noise. *)
Lemma foldr_grows {A B} (f : B -> A -> res B) (P : B -> Prop) : (forall b a b', f b a = Ok b' -> P b -> P b') -> forall l b b', foldr f l b = Ok b' -> P b -> P b'.
Proof.
  intros H. induction l as [|a l IH]; intros b b' E Hb; cbn [foldr] in E; [injection E as <-; exact Hb|].
  destruct (f b a) as [b1|] eqn:E1; cbn [bindr] in E; [|discriminate]. exact (IH _ _ E (H _ _ _ E1 Hb)).
Qed.
Section Had.
Variable sp : lgraph -> Z -> Z -> res (list Z).
Variable round6 : R -> R.
Variable det : nat -> (nat -> nat -> R) -> R.
Variable solve : nat -> (nat -> nat -> R) -> (nat -> R) -> res (list R).
Variable fuel : nat.
Let h0 : egate := on_ctrl (KRh 0 1).
Lemma step_grows eps dc dt lt s rc s' : ent_step eps dc dt lt s rc = Ok s' -> In h0 (e_ops s) -> In h0 (e_ops s').
Proof.
  unfold ent_step. destruct rc as [r c]. destruct (Rlt_dec eps _); [|now intros [= <-]].
  destruct (negb _ && _)%bool; (match goal with |- context [bindr ?e _] => destruct e; cbn [bindr]; [|discriminate] end); intros [= <-] H; cbn; apply in_or_app; left; exact H.
Qed.
Lemma phase_grows delta dc dt lt s rc s' : ent_phase delta dc dt lt s rc = Ok s' -> In h0 (e_ops s) -> In h0 (e_ops s').
Proof.
  unfold ent_phase. destruct rc as [r c]. destruct (Rlt_dec delta _); [|now intros [= <-]].
  destruct (negb _ && _)%bool; (match goal with |- context [bindr ?e _] => destruct e; cbn [bindr]; [|discriminate] end); intros [= <-] H; cbn; apply in_or_app; left; exact H.
Qed.
Lemma has_hadamard q0 q1 U l : U 3 0 = C0 -> (code_eps < Cmod (U 2%nat 0%nat))%R -> ent_transpile_gate round6 det solve (Two q0 q1 2 2 (TMat U)) = Ok l ->
  In (ELoc false (KRh 0 1) true) l.
Proof.
  intros Z3 N2. unfold ent_transpile_gate, two_matrix, log_ent_gate. cbn [tw_op bindr tw_dc tw_dt tw_q0 tw_q1].
  destruct (ent_execute _ _ _ _ _ _ _ _ U) as [[[ops a] b]|] eqn:E; cbn [bindr]; [|discriminate]. intros [= <-]. cbn [fst].
  apply in_map_iff. exists h0. split; [reflexivity|]. apply -> in_rev. revert E. unfold ent_execute. cbn zeta.
  destruct (foldr (ent_step code_eps 2 2 (q0 <? q1)) (visits (2 * 2)) (ES [] U 0 0)) as [s|] eqn:E1; cbn [bindr]; [|discriminate].
  destruct (Req_EM_T (det _ _) 0); [discriminate|]. destruct (solve _ _ _) as [ph|]; cbn [bindr]; [|discriminate].
  destruct (foldr (ent_phase _ _ _ _) _ s) as [s'|] eqn:E2; cbn [bindr]; [|discriminate]. intros [= <- <- <-].
  apply (foldr_grows _ (fun s => In h0 (e_ops s)) (fun b a b' => phase_grows _ _ _ _ b a b') _ _ _ E2). revert E1.
  assert (V : exists rest, visits (2 * 2) = (3, 0) :: (2, 0) :: rest) by (eexists; reflexivity). destruct V as [rest ->]. cbn [foldr].
  unfold ent_step at 1. cbn [e_u]. rewrite Z3. destruct (Rlt_dec code_eps (Cmod C0)) as [L|_].
  { exfalso. revert L. replace (Cmod C0) with 0%R; [unfold code_eps; lra|]. unfold Cmod, Cnorm2. cbn. rewrite !Rmult_0_l, Rplus_0_r. symmetry. apply sqrt_0. }
  cbn [bindr]. unfold ent_step at 1. cbn [e_u]. destruct (Rlt_dec code_eps (Cmod (U 2 0))) as [_|L]; [|contradiction].
  change (negb (2 - 1 =? 0) && (2 mod 2 =? 0))%bool with true. cbn [e_ops].
  destruct (permute_pswap 2 2 (2 - 1) _ _ false) as [l|] eqn:E3; cbn [bindr]; [|discriminate]. intros E1.
  apply (foldr_grows _ (fun s => In h0 (e_ops s)) (fun b a b' => step_grows _ _ _ _ b a b') _ _ _ E1). cbn [e_ops app]. revert E3.
  unfold permute_pswap, created. destruct (forallb _ _); [|discriminate]. intros [= <-]. change (negb ((2 - 1) / 2 =? 0)) with false. cbn [pswap_no_phases pswap_phases].
  unfold pswap_no_phases. apply in_or_app. left. cbn. left. reflexivity.
Qed.
Lemma rewrite_all_part d c g : dget gtype_eqb d (type_of g) = Some c -> match c with ZPropagation | ZRemoval | NaiveLocResynth => False | _ => True end ->
  forall l gs new gs' l', rewrite_all type_of (the_pass sp round6 det solve fuel) d gs l new = (gs', Ok l') ->
  (forall h, In h new -> In h l') /\ (In g l -> exists gs0 gs1 l1, the_pass sp round6 det solve fuel c false gs0 g = (gs1, Ok l1) /\ forall h, In h l1 -> In h l').
Proof.
  intros Dg Hc. induction l as [|x l IH]; intros gs new gs' l' E; cbn [rewrite_all] in E.
  - injection E as E1 E2. subst. split; [auto|intros []].
  - destruct (dget gtype_eqb d (type_of x)) as [c'|] eqn:Dx.
    + destruct (transpile_gate (the_pass sp round6 det solve fuel) c' false gs x) as [g1 [l1|]] eqn:E1; [|discriminate].
      destruct (IH _ _ _ _ E) as [I1 I2]. split; [intros h Hh; apply I1; apply in_or_app; left; exact Hh|].
      intros [->|Hg]; [|exact (I2 Hg)]. rewrite Dg in Dx. injection Dx as <-. exists gs, g1, l1. split; [|intros h Hh; apply I1; apply in_or_app; right; exact Hh].
      unfold transpile_gate in E1. destruct c; try contradiction Hc; exact E1.
    + destruct (IH _ _ _ _ E) as [I1 I2]. split; [intros h Hh; apply I1; apply in_or_app; left; exact Hh|].
      intros [->|Hg]; [rewrite Dg in Dx; discriminate|exact (I2 Hg)].
Qed.
Lemma compiled_hadamard gs c gs' out q0 q1 U : In (CUser2 (Two q0 q1 2 2 (TMat U))) (instructions c) -> U 3 0 = C0 -> (code_eps < Cmod (U 2%nat 0%nat))%R ->
  whole_O0 sp round6 det solve fuel gs c = (gs', Ok out) -> In (CBlock q0 q1 2 2 (ELoc false (KRh 0 1) true)) (instructions out).
Proof.
  intros I Z3 N2. unfold whole_O0, compile_O0, compile. destruct O0_dict as (d & -> & _ & Dt & _).
  destruct (rewrite_all _ _ d gs (instructions c) []) as [g1 [l'|]] eqn:E; [|discriminate].
  destruct (mappings_of level_maps g1 c) as [ms|] eqn:Em; cbn [bindr]; [|discriminate]. intros [= <- <-]. cbn.
  destruct (proj2 (rewrite_all_part d PhyEntQRCEX (CUser2 (Two q0 q1 2 2 (TMat U))) Dt Logic.I _ _ _ _ _ E) I) as (gs0 & gs1 & l1 & P & K). apply K. revert P. unfold the_pass, pass_result. cbn [double bindr tw_dc tw_dt].
  destruct (phy_ent_gate sp round6 det solve gs0 (Two q0 q1 2 2 (TMat U))) as [[le ge]|] eqn:P; cbn [bindr]; [|discriminate]. intros [= _ <-]. cbn [fst].
  apply in_flat_map. exists (EGate q0 q1 (ELoc false (KRh 0 1) true)). split; [|left; reflexivity]. revert P. unfold phy_ent_gate. cbn [tw_op tw_q0 tw_q1 tw_dc tw_dt].
  do 10 (match goal with |- context [bindr ?e _] => destruct e; cbn [bindr]; [|discriminate] end).
  match goal with |- context [bindr ?e _] => destruct e as [lb|] eqn:Eb; cbn [bindr]; [|discriminate] end. intros [= <- _].
  apply in_map. exact (has_hadamard _ _ _ _ Z3 N2 Eb).
Qed.
End Had.
Lemma rh_quiet kd calls draw dims n q0 q1 dc dt s a b dag k : device_calls kd = Some calls ->
  apply_noise draw dims (run_calls new_model calls) (as_instr n (CBlock q0 q1 dc dt (ELoc s (KRh a b) dag))) k = Ok ([], k).
Proof. intros HD. apply (quiet kd _ _ _ HD). cbn. intros mode p f R. inversion R as [t Ht|t Ht|t Ht|t Ht|t Ht| |]; subst; cbn in Ht; repeat (destruct Ht as [Ht|Ht]; [discriminate Ht|]); contradiction. Qed.

(** A csum: noise on all qudits, on the first of its qudits, and on both. *)
Lemma flat_map_ext' {X Y} (f g : X -> list Y) l : (forall x, In x l -> f x = g x) -> flat_map f l = flat_map g l.
Proof. induction l as [|x l IH]; intros H; [reflexivity|]. cbn. rewrite (H x (or_introl eq_refl)), IH by (intros; apply H; right; assumption). reflexivity. Qed.
Lemma each_all draw dims n : probability (p_depol n) -> (forall d, In d dims -> 0 < d) -> forall m s k, s + m <= List.length dims ->
  each (math_dit draw dims n) (map Z.of_nat (seq s m)) k =
  Ok (flat_map (fun i => weyl (Z.of_nat i) (nth i dims 0) (draw (k + (i - s)) (chances (p_depol n) (nth i dims 0)))) (seq s m), k + m).
Proof.
  intros P D. induction m as [|m IH]; intros s k L; [cbn; now rewrite Nat.add_0_r|]. cbn [seq map each flat_map]. unfold bind.
  destruct (in_range_dim dims (Z.of_nat s) D) as (d & Ed & Pd); [lia|].
  assert (N : nth s dims 0 = d).
  { revert Ed. unfold pyindex. destruct (Z.of_nat s <? 0)%Z eqn:E0; [apply Z.ltb_lt in E0; lia|]. rewrite Nat2Z.id. destruct (_ && _)%bool; [|discriminate].
    destruct (nth_error dims s) as [x|] eqn:Ex; [|discriminate]. intros [= <-]. exact (nth_error_nth _ _ _ Ex). }
  rewrite (math_dit_is draw dims n _ d k P Ed Pd), IH by lia. unfold ret. rewrite N, Nat.sub_diag, Nat.add_0_r. do 2 f_equal; [|lia]. f_equal.
  apply flat_map_ext'. intros x Hx. apply in_seq in Hx. do 2 f_equal. lia.
Qed.
Lemma after_csum kd calls draw dims g a b da db k : device_calls kd = Some calls -> qasm_tag (g_data g) = "csum"%string -> parent_qudits (g_data g) = List.length dims ->
  (forall d, In d dims -> 0 < d) -> g_type g = TWO -> g_controls g = None -> g_target g = TList [a; b] -> pyindex dims a = Ok da -> pyindex dims b = Ok db -> 0 < da -> 0 < db ->
  let n := List.length dims in
  apply_noise draw dims (run_calls new_model calls) g k = Ok (everywhere draw dims (1 / 1000) k ++ weyl a da (draw (k + n) (chances (1 / 100) da)) ++
    weyl a da (draw (k + n + 1) (chances (1 / 10) da)) ++ weyl b db (draw (k + n + 2) (chances (1 / 10) db)), k + n + 3).
Proof.
  cbn zeta. intros HD Tg Pq Dd Ty C T Ea Eb Da Db. rewrite (calls_are _ _ HD). fold trap_model. rewrite trap_model_is. unfold apply_noise. cbn [errors heap]. rewrite Tg.
  change (sget trap_table "csum"%string) with (Some [("all", Math local_error); ("control", Math entangling_error_on_control); ("nonlocal", Math entangling_error_extra)]%string).
  assert (P0 : probability (1 / 1000)) by (unfold probability; lra). assert (P1 : probability (1 / 10)) by (unfold probability; lra). assert (P2 : probability (1 / 100)) by (unfold probability; lra).
  assert (A1 : affected g "all" = Ok (map Z.of_nat (seq 0 (List.length dims)))) by (unfold affected; cbn [String.eqb Ascii.eqb Bool.eqb]; rewrite Pq; reflexivity).
  assert (A2 : affected g "nonlocal" = Ok [a; b]) by (unfold affected; cbn [String.eqb Ascii.eqb Bool.eqb]; rewrite Ty, ref_lines; unfold lines; rewrite C, T; reflexivity).
  assert (A3 : affected g "control" = Ok [a]) by (unfold affected; cbn [String.eqb Ascii.eqb Bool.eqb]; rewrite Ty, T; reflexivity).
  cbn [each]. unfold bind, apply_mode, ret. rewrite A1, A2, A3. rewrite (each_all draw dims local_error P0 Dd) by lia.
  rewrite (each_one draw dims entangling_error_on_control a da) by assumption. rewrite (each_two draw dims entangling_error_extra a b da db) by assumption.
  cbn [p_depol local_error entangling_error_extra entangling_error_on_control]. rewrite !app_nil_r. unfold everywhere.
  replace (S (k + List.length dims)) with (k + List.length dims + 1) by lia. replace (S (k + List.length dims + 1)) with (k + List.length dims + 2) by lia.
  replace (S (k + List.length dims + 2)) with (k + List.length dims + 3) by lia. do 2 f_equal. f_equal.
  apply flat_map_ext'. intros x _. rewrite Nat.sub_0_r. reflexivity.
Qed.
Lemma implementable_in_register dims p g : implementable dims p g -> type_of g <> MULTI -> in_register (List.length dims) g.
Proof. intros I T. destruct (implementable_wp dims p g I T) as [(_ & _ & W & _) _]. intros l Hl. apply W. exact Hl. Qed.
From Verif.Gates Require Import SingleSpec SingleProofs.
From Verif.Ent Require Import CrotProofs.
Local Open Scope nat_scope.
(** ** The levels the factory reads *)
Lemma madj_outside d (A M : mat) a b i j : meq d A M -> (forall i j, i < d -> j < d -> i <> a -> i <> b -> M i j = mid i j /\ M j i = mid i j) ->
  i < d -> j < d -> i <> a -> i <> b -> A i j = mid i j /\ madj A i j = mid i j.
Proof.
  intros E H Hi Hj Ha Hb. destruct (H i j Hi Hj Ha Hb) as [H1 H2]. split; [rewrite (E i j Hi Hj); exact H1|].
  unfold madj. rewrite (E j i Hj Hi), H2. unfold mid. destruct (Nat.eqb i j); unfold Cconj, C1, C0; cbn; f_equal; ring.
Qed.
Lemma two_level_outside d a b x y z w i j : i < d -> j < d -> i <> a -> i <> b ->
  two_level a b x y z w i j = mid i j /\ two_level a b x y z w j i = mid i j.
Proof.
  intros Hi Hj Ha Hb. unfold two_level, mid. apply Nat.eqb_neq in Ha as Ea, Hb as Eb. rewrite Ea, Eb. split; [reflexivity|].
  destruct (Nat.eqb_spec j a) as [->|Ja]; [rewrite Ea; reflexivity|]. destruct (Nat.eqb_spec j b) as [->|Jb]; [rewrite Eb; reflexivity|].
  rewrite (Nat.eqb_sym j i). reflexivity.
Qed.
Lemma levels_act g q d M a b i j : levels_of g = Some (Z.of_nat a, Z.of_nat b) -> single g = Ok (q, d, M) -> a < b < d ->
  i < d -> j < d -> i <> a -> i <> b -> M i j = mid i j.
Proof.
  intros L S Hab Hi Hj Ia Ib.
  assert (F : forall A M', meq d A M' -> (forall i j, i < d -> j < d -> i <> a -> i <> b -> M' i j = mid i j /\ M' j i = mid i j) ->
    forall dag : bool, (if dag then madj A else A) i j = mid i j).
  { intros A M' E H dag. destruct (madj_outside d A M' a b i j E H Hi Hj Ia Ib) as [H1 H2]. destruct dag; assumption. }
  destruct g as [? ? ?| ? | ? ? | q' d' [o dag] | q0 q1 dc dt e | ? ? ? ? ?]; try discriminate L; try discriminate S.
  - destruct o as [r|o]; [|discriminate L]. cbn in L. injection L as La Lb. apply Nat2Z.inj in La, Lb. cbn in S. injection S as _ <- <-.
    unfold gate_matrix. cbn [fst snd op_matrix]. rewrite La, Lb. apply (F _ _ (r_array_rotation d' a b _ _ ltac:(lia))).
    intros. apply (two_level_outside d'); assumption.
  - destruct e as [sec k dag|dag]; [|discriminate S]. cbn in S. unfold flagged in S. injection S as _ <- <-.
    destruct k as [x y t f|x y f|x y|x f]; try discriminate L; cbn in L; injection L as -> ->.
    + apply (F _ _ (kr_rotation (if sec then dt else dc) a b t f ltac:(lia) ltac:(lia) ltac:(lia))). intros. apply (two_level_outside (if sec then dt else dc)); assumption.
    + apply (F _ _ (krz_zrot (if sec then dt else dc) a b f ltac:(lia) ltac:(lia) ltac:(lia))). intros. apply (two_level_outside (if sec then dt else dc)); assumption.
    + cbn [kind_matrix]. unfold rh_matrix. cbn. rewrite (proj2 (check_levels_spec (if sec then dt else dc) (Z.of_nat a) (Z.of_nat b))) by lia. replace (levels_setter (Z.of_nat a) (Z.of_nat b)) with (Z.of_nat a, Z.of_nat b) by (unfold levels_setter; destruct (Z.ltb_spec (Z.of_nat a) (Z.of_nat b)); [reflexivity|lia]). cbn [the]. rewrite !Nat2Z.id.
      apply (F _ _ (rh_array_spec (if sec then dt else dc) a b ltac:(lia) ltac:(lia) ltac:(lia))). intros. apply (two_level_outside (if sec then dt else dc)); assumption.
Qed.
