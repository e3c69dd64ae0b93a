(** C40: noisy circuits keep the original program. *)
From Coq Require Import Reals Lra.
From Verif.Base Require Import Py.
From Verif.Circuit Require Import GateModel.
From Verif.Noise Require Import NoiseModel NoiseSpec InsertModel InsertSpec InsertProofs.
Local Open Scope list_scope.

(** Whatever the random generator does: the original instructions, in order. *)
Theorem C40_originals : forall draw m dims gs k out k', generate draw dims m gs k = Ok (out, k') -> originals out = gs.
Proof. exact generate_originals. Qed.
Print Assumptions C40_originals.

(** Every inserted gate directly follows an instruction whose tag has noise, acts on a qudit that the mode of
    the noise selects, and is one that this noise may insert, on levels that exist. *)
Theorem C40_inserted : forall draw calls dims gs k out k', let m := run_calls new_model calls in generate draw dims m gs k = Ok (out, k') ->
  exists blocks, out = assemble blocks /\ map fst blocks = gs /\ forall g l i, In (g, l) blocks -> In i l ->
    exists mode v c, slot m (qasm_tag (g_data g)) mode = Some v /\ read (heap m) v = Some c /\ selects mode g (dit_of i) /\ allowed dims g c i.
Proof. exact generate_blocks. Qed.
Print Assumptions C40_inserted.

(** The qudits of a mode are the ones it stands for. *)
Theorem C40_modes : forall g mode qs, affected g mode = Ok qs -> forall q, In q qs <-> selects mode g q.
Proof. exact affected_spec. Qed.
Print Assumptions C40_modes.

(** Instructions without noise: the program is unchanged and no random number is drawn. *)
Theorem C40_no_noise : forall draw m dims gs k, (forall g mode, In g gs -> slot m (qasm_tag (g_data g)) mode = None) -> generate draw dims m gs k = Ok (map Orig gs, k).
Proof. exact no_noise. Qed.
Print Assumptions C40_no_noise.

(** Noise of probability zero: the program is unchanged. *)
Theorem C40_zero_noise : forall draw calls dims gs k out k', let m := run_calls new_model calls in fair draw ->
  (forall g mode v, In g gs -> slot m (qasm_tag (g_data g)) mode = Some v -> exists c, read (heap m) v = Some c /\ noiseless c) ->
  generate draw dims m gs k = Ok (out, k') -> out = map Orig gs.
Proof. exact zero_noise. Qed.
Print Assumptions C40_zero_noise.

(** A noise model that fits the circuit never raises. *)
Theorem C40_returns : forall draw calls dims gs k, let m := run_calls new_model calls in compatible dims m gs -> exists out k', generate draw dims m gs k = Ok (out, k').
Proof. exact generate_total. Qed.
Print Assumptions C40_returns.

(** The outcome depends only on draws with the probabilities that the noise of the instructions stands for:
    two generators that agree on these give the same circuit. *)
Theorem C40_probabilities : forall draw draw' calls dims gs k, let m := run_calls new_model calls in
  (forall g mode v c k ps, In g gs -> slot m (qasm_tag (g_data g)) mode = Some v -> read (heap m) v = Some c -> probabilities_of c ps -> draw k ps = draw' k ps) ->
  generate draw dims m gs k = generate draw' dims m gs k.
Proof. exact generate_probabilities. Qed.
Print Assumptions C40_probabilities.

(** Every error of physical noise that is drawn is inserted, and nothing else: if every draw among four gives [i] and
    every draw among two gives [j], the errors after an instruction are exactly those that [i] and [j] stand for. *)
Theorem C40_exactly_the_drawn_errors : forall draw i j, always i j draw -> forall calls dims gs k out k', let m := run_calls new_model calls in
  generate draw dims m gs k = Ok (out, k') -> exists blocks, out = assemble blocks /\ map fst blocks = gs /\ forall g l e, In (g, l) blocks -> physical e ->
    (In e l <-> exists mode a t q la lb, slot m (qasm_tag (g_data g)) mode = Some (Sub a) /\ read (heap m) (Sub a) = Some (HSub t) /\
      selects mode g q /\ acts_on_pair t g la lb /\ drawn dims i j q la lb e).
Proof. exact generate_exactly. Qed.
Print Assumptions C40_exactly_the_drawn_errors.

(** The dephasing probability of a mathematical noise has no effect. *)
Theorem C40_math_dephasing_refuted : forall draw dims h g mode n f k,
  apply_mode draw dims h g (mode, Math n) k = apply_mode draw dims h g (mode, Math (Noise (p_depol n) f)) k.
Proof. exact math_dephasing. Qed.
Print Assumptions C40_math_dephasing_refuted.

(** Noise on the control of a controlled single-qudit gate always raises. *)
Theorem C40_control_mode_refuted : forall draw m dims gs g t v k, In g gs -> g_type g = TWO -> g_target g = TInt t -> slot m (qasm_tag (g_data g)) "control" = Some v ->
  forall out k', generate draw dims m gs k <> Ok (out, k').
Proof. exact control_mode_fails. Qed.
Print Assumptions C40_control_mode_refuted.

(** Noise on the target also reaches the second control. *)
Theorem C40_target_mode_refuted : forall g c1 c2 cs lv, g_controls g = Some (c1 :: c2 :: cs, lv) -> g_type g <> SINGLE -> exists qs, affected g "target" = Ok qs /\ In c2 qs.
Proof. exact target_mode_controls. Qed.
Print Assumptions C40_target_mode_refuted.

(** A dynamic noise on a gate that is not a two-level gate always raises. *)
Theorem C40_dynamic_other_gates : forall draw m dims gs g mode a t lo hi n qs k, In g gs -> slot m (qasm_tag (g_data g)) mode = Some (Sub a) -> nth_error (heap m) a = Some t -> t = [((lo, hi), n)] ->
  (lo < 0 \/ hi < 0)%Z -> two_levels (g_data g) = None -> affected g mode = Ok qs -> qs <> [] -> forall out k', generate draw dims m gs k <> Ok (out, k').
Proof. exact dynamic_fails. Qed.
Print Assumptions C40_dynamic_other_gates.

Section Case.
Let g0 : instr := Gate "R" SINGLE (TInt 0) None false false (IData "rxy" (Some (2, 0)%Z) 2).
Let g1 : instr := Gate "CEx" TWO (TList [0; 1]%Z) None false false (IData "cx" (Some (0, 1)%Z) 2).
Let n : noise := Noise (1 / 2) (1 / 4).
Let calls := [CNew (1 / 2) (1 / 4) (LList []); CAddError (Sub 0) ["rxy"%string] "local"; CAddError (Math n) ["cx"%string] "target"].
Let m := run_calls new_model calls.
Lemma half : probability (1 / 2) /\ probability (1 / 4).
Proof. unfold probability. lra. Qed.
Example C40_case_compatible : compatible [3; 2] m [g0; g1].
Proof.
  intros g mode I v. destruct I as [<-|[<-|[]]]; unfold m, slot; cbn; destruct (String.eqb_spec mode "local") as [->|]; cbn; try discriminate;
    try (destruct (String.eqb_spec mode "target") as [->|]; [|discriminate]); intros E; injection E as <-.
  - eexists _, _. split; [reflexivity|]. split; [reflexivity|]. split.
    + intros k x [E|[]]. injection E as _ <-. exact half.
    + eexists. split; [reflexivity|]. intros q [<-|[]]. exists 3. split; [reflexivity|]. intros a b x [E|[]]. injection E as <- <- <-. split; [discriminate|]. lia.
  - eexists _, _. split; [reflexivity|]. split; [reflexivity|]. split; [exact (proj1 half)|]. intros q [<-|[]]. exists 2. split; [reflexivity|lia].
Qed.
Ltac pick := match goal with |- context [choice ?d ?ps ?k] => rewrite (choice_total d ps k) end; [|cbn [In]; intros; repeat match goal with H : _ \/ _ |- _ => destruct H end; subst; try contradiction; cbn [INR]; lra].
Example C40_case_result : generate (fun k _ => match k with 0 => 2 | 1 => 0 | _ => 3 end) [3; 2] m [g0; g1] 0 =
  Ok ([Orig g0; Ins (INoiseX 0 0 2); Ins (INoiseZ 0 1); Orig g1; Ins (IX 1); Ins (IZ 1)], 3).
Proof.
  do 3 (cbv -[choice IZR Rdiv Rminus Rplus Rmult Rinv Ropp INR]; pick). reflexivity.
Qed.
Example C40_case_drawn : always 2 0 (fun _ ps => match ps with [_; _; _; _] => 2 | _ => 0 end) /\
  exists out k', generate (fun _ ps => match ps with [_; _; _; _] => 2 | _ => 0 end) [3; 2] m [g0; g1] 0 = Ok (out, k') /\ In (Ins (INoiseX 0 0 2)) out /\ In (Ins (INoiseZ 0 1)) out.
Proof.
  split; [intros k ps; split; intros L; repeat (destruct ps as [|? ps]; try discriminate L; try reflexivity)|].
  do 2 eexists. split; [do 3 (cbv -[choice IZR Rdiv Rminus Rplus Rmult Rinv Ropp INR]; pick); reflexivity|]. cbn. auto.
Qed.
Example C40_case_fair : fair (fun _ => first_positive).
Proof. exact first_fair. Qed.
Example C40_case_zero : forall out k', generate (fun _ => first_positive) [3; 2] (run_calls new_model [CAddError (Math (Noise 0 0)) ["cx"%string] "local"]) [g0; g1] 0 = Ok (out, k') -> out = [Orig g0; Orig g1].
Proof.
  intros out k'. apply C40_zero_noise; [exact first_fair|]. intros g mode v [<-|[<-|[]]]; unfold slot; cbn; [discriminate|].
  destruct (String.eqb mode "local"); [|discriminate]. intros E. injection E as <-. eexists. split; reflexivity.
Qed.
End Case.
