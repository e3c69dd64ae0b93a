(** Properties of gate objects (C04, C05). *)
From Verif Require Import Base.Py.
From Verif Require Import Circuit.GateModel Circuit.GateSpec Circuit.GateProofs Circuit.ConstructorProofs.

(** ** C04: control() *)

(** A rejected call leaves the gate exactly as it was. *)
Theorem C04_rejected_leaves_gate_unchanged :
  forall (A : Type) num dims (g : gate A) i s e,
    snd (control num dims g i s) = Some e -> fst (control num dims g i s) = g.
Proof. exact @control_rejected. Qed.
Print Assumptions C04_rejected_leaves_gate_unchanged.

(** An accepted call records the controls, changes nothing but the controls and the type, and
    the type is TWO for one control and MULTI for several. *)
Theorem C04_accepted_effect :
  forall (A : Type) num dims (g : gate A) i s t,
  g_target g = TInt t -> i <> [] -> s <> [] -> snd (control num dims g i s) = None ->
  let g' := fst (control num dims g i s) in
  g_controls g' = Some (i, s) /\ g_target g' = g_target g /\ g_dagger g' = g_dagger g /\ g_data g' = g_data g /\
  g_type g' = (match i with [_] => TWO | _ => MULTI end).
Proof. exact @control_accepted. Qed.
Print Assumptions C04_accepted_effect.

(** An empty index or level list is a no-op. *)
Theorem C04_empty_is_noop :
  forall (A : Type) num dims (g : gate A) i s, i = [] \/ s = [] -> control num dims g i s = (g, None).
Proof. exact @control_empty. Qed.
Print Assumptions C04_empty_is_noop.

(** Controls given to the constructor of a gate are kept as they are given, lines as lines and levels as levels. *)
Theorem C04_constructor : forall (A : Type) num dims name t tg lines levels (data : A) g, lines <> [] -> levels <> [] ->
  new_gate num dims name t tg (Some (lines, levels)) data = Ok g ->
  g_controls g = Some (lines, levels) /\ g_target g = tg /\ g_data g = data /\ g_dagger g = false /\ t = SINGLE /\
  forall k, In k lines -> (k < Z.of_nat num)%Z /\ ~ In k (target_lines g).
Proof. intros A num dims name t tg lines levels data g. apply gate_controls. Qed.
Print Assumptions C04_constructor.
Example C04_case_constructor : exists g, new_gate 2 [2; 3] "X" SINGLE (TInt 1) (Some ([0%Z], [1%Z])) tt = Ok g /\ g_controls g = Some ([0%Z], [1%Z]).
Proof. eexists. split; reflexivity. Qed.

(** Exactly what is accepted: note that level k is compared with the dimension of line k. *)
Theorem C04_accepted_iff :
  forall (A : Type) num dims (g : gate A) i s,
  i <> [] -> s <> [] -> g_type g = SINGLE ->
  (snd (control num dims g i s) = None <->
   List.length i <= num /\ (forall x, In x i -> (x < Z.of_nat num)%Z) /\
   (forall x, In x i -> ~ In x (target_lines g)) /\
   (forall k c, nth_error s k = Some c -> exists d, nth_error dims k = Some d /\ (c < Z.of_nat d)%Z)).
Proof. exact @control_accept_iff. Qed.
Print Assumptions C04_accepted_iff.

(** In a circuit whose qudits all have the same dimension, a well formed specification is
    accepted iff it is legal. *)
Theorem C04_uniform_accepts_exactly_legal :
  forall (A : Type) n d (g : gate A) t i s,
  g_type g = SINGLE -> g_target g = TInt t ->
  i <> [] -> s <> [] -> List.length s = List.length i -> NoDup i ->
  (forall x, In x i -> (0 <= x)%Z) -> (forall x, In x s -> (0 <= x)%Z) ->
  (snd (control n (repeat d n) g i s) = None <-> legal_controls (repeat d n) [t] i s).
Proof. exact @control_uniform. Qed.
Print Assumptions C04_uniform_accepts_exactly_legal.

(** In mixed circuits the pinned code rejects a legal specification ... *)
Theorem C04_legal_rejected_refuted :
  exists (dims : list nat) (g : gate unit) i s,
    g_type g = SINGLE /\ legal_controls dims (target_lines g) i s /\
    snd (control (List.length dims) dims g i s) = Some IndexError.
Proof. exact C04_legal_rejected_witness. Qed.
Print Assumptions C04_legal_rejected_refuted.

(** ... and accepts an illegal one. *)
Theorem C04_illegal_accepted_refuted :
  exists (dims : list nat) (g : gate unit) i s,
    g_type g = SINGLE /\ i <> [] /\ s <> [] /\ ~ legal_controls dims (target_lines g) i s /\
    snd (control (List.length dims) dims g i s) = None.
Proof. exact C04_illegal_accepted_witness. Qed.
Print Assumptions C04_illegal_accepted_refuted.

(** Even in a uniform circuit repeated controls, negative lines, negative levels and lists of
    different lengths are accepted: the well-formedness hypotheses above are needed. *)
Theorem C04_malformed_accepted_refuted :
  exists (g : gate unit), g_type g = SINGLE /\
    snd (control 3 [2;2;2] g [0%Z; 0%Z] [1%Z; 1%Z]) = None /\
    snd (control 3 [2;2;2] g [(-3)%Z] [1%Z]) = None /\
    snd (control 3 [2;2;2] g [0%Z] [(-1)%Z]) = None /\
    snd (control 3 [2;2;2] g [0%Z; 1%Z] [1%Z]) = None.
Proof. exact C04_unchecked_witness. Qed.
Print Assumptions C04_malformed_accepted_refuted.

Example C04_case :
  let g := Gate "x" SINGLE (TInt 1) None false false tt in
  g_type g = SINGLE /\ g_target g = TInt 1 /\ NoDup [0%Z; 3%Z] /\
  snd (control 4 (repeat 3 4) g [0%Z; 3%Z] [2%Z; 1%Z]) = None /\
  g_type (fst (control 4 (repeat 3 4) g [0%Z; 3%Z] [2%Z; 1%Z])) = MULTI /\
  snd (control 4 (repeat 3 4) g [0%Z; 3%Z] [2%Z; 3%Z]) = Some IndexError.
Proof. cbn. repeat split. constructor; [|repeat constructor; intros []]. intros [H|[]]. discriminate. Qed.

(** ** C05: long range *)

(** The flag of a freshly constructed gate (with or without controls) tells whether some unused
    line lies strictly between two of its lines. *)
Theorem C05_flag_at_construction :
  forall (A : Type) num dims name t tg ctl (data : A) g,
  new_gate num dims name t tg ctl data = Ok g -> (g_long g = true <-> spans_gap (gate_lines g)).
Proof. exact @new_gate_long. Qed.
Print Assumptions C05_flag_at_construction.

(** A later call of check_long_range always gives the right answer ... *)
Theorem C05_check_long_range :
  forall (A : Type) (g : gate A) b,
  check_long_range g = Ok b -> (b = true <-> spans_gap (gate_lines g)).
Proof. exact @check_long_range_spec. Qed.
Print Assumptions C05_check_long_range.

(** ... but the flag is stale after a later control() call. *)
Theorem C05_flag_stale_refuted :
  exists (g g' : gate unit),
    new_gate 3 [2;2;2] "x" SINGLE (TInt 2) None tt = Ok g /\
    control 3 [2;2;2] g [0%Z] [1%Z] = (g', None) /\
    g_long g' = false /\ spans_gap (gate_lines g').
Proof. exact C05_stale_witness. Qed.
Print Assumptions C05_flag_stale_refuted.

Example C05_case :
  (exists g, new_gate 5 [2;2;2;2;2] "csum" TWO (TList [4%Z; 1%Z]) None tt = Ok g /\ g_long g = true) /\
  (exists g, new_gate 5 [2;2;2;2;2] "csum" TWO (TList [2%Z; 1%Z]) None tt = Ok g /\ g_long g = false) /\
  (exists g, new_gate 5 [2;2;2;2;2] "x" SINGLE (TInt 2) (Some ([1%Z;4%Z],[0%Z;1%Z])) tt = Ok g /\ g_long g = true).
Proof. repeat split; eexists; split; reflexivity. Qed.
