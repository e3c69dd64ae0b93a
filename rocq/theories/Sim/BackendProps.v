(** Properties of the provider, of backend options and of run() (C42, C44, C65).
    The vocabulary is in BackendSpec.v. *)
From Coq Require Import Ascii String.
From Verif.Base Require Import Py.
From Verif.Sim Require Import BackendModel BackendSpec BackendProofs.
Local Open Scope string_scope.
Local Open Scope list_scope.

(** ** C42: provider lookup *)

(** A backend is returned exactly if one single registered name matches, and it is the one of this name with
    the given options. *)
Theorem C42_returned_exactly_when : forall search reg p fields b, NoDup (dkeys reg) ->
  get_backend search reg (Some p) fields = Ok b <->
  exists k c, In (k, c) reg /\ b = init c fields /\
    forall k', In k' (dkeys reg) -> search p k' = Ok (String.eqb k' k).
Proof. exact get_backend_iff. Qed.
Print Assumptions C42_returned_exactly_when.

(** No match and several matches are errors. *)
Theorem C42_no_match : forall search reg p fields,
  (forall k, In k (dkeys reg) -> search p k = Ok false) -> get_backend search reg (Some p) fields = Err ValueError.
Proof. exact get_backend_none_matches. Qed.
Print Assumptions C42_no_match.
Theorem C42_ambiguous : forall search reg p fields k k',
  (forall x, In x (dkeys reg) -> exists b, search p x = Ok b) ->
  In k (dkeys reg) -> In k' (dkeys reg) -> k <> k' -> search p k = Ok true -> search p k' = Ok true ->
  get_backend search reg (Some p) fields = Err ValueError.
Proof. exact get_backend_ambiguous. Qed.
Print Assumptions C42_ambiguous.

(** backends() lists the registered names, or those of them that match. *)
Theorem C42_list : forall search reg name l, backends search reg name = Ok l ->
  forall k, In k l <-> In k (dkeys reg) /\ match name with None => True | Some p => search p k = Ok true end.
Proof. exact backends_list. Qed.
Print Assumptions C42_list.
Theorem C42_list_all : forall search reg, exists l, backends search reg None = Ok l.
Proof. eexists; exact (backends_returns search reg). Qed.
Print Assumptions C42_list_all.

(** get_backend works exactly when backends() lists a single name. *)
Theorem C42_agrees_with_the_list : forall search reg p fields, NoDup (dkeys reg) ->
  (exists b, get_backend search reg (Some p) fields = Ok b) <-> exists k, backends search reg (Some p) = Ok [k].
Proof. exact get_backend_listed. Qed.
Print Assumptions C42_agrees_with_the_list.

(** The names and what they stand for. *)
Theorem C42_names : forall k c, In (k, c) registry <->
  (k = "tnsim" /\ c = TNSim) \/ (k = "misim" /\ c = MISim) \/ (k = "innsbruck01" /\ c = Innsbruck01) \/
  (k = "faketraps2trits" /\ c = FakeIonTraps2Trits) \/ (k = "faketraps2six" /\ c = FakeIonTraps2Six) \/ (k = "faketraps3six" /\ c = FakeIonTraps3Six).
Proof. exact registry_names. Qed.
Print Assumptions C42_names.
(** Every name of the registry resolves to its own backend. *)
Theorem C42_listed_names_resolve : forall search fields, finds_literals search ->
  forall k c, In (k, c) registry -> get_backend search registry (Some k) fields = Ok (init c fields).
Proof. exact registry_self. Qed.
Print Assumptions C42_listed_names_resolve.

(** A request without special characters only ever gives a backend whose registered name contains it. *)
Theorem C42_result_contains_the_request : forall search p fields b, finds_literals search -> literal p ->
  get_backend search registry (Some p) fields = Ok b -> exists k c, In (k, c) registry /\ b = init c fields /\ occurs_in p k.
Proof. exact registry_text. Qed.
Print Assumptions C42_result_contains_the_request.

(** Violation: no backend can be looked up by the name it carries. *)
Theorem C42_name_attribute_refuted : forall search k fields fields', finds_literals search ->
  get_backend search registry (b_name (init k fields)) fields' = Err ValueError.
Proof. exact name_attribute. Qed.
Print Assumptions C42_name_attribute_refuted.

(** A search that treats every pattern as text. *)
Example C42_case : let search p k := Ok (contains p k) in
  finds_literals search /\
  get_backend search registry (Some "tnsim") [("shots", VInt 100)] = Ok (init TNSim [("shots", VInt 100)]) /\
  get_backend search registry (Some "2six") [] = Ok (init FakeIonTraps2Six []) /\
  get_backend search registry (Some "sim") [] = Err ValueError /\
  backends search registry (Some "sim") = Ok ["tnsim"; "misim"] /\
  get_backend search registry (Some "qasm") [] = Err ValueError /\
  get_backend search registry None [] = Err ValueError.
Proof.
  split; [| repeat split]. intros p k _. exists (contains p k). split; [reflexivity | apply contains_spec].
Qed.

(** ** C44: options *)

(** What the constructor gets is visible, the rest has its default. *)
Theorem C44_constructor_options : forall k fields o, o <> "noise_model" \/ k = TNSim \/ k = MISim ->
  visible (init k fields) o = last_given fields o (dget String.eqb default_options o).
Proof. exact init_visible. Qed.
Print Assumptions C44_constructor_options.

(** The defaults: 50 shots, no memory, no noise model, nothing else. *)
Theorem C44_defaults : forall k o, o <> "noise_model" \/ k = TNSim \/ k = MISim ->
  visible (init k []) o = if String.eqb o "shots" then Some (VInt 50) else if String.eqb o "memory" then Some (VBool false)
                          else if String.eqb o "noise_model" then Some VNone else None.
Proof. exact default_visible. Qed.
Print Assumptions C44_defaults.

(** Violation: the other backends ignore the noise model they are given. *)
Theorem C44_noise_model_ignored_refuted : forall k fields, k <> TNSim -> k <> MISim ->
  visible (init k fields) "noise_model" = Some (match k with Innsbruck01 => VNone | _ => VModel (Builtin k) end).
Proof. exact init_noise. Qed.
Print Assumptions C44_noise_model_ignored_refuted.

(** The options of run are visible and used; those not given keep the value they had.  [last_given hist]
    reads the last value given over a whole history of runs. *)
Theorem C44_run_options : forall (Circ V O : Type) (execute : Circ -> res V) (stochastic : backend -> Circ -> res (list O)) empty hist b k,
  visible (fold_left (fun b co => fst (run execute stochastic empty b (fst co) (snd co))) hist b) k =
  last_given (concat (map snd hist)) k (visible b k).
Proof. exact @runs_visible. Qed.
Print Assumptions C44_run_options.
Theorem C44_run_uses_the_options : forall (Circ V O : Type) (execute : Circ -> res V) (stochastic : backend -> Circ -> res (list O)) empty b c opts,
  let b' := fst (run execute stochastic empty b c opts) in
  let read k d := match visible b' k with Some v => v | None => d end in
  b_noise b' = read "noise_model" VNone /\ b_shots b' = read "shots" (VInt 50) /\ b_memory b' = read "memory" (VBool false) /\
  b_full b' = read "full_state_memory" (VBool false) /\ b_path b' = read "file_path" VNone /\ b_file b' = read "file_name" VNone.
Proof. exact @run_attributes. Qed.
Print Assumptions C44_run_uses_the_options.

(** Violation: set_options rejects every documented option, and never changes one. *)
Theorem C44_documented_options_refuted : forall b fields k v, In (k, v) fields -> In k documented ->
  set_options b fields = (b, Some AttributeError).
Proof. exact set_options_documented. Qed.
Print Assumptions C44_documented_options_refuted.
Theorem C44_set_options_has_no_effect_refuted : forall b fields k, In k documented ->
  visible (fst (set_options b fields)) k = visible b k.
Proof. exact set_options_no_effect. Qed.
Print Assumptions C44_set_options_has_no_effect_refuted.

(** A rejected call changes nothing; names that are no attribute of a dictionary are rejected. *)
Theorem C44_rejected_without_change : forall b fields b' e, set_options b fields = (b', Some e) -> b' = b /\ e = AttributeError.
Proof. exact set_options_error. Qed.
Print Assumptions C44_rejected_without_change.
Theorem C44_unknown_rejected : forall b fields k v, In (k, v) fields -> ~ In k dict_attributes ->
  set_options b fields = (b, Some AttributeError).
Proof. exact set_options_unknown. Qed.
Print Assumptions C44_unknown_rejected.
(** Violation: undocumented names that happen to be dictionary methods are accepted. *)
Theorem C44_method_names_accepted_refuted : forall b k v, In k dict_attributes ->
  snd (set_options b [(k, v)]) = None /\ visible (fst (set_options b [(k, v)])) k = Some v.
Proof. exact set_options_attr. Qed.
Print Assumptions C44_method_names_accepted_refuted.

Example C44_case : let b := init TNSim [("shots", VInt 100)] in
  visible b "shots" = Some (VInt 100) /\ visible b "memory" = Some (VBool false) /\
  set_options b [("shots", VInt 200)] = (b, Some AttributeError) /\
  snd (set_options b [("keys", VInt 200)]) = None /\
  visible (init FakeIonTraps2Six [("noise_model", VModel (User 7))]) "noise_model" = Some (VModel (Builtin FakeIonTraps2Six)).
Proof. repeat split. Qed.

(** ** C65: what run returns, and how long its options last *)

(** Without a noise model the result is the state and no counts. *)
Theorem C65_ideal_run : forall (Circ V O : Type) (execute : Circ -> res V) (stochastic : backend -> Circ -> res (list O)) empty b c opts,
  b_kind b <> Innsbruck01 -> b_noise (load b opts) = VNone ->
  snd (run execute stochastic empty b c opts) = let? v := execute c in Ok (JResult v []).
Proof. exact @run_ideal. Qed.
Print Assumptions C65_ideal_run.
(** With a noise model and at least 50 shots it is the ideal state and the stochastic outcomes. *)
Theorem C65_noisy_run : forall (Circ V O : Type) (execute : Circ -> res V) (stochastic : backend -> Circ -> res (list O)) empty b c opts z,
  b_kind b <> Innsbruck01 -> b_noise (load b opts) <> VNone -> b_shots (load b opts) = VInt z -> (50 <= z)%Z ->
  snd (run execute stochastic empty b c opts) =
  let? v := execute c in let? ns := stochastic (load b opts) c in Ok (JResult v ns).
Proof. exact @run_noisy. Qed.
Print Assumptions C65_noisy_run.
(** Fewer shots are refused. *)
Theorem C65_few_shots : forall (Circ V O : Type) (execute : Circ -> res V) (stochastic : backend -> Circ -> res (list O)) empty b c opts z,
  b_noise (load b opts) <> VNone \/ b_kind b = Innsbruck01 -> b_shots (load b opts) = VInt z -> (z < 50)%Z ->
  snd (run execute stochastic empty b c opts) = Err AssertionError.
Proof. exact @run_few_shots. Qed.
Print Assumptions C65_few_shots.
(** Violation: Innsbruck01 returns an empty result for every circuit. *)
Theorem C65_innsbruck_refuted : forall (Circ V O : Type) (execute : Circ -> res V) (stochastic : backend -> Circ -> res (list O)) empty b c opts z,
  b_kind b = Innsbruck01 -> b_shots (load b opts) = VInt z -> (50 <= z)%Z ->
  snd (run execute stochastic empty b c opts) = Ok (JResult empty []).
Proof. exact @run_innsbruck. Qed.
Print Assumptions C65_innsbruck_refuted.

(** Violation of "options given to one run are for this run": they stay for every later run ... *)
Theorem C65_options_stay_refuted : forall (Circ V O : Type) (execute : Circ -> res V) (stochastic : backend -> Circ -> res (list O)) empty b c c' opts k v,
  last_given opts k None = Some v ->
  visible (fst (run execute stochastic empty (fst (run execute stochastic empty b c opts)) c' [])) k = Some v.
Proof. exact @run_sticky. Qed.
Print Assumptions C65_options_stay_refuted.
(** ... even those of a run that was refused: the next plain run is refused too. *)
Theorem C65_refused_options_stay_refuted : forall (Circ V O : Type) (execute : Circ -> res V) (stochastic : backend -> Circ -> res (list O)) empty b c c' opts z,
  b_kind b <> Innsbruck01 -> b_noise (load b opts) <> VNone -> b_shots (load b opts) = VInt z -> (z < 50)%Z ->
  snd (run execute stochastic empty b c opts) = Err AssertionError /\
  snd (run execute stochastic empty (fst (run execute stochastic empty b c opts)) c' []) = Err AssertionError.
Proof. exact @run_stuck. Qed.
Print Assumptions C65_refused_options_stay_refuted.

Example C65_case : let b := init FakeIonTraps2Six [] in let ex (c : nat) := Ok c in let st (b : backend) (c : nat) := Ok [c; c] in
  b_kind b <> Innsbruck01 /\ b_noise (load b []) <> VNone /\ b_shots (load b []) = VInt 50 /\
  snd (run ex st 0%nat b 3%nat []) = Ok (JResult 3%nat [3%nat; 3%nat]) /\
  snd (run ex st 0%nat (fst (run ex st 0%nat b 3%nat [("shots", VInt 10)])) 3%nat []) = Err AssertionError /\
  snd (run ex st 0%nat (init TNSim []) 3%nat [("shots", VInt 10)]) = Ok (JResult 3%nat []) /\
  snd (run ex st 0%nat (init Innsbruck01 []) 3%nat []) = Ok (JResult 0%nat []).
Proof. repeat split; discriminate. Qed.
