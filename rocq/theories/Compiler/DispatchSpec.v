(** Vocabulary for C45 and C69: which pass is responsible for which gate, and what the compiled circuit is. *)
From Verif.Base Require Import Py.
From Verif.Circuit Require Import CircuitModel GateModel.
From Verif.Compiler Require Import DispatchModel.
Local Open Scope string_scope.
Local Open Scope list_scope.
Local Open Scope nat_scope.

(** The names a user can give, with the class each stands for. *)
Inductive named : string -> cls -> Prop :=
| n_phy_qr : named "PhyLocQRPass" PhyLocQR
| n_loc_qr : named "LocQRPass" PhyLocQR
| n_phy_ada : named "PhyLocAdaPass" PhyLocAda
| n_loc_ada : named "LocAdaPass" PhyLocAda
| n_log_qr : named "LogLocQRPass" LogLocQR
| n_log_ent : named "LogEntQRCEXPass" LogEntQRCEX
| n_phy_ent : named "PhyEntQRCEXPass" PhyEntQRCEX
| n_naive : named "NaiveLocResynthOptPass" NaiveLocResynth
| n_zprop : named "ZPropagationOptPass" ZPropagation
| n_zrem : named "ZRemovalOptPass" ZRemoval.

(** The gates a class is made for. *)
Definition made_for (c : cls) (t : gtype) : Prop :=
  match c with
  | PhyLocQR | PhyLocAda | LogLocQR | NaiveLocResynth => t = SINGLE
  | LogEntQRCEX | PhyEntQRCEX => t = TWO
  | ZPropagation | ZRemoval => False
  end.

(** The class responsible for gates of type t in a list of names: the last one made for them. *)
Definition responsible (names : list string) (t : gtype) (c : cls) : Prop :=
  exists before n after, names = before ++ n :: after /\ named n c /\ made_for c t /\
    forall m d, In m after -> named m d -> ~ made_for d t.
Definition nobody (names : list string) (t : gtype) : Prop :=
  forall m d, In m names -> named m d -> ~ made_for d t.

Section Spec.
Context {G B : Type}.
Variable gate_type : G -> gtype.
Variable pass : cls -> bool -> B -> G -> B * res (list G).

(** Going through a program in order with the backend, each gate is replaced by what the responsible pass
    gives for it, or kept. *)
Inductive compiled (resp : gtype -> cls -> Prop) (none : gtype -> Prop) : B -> list G -> B -> list G -> Prop :=
| compiled_end : forall b, compiled resp none b [] b []
| compiled_keep : forall b g r b' out, none (gate_type g) -> compiled resp none b r b' out ->
    compiled resp none b (g :: r) b' (g :: out)
| compiled_replace : forall b g r b1 b' c gs out, resp (gate_type g) c -> pass c false b g = (b1, Ok gs) ->
    compiled resp none b1 r b' out -> compiled resp none b (g :: r) b' (gs ++ out).

(** The same with a pass that may depend on the gate (levels O1 and O2). *)
Inductive translated (who : G -> cls -> bool -> Prop) : B -> list G -> B -> list G -> Prop :=
| translated_end : forall b, translated who b [] b []
| translated_gate : forall b g r b1 b' c f gs out, who g c f -> pass c f b g = (b1, Ok gs) ->
    translated who b1 r b' out -> translated who b (g :: r) b' (gs ++ out).
End Spec.

(** Running a program, for an arbitrary meaning of gates. *)
Definition run_program {G S} (act : G -> S -> S) (l : list G) (s : S) : S := fold_left (fun s g => act g s) l s.

(** Everything of a circuit but its instructions, their number and its mappings. *)
Definition same_registers {G} (a b : circuit G) : Prop :=
  quantum_registers a = quantum_registers b /\ classic_registers a = classic_registers b /\
  sitemap a = sitemap b /\ inverse_sitemap a = inverse_sitemap b /\
  classic_site_map a = classic_site_map b /\ cl_inverse_sitemap a = cl_inverse_sitemap b /\
  num_qudits a = num_qudits b /\ num_cl a = num_cl b /\ dimensions a = dimensions b.

(** The mapping of qudit i: the physical levels of the graph of this qudit, in logical order, without the
    levels the qudit does not have. *)
Definition mapping_for {G} (c : circuit G) (graphs : list (list nat)) (ms : list (list nat)) : Prop :=
  List.length ms = Nat.min (num_qudits c) (List.length graphs) /\
  forall i m d, nth_error ms i = Some m -> nth_error (dimensions c) i = Some d ->
  exists full, nth_error graphs i = Some full /\ m = filter (fun p => p <? d) full.
