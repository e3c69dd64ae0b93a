(** Properties of the decision diagram simulator (C50, C88, C89).  The vocabulary is in MisimSpec.v, DdSpec.v, Sim/TnSpec.v and
    Gates/FactorySpec.v. *)
From Coq Require Import List ZArith Arith Lia Reals Lra String Bool.
From Verif Require Import Base.Py Base.Cplx Base.Matrix Base.Radix Circuit.GateModel Gates.AnglesModel Gates.SingleModel Gates.SingleSpec Gates.SingleProofs Gates.TwoModel Gates.FactorySpec.
From Verif Require Import Sim.TnModel Sim.TnSpec Sim.TnProofs Misim.DdModel Misim.DdSpec Misim.DdProofs Misim.DdGateProofs Misim.MisimModel Misim.MisimSpec Misim.MisimProofs Misim.MisimNoiseProofs Misim.MisimLimitProofs.
Import ListNotations.
Local Open Scope nat_scope.
Local Open Scope string_scope.

(** ** C50: the decision diagram simulator computes the action of the circuit on |0...0> *)

(** For every register and every circuit of the gates it is made for, the simulation returns the state |0...0> after every
    gate in turn, daggered where the gate is. *)
Theorem C50_simulates : forall dims gs is same draw, register dims -> pointers same -> Forall2 (reads dims) gs is -> Forall (in_scope dims) is ->
  exists v, misim 0 same dims [] draw is = Done v /\ evolves dims (ket 0) gs v.
Proof. intros dims gs is same draw [_ P] So. exact (misim_ok dims P same So gs is draw). Qed.
Print Assumptions C50_simulates.
(** It is a unit vector. *)
Theorem C50_normalised : forall dims gs is same draw v, register dims -> pointers same -> Forall2 (reads dims) gs is -> Forall (in_scope dims) is ->
  misim 0 same dims [] draw is = Done v -> norm2 (prodl dims) v = 1%R.
Proof. exact misim_unit. Qed.
Print Assumptions C50_normalised.
(** The two simulators agree. *)
Theorem C50_agrees : forall dims gs is same draw, register dims -> pointers same -> Forall2 (reads dims) gs is -> Forall (in_scope dims) is -> Forall fits gs ->
  exists v w, misim 0 same dims [] draw is = Done v /\ execute dims gs = Ok w /\ veq (prodl dims) v w.
Proof. exact misim_execute. Qed.
Print Assumptions C50_agrees.

(** Violation: the controls have no influence on the result ... *)
Theorem C50_controls_ignored_refuted : forall tol same dims draw is,
  misim tol same dims [] draw is = misim tol same dims [] draw (map (fun i => Instr (i_tag i) (i_dag i) (i_dims i) (i_targets i) (i_params i) None) is).
Proof. exact strip_misim. Qed.
Print Assumptions C50_controls_ignored_refuted.
(** ... so a controlled gate gives a wrong state. *)
Theorem C50_controlled_gate_refuted : forall same, pointers same -> exists dims g i v, register dims /\ reads dims g i /\ well_placed dims g /\ unitary_gate dims g /\ i_controls i = Some ([0], [1]) /\
  misim 0 same dims [] (fun _ => 0%R) [i] = Done v /\ ~ evolves dims (ket 0) [g] v.
Proof. exact controlled_wrong. Qed.
Print Assumptions C50_controlled_gate_refuted.
(** Violation: rotations between descending levels, which the gate classes accept, end in an exception ... *)
Theorem C50_descending_refuted : forall tol same dims t d a b th ph dag draw rest, nth t dims 0 = d -> 3 <= d <= 7 -> (0 <= b < a)%Z -> (a < Z.of_nat d)%Z ->
  let p := PList [PInt a; PInt b; PFloat th; PFloat ph] in
  (exists M, r_matrix d p = Ok M) /\ misim tol same dims [] draw (Instr "rxy" dag [d] [t] p None :: rest) = Throw InvalidArgument.
Proof.
  intros tol same dims t d a b th ph dag draw rest Ed Hd Hb Ha p. split.
  - apply r_accepts. exists a, b, th, ph, []. split; [reflexivity|lia].
  - apply (descending_fails tol same dims t d a b); try lia; [apply MisimMatProofs.supported_spec; lia|]. left. split; [reflexivity|]. exists th, ph, []. reflexivity.
Qed.
Print Assumptions C50_descending_refuted.
(** ... and gates the binding has no matrix for end the process: other gate classes, qudits with more than 7 levels. *)
Theorem C50_other_gates_refuted : forall tol same dims i rest draw, ~ In (i_tag i) known_tags -> i_targets i <> [] -> misim tol same dims [] draw (i :: rest) = Throw Crash.
Proof. exact unknown_crashes. Qed.
Print Assumptions C50_other_gates_refuted.
Theorem C50_large_qudits_refuted : forall tol same dims i d t rest draw, In (i_tag i) ["x"; "s"; "z"; "h"] -> i_dims i = [d] -> i_targets i = [t] -> 7 < d ->
  misim tol same dims [] draw (i :: rest) = Throw Crash.
Proof. exact large_crashes_7. Qed.
Print Assumptions C50_large_qudits_refuted.

(** ** C88: noise on the decision diagram simulator *)

(** The noisy circuit is the original one with the errors that were drawn, each directly behind its gate: for every mode of the
    noise two random numbers, flips and phases on exactly the lines the mode selects. *)
Theorem C88_noisy_circuit : forall dims nm draw is k out, Forall (plain nm) is -> generate dims nm draw k is = Done out -> noisy dims nm draw is k out.
Proof. exact generate_ok. Qed.
Print Assumptions C88_noisy_circuit.
(** The modes of a tag are those of its entry in the table. *)
Theorem C88_tags : forall nm tag, (forall l, NoDup (map fst nm) -> In (tag, l) nm -> find_tag nm tag = l) /\
  ((forall l, ~ In (tag, l) nm) -> find_tag nm tag = []).
Proof. exact find_tag_spec. Qed.
Print Assumptions C88_tags.
(** Without noise for the tags of the circuit, or with probability zero, it is the original one. *)
Theorem C88_no_noise : forall dims nm draw is k, (forall i, In i is -> find_tag nm (i_tag i) = []) -> generate dims nm draw k is = Done is.
Proof. intros. apply generate_quiet. assumption. Qed.
Print Assumptions C88_no_noise.
Theorem C88_zero_noise : forall dims nm draw is k, (forall k, (draw k < 1)%R) -> (forall i m o, In i is -> In (m, o) (find_tag nm (i_tag i)) -> o = Some (0, 0)%R) ->
  generate dims nm draw k is = Done is.
Proof. intros. apply generate_zero; assumption. Qed.
Print Assumptions C88_zero_noise.
(** If the noise fits the circuit, every shot returns a unit vector: the state after the gates and the errors. *)
Theorem C88_noisy_run : forall same dims nm draw gs is, pointers same -> register dims -> Forall2 (reads dims) gs is -> Forall (in_scope dims) is ->
  Forall (plain nm) is -> Forall (fitting dims nm) is -> (forall tag ms m, In (tag, ms) nm -> ~ In (m, None) ms) ->
  exists out hs v, noisy dims nm draw is 0 out /\ Forall2 (reads dims) hs out /\ misim 0 same dims nm draw is = Done v /\ evolves dims (ket 0) hs v /\ norm2 (prodl dims) v = 1%R.
Proof. intros same dims nm draw gs is P R F I L T H. exact (misim_noisy same dims nm draw gs is P R F I L T (not_physical nm H)). Qed.
Print Assumptions C88_noisy_run.

(** Violation: physical noise (levels of a qudit), which the noise model accepts, is refused. *)
Theorem C88_physical_refuted : forall tol same dims nm draw is tag ms m, In (tag, ms) nm -> In (m, None) ms -> misim tol same dims nm draw is = Throw InvalidArgument.
Proof. intros tol same dims nm draw is tag ms m H H'. apply physical_fails. exact (is_physical nm tag ms m H H'). Qed.
Print Assumptions C88_physical_refuted.
(** Violation: local noise never reaches the controls of a controlled gate; its control noise goes to the target, its target
    noise raises. *)
Theorem C88_controls_spared_refuted : forall (dims : list nat) i l cs, i_controls i = Some (cs, l) -> l <> [] -> forall m, m = Named "local" \/ m = Named "nonlocal" ->
  mode_lines (List.length dims) i m = Done (i_targets i) /\ forall c, In c cs -> selects dims i m c.
Proof. exact control_lines_spared. Qed.
Print Assumptions C88_controls_spared_refuted.
Theorem C88_control_mode_refuted : forall num i c t lv, i_targets i = [t] -> i_controls i = Some (c, lv) ->
  mode_lines num i (Named "control") = Done [t] /\ mode_lines num i (Named "target") = Throw OutOfRange.
Proof. exact control_mode_target. Qed.
Print Assumptions C88_control_mode_refuted.
(** Violation: the flip behind a rotation also changes the sign of one level: it is not, up to a phase, the flip the other
    simulator uses (NoiseX). *)
Theorem C88_flip_refuted : forall d a b M, a < b < d -> r_matrix d (PList [PInt (Z.of_nat a); PInt (Z.of_nat b); PFloat PI; PFloat (PI / 2)]) = Ok M ->
  meq d M (two_level a b C0 (Copp C1) C1 C0) /\ forall z, ~ meq d M (mscal z (noisex_array d a b)).
Proof. exact flip_signed. Qed.
Print Assumptions C88_flip_refuted.

(** ** C89: decision diagrams are exact *)

(** With tolerance 0 the operations on diagrams are those on the vectors and matrices they stand for, whatever the pointer
    comparison finds or misses. *)
Theorem C89_addition : forall same, pointers same -> forall m ss x y, ewf ss x -> ewf ss y ->
  ewf ss (add2 0 same m (List.length ss) x y) /\ forall p, valid ss p -> ev (add2 0 same m (List.length ss) x y) p = Cadd (ev x p) (ev y p).
Proof. intros same So m ss x y. apply (add2_ok same So m ss). apply Nat.le_refl. Qed.
Print Assumptions C89_addition.
Theorem C89_matrix_vector : forall same, pointers same -> forall ds x y, (forall d, In d ds -> 0 < d) -> ewf (arity true ds) x -> ewf ds y ->
  ewf ds (multiply2 0 same false ds x y) /\
  forall p, valid ds p -> ev (multiply2 0 same false ds x y) p = psum ds (fun q => Cmul (ev x (entry true ds p q)) (ev y q)).
Proof. exact apply_ok. Qed.
Print Assumptions C89_matrix_vector.
Theorem C89_matrix_matrix : forall same, pointers same -> forall ds x y, (forall d, In d ds -> 0 < d) -> ewf (arity true ds) x -> ewf (arity true ds) y ->
  ewf (arity true ds) (multiply2 0 same true ds x y) /\
  forall p c, valid ds p -> valid ds c -> ev (multiply2 0 same true ds x y) (entry true ds p c) = psum ds (fun q => Cmul (ev x (entry true ds p q)) (ev y (entry true ds q c))).
Proof. exact product_ok. Qed.
Print Assumptions C89_matrix_matrix.
Theorem C89_adjoint : forall ds e, (forall d, In d ds -> 0 < d) -> ewf (arity true ds) e ->
  ewf (arity true ds) (conj_transpose 0 ds e) /\
  forall p q, valid ds p -> valid ds q -> ev (conj_transpose 0 ds e) (entry true ds p q) = Cconj (ev e (entry true ds q p)).
Proof. exact conj_transpose_ok. Qed.
Print Assumptions C89_adjoint.
Theorem C89_identity : forall ds, (forall d, In d ds -> 0 < d) ->
  ewf (arity true ds) (make_ident 0 ds) /\ forall p q, valid ds p -> valid ds q -> ev (make_ident 0 ds) (entry true ds p q) = delta p q.
Proof. exact make_ident_ok. Qed.
Print Assumptions C89_identity.
(** A gate on register t, under a control or not: between states that agree elsewhere the matrix if the control is at its
    level, and the identity otherwise.  Register 0 is the last of a path. *)
Theorem C89_gate : forall dims t M c, (forall d, In d dims -> 0 < d) -> t < List.length dims -> (forall r l, c = Some (r, l) -> r <> t /\ r < List.length dims /\ l < nth r dims 0) ->
  exists e, make_gate 0 dims (nth t dims 0) M (match c with Some rl => [rl] | None => [] end) t = Some e /\ ewf (arity true (rev dims)) e /\
  forall xs ys, valid dims xs -> valid dims ys ->
    ev e (entry true (rev dims) (rev xs) (rev ys)) =
    if match c with Some (r, l) => Nat.eqb (nth r xs 0) l | None => true end
    then if forallb (fun u => Nat.eqb u t || Nat.eqb (nth u xs 0) (nth u ys 0)) (seq 0 (List.length dims)) then M (nth t xs 0) (nth t ys 0) else C0
    else delta xs ys.
Proof. exact gate_exact. Qed.
Print Assumptions C89_gate.
(** Reading the amplitudes. *)
Theorem C89_amplitudes : forall dims e, (forall d, In d dims -> 0 < d) -> ewf (rev dims) e ->
  forall p, valid (rev dims) p -> get_vector 0 dims e (undigits (rev dims) p) = ev e p.
Proof. exact get_vector_ok. Qed.
Print Assumptions C89_amplitudes.

(** ** cases *)
Section Case.
Let dims := [3; 2].
Let same (x y : node) := false.
Let g0 : gate mat := Gate "H" SINGLE (TInt 0) None true false (h_array 3).
Let i0 := Instr "h" true [3] [0] PNone None.
Let g1 : gate mat := Gate "CSum" TWO (TList [0; 1])%Z None false false (csum_array dims 0 1).
Let i1 := Instr "csum" false [3; 2] [0; 1] PNone None.
Let p2 := PList [PInt 1; PInt 2; PFloat (PI / 3); PFloat 1].
Let i2 := Instr "rxy" false [3] [0] p2 None.
Let nm : noise_table := [("h", [(Named "local", Some (1, 0)%R); (Named "all", Some (1, 1)%R)]); ("csum", [(Named "control", Some (1 / 2, 1 / 2)%R)])].
Example C50_case_pointers : pointers same.
Proof. intros x y E. discriminate. Qed.
Example C50_case : exists g2, register dims /\ Forall2 (reads dims) [g0; g1; g2] [i0; i1; i2] /\ Forall (in_scope dims) [i0; i1; i2] /\ Forall fits [g0; g1; g2].
Proof.
  destruct (proj2 (r_accepts 3 p2)) as (M & HM). { exists 1%Z, 2%Z, (PI / 3)%R, 1%R, []. split; [reflexivity|lia]. }
  exists (Gate "R" SINGLE (TInt 0) None false false M). split; [split; [discriminate|]; intros d [<-|[<-|[]]]; lia|]. split; [|split].
  - repeat (apply Forall2_cons || apply Forall2_nil).
    + constructor; try reflexivity; [intros t [<-|[]]; cbn; lia|repeat constructor; intros []|apply (A_h dims 0)].
    + constructor; try reflexivity; [intros t [<-|[<-|[]]]; cbn; lia|repeat constructor; cbn; intuition discriminate|apply (A_csum dims 0 1)].
    + constructor; try reflexivity; [intros t [<-|[]]; cbn; lia|repeat constructor; intros []|apply (A_r dims 0); exact HM].
  - repeat (apply Forall_cons || apply Forall_nil); unfold in_scope; cbn; (split; [reflexivity|]); (split; [lia|]); (split; [|split; intros X; discriminate X]); intros X; try (intuition discriminate).
    exists 1%Z, 2%Z, [PFloat (PI / 3); PFloat 1]. split; [reflexivity|]. left. lia.
  - repeat (apply Forall_cons || apply Forall_nil); cbn; [eexists; reflexivity| |eexists; reflexivity]. exists 0%Z, 1%Z. split; [reflexivity|]. intros _. lia.
Qed.
Example C88_case : Forall (plain nm) [i0; i1] /\ Forall (fitting dims nm) [i0; i1] /\ (forall tag ms m, In (tag, ms) nm -> ~ In (m, None) ms) /\
  exists out, generate dims nm (fun _ => (1 / 2)%R) 0 [i0; i1] = Done out /\ map i_tag out = ["h"; "x"; "x"; "x"; "z"; "z"; "csum"; "x"; "z"] /\ map i_targets out = [[0]; [0]; [0]; [1]; [0]; [1]; [0; 1]; [0]; [0]].
Proof.
  split; [|split; [|split; [intros tag ms m H X; assert (K := is_physical nm tag ms m H X); change (false = true) in K; discriminate K|]]].
  - repeat (apply Forall_cons || apply Forall_nil); (split; [reflexivity|]); (split; [repeat constructor; cbn; intuition discriminate|]); intros m o H; cbn in H.
    + destruct H as [H|[H|[]]]; injection H as <- <-; (split; [intros [X|X]; discriminate X|discriminate]).
    + destruct H as [H|[]]. injection H as <- <-. split; [reflexivity|discriminate].
  - repeat (apply Forall_cons || apply Forall_nil); intros m o H; cbn in H.
    + destruct H as [H|[H|[]]]; injection H as <- <-; (split; [eauto|]); intros q Q; inversion Q as [|q' Q'| |q' Q'| |]; subst; cbn in Q'.
      * destruct Q' as [[<-|[]]|[]]. cbn. split; [lia|]. split; [lia|]. intros X. cbn in X. intuition discriminate.
      * assert (Hq : q = 0 \/ q = 1) by lia. destruct Hq as [->| ->]; cbn; (split; [lia|]); (split; [lia|]); intros X; cbn in X; intuition discriminate.
    + destruct H as [H|[]]. injection H as <- <-. split; [eauto|]. intros q Q. inversion Q as [| | | |c t E|]; subst. injection E as <- <-. cbn. split; [lia|]. split; [lia|]. intros X. cbn in X. intuition discriminate.
  - assert (T : forall p, (1 / 2 <= p)%R -> chosen p (1 / 2) = true) by (intros p H; apply chosen_spec; unfold happens; lra).
    assert (F : chosen 0 (1 / 2) = false) by (unfold chosen; destruct (Rle_dec (1 - 0) (1 / 2)); [lra|reflexivity]).
    assert (H1 : modes_errors dims i0 [(Named "local", Some (1, 0)%R); (Named "all", Some (1, 1)%R)] (fun _ => (1 / 2)%R) 0 = Done (map (fun tq => Instr (fst tq) false [nth (snd tq) dims 0] [snd tq] PNone None) [("x", 0); ("x", 0); ("x", 1); ("z", 0); ("z", 1)], 4)).
    { cbn [modes_errors]. unfold mode_errors. cbn [fst snd]. rewrite !T by lra. rewrite F. reflexivity. }
    assert (H2 : modes_errors dims i1 [(Named "control", Some (1 / 2, 1 / 2)%R)] (fun _ => (1 / 2)%R) 4 = Done (map (fun tq => Instr (fst tq) false [nth (snd tq) dims 0] [snd tq] PNone None) [("x", 0); ("z", 0)], 6)).
    { cbn [modes_errors]. unfold mode_errors. cbn [fst snd]. rewrite !T by lra. reflexivity. }
    cbn [generate]. change (find_tag nm (i_tag i0)) with [(Named "local", Some (1, 0)%R); (Named "all", Some (1, 1)%R)]. rewrite H1. cbn [cbind fst snd].
    change (find_tag nm (i_tag i1)) with [(Named "control", Some (1 / 2, 1 / 2)%R)]. rewrite H2. cbn [cbind fst snd]. eexists. split; [reflexivity|]. split; reflexivity.
Qed.
Example C89_case : exists e, make_gate 0 [2; 3; 2] 3 (x_array 3) [(2, 1)] 1 = Some e /\ ev e (entry true [2; 3; 2] [1; 0; 1] [1; 2; 1]) = C1.
Proof.
  destruct (C89_gate [2; 3; 2] 1 (x_array 3) (Some (2, 1))) as (e & E & W & V); [intros d [<-|[<-|[<-|[]]]]; lia|cbn; lia|intros r l H; injection H as <- <-; cbn; lia|].
  exists e. split; [exact E|]. specialize (V [1; 0; 1] [1; 2; 1]). change (rev [2; 3; 2]) with [2; 3; 2] in V. change (rev [1; 0; 1]) with [1; 0; 1] in V. change (rev [1; 2; 1]) with [1; 2; 1] in V. rewrite V by (repeat constructor; lia). cbn [nth Nat.eqb List.length seq forallb orb andb]. rewrite x_array_entry by lia. reflexivity.
Qed.
End Case.
