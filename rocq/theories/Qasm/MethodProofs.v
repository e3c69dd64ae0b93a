(** What the gate methods record. *)
From Coq Require Import Reals Lia.
From Verif Require Import Base.Py Base.PyFacts Base.Text Base.TextFacts.
From Verif Require Import Circuit.CircuitModel Circuit.CircuitSpec Circuit.CircuitProofs Circuit.GateModel Gates.SingleModel Gates.TwoModel.
From Verif Require Import Qasm.QasmModel Qasm.QasmSpec Qasm.GateLineProofs Qasm.ImportProofs Qasm.MethodModel Qasm.MethodSpec.
Local Open Scope nat_scope.

Section Methods.
Context {Arr : Type}.
Notation gate := (gate (@gdata Arr)).

Lemma new_gate_full num dims name t tg ctl (data : @gdata Arr) (g : gate) : new_gate num dims name t tg ctl data = Ok g ->
  g_target g = tg /\ g_dagger g = false /\ g_data g = data /\ g_controls g = controls_given true ctl.
Proof.
  unfold new_gate. destruct ctl as [[i s]|].
  - destruct (control num dims (Gate name t tg None false false data) i s) as [g1 e] eqn:E. destruct e; [discriminate|]. intros H.
    destruct (check_long_range g1); [|discriminate]. injection H as <-. cbn [with_long g_target g_dagger g_data g_controls].
    destruct i as [|i0 ir]; [cbn in E; injection E as <-; auto|]. destruct s as [|s0 sr]; [cbn in E; injection E as <-; auto|].
    unfold control in E. cbn [List.length Nat.eqb orb] in E. destruct (negb _); [discriminate|]. destruct (_ || _); [discriminate|]. destruct (existsb _ _); [discriminate|].
    destruct (levels_beyond dims 0 (s0 :: sr)) as [[|]|]; try discriminate. injection E as <-. auto.
  - destruct (check_long_range _); [|discriminate]. intros H. injection H as <-. auto.
Qed.
Lemma mk_full num dims pre shown t tag q ds p ctl (g : gate) : mk num dims pre shown t tag q ds p ctl = Ok g ->
  g_data g = GData tag ds p /\ g_target g = q /\ g_dagger g = false /\ g_controls g = controls_given true ctl.
Proof. unfold mk. intros H. apply new_gate_full in H as (A & B & C & D). auto. Qed.
Lemma one_dims dims q d : one_dim dims q = Ok d -> exists t, q = TInt t /\ pyindex dims t = Ok d.
Proof. destruct q as [t|ts]; [|discriminate]. intros H. exists t. auto. Qed.
Lemma many_dims_of dims q ds : many_dims dims q = Ok ds -> exists ts, q = TList ts /\ Forall2 (fun t d => pyindex dims t = Ok d) ts ds.
Proof.
  destruct q as [t|ts]; [discriminate|]. intros H. exists ts. split; [reflexivity|]. cbn in H. revert ds H. induction ts as [|t ts IH]; intros ds H; cbn in H.
  - injection H as <-. constructor.
  - destruct (pyindex dims t) as [d|] eqn:E; [|discriminate]. cbn [bindr] in H. destruct (mapr (pyindex dims) ts) as [r|]; [|discriminate]. cbn [bindr] in H. injection H as <-.
    constructor; [exact E|]. apply IH. reflexivity.
Qed.

Lemma plain_one_full num dims pre tag m q p ctl (g : gate) : plain_one num dims pre tag (Call m q p ctl) = Ok g ->
  d_tag (g_data g) = tag /\ g_target g = q /\ g_dagger g = false /\ (exists t, q = TInt t) /\ dims_of dims q (d_dims (g_data g)) /\
  g_controls g = controls_given true ctl /\ d_par (g_data g) = ANone.
Proof.
  unfold plain_one. cbn [a_qudits a_ctl]. destruct (one_dim dims q) as [d|] eqn:Ed; [|discriminate]. cbn [bindr]. intros H. apply mk_full in H as (A & B & C & D).
  destruct (one_dims _ _ _ Ed) as (t & -> & Et). rewrite A. repeat split; try assumption; [exists t; reflexivity|]. exists d. auto.
Qed.
Lemma param_one_full num dims pre tag v m q p ctl (g : gate) : param_one num dims pre tag v (Call m q p ctl) = Ok g ->
  d_tag (g_data g) = tag /\ g_target g = q /\ g_dagger g = false /\ (exists t, q = TInt t) /\ dims_of dims q (d_dims (g_data g)) /\
  g_controls g = controls_given true ctl /\ exists d b, one_dim dims q = Ok d /\ v d (as_params p) = Ok b /\ d_par (g_data g) = if b then p else ANone.
Proof.
  unfold param_one. cbn [a_qudits a_ctl a_par]. destruct (one_dim dims q) as [d|] eqn:Ed; [|discriminate]. cbn [bindr].
  destruct (mk num dims pre (show_nat d) SINGLE tag q [d] ANone ctl) as [g0|] eqn:E; [|discriminate]. cbn [bindr]. apply mk_full in E as (A & B & C & D).
  destruct (v d (as_params p)) as [b|] eqn:Ev; [|discriminate]. cbn [bindr]. intros H. injection H as <-. destruct (one_dims _ _ _ Ed) as (t & -> & Et).
  destruct b; cbn [with_par g_data g_target g_dagger g_controls d_tag d_dims d_par]; rewrite A; (split; [reflexivity|]); (split; [exact B|]); (split; [exact C|]); (split; [exists t; reflexivity|]); (split; [exists d; auto|]); (split; [exact D|]); [exists d, true|exists d, false]; auto.
Qed.
Lemma validated d v (p : @parg Arr) b : In v [r_validate; rz_validate; rh_validate] -> v d (as_params p) = Ok b -> b = match p with AList _ => true | _ => false end.
Proof.
  intros [<-|[<-|[<-|[]]]] H; destruct p; try (cbn in H; injection H as <-; reflexivity).
  - unfold r_validate, some_ok, as_params, r_new in H. destruct (get_int l 0); [|discriminate H]. destruct (get_int l 1); [|discriminate H]. destruct (get_float l 2); [|discriminate H]. destruct (get_float l 3); [|discriminate H].
    cbn [bindr] in H. destruct (check_levels _ _ _); [|discriminate H]. destruct (levels_setter _ _). cbn [bindr] in H. injection H as <-. reflexivity.
  - unfold rz_validate, as_params in H. destruct (get_int l 0); [|discriminate H]. destruct (get_int l 1); [|discriminate H]. destruct (get_float l 2); [|discriminate H].
    cbn [bindr] in H. destruct (check_levels _ _ _); [|discriminate H]. injection H as <-. reflexivity.
  - unfold rh_validate, as_params in H. destruct (get_int l 0); [|discriminate H]. destruct (get_int l 1); [|discriminate H].
    cbn [bindr] in H. destruct (check_levels _ _ _); [|discriminate H]. injection H as <-. reflexivity.
Qed.
Lemma rec_list m (p r : @parg Arr) d v : In v [r_validate; rz_validate; rh_validate] -> In m ["r"; "rz"; "rh"; "noisex"; "noisey"]%string ->
  (exists b, v d (as_params p) = Ok b /\ r = if b then p else ANone) -> recorded m p r.
Proof.
  intros Hv Hm (b & E & ->). apply validated in E; [|exact Hv]. subst b. unfold recorded.
  destruct Hm as [<-|[<-|[<-|[<-|[<-|[]]]]]]; cbn; destruct p; auto.
Qed.

Ltac some_in H := match type of H with bindr ?x _ = _ => let g := fresh "g0" in let E := fresh "E" in destruct x as [g|] eqn:E; [cbn [bindr] in H; injection H as <-|discriminate H] end.
Theorem method_recorded num dims m q p ctl (g : gate) : construct num dims (Call m q p ctl) = Ok (Some g) ->
  exists tag one takes, In (m, tag, one, takes) methods /\ d_tag (g_data g) = tag /\ g_target g = q /\ g_dagger g = false /\
  ((exists t, q = TInt t) <-> one = true) /\ dims_of dims q (d_dims (g_data g)) /\ g_controls g = controls_given takes ctl /\ recorded m p (d_par (g_data g)).
Proof.
  unfold construct. cbn [a_method a_qudits a_par a_ctl].
  assert (Plain : forall pre tag, plain_one num dims pre tag (Call m q p ctl) = Ok g -> In (m, tag, true, true) methods -> In m ["x"; "z"; "h"; "s"]%string ->
    exists tag one takes, In (m, tag, one, takes) methods /\ d_tag (g_data g) = tag /\ g_target g = q /\ g_dagger g = false /\
    ((exists t, q = TInt t) <-> one = true) /\ dims_of dims q (d_dims (g_data g)) /\ g_controls g = controls_given takes ctl /\ recorded m p (d_par (g_data g))).
  { intros pre tag H I J. apply plain_one_full in H as (A & B & C & D & E & F & G). exists tag, true, true. repeat (split; [first [assumption|split; [reflexivity|intros _; exact D]]|]).
    rewrite G. unfold recorded. destruct J as [<-|[<-|[<-|[<-|[]]]]]; reflexivity. }
  assert (Param : forall pre tag v, param_one num dims pre tag v (Call m q p ctl) = Ok g -> In (m, tag, true, true) methods -> (In v [r_validate; rz_validate; rh_validate] /\ In m ["r"; "rz"; "rh"; "noisex"; "noisey"]%string) \/ (m = "virtrz"%string /\ v = vz_validate) ->
    exists tag one takes, In (m, tag, one, takes) methods /\ d_tag (g_data g) = tag /\ g_target g = q /\ g_dagger g = false /\
    ((exists t, q = TInt t) <-> one = true) /\ dims_of dims q (d_dims (g_data g)) /\ g_controls g = controls_given takes ctl /\ recorded m p (d_par (g_data g))).
  { intros pre tag v H I J. apply param_one_full in H as (A & B & C & D & E & F & d & b & G1 & G2 & G3). exists tag, true, true. repeat (split; [first [assumption|split; [reflexivity|intros _; exact D]]|]).
    destruct J as [[J1 J2]|[-> ->]].
    - apply (rec_list m p _ d v J1 J2). exists b. auto.
    - rewrite G3. unfold recorded. cbn [existsb String.eqb Ascii.eqb Bool.eqb orb]. unfold vz_validate in G2. injection G2 as <-. destruct p as [|l| | |]; try reflexivity. cbn [as_params].
      destruct (virtrz_validate d (PList l)); [left|right]; auto. }
  assert (One : forall pre (shown : nat -> text) tag p' (takes : bool) c d, one_dim dims q = Ok d -> mk num dims pre (shown d) SINGLE tag q [d] p' c = Ok g -> c = (if takes then ctl else None) -> In (m, tag, true, takes) methods -> recorded m p p' ->
    exists tag one takes, In (m, tag, one, takes) methods /\ d_tag (g_data g) = tag /\ g_target g = q /\ g_dagger g = false /\
    ((exists t, q = TInt t) <-> one = true) /\ dims_of dims q (d_dims (g_data g)) /\ g_controls g = controls_given takes ctl /\ recorded m p (d_par (g_data g))).
  { intros pre shown tag p' takes c d Ed H -> I R. apply mk_full in H as (A & B & C & D). destruct (one_dims _ _ _ Ed) as (t & Eq & Et). exists tag, true, takes. rewrite A. cbn [d_tag d_dims d_par].
    split; [exact I|]. split; [reflexivity|]. split; [exact B|]. split; [exact C|]. split; [split; [reflexivity|intros _; exists t; exact Eq]|]. split; [rewrite Eq; exists d; auto|]. split; [rewrite D; destruct takes; reflexivity|exact R]. }
  assert (Many : forall pre shown ty tag p' (takes : bool) c ds (g1 : gate), many_dims dims q = Ok ds -> mk num dims pre shown ty tag q ds p' c = Ok g1 -> c = (if takes then ctl else None) -> In (m, tag, false, takes) methods ->
    g_target g = g_target g1 -> g_dagger g = g_dagger g1 -> g_controls g = g_controls g1 -> d_tag (g_data g) = d_tag (g_data g1) -> d_dims (g_data g) = d_dims (g_data g1) -> recorded m p (d_par (g_data g)) ->
    exists tag one takes, In (m, tag, one, takes) methods /\ d_tag (g_data g) = tag /\ g_target g = q /\ g_dagger g = false /\
    ((exists t, q = TInt t) <-> one = true) /\ dims_of dims q (d_dims (g_data g)) /\ g_controls g = controls_given takes ctl /\ recorded m p (d_par (g_data g))).
  { intros pre shown ty tag p' takes c ds g1 Ed H -> I Q1 Q2 Q3 Q4 Q5 R. apply mk_full in H as (A & B & C & D). destruct (many_dims_of _ _ _ Ed) as (ts & Eq & Et). exists tag, false, takes.
    split; [exact I|]. split; [rewrite Q4, A; reflexivity|]. split; [congruence|]. split; [congruence|]. split; [rewrite Eq; split; [intros [t X]; discriminate X|discriminate]|]. split; [rewrite Q5, A, Eq; exact Et|].
    split; [rewrite Q3, D; destruct takes; reflexivity|exact R]. }
  destruct (String.eqb_spec m "x") as [->|_]; [intros H; some_in H; eapply Plain; [exact E|cbn; tauto|cbn; tauto]|].
  destruct (String.eqb_spec m "z") as [->|_]; [intros H; some_in H; eapply Plain; [exact E|cbn; tauto|cbn; tauto]|].
  destruct (String.eqb_spec m "h") as [->|_]; [intros H; some_in H; eapply Plain; [exact E|cbn; tauto|cbn; tauto]|].
  destruct (String.eqb_spec m "s") as [->|_].
  { intros H. some_in H. destruct (one_dim dims q) as [d|]; [|discriminate E]. cbn [bindr] in E. destruct (s_new d); [|discriminate E]. cbn [bindr] in E. eapply Plain; [exact E|cbn; tauto|cbn; tauto]. }
  destruct (String.eqb_spec m "r") as [->|_]; [intros H; some_in H; eapply Param; [exact E|cbn; tauto|left; cbn; tauto]|].
  destruct (String.eqb_spec m "rz") as [->|_]; [intros H; some_in H; eapply Param; [exact E|cbn; tauto|left; cbn; tauto]|].
  destruct (String.eqb_spec m "rh") as [->|_]; [intros H; some_in H; eapply Param; [exact E|cbn; tauto|left; cbn; tauto]|].
  destruct (String.eqb_spec m "virtrz") as [->|_]; [intros H; some_in H; eapply Param; [exact E|cbn; tauto|right; cbn; tauto]|].
  destruct (String.eqb_spec m "noisex") as [->|_]; [intros H; some_in H; eapply Param; [exact E|cbn; tauto|left; cbn; tauto]|].
  destruct (String.eqb_spec m "noisey") as [->|_]; [intros H; some_in H; eapply Param; [exact E|cbn; tauto|left; cbn; tauto]|].
  destruct (String.eqb_spec m "pm") as [->|_].
  { intros H. some_in H. destruct (one_dim dims q) as [d|] eqn:Ed; [|discriminate E]. cbn [bindr] in E. destruct (mk _ _ _ _ _ _ _ _ _ _) as [g1|] eqn:Eg; [|discriminate E]. cbn [bindr] in E.
    destruct (match p with AList l => _ | _ => _ end); [|discriminate E]. injection E as ->. apply (One "Pm"%string show_nat "pm"%string p false None d ltac:(first [exact Ed|reflexivity]) Eg); [reflexivity|cbn; tauto|reflexivity]. }
  destruct (String.eqb_spec m "cu_one") as [->|_].
  { intros H. some_in H. destruct (one_dim dims q) as [d|] eqn:Ed; [|discriminate E]. cbn [bindr] in E. apply (One "CUo"%string show_nat "cuone"%string p true ctl d ltac:(first [exact Ed|reflexivity]) E); [reflexivity|cbn; tauto|reflexivity]. }
  destruct (String.eqb_spec m "cu_two") as [->|_].
  { intros H. some_in H. destruct (many_dims dims q) as [ds|] eqn:Ed; [|discriminate E]. cbn [bindr] in E. eapply (Many _ _ _ _ _ true); [first [exact Ed|reflexivity]|exact E|reflexivity|cbn; tauto|reflexivity..|]. apply mk_full in E as (-> & _). reflexivity. }
  destruct (String.eqb_spec m "cu_multi") as [->|_].
  { intros H. some_in H. destruct (many_dims dims q) as [ds|] eqn:Ed; [|discriminate E]. cbn [bindr] in E. eapply (Many _ _ _ _ _ true); [first [exact Ed|reflexivity]|exact E|reflexivity|cbn; tauto|reflexivity..|]. apply mk_full in E as (-> & _). reflexivity. }
  destruct (String.eqb_spec m "csum") as [->|_].
  { intros H. some_in H. destruct (many_dims dims q) as [ds|] eqn:Ed; [|discriminate E]. cbn [bindr] in E. eapply (Many _ _ _ _ _ false); [first [exact Ed|reflexivity]|exact E|reflexivity|cbn; tauto|reflexivity..|]. apply mk_full in E as (-> & _). reflexivity. }
  destruct (String.eqb_spec m "randu") as [->|_].
  { intros H. some_in H. destruct (many_dims dims q) as [ds|] eqn:Ed; [|discriminate E]. cbn [bindr] in E. eapply (Many _ _ _ _ _ false); [first [exact Ed|reflexivity]|exact E|reflexivity|cbn; tauto|reflexivity..|]. apply mk_full in E as (-> & _). reflexivity. }
  destruct (String.eqb_spec m "cx") as [->|_].
  { intros H. some_in H. destruct (many_dims dims q) as [ds|] eqn:Ed; [|discriminate E]. cbn [bindr] in E. destruct (mk _ _ _ _ _ _ _ _ _ _) as [g1|] eqn:Eg; [|discriminate E]. cbn [bindr] in E.
    assert (Q : g0 = g1 /\ (forall l, p <> AList l) \/ exists l, p = AList l /\ g0 = with_par g1 (AList l)).
    { destruct p as [|l| | |]; try (injection E as <-; left; split; [reflexivity|discriminate]). destruct (cex_new (PList l)); [|discriminate E]. cbn [bindr] in E. injection E as <-. right. exists l. auto. }
    destruct Q as [[-> N]|(l & -> & ->)].
    - eapply (Many _ _ _ _ _ false); [first [exact Ed|reflexivity]|exact Eg|reflexivity|cbn; tauto|reflexivity..|]. apply mk_full in Eg as (-> & _). unfold recorded. cbn. destruct p; try reflexivity. contradiction (N l). reflexivity.
    - eapply (Many _ _ _ _ _ false); [first [exact Ed|reflexivity]|exact Eg|reflexivity|cbn; tauto|reflexivity..|]. unfold recorded. cbn. auto. }
  destruct (String.eqb_spec m "ls") as [->|_]; [|destruct (String.eqb_spec m "ms") as [->|_]]; cbn [orb].
  1, 2: intros H; some_in H; destruct (many_dims dims q) as [ds|] eqn:Ed; [|discriminate E]; cbn [bindr] in E; match type of E with bindr ?x _ = _ => destruct x; [|discriminate E] end; cbn [bindr] in E;
    destruct (mk _ _ _ _ _ _ _ _ _ _) as [g1|] eqn:Eg; [|discriminate E]; cbn [bindr] in E;
    (assert (g0 = g1) as -> by (destruct p as [|l| | |]; try (injection E as <-; reflexivity); destruct (angle_new l); [|discriminate E]; cbn [bindr] in E; injection E as <-; reflexivity));
    eapply (Many _ _ _ _ _ false); [first [exact Ed|reflexivity]|exact Eg|reflexivity|cbn; tauto|reflexivity..|]; apply mk_full in Eg as (-> & _); reflexivity.
  destruct (String.eqb m "gellmann"); [|discriminate]. destruct p; try discriminate. destruct (one_dim dims q); [|discriminate]. cbn [bindr]. destruct (get_int l 0); [|discriminate]. cbn [bindr]. destruct (get_int l 1); [|discriminate]. cbn [bindr].
  destruct (get_str l 2); [|discriminate]. cbn [bindr]. destruct (gellmann_validate _ _); discriminate.
Qed.

Lemma check_two d a b : check_levels d a b = true <-> two_levels d a b.
Proof. unfold check_levels, two_levels. rewrite !Bool.andb_true_iff, Bool.negb_true_iff, !Z.leb_le, !Z.ltb_lt, Z.eqb_neq. lia. Qed.
Lemma check_not_two d a b : ~ two_levels d a b -> check_levels d a b = false.
Proof. intros N. destruct (check_levels d a b) eqn:E; [|reflexivity]. apply check_two in E. contradiction. Qed.
(** what the five validations do with a list *)
Definition validates (m : string) (v : nat -> params -> res bool) : Prop :=
  (m = "r"%string /\ v = r_validate) \/ (m = "rz"%string /\ v = rz_validate) \/ (In m ["rh"; "noisex"; "noisey"]%string /\ v = rh_validate).
Ltac at_int l := let E := fresh in destruct l as [|[?|?|?] l]; cbn [nth_error] in *; try discriminate.
Lemma validate_ok m v d l b0 : validates m v -> v d (PList l) = Ok b0 -> exists n a b rest, In (m, n) level_methods /\ l = PInt a :: PInt b :: rest /\ angles n rest /\ two_levels d a b.
Proof.
  intros [[-> ->]|[[-> ->]|[Hm ->]]] H.
  - exists 2. unfold r_validate, some_ok, r_new, get_int, get_float in H. destruct l as [|[a|x|s] [|[b|y|s'] [|[c|t|s''] [|[e|f|s3] l]]]]; cbn [nth_error bindr] in H; try discriminate H.
    destruct (check_levels d a b) eqn:E; [|discriminate H]. apply check_two in E. exists a, b, (PFloat t :: PFloat f :: l). split; [left; reflexivity|]. split; [reflexivity|]. split; [exact I|exact E].
  - exists 1. unfold rz_validate, get_int, get_float in H. destruct l as [|[a|x|s] [|[b|y|s'] [|[c|t|s''] l]]]; cbn [nth_error bindr] in H; try discriminate H.
    destruct (check_levels d a b) eqn:E; [|discriminate H]. apply check_two in E. exists a, b, (PFloat t :: l). split; [right; left; reflexivity|]. split; [reflexivity|]. split; [exact I|exact E].
  - exists 0. unfold rh_validate, get_int in H. destruct l as [|[a|x|s] [|[b|y|s'] l]]; cbn [nth_error bindr] in H; try discriminate H.
    destruct (check_levels d a b) eqn:E; [|discriminate H]. apply check_two in E. exists a, b, l. split; [destruct Hm as [<-|[<-|[<-|[]]]]; cbn; auto 6|]. split; [reflexivity|]. split; [exact I|exact E].
Qed.
Lemma validate_list m v n d a b rest : validates m v -> In (m, n) level_methods -> angles n rest -> v d (PList (PInt a :: PInt b :: rest)) = if check_levels d a b then Ok true else Err AssertionError.
Proof.
  intros V Hn Ha.
  assert (N : (m = "r"%string -> n = 2) /\ (m = "rz"%string -> n = 1)).
  { cbn in Hn. repeat (destruct Hn as [Hn|Hn]; [injection Hn as <- <-; split; first [reflexivity|discriminate]|]). destruct Hn. }
  destruct V as [[-> ->]|[[-> ->]|[Hm ->]]].
  - rewrite (proj1 N eq_refl) in Ha. destruct rest as [|[?|t|?] [|[?|f|?] rest]]; try destruct Ha. unfold r_validate, some_ok, r_new, get_int, get_float. cbn [nth_error bindr]. destruct (check_levels d a b); [|reflexivity].
    destruct (levels_setter a b). reflexivity.
  - rewrite (proj2 N eq_refl) in Ha. destruct rest as [|[?|t|?] rest]; try destruct Ha. reflexivity.
  - reflexivity.
Qed.
Lemma level_call num dims m n q p ctl : In (m, n) level_methods -> exists pre tag v, validates m v /\ In (m, tag, true, true) methods /\
  @construct Arr num dims (Call m q p ctl) = (let? g := param_one num dims pre tag v (Call m q p ctl) in Ok (Some g)).
Proof.
  intros H. cbn in H. destruct H as [H|[H|[H|[H|[H|[]]]]]]; injection H as <- <-.
  - exists "R"%string, "rxy"%string, r_validate. repeat split; [left; auto|cbn; tauto].
  - exists "Rz"%string, "rz"%string, rz_validate. repeat split; [right; left; auto|cbn; tauto].
  - exists "Rh"%string, "rh"%string, rh_validate. repeat split; [right; right; cbn; auto|cbn; tauto].
  - exists "NoiseX"%string, "noisex"%string, rh_validate. repeat split; [right; right; cbn; auto|cbn; tauto].
  - exists "NoiseY"%string, "noisey"%string, rh_validate. repeat split; [right; right; cbn; auto|cbn; tauto].
Qed.
Theorem levels_accepted num dims m n q l ctl (g : gate) : In (m, n) level_methods -> construct num dims (Call m q (AList l) ctl) = Ok (Some g) ->
  exists d a b rest, dims_of dims q [d] /\ l = PInt a :: PInt b :: rest /\ angles n rest /\ two_levels d a b.
Proof.
  intros Hn H. destruct (level_call num dims m n q (AList l) ctl Hn) as (pre & tag & v & V & I & E). rewrite E in H. clear E.
  destruct (param_one num dims pre tag v _) as [g0|] eqn:E; [|discriminate H]. clear H. apply param_one_full in E as (_ & _ & _ & _ & _ & _ & d & b0 & E1 & E2 & _).
  apply (validate_ok m) in E2; [|exact V]. destruct E2 as (n' & a & b & rest & Hn' & -> & Ha & T). exists d, a, b, rest. destruct (one_dims _ _ _ E1) as (t & -> & Et). split; [exists d; auto|]. split; [reflexivity|]. split; [|exact T].
  replace n with n'; [exact Ha|]. cbn in Hn, Hn'. repeat (destruct Hn as [Hn|Hn]; [injection Hn as <- <-; repeat (destruct Hn' as [Hn'|Hn']; [try discriminate Hn'; injection Hn' as <-; reflexivity|]); destruct Hn'|]). destruct Hn.
Qed.
Theorem levels_outside num dims m n t d a b rest : In (m, n) level_methods -> pyindex dims t = Ok d -> angles n rest -> ~ two_levels d a b ->
  @construct Arr num dims (Call m (TInt t) (AList (PInt a :: PInt b :: rest)) None) = Err AssertionError.
Proof.
  intros Hn Ed Ha N. destruct (level_call num dims m n (TInt t) (AList (PInt a :: PInt b :: rest)) None Hn) as (pre & tag & v & V & I & E). rewrite E. clear E.
  unfold param_one. cbn [a_qudits a_ctl a_par one_dim]. rewrite Ed. cbn [bindr]. unfold mk, new_gate. cbn. unfold check_long_range, reference_lines. cbn.
  rewrite (validate_list m v n) by assumption. rewrite (check_not_two _ _ _ N). reflexivity.
Qed.
Theorem levels_inside num dims m n t d a b rest : In (m, n) level_methods -> pyindex dims t = Ok d -> angles n rest -> two_levels d a b ->
  exists g : gate, construct num dims (Call m (TInt t) (AList (PInt a :: PInt b :: rest)) None) = Ok (Some g) /\ d_par (g_data g) = AList (PInt a :: PInt b :: rest).
Proof.
  intros Hn Ed Ha N. destruct (level_call num dims m n (TInt t) (AList (PInt a :: PInt b :: rest)) None Hn) as (pre & tag & v & V & I & E). rewrite E. clear E.
  unfold param_one. cbn [a_qudits a_ctl a_par one_dim]. rewrite Ed. cbn [bindr]. unfold mk, new_gate. cbn. unfold check_long_range, reference_lines. cbn.
  rewrite (validate_list m v n) by assumption. rewrite (proj2 (check_two _ _ _) N). cbn. eexists. split; reflexivity.
Qed.

Theorem call_recorded (c : circuit gate) m q p ctl c' e : call_method c (Call m q p ctl) = (c', e) ->
  match e with
  | Some _ => c' = c
  | None => (m = "gellmann"%string /\ c' = c) \/
    exists g tag one takes, c' = with_instructions c (number_gates c + 1) (instructions c ++ [g]) /\ In (m, tag, one, takes) methods /\
      d_tag (g_data g) = tag /\ g_target g = q /\ g_dagger g = false /\ ((exists t, q = TInt t) <-> one = true) /\
      dims_of (dimensions c) q (d_dims (g_data g)) /\ g_controls g = controls_given takes ctl /\ recorded m p (d_par (g_data g))
  end.
Proof.
  unfold call_method. destruct (construct (num_qudits c) (dimensions c) (Call m q p ctl)) as [[g|]|x] eqn:E; cbn [add_gate]; intros H; injection H as <- <-; [right| |reflexivity].
  - destruct (method_recorded _ _ _ _ _ _ _ E) as (tag & one & takes & R). exists g, tag, one, takes. split; [reflexivity|exact R].
  - left. split; [|reflexivity]. destruct (String.eqb_spec m "gellmann") as [M|N]; [exact M|]. exfalso. unfold construct in E. cbn [a_method] in E. apply String.eqb_neq in N. rewrite N in E.
    repeat match type of E with (if ?b then _ else _) = _ => destruct b; [match type of E with bindr ?x _ = _ => destruct x; discriminate E end|] end. discriminate E.
Qed.
Theorem call_levels (c : circuit gate) m n q l ctl c' : In (m, n) level_methods -> call_method c (Call m q (AList l) ctl) = (c', None) ->
  exists d a b rest, dims_of (dimensions c) q [d] /\ l = PInt a :: PInt b :: rest /\ angles n rest /\ two_levels d a b.
Proof.
  intros Hn H. unfold call_method in H. destruct (construct (num_qudits c) (dimensions c) (Call m q (AList l) ctl)) as [[g|]|x] eqn:E; [|exfalso|discriminate H].
  - exact (levels_accepted _ _ _ _ _ _ _ _ Hn E).
  - destruct (level_call (num_qudits c) (dimensions c) m n q (AList l) ctl Hn) as (pre & tag & v & V & I & E'). rewrite E' in E. destruct (param_one _ _ _ _ _ _); discriminate E.
Qed.
Theorem call_outside (c : circuit gate) m n t d a b rest : In (m, n) level_methods -> pyindex (dimensions c) t = Ok d -> angles n rest -> ~ two_levels d a b ->
  call_method c (Call m (TInt t) (AList (PInt a :: PInt b :: rest)) None) = (c, Some AssertionError).
Proof. intros. unfold call_method. rewrite (levels_outside _ _ m n t d a b rest) by assumption. reflexivity. Qed.
Theorem call_inside (c : circuit gate) m n t d a b rest : In (m, n) level_methods -> pyindex (dimensions c) t = Ok d -> angles n rest -> two_levels d a b ->
  exists g, call_method c (Call m (TInt t) (AList (PInt a :: PInt b :: rest)) None) = (with_instructions c (number_gates c + 1) (instructions c ++ [g]), None) /\
    d_par (g_data g) = AList (PInt a :: PInt b :: rest) /\ d_dims (g_data g) = [d].
Proof.
  intros Hn Ed Ha T. destruct (levels_inside (num_qudits c) (dimensions c) m n t d a b rest Hn Ed Ha T) as (g & E & P). exists g. unfold call_method. rewrite E. split; [reflexivity|]. split; [exact P|].
  destruct (method_recorded _ _ _ _ _ _ _ E) as (tag & one & takes & _ & _ & _ & _ & _ & (d' & D1 & D2) & _). rewrite Ed in D1. injection D1 as <-. exact D2.
Qed.
Theorem call_tuple (c : circuit gate) m n t d l : In (m, n) (("virtrz"%string, 0) :: level_methods) -> pyindex (dimensions c) t = Ok d ->
  exists g, call_method c (Call m (TInt t) (ATuple l) None) = (with_instructions c (number_gates c + 1) (instructions c ++ [g]), None) /\ d_par (g_data g) = ANone.
Proof.
  intros Hn Ed. unfold call_method. cbn in Hn. destruct Hn as [Hn|[Hn|[Hn|[Hn|[Hn|[Hn|[]]]]]]]; injection Hn as <- <-; unfold construct; cbn [a_method String.eqb Ascii.eqb Bool.eqb]; unfold param_one; cbn [a_qudits a_ctl a_par one_dim];
    rewrite Ed; cbn [bindr]; unfold mk, new_gate; cbn [check_long_range reference_lines]; unfold check_long_range, reference_lines; cbn; eexists; split; reflexivity.
Qed.
Theorem call_cx_tuple (c : circuit gate) s t ds l : pyindex (dimensions c) s = Ok (fst ds) -> pyindex (dimensions c) t = Ok (snd ds) ->
  exists g, call_method c (Call "cx" (TList [s; t]) (ATuple l) None) = (with_instructions c (number_gates c + 1) (instructions c ++ [g]), None) /\
    d_par (g_data g) = AList [PInt 0; PInt 1; PInt 1; PFloat 0].
Proof.
  intros E1 E2. unfold call_method, construct. cbn [a_method String.eqb Ascii.eqb Bool.eqb a_qudits a_par]. unfold many_dims. cbn [mapr]. rewrite E1, E2. cbn [bindr]. unfold mk, new_gate, check_long_range, reference_lines.
  cbn [g_controls g_target]. cbn [bindr]. eexists. split; [reflexivity|]. reflexivity.
Qed.
Theorem call_virtrz (c : circuit gate) t d a f : pyindex (dimensions c) t = Ok d -> ~ (0 <= a < Z.of_nat d)%Z ->
  exists g, call_method c (Call "virtrz" (TInt t) (AList [PInt a; PFloat f]) None) = (with_instructions c (number_gates c + 1) (instructions c ++ [g]), None) /\ d_par (g_data g) = ANone.
Proof.
  intros Ed N. unfold call_method, construct. cbn [a_method String.eqb Ascii.eqb Bool.eqb]. unfold param_one. cbn [a_qudits a_ctl a_par one_dim]. rewrite Ed. cbn [bindr]. unfold mk, new_gate, check_long_range, reference_lines. cbn [g_controls g_target bindr].
  unfold vz_validate, virtrz_validate, as_params.
  replace ((0 <=? a)%Z && (a <? Z.of_nat d)%Z) with false; [cbn [bindr]; eexists; split; reflexivity|]. symmetry. apply Bool.not_true_iff_false. rewrite Bool.andb_true_iff, Z.leb_le, Z.ltb_lt. exact N.
Qed.
End Methods.
