(** What the decision diagram simulator does not do. *)
From Coq Require Import List ZArith Arith Lia Reals Lra String Bool Permutation.
From Verif Require Import Base.Py Base.Cplx Base.Matrix Base.Radix Circuit.GateModel Gates.AnglesModel Gates.SingleModel Gates.SingleSpec Gates.SingleProofs Gates.FactorySpec Gates.ActsOn.
From Verif Require Import Sim.TnModel Sim.TnSpec Sim.TnProofs Misim.DdModel Misim.DdSpec Misim.DdProofs Misim.DdGateProofs Misim.MisimModel Misim.MisimSpec Misim.MisimMatProofs Misim.MisimProofs Misim.MisimNoiseProofs.
Import ListNotations.
Local Open Scope nat_scope.
Local Open Scope string_scope.

Definition strip (i : instr) : instr := Instr (i_tag i) (i_dag i) (i_dims i) (i_targets i) (i_params i) None.
Lemma strip_gate tol same dims i : get_gate tol same dims (strip i) = get_gate tol same dims i.
Proof. reflexivity. Qed.
Lemma strip_run tol same dims : forall is e, run_dd tol same dims (map strip is) e = run_dd tol same dims is e.
Proof. induction is as [|i is IH]; intros e; cbn [map run_dd]; [reflexivity|]. rewrite strip_gate. destruct (get_gate tol same dims i) as [g|]; [|reflexivity]. cbn [cbind]. apply IH. Qed.
Lemma strip_misim tol same dims draw is : misim tol same dims [] draw is = misim tol same dims [] draw (map strip is).
Proof. unfold misim, simulate. cbn [physical existsb]. rewrite !no_noise. cbn [cbind]. unfold ddsimulator. rewrite strip_run. reflexivity. Qed.

Lemma controlled_wrong same : pointers same -> exists dims g i v, register dims /\ reads dims g i /\ well_placed dims g /\ unitary_gate dims g /\ i_controls i = Some ([0], [1]) /\
  misim 0 same dims [] (fun _ => 0%R) [i] = Done v /\ ~ evolves dims (ket 0) [g] v.
Proof.
  intros So. set (dims := [2; 2]). set (g := Gate "X" TWO (TInt 1%Z) (Some ([0%Z], [1%Z])) false false (x_array 2)). set (i := Instr "x" false [2] [1] PNone (Some ([0], [1]))).
  set (g' := Gate "X" SINGLE (TInt 1%Z) None false false (x_array 2)).
  assert (P : forall d, In d dims -> 0 < d) by (intros d [<-|[<-|[]]]; lia).
  assert (R : reads dims g i). { constructor; try reflexivity; [intros t [<-|[]]; cbn; lia|repeat constructor; intros []|apply (A_x dims 1 PNone)]. }
  assert (R' : reads dims g' (strip i)). { constructor; try reflexivity; [intros t [<-|[]]; cbn; lia|repeat constructor; intros []|apply (A_x dims 1 PNone)]. }
  assert (S' : in_scope dims (strip i)). { unfold in_scope. cbn. split; [reflexivity|]. split; [lia|]. split; [intuition discriminate|]. split; discriminate. }
  destruct (misim_ok dims P same So [g'] [strip i] (fun _ => 0%R) (Forall2_cons _ _ R' (Forall2_nil _)) (Forall_cons _ S' (Forall_nil _))) as (v & Ev & Hv).
  exists dims, g, i, v. split; [split; [discriminate|exact P]|]. split; [exact R|]. split.
  { unfold well_placed. cbn. split; [discriminate|]. split; [constructor; [intros []|constructor]|]. split; [intros t [<-|[]]; lia|]. split; [discriminate|]. intros c [<-|[]]. split; [lia|]. intros [X|[]]. discriminate. }
  split; [unfold unitary_gate; cbn; apply x_unitary|]. split; [reflexivity|]. split; [rewrite strip_misim; exact Ev|].
  intros Hg. destruct Hv as (A & (ts & Pt & _ & HA) & Hv). destruct Hg as (B & (us & Pu & _ & HB) & Hg).
  apply Permutation_sym in Pt, Pu. apply Permutation_length_1_inv in Pt, Pu. subst ts us. change (Z.to_nat 1) with 1 in HA, HB. cbn [evolves] in Hv, Hg.
  assert (Ag : agree_off dims [1] 0 0) by apply agree_refl. assert (H4 : 0 < prodl dims) by (cbn; lia).
  pose proof (ao_active _ _ _ _ _ _ HA 0 0 H4 H4 Ag eq_refl) as E1. assert (Nc : ~ controls_on dims (control_nats g) (control_levels g) 0) by (cbn; discriminate).
  pose proof (ao_idle _ _ _ _ _ _ HB 0 0 H4 H4 Ag Nc) as E2.
  specialize (Hv 0 H4). specialize (Hg 0 H4). unfold mapply in Hv, Hg. rewrite (csum_single _ _ 0 H4) in Hv by (intros k _ Nk; unfold ket; destruct (Nat.eqb_spec k 0); [contradiction|ring]). rewrite (csum_single _ _ 0 H4) in Hg by (intros k _ Nk; unfold ket; destruct (Nat.eqb_spec k 0); [contradiction|ring]).
  rewrite E1 in Hv. rewrite E2 in Hg. rewrite Hv in Hg. change (sub_index dims [1] 0) with 0 in Hg. unfold core in Hg. cbn [g' g_dagger g_data] in Hg. rewrite x_array_entry in Hg by lia. cbn in Hg. unfold mid, ket in Hg. cbn in Hg.
  assert (X : fst (C0 * C1)%C = fst (C1 * C1)%C) by (f_equal; exact Hg). cbn in X. lra.
Qed.

(** ** two levels in descending order *)
Lemma descending_fails tol same dims t d a b p tag dag ctl draw : nth t dims 0 = d -> 3 <= d -> supported d = true -> (0 <= b < a)%Z -> (a < Z.of_nat d)%Z ->
  (tag = "rxy" /\ (exists th ph rest, p = PList (PInt a :: PInt b :: PFloat th :: PFloat ph :: rest)) \/
   tag = "rz" /\ (exists ph rest, p = PList (PInt a :: PInt b :: PFloat ph :: rest)) \/
   tag = "rh" /\ (exists rest, p = PList (PInt a :: PInt b :: rest))) ->
  forall rest, misim tol same dims [] draw (Instr tag dag [d] [t] p ctl :: rest) = Throw InvalidArgument.
Proof.
  intros Ed Hd Hs Hb Ha H rest. unfold misim, simulate. cbn [physical existsb]. rewrite no_noise. cbn [cbind]. unfold ddsimulator. cbn [run_dd].
  assert (E : get_gate tol same dims (Instr tag dag [d] [t] p ctl) = Throw InvalidArgument); [|rewrite E; reflexivity].
  assert (L : forall f, on_levels d (Z.to_nat a) (Z.to_nat b) f = Throw InvalidArgument).
  { intros f. unfold on_levels, bad_levels. destruct (Nat.eqb_spec d 2); [lia|]. destruct (Nat.ltb_spec (Z.to_nat b) (Z.to_nat a)); [reflexivity|lia]. }
  destruct H as [(-> & th & ph & r & ->)|[(-> & ph & r & ->)|(-> & r & ->)]]; unfold get_gate, single_matrix; cbn [i_targets i_tag i_params i_dims String.eqb Ascii.eqb Bool.eqb plist cbind];
    rewrite get_size_0, get_size_1 by lia; cbn [cbind get_double nth_error]; rewrite Hs; unfold cpp_rxy, cpp_rz, cpp_rh; rewrite L; reflexivity.
Qed.

(** ** gates without a matrix *)
Definition known_tags : list string := ["rxy"; "rz"; "rh"; "virtrz"; "x"; "s"; "z"; "h"; "cx"; "csum"].
Lemma unknown_crashes tol same dims i rest draw : ~ In (i_tag i) known_tags -> i_targets i <> [] -> misim tol same dims [] draw (i :: rest) = Throw Crash.
Proof.
  intros N Ht. unfold misim, simulate. cbn [physical existsb]. rewrite no_noise. cbn [cbind]. unfold ddsimulator. cbn [run_dd].
  assert (E : get_gate tol same dims i = Throw Crash); [|rewrite E; reflexivity]. unfold get_gate, single_matrix. destruct (i_targets i) as [|t r]; [contradiction|].
  unfold known_tags in N. cbn [In] in N.
  repeat match goal with |- context [String.eqb ?x ?y] => destruct (String.eqb_spec x y) as [Eq|_]; [exfalso; apply N; rewrite Eq; tauto|] end. reflexivity.
Qed.
Lemma large_crashes tol same dims i d t rest draw : In (i_tag i) ["x"; "s"; "z"; "h"] -> i_dims i = [d] -> i_targets i = [t] -> supported d = false -> misim tol same dims [] draw (i :: rest) = Throw Crash.
Proof.
  intros Tg Ed Et Hs. unfold misim, simulate. cbn [physical existsb]. rewrite no_noise. cbn [cbind]. unfold ddsimulator. cbn [run_dd].
  assert (E : get_gate tol same dims i = Throw Crash); [|rewrite E; reflexivity]. unfold get_gate, single_matrix. rewrite Et, Ed, Hs. cbn [In] in Tg.
  destruct Tg as [<-|[<-|[<-|[<-|[]]]]]; reflexivity.
Qed.

(** ** noise *)
Lemma physical_fails tol same dims nm draw is : physical nm = true -> misim tol same dims nm draw is = Throw InvalidArgument.
Proof. intros H. unfold misim, simulate. rewrite H. reflexivity. Qed.
Lemma control_lines_spared dims i l cs : i_controls i = Some (cs, l) -> l <> [] -> forall m, m = Named "local" \/ m = Named "nonlocal" ->
  mode_lines (List.length dims) i m = Done (i_targets i) /\ forall c, In c cs -> selects dims i m c.
Proof.
  intros C L m Hm. unfold mode_lines. rewrite C. destruct l as [|x l]; [contradiction|]. rewrite app_nil_r. split; [destruct Hm as [->| ->]; reflexivity|].
  intros c Hc. destruct Hm as [->| ->]; constructor; right; unfold control_part; rewrite C; exact Hc.
Qed.
Lemma control_mode_target (num : nat) i c t lv : i_targets i = [t] -> i_controls i = Some (c, lv) ->
  mode_lines num i (Named "control") = Done [t] /\ mode_lines num i (Named "target") = Throw OutOfRange.
Proof. intros Et _. unfold mode_lines. rewrite Et. split; reflexivity. Qed.
(** the flip of two levels is a rotation by pi about y: one of the two amplitudes changes its sign *)
Lemma flip_signed d a b M : a < b < d -> r_matrix d (PList [PInt (Z.of_nat a); PInt (Z.of_nat b); PFloat PI; PFloat (PI / 2)]) = Ok M ->
  meq d M (two_level a b C0 (Copp C1) C1 C0) /\ forall z, ~ meq d M (mscal z (noisex_array d a b)).
Proof.
  intros H HM. pose proof (r_matrix_rotation d _ _ _ _ _ _ HM) as [E _]. rewrite Z.min_l, Z.max_r, !Nat2Z.id in E by lia.
  assert (Q : meq d M (two_level a b C0 (Copp C1) C1 C0)).
  { eapply meq_trans; [exact E|]. intros i j _ _. unfold rotation. rewrite cos_PI2, sin_PI2. replace (RtoC 0) with C0 by reflexivity.
    replace (- (Ci * RtoC 1 * cis (- (PI / 2))))%C with (Copp C1) by (unfold cis; rewrite cos_neg, sin_neg, cos_PI2, sin_PI2; apply Ceq; cbn; ring).
    replace (- (Ci * RtoC 1 * cis (PI / 2)))%C with C1 by (unfold cis; rewrite cos_PI2, sin_PI2; apply Ceq; cbn; ring). reflexivity. }
  split; [exact Q|]. intros z Hz. assert (E1 : mscal z (noisex_array d a b) a b = Copp C1). { rewrite <- Hz by lia. rewrite Q by lia. unfold two_level. rewrite !Nat.eqb_refl. destruct (Nat.eqb_spec b a); [lia|]. reflexivity. }
  assert (E2 : mscal z (noisex_array d a b) b a = C1). { rewrite <- Hz by lia. rewrite Q by lia. unfold two_level. rewrite !Nat.eqb_refl. destruct (Nat.eqb_spec b a); [lia|]. reflexivity. }
  assert (N : a <> b) by lia. unfold mscal in E1, E2. rewrite (noisex_two_level d a b N a b) in E1 by lia. rewrite (noisex_two_level d a b N b a) in E2 by lia.
  unfold two_level in E1, E2. rewrite !Nat.eqb_refl in E1, E2. destruct (Nat.eqb_spec b a); [lia|]. cbn in E1, E2.
  assert (X : Copp C1 = C1) by (etransitivity; [symmetry; exact E1|exact E2]). assert (Y : fst (Copp C1) = fst C1) by (f_equal; exact X). cbn in Y. lra.
Qed.
Lemma large_crashes_7 tol same dims i d t rest draw : In (i_tag i) ["x"; "s"; "z"; "h"] -> i_dims i = [d] -> i_targets i = [t] -> 7 < d -> misim tol same dims [] draw (i :: rest) = Throw Crash.
Proof.
  intros Tg Ed Et Hd. apply (large_crashes tol same dims i d t); trivial. destruct (supported d) eqn:E; [|reflexivity]. apply supported_spec in E. lia.
Qed.

(** ** both simulators *)
Lemma all_placed dims : (forall d, In d dims -> 0 < d) -> forall gs is, Forall2 (reads dims) gs is -> Forall (in_scope dims) is ->
  forall g, In g gs -> well_placed dims g /\ unitary_gate dims g /\ g_controls g = None.
Proof.
  intros P gs is HR. induction HR as [|h i hs is R HR IH]; intros Sc g Hg; [contradiction|]. inversion Sc as [|i' is' S1 S2]; subst. destruct Hg as [->|Hg]; [|apply IH; assumption].
  split; [apply (reads_placed dims g i R (proj1 S1))|]. split; [apply (reads_unitary dims g i P R S1)|]. rewrite (rd_controls _ _ _ R), (proj1 S1). reflexivity.
Qed.
Lemma misim_unit dims gs is same draw v : register dims -> pointers same -> Forall2 (reads dims) gs is -> Forall (in_scope dims) is ->
  misim 0 same dims [] draw is = Done v -> norm2 (prodl dims) v = 1%R.
Proof.
  intros [_ P] So HR Sc Ev. destruct (misim_ok dims P same So gs is draw HR Sc) as (w & Ew & Hw). rewrite Ev in Ew. injection Ew as <-.
  rewrite (evolves_norm dims gs P) with (psi := ket 0) (phi := v); [| |exact Hw].
  - apply norm2_ket, prodl_pos. exact P.
  - intros g Hg. destruct (all_placed dims P gs is HR Sc g Hg) as (A & B & _). split; assumption.
Qed.
Lemma misim_execute dims gs is same draw : register dims -> pointers same -> Forall2 (reads dims) gs is -> Forall (in_scope dims) is -> Forall fits gs ->
  exists v w, misim 0 same dims [] draw is = Done v /\ execute dims gs = Ok w /\ veq (prodl dims) v w.
Proof.
  intros Re So HR Sc Fi. destruct (misim_ok dims (proj2 Re) same So gs is draw HR Sc) as (v & Ev & Hv). rewrite Forall_forall in Fi.
  pose proof (all_placed dims (proj2 Re) gs is HR Sc) as Pl.
  destruct (uncontrolled_returns dims gs Re) as (w & Ew). { intros g Hg. destruct (Pl g Hg) as (A & _ & C). split; [exact A|]. split; [apply Fi; exact Hg|exact C]. }
  exists v, w. split; [exact Ev|]. split; [exact Ew|]. apply (evolves_unique dims gs) with (psi := ket 0).
  - intros g Hg. apply (Pl g Hg).
  - exact Hv.
  - apply execute_evolves; [exact Re| |exact Ew]. intros g Hg. split; [apply (Pl g Hg)|apply Fi; exact Hg].
Qed.

(** ** gates, with lines in order *)
Lemma gate_exact dims t M c : (forall d, In d dims -> 0 < d) -> t < List.length dims -> (forall r l, c = Some (r, l) -> r <> t /\ r < List.length dims /\ l < nth r dims 0) ->
  exists e, make_gate 0 dims (nth t dims 0) M (match c with Some rl => [rl] | None => [] end) t = Some e /\ ewf (arity true (rev dims)) e /\
  forall xs ys, valid dims xs -> valid dims ys ->
    ev e (entry true (rev dims) (rev xs) (rev ys)) =
    if match c with Some (r, l) => Nat.eqb (nth r xs 0) l | None => true end
    then if forallb (fun u => Nat.eqb u t || Nat.eqb (nth u xs 0) (nth u ys 0)) (seq 0 (List.length dims)) then M (nth t xs 0) (nth t ys 0) else C0
    else delta xs ys.
Proof.
  intros P Ht Hc. destruct (make_gate_ok dims t M c P Ht) as (e & E & W & V). { intros r l Q. destruct (Hc r l Q) as (A & _ & B). split; [exact A|]. intros _. exact B. }
  exists e. split; [destruct c as [[r l]|]; exact E|]. split; [exact W|]. intros xs ys Vx Vy. rewrite V by (apply valid_rev; assumption).
  pose proof (valid_length _ _ Vx) as Lx. pose proof (valid_length _ _ Vy) as Ly. unfold gmat.
  assert (Ed : delta (rev xs) (rev ys) = delta xs ys).
  { destruct (list_eq_dec Nat.eq_dec xs ys) as [->|N]; [rewrite !delta_refl; reflexivity|]. rewrite !delta_neq; [reflexivity|exact N|]. intros X. apply N. rewrite <- (rev_involutive xs), X. apply rev_involutive. }
  assert (Ea : agree_b t (rev xs) (rev ys) = forallb (fun u => Nat.eqb u t || Nat.eqb (nth u xs 0) (nth u ys 0)) (seq 0 (List.length dims))).
  { apply bool_ext. rewrite agree_spec, forallb_forall, rev_length, Lx. split.
    - intros H u Hu. apply in_seq in Hu. destruct (Nat.eqb_spec u t) as [|N]; [reflexivity|]. cbn [orb]. apply Nat.eqb_eq. rewrite <- (reg_rev xs), <- (reg_rev ys) by lia. apply H; [lia|exact N].
    - intros H u Hu N. specialize (H u (proj2 (in_seq _ _ _) (conj (Nat.le_0_l u) Hu))). destruct (Nat.eqb_spec u t) as [|_]; [contradiction|]. cbn [orb] in H. apply Nat.eqb_eq in H. rewrite !reg_rev by lia. exact H. }
  rewrite Ed, Ea, !reg_rev by lia. destruct c as [[r l]|]; cbn [on]; [|reflexivity]. rewrite rev_length, Lx. destruct (Hc r l eq_refl) as (_ & Hr & _). destruct (Nat.ltb_spec r (List.length dims)); [|lia]. rewrite reg_rev by lia. reflexivity.
Qed.

(** a noise model with physical noise somewhere, and one without *)
Lemma is_physical nm tag ms (m : mode) : In (tag, ms) nm -> In (m, None) ms -> physical nm = true.
Proof.
  intros H H'. unfold physical. apply existsb_exists. exists (tag, ms). split; [exact H|]. cbn [snd].
  apply existsb_exists. exists (m, None). split; [exact H'|reflexivity].
Qed.
Lemma not_physical nm : (forall tag ms (m : mode), In (tag, ms) nm -> ~ In (m, None) ms) -> physical nm = false.
Proof.
  intros H. destruct (physical nm) eqn:E; [|reflexivity]. exfalso. unfold physical in E. apply existsb_exists in E. destruct E as ((tag, ms) & I & E).
  cbn [snd] in E. apply existsb_exists in E. destruct E as ((m, [o|]) & I' & E); cbn in E; [discriminate|]. exact (H tag ms m I I').
Qed.
