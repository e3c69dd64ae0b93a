(** Proofs about the generation of noisy circuits. *)
From Coq Require Import Reals Lra Lia Bool.
From Verif.Base Require Import Py PyFacts.
From Verif.Circuit Require Import GateModel.
From Verif.Gates Require Import SingleModel.
From Verif.Noise Require Import NoiseModel NoiseSpec NoiseProofs InsertModel InsertSpec.
Local Open Scope list_scope.
Local Open Scope nat_scope.

Section Each.
Variable draw : nat -> list R -> nat.
Context {X A : Type}.
Implicit Type f : X -> rnd (list A).
Lemma bind_inv {B C} (m : rnd B) (g : B -> rnd C) k r k' : bind m g k = Ok (r, k') -> exists a j, m k = Ok (a, j) /\ g a j = Ok (r, k').
Proof. unfold bind. destruct (m k) as [[a j]|]; [|discriminate]. intros H. eauto. Qed.
Lemma each_inv f l : forall k out k', each f l k = Ok (out, k') ->
  exists blocks, out = List.concat blocks /\ Forall2 (fun x b => exists j j', f x j = Ok (b, j')) l blocks.
Proof.
  induction l as [|x l IH]; intros k out k' H.
  - injection H as <- _. exists []. split; [reflexivity|constructor].
  - cbn [each] in H. apply bind_inv in H. destruct H as (a & j & H1 & H). apply bind_inv in H. destruct H as (b & j2 & H2 & H). injection H as <- _.
    destruct (IH _ _ _ H2) as (bl & -> & F). exists (a :: bl). split; [reflexivity|]. constructor; eauto.
Qed.
Lemma each_in f l k out k' y : each f l k = Ok (out, k') -> In y out -> exists x b j j', In x l /\ f x j = Ok (b, j') /\ In y b.
Proof.
  intros H I. destruct (each_inv _ _ _ _ _ H) as (bl & -> & F). clear H. induction F as [|x b l bl (j & j' & E) F IH]; [destruct I|].
  cbn in I. apply in_app_iff in I. destruct I as [I|I]; [exists x, b, j, j'; split; [now left|auto]|].
  destruct (IH I) as (x' & b' & i & i' & Q1 & Q2). exists x', b', i, i'. split; [now right|exact Q2].
Qed.
Lemma each_total f l : (forall x, In x l -> forall k, exists a k', f x k = Ok (a, k')) -> forall k, exists out k', each f l k = Ok (out, k').
Proof.
  induction l as [|x l IH]; intros H k; [eexists _, _; reflexivity|]. cbn [each]. unfold bind.
  destruct (H x (or_introl eq_refl) k) as (a & k1 & ->). destruct (IH (fun y I => H y (or_intror I)) k1) as (b & k2 & ->). eexists _, _. reflexivity.
Qed.
Lemma each_nil f l k out k' : (forall x, In x l -> forall k a k', f x k = Ok (a, k') -> a = []) -> each f l k = Ok (out, k') -> out = [].
Proof.
  intros H E. destruct (each_inv _ _ _ _ _ E) as (bl & -> & F). clear E. induction F as [|x b l bl (j & j' & E) F IH]; [reflexivity|].
  cbn. rewrite (H x (or_introl eq_refl) _ _ _ E). apply IH. intros y I. apply H. now right.
Qed.
Lemma each_fails f l x : In x l -> (forall k a k', f x k <> Ok (a, k')) -> forall k out k', each f l k <> Ok (out, k').
Proof.
  intros I H k out k' E. destruct (each_inv _ _ _ _ _ E) as (bl & _ & F). clear E. induction F as [|y b l bl (j & j' & E) F IH]; [destruct I|].
  destruct I as [->|I]; [now apply H in E|auto].
Qed.
Lemma each_ext f g l : (forall x k, In x l -> f x k = g x k) -> forall k, each f l k = each g l k.
Proof.
  induction l as [|x l IH]; intros H k; [reflexivity|]. cbn [each]. unfold bind. rewrite H by now left. destruct (g x k) as [[a j]|]; [|reflexivity].
  rewrite IH; [reflexivity|]. intros y i I. apply H. now right.
Qed.
End Each.

(** *** dictionaries of a reachable model *)
Definition dicts_ok (s : state) : Prop := NoDup (map fst (errors s)) /\ forall g d, In (g, d) (errors s) -> NoDup (map fst d).
Lemma dicts_gate s v m g : dicts_ok s -> dicts_ok (fst (add_to_gate s v m g)).
Proof.
  intros [N D]. assert (NE : NoDup (map fst (if dmem String.eqb (errors s) g then errors s else sset (errors s) g []))).
  { destruct (dmem String.eqb (errors s) g); [exact N|]. apply (dset_NoDup String.eqb eqs). exact N. }
  assert (DE : forall g' d, In (g', d) (if dmem String.eqb (errors s) g then errors s else sset (errors s) g []) -> NoDup (map fst d)).
  { destruct (dmem String.eqb (errors s) g) eqn:E; [exact D|]. intros g' d I. rewrite (dset_fresh String.eqb eqs) in I.
    - apply in_app_iff in I. destruct I as [I|[I|[]]]; [now apply (D g')|]. injection I as _ <-. constructor.
    - apply (dget_None String.eqb eqs). unfold dmem in E. destruct (sget (errors s) g); [discriminate|reflexivity]. }
  unfold add_to_gate. destruct (errs_some s g) as (d & Ed & Q). rewrite Ed. destruct (sget d m) as [old|].
  - repeat match goal with |- context [match ?y with _ => _ end] => destruct y end; split; assumption.
  - cbn [fst]. split; cbn [errors]; [apply (dset_NoDup String.eqb eqs); exact NE|]. intros g' d' I.
    assert (G : sget (sset (if dmem String.eqb (errors s) g then errors s else sset (errors s) g []) g (sset d m v)) g' = Some d').
    { apply (dget_complete String.eqb eqs); [apply (dset_NoDup String.eqb eqs); exact NE|exact I]. }
    destruct (string_dec g' g) as [->|Ng].
    + rewrite (dget_dset_same String.eqb eqs) in G. injection G as <-. apply (dset_NoDup String.eqb eqs). apply (DE g). now apply (dget_In String.eqb eqs).
    + rewrite (dget_dset_other String.eqb eqs) in G by exact Ng. apply (DE g'). now apply (dget_In String.eqb eqs).
Qed.
Lemma dicts_error v m l : forall s, dicts_ok s -> dicts_ok (fst (add_error s v l m)).
Proof.
  induction l as [|g l IH]; intros s H; [exact H|]. cbn [add_error]. pose proof (dicts_gate s v m g H) as G. destruct (add_to_gate s v m g) as [s' [e|]]; [exact G|]. apply IH. exact G.
Qed.
Lemma dicts_run l : forall s, dicts_ok s -> dicts_ok (run_calls s l).
Proof.
  induction l as [|c l IH]; intros s H; [exact H|]. cbn [run_calls]. apply IH. destruct c as [pd pf ls|a x y n|v gates m]; cbn [run_call].
  - destruct (new_subspace pd pf ls); exact H.
  - destruct (nth_error (heap s) a) as [t|]; [|exact H]. destruct (add_noise t x y n); exact H.
  - now apply dicts_error.
Qed.
Lemma model_slot calls tag modes mode v : sget (errors (run_calls new_model calls)) tag = Some modes -> In (mode, v) modes ->
  slot (run_calls new_model calls) tag mode = Some v.
Proof.
  intros E I. assert (H : dicts_ok (run_calls new_model calls)) by (apply dicts_run; split; [constructor|intros ? ? []]).
  unfold slot. rewrite E. apply (dget_complete String.eqb eqs); [|exact I]. apply (proj2 H tag). now apply (dget_In String.eqb eqs).
Qed.

(** *** the qudits of a mode *)
Lemma ref_lines g : reference_lines g = match lines g with [] => Err CircuitError | l => Ok l end.
Proof. reflexivity. Qed.
Lemma ref_ok g qs : reference_lines g = Ok qs -> qs = lines g.
Proof. rewrite ref_lines. destruct (lines g); [discriminate|]. intros H. now injection H. Qed.
Ltac modes := repeat match goal with H : context [String.eqb ?a ?b] |- _ => destruct (String.eqb_spec a b) as [->|] end.
Lemma affected_spec g mode qs : affected g mode = Ok qs -> forall q, In q qs <-> selects mode g q.
Proof.
  unfold affected, selects. destruct (String.eqb_spec mode "local") as [->|M1].
  { intros H q. apply ref_ok in H. subst qs. split; [intros I; left; auto|]. intros [[_ I]|[[D _]|[[D _]|[[D _]|[D _]]]]]; [exact I|discriminate..]. }
  destruct (String.eqb_spec mode "all") as [->|M2].
  { intros H q. injection H as <-. rewrite in_map_iff. split.
    - intros (x & <- & I). apply in_seq in I. right; left. split; [reflexivity|lia].
    - intros [[D _]|[[_ I]|[[D _]|[[D _]|[D _]]]]]; try discriminate. exists (Z.to_nat q). split; [lia|]. apply in_seq. lia. }
  destruct (String.eqb_spec mode "nonlocal") as [->|M3].
  { intros H q. assert (T : g_type g <> SINGLE) by (intros T; rewrite T in H; discriminate). assert (H' : reference_lines g = Ok qs) by (destruct (g_type g); [contradiction|exact H|exact H]).
    apply ref_ok in H'. subst qs. split; [intros I; right; right; left; auto|]. intros [[D _]|[[D _]|[(_ & _ & I)|[[D _]|[D _]]]]]; [discriminate..|exact I|discriminate|discriminate]. }
  destruct (String.eqb_spec mode "control") as [->|M4].
  { intros H q. destruct (g_type g) eqn:T; try discriminate. destruct (g_target g) as [t|ts] eqn:G; [discriminate|]. injection H as <-. split.
    - intros I. destruct ts as [|c r]; [destruct I|]. destruct I as [<-|[]]. right; right; right; left. split; [reflexivity|]. split; [reflexivity|]. eauto.
    - intros [[D _]|[[D _]|[(D & _)|[(_ & _ & r & E)|[D _]]]]]; try discriminate. injection E as ->. now left. }
  destruct (String.eqb_spec mode "target") as [->|M5]; [|discriminate].
  intros H q. destruct (g_type g) eqn:T.
  - destruct (g_target g) as [t|ts] eqn:G; [|discriminate]. injection H as <-. split.
    + intros [<-|[]]. right; right; right; right. split; [reflexivity|]. left. auto.
    + intros [[D _]|[[D _]|[(D & _)|[(D & _)|[_ [[_ E]|[E _]]]]]]]; try discriminate; [injection E as ->; now left|congruence].
  - destruct (reference_lines g) as [ls|] eqn:L; [|discriminate]. injection H as <-. pose proof L as L'. apply ref_ok in L'. subst ls. rewrite ref_lines in L. split.
    + intros I. right; right; right; right. split; [reflexivity|]. right. split; [discriminate|]. destruct (lines g) as [|p r]; [discriminate|]. eauto.
    + intros [[D _]|[[D _]|[(D & _)|[(D & _)|[_ [[E _]|[_ (p & r & E & I)]]]]]]]; try discriminate. rewrite E. exact I.
  - destruct (reference_lines g) as [ls|] eqn:L; [|discriminate]. injection H as <-. pose proof L as L'. apply ref_ok in L'. subst ls. rewrite ref_lines in L. split.
    + intros I. right; right; right; right. split; [reflexivity|]. right. split; [discriminate|]. destruct (lines g) as [|p r]; [discriminate|]. eauto.
    + intros [[D _]|[[D _]|[(D & _)|[(D & _)|[_ [[E _]|[_ (p & r & E & I)]]]]]]]; try discriminate. rewrite E. exact I.
Qed.

(** *** what is inserted *)
Lemma levels_in dim a : in_levels dim a = true <-> (0 <= a < Z.of_nat dim)%Z.
Proof. unfold in_levels. rewrite andb_true_iff, Z.leb_le, Z.ltb_lt. lia. Qed.
Lemma dynamic_dec t : dynamic t \/ ~ dynamic t.
Proof.
  destruct t as [|[[a b] n] [|e r]]; [right; intros (a & b & n & H & _); discriminate| |right; intros (a' & b' & n' & H & _); discriminate].
  destruct (Z.ltb_spec a 0); [left; exists a, b, n; auto|]. destruct (Z.ltb_spec b 0); [left; exists a, b, n; auto|].
  right. intros (a' & b' & n' & E & L). injection E as <- <- <-. lia.
Qed.
Lemma rectify_cases t g t' : rectify t g = Ok t' ->
  (~ dynamic t /\ t' = t) \/ (dynamic t /\ two_levels (g_data g) = None /\ t' = t) \/
  exists a b n la lb, t = [((a, b), n)] /\ dynamic t /\ two_levels (g_data g) = Some (la, lb) /\ t' = [((Z.min la lb, Z.max la lb), n)].
Proof.
  unfold rectify. destruct t as [|[[x y] m] [|e r]].
  - intros H. injection H as <-. left. split; [|reflexivity]. intros (a & b & n & E & _). discriminate E.
  - destruct ((x <? 0) || (y <? 0))%Z eqn:D.
    + assert (Dy : dynamic [((x, y), m)]) by (exists x, y, m; split; [reflexivity|]; apply orb_true_iff in D; rewrite !Z.ltb_lt in D; exact D).
      destruct (two_levels (g_data g)) as [[la lb]|].
      * intros H. cbn [new_subspace] in H. apply add_accepted in H. destruct H as (_ & _ & _ & _ & ->). right; right. exists x, y, m, la, lb. split; [reflexivity|]. split; [exact Dy|]. split; [reflexivity|]. now destruct m.
      * intros H. injection H as <-. right; left. auto.
    + intros H. injection H as <-. left. split; [|reflexivity]. intros (a & b & n & E & L). injection E as <- <- <-. apply orb_false_iff in D. rewrite !Z.ltb_ge in D. lia.
  - intros H. injection H as <-. left. split; [|reflexivity]. intros (a & b & n & E & _). discriminate E.
Qed.
Lemma rectify_noise t g t' a b n : rectify t g = Ok t' -> In ((a, b), n) t' -> exists k, In (k, n) t.
Proof.
  intros H I. destruct (rectify_cases _ _ _ H) as [[_ ->]|[(_ & _ & ->)|(x & y & m & la & lb & -> & _ & _ & ->)]]; [eauto|eauto|].
  destruct I as [I|[]]. injection I as _ _ <-. exists (x, y). now left.
Qed.
Lemma rectify_pairs t g t' a b n : rectify t g = Ok t' -> In ((a, b), n) t' -> (0 <= a)%Z -> (0 <= b)%Z -> acts_on_pair t g a b /\ exists k, In (k, n) t.
Proof.
  intros H I La Lb. split; [|eapply rectify_noise; eassumption].
  destruct (rectify_cases _ _ _ H) as [[D ->]|[(D & _ & ->)|(x & y & m & la & lb & -> & D & T & ->)]].
  - split; [contradiction|eauto].
  - exfalso. destruct D as (x & y & m & -> & L). destruct I as [I|[]]. injection I as <- <- _. lia.
  - destruct I as [I|[]]. injection I as <- <- <-. split; [intros _; eauto|contradiction].
Qed.
Lemma rectify_acts t g t' a b : rectify t g = Ok t' -> acts_on_pair t g a b -> exists n, In ((a, b), n) t'.
Proof.
  intros H [A1 A2]. destruct (rectify_cases _ _ _ H) as [[D ->]|[(D & T & ->)|(x & y & m & la & lb & -> & D & T & ->)]].
  - auto.
  - destruct (A1 D) as (la & lb & E & _). congruence.
  - destruct (A1 D) as (la' & lb' & E & -> & ->). rewrite T in E. injection E as <- <-. exists m. now left.
Qed.
Section Draw.
Variable draw : nat -> list R -> nat.
Lemma math_in dims n q k out k' i : math_dit draw dims n q k = Ok (out, k') -> In i out -> i = IX q \/ i = IZ q.
Proof.
  unfold math_dit. destruct (pyindex dims q) as [[|d]|]; [discriminate| |discriminate]. intros H I. apply bind_inv in H. destruct H as (j & k1 & _ & H). injection H as <- _.
  apply in_app_iff in I. destruct I as [I|I]; apply repeat_spec in I; auto.
Qed.
Lemma sub_in dims t q k out k' i : sub_dit draw dims t q k = Ok (out, k') -> In i out ->
  exists d a b n, pyindex dims q = Ok d /\ In ((a, b), n) t /\ (0 <= a < Z.of_nat d)%Z /\ (0 <= b < Z.of_nat d)%Z /\
    (i = INoiseZ q b \/ (a <> b /\ (i = INoiseX q a b \/ i = INoiseY q a b))).
Proof.
  unfold sub_dit. destruct (pyindex dims q) as [d|]; [|discriminate]. intros H I. destruct (each_in _ _ _ _ _ _ H I) as ([[a b] n] & o & j & j' & It & E & Io).
  exists d, a, b, n. split; [reflexivity|]. split; [exact It|]. cbn [sub_pair] in E. destruct (in_levels d a && in_levels d b) eqn:L; [|discriminate].
  apply andb_true_iff in L. destruct L as [L1 L2]. apply levels_in in L1, L2. split; [exact L1|]. split; [exact L2|]. cbn [negb] in E. apply bind_inv in E. destruct E as (c & j1 & _ & E).
  destruct c as [|[|[|[|c]]]].
  - injection E as <- _. destruct Io.
  - injection E as <- _. destruct Io as [<-|[]]. now left.
  - destruct (check_levels d a b) eqn:C; [|discriminate]. injection E as <- _. destruct Io as [<-|[]]. right. unfold check_levels in C. apply andb_true_iff in C. destruct C as [_ C].
    apply negb_true_iff, Z.eqb_neq in C. auto.
  - destruct (check_levels d a b) eqn:C; [|discriminate]. injection E as <- _. destruct Io as [<-|[]]. right. unfold check_levels in C. apply andb_true_iff in C. destruct C as [_ C].
    apply negb_true_iff, Z.eqb_neq in C. auto.
  - injection E as <- _. destruct Io.
Qed.
Lemma dephase_in dims t q k out k' i : dephase_dit draw dims t q k = Ok (out, k') -> In i out ->
  exists d l, pyindex dims q = Ok d /\ (0 <= l < Z.of_nat d)%Z /\ i = INoiseZ q l /\ exists a b n, In ((a, b), n) t /\ l <> a /\ l <> b /\ (0 <= a)%Z /\ (0 <= b)%Z.
Proof.
  unfold dephase_dit. destruct (pyindex dims q) as [d|]; [|discriminate]. intros H I. destruct (each_in _ _ _ _ _ _ H I) as ([[a b] n] & o & j & j' & It & E & Io).
  cbn [dephase_pair] in E. destruct (in_levels d a && in_levels d b) eqn:Lv; [|discriminate]. cbn [negb] in E. apply andb_true_iff in Lv. rewrite !levels_in in Lv.
  destruct (each_in _ _ _ _ _ _ E Io) as (l & o2 & j2 & j3 & Il & E2 & Io2). unfold dephase_level in E2. apply bind_inv in E2. destruct E2 as (c & j4 & _ & E2). injection E2 as <- _.
  destruct c; [|destruct Io2]. destruct Io2 as [<-|[]]. unfold other_levels in Il. apply filter_In in Il. destruct Il as [Il F]. apply in_map_iff in Il. destruct Il as (x & <- & Il). apply in_seq in Il.
  apply andb_true_iff in F. destruct F as [F1 F2]. apply negb_true_iff, Z.eqb_neq in F1, F2. exists d, (Z.of_nat x). split; [reflexivity|]. split; [lia|]. split; [reflexivity|]. exists a, b, n. repeat split; auto; lia.
Qed.
Lemma mode_in dims h g mode v k out k' i : apply_mode draw dims h g (mode, v) k = Ok (out, k') -> In i out ->
  exists c, read h v = Some c /\ selects mode g (dit_of i) /\ allowed dims g c i.
Proof.
  unfold apply_mode. destruct (affected g mode) as [qs|] eqn:A; [|discriminate]. pose proof (affected_spec g mode qs A) as S. destruct v as [n|a]; intros H I.
  - exists (HMath n). split; [reflexivity|]. destruct (each_in _ _ _ _ _ _ H I) as (q & o & j & j' & Iq & E & Io). destruct (math_in _ _ _ _ _ _ _ E Io) as [->| ->]; (split; [apply S; exact Iq|exact Logic.I]).
  - cbn [read]. destruct (nth_error h a) as [t|]; [|discriminate]. destruct (rectify t g) as [t'|] eqn:Rt; [|discriminate]. exists (HSub t). split; [reflexivity|].
    apply bind_inv in H. destruct H as (x & j & H1 & H). apply bind_inv in H. destruct H as (y & j2 & H2 & H). injection H as <- _. apply in_app_iff in I. destruct I as [I|I].
    + destruct (each_in _ _ _ _ _ _ H1 I) as (q & o & i1 & i2 & Iq & E & Io). destruct (sub_in _ _ _ _ _ _ _ E Io) as (d & la & lb & n & P & It & L1 & L2 & Q).
      destruct (rectify_pairs _ _ _ _ _ _ Rt It (proj1 L1) (proj1 L2)) as [Ac _]. destruct Q as [->|[N [->| ->]]]; (split; [apply S; exact Iq|]).
      * split; [exists d; auto|]. exists la, lb. auto.
      * split; [exact Ac|]. split; [exact N|]. split; exists d; auto.
      * split; [exact Ac|]. split; [exact N|]. split; exists d; auto.
    + destruct (each_in _ _ _ _ _ _ H2 I) as (q & o & i1 & i2 & Iq & E & Io). destruct (dephase_in _ _ _ _ _ _ _ E Io) as (d & l & P & L & -> & la & lb & n & It & N1 & N2 & L1 & L2). destruct (rectify_pairs _ _ _ _ _ _ Rt It L1 L2) as [Ac _].
      split; [apply S; exact Iq|]. split; [exists d; auto|]. exists la, lb. auto.
Qed.
Lemma assemble_each dims m gs : forall k out k', generate draw dims m gs k = Ok (out, k') ->
  exists blocks, out = assemble blocks /\ map fst blocks = gs /\ forall g l, In (g, l) blocks -> exists j j', apply_noise draw dims m g j = Ok (l, j').
Proof.
  induction gs as [|g gs IH]; intros k out k' H.
  - injection H as <- _. exists []. split; [reflexivity|]. split; [reflexivity|]. intros g l [].
  - unfold generate in H. cbn [each] in H. apply bind_inv in H. destruct H as (a & j & H1 & H). apply bind_inv in H. destruct H as (b & j2 & H2 & H). injection H as <- _.
    apply bind_inv in H1. destruct H1 as (l & j3 & H1 & E). injection E as <- _. destruct (IH _ _ _ H2) as (bl & -> & <- & F). exists ((g, l) :: bl). split; [reflexivity|]. split; [reflexivity|].
    intros g' l' [E|I]; [injection E as <- <-; eauto|now apply F].
Qed.
Lemma originals_assemble blocks : originals (assemble blocks) = map fst blocks.
Proof.
  unfold assemble. induction blocks as [|[g l] r IH]; [reflexivity|]. cbn [map List.concat fst snd]. cbn [app originals]. f_equal. rewrite <- IH. clear. induction l; [reflexivity|assumption].
Qed.
Lemma generate_blocks calls dims gs k out k' : let m := run_calls new_model calls in generate draw dims m gs k = Ok (out, k') ->
  exists blocks, out = assemble blocks /\ map fst blocks = gs /\ forall g l i, In (g, l) blocks -> In i l ->
    exists mode v c, slot m (qasm_tag (g_data g)) mode = Some v /\ read (heap m) v = Some c /\ selects mode g (dit_of i) /\ allowed dims g c i.
Proof.
  cbn zeta. intros H. destruct (assemble_each _ _ _ _ _ _ H) as (bl & E1 & E2 & F). exists bl. split; [exact E1|]. split; [exact E2|]. intros g l i Ig Ii.
  destruct (F g l Ig) as (j & j' & E). unfold apply_noise in E. destruct (sget (errors (run_calls new_model calls)) (qasm_tag (g_data g))) as [modes|] eqn:M.
  - destruct (each_in _ _ _ _ _ _ E Ii) as ([mode v] & o & i1 & i2 & Im & Em & Io). destruct (mode_in _ _ _ _ _ _ _ _ _ Em Io) as (c & Q1 & Q2 & Q3).
    exists mode, v, c. split; [eapply model_slot; eassumption|auto].
  - injection E as <- _. destruct Ii.
Qed.
Lemma generate_originals m dims gs k out k' : generate draw dims m gs k = Ok (out, k') -> originals out = gs.
Proof. intros H. destruct (assemble_each _ _ _ _ _ _ H) as (bl & -> & E & _). rewrite originals_assemble. exact E. Qed.

(** *** no noise *)
Lemma no_noise m dims gs k : (forall g mode, In g gs -> slot m (qasm_tag (g_data g)) mode = None) -> generate draw dims m gs k = Ok (map Orig gs, k).
Proof.
  induction gs as [|g gs IH]; intros H; [reflexivity|]. unfold generate in *. cbn [each].
  assert (N : apply_noise draw dims m g k = Ok ([], k)).
  { unfold apply_noise. specialize (H g). unfold slot in H. destruct (sget (errors m) (qasm_tag (g_data g))) as [[|[mode v] modes]|]; [reflexivity| |reflexivity].
    specialize (H mode (or_introl eq_refl)). cbn in H. rewrite String.eqb_refl in H. discriminate. }
  unfold bind. rewrite N. cbn [ret]. unfold bind in IH. rewrite IH; [reflexivity|]. intros g' mode I. apply H. now right.
Qed.

(** *** zero probabilities *)
Lemma not_negative ps : any_negative ps = false -> forall p, In p ps -> (0 <= p)%R.
Proof. induction ps as [|q ps IH]; cbn; [intros _ p []|]. destruct (Rlt_dec q 0) as [L|L]; [discriminate|]. intros H p [<-|I]; [lra|now apply IH]. Qed.
Lemma not_negative_iff ps : (forall p, In p ps -> (0 <= p)%R) -> any_negative ps = false.
Proof. induction ps as [|q ps IH]; cbn; [reflexivity|]. intros H. destruct (Rlt_dec q 0) as [L|L]; [specialize (H q (or_introl eq_refl)); lra|]. apply IH. auto. Qed.
Lemma sum_repeat p n : sum_R (repeat p n) = (INR n * p)%R.
Proof. induction n as [|n IH]; [cbn; lra|]. rewrite S_INR. cbn [repeat sum_R fold_right]. fold (sum_R (repeat p n)). rewrite IH. lra. Qed.
Lemma sum_math p dim : sum_R (math_probs p dim) = 1%R.
Proof. unfold math_probs. cbn [sum_R fold_right]. fold (sum_R (repeat (p / INR dim / INR dim)%R (dim * dim - 1))). rewrite sum_repeat. lra. Qed.
Lemma sum_sub p : sum_R (sub_probs p) = 1%R.
Proof. unfold sub_probs. cbn. lra. Qed.
Lemma choice_ok ps k i k' : fair draw -> sum_R ps = 1%R -> choice draw ps k = Ok (i, k') -> i < List.length ps /\ (0 < nth i ps 0)%R.
Proof.
  unfold choice. intros F S. destruct (any_negative ps) eqn:N; [discriminate|]. intros H. injection H as <- _. apply F; [|exact S]. now apply not_negative.
Qed.
Lemma nth_zero l i : (forall p, In p l -> p = 0%R) -> (0 < nth i l 0)%R -> False.
Proof. intros H P. destruct (nth_in_or_default i l 0%R) as [I|E]; [apply H in I; lra|lra]. Qed.
Lemma mode_zero dims h g mode v c k out k' : fair draw -> read h v = Some c -> noiseless c -> apply_mode draw dims h g (mode, v) k = Ok (out, k') -> out = [].
Proof.
  intros F Rd NL. unfold apply_mode. destruct (affected g mode) as [qs|]; [|discriminate]. destruct v as [n|a].
  - injection Rd as <-. cbn in NL. apply each_nil. intros q _ k1 o k2 H. unfold math_dit in H. destruct (pyindex dims q) as [[|d]|]; [discriminate| |discriminate].
    apply bind_inv in H. destruct H as (j & k3 & C & H). apply (choice_ok _ _ _ _ F (sum_math _ _)) in C. destruct C as [_ C].
    assert (j = 0) as ->; [|replace (0 / S d) with 0 in H by (symmetry; apply Nat.div_small; lia); replace (0 mod S d) with 0 in H by (symmetry; apply Nat.mod_small; lia); now injection H as <- _].
    destruct j as [|j]; [reflexivity|exfalso]. cbn [math_probs nth] in C. revert C. apply nth_zero. intros p I. apply repeat_spec in I. subst p. rewrite NL. unfold Rdiv. ring.
  - cbn [read] in Rd. destruct (nth_error h a) as [t|]; [|discriminate]. injection Rd as <-. cbn in NL. destruct (rectify t g) as [t'|] eqn:Rt; [|discriminate].
    assert (NL' : forall k n, In (k, n) t' -> p_depol n = 0%R /\ p_deph n = 0%R).
    { intros [x y] n I. destruct (rectify_noise _ _ _ _ _ _ Rt I) as (k0 & I0). now apply (NL k0). }
    intros H. apply bind_inv in H. destruct H as (x & j & H1 & H). apply bind_inv in H. destruct H as (y & j2 & H2 & H). injection H as <- _.
    assert (x = []) as ->; [|assert (y = []) as ->; [|reflexivity]].
    + revert H1. apply each_nil. intros q _ k1 o k2 E. unfold sub_dit in E. destruct (pyindex dims q) as [d|]; [|discriminate]. revert E. apply each_nil.
      intros [[la lb] n] I k3 o2 k4 E. cbn [sub_pair] in E. destruct (negb _); [discriminate|]. apply bind_inv in E. destruct E as (c & k5 & C & E).
      apply (choice_ok _ _ _ _ F (sum_sub _)) in C. destruct C as [_ C].
      assert (c = 0) as ->; [|injection E as <- _; reflexivity]. destruct c as [|c]; [reflexivity|exfalso]. cbn [sub_probs nth] in C. revert C. apply nth_zero.
      intros p Ip. apply repeat_spec in Ip. subst p. destruct (NL' _ _ I) as [Z0 _]. rewrite Z0. lra.
    + revert H2. apply each_nil. intros q _ k1 o k2 E. unfold dephase_dit in E. destruct (pyindex dims q) as [d|]; [|discriminate]. revert E. apply each_nil.
      intros [[la lb] n] I k3 o2 k4 E. cbn [dephase_pair] in E. destruct (negb _); [discriminate|]. revert E. apply each_nil. intros l _ k5 o3 k6 E.
      unfold dephase_level in E. apply bind_inv in E. destruct E as (c & k7 & C & E). destruct (NL' _ _ I) as [_ Z0]. rewrite Z0 in C.
      apply (choice_ok _ _ _ _ F) in C; [|cbn; lra]. destruct C as [_ C]. destruct c as [|c]; [cbn in C; lra|]. now injection E as <- _.
Qed.
Lemma zero_noise calls dims gs k out k' : let m := run_calls new_model calls in fair draw ->
  (forall g mode v, In g gs -> slot m (qasm_tag (g_data g)) mode = Some v -> exists c, read (heap m) v = Some c /\ noiseless c) ->
  generate draw dims m gs k = Ok (out, k') -> out = map Orig gs.
Proof.
  cbn zeta. intros F NL H. destruct (assemble_each _ _ _ _ _ _ H) as (bl & -> & <- & B). clear H.
  assert (Z0 : forall g l, In (g, l) bl -> l = []).
  { intros g l I. destruct (B g l I) as (j & j' & E). unfold apply_noise in E. destruct (sget (errors (run_calls new_model calls)) (qasm_tag (g_data g))) as [modes|] eqn:M; [|now injection E].
    revert E. apply each_nil. intros [mode v] Im k1 o k2 E. destruct (NL g mode v) as (c & R1 & R2); [apply in_map_iff; exists (g, l); auto|eapply model_slot; eassumption|].
    eapply mode_zero; eassumption. }
  clear - Z0. unfold assemble. induction bl as [|[g l] r IH]; [reflexivity|]. cbn [map List.concat fst snd]. rewrite (Z0 g l (or_introl eq_refl)). cbn. f_equal. apply IH. intros g' l' I. apply (Z0 g'). now right.
Qed.

(** *** totality *)
Lemma bind_total {B C} (m : rnd B) (f : B -> rnd C) k : (exists a j, m k = Ok (a, j) /\ exists r k', f a j = Ok (r, k')) -> exists r k', bind m f k = Ok (r, k').
Proof. intros (a & j & E & r & k' & H). unfold bind. rewrite E. eauto. Qed.
Lemma choice_total ps k : (forall p, In p ps -> (0 <= p)%R) -> choice draw ps k = Ok (draw k ps, S k).
Proof. intros H. unfold choice. now rewrite not_negative_iff. Qed.
Lemma math_nonneg p dim : probability p -> 0 < dim -> forall q, In q (math_probs p dim) -> (0 <= q)%R.
Proof.
  intros [P1 P2] D q. assert (P : (0 < INR dim)%R) by (apply lt_0_INR; exact D).
  assert (Ex : exists e, e = (p / INR dim / INR dim)%R) by eauto. destruct Ex as (e & De).
  assert (E : (e * (INR dim * INR dim) = p)%R) by (rewrite De; field; lra).
  assert (E0 : (0 <= e)%R). { rewrite De. unfold Rdiv. assert (0 <= / INR dim)%R by (left; now apply Rinv_0_lt_compat). apply Rmult_le_pos; [apply Rmult_le_pos|]; assumption. }
  unfold math_probs. cbv zeta. rewrite <- De. intros [<-|I]; [|apply repeat_spec in I; now subst].
  rewrite minus_INR by nia. rewrite mult_INR. cbn [INR]. nra.
Qed.
Lemma math_total dims n q k : probability (p_depol n) -> (exists d, pyindex dims q = Ok d /\ 0 < d) -> exists out k', math_dit draw dims n q k = Ok (out, k').
Proof.
  intros P (d & E & D). unfold math_dit. rewrite E. destruct d as [|d]; [lia|]. apply bind_total. eexists _, _. split; [apply choice_total, math_nonneg; assumption|]. eexists _, _. reflexivity.
Qed.
Lemma sub_total dims t q d k : (forall k n, In (k, n) t -> probability (p_depol n) /\ probability (p_deph n)) -> pyindex dims q = Ok d ->
  (forall a b n, In ((a, b), n) t -> a <> b /\ (0 <= a < Z.of_nat d)%Z /\ (0 <= b < Z.of_nat d)%Z) -> exists out k', sub_dit draw dims t q k = Ok (out, k').
Proof.
  intros P E L. unfold sub_dit. rewrite E. apply each_total. intros [[a b] n] I k1. destruct (L _ _ _ I) as (L1 & L2 & L3). destruct (P _ _ I) as [[P1 P2] _]. cbn [sub_pair].
  rewrite (proj2 (levels_in d a) L2), (proj2 (levels_in d b) L3). cbn [andb negb]. apply bind_total. eexists _, _. split.
  - apply choice_total. intros p [<-|Ip]; [lra|]. apply repeat_spec in Ip. subst p. lra.
  - assert (C : check_levels d a b = true).
    { unfold check_levels. rewrite !andb_true_iff, negb_true_iff, !Z.leb_le, !Z.ltb_lt, Z.eqb_neq. lia. }
    rewrite C. destruct (draw k1 _) as [|[|[|[|c]]]]; eexists _, _; reflexivity.
Qed.
Lemma dephase_total dims t q d k : (forall k n, In (k, n) t -> probability (p_depol n) /\ probability (p_deph n)) -> pyindex dims q = Ok d ->
  (forall a b n, In ((a, b), n) t -> a <> b /\ (0 <= a < Z.of_nat d)%Z /\ (0 <= b < Z.of_nat d)%Z) -> exists out k', dephase_dit draw dims t q k = Ok (out, k').
Proof.
  intros P E L. unfold dephase_dit. rewrite E. apply each_total. intros [[a b] n] I k1. destruct (L _ _ _ I) as (L1 & L2 & L3). destruct (P _ _ I) as [_ [P1 P2]]. cbn [dephase_pair].
  rewrite (proj2 (levels_in d a) L2), (proj2 (levels_in d b) L3). cbn [andb negb]. apply each_total. intros l _ k2. unfold dephase_level. apply bind_total. eexists _, _. split; [|eexists _, _; reflexivity].
  apply choice_total. intros p [<-|[<-|[]]]; lra.
Qed.
Lemma generate_total calls dims gs k : let m := run_calls new_model calls in compatible dims m gs -> exists out k', generate draw dims m gs k = Ok (out, k').
Proof.
  cbn zeta. intros C. unfold generate. apply each_total. intros g Ig k1. apply bind_total.
  assert (T : exists l k2, apply_noise draw dims (run_calls new_model calls) g k1 = Ok (l, k2)).
  { unfold apply_noise. destruct (sget (errors (run_calls new_model calls)) (qasm_tag (g_data g))) as [modes|] eqn:M; [|eexists _, _; reflexivity].
    apply each_total. intros [mode v] Im k2. destruct (C g mode Ig v (model_slot _ _ _ _ _ M Im)) as (qs & c & A & Rd & Ft). unfold apply_mode. rewrite A. destruct v as [n|a].
    - injection Rd as <-. destruct Ft as [P Ft]. apply each_total. intros q Iq k3. apply math_total; [exact P|now apply Ft].
    - cbn [read] in Rd. destruct (nth_error _ a) as [t|]; [|discriminate]. injection Rd as <-. destruct Ft as (P & t' & Rt & Ft). rewrite Rt.
      assert (P' : forall k n, In (k, n) t' -> probability (p_depol n) /\ probability (p_deph n)).
      { intros [x y] n I. destruct (rectify_noise _ _ _ _ _ _ Rt I) as (k0 & I0). now apply (P k0). }
      destruct (each_total (sub_dit draw dims t') qs) with (k := k2) as (x & j & Ex); [intros q Iq k3; destruct (Ft q Iq) as (d & E & L); eapply sub_total; eassumption|].
      destruct (each_total (dephase_dit draw dims t') qs) with (k := j) as (y & j2 & Ey); [intros q Iq k3; destruct (Ft q Iq) as (d & E & L); eapply dephase_total; eassumption|].
      apply bind_total. exists x, j. split; [exact Ex|]. apply bind_total. exists y, j2. split; [exact Ey|]. eexists _, _. reflexivity. }
  destruct T as (l & k2 & T). exists l, k2. split; [exact T|]. eexists _, _. reflexivity.
Qed.

(** *** what goes wrong *)
Lemma math_dephasing dims h g mode n f k : apply_mode draw dims h g (mode, Math n) k = apply_mode draw dims h g (mode, Math (Noise (p_depol n) f)) k.
Proof. unfold apply_mode. destruct (affected g mode); [|reflexivity]. apply each_ext. reflexivity. Qed.
Lemma generate_fails m dims gs k g : In g gs -> (forall k out k', apply_noise draw dims m g k <> Ok (out, k')) -> forall out k', generate draw dims m gs k <> Ok (out, k').
Proof.
  intros I H out k' E. destruct (assemble_each _ _ _ _ _ _ E) as (bl & _ & Eg & F). rewrite <- Eg in I. apply in_map_iff in I. destruct I as ([g' l] & E' & I). cbn in E'. subst g'.
  destruct (F g l I) as (j & j' & Q). now apply H in Q.
Qed.
Lemma slot_fails m dims g mode v : slot m (qasm_tag (g_data g)) mode = Some v -> (forall k out k', apply_mode draw dims (heap m) g (mode, v) k <> Ok (out, k')) ->
  forall k out k', apply_noise draw dims m g k <> Ok (out, k').
Proof.
  unfold slot, apply_noise. destruct (sget (errors m) (qasm_tag (g_data g))) as [modes|]; [|discriminate]. intros S H k out k'. apply each_fails with (x := (mode, v)); [|exact H].
  now apply (dget_In String.eqb eqs).
Qed.
Lemma control_mode_fails m dims gs g t v k : In g gs -> g_type g = TWO -> g_target g = TInt t -> slot m (qasm_tag (g_data g)) "control" = Some v ->
  forall out k', generate draw dims m gs k <> Ok (out, k').
Proof.
  intros I T G S. apply (generate_fails m dims gs k g I). eapply slot_fails; [exact S|]. intros k1 o k2. unfold apply_mode, affected. cbn [String.eqb Ascii.eqb Bool.eqb]. rewrite T, G. discriminate.
Qed.
Lemma dynamic_fails m dims gs g mode a t lo hi n qs k : In g gs -> slot m (qasm_tag (g_data g)) mode = Some (Sub a) -> nth_error (heap m) a = Some t -> t = [((lo, hi), n)] ->
  (lo < 0 \/ hi < 0)%Z -> two_levels (g_data g) = None -> affected g mode = Ok qs -> qs <> [] -> forall out k', generate draw dims m gs k <> Ok (out, k').
Proof.
  intros I S H -> Neg TL A NE. apply (generate_fails m dims gs k g I). eapply slot_fails; [exact S|]. intros k1 o k2. unfold apply_mode. rewrite A, H. unfold rectify. rewrite TL.
  destruct ((lo <? 0) || (hi <? 0))%Z eqn:D; [|apply orb_false_iff in D; destruct D as [D1 D2]; apply Z.ltb_ge in D1, D2; lia].
  intros E. apply bind_inv in E. destruct E as (x & j & E & _). revert E. destruct qs as [|q qs]; [contradiction|]. apply each_fails with (x := q); [now left|].
  intros k3 o3 k4. unfold sub_dit. destruct (pyindex dims q) as [d|]; [|discriminate]. apply each_fails with (x := ((lo, hi), n)); [now left|]. intros k5 o5 k6. cbn [sub_pair].
  assert (L : in_levels d lo && in_levels d hi = false). { destruct (in_levels d lo) eqn:L1; [|reflexivity]. destruct (in_levels d hi) eqn:L2; [|reflexivity]. apply levels_in in L1, L2. lia. }
  rewrite L. discriminate.
Qed.
End Draw.
Lemma target_mode_controls g c1 c2 cs lv : g_controls g = Some (c1 :: c2 :: cs, lv) -> g_type g <> SINGLE -> exists qs, affected g "target" = Ok qs /\ In c2 qs.
Proof.
  intros C T. unfold affected. cbn [String.eqb Ascii.eqb Bool.eqb]. assert (E : reference_lines g = Ok (lines g)). { rewrite ref_lines. unfold lines. now rewrite C. }
  exists (tl (lines g)). split; [rewrite E; destruct (g_type g); [contradiction|reflexivity|reflexivity]|]. unfold lines. rewrite C. cbn. now left.
Qed.

(** A random generator that meets the contract: the first index of positive probability. *)
Fixpoint first_positive (ps : list R) : nat := match ps with [] => 0 | p :: r => if Rlt_dec 0 p then 0 else S (first_positive r) end.
Lemma first_positive_spec ps : (forall p, In p ps -> (0 <= p)%R) -> (0 < sum_R ps)%R -> first_positive ps < List.length ps /\ (0 < nth (first_positive ps) ps 0)%R.
Proof.
  induction ps as [|p r IH]; intros P S; cbn in *; [lra|]. destruct (Rlt_dec 0 p) as [L|L]; [split; [lia|exact L]|].
  destruct IH as [I1 I2]; [auto| |split; [lia|exact I2]]. specialize (P p (or_introl eq_refl)). fold (sum_R r) in S. lra.
Qed.
Lemma first_fair : fair (fun _ => first_positive).
Proof. intros k ps P S. apply first_positive_spec; [exact P|lra]. Qed.

(** *** the outcome depends only on the draws with the probabilities of the noise *)
Lemma choice_ext d d' ps k : d k ps = d' k ps -> choice d ps k = choice d' ps k.
Proof. intros E. unfold choice. now rewrite E. Qed.
Lemma bind_ext {B C} (m m' : rnd B) (f f' : B -> rnd C) k : m k = m' k -> (forall a j, f a j = f' a j) -> bind m f k = bind m' f' k.
Proof. intros E F. unfold bind. rewrite E. destruct (m' k) as [[a j]|]; [apply F|reflexivity]. Qed.
Lemma math_form n d : 0 < d -> probabilities_of (HMath n) (math_probs (p_depol n) d).
Proof.
  intros D. exists d. split; [exact D|]. unfold math_probs. assert (N : INR d <> 0%R) by (apply not_0_INR; lia).
  assert (E : (p_depol n / INR d / INR d = p_depol n / (INR d * INR d))%R) by (field; exact N). cbv zeta. rewrite E.
  rewrite minus_INR by nia. rewrite mult_INR. reflexivity.
Qed.
Lemma mode_probabilities d d' dims h g mode v c k : read h v = Some c -> (forall k ps, probabilities_of c ps -> d k ps = d' k ps) ->
  apply_mode d dims h g (mode, v) k = apply_mode d' dims h g (mode, v) k.
Proof.
  intros Rd H. unfold apply_mode. destruct (affected g mode) as [qs|]; [|reflexivity]. destruct v as [n|a].
  - injection Rd as <-. apply each_ext. intros q k1 _. unfold math_dit. destruct (pyindex dims q) as [[|x]|]; try reflexivity.
    apply bind_ext; [|reflexivity]. apply choice_ext, H, math_form. lia.
  - cbn [read] in Rd. destruct (nth_error h a) as [t|]; [|reflexivity]. injection Rd as <-. destruct (rectify t g) as [t'|] eqn:Rt; [|reflexivity].
    apply bind_ext; [|intros x j; apply bind_ext; [|reflexivity]].
    + apply each_ext. intros q k1 _. unfold sub_dit. destruct (pyindex dims q) as [x|]; [|reflexivity]. apply each_ext. intros [[la lb] n] k2 I. cbn [sub_pair].
      destruct (negb _); [reflexivity|]. apply bind_ext; [|reflexivity]. apply choice_ext, H. destruct (rectify_noise _ _ _ _ _ _ Rt I) as (k0 & I0). exists k0, n. split; [exact I0|]. now left.
    + apply each_ext. intros q k1 _. unfold dephase_dit. destruct (pyindex dims q) as [y|]; [|reflexivity]. apply each_ext. intros [[la lb] n] k2 I. cbn [dephase_pair].
      destruct (negb _); [reflexivity|]. apply each_ext. intros l k3 _. unfold dephase_level. apply bind_ext; [|reflexivity]. apply choice_ext, H.
      destruct (rectify_noise _ _ _ _ _ _ Rt I) as (k0 & I0). exists k0, n. split; [exact I0|]. now right.
Qed.
Lemma generate_probabilities d d' calls dims gs k : let m := run_calls new_model calls in
  (forall g mode v c k ps, In g gs -> slot m (qasm_tag (g_data g)) mode = Some v -> read (heap m) v = Some c -> probabilities_of c ps -> d k ps = d' k ps) ->
  generate d dims m gs k = generate d' dims m gs k.
Proof.
  cbn zeta. intros H. unfold generate. apply each_ext. intros g k1 Ig. apply bind_ext; [|reflexivity]. unfold apply_noise.
  destruct (sget (errors (run_calls new_model calls)) (qasm_tag (g_data g))) as [modes|] eqn:M; [|reflexivity]. apply each_ext. intros [mode v] k2 Im.
  assert (S : slot (run_calls new_model calls) (qasm_tag (g_data g)) mode = Some v) by (eapply model_slot; eassumption).
  destruct (read (heap (run_calls new_model calls)) v) as [c|] eqn:Rd.
  - apply (mode_probabilities _ _ _ _ _ _ _ c); [exact Rd|]. intros k3 ps P. eapply H; eassumption.
  - destruct v as [n|a]; [discriminate Rd|]. unfold apply_mode. destruct (affected g mode); [|reflexivity]. cbn [read] in Rd. destruct (nth_error _ a); [discriminate Rd|reflexivity].
Qed.

(** *** exactly the drawn errors *)
Lemma each_iff {X A} (f : X -> rnd (list A)) l (P : X -> Prop) y : (forall x j b j', In x l -> f x j = Ok (b, j') -> (In y b <-> P x)) ->
  forall k out k', each f l k = Ok (out, k') -> (In y out <-> exists x, In x l /\ P x).
Proof.
  intros H k out k' E. destruct (each_inv _ _ _ _ _ E) as (bl & -> & F). clear E. induction F as [|x b l bl (j & j' & Ex) F IH].
  - split; [intros []|intros (x & [] & _)].
  - cbn [List.concat]. rewrite in_app_iff, (H x j b j' (or_introl eq_refl) Ex), IH.
    + split; [intros [Q|(z & I & Q)]; [exists x; split; [now left|exact Q]|exists z; split; [now right|exact Q]]|].
      intros (z & [<-|I] & Q); [now left|right; eauto].
    + intros z i c i' I. apply H. now right.
Qed.
Section Always.
Variables (draw : nat -> list R -> nat) (ci cj : nat).
Hypothesis A : always ci cj draw.
Lemma sub_pair_iff dims d q a b n e j o j' : pyindex dims q = Ok d -> sub_pair draw d q ((a, b), n) j = Ok (o, j') ->
  (In e o <-> (ci = 1 /\ e = INoiseZ q b) \/ (ci = 2 /\ e = INoiseX q a b) \/ (ci = 3 /\ e = INoiseY q a b)).
Proof.
  intros _. cbn [sub_pair]. destruct (negb _); [discriminate|]. intros H. apply bind_inv in H. destruct H as (c & j1 & C & H). unfold choice in C. destruct (any_negative _); [discriminate|].
  injection C as <- _. rewrite (proj1 (A j (sub_probs (p_depol n)))) in H by reflexivity. destruct ci as [|[|[|[|i]]]].
  - injection H as <- _. cbn. intuition discriminate.
  - injection H as <- _. cbn. intuition (try discriminate); subst; auto.
  - destruct (check_levels d a b); [|discriminate]. injection H as <- _. cbn. intuition (try discriminate); subst; auto.
  - destruct (check_levels d a b); [|discriminate]. injection H as <- _. cbn. intuition (try discriminate); subst; auto.
  - injection H as <- _. cbn. intuition discriminate.
Qed.
Lemma dephase_pair_iff dims d q a b n e j o j' : pyindex dims q = Ok d -> dephase_pair draw d q ((a, b), n) j = Ok (o, j') ->
  (In e o <-> cj = 0 /\ exists l, e = INoiseZ q l /\ valid_level dims q l /\ l <> a /\ l <> b).
Proof.
  intros Pd. cbn [dephase_pair]. destruct (negb _); [discriminate|]. intros H.
  rewrite (each_iff _ _ (fun l => cj = 0 /\ e = INoiseZ q l) e) with (2 := H).
  - split.
    + intros (l & I & Q1 & ->). split; [exact Q1|]. exists l. split; [reflexivity|]. unfold other_levels in I. apply filter_In in I. destruct I as [I F]. apply in_map_iff in I. destruct I as (x & <- & I).
      apply in_seq in I. apply andb_true_iff in F. destruct F as [F1 F2]. apply negb_true_iff, Z.eqb_neq in F1, F2. split; [exists d; split; [exact Pd|lia]|auto].
    + intros (Q1 & l & -> & (d' & Pd' & L) & N1 & N2). rewrite Pd in Pd'. injection Pd' as <-. exists l. split; [|auto]. unfold other_levels. apply filter_In. split.
      * apply in_map_iff. exists (Z.to_nat l). split; [lia|]. apply in_seq. lia.
      * apply andb_true_iff. rewrite !negb_true_iff, !Z.eqb_neq. auto.
  - intros l i b' i' _ E. unfold dephase_level in E. apply bind_inv in E. destruct E as (c & i1 & C & E). unfold choice in C. destruct (any_negative _); [discriminate|].
    injection C as <- _. injection E as <- _. rewrite (proj2 (A i [p_deph n; (1 - p_deph n)%R])) by reflexivity. destruct cj as [|x]; cbn; intuition (try discriminate); subst; auto.
Qed.
Lemma mode_exactly dims h g mode a t k out k' e : nth_error h a = Some t -> apply_mode draw dims h g (mode, Sub a) k = Ok (out, k') ->
  (In e out <-> exists q la lb, selects mode g q /\ acts_on_pair t g la lb /\ drawn dims ci cj q la lb e).
Proof.
  intros Ht. unfold apply_mode. destruct (affected g mode) as [qs|] eqn:Af; [|discriminate]. pose proof (affected_spec g mode qs Af) as S. rewrite Ht.
  destruct (rectify t g) as [t'|] eqn:Rt; [|discriminate]. intros H. apply bind_inv in H. destruct H as (x & j & H1 & H). apply bind_inv in H. destruct H as (y & j2 & H2 & H). injection H as <- _.
  assert (T : forall q, In q qs -> forall la lb n, In ((la, lb), n) t' -> acts_on_pair t g la lb).
  { intros q Iq la lb n It. destruct (each_inv _ _ _ _ _ H1) as (bl & _ & F). clear - F Iq It Rt. induction F as [|q' b l bl (i & i' & E) F IH]; [destruct Iq|].
    destruct Iq as [->|Iq]; [|now apply IH]. unfold sub_dit in E. destruct (pyindex dims q) as [d|]; [|discriminate]. destruct (each_inv _ _ _ _ _ E) as (bl' & _ & F'). clear E F IH.
    assert (L : (0 <= la)%Z /\ (0 <= lb)%Z).
    { clear Rt. induction F' as [|p b' l' bl'' (i2 & i3 & E2) F' IH]; [destruct It|]. destruct It as [->|It]; [|now apply IH]. cbn [sub_pair] in E2.
      destruct (in_levels d la && in_levels d lb) eqn:Lv; [|discriminate]. apply andb_true_iff in Lv. rewrite !levels_in in Lv. lia. }
    apply (rectify_pairs _ _ _ _ _ _ Rt It); apply L. }
  rewrite in_app_iff.
  rewrite (each_iff _ _ (fun q => exists la lb n, In ((la, lb), n) t' /\ ((ci = 1 /\ e = INoiseZ q lb) \/ (ci = 2 /\ e = INoiseX q la lb) \/ (ci = 3 /\ e = INoiseY q la lb))) e) with (2 := H1).
  rewrite (each_iff _ _ (fun q => exists la lb n, In ((la, lb), n) t' /\ (cj = 0 /\ exists l, e = INoiseZ q l /\ valid_level dims q l /\ l <> la /\ l <> lb)) e) with (2 := H2).
  - unfold drawn. split.
    + intros [(q & Iq & la & lb & n & It & Q)|(q & Iq & la & lb & n & It & Q)]; exists q, la, lb; (split; [now apply S|split; [eapply T; eassumption|tauto]]).
    + intros (q & la & lb & Sq & Ac & Q). apply S in Sq. destruct (rectify_acts _ _ _ _ _ Rt Ac) as (n & It). destruct Q as [Q|[Q|[Q|Q]]]; [left|left|left|right]; exists q; (split; [exact Sq|exists la, lb, n; split; [exact It|tauto]]).
  - intros q i b i' _ E. unfold dephase_dit in E. destruct (pyindex dims q) as [d|] eqn:Pd; [|discriminate].
    rewrite (each_iff _ _ (fun p => cj = 0 /\ exists l, e = INoiseZ q l /\ valid_level dims q l /\ l <> fst (fst p) /\ l <> snd (fst p)) e) with (2 := E).
    + split; [intros ([[la lb] n] & It & Q); exists la, lb, n; auto|intros (la & lb & n & It & Q); exists ((la, lb), n); auto].
    + intros [[la lb] n] i1 b1 i2 _ E1. exact (dephase_pair_iff dims d q la lb n e i1 b1 i2 Pd E1).
  - intros q i b i' _ E. unfold sub_dit in E. destruct (pyindex dims q) as [d|] eqn:Pd; [|discriminate].
    rewrite (each_iff _ _ (fun p => (ci = 1 /\ e = INoiseZ q (snd (fst p))) \/ (ci = 2 /\ e = INoiseX q (fst (fst p)) (snd (fst p))) \/ (ci = 3 /\ e = INoiseY q (fst (fst p)) (snd (fst p)))) e) with (2 := E).
    + split; [intros ([[la lb] n] & It & Q); exists la, lb, n; auto|intros (la & lb & n & It & Q); exists ((la, lb), n); auto].
    + intros [[la lb] n] i1 b1 i2 _ E1. exact (sub_pair_iff dims d q la lb n e i1 b1 i2 Pd E1).
Qed.
Lemma generate_exactly calls dims gs k out k' : let m := run_calls new_model calls in generate draw dims m gs k = Ok (out, k') ->
  exists blocks, out = assemble blocks /\ map fst blocks = gs /\ forall g l e, In (g, l) blocks -> physical e ->
    (In e l <-> exists mode a t q la lb, slot m (qasm_tag (g_data g)) mode = Some (Sub a) /\ read (heap m) (Sub a) = Some (HSub t) /\
      selects mode g q /\ acts_on_pair t g la lb /\ drawn dims ci cj q la lb e).
Proof.
  cbn zeta. intros H. destruct (assemble_each _ _ _ _ _ _ _ H) as (bl & E1 & E2 & F). exists bl. split; [exact E1|]. split; [exact E2|]. intros g l e Ig Pe.
  destruct (F g l Ig) as (j & j' & E). unfold apply_noise in E. destruct (sget (errors (run_calls new_model calls)) (qasm_tag (g_data g))) as [modes|] eqn:M.
  - rewrite (each_iff _ _ (fun mv => exists a t q la lb, snd mv = Sub a /\ nth_error (heap (run_calls new_model calls)) a = Some t /\ selects (fst mv) g q /\ acts_on_pair t g la lb /\ drawn dims ci cj q la lb e) e) with (2 := E).
    + split.
      * intros ([mode v] & Im & a & t & q & la & lb & Ev & Ht & S & Ac & D). cbn [fst snd] in *. subst v. exists mode, a, t, q, la, lb. split; [eapply model_slot; eassumption|]. cbn [read]. rewrite Ht. auto.
      * intros (mode & a & t & q & la & lb & S & Rd & Q). exists (mode, Sub a). split.
        -- unfold slot in S. rewrite M in S. now apply (dget_In String.eqb eqs).
        -- exists a, t, q, la, lb. split; [reflexivity|]. cbn [read] in Rd. destruct (nth_error _ a) as [t0|]; [|discriminate]. injection Rd as ->. split; [reflexivity|exact Q].
    + intros [mode v] i b i' _ Em. cbn [fst snd]. destruct v as [n|a].
      * split; [|intros (a & t & q & la & lb & D & _); discriminate D]. intros I. exfalso. unfold apply_mode in Em. destruct (affected g mode) as [qs|]; [|discriminate].
        destruct (each_in _ _ _ _ _ _ Em I) as (q & o & i1 & i2 & _ & Eq & Io). destruct (math_in _ _ _ _ _ _ _ _ Eq Io) as [->| ->]; exact Pe.
      * destruct (nth_error (heap (run_calls new_model calls)) a) as [t|] eqn:Ht.
        -- rewrite (mode_exactly _ _ _ _ _ _ _ _ _ e Ht Em). split.
           ++ intros (q & la & lb & Q). exists a, t, q, la, lb. auto.
           ++ intros (a' & t' & q & la & lb & D & Ht' & Q). injection D as <-. rewrite Ht in Ht'. injection Ht' as <-. exists q, la, lb. exact Q.
        -- exfalso. unfold apply_mode in Em. destruct (affected g mode); [|discriminate]. rewrite Ht in Em. discriminate Em.
  - injection E as <- _. split; [intros []|]. intros (mode & a & t & q & la & lb & S & _). unfold slot in S. rewrite M in S. discriminate S.
Qed.
End Always.
