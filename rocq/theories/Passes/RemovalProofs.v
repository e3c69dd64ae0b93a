(** Proofs about the removal of phase gates at the ends of the lines. *)
From Coq Require Import List ZArith Arith Lia Bool Reals Lra Permutation.
From Verif.Base Require Import Py PyFacts Cplx Matrix Radix.
From Verif.Circuit Require Import GateModel.
From Verif.Gates Require Import AnglesModel AnglesSpec AnglesProofs SingleModel SingleSpec SingleProofs.
From Verif.Gates Require Import FactoryModel FactorySpec ActsOn Embed FactoryMain.
From Verif.Lanes Require Import LanesModel LanesSpec LanesProofs UnitaryProofs.
From Verif.Levels Require Import LevelsModel.
From Verif.Passes Require Import PhasesModel PhasesSpec PhasesProofs.
Import ListNotations.
Local Open Scope nat_scope.

(** *** the scan *)
Definition on (t : Z) (g : gate pay) : bool := mem t (target_lines g).
Definition phase_int (g : gate pay) : bool := is_phase g && match g_target g with TInt _ => true | _ => false end.
Definition blocked (pre : list (gate pay)) (t : Z) : bool := existsb (fun h => on t h && negb (phase_int h)) pre.
Definition lead (pre : list (gate pay)) (g : gate pay) : bool :=
  match g_target g with TInt t => is_phase g && negb (blocked pre t) | TList _ => false end.
Fixpoint marks (pre suf : list (gate pay)) : list bool :=
  match suf with [] => [] | g :: r => lead pre g :: marks (pre ++ [g]) r end.
Definition strip (pre suf : list (gate pay)) : list (gate pay) := select (map negb (marks pre suf)) suf.
Definition dropped (pre suf : list (gate pay)) : list (gate pay) := select (marks pre suf) suf.

Lemma mem_In t s : mem t s = true <-> In t s.
Proof. unfold mem. rewrite existsb_exists. split; [intros (x & H & E); apply Z.eqb_eq in E; now subst|intros H; exists t; split; [exact H|apply Z.eqb_refl]]. Qed.
Lemma mem_add s t u : mem u (set_add s t) = mem u s || (u =? t)%Z.
Proof.
  apply eq_true_iff_eq. rewrite orb_true_iff, !mem_In, Z.eqb_eq. unfold set_add. destruct (mem t s) eqn:E.
  - rewrite mem_In in E. split; [auto|]. intros [H| ->]; assumption.
  - rewrite in_app_iff. cbn. intuition congruence.
Qed.
Lemma mem_update ts : forall s u, mem u (fold_left set_add ts s) = mem u s || mem u ts.
Proof.
  induction ts as [|t ts IH]; intros s u; cbn [fold_left]; [change (mem u []) with false; now rewrite orb_false_r|].
  rewrite IH, mem_add. change (mem u (t :: ts)) with ((u =? t)%Z || mem u ts). now rewrite orb_assoc.
Qed.
Lemma set_add_NoDup s t : NoDup s -> NoDup (set_add s t).
Proof.
  intros H. unfold set_add. destruct (mem t s) eqn:E; [exact H|].
  apply NoDup_rev in H. rewrite <- (rev_involutive (s ++ [t])). apply NoDup_rev. rewrite rev_app_distr. cbn. constructor; [|exact H].
  rewrite <- in_rev. intros F. apply mem_In in F. congruence.
Qed.
Lemma update_NoDup ts : forall s, NoDup s -> NoDup (fold_left set_add ts s).
Proof. induction ts as [|t ts IH]; intros s H; cbn; [exact H|]. now apply IH, set_add_NoDup. Qed.

Lemma blocked_snoc pre g t : blocked (pre ++ [g]) t = blocked pre t || (on t g && negb (phase_int g)).
Proof. unfold blocked. rewrite existsb_app. cbn. now rewrite orb_false_r. Qed.

Lemma full_set s num : NoDup s -> (forall t, In t s -> (0 <= t < Z.of_nat num)%Z) -> List.length s = num ->
  forall t, (0 <= t < Z.of_nat num)%Z -> In t s.
Proof.
  intros N R L t Ht. set (all := map Z.of_nat (seq 0 num)).
  assert (I : incl all s).
  { apply NoDup_length_incl; [exact N|unfold all; rewrite map_length, seq_length; lia|].
    intros x Hx. unfold all. apply in_map_iff. exists (Z.to_nat x). pose proof (R x Hx). split; [lia|apply in_seq; lia]. }
  apply I. unfold all. apply in_map_iff. exists (Z.to_nat t). split; [lia|apply in_seq; lia].
Qed.
Lemma marks_length pre suf : List.length (marks pre suf) = List.length suf.
Proof. revert pre. induction suf as [|g r IH]; intros pre; cbn; [reflexivity|]. now rewrite IH. Qed.

Section Scan.
Variable num : nat.
Lemma scan_marks suf : forall is pre seen del, List.length is = List.length suf ->
  NoDup seen -> (forall t, In t seen -> (0 <= t < Z.of_nat num)%Z) -> (forall g t, In g suf -> In t (target_lines g) -> (0 <= t < Z.of_nat num)%Z) ->
  (forall t, mem t seen = blocked pre t) ->
  rz_scan num (combine is suf) seen del = del ++ select (marks pre suf) is.
Proof.
  induction suf as [|g r IH]; intros is pre seen del L N R G B; destruct is as [|i is]; try discriminate; cbn [combine rz_scan marks select]; [now rewrite app_nil_r|].
  injection L as L. assert (G' : forall g t, In g r -> In t (target_lines g) -> (0 <= t < Z.of_nat num)%Z) by (intros; eapply G; [right|]; eassumption).
  assert (Gg : forall t, In t (target_lines g) -> (0 <= t < Z.of_nat num)%Z) by (intros; eapply G; [now left|eassumption]).
  destruct (Nat.eqb_spec (List.length seen) num) as [Fu|_].
  - (* all lines seen: nothing is marked any more *)
    assert (Z0 : forall pre', (forall t, In t seen -> blocked pre' t = true) -> forall suf' (is' : list nat), (forall g t, In g suf' -> In t (target_lines g) -> (0 <= t < Z.of_nat num)%Z) -> select (marks pre' suf') is' = []).
    { clear - N R Fu. intros pre' B' suf'. revert pre' B'. induction suf' as [|h r' IH']; intros pre' B' is' G0; [reflexivity|]. cbn.
      assert (Lh : lead pre' h = false).
      { unfold lead. destruct (g_target h) as [t|] eqn:Et; [|reflexivity]. rewrite B'; [apply andb_false_r|].
        apply (full_set seen num N R Fu). apply (G0 h t); [now left|]. unfold target_lines. rewrite Et. now left. }
      rewrite Lh. destruct is' as [|i' is']; [reflexivity|]. apply IH'.
      - intros t Ht. rewrite blocked_snoc, B'; [reflexivity|exact Ht].
      - intros; eapply G0; [right; eassumption|eassumption]. }
    change (if lead pre g then i :: select (marks (pre ++ [g]) r) is else select (marks (pre ++ [g]) r) is) with (select (marks pre (g :: r)) (i :: is)).
    rewrite Z0; [now rewrite app_nil_r| |exact G]. intros t Ht. rewrite <- B. now apply mem_In.
  - unfold lead. destruct (g_target g) as [t|ts] eqn:Et.
    + assert (Ht : (0 <= t < Z.of_nat num)%Z) by (apply Gg; unfold target_lines; rewrite Et; now left).
      rewrite <- B. rewrite andb_comm. destruct (is_phase g && negb (mem t seen)) eqn:E.
      * rewrite (IH is (pre ++ [g])); try assumption; [now rewrite <- app_assoc|].
        intros u. rewrite blocked_snoc, <- B. unfold phase_int. rewrite Et. apply andb_true_iff in E. destruct E as [-> _].
        cbn. now rewrite andb_false_r, orb_false_r.
      * apply (IH is (pre ++ [g])); try assumption.
        -- now apply set_add_NoDup.
        -- intros u Hu. apply mem_In in Hu. rewrite mem_add in Hu. apply orb_true_iff in Hu. destruct Hu as [Hu|Hu]; [now apply R, mem_In|]. apply Z.eqb_eq in Hu. now subst.
        -- intros u. rewrite mem_add, blocked_snoc, <- B. unfold on, target_lines, phase_int. rewrite Et. cbn. rewrite orb_false_r.
           apply andb_false_iff in E. destruct (mem u seen) eqn:Eu; [reflexivity|]. cbn. destruct (Z.eqb_spec u t) as [->|Nu]; [|reflexivity].
           destruct E as [->|E]; [reflexivity|]. rewrite Eu in E. discriminate.
    + apply (IH is (pre ++ [g])); try assumption.
      * now apply update_NoDup.
      * intros u Hu. apply mem_In in Hu. rewrite mem_update in Hu. apply orb_true_iff in Hu. destruct Hu as [Hu|Hu]; [now apply R, mem_In|].
        apply Gg. unfold target_lines. rewrite Et. now apply mem_In.
      * intros u. rewrite mem_update, blocked_snoc, <- B. unfold on, target_lines, phase_int. rewrite Et. now rewrite andb_false_r, andb_true_r.
Qed.
End Scan.

(** from positions to entries *)
Lemma select_In {A} ms : forall (l : list A) x, In x (select ms l) -> In x l.
Proof.
  induction ms as [|m ms IH]; intros [|y l] x H; cbn in *; try contradiction. destruct m; [destruct H as [->|H]; [now left|right; now apply IH]|right; now apply IH].
Qed.
Lemma filter_select {A} (l : list A) : forall is ms, List.length is = List.length l -> List.length ms = List.length l -> NoDup is ->
  map snd (filter (fun ig => negb (existsb (Nat.eqb (fst ig)) (select ms is))) (combine is l)) = select (map negb ms) l.
Proof.
  assert (K : forall (l : list A) is ms del, List.length is = List.length l -> List.length ms = List.length l -> NoDup is ->
    (forall i, In i is -> (In i del <-> In i (select ms is))) ->
    map snd (filter (fun ig => negb (existsb (Nat.eqb (fst ig)) del)) (combine is l)) = select (map negb ms) l).
  { clear l. induction l as [|x l IH]; intros is ms del L1 L2 N H; destruct is as [|i is], ms as [|m ms]; try discriminate; [reflexivity|].
    inversion N as [|? ? N1 N2]; subst. cbn in L1, L2. cbn [combine filter fst map].
    assert (E : existsb (Nat.eqb i) del = m).
    { apply eq_true_iff_eq. rewrite existsb_exists. transitivity (In i del).
      - split; [intros (j & Hj & Ej); apply Nat.eqb_eq in Ej; now subst|intros Hi; exists i; split; [exact Hi|apply Nat.eqb_refl]].
      - rewrite (H i (or_introl eq_refl)). cbn. destruct m; [split; auto; now left|]. split; [|discriminate]. intros Hi. apply select_In in Hi. contradiction. }
    assert (H' : forall j, In j is -> (In j del <-> In j (select ms is))).
    { intros j Hj. rewrite (H j (or_intror Hj)). cbn. destruct m; [|reflexivity]. cbn. split; [intros [->|X]; [contradiction|exact X]|auto]. }
    rewrite E. destruct m; cbn; [|f_equal]; apply IH; try assumption; lia. }
  intros is ms L1 L2 N. apply K; try assumption. reflexivity.
Qed.
Lemma combine_rev {A B} (a : list A) : forall b : list B, List.length a = List.length b -> rev (combine a b) = combine (rev a) (rev b).
Proof.
  induction a as [|x a IH]; intros [|y b] L; try discriminate; [reflexivity|]. cbn. injection L as L. rewrite IH by exact L.
  assert (K : forall (p : list A) (q : list B), List.length p = List.length q -> combine p q ++ [(x, y)] = combine (p ++ [x]) (q ++ [y])).
  { induction p as [|u p IHp]; intros [|v q] Lq; try discriminate; [reflexivity|]. cbn. f_equal. apply IHp. now injection Lq. }
  apply K. now rewrite !rev_length.
Qed.
Lemma in_register_rev num l : in_register num l -> in_register num (rev l).
Proof. intros H g t Hg. apply H. now apply in_rev. Qed.
Lemma initial_strip num l : in_register num l -> remove_rz_gates num l false = strip [] l.
Proof.
  intros G. unfold remove_rz_gates, enumerate. rewrite (scan_marks num l (seq 0 (List.length l)) [] [] []).
  - cbn [app]. apply filter_select; [apply seq_length|apply marks_length|apply seq_NoDup].
  - apply seq_length.
  - constructor.
  - intros t [].
  - exact G.
  - reflexivity.
Qed.
Lemma trailing_strip num l : in_register num l -> remove_rz_gates num l true = rev (strip [] (rev l)).
Proof.
  intros G. unfold remove_rz_gates, enumerate. rewrite combine_rev by apply seq_length.
  rewrite (scan_marks num (rev l) (rev (seq 0 (List.length l))) [] [] []).
  - cbn [app]. unfold strip. rewrite <- (filter_select (rev l) (rev (seq 0 (List.length l)))).
    + rewrite <- combine_rev by apply seq_length. rewrite filter_rev', map_rev, rev_involutive. reflexivity.
    + now rewrite !rev_length, seq_length.
    + now rewrite marks_length.
    + apply NoDup_rev, seq_NoDup.
  - now rewrite !rev_length, seq_length.
  - constructor.
  - intros t [].
  - now apply in_register_rev.
  - reflexivity.
Qed.

(** *** facts about strip *)
Lemma strip_cons pre g r : strip pre (g :: r) = if lead pre g then strip (pre ++ [g]) r else g :: strip (pre ++ [g]) r.
Proof. unfold strip. cbn. destruct (lead pre g); reflexivity. Qed.
Lemma dropped_cons pre g r : dropped pre (g :: r) = if lead pre g then g :: dropped (pre ++ [g]) r else dropped (pre ++ [g]) r.
Proof. reflexivity. Qed.
Lemma strip_app a : forall pre b, strip pre (a ++ b) = strip pre a ++ strip (pre ++ a) b.
Proof.
  induction a as [|g a IH]; intros pre b; [cbn [app]; now rewrite app_nil_r|]. cbn [app]. rewrite !strip_cons, IH, <- app_assoc. cbn [app].
  destruct (lead pre g); reflexivity.
Qed.
Lemma strip_split l : forall pre p g q, strip pre l = p ++ g :: q ->
  exists P Q, l = P ++ g :: Q /\ p = strip pre P /\ lead (pre ++ P) g = false /\ q = strip (pre ++ P ++ [g]) Q.
Proof.
  induction l as [|x l IH]; intros pre p g q E; [destruct p; discriminate|]. rewrite strip_cons in E. destruct (lead pre x) eqn:Lx.
  - destruct (IH _ _ _ _ E) as (P & Q & -> & -> & Lg & ->). exists (x :: P), Q. split; [reflexivity|].
    rewrite strip_cons, Lx, <- !app_assoc in *. cbn [app] in *. auto.
  - destruct p as [|y p].
    + cbn in E. injection E as -> E. exists [], l. cbn. rewrite app_nil_r. auto.
    + cbn in E. injection E as -> E. destruct (IH _ _ _ _ E) as (P & Q & -> & -> & Lg & ->). exists (y :: P), Q. split; [reflexivity|].
      rewrite strip_cons, Lx, <- !app_assoc in *. cbn [app] in *. auto.
Qed.
Lemma strip_keeps pre l h : In h l -> phase_int h = false -> In h (strip pre l).
Proof.
  intros Hh Ph. revert pre. induction l as [|x l IH]; intros pre; [destruct Hh|]. rewrite strip_cons. destruct Hh as [->|Hh].
  - assert (E : lead pre h = false).
    { unfold lead. unfold phase_int in Ph. destruct (g_target h); [|reflexivity]. rewrite andb_true_r in Ph. now rewrite Ph. }
    rewrite E. now left.
  - destruct (lead pre x); [|right]; apply IH, Hh.
Qed.
Lemma blocked_mono pre a t : blocked pre t = true -> blocked (pre ++ a) t = true.
Proof. unfold blocked. rewrite existsb_app. intros ->. reflexivity. Qed.
Lemma strip_keeps_blocked t pre l h : In h l -> g_target h = TInt t -> blocked pre t = true -> In h (strip pre l).
Proof.
  intros Hh Th. revert pre. induction l as [|x l IH]; intros pre B; [destruct Hh|]. rewrite strip_cons. destruct Hh as [->|Hh].
  - unfold lead. rewrite Th, B, andb_false_r. now left.
  - destruct (lead pre x); [|right]; apply IH; try assumption; now apply blocked_mono.
Qed.
Lemma kept_phase pre g t : is_phase g = true -> g_target g = TInt t -> lead pre g = false -> blocked pre t = true.
Proof. intros P T. unfold lead. rewrite T, P. cbn. now destruct (blocked pre t). Qed.
Lemma strip_no_leading l : no_leading_phase (strip [] l).
Proof.
  intros p g q t E Ph T. destruct (strip_split _ _ _ _ _ E) as (P & Q & -> & -> & Lg & ->). cbn [app] in Lg.
  pose proof (kept_phase P g t Ph T Lg) as B. unfold blocked in B. apply existsb_exists in B. destruct B as (h & Hh & Bh).
  apply andb_true_iff in Bh. destruct Bh as [B1 B2]. apply negb_true_iff in B2.
  exists h. split; [now apply strip_keeps|now apply mem_In].
Qed.
Lemma rev_no_trailing l : no_leading_phase l -> no_trailing_phase (rev l).
Proof.
  intros H p g q t E Ph T. assert (E' : l = rev q ++ g :: rev p).
  { rewrite <- (rev_involutive l), E, rev_app_distr. cbn. now rewrite <- app_assoc. }
  destruct (H _ _ _ _ E' Ph T) as (h & Hh & Ht). exists h. split; [now apply in_rev|exact Ht].
Qed.
Lemma strip_rev_no_leading x : no_leading_phase x -> no_leading_phase (rev (strip [] (rev x))).
Proof.
  intros H p g q t E Ph T. assert (E' : strip [] (rev x) = rev q ++ g :: rev p).
  { rewrite <- (rev_involutive (strip [] (rev x))), E, rev_app_distr. cbn. now rewrite <- app_assoc. }
  destruct (strip_split _ _ _ _ _ E') as (A & B & Ex & Eq & Lg & Ep). cbn [app] in Lg, Ep.
  pose proof (kept_phase A g t Ph T Lg) as Bt.
  assert (E2 : x = rev B ++ g :: rev A) by (rewrite <- (rev_involutive x), Ex, rev_app_distr; cbn; now rewrite <- app_assoc).
  destruct (H _ _ _ _ E2 Ph T) as (h & Hh & Ht). apply in_rev in Hh. exists h. split; [|exact Ht].
  apply in_rev. rewrite Ep. destruct (phase_int h) eqn:Ei; [|now apply strip_keeps].
  unfold phase_int in Ei. apply andb_true_iff in Ei. destruct Ei as [_ Ei]. destruct (g_target h) as [u|] eqn:Eu; [|discriminate].
  unfold target_lines in Ht. rewrite Eu in Ht. destruct Ht as [->|[]]. apply (strip_keeps_blocked t); [exact Hh|exact Eu|now apply blocked_mono].
Qed.
Lemma in_register_sub num l l' : (forall g, In g l' -> In g l) -> in_register num l -> in_register num l'.
Proof. intros S H g t Hg. apply H, S, Hg. Qed.
Lemma strip_incl pre l g : In g (strip pre l) -> In g l.
Proof. apply select_In. Qed.
Lemma initial_register num l : in_register num l -> in_register num (strip [] l).
Proof. intros H. eapply in_register_sub; [|exact H]. apply strip_incl. Qed.
Lemma transpile_complete num l : in_register num l -> no_leading_phase (zremoval_transpile num l) /\ no_trailing_phase (zremoval_transpile num l).
Proof.
  intros G. unfold zremoval_transpile. rewrite initial_strip by exact G. rewrite trailing_strip by (now apply initial_register). split.
  - apply strip_rev_no_leading, strip_no_leading.
  - apply rev_no_trailing, strip_no_leading.
Qed.

(** exactly which gates are deleted *)
Lemma nth_negb ms : forall i, i < List.length ms -> nth i (map negb ms) true = negb (nth i ms false).
Proof. intros i H. rewrite nth_indep with (d' := negb false) by now rewrite map_length. apply map_nth. Qed.
Lemma marks_nth suf : forall pre i g, nth_error suf i = Some g -> nth i (marks pre suf) false = lead (pre ++ firstn i suf) g.
Proof.
  induction suf as [|x r IH]; intros pre [|i] g E; try discriminate; cbn in *.
  - injection E as ->. now rewrite app_nil_r.
  - rewrite (IH (pre ++ [x]) i g E), <- app_assoc. reflexivity.
Qed.
Lemma nth_firstn {A} (l : list A) i j x : nth_error (firstn i l) j = Some x <-> j < i /\ nth_error l j = Some x.
Proof.
  revert i j. induction l as [|y l IH]; intros [|i] [|j]; cbn; try (split; [discriminate|intros [H E]; (discriminate || lia)]).
  - split; [intros H; split; [lia|exact H]|intros [_ H]; exact H].
  - rewrite IH. split; intros [H E]; (split; [lia|exact E]).
Qed.
Lemma lead_spec l i g : nth_error l i = Some g -> lead (firstn i l) g = true <-> leads_line l i.
Proof.
  intros E. unfold lead, leads_line. split.
  - destruct (g_target g) as [t|] eqn:T; [|discriminate]. intros H. apply andb_true_iff in H. destruct H as [P B]. apply negb_true_iff in B.
    exists g, t. split; [exact E|]. split; [split; assumption|]. intros j h Hj Eh Ht.
    assert (Ph : phase_int h = true).
    { destruct (phase_int h) eqn:Ph; [reflexivity|]. exfalso. assert (B' : blocked (firstn i l) t = true); [|congruence].
      unfold blocked. apply existsb_exists. exists h. split; [apply nth_error_In with j; now apply nth_firstn|]. rewrite Ph.
      apply andb_true_iff. split; [now apply mem_In|reflexivity]. }
    unfold phase_int in Ph. apply andb_true_iff in Ph. destruct Ph as [P1 P2]. destruct (g_target h) as [u|] eqn:Eu; [|discriminate].
    unfold target_lines in Ht. rewrite Eu in Ht. destruct Ht as [->|[]]. split; assumption.
  - intros (g' & t & E' & (P & T) & H). rewrite E in E'. injection E' as <-. rewrite T, P. cbn [andb]. apply negb_true_iff.
    destruct (blocked (firstn i l) t) eqn:B; [|reflexivity]. exfalso. unfold blocked in B. apply existsb_exists in B. destruct B as (h & Hh & Bh).
    apply In_nth_error in Hh. destruct Hh as (j & Hj). apply nth_firstn in Hj. destruct Hj as [Lj Ej]. apply andb_true_iff in Bh. destruct Bh as [B1 B2].
    apply mem_In in B1. destruct (H j h Lj Ej B1) as [Q1 Q2]. apply negb_true_iff in B2. unfold phase_int in B2. rewrite Q1, Q2 in B2. discriminate.
Qed.
Lemma strip_exact l : exists keep, List.length keep = List.length l /\ strip [] l = select keep l /\
  forall i, i < List.length l -> (nth i keep true = false <-> leads_line l i).
Proof.
  exists (map negb (marks [] l)). split; [now rewrite map_length, marks_length|]. split; [reflexivity|].
  intros i Hi. rewrite nth_negb by (now rewrite marks_length). destruct (nth_error l i) as [g|] eqn:E; [|apply nth_error_None in E; lia].
  rewrite (marks_nth l [] i g E). cbn [app]. rewrite negb_false_iff. now apply lead_spec.
Qed.
Lemma initial_exact num l : in_register num l -> exists keep, List.length keep = List.length l /\ remove_rz_gates num l false = select keep l /\
  forall i, i < List.length l -> (nth i keep true = false <-> leads_line l i).
Proof. intros G. rewrite initial_strip by exact G. apply strip_exact. Qed.
Lemma select_app {A} (a : list A) : forall ms b ns, List.length ms = List.length a -> select (ms ++ ns) (a ++ b) = select ms a ++ select ns b.
Proof.
  induction a as [|x a IH]; intros [|m ms] b ns L; try discriminate; [reflexivity|]. cbn. injection L as L. destruct m; cbn; rewrite IH by exact L; reflexivity.
Qed.
Lemma select_rev {A} (l : list A) : forall ms, List.length ms = List.length l -> rev (select ms l) = select (rev ms) (rev l).
Proof.
  induction l as [|x l IH]; intros [|m ms] L; try discriminate; [reflexivity|]. injection L as L. cbn [rev]. 
  rewrite select_app by (now rewrite !rev_length). rewrite <- IH by exact L. destruct m; cbn; [reflexivity|now rewrite app_nil_r].
Qed.
Lemma nth_error_rev {A} (l : list A) i : i < List.length l -> nth_error (rev l) i = nth_error l (List.length l - 1 - i).
Proof.
  intros H. destruct l as [|x0 l0] eqn:El; [cbn in H; lia|]. rewrite <- El in *. 
  rewrite (nth_error_nth' (rev l) x0) by now rewrite rev_length. rewrite (nth_error_nth' l x0) by lia.
  f_equal. rewrite rev_nth by exact H. f_equal. lia.
Qed.
Lemma leads_rev l i : i < List.length l -> leads_line (rev l) i <-> trails_line l (List.length l - 1 - i).
Proof.
  intros Hi. unfold leads_line, trails_line. split; intros (g & t & E & P & H); exists g, t.
  - split; [now rewrite <- nth_error_rev|]. split; [exact P|]. intros j h Hj Eh Ht.
    assert (Lj : j < List.length l) by (apply nth_error_Some; congruence).
    apply (H (List.length l - 1 - j) h); [lia| |exact Ht]. rewrite nth_error_rev by lia. replace (List.length l - 1 - (List.length l - 1 - j)) with j by lia. exact Eh.
  - split; [now rewrite nth_error_rev|]. split; [exact P|]. intros j h Hj Eh Ht. rewrite nth_error_rev in Eh by lia.
    apply (H (List.length l - 1 - j) h); [lia|exact Eh|exact Ht].
Qed.
Lemma trailing_exact num l : in_register num l -> exists keep, List.length keep = List.length l /\ remove_rz_gates num l true = select keep l /\
  forall i, i < List.length l -> (nth i keep true = false <-> trails_line l i).
Proof.
  intros G. rewrite trailing_strip by exact G. destruct (strip_exact (rev l)) as (keep & L & E & H). rewrite rev_length in *.
  exists (rev keep). split; [now rewrite rev_length|]. split.
  - rewrite E, select_rev, rev_involutive by now rewrite rev_length. reflexivity.
  - intros i Hi. rewrite rev_nth by lia. rewrite L. rewrite H by lia. rewrite leads_rev by lia.
    replace (List.length l - 1 - (List.length l - S i)) with i by lia. reflexivity.
Qed.

(** only phase gates are ever deleted, whatever the circuit *)
Lemma scan_phase num l : forall seen del i, In i (rz_scan num l seen del) -> In i del \/ exists g, In (i, g) l /\ is_phase g = true.
Proof.
  induction l as [|[k g] r IH]; intros seen del i H; cbn in H; [now left|].
  destruct (List.length seen =? num); [now left|].
  assert (W : forall s d, In i (rz_scan num r s d) -> In i d \/ exists g0, In (i, g0) ((k, g) :: r) /\ is_phase g0 = true).
  { intros s d Hd. destruct (IH s d i Hd) as [X|(g0 & X & Y)]; [now left|right; exists g0; split; [now right|exact Y]]. }
  destruct (g_target g) as [t|ts]; [|now apply W in H].
  destruct (negb (mem t seen) && is_phase g) eqn:E; [|now apply W in H].
  apply W in H. destruct H as [H|H]; [|now right]. apply in_app_or in H. destruct H as [H|[<-|[]]]; [now left|].
  right. exists g. split; [now left|]. now apply andb_true_iff in E.
Qed.
Lemma filter_deletes (P : gate pay -> Prop) (f : nat * gate pay -> bool) il : (forall x, In x il -> f x = false -> P (snd x)) ->
  deletes P (map snd il) (map snd (filter f il)).
Proof.
  induction il as [|x il IH]; intros H; [constructor|]. cbn. assert (IH' : deletes P (map snd il) (map snd (filter f il))) by (apply IH; intros; apply H; [now right|assumption]).
  destruct (f x) eqn:E; cbn; [now constructor|]. apply del_drop; [apply H; [now left|exact E]|exact IH'].
Qed.
Lemma combine_fun {A} (l : list A) : forall k i x y, In (i, x) (combine (seq k (List.length l)) l) -> In (i, y) (combine (seq k (List.length l)) l) -> x = y.
Proof.
  induction l as [|a l IH]; intros k i x y Hx Hy; [destruct Hx|]. cbn in Hx, Hy.
  assert (F : forall z, In (k, z) (combine (seq (S k) (List.length l)) l) -> False).
  { intros z Hz. apply in_combine_l in Hz. apply in_seq in Hz. lia. }
  destruct Hx as [Ex|Hx], Hy as [Ey|Hy].
  - congruence.
  - injection Ex as -> ->. destruct (F _ Hy).
  - injection Ey as -> ->. destruct (F _ Hx).
  - eapply IH; eassumption.
Qed.
Lemma map_snd_enumerate {A} (l : list A) : map snd (enumerate l) = l.
Proof.
  unfold enumerate. generalize 0 as k. induction l as [|x l IH]; intros k; [reflexivity|]. cbn. f_equal. apply IH.
Qed.
Lemma remove_deletes num l rv : deletes (fun g => is_phase g = true) l (remove_rz_gates num l rv).
Proof.
  rewrite <- (map_snd_enumerate l) at 1. unfold remove_rz_gates. apply filter_deletes. intros [i g] Hi Hf. cbn [snd fst] in *.
  apply negb_false_iff, existsb_exists in Hf. destruct Hf as (j & Hj & Ej). apply Nat.eqb_eq in Ej. subst j.
  apply scan_phase in Hj. destruct Hj as [[]|(g' & Hg' & P)].
  assert (Hg : In (i, g') (enumerate l)) by (destruct rv; [now apply in_rev|exact Hg']).
  rewrite (combine_fun l 0 i g g' Hi Hg). exact P.
Qed.
Lemma deletes_trans {A} (P : A -> Prop) l l' l'' : deletes P l l' -> deletes P l' l'' -> deletes P l l''.
Proof.
  intros H. revert l''. induction H as [|x l l' H IH|x l l' Px H IH]; intros l'' H2; [exact H2| |].
  - inversion H2; subst; constructor; auto.
  - apply del_drop; auto.
Qed.
Lemma transpile_deletes num l : deletes (fun g => is_phase g = true) l (zremoval_transpile num l).
Proof. eapply deletes_trans; apply remove_deletes. Qed.
