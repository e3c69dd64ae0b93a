From Coq Require Import Reals Lra Lia ZArith.
From Verif.Base Require Import Py.
From Verif.Variational Require Import SearchModel SearchSpec.
Local Open Scope Z_scope.

Section S.
Context {X : Type}.
Variable nothing : X.
Variable solver : Z -> R * X.
Variable tol : R.
Notation feas := (feasible solver tol).

Definition goodbest (most high : Z) (best : Z * option R * X) : Prop :=
  (high < most /\ best = (high + 1, Some (fst (solver (high + 1))), snd (solver (high + 1))) /\ feas (high + 1)) \/
  (high = most /\ best = (most / 2, None, nothing)).
Lemma mid_range : forall low high, low <= high -> low <= low + (high - low) / 2 <= high.
Proof.
  intros low high H. assert (0 <= (high - low) / 2) by (apply Z.div_pos; lia).
  assert ((high - low) / 2 <= high - low) by (apply Z.div_le_upper_bound; lia). lia.
Qed.
Lemma loop_inv : forall fuel most low high best, 0 <= low -> high <= most -> low <= high + 1 ->
  (low = 0 \/ ~ feas (low - 1)) -> goodbest most high best -> (Z.to_nat (high - low + 1) < fuel)%nat ->
  exists k best', search_loop fuel (pure solver) tol low high tt best = (tt, Ok best') /\ 0 <= k <= most + 1 /\
    (k = 0 \/ ~ feas (k - 1)) /\ goodbest most (k - 1) best'.
Proof.
  induction fuel as [|f IH]; intros most low high best L H LH LO GB FU; [lia|].
  cbn [search_loop]. destruct (Z.leb_spec low high) as [C|C].
  - pose proof (mid_range low high C) as M. set (mid := low + (high - low) / 2) in *. clearbody mid.
    unfold pure at 1. destruct (Rlt_dec tol (fst (solver mid))) as [E|E].
    + apply IH; try lia.
      * right. replace (mid + 1 - 1) with mid by lia. unfold feasible. lra.
      * exact GB.
    + apply IH; try lia.
      * exact LO.
      * left. replace (mid - 1 + 1) with mid by lia. split; [lia|]. split; [reflexivity|]. unfold feasible. lra.
  - exists low, best. assert (low = high + 1) by lia. subst low. split; [reflexivity|]. split; [lia|]. split; [exact LO|].
    replace (high + 1 - 1) with high by lia. exact GB.
Qed.
Lemma search_inv : forall most, 0 <= most -> exists k best,
  binary_search nothing (pure solver) tol most tt = (tt, Ok best) /\ 0 <= k <= most + 1 /\
  (k = 0 \/ ~ feas (k - 1)) /\ goodbest most (k - 1) best.
Proof.
  intros most H. unfold binary_search. replace (most <? 0) with false by (symmetry; apply Z.ltb_ge; lia).
  apply loop_inv; try lia.
  right. split; [reflexivity|]. rewrite Z.sub_0_r. reflexivity.
Qed.
Lemma search_negative : forall (St : Type) (r : St -> Z -> St * (option R * X)) st most, most < 0 -> binary_search nothing r tol most st = (st, Err ValueError).
Proof. intros St r st most H. unfold binary_search. replace (most <? 0) with true by (symmetry; apply Z.ltb_lt; lia). reflexivity. Qed.

Lemma search_returns : forall most, 0 <= most -> exists best, binary_search nothing (pure solver) tol most tt = (tt, Ok best).
Proof. intros most H. destruct (search_inv most H) as (k & best & E & _). exists best. exact E. Qed.
Lemma search_sound : forall most k e x, 0 <= most -> binary_search nothing (pure solver) tol most tt = (tt, Ok (k, Some e, x)) ->
  0 <= k <= most /\ solver k = (e, x) /\ feas k /\ (k = 0 \/ ~ feas (k - 1)).
Proof.
  intros most k e x H Q. destruct (search_inv most H) as (j & best & E & J & LO & GB). rewrite E in Q. injection Q as ->.
  destruct GB as [(A & B & F)|(A & B)]; [|discriminate B]. replace (j - 1 + 1) with j in * by lia. injection B as -> -> ->.
  split; [lia|]. split; [apply surjective_pairing|]. split; assumption.
Qed.
Lemma search_fails : forall most k x, 0 <= most -> binary_search nothing (pure solver) tol most tt = (tt, Ok (k, None, x)) ->
  ~ feas most /\ k = most / 2 /\ x = nothing.
Proof.
  intros most k x H Q. destruct (search_inv most H) as (j & best & E & J & LO & GB). rewrite E in Q. injection Q as ->.
  destruct GB as [(A & B & F)|(A & B)]; [discriminate B|]. injection B as -> ->.
  split; [|split; reflexivity]. destruct LO as [->|LO]; [lia|]. rewrite A in LO. exact LO.
Qed.
Lemma search_least : forall most k, 0 <= k <= most -> monotone solver tol most -> least solver tol k ->
  binary_search nothing (pure solver) tol most tt = (tt, Ok (k, Some (fst (solver k)), snd (solver k))).
Proof.
  intros most k K MO (K0 & KF & KL). assert (H : 0 <= most) by lia.
  destruct (search_returns most H) as [[[j [e|]] x] E].
  - destruct (search_sound most j e x H E) as (J & S & F & LO). assert (j = k).
    { destruct (Z.lt_trichotomy j k) as [C|[C|C]]; [|exact C|].
      - destruct (KL j ltac:(lia) F).
      - destruct LO as [->|LO]; [lia|]. destruct LO. apply (MO k (j - 1)); [lia|lia|exact KF]. }
    subst j. rewrite E, S. reflexivity.
  - destruct (search_fails most j x H E) as (NF & _). destruct NF. apply (MO k most); [lia|lia|exact KF].
Qed.
Lemma search_none : forall most, 0 <= most -> (forall j, 0 <= j <= most -> ~ feas j) ->
  binary_search nothing (pure solver) tol most tt = (tt, Ok (most / 2, None, nothing)).
Proof.
  intros most H N. destruct (search_returns most H) as [[[j [e|]] x] E].
  - destruct (search_sound most j e x H E) as (J & _ & F & _). destruct (N j J F).
  - destruct (search_fails most j x H E) as (_ & -> & ->). exact E.
Qed.

End S.

Section Runs.
Context {X : Type}.
Variable nothing : X.
Variable tol : R.

Lemma solve_quiet : forall ring es i best (o : opt X), timer_var o = false -> (forall j, ring j = false) ->
  exists o', solve tol ring i es best o = (o', (Some (fst (outcome tol es best)), snd (outcome tol es best))) /\ timer_var o' = false.
Proof.
  intros ring es. induction es as [|[e x] r IH]; intros i best o T R.
  - exists o. split; [reflexivity|exact T].
  - cbn [solve outcome fst]. rewrite T, (R i). cbn [orb timer_var]. destruct (Rlt_dec e tol).
    + eexists. split; [reflexivity|reflexivity].
    + apply IH; [reflexivity|exact R].
Qed.
(** If no timer rings the search sees what the optimiser finds. *)
Lemma quiet_loop : forall scripts rings fuel low high (o : opt X) best, timer_var o = false -> (forall k j, rings k j = false) ->
  snd (search_loop fuel (run tol scripts rings) tol low high o best) =
  snd (search_loop fuel (pure (fun k => outcome tol (evals (scripts k)) (optimum (scripts k)))) tol low high tt best).
Proof.
  intros scripts rings. induction fuel as [|f IH]; intros low high o best T R; [reflexivity|].
  cbn [search_loop]. destruct (low <=? high); [|reflexivity]. set (mid := low + (high - low) / 2).
  unfold run at 1, pure at 1.
  destruct (solve_quiet (rings mid) (evals (scripts mid)) 0 (optimum (scripts mid)) o T (R mid)) as (o' & E & T').
  rewrite E. cbn [fst snd]. destruct (Rlt_dec tol _); apply IH; assumption.
Qed.
Lemma quiet_search : forall scripts rings most (o : opt X), timer_var o = false -> (forall k j, rings k j = false) ->
  snd (compile_search nothing tol scripts rings most o) =
  snd (binary_search nothing (pure (fun k => outcome tol (evals (scripts k)) (optimum (scripts k)))) tol most tt).
Proof.
  intros scripts rings most o T R. unfold compile_search, binary_search. destruct (most <? 0); [reflexivity|]. apply quiet_loop; assumption.
Qed.

(** Once timer_var is set it stays set, also for later compilations. *)
Lemma solve_timer : forall ring es i best (o : opt X), timer_var o = true -> timer_var (fst (solve tol ring i es best o)) = true.
Proof.
  intros ring es. induction es as [|[e x] r IH]; intros i best o T; [exact T|]. cbn [solve]. rewrite T. cbn [orb timer_var].
  destruct (Rlt_dec e tol); reflexivity.
Qed.
Lemma loop_timer : forall scripts rings fuel low high (o : opt X) best, timer_var o = true ->
  timer_var (fst (search_loop fuel (run tol scripts rings) tol low high o best)) = true.
Proof.
  intros scripts rings. induction fuel as [|f IH]; intros low high o best T; [exact T|].
  cbn [search_loop]. destruct (low <=? high); [|exact T]. set (mid := low + (high - low) / 2).
  pose proof (solve_timer (rings mid) (evals (scripts mid)) 0 (optimum (scripts mid)) o T) as T'.
  unfold run at 1. destruct (solve tol (rings mid) 0 (evals (scripts mid)) (optimum (scripts mid)) o) as [o' [[e|] x]]; cbn [fst] in T'; [|exact T'].
  destruct (Rlt_dec tol e); apply IH; exact T'.
Qed.
Lemma timer_forever : forall scripts rings most (o : opt X), timer_var o = true ->
  timer_var (fst (compile_search nothing tol scripts rings most o)) = true.
Proof.
  intros scripts rings most o T. unfold compile_search, binary_search. destruct (most <? 0); [exact T|]. apply loop_timer. exact T.
Qed.
Lemma late_compilation : forall scripts rings most (o : opt X), timer_var o = true -> 0 <= most ->
  (forall k, exists e x r, evals (scripts k) = (e, x) :: r /\ (tol <= e)%R) ->
  snd (compile_search nothing tol scripts rings most o) = Err TypeError.
Proof.
  intros scripts rings most o T M E. unfold compile_search, binary_search.
  replace (most <? 0) with false by (symmetry; apply Z.ltb_ge; lia).
  rewrite Nat.add_comm. cbn [plus search_loop].
  replace (0 <=? most) with true by (symmetry; apply Z.leb_le; lia). unfold run at 1.
  set (mid := 0 + (most - 0) / 2). destruct (E mid) as (e & x & r & Q & L). rewrite Q. cbn [solve set_class_variables timer_var].
  rewrite T. cbn [orb]. destruct (Rlt_dec e tol); [lra|]. reflexivity.
Qed.
End Runs.

(** One layer is good enough; the run with no layer is cut by a timer. *)
Definition late_script (k : Z) : script nat := if k =? 1 then Script [((1 / 2)%R, 7%nat)] (0%R, 7%nat) else Script [(5%R, 3%nat)] (5%R, 3%nat).
Lemma loop_step : forall (Y St : Type) f (r : St -> Z -> St * (option R * Y)) tol low high st best,
  low <= high -> search_loop (S f) r tol low high st best =
  let mid := low + (high - low) / 2 in
  match r st mid with
  | (st', (None, _)) => (st', Err TypeError)
  | (st', (Some error, xi)) =>
      if Rlt_dec tol error then search_loop f r tol (mid + 1) high st' best
      else search_loop f r tol low (mid - 1) st' (mid, Some error, xi)
  end.
Proof. intros. cbn [search_loop]. replace (low <=? high) with true by (symmetry; apply Z.leb_le; lia). reflexivity. Qed.
Lemma loop_end : forall (Y St : Type) f (r : St -> Z -> St * (option R * Y)) tol low high st best,
  high < low -> search_loop (S f) r tol low high st best = (st, Ok best).
Proof. intros. cbn [search_loop]. replace (low <=? high) with false by (symmetry; apply Z.leb_gt; lia). reflexivity. Qed.
Lemma stale : compile_search 0%nat 1 late_script (fun k _ => k =? 0) 2 (Opt false None 0%nat)
  = (Opt true (Some (1 / 2)%R) 7%nat, Ok (0, Some (1 / 2)%R, 7%nat)).
Proof.
  unfold compile_search, binary_search. change (2 <? 0) with false. cbv iota. change (Z.to_nat 2 + 2)%nat with 4%nat.
  set (r := run 1 late_script (fun k _ => k =? 0)).
  assert (R1 : forall o, timer_var o = false -> r o 1 = (Opt false (Some (1 / 2)%R) 7%nat, (Some (1 / 2)%R, 7%nat))).
  { intros o T. unfold r, run, late_script. change (1 =? 1) with true. cbv iota. cbn [evals optimum solve]. rewrite T.
    change (1 =? 0) with false. cbn [orb timer_var]. destruct (Rlt_dec (1 / 2) 1) as [_|N]; [reflexivity|lra]. }
  assert (R0 : forall o, r o 0 = (Opt true (fun_solution o) (x_solution o), (fun_solution o, x_solution o))).
  { intros o. unfold r, run, late_script. change (0 =? 1) with false. cbv iota. cbn [evals optimum solve].
    change (0 =? 0) with true. rewrite Bool.orb_true_r. cbn [timer_var fun_solution x_solution].
    destruct (Rlt_dec 5 1) as [N|_]; [lra|reflexivity]. }
  rewrite loop_step by lia. change (0 + (2 - 0) / 2) with 1. cbv zeta. rewrite R1 by reflexivity.
  destruct (Rlt_dec 1 (1 / 2)) as [N|_]; [lra|]. change (1 - 1) with 0.
  rewrite loop_step by lia. change (0 + (0 - 0) / 2) with 0. cbv zeta. rewrite R0. cbn [fun_solution x_solution].
  destruct (Rlt_dec 1 (1 / 2)) as [N|_]; [lra|]. apply loop_end. lia.
Qed.
Lemma stale_solution : exists (scripts : Z -> script nat) rings o tol,
  compile_search 0%nat tol scripts rings 2 (Opt false None 0%nat) = (o, Ok (0, Some (1 / 2)%R, 7%nat)) /\
  (forall e x, In (e, x) (evals (scripts 0)) -> (tol < e)%R /\ x <> 7%nat) /\ (tol < fst (optimum (scripts 0%Z)))%R /\
  In ((1 / 2)%R, 7%nat) (evals (scripts 1)).
Proof.
  exists late_script, (fun k _ => k =? 0), (Opt true (Some (1 / 2)%R) 7%nat), 1%R. split; [exact stale|].
  unfold late_script. change (0 =? 1) with false. change (1 =? 1) with true. cbn [evals optimum fst].
  split; [|split; [lra|left; reflexivity]]. intros e x [E|[]]. injection E as <- <-. split; [lra|discriminate].
Qed.
