(** Properties of the layer search of the variational compiler (C46) and of its time limit (C70).  The
    vocabulary is in SearchSpec.v.  [binary_search nothing run tol most st] is binary_search_compile with at
    most [most] layers; the result is (layers, error or None for inf, parameters). *)
From Coq Require Import Reals Lra Lia ZArith.
From Verif.Base Require Import Py.
From Verif.Variational Require Import SearchModel SearchSpec SearchProofs.
Local Open Scope Z_scope.

(** ** C46: the least number of layers *)

(** If more layers never hurt, the search returns the least number of layers that is good enough, with what
    the optimiser found for it. *)
Theorem C46_least_layers : forall (X : Type) (nothing : X) solver tol most k,
  0 <= k <= most -> monotone solver tol most -> least solver tol k ->
  binary_search nothing (pure solver) tol most tt = (tt, Ok (k, Some (fst (solver k)), snd (solver k))).
Proof. exact (@search_least). Qed.
Print Assumptions C46_least_layers.

(** Without any assumption on the optimiser: what is returned with an error was found by the optimiser for
    this number of layers, is good enough, and one layer less is not. *)
Theorem C46_returned_is_good_enough : forall (X : Type) (nothing : X) solver tol most k e x, 0 <= most ->
  binary_search nothing (pure solver) tol most tt = (tt, Ok (k, Some e, x)) ->
  0 <= k <= most /\ solver k = (e, x) /\ feasible solver tol k /\ (k = 0 \/ ~ feasible solver tol (k - 1)).
Proof. exact (@search_sound). Qed.
Print Assumptions C46_returned_is_good_enough.
(** It always ends, and gives no error value only if the largest number of layers was tried in vain. *)
Theorem C46_ends : forall (X : Type) (nothing : X) solver tol most, 0 <= most ->
  exists best, binary_search nothing (pure solver) tol most tt = (tt, Ok best).
Proof. exact (@search_returns). Qed.
Print Assumptions C46_ends.
Theorem C46_gives_up_only_if : forall (X : Type) (nothing : X) solver tol most k x, 0 <= most ->
  binary_search nothing (pure solver) tol most tt = (tt, Ok (k, None, x)) ->
  ~ feasible solver tol most /\ k = most / 2 /\ x = nothing.
Proof. exact (@search_fails). Qed.
Print Assumptions C46_gives_up_only_if.
Theorem C46_negative : forall (X : Type) (nothing : X) tol (St : Type) (r : St -> Z -> St * (option R * X)) st most,
  most < 0 -> binary_search nothing r tol most st = (st, Err ValueError).
Proof. exact (@search_negative). Qed.
Print Assumptions C46_negative.

(** The code violates the claim that a failure is visible: if no number of layers is good enough it returns
    normally, with half the largest number of layers and no parameters. *)
Theorem C46_failure_refuted : forall (X : Type) (nothing : X) solver tol most, 0 <= most ->
  (forall j, 0 <= j <= most -> ~ feasible solver tol j) ->
  binary_search nothing (pure solver) tol most tt = (tt, Ok (most / 2, None, nothing)).
Proof. exact (@search_none). Qed.
Print Assumptions C46_failure_refuted.

(** The optimiser as the compiler runs it, when no time limit passes. *)
Theorem C46_compiler : forall (X : Type) (nothing : X) tol scripts rings most (o : opt X),
  timer_var o = false -> (forall k j, rings k j = false) ->
  snd (compile_search nothing tol scripts rings most o) =
  snd (binary_search nothing (pure (fun k => outcome tol (evals (scripts k)) (optimum (scripts k)))) tol most tt).
Proof. exact (@quiet_search). Qed.
Print Assumptions C46_compiler.

Definition demo_solver (k : Z) : R * Z := ((if (k <? 3)%Z then 1%R else 0%R), 10 * k).
Example C46_case : monotone demo_solver (1 / 2) 7 /\ least demo_solver (1 / 2) 3.
Proof.
  unfold monotone, least, feasible, demo_solver. cbn [fst]. split; [|split; [lia|split; [cbn; lra|]]].
  - intros j k J K. destruct (Z.ltb_spec j 3), (Z.ltb_spec k 3); try lra. lia.
  - intros j J. destruct (Z.ltb_spec j 3); [lra|lia].
Qed.
Example C46_case_none : forall j, 0 <= j <= 4 -> ~ feasible (fun _ => (1%R, tt)) (1 / 2) j.
Proof. intros j _. unfold feasible. cbn. lra. Qed.
Example C46_case_quiet : timer_var (Opt false None 0) = false /\ outcome 1 [(5%R, 1); ((1 / 2)%R, 2)] (0%R, 3) = ((1 / 2)%R, 2).
Proof. split; [reflexivity|]. cbn. destruct (Rlt_dec 5 1); [lra|]. destruct (Rlt_dec (1 / 2) 1); [reflexivity|lra]. Qed.

(** ** C70: the time limit *)

(** The claim is that a run stopped by the time limit counts as a failed run and does not affect others.
    The code violates it.  The flag set by the timer is never cleared: *)
Theorem C70_flag_stays_refuted : forall (X : Type) (nothing : X) tol scripts rings most (o : opt X),
  timer_var o = true -> timer_var (fst (compile_search nothing tol scripts rings most o)) = true.
Proof. exact (@timer_forever). Qed.
Print Assumptions C70_flag_stays_refuted.
(** so after one run over the limit every later compilation fails, whatever the optimiser could find, unless
    the first point it looks at is good enough. *)
Theorem C70_later_compilations_refuted : forall (X : Type) (nothing : X) tol scripts rings most (o : opt X),
  timer_var o = true -> 0 <= most -> (forall k, exists e x r, evals (scripts k) = (e, x) :: r /\ (tol <= e)%R) ->
  snd (compile_search nothing tol scripts rings most o) = Err TypeError.
Proof. exact (@late_compilation). Qed.
Print Assumptions C70_later_compilations_refuted.
(** And a run stopped by the limit reports the solution of an earlier run, as if found for its own number of
    layers: here 0 layers are reported good enough with the parameters found for 1 layer. *)
Theorem C70_stale_solution_refuted : exists (scripts : Z -> script nat) rings o tol,
  compile_search 0%nat tol scripts rings 2 (Opt false None 0%nat) = (o, Ok (0, Some (1 / 2)%R, 7%nat)) /\
  (forall e x, In (e, x) (evals (scripts 0)) -> (tol < e)%R /\ x <> 7%nat) /\ (tol < fst (optimum (scripts 0%Z)))%R /\
  In ((1 / 2)%R, 7%nat) (evals (scripts 1)).
Proof. exact stale_solution. Qed.
Print Assumptions C70_stale_solution_refuted.
Example C70_case : forall k, exists e x r, evals ((fun k => Script [(5%R, k); (0%R, 2)] (0%R, 2)) k) = (e, x) :: r /\ (1 <= e)%R.
Proof. intros k. do 3 eexists. split; [reflexivity|lra]. Qed.
