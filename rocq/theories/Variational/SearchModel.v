(** The layer search of the variational compiler and the runs of its optimiser.
    Source: src/mqt/qudits/compiler/twodit/variational_twodit_compilation/ansatz/ansatz_solve_n_search.py,
    opt/optimizer.py and layered_compilation.py.

    The optimiser is scipy's dual_annealing.  One run of it is a script: the values the objective would take
    at the points where it is evaluated, in order, and the optimum it returns if nothing interrupts it.
    Threads: [run] waits for the thread that solves; the timers started by earlier runs are not cancelled,
    so a timer can set Optimizer.timer_var before any evaluation ([ring]).  Errors are exact reals, inf is
    [None]; a point is a value of type [X] (with [none] for the empty list). *)
From Coq Require Import Reals.
From Verif.Base Require Import Py.
Local Open Scope nat_scope.

Section Search.
Context {X St : Type}.
Variable nothing : X.  (* [] *)

(** ansatz_solve_n_search.py:29-40: the loop; [run] is any function with effects on the state.  What the
    run reports as error is a float, or [None] for the empty list, which cannot be compared with a float. *)
Fixpoint search_loop (fuel : nat) (run : St -> Z -> St * (option R * X)) (tol : R) (low high : Z) (st : St)
    (best : Z * option R * X) : St * res (Z * option R * X) :=
  match fuel with
  | O => (st, Err OutOfFuel)
  | S f =>
      if (low <=? high)%Z then
        let mid := (low + (high - low) / 2)%Z in
        match run st mid with
        | (st', (None, _)) => (st', Err TypeError)
        | (st', (Some error, xi)) =>
            if Rlt_dec tol error then search_loop f run tol (mid + 1) high st' best
            else search_loop f run tol low (mid - 1) st' (mid, Some error, xi)
        end
      else (st, Ok best)
  end.
(** ansatz_solve_n_search.py:17-42 (binary_search_compile); a best error of inf is [None].  The interval
    shrinks in every round, so max_num_layer + 2 rounds are enough. *)
Definition binary_search (run : St -> Z -> St * (option R * X)) (tol : R) (max_num_layer : Z) (st : St) : St * res (Z * option R * X) :=
  if (max_num_layer <? 0)%Z then (st, Err ValueError)
  else search_loop (Z.to_nat max_num_layer + 2) run tol 0 max_num_layer st ((0 + (max_num_layer - 0) / 2)%Z, None, nothing).
End Search.

Section Optimizer.
Context {X : Type}.
Variable nothing : X.

(** optimizer.py:21-29: the class attributes that change; FUN_SOLUTION is a float or [] ([None]). *)
Record opt := Opt { timer_var : bool; fun_solution : option R; x_solution : X }.
(** optimizer.py:31-46 (set_class_variables). *)
Definition set_class_variables (o : opt) : opt := Opt (timer_var o) None nothing.

(** One run of the optimiser: (value at the point, the point) of each evaluation, and (opt.fun, opt.x). *)
Record script := Script { evals : list (R * X); optimum : R * X }.

(** optimizer.py:86-95 (obj_fun_core) inside 115-143 (solve_anneal), with [ring i] telling whether a timer
    fires before evaluation i: the state afterwards and what is put into the queue. *)
Fixpoint solve (tol : R) (ring : nat -> bool) (i : nat) (es : list (R * X)) (best : R * X) (o : opt) : opt * (option R * X) :=
  match es with
  | [] => (o, (Some (fst best), snd best))
  | (e, x) :: r =>
      let o := Opt (timer_var o || ring i) (fun_solution o) (x_solution o) in
      if Rlt_dec e tol then (Opt (timer_var o) (Some e) x, (Some e, x))
      else if timer_var o then (o, (fun_solution o, x_solution o))
      else solve tol ring (S i) r best o
  end.
(** ansatz_solve_n_search.py:45-62 (run) for the MS, LS and CU ansatz. *)
Definition run (tol : R) (scripts : Z -> script) (rings : Z -> nat -> bool) (o : opt) (layers : Z) : opt * (option R * X) :=
  solve tol (rings layers) 0 (evals (scripts layers)) (optimum (scripts layers)) o.

(** layered_compilation.py:30-32: the search as the compiler calls it. *)
Definition compile_search (tol : R) (scripts : Z -> script) (rings : Z -> nat -> bool) (layers : Z) (o : opt) : opt * res (Z * option R * X) :=
  binary_search nothing (run tol scripts rings) tol layers (set_class_variables o).
End Optimizer.
Arguments opt : clear implicits.
Arguments script : clear implicits.
