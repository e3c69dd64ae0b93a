(** Jobs and their status.
    Source: src/mqt/qudits/simulation/jobs/job.py and jobstatus.py.

    The status of a job is read from outside: [status k] is what the k-th call of status() gives.  Time is an
    integer number of ticks: [clock 0] is the start of the wait (line 91), [clock (S k)] is the time read after
    the k-th status.  Callbacks only observe. *)
From Coq Require Import Ascii String.
From Verif.Base Require Import Py.
Local Open Scope nat_scope.

(** jobstatus.py:6-15 *)
Inductive jstatus := INITIALIZING | QUEUED | VALIDATING | RUNNING | CANCELLED | DONE | ERROR.
Definition all_statuses : list jstatus := [INITIALIZING; QUEUED; VALIDATING; RUNNING; CANCELLED; DONE; ERROR].
Definition status_value (s : jstatus) : string :=
  match s with
  | INITIALIZING => "initializing" | QUEUED => "queued" | VALIDATING => "validating" | RUNNING => "running"
  | CANCELLED => "cancelled" | DONE => "done" | ERROR => "error"
  end.
(** jobstatus.py:17-32 (__str__, description) *)
Definition status_str (s : jstatus) : string :=
  match s with
  | INITIALIZING => "Job is being initialized" | QUEUED => "Job is waiting in the queue"
  | VALIDATING => "Job is being validated" | RUNNING => "Job is actively running"
  | CANCELLED => "Job has been cancelled" | DONE => "Job has successfully run" | ERROR => "Job incurred an error"
  end.
Definition status_eqb (a b : jstatus) : bool := String.eqb (status_value a) (status_value b).

(** str.lower() on ASCII letters; other characters are left as they are. *)
Definition lower_char (c : ascii) : ascii :=
  let n := nat_of_ascii c in if (65 <=? n) && (n <=? 90) then ascii_of_nat (n + 32) else c.
Fixpoint lower (s : string) : string :=
  match s with EmptyString => EmptyString | String c r => String (lower_char c) (lower r) end.
(** jobstatus.py:34-51 (from_string) *)
Definition from_string (s : string) : res jstatus :=
  match find (fun st => String.eqb (status_value st) (lower s)) all_statuses with
  | Some st => Ok st
  | None => Err ValueError
  end.
(** jobstatus.py:53-61, 64 *)
Definition JOB_FINAL_STATES : list jstatus := [DONE; CANCELLED; ERROR].
Definition is_final (s : jstatus) : bool := existsb (status_eqb s) JOB_FINAL_STATES.
Definition non_final_states : list jstatus := filter (fun s => negb (is_final s)) all_statuses.

(** job.py:60-74: one call of status() each.  [st] is its outcome. *)
Definition job_done (st : res jstatus) : res bool := let? s := st in Ok (status_eqb s DONE).
Definition job_running (st : res jstatus) : res bool := let? s := st in Ok (status_eqb s RUNNING).
Definition job_cancelled (st : res jstatus) : res bool := let? s := st in Ok (status_eqb s CANCELLED).
Definition in_final_state (st : res jstatus) : res bool := let? s := st in Ok (existsb (status_eqb s) [DONE; ERROR]).

(** job.py:76-103 (wait_for_final_state): the statuses handed to the callback, and the number of the status
    call that ended the wait or the exception. *)
Section Wait.
  Variables (status : nat -> res jstatus) (clock : nat -> Z) (timeout : option Z).
  Definition expired (k : nat) : bool :=
    match timeout with Some t => (t <=? clock (S k) - clock O)%Z | None => false end.
  Fixpoint wait_loop (fuel k : nat) : list jstatus * res nat :=
    match fuel with
    | O => ([], Err OutOfFuel)
    | S f =>
        match status k with
        | Err e => ([], Err e)
        | Ok s =>
            if existsb (status_eqb s) [DONE; ERROR] then ([], Ok k)
            else if expired k then ([], Err JobTimeoutError)
            else let '(cb, r) := wait_loop f (S k) in (s :: cb, r)
        end
    end.
  Definition wait_for_final_state (fuel : nat) : list jstatus * res nat := wait_loop fuel 0.
End Wait.

(** job.py:129-131: the status() of the class itself, which no backend overrides. *)
Definition base_status : nat -> res jstatus := fun _ => Err NotImplementedError.

(** job.py:32-47, 49-58, 109-115.  [hash] stands for str(hash((os.getpid(), ms))). *)
Record job (B V : Type) := Job { j_id : string; j_backend : option B; j_result : option V }.
Arguments Job {B V}. Arguments j_id {B V}. Arguments j_backend {B V}. Arguments j_result {B V}.
Section JobObject.
  Context {B V : Type}.
  Variable hash : Z -> Z -> string.
  Definition new_job (b : option B) (id : string) (pid ms : Z) : job B V :=
    {| j_id := if String.eqb id "auto" then hash pid ms else id; j_backend := b; j_result := None |}.
  Definition job_backend (j : job B V) : res B := match j_backend j with Some b => Ok b | None => Err JobError end.
  Definition job_result (j : job B V) : res V := match j_result j with Some r => Ok r | None => Err AttributeError end.
  Definition set_result (j : job B V) (r : V) : job B V :=
    {| j_id := j_id j; j_backend := j_backend j; j_result := Some r |}.
End JobObject.
