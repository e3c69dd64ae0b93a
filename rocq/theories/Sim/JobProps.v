(** Properties of jobs (C43, C64).  The vocabulary is in JobSpec.v.
    [wait_for_final_state status clock timeout fuel] is the wait, cut after [fuel] status queries (then it
    gives Err OutOfFuel); it gives the statuses passed to the callback and the number of the last query. *)
From Coq Require Import String.
From Verif.Base Require Import Py.
From Verif.Sim Require Import JobModel JobSpec JobProofs.
Local Open Scope nat_scope.

(** ** C43: waiting for the final state *)

(** If the first final status is DONE or ERROR and comes before the time limit, the wait returns at exactly
    this status, having told the callback every earlier one. *)
Theorem C43_ends_at_the_first_final_status : forall s clock timeout k fuel,
  first_final s k -> s k <> CANCELLED -> (forall i, i < k -> ~ late clock timeout i) -> k < fuel ->
  wait_for_final_state (fun i => Ok (s i)) clock timeout fuel = (map s (seq 0 k), Ok k).
Proof. exact wait_first_final. Qed.
Print Assumptions C43_ends_at_the_first_final_status.

(** The wait returns only at DONE or ERROR, never later than the first of them. *)
Theorem C43_returns_exactly_when : forall s clock timeout fuel cb k,
  wait_for_final_state (fun i => Ok (s i)) clock timeout fuel = (cb, Ok k) <->
  (k < fuel /\ (s k = DONE \/ s k = ERROR) /\
   (forall i, i < k -> s i <> DONE /\ s i <> ERROR /\ ~ late clock timeout i) /\ cb = map s (seq 0 k)).
Proof. exact wait_returns. Qed.
Print Assumptions C43_returns_exactly_when.

(** It raises JobTimeoutError exactly when the limit passes before DONE or ERROR was seen. *)
Theorem C43_times_out_exactly_when : forall s clock timeout fuel,
  snd (wait_for_final_state (fun i => Ok (s i)) clock timeout fuel) = Err JobTimeoutError <->
  exists k, k < fuel /\ late clock timeout k /\ (forall i, i < k -> ~ late clock timeout i) /\
            forall i, i <= k -> s i <> DONE /\ s i <> ERROR.
Proof. exact wait_timeout. Qed.
Print Assumptions C43_times_out_exactly_when.

(** With a time limit the wait always ends, after at most limit / wait queries. *)
Theorem C43_limit_bounds_the_wait : forall s clock t wait n fuel,
  sleeps clock wait -> (0 < wait)%Z -> (t <= Z.of_nat n * wait)%Z -> n <= fuel -> 0 < fuel ->
  snd (wait_for_final_state (fun i => Ok (s i)) clock (Some t) fuel) <> Err OutOfFuel.
Proof. exact wait_bounded. Qed.
Print Assumptions C43_limit_bounds_the_wait.

(** Violation: without a limit, waiting for a job that gets cancelled never ends. *)
Theorem C43_cancelled_jobs_refuted : forall s clock n fuel,
  (forall i, i < n -> s i <> DONE /\ s i <> ERROR) -> (forall i, n <= i -> s i = CANCELLED) ->
  snd (wait_for_final_state (fun i => Ok (s i)) clock None fuel) = Err OutOfFuel.
Proof. exact wait_cancelled_forever. Qed.
Print Assumptions C43_cancelled_jobs_refuted.

(** Violation: with a limit, the wait for a cancelled job runs into the limit. *)
Theorem C43_cancelled_jobs_time_out_refuted : forall s clock t wait n fuel,
  (forall i, i < n -> s i <> DONE /\ s i <> ERROR) -> (forall i, n <= i -> s i = CANCELLED) ->
  sleeps clock wait -> (0 < wait)%Z -> (t <= Z.of_nat fuel * wait)%Z -> 0 < fuel ->
  snd (wait_for_final_state (fun i => Ok (s i)) clock (Some t) fuel) = Err JobTimeoutError.
Proof. exact wait_cancelled_timeout. Qed.
Print Assumptions C43_cancelled_jobs_time_out_refuted.

(** The two notions of final state of the library differ exactly on CANCELLED. *)
Theorem C43_is_final_and_non_final : forall s,
  (is_final s = true <-> final s) /\ (In s non_final_states <-> ~ final s).
Proof. exact (fun s => conj (is_final_spec s) (non_final_spec s)). Qed.
Print Assumptions C43_is_final_and_non_final.
Theorem C43_in_final_state_disagrees_refuted : forall s,
  (exists b, in_final_state (Ok s) = Ok b /\ b <> is_final s) <-> s = CANCELLED.
Proof. exact final_disagree. Qed.
Print Assumptions C43_in_final_state_disagrees_refuted.

(** Violation: the jobs the backends return use the class Job itself, whose status raises: no query and no
    wait ever works on them. *)
Theorem C43_returned_jobs_have_no_status_refuted : forall clock timeout fuel, 0 < fuel ->
  wait_for_final_state base_status clock timeout fuel = ([], Err NotImplementedError).
Proof. exact base_wait. Qed.
Print Assumptions C43_returned_jobs_have_no_status_refuted.
Theorem C43_queries_of_returned_jobs_refuted :
  job_done (base_status 0) = Err NotImplementedError /\ job_running (base_status 0) = Err NotImplementedError /\
  job_cancelled (base_status 0) = Err NotImplementedError /\ in_final_state (base_status 0) = Err NotImplementedError.
Proof. exact job_queries_fail. Qed.
Print Assumptions C43_queries_of_returned_jobs_refuted.

(** What the queries say when the status can be read. *)
Theorem C43_queries : forall s,
  (exists b, job_done (Ok s) = Ok b /\ (b = true <-> s = DONE)) /\ (exists b, job_running (Ok s) = Ok b /\ (b = true <-> s = RUNNING)) /\
  (exists b, job_cancelled (Ok s) = Ok b /\ (b = true <-> s = CANCELLED)) /\ (exists b, in_final_state (Ok s) = Ok b /\ (b = true <-> s = DONE \/ s = ERROR)).
Proof. exact queries_spec. Qed.
Print Assumptions C43_queries.

(** A job that is queued, runs and finishes; ticks of 5, limit 60. *)
Example C43_case :
  let s k := nth k [QUEUED; RUNNING; RUNNING] DONE in let clock k := (5 * Z.of_nat k)%Z in
  first_final s 3 /\ s 3 <> CANCELLED /\ (forall i, i < 3 -> ~ late clock (Some 60%Z) i) /\ sleeps clock 5 /\
  wait_for_final_state (fun i => Ok (s i)) clock (Some 60%Z) 10 = ([QUEUED; RUNNING; RUNNING], Ok 3) /\
  snd (wait_for_final_state (fun i => Ok (s i)) clock (Some 10%Z) 10) = Err JobTimeoutError.
Proof.
  repeat split; try discriminate.
  - now left.
  - intros i H [E | [E | E]]; destruct i as [| [| [| i]]]; try discriminate E; lia.
  - intros i H. cbn [late]. lia.
  - intros k. lia.
Qed.
Example C43_case_cancelled :
  let s k := nth k [QUEUED; RUNNING] CANCELLED in
  (forall i, i < 2 -> s i <> DONE /\ s i <> ERROR) /\ (forall i, 2 <= i -> s i = CANCELLED) /\ first_final s 2.
Proof.
  repeat split.
  - destruct i as [| [| i]]; try discriminate; lia.
  - destruct i as [| [| i]]; try discriminate; lia.
  - intros [| [| [| i]]] H; try lia; reflexivity.
  - right. now left.
  - intros i H [E | [E | E]]; destruct i as [| [| i]]; try discriminate E; lia.
Qed.

(** ** C64: job objects *)

(** result() gives the last result that was set; setting results changes nothing else. *)
Theorem C64_result_is_the_last_set : forall (B V : Type) (j : job B V) rs r,
  job_result (fold_left set_result (rs ++ [r]) j) = Ok r.
Proof. exact @job_result_last. Qed.
Print Assumptions C64_result_is_the_last_set.
Theorem C64_identity_is_kept : forall (B V : Type) (j : job B V) rs,
  j_id (fold_left set_result rs j) = j_id j /\ j_backend (fold_left set_result rs j) = j_backend j.
Proof. exact @job_keeps. Qed.
Print Assumptions C64_identity_is_kept.

(** Violation of "a unique id identifying the job": two jobs of one process in the same millisecond get the
    same identifier, whatever the hash function. *)
Theorem C64_ids_are_not_unique_refuted : forall (B V : Type) hash (b b' : option B) pid ms,
  j_id (new_job (V := V) hash b "auto" pid ms) = j_id (new_job (V := V) hash b' "auto" pid ms).
Proof. exact @job_ids_coincide. Qed.
Print Assumptions C64_ids_are_not_unique_refuted.

(** Statuses are read back from their value in any capitalisation, and from nothing else. *)
Theorem C64_status_from_string : forall x s, from_string x = Ok s <-> spells x (status_value s).
Proof. exact from_string_spells. Qed.
Print Assumptions C64_status_from_string.
Theorem C64_status_from_other_strings : forall x, (forall s, ~ spells x (status_value s)) <-> from_string x = Err ValueError.
Proof. exact from_string_not_spells. Qed.
Print Assumptions C64_status_from_other_strings.
Theorem C64_values_are_different : forall a b, status_value a = status_value b -> a = b.
Proof. exact status_value_inj. Qed.
Print Assumptions C64_values_are_different.
(** Violation of reading back the printed form: from_string (str s) always fails. *)
Theorem C64_printed_status_refuted : forall s, from_string (status_str s) = Err ValueError.
Proof. exact str_round_trip. Qed.
Print Assumptions C64_printed_status_refuted.

Example C64_case : from_string "DoNe" = Ok DONE /\ from_string "finished" = Err ValueError /\
  job_result (new_job (B := nat) (V := nat) (fun _ _ => "1"%string) (Some 0) "auto" 1 2) = Err AttributeError /\
  job_backend (new_job (B := nat) (V := nat) (fun _ _ => "1"%string) None "a" 1 2) = Err JobError.
Proof. repeat split. Qed.
