(** What is in the files results are saved to (C115).  [target], the file a call is about, is in SaveSpec.v.  The calls are
    about any vectors (V) and any values of shots (S); [join] is the path operator of pathlib, [fit] and [as_int] are what
    numpy stores for a vector and for a shot, [can_open] says whether a file can be opened for writing. *)
From Verif.Base Require Import Py PyFacts.
From Verif.Sim Require Import SaveModel SaveSpec SaveProofs.
Local Open Scope string_scope.
Local Open Scope list_scope.

(** ** C115: a file has the results of the last save to it *)

(** States of one shape are saved whatever was in the file before, one row per state and in order, and stay there whatever is
    saved to other files later, whether those calls succeed or raise. *)
Theorem C115_states : forall V S join user fit as_int can_open (shape : V -> nat) names v0 vs path name (fs : files V) (h : list (call V S)),
  (forall v w, shape w = shape v -> fit v w = Ok w) -> (forall v, In v vs -> shape v = shape v0) ->
  let c := SaveStates (S := S) names (v0 :: vs) path name in
  can_open (target join user c) = true -> (forall c', In c' h -> target join user c' <> target join user c) ->
  exists fs1, save_full_states join user fit can_open names (v0 :: vs) path name fs = (Ok tt, fs1) /\
    history join user fit as_int can_open fs1 h (target join user c) = Some (StateRows (combine (map names (seq 0 (List.length (v0 :: vs)))) (v0 :: vs))).
Proof. intros V S join user fit as_int can_open. exact (states_kept join user fit as_int can_open). Qed.
Print Assumptions C115_states.

(** Shots that are integers likewise: row i has the number i and the i-th shot. *)
Theorem C115_shots : forall V S join user (fit : V -> V -> res V) as_int can_open (l : list S) zs path name (fs : files V) (h : list (call V S)),
  Forall2 (fun s z => as_int s = Ok z) l zs -> can_open (join path name) = true ->
  (forall c, In c h -> target join user c <> join path name) ->
  exists fs1 rows, save_shots join as_int can_open l path name fs = (Ok tt, fs1) /\
    history join user fit as_int can_open fs1 h (join path name) = Some (ShotRows rows) /\
    List.length rows = List.length l /\ forall i z, nth_error zs i = Some z -> nth_error rows i = Some (Z.of_nat i, z).
Proof. intros V S join user fit as_int can_open. exact (shots_kept join user fit as_int can_open). Qed.
Print Assumptions C115_shots.

(** A file no call is about keeps what it has. *)
Theorem C115_others : forall V S join user fit as_int can_open (h : list (call V S)) (fs : files V) q,
  (forall c, In c h -> target join user c <> q) -> history join user fit as_int can_open fs h q = fs q.
Proof. intros V S join user fit as_int can_open. exact (after_other join user fit as_int can_open). Qed.
Print Assumptions C115_others.

(** No states at all raise IndexError and a file that cannot be opened FileNotFoundError; no file changes. *)
Theorem C115_rejected : forall V S join user (fit : V -> V -> res V) as_int can_open names vs path name (l : list S) d n (fs : files V),
  (vs = [] -> save_full_states join user fit can_open names vs path name fs = (Err IndexError, fs)) /\
  (vs <> [] -> can_open (target join user (SaveStates (S := S) names vs path name)) = false ->
     save_full_states join user fit can_open names vs path name fs = (Err FileNotFoundError, fs)) /\
  (can_open (join d n) = false -> save_shots join as_int can_open l d n fs = (Err FileNotFoundError, fs)).
Proof. intros V S join user fit as_int can_open. exact (rejected join user fit as_int can_open). Qed.
Print Assumptions C115_rejected.

(** A save that raises does not leave the file as it was: the file is emptied before the rows are converted, so one state of
    another shape, or one shot that is no integer, costs the results saved there before. *)
Theorem C115_states_lost_refuted : forall V S join user fit can_open names v0 vs v e path name (fs : files V), In v (v0 :: vs) -> fit v0 v = Err e ->
  can_open (target join user (SaveStates (S := S) names (v0 :: vs) path name)) = true ->
  exists e' fs1, save_full_states join user fit can_open names (v0 :: vs) path name fs = (Err e', fs1) /\
    fs1 (target join user (SaveStates (S := S) names (v0 :: vs) path name)) = Some Empty.
Proof. intros V S join user fit can_open. exact (lost (S := S) join user fit can_open). Qed.
Print Assumptions C115_states_lost_refuted.
Theorem C115_shots_lost_refuted : forall V S join as_int can_open (l : list S) s e path name (fs : files V), In s l -> as_int s = Err e -> can_open (join path name) = true ->
  exists e' fs1, save_shots join as_int can_open l path name fs = (Err e', fs1) /\ fs1 (join path name) = Some Empty.
Proof. intros V S join as_int can_open l s e path name fs. exact (lost_shots join "" as_int can_open l s e path name fs). Qed.
Print Assumptions C115_shots_lost_refuted.

(** Three shots saved to one file and two states to another are both there; saving two states of different shapes to the
    second file raises, leaves the shots and loses the states. *)
Definition case_fit (v w : list Z) : res (list Z) := if Nat.eqb (List.length w) (List.length v) then Ok w else Err ValueError.
Definition case_join (a b : string) : string := (a ++ "/" ++ b)%string.
Definition case_name (k : nat) : string := if Nat.eqb k 0 then "u" else "v".
Definition case_after := history case_join "me" case_fit (fun z : Z => Ok z) (fun _ => true).
Example C115_case :
  let h := [SaveShots [2; 0; 2]%Z "data" "shots.h5"; SaveStates case_name [[1; 0]; [0; 1]]%Z (Some "data") None] in
  let bad := SaveStates case_name [[1; 0]; [0; 1; 0]]%Z (Some "data") None in
  case_after (fun _ => None) h "data/shots.h5" = Some (ShotRows [(0, 2); (1, 0); (2, 2)]%Z) /\
  case_after (fun _ => None) h "data/experiment_states.h5" = Some (StateRows [("u", [1; 0]%Z); ("v", [0; 1]%Z)]) /\
  case_after (fun _ => None) (h ++ [bad]) "data/shots.h5" = Some (ShotRows [(0, 2); (1, 0); (2, 2)]%Z) /\
  case_after (fun _ => None) (h ++ [bad]) "data/experiment_states.h5" = Some Empty /\
  (forall v w, List.length w = List.length v -> case_fit v w = Ok w).
Proof. repeat split; try (vm_compute; reflexivity). intros v w H. unfold case_fit. rewrite H, Nat.eqb_refl. reflexivity. Qed.
