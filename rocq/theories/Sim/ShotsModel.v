(** Stochastic simulation: shots, worker processes, measurement, saved files.
    Source: src/mqt/qudits/simulation/backends/stochastic_sim.py, save_info.py:15-76.

    What Python and numpy do is modelled as follows.
    - multiprocessing.Pool.map cuts the argument list into chunks of ceil(len / (4 * processes)) elements
      (multiprocessing/pool.py, _map_async) and pickles every chunk on its own; within a chunk all arguments are
      the same object, so the generator of the factory goes on from shot to shot, and every chunk starts from the
      state the generator had in the parent process.
    - Which worker takes a chunk and when a shot is measured is up to the scheduler: [pid c] is the process of
      chunk number c, [ms i] the time in milliseconds at shot number i.
    - If several shots raise, the exception of the first one in order is reported here (Python reports the first
      one to arrive). *)
From Coq Require Import Reals Rdefinitions.
From Verif.Base Require Import Py Cplx.
From Verif.Sim Require Import BackendModel.
Local Open Scope list_scope.
Local Open Scope nat_scope.

(** multiprocessing/pool.py (_map_async): chunksize, extra = divmod(len, 4 * processes); + 1 if extra *)
Definition chunksize (n procs : nat) : nat :=
  if Nat.eqb (n mod (procs * 4)) 0 then n / (procs * 4) else S (n / (procs * 4)).
(** Consecutive pieces of [size] elements. *)
Fixpoint chunks_ {A} (fuel size : nat) (l : list A) : list (list A) :=
  match fuel with
  | O => []
  | S f => match l with [] => [] | _ => firstn size l :: chunks_ f size (skipn size l) end
  end.
Definition chunks {A} (size : nat) (l : list A) : list (list A) := chunks_ (List.length l) size l.

(** rng.choice(n, p): cdf = cumsum(p) / sum(p); searchsorted(cdf, u, side="right") for a uniform u. *)
Fixpoint search_right (acc total u : R) (ps : list R) : nat :=
  match ps with
  | [] => 0
  | p :: r => if Rlt_dec u ((acc + p) / total) then 0 else S (search_right (acc + p) total u r)
  end.
Definition total (ps : list R) : R := fold_right Rplus 0%R ps.
(** numpy refuses probabilities whose sum is off by more than the square root of the float epsilon, 2^-26. *)
Definition tolerance : R := (1 / 67108864)%R.

Definition vec := list C.
Definition probabilities (v : vec) : list R := map Cnorm2 v.

Inductive outcome := OIndex (i : nat) | OState (v : vec).
(** What is written to the file. *)
Inductive saved := States (vs : list outcome) | Shots (rows : list (nat * outcome)).

(** Python's bool() *)
Definition truthy (v : oval) : bool :=
  match v with
  | VNone => false | VInt z => negb (z =? 0)%Z | VBool b => b | VStr s => negb (String.eqb s "") | VModel _ => true
  end.

Section Stochastic.
Context {S : Type}.
(** [uniform seed]: the number in [0, 1) that default_rng(seed) draws first. *)
Variables (seed : Z -> Z -> Z) (uniform : Z -> R) (pid : nat -> Z) (ms : nat -> Z).
(** Lines 66-70 without the measurement: a noisy circuit from the factory in state s, executed.
    Lines 73-76 without the measurement: the i-th execution of the other simulator. *)
Variables (noisy_tn : S -> res (vec * S)) (noisy_mi : nat -> res vec).

(** stochastic_sim.py:20-23 (generate_seed), 26-30 (measure_state) *)
Definition measure_state (p t : Z) (v : vec) : res nat :=
  let ps := probabilities v in
  if Rlt_dec tolerance (Rabs (total ps - 1)) then Err ValueError
  else Ok (search_right 0 (total ps) (uniform (seed p t)) ps).
Definition finish (full : bool) (p t : Z) (v : vec) : res outcome :=
  if full then Ok (OState v) else let? i := measure_state p t v in Ok (OIndex i).

(** The shots of one chunk, one after the other. *)
Fixpoint chunk_tn (full : bool) (p : Z) (s : S) (is : list nat) : res (list outcome) :=
  match is with
  | [] => Ok []
  | i :: r =>
      match noisy_tn s with
      | Err e => Err e
      | Ok (v, s') => let? o := finish full p (ms i) v in let? os := chunk_tn full p s' r in Ok (o :: os)
      end
  end.
Fixpoint chunk_mi (full : bool) (p : Z) (is : list nat) : res (list outcome) :=
  match is with
  | [] => Ok []
  | i :: r => let? v := noisy_mi i in let? o := finish full p (ms i) v in let? os := chunk_mi full p r in Ok (o :: os)
  end.
(** pool.map: chunk number c and following. *)
Fixpoint pool_map (work : Z -> list nat -> res (list outcome)) (c : nat) (cs : list (list nat)) : res (list outcome) :=
  match cs with
  | [] => Ok []
  | is :: r => let? a := work (pid c) is in let? b := pool_map work (Datatypes.S c) r in Ok (a ++ b)
  end.

(** stochastic_sim.py:33-63 (stochastic_simulation) without the file.  [procs] is cpu_count(), [s0] the state of
    the generator of the factory built on line 51. *)
Definition stochastic_simulation (procs : nat) (s0 : S) (b : backend) : res (list outcome) :=
  match b_shots b with
  | VInt z =>
      let n := Z.to_nat z in
      let cs := chunks (chunksize n procs) (seq 0 n) in
      match b_kind b with
      | MISim => pool_map (fun p is => chunk_mi (truthy (b_full b)) p is) 0 cs
      | Innsbruck01 => Err TypeError
      | _ => pool_map (fun p is => chunk_tn (truthy (b_full b)) p s0 is) 0 cs
      end
  | _ => Err TypeError
  end.

(** stochastic_sim.py:33-38 (save_results), save_info.py:15-76: the rows written, if a file is written. *)
Definition save_results (b : backend) (results : list outcome) : option saved :=
  if truthy (b_full b) && truthy (b_path b) && truthy (b_file b) then Some (States results)
  else if truthy (b_memory b) && truthy (b_path b) && truthy (b_file b)
  then Some (Shots (combine (seq 0 (List.length results)) results))
  else None.
End Stochastic.
