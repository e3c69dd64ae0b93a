(** The predefined states.
    Source: src/mqt/qudits/compiler/state_compilation/retrieve_state.py (below: ret).

    Floats are exact reals.  Dimensions are natural numbers; range() of a negative number is empty as that of 0 is.  The samples of the random
    number generator (ret:25-27) are an argument. *)
From Coq Require Import Reals.
From Verif.Base Require Import Py Cplx Radix.
Local Open Scope string_scope.
Local Open Scope list_scope.
Local Open Scope nat_scope.

(** ret:34-45 (generate_all_combinations) *)
Fixpoint generate_all_combinations (dims : list nat) : list (list nat) :=
  match dims with
  | [] => [[]]
  | d :: r => flat_map (fun i => map (fun sub => i :: sub) (generate_all_combinations r)) (seq 0 d)
  end.

(** entry = [0] * n; entry[j] = i (ret:65-66, 77-78) *)
Fixpoint put (j i : nat) (l : list nat) : list nat :=
  match l, j with [], _ => [] | _ :: r, O => i :: r | x :: r, S k => x :: put k i r end.

(** min(dimensions); ValueError for an empty list *)
Definition min_list (l : list nat) : res nat := match l with [] => Err ValueError | d :: r => Ok (fold_left Nat.min r d) end.
(** ret:48-56 (generate_ghz_entries) *)
Definition generate_ghz_entries (dims : list nat) : res (list (list nat)) :=
  let? m := min_list dims in Ok (map (fun i => repeat i (List.length dims)) (seq 0 m)).
(** ret:59-69 (generate_qudit_w_entries); [range(1, d)] is [seq 1 (d - 1)] *)
Definition generate_qudit_w_entries (dims : list nat) : list (list nat) :=
  flat_map (fun jd => map (fun i => put (fst jd) i (repeat 0 (List.length dims))) (seq 1 (snd jd - 1))) (combine (seq 0 (List.length dims)) dims).
(** ret:72-81 (generate_embedded_w_entries) *)
Definition generate_embedded_w_entries (dims : list nat) : list (list nat) :=
  map (fun j => put j 1 (repeat 0 (List.length dims))) (seq 0 (List.length dims)).

(** ret:88-95: the comparison goes over the positions of the combination; [state[j]] beyond the end raises IndexError *)
Fixpoint same_entry (comb state : list nat) : res bool :=
  match comb, state with
  | [], _ => Ok true
  | _ :: _, [] => Err IndexError
  | x :: r, y :: s => if Nat.eqb x y then same_entry r s else Ok false
  end.
(** list.sort of ret:100 *)
Fixpoint insert_nat (x : nat) (l : list nat) : list nat := match l with [] => [x] | y :: r => if Nat.leb x y then x :: l else y :: insert_nat x r end.
Definition sort_nat (l : list nat) : list nat := fold_right insert_nat [] l.
(** ret:84-101 (find_entries_indices) *)
Definition find_entries_indices (input_list sublist : list (list nat)) : res (list nat) :=
  let? ls := mapr (fun state =>
    let? bs := mapr (fun comb => same_entry comb state) input_list in
    Ok (map fst (filter snd (combine (seq 0 (List.length input_list)) bs)))) sublist in
  Ok (sort_nat (concat ls)).

(** ret:104-123 (generate_uniform_state); 1.0 / 0 raises ZeroDivisionError *)
Definition state_entries (dims : list nat) (state : string) : res (list (list nat)) :=
  if String.eqb state "qudit-w-state" then Ok (generate_qudit_w_entries dims)
  else if String.eqb state "embedded-w-state" then Ok (generate_embedded_w_entries dims)
  else if String.eqb state "ghz" then generate_ghz_entries dims
  else Err ValueError.
Definition generate_uniform_state (dims : list nat) (state : string) : res (list C) :=
  let all_entries := generate_all_combinations dims in
  let? entries := state_entries dims state in
  let? x := match List.length entries with O => Err ZeroDivisionError | n => Ok (sqrt (1 / INR n)) end in
  let? indices := find_entries_indices all_entries entries in
  Ok (map (fun k => if existsb (Nat.eqb k) indices then RtoC x else C0) (seq 0 (List.length all_entries))).

(** ret:13-20 (verify_normalized_state): np.isclose(s, 1.0, atol=1e-6) with its default rtol 1e-5 *)
Definition verify_normalized_state (state : list C) : bool :=
  let s := fold_right Rplus 0%R (map Cnorm2 state) in
  if Rle_dec (Rabs (s - 1)) (1 / 1000000 + 1 / 100000 * Rabs 1) then true else false.

(** ret:23-33 (generate_random_quantum_state); [re] and [im] are the samples, cut to the length asked for; reduce of an empty list raises
    TypeError.  The division by a norm of 0 gives NaNs and is Err here. *)
Definition generate_random_quantum_state (re im : nat -> R) (dims : list nat) : res (list C) :=
  match dims with
  | [] => Err TypeError
  | _ =>
      let nums := @map nat C (fun k => (re k, im k)) (seq 0 (prodl dims)) in
      let n := sqrt (fold_right Rplus 0%R (map Cnorm2 nums)) in
      if Req_EM_T n 0 then Err ZeroDivisionError else Ok (@map C C (fun z => ((fst z / n)%R, (snd z / n)%R)) nums)
  end.
