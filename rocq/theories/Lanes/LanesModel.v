(** Model of the lanes (per-line view of a circuit) and of the local resynthesis pass.
    Source: src/mqt/qudits/core/lanes.py and
    src/mqt/qudits/compiler/naive_local_resynth/local_resynth.py.

    A gate object is a pair (identity, gate): [id(gate)] and the key under which the object is
    hashed (Gate defines neither __eq__ nor __hash__) are the identity.  Dictionaries are
    association lists in insertion order. *)
From Verif Require Import Base.Py Circuit.GateModel.

Section Lanes.
Context {A : Type}.
Definition obj : Type := (nat * gate A)%type.
(** lanes.py:14: a gate with its ordering number *)
Definition entry : Type := (nat * obj)%type.
Definition e_gate (x : entry) : gate A := snd (snd x).
Definition e_id (x : entry) : nat := fst (snd x).
Definition e_single (x : entry) : bool := is_single (g_type (e_gate x)).

(** lanes.py:26-37 (pre_process_ops), from counter [c] on *)
Fixpoint number_ops (c : nat) (l : list obj) : list entry :=
  match l with
  | [] => []
  | g :: r => if negb (is_single (g_type (snd g))) then (S c, g) :: number_ops (S c) r
              else (c, g) :: number_ops c r
  end.
Definition pre_process_ops (l : list obj) : list entry := number_ops 0 l.

(** lanes.py:45-47, 51-53 *)
Definition lane_add {V} (d : list (Z * list V)) (t : Z) (x : V) : list (Z * list V) :=
  dset Z.eqb d t (match dget Z.eqb d t with Some l => l ++ [x] | None => [x] end).

(** The lines an entry is filed under.  A list is not hashable (SINGLE with a list of targets) and
    an int is not iterable (a controlled gate: type TWO or MULTI with one int target). *)
Definition filed (x : entry) : res (list Z) :=
  match e_single x, g_target (e_gate x) with
  | true, TInt t => Ok [t]
  | true, TList _ => Err TypeError
  | false, TList ts => Ok ts
  | false, TInt _ => Err TypeError
  end.

(** lanes.py:39-56 (create_lanes), the dictionary index_dict *)
Fixpoint index_lanes (d : list (Z * list entry)) (l : list entry) : res (list (Z * list entry)) :=
  match l with
  | [] => Ok d
  | x :: r => let? ts := filed x in index_lanes (fold_left (fun d t => lane_add d t x) ts d) r
  end.

(** lanes.py:62-68: the entries of all lanes, each object once *)
Fixpoint collect (seen : list nat) (l : list entry) : list entry :=
  match l with
  | [] => []
  | x :: r => if existsb (Nat.eqb (e_id x)) seen then collect seen r else x :: collect (e_id x :: seen) r
  end.
(** lanes.py:70: sorted(..., key=itemgetter(0)), which is stable *)
Fixpoint insert_by (x : entry) (l : list entry) : list entry :=
  match l with
  | [] => [x]
  | y :: r => if Nat.leb (fst x) (fst y) then x :: l else y :: insert_by x r
  end.
Fixpoint sort_by (l : list entry) : list entry :=
  match l with [] => [] | x :: r => insert_by x (sort_by r) end.
Definition lane (d : list (Z * list entry)) (t : Z) : list entry :=
  match dget Z.eqb d t with Some l => l | None => [] end.
(** lanes.py:58-73 (extract_instructions) *)
Definition extract (d : list (Z * list entry)) : list obj :=
  map snd (sort_by (collect [] (concat (map (lane d) (sortedZ (map fst d)))))).

(** lanes.py:75-76 (extract_lane) *)
Definition extract_lane (d : list (Z * list entry)) (t : Z) : res (list obj) :=
  match dget Z.eqb d t with Some l => Ok (map snd l) | None => Err KeyError end.

(** lanes.py:86-96: appending to the last group, opening groups (defaultdict(list)) *)
Definition groups_of (d : list (Z * list (list entry))) (t : Z) : list (list entry) :=
  match dget Z.eqb d t with Some l => l | None => [] end.
Fixpoint append_last {V} (l : list (list V)) (x : V) : list (list V) :=
  match l with
  | [] => []
  | [g] => [g ++ [x]]
  | g :: r => g :: append_last r x
  end.
Definition group_step (d : list (Z * list (list entry))) (x : entry) (t : Z) : list (Z * list (list entry)) :=
  if e_single x then
    match groups_of d t with
    | [] => dset Z.eqb d t [[x]]
    | l => dset Z.eqb d t (append_last l x)
    end
  else dset Z.eqb d t (groups_of d t ++ [[x]; []]).
Fixpoint group_loop (d : list (Z * list (list entry))) (l : list entry) : res (list (Z * list (list entry))) :=
  match l with
  | [] => Ok d
  | x :: r => let? ts := filed x in group_loop (fold_left (fun d t => group_step d x t) ts d) r
  end.
Definition nonempty {V} (l : list V) : bool := match l with [] => false | _ => true end.
(** lanes.py:78-99 (find_consecutive_singles without the index) *)
Definition consecutive (l : list entry) : res (list (Z * list (list entry))) :=
  let? d := group_loop [] l in Ok (map (fun kv => (fst kv, filter nonempty (snd kv))) d).

(** lanes.py:101-106: the index fast_lookup, object -> (line, group number, gate number) *)
Definition lookup : Type := list (nat * (Z * nat * nat)).
Fixpoint index_group (f : lookup) (t : Z) (gn k : nat) (g : list entry) : lookup :=
  match g with
  | [] => f
  | x :: r => index_group (dset Nat.eqb f (e_id x) (t, gn, k)) t gn (S k) r
  end.
Fixpoint index_groups (f : lookup) (t : Z) (gn : nat) (gs : list (list entry)) : lookup :=
  match gs with
  | [] => f
  | g :: r => index_groups (index_group f t gn 0 g) t (S gn) r
  end.
Definition build_index (f : lookup) (d : list (Z * list (list entry))) : lookup :=
  fold_left (fun f kv => index_groups f (fst kv) 0 (snd kv)) d f.

(** lanes.py:19-24 with 39-56: the object Lanes *)
Record lanes := Lanes { l_entries : list entry; l_dict : list (Z * list entry);
                        l_view : list (Z * list (list entry)); l_fast : lookup }.
Definition new_lanes (l : list obj) : res lanes :=
  let es := pre_process_ops l in
  let? d := index_lanes [] es in
  let? v := consecutive es in
  Ok (Lanes es d v (build_index [] v)).
Definition extract_instructions (x : lanes) : list obj := extract (l_dict x).

(** lanes.py:127-133 (next_is_local) *)
Definition next_is_local (x : lanes) (id : nat) : res bool :=
  match dget Nat.eqb (l_fast x) id with
  | None => Err KeyError
  | Some (t, gn, k) =>
      match dget Z.eqb (l_view x) t with
      | None => Err KeyError
      | Some gs => match nth_error gs gn with
                   | None => Err IndexError
                   | Some g => Ok (negb (Z.eqb (Z.of_nat (List.length g) - 1) (Z.of_nat k)))
                   end
      end
  end.

(** list.remove(entry): the first equal entry (the ordering number and the object) *)
Definition same_entry (x y : entry) : bool := (Nat.eqb (fst x) (fst y) && Nat.eqb (e_id x) (e_id y))%bool.
Fixpoint remove_first (x : entry) (l : list entry) : list entry :=
  match l with
  | [] => []
  | y :: r => if same_entry x y then r else y :: remove_first x r
  end.
(** list.insert(i, x) for a non-negative index *)
Definition insert_at {V} (l : list V) (i : nat) (x : V) : list V := firstn i l ++ x :: skipn i l.
(** lanes.py:110-125 (replace_gates_in_lane), for non-negative indices *)
Definition replace_gates (d : list (Z * list entry)) (t : Z) (first last : nat) (new : obj) : res (list (Z * list entry)) :=
  match dget Z.eqb d t with
  | None => Ok d
  | Some l =>
      match nth_error l first with
      | None => Err IndexError
      | Some (k, _) =>
          let gone := firstn (Nat.min (last + 1) (List.length l) - first) (skipn first l) in
          Ok (dset Z.eqb d t (insert_at (fold_left (fun l x => remove_first x l) gone l) first (k, new)))
      end
  end.
End Lanes.
Arguments obj : clear implicits.
Arguments entry : clear implicits.
Arguments lanes : clear implicits.

(** ** The local resynthesis pass *)
From Verif Require Import Base.Cplx Base.Matrix Gates.FactoryModel.

(** local_resynth.py:40-44: the product of the matrices of a group *)
Fixpoint group_matrix (dims : list nat) (d : nat) (m : mat) (g : list (entry mat)) : res mat :=
  match g with
  | [] => Ok m
  | x :: r => let? gm := generate_matrix dims 0 (e_gate x) in group_matrix dims d (mmul d gm m) r
  end.
(** local_resynth.py:37-50: the new line; [fresh] is the identity of the next new object *)
Fixpoint merge_groups (dims : list nat) (t : Z) (fresh : nat) (gs : list (list (entry mat))) : res (nat * list (entry mat)) :=
  match gs with
  | [] => Ok (fresh, [])
  | [] :: _ => Err IndexError
  | (x :: g) :: r =>
      if e_single x then
        let? d := pyindex dims t in
        let? m := group_matrix dims d mid (x :: g) in
        let? u := new_gate (List.length dims) dims "CUm" SINGLE (TInt t) None m in
        let? fr := merge_groups dims t (S fresh) r in
        Ok (fst fr, (fst x, (fresh, u)) :: snd fr)
      else let? fr := merge_groups dims t fresh r in Ok (fst fr, x :: snd fr)
  end.
(** local_resynth.py:34-52: the loop over the lines *)
Fixpoint resynth_lines (dims : list nat) (fresh : nat) (d : list (Z * list (entry mat))) (ts : list Z) : res (list (Z * list (entry mat))) :=
  match ts with
  | [] => Ok d
  | t :: r =>
      let? gr := consecutive (lane d t) in
      match dget Z.eqb gr t with
      | None => Err KeyError
      | Some gs => let? fl := merge_groups dims t fresh gs in resynth_lines dims (fst fl) (dset Z.eqb d t (snd fl)) r
      end
  end.
(** local_resynth.py:30-62 (transpile): the instructions of the new circuit.  [fresh] is an identity
    not in use. *)
Definition resynth (dims : list nat) (fresh : nat) (l : list (obj mat)) : res (list (obj mat)) :=
  let? x := new_lanes l in
  let? d := resynth_lines dims fresh (l_dict x) (sortedZ (map fst (l_dict x))) in
  Ok (extract d).
