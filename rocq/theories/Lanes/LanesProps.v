(** Properties of the lanes of a circuit and of the local resynthesis pass (C21-C24, C55).
    A circuit is a list of gate objects (identity, gate); [new_lanes l] is [Lanes(circuit)]. *)
From Coq Require Import List ZArith Arith Bool Permutation Lia.
From Verif Require Import Base.Py Base.Cplx Base.Matrix Base.Radix.
From Verif Require Import Circuit.GateModel Gates.FactoryModel Gates.FactorySpec.
From Verif Require Import Lanes.LanesModel Lanes.LanesSpec Lanes.ExtractProofs Lanes.LanesProofs Lanes.GroupProofs Lanes.UnitaryProofs Lanes.ResynthProofs.
Import ListNotations.
Local Open Scope nat_scope.

(** ** C21: splitting into lanes and reassembling *)

(** Reassembling gives the same gate objects, in the same order on every line, and with the
    entangling gates in the same order. *)
Theorem C21_reassembly :
  forall (A : Type) (l : list (nat * gate A)), NoDup (map fst l) -> (forall o, In o l -> plain (snd o)) ->
  exists x : lanes A, new_lanes l = Ok x /\ Permutation (extract_instructions x) l /\
    (forall t, line_ops t (extract_instructions x) = line_ops t l) /\ entangling (extract_instructions x) = entangling l.
Proof. exact (@reassembly). Qed.
Print Assumptions C21_reassembly.

(** It is the same program up to exchanging neighbouring gates on different lines. *)
Theorem C21_same_program :
  forall (A : Type) (l : list (nat * gate A)) (x : lanes A), (forall o, In o l -> plain (snd o)) -> NoDup (map fst l) ->
  new_lanes l = Ok x -> swaps l (extract_instructions x).
Proof. exact (@reassembly_swaps). Qed.
Print Assumptions C21_same_program.

(** Any meaning of gates for which gates on different lines commute cannot tell the two apart. *)
Theorem C21_any_meaning :
  forall (A S : Type) (eqv : S -> S -> Prop) (act : gate A -> S -> S),
  (forall s, eqv s s) -> (forall a b c, eqv a b -> eqv b c -> eqv a c) -> (forall g a b, eqv a b -> eqv (act g a) (act g b)) ->
  forall l l' : list (nat * gate A), swaps l l' ->
  (forall o1 o2, In o1 l -> In o2 l -> disjoint_ops o1 o2 -> forall s, eqv (act (snd o1) (act (snd o2) s)) (act (snd o2) (act (snd o1) s))) ->
  forall s s', eqv s s' -> eqv (fold_left (fun s o => act (snd o) s) l s) (fold_left (fun s o => act (snd o) s) l' s').
Proof. exact (@swaps_semantics). Qed.
Print Assumptions C21_any_meaning.

(** In particular the unitary is the same. *)
Theorem C21_same_unitary :
  forall dims, (forall d, In d dims -> 0 < d) -> forall l l' : list (nat * gate mat), swaps l l' ->
  (forall o, In o l -> well_placed dims (snd o) /\ plain (snd o)) -> same_unitary dims l l'.
Proof. exact swaps_unitary. Qed.
Print Assumptions C21_same_unitary.

(** A lane holds the gates on its line, in order; a line without gates has no lane. *)
Theorem C21_lane :
  forall (A : Type) (l : list (nat * gate A)), (forall o, In o l -> plain (snd o)) -> exists x : lanes A, new_lanes l = Ok x /\
  forall t, (line_ops t l <> [] -> extract_lane (l_dict x) t = Ok (line_ops t l)) /\
            (line_ops t l = [] -> extract_lane (l_dict x) t = Err KeyError).
Proof. exact (@lane_read). Qed.
Print Assumptions C21_lane.

(** The code does not handle controlled gates: a controlled gate has type TWO or MULTI and one
    target, and a circuit with such a gate cannot be split at all. *)
Theorem C21_controlled_refuted :
  forall (A : Type) (l : list (nat * gate A)) o t, In o l -> local o = false -> g_target (snd o) = TInt t ->
  @new_lanes A l = Err TypeError.
Proof. exact (@controlled_fails). Qed.
Print Assumptions C21_controlled_refuted.

Definition one (t : Z) : gate unit := Gate "x" SINGLE (TInt t) None false false tt.
Definition two (a b : Z) : gate unit := Gate "cx" TWO (TList [a; b]) None false false tt.
Definition circ : list (nat * gate unit) :=
  [(0, one 2); (1, one 0); (2, two 2 0); (3, one 1); (4, one 1); (5, two 1 2); (6, one 0); (7, one 2); (8, one 2)].
Example C21_case : NoDup (map fst circ) /\ (forall o, In o circ -> plain (snd o)) /\
  exists x, new_lanes circ = Ok x /\ map fst (extract_instructions x) = [1; 0; 2; 3; 4; 6; 5; 7; 8].
Proof.
  split; [repeat (constructor; [cbn; intuition congruence|]); constructor|]. split.
  - intros o H. repeat destruct H as [<-|H]; try easy; (split; [reflexivity|]).
    all: first [left; split; [reflexivity|eexists; reflexivity]
               |right; split; [discriminate|]; eexists; split; [reflexivity|]; split; [discriminate|]; repeat (constructor; [cbn; intuition congruence|]); constructor].
  - eexists. split; reflexivity.
Qed.
Example C21_controlled_case : exists g e, control 3 [2;2;2] (one 0) [1%Z] [1%Z] = (g, e) /\ e = None /\ is_single (g_type g) = false /\ g_target g = TInt 0.
Proof. do 2 eexists. repeat split. Qed.

(** ** C22: repeated gate objects *)

(** Every object is kept exactly once. *)
Theorem C22_each_object_once :
  forall (A : Type) (l : list (nat * gate A)) (x : lanes A), new_lanes l = Ok x -> NoDup (map fst (extract_instructions x)).
Proof. exact (@extract_once). Qed.
Print Assumptions C22_each_object_once.
Theorem C22_no_object_lost :
  forall (A : Type) (l : list (nat * gate A)) (x : lanes A), (forall o, In o l -> plain (snd o)) -> new_lanes l = Ok x ->
  forall n, In n (map fst (extract_instructions x)) <-> In n (map fst l).
Proof. exact (@extract_ids). Qed.
Print Assumptions C22_no_object_lost.
(** So an object that is used twice is applied once only: instructions are lost. *)
Theorem C22_repeated_objects_refuted :
  forall (A : Type) (l : list (nat * gate A)) (x : lanes A), (forall o, In o l -> plain (snd o)) -> new_lanes l = Ok x ->
  ~ NoDup (map fst l) -> List.length (extract_instructions x) < List.length l.
Proof. exact (@repeated_lost). Qed.
Print Assumptions C22_repeated_objects_refuted.

(** The sequence cx, r, cx with one cx object (as produced for a controlled rotation). *)
Example C22_case : exists x, new_lanes [(0, two 0 1); (1, one 1); (0, two 0 1)] = Ok x /\ map fst (extract_instructions x) = [0; 1].
Proof. eexists. split; reflexivity. Qed.

(** ** C23: groups of consecutive local gates *)
Theorem C23_groups_partition_lines :
  forall (A : Type) (l : list (nat * gate A)), (forall o, In o l -> plain (snd o)) -> exists x : lanes A, new_lanes l = Ok x /\
  forall t, match dget Z.eqb (l_view x) t with
            | Some gs => line_ops t l <> [] /\ grouping (line_ops t l) (map (map snd) gs)
            | None => line_ops t l = []
            end.
Proof. exact (@groups_partition). Qed.
Print Assumptions C23_groups_partition_lines.

(** For a local gate, next_is_local tells whether the next gate on its line is local. *)
Theorem C23_next_is_local :
  forall (A : Type) (l : list (nat * gate A)) (x : lanes A), (forall o, In o l -> plain (snd o)) -> NoDup (map fst l) -> new_lanes l = Ok x ->
  forall o t, In o l -> local o = true -> on_line t o = true ->
  exists b, next_is_local x (fst o) = Ok b /\ (b = true <-> exists o', next_on t l o o' /\ local o' = true).
Proof. exact (@next_local_single). Qed.
Print Assumptions C23_next_is_local.
Theorem C23_next_of_unknown_gate :
  forall (A : Type) (l : list (nat * gate A)) (x : lanes A), (forall o, In o l -> plain (snd o)) -> new_lanes l = Ok x ->
  forall n, ~ In n (map fst l) -> next_is_local x n = Err KeyError.
Proof. exact (@next_unknown). Qed.
Print Assumptions C23_next_of_unknown_gate.
(** For an entangling gate the answer is always no, whatever follows. *)
Theorem C23_next_is_local_refuted :
  forall (A : Type) (l : list (nat * gate A)) (x : lanes A), (forall o, In o l -> plain (snd o)) -> NoDup (map fst l) -> new_lanes l = Ok x ->
  forall o, In o l -> local o = false -> next_is_local x (fst o) = Ok false.
Proof. exact (@next_local_ent). Qed.
Print Assumptions C23_next_is_local_refuted.

Example C23_case : exists x gs, new_lanes circ = Ok x /\ dget Z.eqb (l_view x) 2%Z = Some gs /\
  map (map (fun e => fst (snd e))) gs = [[0]; [2]; [5]; [7; 8]] /\
  next_is_local x 7 = Ok true /\ next_is_local x 8 = Ok false /\ next_is_local x 3 = Ok true /\
  next_is_local x 5 = Ok false /\ next_on 2 circ (5, two 1 2) (7, one 2).
Proof. do 2 eexists. split; [vm_compute; reflexivity|]. split; [vm_compute; reflexivity|]. repeat (split; [vm_compute; reflexivity|]). exists [(0, one 2); (2, two 2 0)], [(8, one 2)]. reflexivity. Qed.

(** ** C24: merging runs of local gates *)
Theorem C24_local_resynthesis :
  forall dims, (forall d, In d dims -> 0 < d) -> forall fresh (l : list (nat * gate mat)),
  (forall o, In o l -> well_placed dims (snd o) /\ plain (snd o)) -> NoDup (map fst l) -> (forall o, In o l -> fst o < fresh) ->
  exists out, resynth dims fresh l = Ok out /\ same_unitary dims l out /\ entangling out = entangling l /\
    (forall t p o1 o2 q, line_ops t out = p ++ o1 :: o2 :: q -> ~ (local o1 = true /\ local o2 = true)) /\
    (forall o, In o out -> well_placed dims (snd o) /\ plain (snd o)) /\ NoDup (map fst out).
Proof. exact resynth_spec. Qed.
Print Assumptions C24_local_resynthesis.

Definition oneM (t : Z) (m : mat) : gate mat := Gate "x" SINGLE (TInt t) None false false m.
Definition twoM (a b : Z) (m : mat) : gate mat := Gate "cx" TWO (TList [a; b]) None false false m.
Definition circM (m1 m2 m3 : mat) : list (nat * gate mat) :=
  [(0, oneM 1 m1); (1, oneM 0 m1); (2, oneM 1 m2); (3, twoM 1 0 m3); (4, oneM 0 m2)].
Example C24_case : forall m1 m2 m3, (forall o, In o (circM m1 m2 m3) -> well_placed [2;3] (snd o) /\ plain (snd o)) /\
  exists out, resynth [2;3] 5 (circM m1 m2 m3) = Ok out /\ map fst out = [5; 7; 3; 6] /\
  map (fun o => target_lines (snd o)) out = [[0]; [1]; [1;0]; [0]]%Z.
Proof.
  intros. split.
  - intros o H. repeat destruct H as [<-|H]; try easy; (split; [split; [discriminate|split; [repeat (constructor; [cbn; intuition congruence|]); constructor|split; [intros t Ht; repeat destruct Ht as [<-|Ht]; try easy; cbn; lia|exact I]]]|split; [reflexivity|]]).
    all: first [left; split; [reflexivity|eexists; reflexivity]
               |right; split; [discriminate|]; eexists; split; [reflexivity|]; split; [discriminate|]; repeat (constructor; [cbn; intuition congruence|]); constructor].
  - eexists. split; [reflexivity|]. split; reflexivity.
Qed.

(** ** C55: replacing part of a lane *)

(** The gates of the lane from [first] to [last] give way to the new gate, which takes over the
    ordering number of the first of them; other lanes do not change. *)
Theorem C55_replace_in_lane :
  forall (A : Type) (d : list (Z * list (nat * (nat * gate A)))) t first last (new : nat * gate A) e,
  NoDup (map (fun x => fst (snd x)) (lane d t)) -> first <= last -> nth_error (lane d t) first = Some e ->
  exists d', replace_gates d t first last new = Ok d' /\
    lane d' t = firstn first (lane d t) ++ (fst e, new) :: skipn (S last) (lane d t) /\
    (forall t', t' <> t -> lane d' t' = lane d t') /\ map fst d' = map fst d.
Proof. exact (@replace_spec). Qed.
Print Assumptions C55_replace_in_lane.

Example C55_case : exists x d, new_lanes circ = Ok x /\ replace_gates (l_dict x) 2 3 4 (9, one 2) = Ok d /\
  map (fun e => fst (snd e)) (lane (l_dict x) 2) = [0; 2; 5; 7; 8] /\ map (fun e => fst (snd e)) (lane d 2) = [0; 2; 5; 9].
Proof. do 2 eexists. split; [vm_compute; reflexivity|]. split; [vm_compute; reflexivity|]. split; vm_compute; reflexivity. Qed.
