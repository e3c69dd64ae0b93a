(** C38: subspace noise tables stay well formed.  C39: noise models record exactly what was added. *)
From Coq Require Import Reals Lra.
From Verif.Base Require Import Py.
From Verif.Noise Require Import NoiseModel NoiseSpec NoiseProofs.
Local Open Scope list_scope.

(** A single addition is accepted exactly when the two levels differ, the pair is new, negative levels only
    come first and no dynamic entry is present; it then appends the ordered pair and keeps the rest.  A
    rejected call returns an exception and no new table. *)
Theorem C38_accepted : forall t a b n t', add_noise t a b n = Ok t' <->
  a <> b /\ ~ In (Z.min a b, Z.max a b) (map fst t) /\ ((0 <= a /\ 0 <= b)%Z \/ t = []) /\ (forall k, In k (map fst t) -> ~ dynamic k) /\
  t' = t ++ [((Z.min a b, Z.max a b), n)].
Proof. exact add_accepted. Qed.
Print Assumptions C38_accepted.

(** For every history of single and bulk additions, accepted or rejected, with no pair of mixed sign. *)
Theorem C38_history : forall ops, Forall top_unmixed ops -> well_formed (fold_left trun ops []).
Proof. exact wf_history. Qed.
Print Assumptions C38_history.

(** An accepted bulk addition appends all of its entries, in order. *)
Theorem C38_bulk : forall t l t', add_noises t l = (t', None) -> exists l', t' = t ++ l' /\
  Forall2 (fun e e' => fst e' = (Z.min (fst (fst e)) (snd (fst e)), Z.max (fst (fst e)) (snd (fst e))) /\ snd e' = snd e) l l'.
Proof. exact adds_accepted. Qed.
Print Assumptions C38_bulk.

(** A rejected bulk addition keeps what came before the rejected entry, so it may change the table. *)
Theorem C38_bulk_atomic_refuted : forall t l1 t1 a b n l2 e, add_noises t l1 = (t1, None) -> add_noise t1 a b n = Err e ->
  add_noises t (l1 ++ ((a, b), n) :: l2) = (t1, Some e) /\ (l1 <> [] -> t1 <> t).
Proof. exact adds_partial. Qed.
Print Assumptions C38_bulk_atomic_refuted.

(** A pair with one negative level is accepted first, and explicit pairs are accepted after it. *)
Theorem C38_mixed_sign_refuted : forall a b c d n m, (a < 0 <= b)%Z -> (0 <= c < d)%Z ->
  exists t t', add_noise [] a b n = Ok t /\ add_noise t c d m = Ok t' /\ In (a, b) (map fst t') /\ In (c, d) (map fst t').
Proof. exact mixed_sign. Qed.
Print Assumptions C38_mixed_sign_refuted.

(** The constructor: a pair, a list of pairs, or the dynamic entry for an empty list. *)
Theorem C38_new_pair : forall pd pf a b t, new_subspace pd pf (LPair (a, b)) = Ok t <-> a <> b /\ t = [((Z.min a b, Z.max a b), Noise pd pf)].
Proof. exact new_pair. Qed.
Print Assumptions C38_new_pair.
Theorem C38_new_dynamic : forall pd pf, new_subspace pd pf (LList []) = Ok [((-2, -1)%Z, Noise pd pf)].
Proof. exact new_dynamic. Qed.
Print Assumptions C38_new_dynamic.
Theorem C38_new_list : forall pd pf l t, l <> [] -> (forall k, In k l -> explicit k /\ (fst k < snd k)%Z) ->
  (new_subspace pd pf (LList l) = Ok t <-> NoDup l /\ t = map (fun k => (k, Noise pd pf)) l).
Proof. exact new_list. Qed.
Print Assumptions C38_new_list.

Example C38_case_history : let n := Noise 1 0 in
  let ops := [TAdd 2 0 n; TAdd 1 1 n; TAdd 0 2 n; TAdds [((1, 0)%Z, n); ((-1, -2)%Z, n)]] in
  Forall top_unmixed ops /\ fold_left trun ops [] = [((0, 2)%Z, n); ((0, 1)%Z, n)].
Proof.
  split; [|reflexivity]. do 3 (constructor; [right; split; discriminate|]). constructor; [|constructor].
  intros k m [E|[E|[]]]; injection E as <- _; [right; split; discriminate|left; split; reflexivity].
Qed.
Example C38_case_dynamic : let n := Noise 1 0 in fold_left trun [TAdd (-1) (-2) n; TAdd 0 1 n; TAdd (-3) (-4) n] [] = [((-2, -1)%Z, n)].
Proof. reflexivity. Qed.
Example C38_case_mixed : let n := Noise 1 0 in fold_left trun [TAdd (-1) 0 n; TAdd 0 1 n] [] = [((-1, 0)%Z, n); ((0, 1)%Z, n)].
Proof. reflexivity. Qed.
Example C38_case_list : let n := Noise 1 0 in new_subspace 1 0 (LList [(0, 1); (1, 2)]%Z) = Ok [((0, 1)%Z, n); ((1, 2)%Z, n)] /\ new_subspace 1 0 (LList [(0, 1); (1, 0)]%Z) = Err ValueError.
Proof. split; reflexivity. Qed.

(** The first noise of some gates in a mode is held by all of them, and nothing else changes. *)
Theorem C39_first : forall v m gates s, NoDup gates -> (forall g, In g gates -> slot s g m = None) ->
  exists s', add_error s v gates m = (s', None) /\ heap s' = heap s /\
    (forall g, In g gates -> slot s' g m = Some v) /\ (forall g m', (In g gates -> m' <> m) -> slot s' g m' = slot s g m').
Proof. exact first_noise. Qed.
Print Assumptions C39_first.

(** Mathematical noise cannot be given twice for a gate and mode. *)
Theorem C39_math_twice : forall s n m g r old, slot s g m = Some old ->
  exists s', add_error s (Math n) (g :: r) m = (s', Some ValueError) /\ heap s' = heap s /\ forall g' m', slot s' g' m' = slot s g' m'.
Proof. exact math_twice. Qed.
Print Assumptions C39_math_twice.

(** For every history that keeps the SubspaceNoise objects separate, every gate and mode holds what the
    ideal model holds after the same calls. *)
Theorem C39_history : forall l, separate_calls new_model l -> forall g m, holds (run_calls new_model l) g m = ideal_run new_model (fun _ _ => None) l g m.
Proof. exact separate_history. Qed.
Print Assumptions C39_history.

(** And every call raises what the ideal model raises. *)
Theorem C39_call : forall s c, separate_reached s -> separate_call s c ->
  snd (run_call s c) = snd (ideal_call s (holds s) c) /\ forall g m, holds (fst (run_call s c)) g m = fst (ideal_call s (holds s) c) g m.
Proof. exact separate_result. Qed.
Print Assumptions C39_call.

(** The basis gates are the gates that hold some noise. *)
Theorem C39_basis_gates : forall l g, In g (basis_gates (run_calls new_model l)) <-> exists m v, slot (run_calls new_model l) g m = Some v.
Proof. exact basis_spec. Qed.
Print Assumptions C39_basis_gates.

(** One object given to two gates: adding noise to the first gate later also changes the second. *)
Theorem C39_shared_refuted : forall s a b ta tb g1 g2 m, g1 <> g2 -> a <> b -> nth_error (heap s) a = Some ta -> nth_error (heap s) b = Some tb ->
  slot s g1 m = None -> slot s g2 m = None -> snd (add_noises ta tb) = None ->
  exists s1 s2, add_error s (Sub a) [g1; g2] m = (s1, None) /\ holds s1 g2 m = Some (HSub ta) /\
    add_error s1 (Sub b) [g1] m = (s2, None) /\ holds s2 g2 m = Some (HSub (fst (add_noises ta tb))).
Proof. exact shared_object. Qed.
Print Assumptions C39_shared_refuted.

(** Changing an object after it was added changes the model. *)
Theorem C39_changed_later_refuted : forall s a t t' x y n g m, nth_error (heap s) a = Some t -> slot s g m = None -> add_noise t x y n = Ok t' ->
  exists s1 s2, add_error s (Sub a) [g] m = (s1, None) /\ holds s1 g m = Some (HSub t) /\
    run_call s1 (CAddNoise a x y n) = (s2, None) /\ holds s2 g m = Some (HSub t') /\ t' <> t.
Proof. exact changed_later. Qed.
Print Assumptions C39_changed_later_refuted.

Section Case.
Let n : noise := Noise 1 0.
Let calls := [CNew 1 0 (LPair (0, 1)%Z); CAddError (Sub 0) ["x"%string] "local"; CNew 1 0 (LPair (1, 2)%Z);
              CAddError (Sub 1) ["x"%string] "local"; CAddError (Math n) ["z"%string; "h"%string] "all"; CAddError (Math n) ["z"%string] "all"].
Example C39_case_separate : separate_calls new_model calls.
Proof.
  unfold calls.
  apply sep_cons; [exact I|]. apply sep_cons.
  { split; [|split; [repeat constructor|eexists; reflexivity]]. intros (g & m & H). discriminate. }
  apply sep_cons; [exact I|]. apply sep_cons.
  { split; [|split; [repeat constructor|eexists; reflexivity]]. intros (g & m & H). unfold slot in H. cbn in H.
    destruct (String.eqb g "x"); [|discriminate]. cbn in H. destruct (String.eqb m "local"); discriminate. }
  apply sep_cons; [exact I|]. apply sep_cons; [exact I|]. apply sep_nil.
Qed.
Example C39_case_result : let s := run_calls new_model calls in
  holds s "x" "local" = Some (HSub [((0, 1)%Z, n); ((1, 2)%Z, n)]) /\ holds s "h" "all" = Some (HMath n) /\ holds s "x" "all" = None /\ basis_gates s = ["x"; "z"; "h"]%string.
Proof. repeat split. Qed.
Example C39_case_shared : let s := run_calls new_model [CNew 1 0 (LPair (0, 1)%Z); CNew 1 0 (LPair (1, 2)%Z); CAddError (Sub 0) ["x"%string; "z"%string] "local"; CAddError (Sub 1) ["x"%string] "local"] in
  holds s "z" "local" = Some (HSub [((0, 1)%Z, n); ((1, 2)%Z, n)]).
Proof. reflexivity. Qed.
End Case.
