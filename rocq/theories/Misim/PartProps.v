(** C111: states of some of the registers. *)
From Coq Require Import List Arith Lia Reals Bool.
From Verif Require Import Base.Cplx Base.Radix Misim.DdModel Misim.DdSpec Misim.PartModel Misim.PartSpec Misim.PartProofs.
Import ListNotations.
Local Open Scope nat_scope.

(** The state |0...0> of n registers from any first register on. *)
Theorem C111_zero : forall dims n start, (forall d, In d dims -> 0 < d) -> n + start <= length dims ->
  exists e, make_zero_state 0 dims n start = Made e /\ is_basis_state dims start n (repeat 0 n) e.
Proof. exact zero_right. Qed.
Print Assumptions C111_zero.

(** A basis state: the levels are looked up at the number of the register. *)
Theorem C111_basis : forall dims n levels start, n + start <= length dims -> levels_given dims levels start n ->
  exists e, make_basis_state 0 dims n levels start = Made e /\ is_basis_state dims start n (part levels start n) e.
Proof. exact basis_right. Qed.
Print Assumptions C111_basis.

(** More registers than there are: the exception of the check, whatever the levels. *)
Theorem C111_too_many : forall dims n levels start, length dims < n + start ->
  make_zero_state 0 dims n start = TooMany /\ make_basis_state 0 dims n levels start = TooMany.
Proof. intros dims n levels start H. unfold make_zero_state, make_basis_state. rewrite (proj2 (Nat.ltb_lt _ _) H). auto. Qed.
Print Assumptions C111_too_many.

(** A register without a level, or with a level it does not have: an exception, no state. *)
Theorem C111_bad_levels : forall dims n levels start v, n + start <= length dims -> start <= v < start + n ->
  (forall l, nth_error levels v = Some l -> nth v dims 0 <= l) -> make_basis_state 0 dims n levels start = BadLevels.
Proof. exact basis_wrong. Qed.
Print Assumptions C111_bad_levels.

(** "n quantum registers" with a list of n levels: right for start = 0, but for any other first register the levels are not
    found, and the call never returns a state. *)
Theorem C111_list_of_n_refuted : forall dims n levels start, n + start <= length dims -> 0 < n -> 0 < start -> length levels = n ->
  make_basis_state 0 dims n levels start = BadLevels.
Proof.
  intros dims n levels start H Hn Hs L. apply (basis_wrong dims n levels start (start + n - 1)); [exact H|lia|]. intros l E. exfalso.
  assert (X : start + n - 1 < length levels) by (apply nth_error_Some; congruence). lia.
Qed.
Print Assumptions C111_list_of_n_refuted.

Example C111_case : exists e, make_basis_state 0 [2; 3; 4; 2] 2 [9; 2; 3] 1 = Made e /\ ev e (rev [2; 3]) = C1 /\ ev e (rev [2; 1]) = C0 /\ on_registers [2; 1] (snd e).
Proof.
  destruct (C111_basis [2; 3; 4; 2] 2 [9; 2; 3] 1) as (e & E & O & V); [cbn; lia| |].
  - intros v Hv. assert (C : v = 1 \/ v = 2) by lia. destruct C as [-> | ->]; eexists; split; try reflexivity; cbn; lia.
  - exists e. split; [exact E|]. split; [|split; [|exact O]].
    + rewrite V; [reflexivity|]. unfold part. cbn [skipn firstn]. repeat (apply Forall2_cons; [lia|]). apply Forall2_nil.
    + rewrite V; [reflexivity|]. unfold part. cbn [skipn firstn]. repeat (apply Forall2_cons; [lia|]). apply Forall2_nil.
Qed.
Example C111_case_rejected : make_basis_state 0 [2; 3; 4; 2] 2 [2; 3] 1 = BadLevels.
Proof. apply C111_list_of_n_refuted; cbn; lia. Qed.
