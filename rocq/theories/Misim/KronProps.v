(** C108: tensor products of matrices in the decision diagram package, and extending a matrix to more registers.
    Specification: KronSpec. *)
From Coq Require Import List Arith Reals Bool Lia.
From Verif Require Import Base.Cplx Base.Matrix Base.Radix Misim.DdModel Misim.DdSpec Misim.KronModel Misim.KronSpec Misim.KronProofs.
Import ListNotations.
Local Open Scope nat_scope.

(** On registers of one size, what is returned for x on top of y is the tensor product, if no identity inside x has a factor
    in front.  Nothing is asked of y. *)
Theorem C108_tensor : forall d N m k x y e, 0 < d -> m + k <= N -> matrix_diagram d m x -> matrix_diagram d k y -> plain d m x ->
  kronecker 0 (repeat d N) x y = Some e -> tensor d m k x y e.
Proof. exact kronecker_plain. Qed.
Print Assumptions C108_tensor.
(** Otherwise it is the tensor product of y and of x without those factors. *)
Theorem C108_exact : forall d N m k x y e, 0 < d -> m + k <= N -> matrix_diagram d m x -> matrix_diagram d k y ->
  kronecker 0 (repeat d N) x y = Some e -> tensor d m k (without_factors d m x) y e.
Proof. exact kronecker_general. Qed.
Print Assumptions C108_exact.
(** It is returned if what is off the diagonals of x is zero, or marked symmetric like y, ... *)
Theorem C108_returns : forall d N m k x y, 0 < d -> m + k <= N -> matrix_diagram d m x -> matrix_diagram d k y ->
  safe (repeat d N) (marked 0 (repeat d N) (snd y)) d m x -> exists e, kronecker 0 (repeat d N) x y = Some e.
Proof. exact kronecker_returns. Qed.
Print Assumptions C108_returns.
(** ... which for a symmetric y are all gates of the package, with any controls. *)
Theorem C108_gates : forall d N n T M cs t e, 0 < d -> n <= N -> make_gate 0 (repeat d n) T M cs t = Some e -> safe (repeat d N) true d n e.
Proof. exact gate_safe. Qed.
Print Assumptions C108_gates.
(** Extending puts h identities on top and l identities at the bottom; without identities at the bottom, any matrix will do. *)
Theorem C108_extend : forall d N m h l e, 0 < d -> h + m + l <= N -> matrix_diagram d m e -> l = 0 \/ (plain d m e /\ safe (repeat d N) true d m e) ->
  exists g, extend 0 (repeat d N) e h l = Some g /\ matrix_diagram d (h + m + l) g /\
  forall a a' p p' b b', levels d h a -> levels d h a' -> levels d m p -> levels d m p' -> levels d l b -> levels d l b' ->
  entry_of d (h + m + l) g (a ++ p ++ b) (a' ++ p' ++ b') = Cmul (delta a a') (Cmul (entry_of d m e p p') (delta b b')).
Proof. exact extend_ok. Qed.
Print Assumptions C108_extend.
Example C108_case : exists x, make_gate 0 [2] 2 zmat [] 0 = Some x /\ matrix_diagram 2 1 x /\ plain 2 1 x /\
  entry_of 2 1 x [1] [1] = Copp C1.
Proof. exists z_small. split; [exact z_small_gate|]. split; [apply z_small_plain|]. split; [apply z_small_plain|]. unfold entry_of, ev, z_small. cbn. ring. Qed.
(** X on top of X is returned *)
Example C108_case_returns : exists x e, make_gate 0 [2] 2 xmat [] 0 = Some x /\ matrix_diagram 2 1 x /\ kronecker 0 [2; 2] x x = Some e.
Proof.
  assert (M : marked 0 (repeat 2 2) (snd x_small) = true) by exact x_small_marked.
  destruct (C108_returns 2 2 1 1 x_small x_small ltac:(lia) ltac:(lia) x_small_wf x_small_wf) as [e E]; [rewrite M; exact (C108_gates 2 2 1 2 xmat [] 0 x_small ltac:(lia) ltac:(lia) x_small_gate)|].
  exists x_small, e. split; [exact x_small_gate|]. split; [exact x_small_wf|exact E].
Qed.

(** Violations.  A factor in front of an identity is lost: c times the identity, extended, is the identity. *)
Theorem C108_factor_refuted : forall d N m k x y, 0 < d -> 0 < m -> m + k <= N -> matrix_diagram d m x -> matrix_diagram d k y -> fst x <> C0 ->
  is_ident (repeat d m) (snd x) = true -> exists e, kronecker 0 (repeat d N) x y = Some e /\ tensor d m k (C1, snd x) y e.
Proof. exact identity_factor. Qed.
Print Assumptions C108_factor_refuted.
(** So the gate Z on the upper of two qubits, extended by one qubit at the bottom, becomes the identity. *)
Theorem C108_gate_refuted : exists x e, make_gate 0 [2; 2] 2 zmat [] 1 = Some x /\
  (forall a b a' b', a < 2 -> b < 2 -> a' < 2 -> b' < 2 -> entry_of 2 2 x [a; b] [a'; b'] = Cmul (zmat a a') (delta [b] [b'])) /\
  extend 0 [2; 2; 2] x 0 1 = Some e /\ forall p q, levels 2 3 p -> levels 2 3 q -> entry_of 2 3 e p q = delta p q.
Proof. destruct z_extended as (e & E & V). exists z_diagram, e. split; [exact z_gate|]. split; [exact z_entry|]. split; assumption. Qed.
Print Assumptions C108_gate_refuted.
(** The product of X and a matrix that is not marked symmetric throws std::out_of_range ... *)
Theorem C108_throws_refuted : forall N k y, 1 + k <= N -> matrix_diagram 2 k y -> fst y <> C0 -> marked 0 (repeat 2 N) (snd y) = false ->
  exists x, make_gate 0 [2] 2 xmat [] 0 = Some x /\ kronecker 0 (repeat 2 N) x y = None.
Proof. intros N k y H W Ny M. exists x_small. split; [exact x_small_gate|]. eapply x_small_throws; eassumption. Qed.
Print Assumptions C108_throws_refuted.
(** ... for instance if that matrix is the gate Y. *)
Example C108_case_throws : exists y, make_gate 0 [2] 2 ymat [] 0 = Some y /\ matrix_diagram 2 1 y /\ fst y <> C0 /\ marked 0 [2; 2] (snd y) = false.
Proof. exists y_small. split; [exact y_small_gate|]. split; [exact y_small_wf|]. split; [exact minus_i|exact (y_small_marked 1)]. Qed.
(** On registers of different sizes the identities have the wrong size: extending a qubit gate to a qutrit above it throws if
    the gate is marked symmetric, and has no entry for the third level of the qutrit otherwise. *)
Theorem C108_mixed_refuted : forall e0, fst e0 <> C0 -> wf [4] (snd e0) ->
  if marked 0 [2; 3] (snd e0) then extend 0 [2; 3] e0 1 0 = None
  else exists e, extend 0 [2; 3] e0 1 0 = Some e /\ forall i j, ev e (entry true [3; 2] [2; i] [2; j]) = C0.
Proof. exact mixed_extended. Qed.
Print Assumptions C108_mixed_refuted.
