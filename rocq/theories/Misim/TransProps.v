(** C112: the transpose of a matrix in the decision diagram package.  Specification: TransSpec. *)
From Coq Require Import List Arith Lia Reals Bool.
From Verif Require Import Base.Cplx Base.Matrix Base.Radix Misim.DdModel Misim.DdSpec Misim.KronModel Misim.KronSpec Misim.KronProofs
  Misim.TransModel Misim.TransSpec Misim.TransProofs.
Import ListNotations.
Local Open Scope nat_scope.

(** What is returned, for a matrix on the lowest m registers, is its transpose. *)
Theorem C112_sound : forall dims m e t, (forall d, In d dims -> 0 < d) -> m <= length dims -> matrix_over (rev (firstn m dims)) e ->
  transpose 0 dims e = Some t -> transposed (rev (firstn m dims)) e t.
Proof. intros dims m e t Hd Hm W E. exact (proj2 (transpose_sound dims m e t Hd Hm W E)). Qed.
Print Assumptions C112_sound.
(** It is returned for every symmetric gate on register 0, with any controls. *)
Theorem C112_gates : forall dims T M cs e, (forall d, In d dims -> 0 < d) -> make_gate 0 dims T M cs 0 = Some e ->
  symmetric_matrix (rev dims) e -> exists t, transpose 0 dims e = Some t.
Proof. intros dims T M cs e Hd E S'. exists e. exact (gate_transposed dims T M cs e Hd E S'). Qed.
Print Assumptions C112_gates.
(** Violation: no matrix that differs from its transpose has one, the call throws std::out_of_range. *)
Theorem C112_asymmetric_refuted : forall dims m e, (forall d, In d dims -> 0 < d) -> m <= length dims -> matrix_over (rev (firstn m dims)) e ->
  ~ symmetric_matrix (rev (firstn m dims)) e -> transpose 0 dims e = None.
Proof. exact transpose_asymmetric. Qed.
Print Assumptions C112_asymmetric_refuted.

(** X is symmetric ... *)
Example C112_case : exists x, make_gate 0 [2] 2 xmat [] 0 = Some x /\ matrix_over [2] x /\ symmetric_matrix [2] x /\ transpose 0 [2] x = Some x.
Proof.
  assert (W : matrix_over [2] x_small) by exact x_small_wf.
  assert (Sy : symmetric_matrix [2] x_small).
  { split; [exact W|]. intros p q Vp Vq. inversion Vp as [|i ? ? ? Hi Vp']; subst. inversion Vp'; subst. inversion Vq as [|j ? ? ? Hj Vq']; subst. inversion Vq'; subst.
    destruct i as [|[|i]]; [| |lia]; (destruct j as [|[|j]]; [| |lia]); reflexivity. }
  exists x_small. split; [exact x_small_gate|]. split; [exact W|]. split; [exact Sy|].
  apply (gate_transposed [2] 2 xmat [] x_small); [intros d [<-|[]]; lia|exact x_small_gate|exact Sy].
Qed.
(** ... and Y is not *)
Example C112_case_asymmetric : exists y, make_gate 0 [2] 2 ymat [] 0 = Some y /\ matrix_over [2] y /\ ~ symmetric_matrix [2] y /\ transpose 0 [2] y = None.
Proof.
  exists y_small. split; [exact y_small_gate|]. split; [exact y_small_wf|].
  assert (Hd : forall d, In d [2] -> 0 < d) by (intros d [<-|[]]; lia).
  assert (N : transpose 0 [2] y_small = None).
  { rewrite transpose_value by exact Hd. assert (Mk : marked 0 [2] (snd y_small) = false) by exact (y_small_marked 0). rewrite Mk. reflexivity. }
  split; [|exact N]. intros Sy. rewrite (gate_transposed [2] 2 ymat [] y_small Hd y_small_gate Sy) in N. discriminate.
Qed.
