(** Properties of the objective of the sparsifier (C92). *)
From Coq Require Import Reals List Lia Lra Permutation ZArith Arith.
From Verif.Base Require Import Py Cplx Matrix Radix Angle.
From Verif.Gates Require Import FactorySpec.
From Verif.Variational Require Import AnsatzModel AnsatzSpec EmitCases SparseModel SparseSpec SparseProofs SparseObjective.
Import ListNotations.
Local Open Scope R_scope.

(** ** Hoyer's measure *)
Theorem C92_range : forall l f, compute_f l = Ok f -> 0 <= f <= 1.
Proof. exact compute_range. Qed.
Print Assumptions C92_range.
(** It fails exactly on arrays with less than two entries or with zeros only. *)
Theorem C92_defined : forall l, (measurable l -> exists f, compute_f l = Ok f) /\ (~ measurable l -> compute_f l = Err ValueError).
Proof. intros l. split; [intros M; rewrite compute_closed by exact M; eauto|apply compute_rejects]. Qed.
Print Assumptions C92_defined.
(** It is 0 for one nonzero entry only, and 1 for entries of equal magnitude only. *)
Theorem C92_sparsest : forall l, measurable l -> (compute_f l = Ok 0 <-> one_nonzero l).
Proof. exact compute_zero. Qed.
Print Assumptions C92_sparsest.
Theorem C92_densest : forall l, measurable l -> (compute_f l = Ok 1 <-> all_alike l).
Proof. exact compute_one. Qed.
Print Assumptions C92_densest.
(** Neither a common factor nor the order of the entries matters. *)
Theorem C92_invariant : forall l l' k, k <> C0 -> Permutation l' (map (Cmul k) l) -> compute_f l' = compute_f l.
Proof. intros l l' k Hk P. rewrite (compute_perm _ _ P). apply compute_scale, Hk. Qed.
Print Assumptions C92_invariant.
(** The density is the share of the entries above 1e-8. *)
Theorem C92_density : forall l n, large l n -> density l = INR n / INR (length l).
Proof. exact density_large. Qed.
Print Assumptions C92_density.

(** ** The objective *)
Theorem C92_objective_range : forall expm p m d0 d1 v, objective_function expm p m d0 d1 = Ok v -> 0 <= v <= 1.
Proof. exact objective_range. Qed.
Print Assumptions C92_objective_range.
(** It is defined for every unitary and all angles. *)
Theorem C92_objective_returns : forall expm, exact_expm expm -> forall d0 d1, (2 <= d0)%nat -> (2 <= d1)%nat -> forall p m,
  length p = (2 * (sud_params d0 + sud_params d1))%nat -> unitary (d0 * d1) m -> exists v, objective_function expm p m d0 d1 = Ok v.
Proof. exact objective_returns. Qed.
Print Assumptions C92_objective_returns.
(** Violation: the objective depends on the global phase of the matrix, which has no effect. *)
Theorem C92_phase_refuted : forall expm, exact_expm expm -> exists m c p v w, unitary 4 m /\ Cmod c = 1 /\
  objective_function expm p m 2 2 = Ok v /\ objective_function expm p (mscal c m) 2 2 = Ok w /\ v < w.
Proof.
  intros expm EX. destruct (phase_differs expm EX) as (v & w & V & W & L). exists tgate, (cis (- (PI / 8))), still, v, w.
  split; [exact tgate_unitary|]. split; [apply Cmod_cis|]. auto.
Qed.
Print Assumptions C92_phase_refuted.

Example C92_case : measurable [C0; RtoC 3; C0; Ci] /\ ~ one_nonzero [C0; RtoC 3; C0; Ci] /\ one_nonzero [C0; RtoC 3; C0] /\ all_alike [Ci; C1; Copp C1].
Proof.
  split; [|split; [|split]].
  - split; [cbn; lia|]. exists Ci. split; [cbn; auto|]. intros E. apply (f_equal snd) in E. cbn in E. lra.
  - intros (a & z & b & E & N & Z). assert (T : RtoC 3 <> C0) by (intros Q; apply (f_equal fst) in Q; cbn in Q; lra). assert (I : Ci <> C0) by (intros Q; apply (f_equal snd) in Q; cbn in Q; lra).
    destruct a as [|a0 [|a1 [|a2 [|a3 a]]]]; cbn [app] in E.
    + apply T, Z. injection E as _ <-. cbn. auto.
    + apply I, Z. injection E as _ _ <-. cbn. auto.
    + apply T, Z. injection E as _ <- _ _. cbn. auto.
    + apply T, Z. injection E as _ <- _ _ _. cbn. auto.
    + apply (f_equal (@length C)) in E. cbn in E. rewrite app_length in E. cbn in E. lia.
  - exists [C0], (RtoC 3), [C0]. split; [reflexivity|]. split; [intros Q; apply (f_equal fst) in Q; cbn in Q; lra|]. intros y [<-|[<-|[]]]; reflexivity.
  - assert (A : forall x, In x [Ci; C1; Copp C1] -> Cmod x = 1) by (intros x [<-|[<-|[<-|[]]]]; unfold Cmod; (transitivity (sqrt 1); [f_equal; unfold Cnorm2, Ci, C1; cbn; ring|apply sqrt_1])). intros x y I J. rewrite (A x I), (A y J). reflexivity.
Qed.
Example C92_case_large : large [1; 0; 1 / 2] 2.
Proof. repeat first [apply large_nil | apply large_no; [lra|] | apply large_yes; [lra|]]. Qed.
