(** C97: the Gell-Mann gates. *)
From Coq Require Import Reals Arith ZArith String Lia Lra.
From Verif.Base Require Import Py Cplx Matrix.
From Verif.Gates Require Import GellModel GellSpec GellProofs.
Local Open Scope nat_scope.

(** [gate_of d m]: the array of the gate for member m of the family (GellSpec.v), on a qudit with d levels. *)

Theorem C97_hermitian_traceless : forall d m, belongs d m -> exists M, gate_of d m = Ok M /\ meq d (madj M) M /\ trace d M = C0.
Proof.
  intros d m H. destruct (gate_of_gm d m H) as (M & E & Q). exists M. split; [exact E|]. split.
  - intros i j _ _. unfold madj. rewrite !Q. apply (gm_hermitian d m i j H).
  - rewrite <- (traceless d m H). apply csum_ext. intros i _. apply Q.
Qed.
Print Assumptions C97_hermitian_traceless.
Theorem C97_orthogonal : forall d m n M N, belongs d m -> belongs d n -> gate_of d m = Ok M -> gate_of d n = Ok N ->
  (m = n -> trace d (mmul d M N) = RtoC 2) /\ (m <> n -> trace d (mmul d M N) = C0).
Proof.
  intros d m n M N Hm Hn EM EN. destruct (gate_of_gm d m Hm) as (M' & EM' & QM). destruct (gate_of_gm d n Hn) as (N' & EN' & QN). rewrite EM in EM'. rewrite EN in EN'. injection EM' as <-. injection EN' as <-.
  assert (E : trace d (mmul d M N) = if member_eqb m n then RtoC 2 else C0).
  { rewrite <- (orthogonal d m n Hm Hn). apply csum_ext. intros i _. apply csum_ext. intros j _. rewrite QM, QN. reflexivity. }
  rewrite E. split; intros H.
  - rewrite (proj2 (member_eqb_spec m n) H). reflexivity.
  - destruct (member_eqb m n) eqn:B; [|reflexivity]. apply member_eqb_spec in B. contradiction.
Qed.
Print Assumptions C97_orthogonal.
(** Every matrix is a combination of the identity and the family; [G m] is the array of member m. *)
Theorem C97_basis : forall d G, (forall m, belongs d m -> gate_of d m = Ok (G m)) -> forall M,
  meq d M (fun i j => (trace d M * RtoC (/ INR d) * mid i j + over_family d (fun m => RtoC (1 / 2) * trace d (mmul d (G m) M) * G m i j))%C).
Proof.
  intros d G HG M i j Hi Hj. rewrite (expand d M i j Hi Hj) at 1. unfold expansion. f_equal. apply fam_ext. intros m Hm.
  destruct (gate_of_gm d m Hm) as (M' & E & Q). rewrite (HG m Hm) in E. injection E as <-. rewrite Q. f_equal. f_equal. apply csum_ext. intros k _. apply csum_ext. intros l _. rewrite Q. reflexivity.
Qed.
Print Assumptions C97_basis.
(** A level that the qudit does not have is not refused by the constructor; the array then fails. *)
Theorem C97_range_refuted : forall d t, 1 <= d -> (exists p, gellmann_new 0 (Z.of_nat d) t = Ok p) /\ gellmann_matrix d 0 (Z.of_nat d) t = Err IndexError.
Proof.
  intros d t H. unfold gellmann_matrix, gellmann_new, SingleModel.gellmann_validate. rewrite (proj2 (Z.leb_le 0 0)), (proj2 (Z.ltb_lt 0 (Z.of_nat d))) by lia. cbn [andb bindr].
  split; [eauto|]. rewrite Nat2Z.id, (proj2 (Nat.ltb_ge d d)) by lia. reflexivity.
Qed.
Print Assumptions C97_range_refuted.
(** As a gate it is not unitary: the symmetric one is on a qudit with more than two levels no isometry. *)
Theorem C97_unitary_refuted : forall d M, 3 <= d -> gate_of d (Sym 0 1) = Ok M -> ~ meq d (mmul d (madj M) M) mid.
Proof. exact not_unitary. Qed.
Print Assumptions C97_unitary_refuted.
Example C97_case : belongs 3 (Sym 0 2) /\ belongs 3 (Anti 1 2) /\ belongs 3 (Diag 2) /\ exists G, forall m, belongs 3 m -> gate_of 3 m = Ok (G m).
Proof. repeat split; try (cbn; lia). exact (family_exists 3). Qed.
