(** The assumptions on the library can be met. *)
From Coq Require Import Reals Lra Lia List Arith ZArith ClassicalDescription IndefiniteDescription R_Ifp.
From Verif.Base Require Import Py Cplx Matrix.
From Verif.Ent Require Import BlockModel BlockSpec.
Import ListNotations.
Local Open Scope nat_scope.

Lemma sum_to_ext n f g : (forall i, i < n -> f i = g i) -> sum_to n f = sum_to n g.
Proof. induction n as [|n IH]; intros H; [reflexivity|]. cbn [sum_to]. rewrite IH, H by (intros; apply H || idtac; lia). reflexivity. Qed.
Theorem library_exists : exists round6 det solve, rounds6 round6 /\ exact_det det /\ exact_solve det solve.
Proof.
  set (round6 := fun x => (IZR (Int_part (1000000 * x + 1 / 2)) / 1000000)%R).
  set (det := fun n M => if excluded_middle_informative (exists x, (exists i, i < n /\ x i <> 0%R) /\ solves n M x (fun _ => 0%R)) then 0%R else 1%R).
  set (solve := fun n M b => match excluded_middle_informative (exists x, solves n M x b) with
    | left H => Ok (map (proj1_sig (constructive_indefinite_description _ H)) (seq 0 n)) | right _ => Err RuntimeError end).
  exists round6, det, solve. split; [|split].
  - intros x. unfold round6. destruct (base_Int_part (1000000 * x + 1 / 2)) as [A B]. split; [|eexists; reflexivity].
    set (k := IZR (Int_part (1000000 * x + 1 / 2))) in *. apply Rabs_le. split; lra.
  - intros n M. unfold det. destruct (excluded_middle_informative _) as [H|H]; split; intros H'; try assumption; try reflexivity; [lra|contradiction].
  - intros n M b x _ Hx. unfold solve. destruct (excluded_middle_informative (exists x, solves n M x b)) as [H|H]; [|exfalso; apply H; exists x; exact Hx].
    destruct (constructive_indefinite_description _ H) as [y Hy]. cbn [proj1_sig]. eexists. split; [reflexivity|]. split; [rewrite map_length; apply seq_length|].
    intros i Hi. rewrite <- (Hy i Hi). apply sum_to_ext. intros j Hj. f_equal. rewrite (nth_indep _ 0%R (y 0)) by (rewrite map_length, seq_length; exact Hj).
    rewrite map_nth, seq_nth by exact Hj. reflexivity.
Qed.
