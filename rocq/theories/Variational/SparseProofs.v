(** Proofs about the objective of the sparsifier. *)
From Coq Require Import Reals List Lia Lra Permutation Arith.
From Verif.Base Require Import Py Cplx Matrix Radix Angle.
From Verif.Variational Require Import AnsatzModel SparseModel SparseSpec.
Import ListNotations.
Local Open Scope R_scope.

Definition sq (l : list R) : R := total (map (fun x => x * x) l).
Lemma total_nonneg l : (forall x, In x l -> 0 <= x) -> 0 <= total l.
Proof. induction l as [|x l IH]; cbn; intros H; [lra|]. assert (0 <= x) by (apply H; now left). assert (0 <= total l) by (apply IH; intros; apply H; now right). unfold total in *. lra. Qed.
Lemma total_zero l : (forall x, In x l -> 0 <= x) -> total l = 0 -> forall x, In x l -> x = 0.
Proof.
  induction l as [|y l IH]; cbn [total fold_right]; intros H E x I; [destruct I|].
  assert (0 <= y) by (apply H; now left). assert (P : 0 <= total l) by (apply total_nonneg; intros; apply H; now right). fold (total l) in E.
  destruct I as [<-|I]; [lra|]. apply IH; [intros; apply H; now right|lra|exact I].
Qed.
Lemma total_all_zero l : (forall x, In x l -> x = 0) -> total l = 0.
Proof. induction l as [|y l IH]; cbn; intros H; [reflexivity|]. rewrite (H y (or_introl eq_refl)). fold (total l). rewrite IH; [lra|]. intros; apply H; now right. Qed.
Lemma sq_nonneg l : 0 <= sq l.
Proof. apply total_nonneg. intros x I. apply in_map_iff in I. destruct I as (y & <- & _). apply Rle_0_sqr. Qed.
Lemma sq_zero l : sq l = 0 -> forall x, In x l -> x = 0.
Proof.
  intros E x I. assert (Q : x * x = 0). { apply (total_zero (map (fun x => x * x) l)); [|exact E|apply in_map_iff; eauto]. intros y J. apply in_map_iff in J. destruct J as (w & <- & _). apply Rle_0_sqr. }
  nra.
Qed.
(** sum of (x - y)^2 over y in l *)
Lemma spread x l : total (map (fun y => (x - y) * (x - y)) l) = INR (length l) * (x * x) - 2 * x * total l + sq l.
Proof. unfold sq. induction l as [|y l IH]; [cbn; ring|]. cbn [map total fold_right length]. fold (total (map (fun y => (x - y) * (x - y)) l)). fold (total l). fold (total (map (fun x => x * x) l)). rewrite IH, S_INR. ring. Qed.
Lemma spread_nonneg x l : 0 <= total (map (fun y => (x - y) * (x - y)) l).
Proof. apply total_nonneg. intros z I. apply in_map_iff in I. destruct I as (y & <- & _). apply Rle_0_sqr. Qed.
Lemma cauchy l : total l * total l <= INR (length l) * sq l.
Proof.
  induction l as [|x l IH]; [cbn; lra|]. pose proof (spread_nonneg x l) as S1. rewrite spread in S1.
  unfold sq in *. cbn [map total fold_right length]. fold (total l). fold (total (map (fun x => x * x) l)) in *. rewrite S_INR. nra.
Qed.
Lemma cauchy_eq l : total l * total l = INR (length l) * sq l -> forall x y, In x l -> In y l -> x = y.
Proof.
  induction l as [|x l IH]; intros E; [intros ? ? []|]. pose proof (cauchy l) as C. pose proof (spread_nonneg x l) as S1. rewrite spread in S1.
  assert (A : total l * total l = INR (length l) * sq l /\ INR (length l) * (x * x) - 2 * x * total l + sq l = 0).
  { unfold sq in *. cbn [map total fold_right length] in E. fold (total l) in E. fold (total (map (fun x => x * x) l)) in *. rewrite S_INR in E. split; nra. }
  destruct A as [A B]. assert (X : forall y, In y l -> y = x).
  { intros y I. rewrite <- spread in B. assert (Q : (x - y) * (x - y) = 0); [|nra].
    apply (total_zero (map (fun y => (x - y) * (x - y)) l)); [|exact B|apply in_map_iff; eauto]. intros z J. apply in_map_iff in J. destruct J as (w & <- & _). apply Rle_0_sqr. }
  intros a b [<-|I] [<-|J]; auto. symmetry; auto.
Qed.
Lemma cauchy_alike l : (forall x y, In x l -> In y l -> x = y) -> total l * total l = INR (length l) * sq l.
Proof.
  intros H. destruct l as [|x l]; [cbn; lra|]. assert (A : forall y, In y (x :: l) -> y = x) by (intros y I; apply H; [exact I|now left]). clear H.
  assert (T : total (x :: l) = INR (length (x :: l)) * x /\ sq (x :: l) = INR (length (x :: l)) * (x * x)).
  { revert A. generalize (x :: l) as r. induction r as [|y r IH]; intros A; [cbn; lra|]. destruct IH as [I1 I2]; [intros; apply A; now right|]. unfold sq in *. cbn [map total fold_right length]. fold (total r). fold (total (map (fun x => x * x) r)). rewrite S_INR, I1, I2, (A y (or_introl eq_refl)). lra. }
  destruct T as [-> ->]. ring.
Qed.
(** the sum of squares against the square of the sum *)
Lemma square_sum l : (forall x, In x l -> 0 <= x) -> sq l <= total l * total l.
Proof.
  induction l as [|x l IH]; intros P; [cbn; lra|]. assert (Px : 0 <= x) by (apply P; now left). assert (Pl : forall y, In y l -> 0 <= y) by (intros; apply P; now right).
  specialize (IH Pl). pose proof (total_nonneg l Pl) as T. unfold sq in *. cbn [map total fold_right]. fold (total l). fold (total (map (fun x => x * x) l)) in *. nra.
Qed.
Lemma square_sum_eq l : (forall x, In x l -> 0 <= x) -> sq l = total l * total l ->
  (forall x, In x l -> x = 0) \/ exists a x b, l = a ++ x :: b /\ 0 < x /\ forall y, In y (a ++ b) -> y = 0.
Proof.
  induction l as [|x l IH]; intros P E; [left; intros ? []|]. assert (Px : 0 <= x) by (apply P; now left). assert (Pl : forall y, In y l -> 0 <= y) by (intros; apply P; now right).
  pose proof (total_nonneg l Pl) as T. pose proof (square_sum l Pl) as S2. assert (Q : x * total l = 0 /\ sq l = total l * total l).
  { unfold sq in *. cbn [map total fold_right] in E. fold (total l) in E. fold (total (map (fun x => x * x) l)) in *. split; nra. }
  destruct Q as [Q1 Q2]. destruct (Req_dec x 0) as [->|Nx].
  - destruct (IH Pl Q2) as [Z|(a & z & b & -> & Hz & Z)].
    + left. intros y [<-|I]; auto.
    + right. exists (0 :: a), z, b. split; [reflexivity|]. split; [exact Hz|]. intros y [<-|I]; auto.
  - right. exists [], x, l. split; [reflexivity|]. split; [lra|]. cbn. intros y I. apply (total_zero l Pl); [|exact I]. apply Rmult_integral in Q1. destruct Q1; [contradiction|assumption].
Qed.
Lemma total_app a b : total (a ++ b) = total a + total b.
Proof. induction a as [|x a IH]; [symmetry; apply Rplus_0_l|]. change (x + total (a ++ b) = x + total a + total b). rewrite IH. ring. Qed.
Lemma square_sum_one a x b : (forall y, In y (a ++ b) -> y = 0) -> sq (a ++ x :: b) = total (a ++ x :: b) * total (a ++ x :: b).
Proof.
  intros Z. assert (A : total a = 0 /\ total b = 0 /\ sq a = 0 /\ sq b = 0).
  { repeat split; apply total_all_zero; intros y I; try (apply Z, in_or_app; auto; fail); apply in_map_iff in I; destruct I as (w & <- & I); rewrite (Z w) by (apply in_or_app; auto); lra. }
  destruct A as (A1 & A2 & A3 & A4). unfold sq in *. rewrite map_app. cbn [map]. rewrite !total_app. cbn [total fold_right]. fold (total b) (total (map (fun x => x * x) b)). rewrite A1, A2, A3, A4. ring.
Qed.

(** *** The measure *)
Definition mags (l : list C) : list R := map Cmod l.
Lemma mags_nonneg l x : In x (mags l) -> 0 <= x.
Proof. intros I. apply in_map_iff in I. destruct I as (z & <- & _). apply Cmod_nonneg. Qed.
Lemma frob_sq l : frobenius_norm l = sqrt (sq (mags l)).
Proof. unfold frobenius_norm, sq, mags. rewrite map_map. f_equal. f_equal. apply map_ext. intros. cbn. ring. Qed.
Lemma frob_ones (l : list C) : frobenius_norm (map (fun _ => C1) l) = sqrt (INR (length l)).
Proof.
  rewrite frob_sq. f_equal. unfold sq, mags. rewrite !map_map. assert (M : Cmod C1 = 1) by (change C1 with (RtoC 1); apply Cmod_RtoC; lra). rewrite M.
  induction l as [|x l IH]; [reflexivity|]. cbn [map total fold_right length]. fold (total (map (fun _ : C => 1 * 1) l)). rewrite IH, S_INR. lra.
Qed.
Lemma frob_pos l : (exists z, In z l /\ z <> C0) <-> 0 < frobenius_norm l.
Proof.
  rewrite frob_sq. split.
  - intros (z & I & N). apply sqrt_lt_R0. destruct (Req_dec (sq (mags l)) 0) as [E|E]; [|pose proof (sq_nonneg (mags l)); lra].
    exfalso. apply N, Cmod_0, (sq_zero _ E). apply in_map, I.
  - intros P. assert (Q : sq (mags l) <> 0) by (intros E; rewrite E, sqrt_0 in P; lra). clear P. induction l as [|z l IH]; [exfalso; apply Q; reflexivity|].
    destruct (Req_dec (Cmod z) 0) as [E|E].
    + destruct IH as (w & I & N); [|exists w; split; [now right|exact N]]. intros F. apply Q. unfold sq, mags in *. cbn [map total fold_right]. rewrite E. fold (total (map (fun x => x * x) (map Cmod l))). rewrite F. lra.
    + exists z. split; [now left|]. intros ->. apply E, Cmod_0. reflexivity.
Qed.
Lemma sqrt_gt_1 n : (2 <= n)%nat -> 1 < sqrt (INR n).
Proof. intros H. rewrite <- sqrt_1 at 1. apply sqrt_lt_1_alt. assert (2 <= INR n) by (apply (le_INR 2), H). lra. Qed.
Lemma denominator_pos l : measurable l -> 0 < sqrt (INR (length l)) * frobenius_norm l - frobenius_norm l.
Proof. intros [H E]. apply frob_pos in E. pose proof (sqrt_gt_1 _ H). nra. Qed.
Lemma compute_closed l : measurable l -> compute_f l = Ok ((manhattan_norm l - frobenius_norm l) / (sqrt (INR (length l)) * frobenius_norm l - frobenius_norm l)).
Proof.
  intros M. pose proof (denominator_pos l M) as D. unfold compute_f. rewrite frob_ones. destruct (Req_EM_T _ 0) as [E|E]; [lra|]. f_equal. field. lra.
Qed.
Lemma compute_rejects l : ~ measurable l -> compute_f l = Err ValueError.
Proof.
  intros M. unfold compute_f. rewrite frob_ones. destruct (Req_EM_T _ 0) as [E|E]; [reflexivity|]. exfalso. apply E.
  destruct (le_lt_dec 2 (length l)) as [H|H].
  - assert (F : frobenius_norm l = 0). { assert (P : ~ 0 < frobenius_norm l) by (intros P; apply M; split; [exact H|apply frob_pos, P]). assert (0 <= frobenius_norm l) by (unfold frobenius_norm; apply sqrt_pos). lra. }
    rewrite F. ring.
  - destruct l as [|z [|w l]]; cbn [length] in H; [|cbn [length INR]; rewrite sqrt_1; ring|lia].
    replace (frobenius_norm []) with 0 by (unfold frobenius_norm; cbn; symmetry; apply sqrt_0). ring.
Qed.
Lemma measurable_dec l : measurable l \/ ~ measurable l.
Proof.
  destruct (le_lt_dec 2 (length l)) as [H|H]; [|right; intros [? _]; lia]. destruct (Rlt_dec 0 (frobenius_norm l)) as [P|P].
  - left. split; [exact H|apply frob_pos, P].
  - right. intros [_ Q]. apply P, frob_pos, Q.
Qed.

Lemma frob_le_manhattan l : frobenius_norm l <= manhattan_norm l.
Proof.
  rewrite frob_sq. pose proof (square_sum (mags l) (mags_nonneg l)) as S. assert (0 <= manhattan_norm l) by (apply total_nonneg, mags_nonneg).
  apply Rle_trans with (sqrt (manhattan_norm l * manhattan_norm l)); [apply sqrt_le_1_alt, S|rewrite sqrt_square; lra].
Qed.
Lemma manhattan_le l : manhattan_norm l <= sqrt (INR (length l)) * frobenius_norm l.
Proof.
  rewrite frob_sq, <- sqrt_mult by (try apply pos_INR; apply sq_nonneg). pose proof (cauchy (mags l)) as S. unfold mags in S at 3. rewrite map_length in S. fold (mags l) in S.
  assert (0 <= manhattan_norm l) by (apply total_nonneg, mags_nonneg).
  rewrite <- (sqrt_square (manhattan_norm l)) by assumption. apply sqrt_le_1_alt, S.
Qed.
Lemma compute_range l f : compute_f l = Ok f -> 0 <= f <= 1.
Proof.
  destruct (measurable_dec l) as [M|M]; [|rewrite compute_rejects by exact M; discriminate]. rewrite compute_closed by exact M. intros [= <-].
  pose proof (denominator_pos l M) as D. pose proof (frob_le_manhattan l). pose proof (manhattan_le l). split.
  - apply Rle_mult_inv_pos; lra.
  - apply Rmult_le_reg_r with (sqrt (INR (length l)) * frobenius_norm l - frobenius_norm l); [exact D|]. unfold Rdiv. rewrite Rmult_assoc, Rinv_l by lra. lra.
Qed.
Lemma frob_square l : frobenius_norm l * frobenius_norm l = sq (mags l).
Proof. rewrite frob_sq. apply sqrt_sqrt, sq_nonneg. Qed.
Lemma compute_zero l : measurable l -> (compute_f l = Ok 0 <-> one_nonzero l).
Proof.
  intros M. pose proof (denominator_pos l M) as D. rewrite compute_closed by exact M. split.
  - intros [= E]. assert (Q : manhattan_norm l = frobenius_norm l).
    { apply Rmult_eq_compat_r with (r := sqrt (INR (length l)) * frobenius_norm l - frobenius_norm l) in E. unfold Rdiv in E. rewrite Rmult_assoc, Rinv_l in E by lra. lra. }
    assert (S : sq (mags l) = total (mags l) * total (mags l)) by (rewrite <- frob_square, <- Q; reflexivity).
    destruct (square_sum_eq _ (mags_nonneg l) S) as [Z|(a & x & b & E' & Hx & Z)].
    + exfalso. destruct M as [_ (z & I & N)]. apply N, Cmod_0, Z, in_map, I.
    + unfold mags in E'. apply map_eq_app in E'. destruct E' as (la & lr & -> & E1 & E2). destruct lr as [|z lb]; [discriminate E2|]. cbn [map] in E2. injection E2 as E2 E3. exists la, z, lb. split; [reflexivity|]. split.
      * intros ->. rewrite (proj2 (Cmod_0 C0) eq_refl) in E2. lra.
      * intros y I. apply Cmod_0, Z. rewrite <- E1, <- E3, <- map_app. apply in_map, I.
  - intros (a & z & b & -> & N & Z). assert (S : sq (mags (a ++ z :: b)) = total (mags (a ++ z :: b)) * total (mags (a ++ z :: b))).
    { unfold mags. rewrite map_app. cbn [map]. apply square_sum_one. intros y I. rewrite <- map_app in I. apply in_map_iff in I. destruct I as (w & <- & I). rewrite (Z w I). apply Cmod_0. reflexivity. }
    assert (Q : manhattan_norm (a ++ z :: b) = frobenius_norm (a ++ z :: b)).
    { rewrite frob_sq, S, sqrt_square; [reflexivity|]. apply total_nonneg, mags_nonneg. }
    f_equal. rewrite Q. unfold Rdiv. ring.
Qed.
Lemma compute_one l : measurable l -> (compute_f l = Ok 1 <-> all_alike l).
Proof.
  intros M. pose proof (denominator_pos l M) as D. rewrite compute_closed by exact M.
  assert (S : total (mags l) * total (mags l) = INR (length (mags l)) * sq (mags l) <-> manhattan_norm l = sqrt (INR (length l)) * frobenius_norm l).
  { unfold mags at 3. rewrite map_length. split; intros E.
    - assert (0 <= manhattan_norm l) by (apply total_nonneg, mags_nonneg). rewrite <- (sqrt_square (manhattan_norm l)) by assumption. rewrite frob_sq, <- sqrt_mult by (try apply pos_INR; apply sq_nonneg). f_equal. exact E.
    - change (total (mags l)) with (manhattan_norm l). rewrite E, <- frob_square. transitivity (sqrt (INR (length l)) * sqrt (INR (length l)) * (frobenius_norm l * frobenius_norm l)); [ring|]. rewrite sqrt_sqrt by apply pos_INR. reflexivity. }
  split.
  - intros [= E]. assert (Q : manhattan_norm l = sqrt (INR (length l)) * frobenius_norm l).
    { apply Rmult_eq_compat_r with (r := sqrt (INR (length l)) * frobenius_norm l - frobenius_norm l) in E. unfold Rdiv in E. rewrite Rmult_assoc, Rinv_l in E by lra. lra. }
    apply S in Q. intros x y I J. apply (cauchy_eq _ Q); apply in_map; assumption.
  - intros A. assert (Q : manhattan_norm l = sqrt (INR (length l)) * frobenius_norm l).
    { apply S, cauchy_alike. intros x y I J. apply in_map_iff in I. apply in_map_iff in J. destruct I as (u & <- & I), J as (v & <- & J). apply A; assumption. }
    f_equal. rewrite Q. field. lra.
Qed.
Lemma total_scale k l : total (map (Rmult k) l) = k * total l.
Proof. induction l as [|x l IH]; cbn; [ring|]. fold (total (map (Rmult k) l)) (total l). rewrite IH. ring. Qed.
Lemma mags_scale k l : mags (map (Cmul k) l) = map (Rmult (Cmod k)) (mags l).
Proof. unfold mags. rewrite !map_map. apply map_ext. intros z. apply Cmod_mul. Qed.
Lemma compute_scale k l : k <> C0 -> compute_f (map (Cmul k) l) = compute_f l.
Proof.
  intros Hk. assert (Kp : 0 < Cmod k) by (pose proof (Cmod_nonneg k); destruct (Req_dec (Cmod k) 0) as [E|E]; [apply Cmod_0 in E; contradiction|lra]).
  assert (F : frobenius_norm (map (Cmul k) l) = Cmod k * frobenius_norm l).
  { rewrite !frob_sq, mags_scale. replace (sq (map (Rmult (Cmod k)) (mags l))) with ((Cmod k * Cmod k) * sq (mags l)).
    - rewrite sqrt_mult by (try apply sq_nonneg; nra). rewrite sqrt_square by lra. reflexivity.
    - unfold sq. rewrite <- total_scale, !map_map. f_equal. apply map_ext. intros. ring. }
  assert (T : manhattan_norm (map (Cmul k) l) = Cmod k * manhattan_norm l).
  { unfold manhattan_norm. fold (mags (map (Cmul k) l)). fold (mags l). rewrite mags_scale. apply total_scale. }
  destruct (measurable_dec l) as [M|M].
  - pose proof (denominator_pos l M) as D. assert (M' : measurable (map (Cmul k) l)).
    { destruct M as [M1 (z & I & N)]. split; [rewrite map_length; exact M1|]. exists (Cmul k z). split; [apply in_map, I|]. intros E. apply Cmul_integral in E. destruct E; contradiction. }
    rewrite (compute_closed l M), (compute_closed _ M'), map_length, F, T. f_equal. field. split; [lra|nra].
  - rewrite (compute_rejects l M). apply compute_rejects. intros [M1 (z & I & N)]. apply M. split; [rewrite map_length in M1; exact M1|]. apply in_map_iff in I. destruct I as (w & <- & I). exists w. split; [exact I|]. intros ->. apply N. ring.
Qed.
Lemma total_perm l l' : Permutation l l' -> total l = total l'.
Proof. induction 1; cbn; unfold total in *; lra. Qed.
Lemma compute_perm l l' : Permutation l l' -> compute_f l = compute_f l'.
Proof.
  intros P. unfold compute_f. rewrite !frob_ones, (Permutation_length P). assert (F : frobenius_norm l = frobenius_norm l') by (unfold frobenius_norm; f_equal; apply total_perm, Permutation_map, P).
  assert (T : manhattan_norm l = manhattan_norm l') by (apply total_perm, Permutation_map, P). rewrite F, T. reflexivity.
Qed.

(** *** The density *)
Lemma large_count l : large l (length (filter (fun x => if Rlt_dec (1 / 100000000) x then true else false) l)).
Proof. induction l as [|x l IH]; cbn [filter]; [constructor|]. destruct (Rlt_dec _ x) as [H|H]; [constructor; assumption|]. constructor; [lra|exact IH]. Qed.
Lemma large_unique l n : large l n -> forall m, large l m -> n = m.
Proof. induction 1; intros m Hm; inversion Hm; subst; try lra; auto. Qed.
Lemma large_le l n : large l n -> (n <= length l)%nat.
Proof. induction 1; cbn; lia. Qed.
Lemma density_large l n : large l n -> density l = (INR n / INR (length l)).
Proof.
  intros H. unfold density. rewrite (large_unique _ _ (large_count l) n H). destruct (Nat.eqb_spec n 0) as [->|N]; [cbn; unfold Rdiv; ring|reflexivity].
Qed.
Lemma density_range l : 0 <= density l <= 1.
Proof.
  pose proof (large_count l) as H. rewrite (density_large l _ H). apply large_le in H. set (n := length (filter _ l)) in *. clearbody n. pose proof (pos_INR n) as Pn. pose proof (le_INR _ _ H) as Le.
  destruct (Req_dec (INR (length l)) 0) as [E|E].
  - assert (INR n = 0) by lra. rewrite H0. unfold Rdiv. lra.
  - assert (0 < INR (length l)) by lra. split; [apply Rle_mult_inv_pos; lra|]. apply Rmult_le_reg_r with (INR (length l)); [lra|]. unfold Rdiv. rewrite Rmult_assoc, Rinv_l by lra. lra.
Qed.
