(** The matrices of the C++ header are those of the Python gate classes. *)
From Coq Require Import List ZArith Arith Lia Reals Lra String Bool.
From Verif Require Import Base.Py Base.Cplx Base.Matrix Gates.AnglesModel Gates.AnglesSpec Gates.AnglesProofs Gates.SingleModel Gates.SingleSpec Gates.SingleProofs.
From Verif Require Import Gates.TwoModel Misim.DdModel Misim.MisimModel Misim.MisimSpec.
Import ListNotations.
Local Open Scope nat_scope.

Lemma supported_spec d : supported d = true <-> 2 <= d <= 7.
Proof. unfold supported. rewrite andb_true_iff, !Nat.leb_le. reflexivity. Qed.
Ltac small d H := apply supported_spec in H; destruct d as [|[|[|[|[|[|[|[|d]]]]]]]]; try lia; clear H.
Ltac small_ix i := destruct i as [|[|[|[|[|[|[|i]]]]]]]; try lia.

Lemma cpp_x_ok d : supported d = true -> meq d (cpp_x d) (x_array d).
Proof.
  intros H i j Hi Hj. rewrite x_array_entry by assumption. unfold cpp_x. 
  assert (E : nth j (nth i (x_table d) []) 0 = if Nat.eqb i ((j + 1) mod d) then 1 else 0).
  { small d H; small_ix i; small_ix j; reflexivity. }
  rewrite E. unfold mid. destruct (Nat.eqb i _); cbn; reflexivity.
Qed.
Lemma cpp_h_ok d : supported d = true -> meq d (cpp_h d) (h_array d).
Proof.
  intros H i j Hi Hj. rewrite h_array_entry by assumption. unfold cpp_h. f_equal.
  assert (E : nth j (nth i (h_table d) []) 0 mod d = (i * j) mod d).
  { small d H; small_ix i; small_ix j; reflexivity. }
  assert (Dd : d <> 0) by lia. rewrite <- (omega_pow_mod d (i * j) Dd), <- E, omega_pow_mod by exact Dd. rewrite omega_pow. f_equal. field. apply not_0_INR. exact Dd.
Qed.
Lemma cpp_z_ok d : supported d = true -> meq d (cpp_z d) (z_array d).
Proof.
  intros H i j Hi Hj. rewrite (z_array_diag d i j Hi Hj). unfold cpp_z, mdiag. destruct (Nat.eqb_spec d 2) as [->|N].
  - destruct i as [|[|i]], j as [|[|j]]; try lia; cbn; try reflexivity.
    unfold omega. replace (2 * PI / INR 2)%R with PI by (cbn; field). rewrite cis_PI. ring.
  - destruct (Nat.eqb_spec i j) as [->|]; [|reflexivity]. rewrite cis_rmod2, omega_pow. f_equal. field. apply not_0_INR. lia.
Qed.
Lemma cpp_s_ok d : supported d = true -> meq d (cpp_s d) (s_array d).
Proof.
  intros H i j Hi Hj. unfold cpp_s. destruct (Nat.eqb_spec d 2) as [->|N].
  - reflexivity.
  - rewrite (s_array_diag d N i j Hi Hj). unfold mdiag. destruct (Nat.eqb_spec i j) as [->|]; [|reflexivity]. rewrite cis_rmod2, omega_pow. f_equal.
    destruct (tri_even j) as (u & Eu & Ed). rewrite <- Ed.
    assert (Q : (INR j * INR (j + 1) = 2 * INR u)%R). { rewrite <- mult_INR, Eu, mult_INR. reflexivity. }
    replace (2 / INR d * INR j * INR (j + 1) / 2 * PI)%R with (1 / INR d * (INR j * INR (j + 1)) * PI)%R by (field; apply not_0_INR; lia). rewrite Q. field. apply not_0_INR. lia.
Qed.

(** the identity with a block of two rows and columns replaced *)
Lemma four_two_level aa ab ba bb a b d : a <> b -> meq d (four aa ab ba bb a b) (two_level a b aa ab ba bb).
Proof.
  intros N i j _ _. unfold four, two_level, mset, mid.
  repeat match goal with |- context [Nat.eqb ?u ?v] => destruct (Nat.eqb_spec u v); subst; cbn [andb]; try congruence; try reflexivity end.
Qed.
Lemma on_levels_ok d a b f : d = 2 \/ a < b -> a < d -> b < d -> on_levels d a b f = Done (if Nat.eqb d 2 then f 0 1 else f a b).
Proof.
  intros A Ha Hb. unfold on_levels. destruct (Nat.eqb_spec d 2) as [->|N]; [reflexivity|]. destruct A as [A|A]; [contradiction|].
  unfold bad_levels. destruct (Nat.ltb_spec b a); [lia|]. destruct (Nat.ltb_spec (d - 1) a); [lia|]. destruct (Nat.ltb_spec (d - 1) b); [lia|]. reflexivity.
Qed.
(** the two levels of Python, sorted, are those of C++ *)
Lemma levels_min_max d a b : (0 <= a < Z.of_nat d)%Z -> (0 <= b < Z.of_nat d)%Z -> a <> b -> (a < b)%Z \/ d = 2 ->
  let la := Z.to_nat (Z.min a b) in let lb := Z.to_nat (Z.max a b) in
  (if Nat.eqb d 2 then la = 0 /\ lb = 1 else la = Z.to_nat a /\ lb = Z.to_nat b) /\ (d = 2 \/ Z.to_nat a < Z.to_nat b) /\ Z.to_nat a < d /\ Z.to_nat b < d /\ la <> lb.
Proof. intros Ha Hb N A la lb. unfold la, lb. destruct (Nat.eqb_spec d 2) as [->|Nd]; lia. Qed.

Lemma get_size_0 z r : (0 <= z)%Z -> get_size (PInt z :: r) 0 = Done (Z.to_nat z).
Proof. intros H. unfold get_size. cbn [nth_error]. destruct (Z.ltb_spec z 0); [lia|reflexivity]. Qed.
Lemma get_size_1 x z r : (0 <= z)%Z -> get_size (x :: PInt z :: r) 1 = Done (Z.to_nat z).
Proof. intros H. unfold get_size. cbn [nth_error]. destruct (Z.ltb_spec z 0); [lia|reflexivity]. Qed.
Lemma get_size_2 x y z r : (0 <= z)%Z -> get_size (x :: y :: PInt z :: r) 2 = Done (Z.to_nat z).
Proof. intros H. unfold get_size. cbn [nth_error]. destruct (Z.ltb_spec z 0); [lia|reflexivity]. Qed.

Section Tags.
Variable d : nat.
Hypothesis Hd : supported d = true.

Lemma rxy_ok p M : r_matrix d p = Ok M -> ascending d p -> exists N, single_matrix "rxy" p (Some d) = Done (Some N) /\ meq d N M.
Proof.
  intros H (a & b & rest & -> & A). 
  assert (Hp : exists t f rest', rest = PFloat t :: PFloat f :: rest' /\ (0 <= a < Z.of_nat d)%Z /\ (0 <= b < Z.of_nat d)%Z /\ a <> b).
  { pose proof (proj1 (r_accepts d _) (ex_intro _ M H)) as (a' & b' & t & f & rest' & E & Q). injection E as <- <- ->. exists t, f, rest'. tauto. }
  destruct Hp as (t & f & rest' & -> & Ha & Hb & N).
  destruct (levels_min_max d a b Ha Hb N A) as (L & La & Lb & Lc & Ln).
  unfold single_matrix. cbn [String.eqb Ascii.eqb Bool.eqb plist cbind].
  rewrite get_size_0, get_size_1 by lia. cbn [cbind get_double nth_error]. rewrite Hd. unfold cpp_rxy. rewrite on_levels_ok by tauto. cbn [cbind].
  eexists. split; [reflexivity|]. apply (meq_trans d _ (rotation (Z.to_nat (Z.min a b)) (Z.to_nat (Z.max a b)) t f)); [|apply meq_sym; apply (r_matrix_rotation d a b t f rest' M); exact H].
  assert (G : forall u v, u <> v -> meq d (four (cos (t / 2), 0%R) (- sin (t / 2) * sin f, - sin (t / 2) * cos f)%R (sin (t / 2) * sin f, - sin (t / 2) * cos f)%R (cos (t / 2), 0%R) u v) (rotation u v t f)).
  { intros u v Nuv. apply (meq_trans d _ _ _ (four_two_level _ _ _ _ u v d Nuv)). intros i j _ _. unfold rotation.
    replace (- (Ci * RtoC (sin (t / 2)) * cis (- f)))%C with (- sin (t / 2) * sin f, - sin (t / 2) * cos f)%R by (unfold cis; rewrite cos_neg, sin_neg; apply Ceq; cbn; ring).
    replace (- (Ci * RtoC (sin (t / 2)) * cis f))%C with (sin (t / 2) * sin f, - sin (t / 2) * cos f)%R by (unfold cis; apply Ceq; cbn; ring). reflexivity. }
  destruct (Nat.eqb_spec d 2) as [E|E]; destruct L as [L1 L2]; rewrite L1, L2 in *; apply G; exact Ln.
Qed.
Lemma rz_ok p M : rz_matrix d p = Ok M -> ascending d p -> exists N, single_matrix "rz" p (Some d) = Done (Some N) /\ meq d N M.
Proof.
  intros H (a & b & rest & -> & A). 
  assert (Hp : exists f rest', rest = PFloat f :: rest' /\ (0 <= a < Z.of_nat d)%Z /\ (0 <= b < Z.of_nat d)%Z /\ a <> b).
  { pose proof (proj1 (rz_accepts d _) (ex_intro _ M H)) as (a' & b' & f & rest' & E & Q). injection E as <- <- ->. exists f, rest'. tauto. }
  destruct Hp as (f & rest' & -> & Ha & Hb & N).
  destruct (levels_min_max d a b Ha Hb N A) as (L & La & Lb & Lc & Ln).
  unfold single_matrix. cbn [String.eqb Ascii.eqb Bool.eqb plist cbind].
  rewrite get_size_0, get_size_1 by lia. cbn [cbind get_double nth_error]. rewrite Hd. unfold cpp_rz. rewrite on_levels_ok by tauto. cbn [cbind].
  eexists. split; [reflexivity|]. eapply meq_trans; [|apply meq_sym; apply (rz_value d a b f rest' M H)].
  assert (Ea : Z.of_nat (Z.to_nat (Z.min a b)) = Z.min a b) by lia. assert (Eb : Z.of_nat (Z.to_nat (Z.max a b)) = Z.max a b) by lia.
  assert (G : meq d (mset (mset mid (Z.to_nat (Z.min a b)) (Z.to_nat (Z.min a b)) (cos (f / 2), - sin (f / 2))%R) (Z.to_nat (Z.max a b)) (Z.to_nat (Z.max a b)) (cos (f / 2), sin (f / 2))%R)
    (mdiag (fun l => if (Z.of_nat l =? Z.min a b)%Z then cis (- (f / 2)) else if (Z.of_nat l =? Z.max a b)%Z then cis (f / 2) else C1))).
  { intros i j _ _. unfold mset, mdiag, mid, cis. rewrite cos_neg, sin_neg. rewrite <- Ea, <- Eb. rewrite !(Z2Nat.id) in * by lia.
    destruct (Z.eqb_spec (Z.of_nat i) (Z.min a b)), (Z.eqb_spec (Z.of_nat i) (Z.max a b)); try lia;
    repeat match goal with |- context [Nat.eqb ?u ?v] => destruct (Nat.eqb_spec u v); subst; cbn [andb]; try lia; try reflexivity end. }
  destruct (Nat.eqb_spec d 2) as [E|E]; destruct L as [L1 L2]; rewrite L1, L2 in *; exact G.
Qed.
Lemma rh_ok p M : rh_matrix d p = Ok M -> ascending d p -> exists N, single_matrix "rh" p (Some d) = Done (Some N) /\ meq d N M.
Proof.
  intros H (a & b & rest & -> & A). 
  pose proof (rh_accepts d _ M H) as (a' & b' & rest' & E & Ha & Hb & N & _). injection E as <- <- _.
  destruct (levels_min_max d a b Ha Hb N A) as (L & La & Lb & Lc & Ln).
  unfold single_matrix. cbn [String.eqb Ascii.eqb Bool.eqb plist cbind].
  rewrite get_size_0, get_size_1 by lia. cbn [cbind]. rewrite Hd. unfold cpp_rh. rewrite on_levels_ok by tauto. cbn [cbind].
  eexists. split; [reflexivity|]. eapply meq_trans; [|apply meq_sym; apply (rh_value d a b rest M H)].
  assert (G : forall u v, u <> v -> meq d (four (0%R, (1 / sqrt 2)%R) (0%R, (1 / sqrt 2)%R) (0%R, (1 / sqrt 2)%R) (0%R, - (1 / sqrt 2))%R u v) (rhad u v)).
  { intros u v Nuv. apply (meq_trans d _ _ _ (four_two_level _ _ _ _ u v d Nuv)). intros i j _ _. unfold rhad.
    replace (Ci * RtoC (1 / sqrt 2))%C with (0%R, (1 / sqrt 2)%R) by (apply Ceq; cbn; ring).
    replace (- (0%R, (1 / sqrt 2)%R))%C with (0%R, - (1 / sqrt 2))%R by (apply Ceq; cbn; ring). reflexivity. }
  destruct (Nat.eqb_spec d 2) as [E'|E']; destruct L as [L1 L2]; rewrite L1, L2 in *; apply G; exact Ln.
Qed.
Lemma virtrz_ok a f : (0 <= a < Z.of_nat d)%Z ->
  exists N, single_matrix "virtrz" (PList [PInt a; PFloat f]) (Some d) = Done (Some N) /\ meq d N (virtrz_matrix d (PList [PInt a; PFloat f])).
Proof.
  intros Ha. unfold single_matrix. cbn [String.eqb Ascii.eqb Bool.eqb plist cbind].
  rewrite get_size_0 by lia. cbn [cbind get_double nth_error]. rewrite Hd. unfold cpp_virtrz.
  destruct (Nat.ltb_spec (Z.to_nat a + Z.to_nat a * d) (d * d)) as [L|L]; [|nia]. cbn [cbind].
  eexists. split; [reflexivity|]. eapply meq_trans; [|apply meq_sym; apply virtrz_matrix_spec; exact Ha].
  intros i j _ _. unfold mset, mdiag, mid, cis. rewrite cos_neg, sin_neg.
  repeat match goal with |- context [Nat.eqb ?u ?v] => destruct (Nat.eqb_spec u v); subst; cbn [andb]; try congruence; try reflexivity end.
Qed.
Lemma x_ok p : exists N, single_matrix "x" p (Some d) = Done (Some N) /\ meq d N (x_array d).
Proof. unfold single_matrix. cbn [String.eqb Ascii.eqb Bool.eqb]. rewrite Hd. cbn [cbind]. eexists. split; [reflexivity|apply cpp_x_ok; exact Hd]. Qed.
Lemma z_ok p : exists N, single_matrix "z" p (Some d) = Done (Some N) /\ meq d N (z_array d).
Proof. unfold single_matrix. cbn [String.eqb Ascii.eqb Bool.eqb]. rewrite Hd. cbn [cbind]. eexists. split; [reflexivity|apply cpp_z_ok; exact Hd]. Qed.
Lemma h_ok p : exists N, single_matrix "h" p (Some d) = Done (Some N) /\ meq d N (h_array d).
Proof. unfold single_matrix. cbn [String.eqb Ascii.eqb Bool.eqb]. rewrite Hd. cbn [cbind]. eexists. split; [reflexivity|apply cpp_h_ok; exact Hd]. Qed.
Lemma s_ok p : exists N, single_matrix "s" p (Some d) = Done (Some N) /\ meq d N (s_array d).
Proof. unfold single_matrix. cbn [String.eqb Ascii.eqb Bool.eqb]. rewrite Hd. cbn [cbind]. eexists. split; [reflexivity|apply cpp_s_ok; exact Hd]. Qed.

Lemma emb_x_ok phi a b : a < b -> b < d -> exists N, cpp_emb_x d phi a b = Done N /\ meq d N (cex_op a b phi).
Proof.
  intros A B. unfold cpp_emb_x. rewrite on_levels_ok by (try right; lia). eexists. split; [reflexivity|].
  assert (E : (if Nat.eqb d 2 then four C0 (- sin phi, - cos phi)%R (sin phi, - cos phi)%R C0 0 1 else four C0 (- sin phi, - cos phi)%R (sin phi, - cos phi)%R C0 a b) = four C0 (- sin phi, - cos phi)%R (sin phi, - cos phi)%R C0 a b).
  { destruct (Nat.eqb_spec d 2) as [->|]; [|reflexivity]. replace a with 0 by lia. replace b with 1 by lia. reflexivity. }
  rewrite E. unfold four, cex_op.
  replace (- (Ci * RtoC (cos phi)) - RtoC (sin phi))%C with (- sin phi, - cos phi)%R by (apply Ceq; cbn; ring).
  replace (- (Ci * RtoC (cos phi)) + RtoC (sin phi))%C with (sin phi, - cos phi)%R by (apply Ceq; cbn; ring). apply meq_refl.
Qed.
End Tags.
