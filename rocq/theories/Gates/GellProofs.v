(** The Gell-Mann matrices are an orthogonal basis of the traceless matrices (C97). *)
From Coq Require Import Reals Arith ZArith String Lia Lra.
From Verif.Base Require Import Py Cplx Matrix.
From Verif.Gates Require Import SingleModel GellModel GellSpec.
Local Open Scope nat_scope.

Definition coeff (b : nat) : R := sqrt (2 / (INR b * (INR b + 1))).
Definition gm (m : member) : mat := fun i j =>
  match m with
  | Sym a b => if ((Nat.eqb i a && Nat.eqb j b) || (Nat.eqb i b && Nat.eqb j a))%bool then C1 else C0
  | Anti a b => if (Nat.eqb i a && Nat.eqb j b)%bool then Copp Ci else if (Nat.eqb i b && Nat.eqb j a)%bool then Ci else C0
  | Diag b => if Nat.eqb i j then (if i <? b then RtoC (coeff b) else if Nat.eqb i b then RtoC (- (INR b * coeff b)) else C0) else C0
  end.
Lemma gate_of_gm d m : belongs d m -> exists M, gate_of d m = Ok M /\ forall i j, M i j = gm m i j.
Proof.
  intros H. destruct m as [a b|a b|b]; cbn [gate_of belongs] in *; unfold gellmann_matrix, gellmann_new, gellmann_validate.
  - rewrite (proj2 (Z.leb_le 0 (Z.of_nat a))), (proj2 (Z.ltb_lt (Z.of_nat a) (Z.of_nat b))) by lia. cbn [andb bindr]. rewrite !Nat2Z.id, (proj2 (Nat.ltb_lt b d)) by lia. eexists. split; [reflexivity|].
    intros i j. unfold gellmann_array, mset, gm. cbn [String.eqb Ascii.eqb Bool.eqb]. destruct (Nat.eqb i b && Nat.eqb j a)%bool; [rewrite Bool.orb_true_r; reflexivity|]. rewrite Bool.orb_false_r. reflexivity.
  - rewrite (proj2 (Z.leb_le 0 (Z.of_nat a))), (proj2 (Z.ltb_lt (Z.of_nat a) (Z.of_nat b))) by lia. cbn [andb bindr]. rewrite !Nat2Z.id, (proj2 (Nat.ltb_lt b d)) by lia. eexists. split; [reflexivity|].
    intros i j. unfold gellmann_array, mset, gm. cbn [String.eqb Ascii.eqb Bool.eqb]. rewrite (proj2 (Nat.eqb_neq b a)) by lia. cbn [andb].
    destruct (Nat.eqb_spec i b) as [E|E]; destruct (Nat.eqb_spec j a) as [F|F]; cbn [andb]; destruct (Nat.eqb_spec i a) as [E'|E']; destruct (Nat.eqb_spec j b) as [F'|F']; cbn [andb]; try lia; apply Ceq; cbn; ring.
  - rewrite (proj2 (Z.leb_le 0 0)), (proj2 (Z.ltb_lt 0 (Z.of_nat b))) by lia. cbn [andb bindr]. rewrite !Nat2Z.id, (proj2 (Nat.ltb_lt b d)) by lia. eexists. split; [reflexivity|].
    intros i j. unfold gellmann_array, mset, mscal, gm. cbn [String.eqb Ascii.eqb Bool.eqb]. fold (coeff b). rewrite (proj2 (Nat.ltb_ge b b)) by lia. rewrite Bool.andb_false_r.
    destruct (Nat.eqb_spec i j) as [<-|N].
    + destruct (Nat.eqb_spec i b) as [->|E]; cbn [andb].
      * rewrite (proj2 (Nat.ltb_ge b b)) by lia. apply Ceq; cbn; ring.
      * destruct (i <? b); apply Ceq; cbn; ring.
    + cbn [andb]. destruct (Nat.eqb_spec i b) as [->|E]; destruct (Nat.eqb_spec j b) as [->|F]; cbn [andb]; try congruence; apply Ceq; cbn; ring.
Qed.

Lemma coeff_sqr b : 1 <= b -> (coeff b * coeff b * (INR b * (INR b + 1)) = 2)%R.
Proof.
  intros H. assert (P : (1 <= INR b)%R) by (apply (le_INR 1); exact H). assert (Q : (0 < INR b * (INR b + 1))%R) by nra.
  unfold coeff. rewrite sqrt_sqrt; [field; lra|]. unfold Rdiv. apply Rmult_le_pos; [lra|]. left. apply Rinv_0_lt_compat. exact Q.
Qed.
Lemma coeff_pos b : 1 <= b -> (0 < coeff b)%R.
Proof.
  intros H. assert (P : (1 <= INR b)%R) by (apply (le_INR 1); exact H). assert (Q : (0 < INR b * (INR b + 1))%R) by nra.
  apply sqrt_lt_R0. unfold Rdiv. apply Rmult_lt_0_compat; [lra|]. apply Rinv_0_lt_compat. exact Q.
Qed.
Lemma gm_hermitian d m i j : belongs d m -> Cconj (gm m j i) = gm m i j.
Proof.
  destruct m as [a b|a b|b]; cbn [gm belongs]; intros H.
  - rewrite (Bool.orb_comm (Nat.eqb j a && Nat.eqb i b)), (Bool.andb_comm (Nat.eqb j b)), (Bool.andb_comm (Nat.eqb j a)). destruct (_ || _)%bool; apply Ceq; cbn; ring.
  - destruct (Nat.eqb_spec j a), (Nat.eqb_spec i b), (Nat.eqb_spec i a), (Nat.eqb_spec j b); cbn [andb]; try lia; apply Ceq; cbn; ring.
  - rewrite (Nat.eqb_sym j i). destruct (Nat.eqb_spec i j) as [->|N]; [|apply Ceq; cbn; ring]. destruct (j <? b); [apply Ceq; cbn; ring|]. destruct (Nat.eqb j b); apply Ceq; cbn; ring.
Qed.

(** the inner product of a member with any matrix *)
Definition with_member (m : member) (M : mat) : C :=
  match m with
  | Sym a b => (M b a + M a b)%C
  | Anti a b => (Ci * (M a b - M b a))%C
  | Diag b => (RtoC (coeff b) * (csum b (fun j => M j j) - RtoC (INR b) * M b b))%C
  end.
Lemma csum_two d a b (x y : C) : a < d -> b < d -> a <> b -> csum d (fun i => if Nat.eqb i a then x else if Nat.eqb i b then y else C0) = (x + y)%C.
Proof.
  intros Ha Hb N. rewrite (csum_pair d _ a b Ha Hb N).
  - rewrite !Nat.eqb_refl. rewrite (proj2 (Nat.eqb_neq b a)) by congruence. reflexivity.
  - intros i _ A B. rewrite (proj2 (Nat.eqb_neq i a) A), (proj2 (Nat.eqb_neq i b) B). reflexivity.
Qed.
Lemma trace_member d m M : belongs d m -> trace d (mmul d (gm m) M) = with_member m M.
Proof.
  intros H. unfold trace, mmul. destruct m as [a b|a b|b]; cbn [belongs] in H; cbn [with_member].
  - rewrite (csum_ext d _ (fun i => if Nat.eqb i a then M b a else if Nat.eqb i b then M a b else C0)).
    + apply csum_two; lia.
    + intros i Hi. destruct (Nat.eqb_spec i a) as [->|E].
      * rewrite (csum_single d _ b ltac:(lia)); [cbn [gm]; rewrite !Nat.eqb_refl; cbn; ring|]. intros j Hj N. cbn [gm]. rewrite (proj2 (Nat.eqb_neq j b) N), (proj2 (Nat.eqb_neq a b)) by lia. rewrite Bool.andb_false_r. cbn. ring.
      * destruct (Nat.eqb_spec i b) as [->|F].
        -- rewrite (csum_single d _ a ltac:(lia)); [cbn [gm]; rewrite !Nat.eqb_refl, Bool.orb_true_r; ring|]. intros j Hj N. cbn [gm]. rewrite (proj2 (Nat.eqb_neq b a)), (proj2 (Nat.eqb_neq j a) N) by lia. rewrite Bool.andb_false_r. cbn. ring.
        -- apply csum_0. intros j Hj. cbn [gm]. rewrite (proj2 (Nat.eqb_neq i a) E), (proj2 (Nat.eqb_neq i b) F). cbn. ring.
  - rewrite (csum_ext d _ (fun i => if Nat.eqb i a then Copp (Ci * M b a)%C else if Nat.eqb i b then (Ci * M a b)%C else C0)).
    + rewrite csum_two by lia. ring.
    + intros i Hi. destruct (Nat.eqb_spec i a) as [->|E].
      * rewrite (csum_single d _ b ltac:(lia)); [cbn [gm]; rewrite !Nat.eqb_refl; cbn [andb]; ring|]. intros j Hj N. cbn [gm]. rewrite (proj2 (Nat.eqb_neq j b) N), (proj2 (Nat.eqb_neq a b)) by lia. rewrite Bool.andb_false_r. cbn [andb]. ring.
      * destruct (Nat.eqb_spec i b) as [->|F].
        -- rewrite (csum_single d _ a ltac:(lia)); [cbn [gm]; rewrite !Nat.eqb_refl, (proj2 (Nat.eqb_neq b a)) by lia; cbn [andb]; ring|]. intros j Hj N. cbn [gm]. rewrite (proj2 (Nat.eqb_neq b a)), (proj2 (Nat.eqb_neq j a) N) by lia. rewrite Bool.andb_false_r. cbn [andb]. ring.
        -- apply csum_0. intros j Hj. cbn [gm]. rewrite (proj2 (Nat.eqb_neq i a) E), (proj2 (Nat.eqb_neq i b) F). cbn [andb]. ring.
  - rewrite (csum_ext d _ (fun i => (gm (Diag b) i i * M i i)%C)).
    + replace d with (b + (1 + (d - b - 1))) by lia. rewrite csum_app, csum_app. cbn [csum].
      rewrite (csum_0 (d - b - 1)).
      * rewrite (csum_ext b _ (fun i => (RtoC (coeff b) * M i i)%C)).
        -- rewrite csum_mul_l. cbn [gm]. rewrite Nat.add_0_r, !Nat.eqb_refl, (proj2 (Nat.ltb_ge b b)) by lia. apply Ceq; cbn; ring.
        -- intros i Hi. cbn [gm]. rewrite Nat.eqb_refl, (proj2 (Nat.ltb_lt i b) Hi). reflexivity.
      * intros i Hi. cbn [gm]. rewrite Nat.eqb_refl, (proj2 (Nat.ltb_ge (b + (1 + i)) b)), (proj2 (Nat.eqb_neq (b + (1 + i)) b)) by lia. ring.
    + intros i Hi. rewrite (csum_single d _ i Hi); [reflexivity|]. intros j Hj N. cbn [gm]. rewrite (proj2 (Nat.eqb_neq i j)) by congruence. ring.
Qed.
Definition member_eqb (m n : member) : bool :=
  match m, n with
  | Sym a b, Sym a' b' | Anti a b, Anti a' b' => (Nat.eqb a a' && Nat.eqb b b')%bool
  | Diag b, Diag b' => Nat.eqb b b'
  | _, _ => false
  end.
Lemma member_eqb_spec m n : member_eqb m n = true <-> m = n.
Proof.
  destruct m as [a b|a b|b], n as [a' b'|a' b'|b']; cbn; split; intros H; try discriminate.
  - apply Bool.andb_true_iff in H. destruct H as [A B]. apply Nat.eqb_eq in A, B. congruence.
  - injection H as -> ->. rewrite !Nat.eqb_refl. reflexivity.
  - apply Bool.andb_true_iff in H. destruct H as [A B]. apply Nat.eqb_eq in A, B. congruence.
  - injection H as -> ->. rewrite !Nat.eqb_refl. reflexivity.
  - apply Nat.eqb_eq in H. congruence.
  - injection H as ->. apply Nat.eqb_refl.
Qed.
Lemma diag_off b i j : i <> j -> gm (Diag b) i j = C0.
Proof. intros N. cbn. rewrite (proj2 (Nat.eqb_neq i j) N). reflexivity. Qed.
Lemma pair_diag m i : (match m with Diag _ => False | Sym a b | Anti a b => a < b end) -> gm m i i = C0.
Proof.
  destruct m as [a b|a b|b]; intros H; [| |contradiction]; cbn [gm];
    destruct (Nat.eqb_spec i a), (Nat.eqb_spec i b); cbn [andb orb]; try lia; reflexivity.
Qed.
Lemma orthogonal d m n : belongs d m -> belongs d n -> trace d (mmul d (gm m) (gm n)) = if member_eqb m n then RtoC 2 else C0.
Proof.
  intros Hm Hn. rewrite trace_member by exact Hm. destruct m as [a b|a b|b]; cbn [with_member].
  - destruct n as [a' b'|a' b'|b']; cbn [member_eqb].
    + cbn [belongs] in *. cbn [gm]. destruct (Nat.eqb_spec a a'), (Nat.eqb_spec b b'), (Nat.eqb_spec a b'), (Nat.eqb_spec b a'); cbn [andb orb]; try lia; apply Ceq; cbn; ring.
    + cbn [belongs] in *. cbn [gm]. destruct (Nat.eqb_spec a a'), (Nat.eqb_spec b b'), (Nat.eqb_spec a b'), (Nat.eqb_spec b a'); cbn [andb orb]; try lia; apply Ceq; cbn; ring.
    + cbn [belongs] in *. rewrite !diag_off by lia. ring.
  - destruct n as [a' b'|a' b'|b']; cbn [member_eqb].
    + cbn [belongs] in *. cbn [gm]. destruct (Nat.eqb_spec a a'), (Nat.eqb_spec b b'), (Nat.eqb_spec a b'), (Nat.eqb_spec b a'); cbn [andb orb]; try lia; apply Ceq; cbn; ring.
    + cbn [belongs] in *. cbn [gm]. destruct (Nat.eqb_spec a a'), (Nat.eqb_spec b b'), (Nat.eqb_spec a b'), (Nat.eqb_spec b a'); cbn [andb orb]; try lia; apply Ceq; cbn; ring.
    + cbn [belongs] in *. rewrite !diag_off by lia. ring.
  - destruct n as [a' b'|a' b'|b']; cbn [member_eqb].
    + rewrite csum_0 by (intros i Hi; apply pair_diag; cbn [belongs] in Hn; lia). rewrite pair_diag by (cbn [belongs] in Hn; lia). ring.
    + rewrite csum_0 by (intros i Hi; apply pair_diag; cbn [belongs] in Hn; lia). rewrite pair_diag by (cbn [belongs] in Hn; lia). ring.
    + cbn [belongs] in *. destruct (Nat.eqb_spec b b') as [<-|N].
      * rewrite (csum_ext b _ (fun _ => RtoC (coeff b))) by (intros i Hi; cbn [gm]; rewrite Nat.eqb_refl, (proj2 (Nat.ltb_lt i b) Hi); reflexivity). rewrite csum_const.
        cbn [gm]. rewrite Nat.eqb_refl, (proj2 (Nat.ltb_ge b b)) by lia. assert (Q := coeff_sqr b ltac:(lia)). apply Ceq; cbn; nra.
      * destruct (Nat.lt_ge_cases b b') as [L|L].
        -- rewrite (csum_ext b _ (fun _ => RtoC (coeff b'))) by (intros i Hi; cbn [gm]; rewrite Nat.eqb_refl, (proj2 (Nat.ltb_lt i b')) by lia; reflexivity). rewrite csum_const.
           cbn [gm]. rewrite Nat.eqb_refl, (proj2 (Nat.ltb_lt b b') L). ring.
        -- assert (X : csum b (fun j => gm (Diag b') j j) = C0).
           { replace b with (b' + (1 + (b - b' - 1))) by lia. rewrite csum_app, csum_app. cbn [csum]. rewrite (csum_ext b' _ (fun _ => RtoC (coeff b'))) by (intros i Hi; cbn [gm]; rewrite Nat.eqb_refl, (proj2 (Nat.ltb_lt i b') Hi); reflexivity).
             rewrite csum_const, (csum_0 (b - b' - 1)).
             - cbn [gm]. rewrite Nat.add_0_r, !Nat.eqb_refl, (proj2 (Nat.ltb_ge b' b')) by lia. apply Ceq; cbn; ring.
             - intros i Hi. cbn [gm]. rewrite Nat.eqb_refl, (proj2 (Nat.ltb_ge (b' + (1 + i)) b')), (proj2 (Nat.eqb_neq (b' + (1 + i)) b')) by lia. reflexivity. }
           rewrite X. cbn [gm]. rewrite Nat.eqb_refl, (proj2 (Nat.ltb_ge b b')), (proj2 (Nat.eqb_neq b b')) by lia. ring.
Qed.
Lemma traceless d m : belongs d m -> trace d (gm m) = C0.
Proof.
  intros H. assert (E : trace d (gm m) = trace d (mmul d (gm m) mid)) by (apply csum_ext; intros i Hi; symmetry; apply mmul_id_r; exact Hi). rewrite E, trace_member by exact H.
  destruct m as [a b|a b|b]; cbn [belongs with_member] in *; unfold mid.
  - rewrite (proj2 (Nat.eqb_neq a b)), (proj2 (Nat.eqb_neq b a)) by lia. ring.
  - rewrite (proj2 (Nat.eqb_neq a b)), (proj2 (Nat.eqb_neq b a)) by lia. ring.
  - rewrite (csum_ext b _ (fun _ => C1)) by (intros; rewrite Nat.eqb_refl; reflexivity). rewrite csum_const, Nat.eqb_refl. ring.
Qed.
(** Nothing is orthogonal to the identity and to the whole family. *)
Lemma complete d M : trace d M = C0 -> (forall m, belongs d m -> trace d (mmul d (gm m) M) = C0) -> forall i j, i < d -> j < d -> M i j = C0.
Proof.
  intros T H.
  assert (OFF : forall a b, a < b -> b < d -> M a b = C0 /\ M b a = C0).
  { intros a b L Hb. assert (S := H (Sym a b) (conj L Hb)). assert (A := H (Anti a b) (conj L Hb)). rewrite trace_member in S, A by (cbn; lia). cbn [with_member] in *.
    assert (X := f_equal fst S). assert (Y := f_equal snd S). assert (Z := f_equal fst A). assert (W := f_equal snd A). cbn in *. split; apply Ceq; cbn; lra. }
  assert (EQ : forall b, b < d -> M b b = M 0 0).
  { intros b. induction b as [b IH] using lt_wf_ind. intros Hb. destruct (Nat.eq_dec b 0) as [->|N]; [reflexivity|].
    assert (D := H (Diag b) ltac:(cbn; lia)). rewrite trace_member in D by (cbn; lia). cbn [with_member] in D. rewrite (csum_ext b _ (fun _ => M 0 0)) in D by (intros i Hi; apply IH; lia). rewrite csum_const in D.
    assert (CP := coeff_pos b ltac:(lia)). assert (BP : (0 < INR b)%R) by (apply lt_0_INR; lia).
    apply Cmul_integral in D. destruct D as [D|D]; [apply (f_equal fst) in D; cbn in D; lra|].
    assert (D' : (RtoC (INR b) * (M 0 0 - M b b))%C = C0) by (rewrite <- D; ring). apply Cmul_integral in D'. destruct D' as [D'|D']; [apply (f_equal fst) in D'; cbn in D'; lra|].
    replace (M b b) with (M 0 0 - (M 0 0 - M b b))%C by ring. rewrite D'. ring. }
  intros i j Hi Hj. destruct (Nat.lt_trichotomy i j) as [L|[<-|L]]; [exact (proj1 (OFF i j L Hj))| |exact (proj2 (OFF j i L Hi))].
  rewrite (EQ i Hi). unfold trace in T. rewrite (csum_ext d _ (fun _ => M 0 0)) in T by exact EQ. rewrite csum_const in T. apply Cmul_integral in T. destruct T as [T|T]; [|exact T].
  apply (f_equal fst) in T. cbn in T. assert (0 < INR d)%R by (apply lt_0_INR; lia). lra.
Qed.

(** *** Expansion *)
Lemma fam_add d f g : over_family d (fun m => (f m + g m)%C) = (over_family d f + over_family d g)%C.
Proof.
  unfold over_family. rewrite csum_add. rewrite (csum_ext d (fun b => csum b (fun a => (f (Sym a b) + g (Sym a b))%C)) (fun b => (csum b (fun a => f (Sym a b)) + csum b (fun a => g (Sym a b)))%C)) by (intros; apply csum_add).
  rewrite (csum_ext d (fun b => csum b (fun a => (f (Anti a b) + g (Anti a b))%C)) (fun b => (csum b (fun a => f (Anti a b)) + csum b (fun a => g (Anti a b)))%C)) by (intros; apply csum_add).
  rewrite !csum_add. ring.
Qed.
Lemma fam_scal d c f : over_family d (fun m => (c * f m)%C) = (c * over_family d f)%C.
Proof.
  unfold over_family. rewrite csum_mul_l. rewrite (csum_ext d (fun b => csum b (fun a => (c * f (Sym a b))%C)) (fun b => (c * csum b (fun a => f (Sym a b)))%C)) by (intros; apply csum_mul_l).
  rewrite (csum_ext d (fun b => csum b (fun a => (c * f (Anti a b))%C)) (fun b => (c * csum b (fun a => f (Anti a b)))%C)) by (intros; apply csum_mul_l). rewrite !csum_mul_l. ring.
Qed.
Lemma fam_ext d f g : (forall m, belongs d m -> f m = g m) -> over_family d f = over_family d g.
Proof.
  intros H. unfold over_family. f_equal; [f_equal|].
  - apply csum_ext. intros b Hb. apply csum_ext. intros a Ha. apply H. cbn. lia.
  - apply csum_ext. intros b Hb. apply csum_ext. intros a Ha. apply H. cbn. lia.
  - apply csum_ext. intros b Hb. apply H. cbn. lia.
Qed.
Lemma fam_csum d n (f : member -> nat -> C) : csum n (fun j => over_family d (fun m => f m j)) = over_family d (fun m => csum n (f m)).
Proof.
  induction n as [|n IH]; cbn [csum].
  - unfold over_family. rewrite (csum_0 d (fun b => csum b (fun _ => C0))) by (intros; apply csum_0; reflexivity). rewrite (csum_0 (d - 1)) by reflexivity. ring.
  - rewrite IH, fam_add. reflexivity.
Qed.
Lemma fam_single d (f : member -> C) m : belongs d m -> over_family d (fun n => if member_eqb m n then f n else C0) = f m.
Proof.
  intros H. unfold over_family. destruct m as [a b|a b|b]; cbn [member_eqb belongs] in *.
  - rewrite (csum_single d _ b ltac:(lia)).
    + rewrite (csum_single b _ a ltac:(lia)); [rewrite !Nat.eqb_refl; cbn [andb]|intros a' _ N; rewrite (proj2 (Nat.eqb_neq a a')) by congruence; reflexivity].
      rewrite (csum_0 d) by (intros; apply csum_0; reflexivity). rewrite (csum_0 (d - 1)) by reflexivity. ring.
    + intros b' _ N. apply csum_0. intros a' _. rewrite (proj2 (Nat.eqb_neq b b')) by congruence. rewrite Bool.andb_false_r. reflexivity.
  - rewrite (csum_0 d (fun b0 => csum b0 (fun _ => C0))) by (intros; apply csum_0; reflexivity). rewrite (csum_single d _ b ltac:(lia)).
    + rewrite (csum_single b _ a ltac:(lia)); [rewrite !Nat.eqb_refl; cbn [andb]|intros a' _ N; rewrite (proj2 (Nat.eqb_neq a a')) by congruence; reflexivity].
      rewrite (csum_0 (d - 1)) by reflexivity. ring.
    + intros b' _ N. apply csum_0. intros a' _. rewrite (proj2 (Nat.eqb_neq b b')) by congruence. rewrite Bool.andb_false_r. reflexivity.
  - rewrite (csum_0 d (fun b0 => csum b0 (fun _ => C0))) by (intros; apply csum_0; reflexivity). rewrite (csum_single (d - 1) _ (b - 1) ltac:(lia)).
    + replace (S (b - 1)) with b by lia. rewrite Nat.eqb_refl. ring.
    + intros b' _ N. rewrite (proj2 (Nat.eqb_neq b (S b'))) by lia. reflexivity.
Qed.
Definition expansion (d : nat) (M : mat) : mat := fun i j =>
  (trace d M * RtoC (/ INR d) * mid i j + over_family d (fun m => RtoC (1 / 2) * trace d (mmul d (gm m) M) * gm m i j))%C.
Lemma with_sub m M N : with_member m (msub M N) = (with_member m M - with_member m N)%C.
Proof.
  destruct m as [a b|a b|b]; cbn [with_member]; unfold msub; [ring|ring|].
  rewrite (csum_ext b _ (fun j => (M j j + Copp C1 * N j j)%C)) by (intros; ring). rewrite csum_add, csum_mul_l. ring.
Qed.
Lemma with_family d m (c : member -> C) : with_member m (fun i j => over_family d (fun n => (c n * gm n i j)%C)) = over_family d (fun n => (c n * with_member m (gm n))%C).
Proof.
  destruct m as [a b|a b|b]; cbn [with_member].
  - rewrite <- fam_add. apply fam_ext. intros n _. ring.
  - transitivity (over_family d (fun n => (Ci * (c n * gm n a b) + (Copp Ci) * (c n * gm n b a))%C)).
    + rewrite fam_add, !fam_scal. ring.
    + apply fam_ext. intros n _. ring.
  - rewrite fam_csum. transitivity (over_family d (fun n => (RtoC (coeff b) * csum b (fun j => c n * gm n j j) + (Copp (RtoC (coeff b) * RtoC (INR b))) * (c n * gm n b b))%C)).
    + rewrite fam_add, !fam_scal. ring.
    + apply fam_ext. intros n _. rewrite csum_mul_l. ring.
Qed.
Theorem expand d M : meq d M (expansion d M).
Proof.
  intros i j Hi Hj. assert (DP : (0 < INR d)%R) by (apply lt_0_INR; lia).
  set (c := fun m => (RtoC (1 / 2) * trace d (mmul d (gm m) M))%C). set (t := (trace d M * RtoC (/ INR d))%C).
  set (S := (fun i j => over_family d (fun m => (c m * gm m i j)%C)) : mat).
  assert (E : forall i j, expansion d M i j = (t * mid i j + S i j)%C) by reflexivity.
  assert (TS : trace d S = C0).
  { unfold trace, S. rewrite fam_csum. transitivity (over_family d (fun _ => (C0 * C0)%C)); [|rewrite fam_scal; ring]. apply fam_ext. intros m Hm. rewrite csum_mul_l. fold (trace d (gm m)). rewrite (traceless d m Hm). ring. }
  assert (TI : trace d mid = RtoC (INR d)).
  { unfold trace, mid. rewrite (csum_ext d _ (fun _ => C1)) by (intros; rewrite Nat.eqb_refl; reflexivity). rewrite csum_const. ring. }
  assert (Z : (M i j - expansion d M i j)%C = C0).
  { apply (complete d (msub M (expansion d M))); [| |exact Hi|exact Hj].
    - unfold trace, msub. rewrite (csum_ext d _ (fun k => (M k k + (Copp t * mid k k + Copp C1 * S k k))%C)) by (intros k _; rewrite E; ring).
      rewrite csum_add, csum_add, !csum_mul_l. fold (trace d M) (trace d mid) (trace d S). rewrite TS, TI. unfold t. transitivity (trace d M - trace d M * (RtoC (/ INR d) * RtoC (INR d)))%C; [ring|].
      rewrite <- RtoC_mul, Rinv_l by lra. replace (RtoC 1) with C1 by reflexivity. ring.
    - intros m Hm. rewrite trace_member by exact Hm. rewrite with_sub. rewrite <- (trace_member d m M Hm).
      assert (X : with_member m (expansion d M) = (t * with_member m mid + with_member m S)%C).
      { destruct m as [a b|a b|b]; cbn [with_member]; rewrite ?E; [ring|ring|]. rewrite (csum_ext b _ (fun k => (t * mid k k + S k k)%C)) by (intros; apply E). rewrite csum_add, csum_mul_l. ring. }
      rewrite X. unfold S. rewrite with_family. rewrite <- (trace_member d m mid Hm).
      replace (trace d (mmul d (gm m) mid)) with C0 by (rewrite <- (traceless d m Hm); apply csum_ext; intros k Hk; symmetry; apply mmul_id_r; exact Hk).
      rewrite (fam_ext d _ (fun n => if member_eqb m n then (c n * RtoC 2)%C else C0)).
      + rewrite (fam_single d (fun n => (c n * RtoC 2)%C) m Hm). unfold c. generalize (trace d (mmul d (gm m) M)). intros x. replace (RtoC (1 / 2) * x * RtoC 2)%C with (x * (RtoC (1 / 2) * RtoC 2))%C by ring. rewrite <- RtoC_mul. replace (1 / 2 * 2)%R with 1%R by lra. replace (RtoC 1) with C1 by reflexivity. ring.
      + intros n Hn. rewrite <- (trace_member d m (gm n) Hm), (orthogonal d m n Hm Hn). destruct (member_eqb m n); ring. }
  replace (M i j) with ((M i j - expansion d M i j) + expansion d M i j)%C by ring. rewrite Z. ring.
Qed.
Lemma not_unitary d M : 3 <= d -> gate_of d (Sym 0 1) = Ok M -> ~ meq d (mmul d (madj M) M) mid.
Proof.
  intros H E U. destruct (gate_of_gm d (Sym 0 1)) as (M' & E' & Q); [cbn; lia|]. rewrite E in E'. injection E' as <-. specialize (U 2 2 ltac:(lia) ltac:(lia)).
  unfold mmul in U. rewrite csum_0 in U; [unfold mid in U; cbn in U; apply (f_equal fst) in U; cbn in U; lra|]. intros k _. rewrite (Q k 2). cbn [gm]. cbn [Nat.eqb]. rewrite !Bool.andb_false_r. cbn. ring.
Qed.
Lemma family_exists d : exists G, forall m, belongs d m -> gate_of d m = Ok (G m).
Proof. exists (fun m => match gate_of d m with Ok M => M | Err _ => mid end). intros m H. destruct (gate_of_gm d m H) as (M & E & _). rewrite E. reflexivity. Qed.
