(** The elementary rotations of the ansatz: closed forms of the exponentials, unitarity (C71). *)
From Coq Require Import List ZArith Arith Lia Reals Lra Bool.
From Verif Require Import Base.Py Base.PyFacts Base.Cplx Base.Matrix Base.Radix Base.Expm.
From Verif Require Import Gates.SingleModel Gates.TwoModel Gates.TwoSpec Gates.TwoProofs.
From Verif Require Import Variational.AnsatzModel Variational.AnsatzSpec.
Import ListNotations.
Local Open Scope nat_scope.
Local Open Scope C_scope.

(** a 2x2 block, zero elsewhere *)
Definition block2 (a b : nat) (x y z w : C) : mat := fun i j =>
  if Nat.eqb i a then (if Nat.eqb j a then x else if Nat.eqb j b then y else C0)
  else if Nat.eqb i b then (if Nat.eqb j a then z else if Nat.eqb j b then w else C0)
  else C0.
Lemma csum_two n f a b : (a < n)%nat -> (b < n)%nat -> a <> b -> (forall i, (i < n)%nat -> i <> a -> i <> b -> f i = C0) -> csum n f = f a + f b.
Proof.
  intros Ha Hb N Z.
  rewrite (csum_ext n f (fun i => (if Nat.eqb i a then f a else C0) + (if Nat.eqb i b then f b else C0))).
  - rewrite csum_add. rewrite (csum_single n _ a), (csum_single n _ b); try assumption.
    + rewrite !Nat.eqb_refl. reflexivity.
    + intros i _ Q. destruct (Nat.eqb_spec i b); [congruence|reflexivity].
    + intros i _ Q. destruct (Nat.eqb_spec i a); [congruence|reflexivity].
  - intros i Hi. destruct (Nat.eqb_spec i a), (Nat.eqb_spec i b); subst; try congruence; try ring. rewrite Z by assumption. ring.
Qed.
Lemma block2_mul d a b x y z w x' y' z' w' : (a < d)%nat -> (b < d)%nat -> a <> b ->
  meq d (mmul d (block2 a b x y z w) (block2 a b x' y' z' w')) (block2 a b (x * x' + y * z') (x * y' + y * w') (z * x' + w * z') (z * y' + w * w')).
Proof.
  intros Ha Hb N i j Hi Hj. unfold mmul. rewrite (csum_two d _ a b Ha Hb N).
  - unfold block2. rewrite !Nat.eqb_refl. assert (E : Nat.eqb b a = false) by (apply Nat.eqb_neq; congruence). rewrite E.
    destruct (Nat.eqb i a), (Nat.eqb i b), (Nat.eqb j a), (Nat.eqb j b); ring.
  - intros k Hk N1 N2. unfold block2. apply Nat.eqb_neq in N1, N2. rewrite N1, N2. destruct (Nat.eqb i a), (Nat.eqb i b); ring.
Qed.
Lemma outer_block d a b c e : (a < d)%nat -> (b < d)%nat -> a <> b -> (c = a \/ c = b) -> (e = a \/ e = b) ->
  meq d (outer (bvec c d) (bvec e d)) (block2 a b (if Nat.eqb c a && Nat.eqb e a then C1 else C0) (if Nat.eqb c a && Nat.eqb e b then C1 else C0)
    (if Nat.eqb c b && Nat.eqb e a then C1 else C0) (if Nat.eqb c b && Nat.eqb e b then C1 else C0)).
Proof.
  intros Ha Hb N Hc He i j Hi Hj. unfold outer, bvec. rewrite !basis_vec_1 by (try assumption; destruct Hc, He; subst; assumption). unfold ket, block2.
  destruct Hc as [->| ->], He as [->| ->]; rewrite ?Nat.eqb_refl;
    (destruct (Nat.eqb_spec a b); [congruence|]); (destruct (Nat.eqb_spec b a); [congruence|]);
    destruct (Nat.eqb_spec i a), (Nat.eqb_spec i b), (Nat.eqb_spec j a), (Nat.eqb_spec j b); subst; try congruence; cbn [andb]; unfold Cconj, C0, C1; apply Ceq; cbn; ring.
Qed.
Ltac blk := intros i j _ _; unfold block2, two_level, mid, madd, msub, mscal, mzero;
  repeat match goal with |- context [Nat.eqb ?u ?v] => destruct (Nat.eqb_spec u v); subst; try congruence; try lia end.

Section Sud.
Variable expm : nat -> mat -> mat.
Hypothesis EX : exact_expm expm.

Lemma exp_block d a b x P1 P2 A T : meq d (mmul d P1 P1) P1 -> meq d (mmul d P2 P2) P2 -> meq d (mmul d P1 P2) mzero -> meq d (mmul d P2 P1) mzero ->
  meq d A (madd (mscal (0%R, x) P1) (mscal (0%R, (- x)%R) P2)) ->
  meq d (madd mid (madd (mscal (cis x - C1) P1) (mscal (cis (- x) - C1) P2))) T ->
  (a < d)%nat -> (b < d)%nat -> meq d (expm d A) T.
Proof.
  intros H11 H22 H12 H21 HA HT _ _. eapply meq_trans; [|exact HT]. apply EX. apply expm_two_proj_exists; assumption.
Qed.
Lemma exp_z d a b x : (a < d)%nat -> (b < d)%nat -> a <> b -> meq d (expm d (mscal (Ci * RtoC x) (z_gen a b d))) (phase_pair a b x).
Proof.
  intros Ha Hb N.
  apply (exp_block d a b x (block2 a b C1 C0 C0 C0) (block2 a b C0 C0 C0 C1)); try assumption.
  - eapply meq_trans; [apply block2_mul; assumption|]. blk; ring.
  - eapply meq_trans; [apply block2_mul; assumption|]. blk; ring.
  - eapply meq_trans; [apply block2_mul; assumption|]. blk; ring.
  - eapply meq_trans; [apply block2_mul; assumption|]. blk; ring.
  - intros i j Hi Hj. unfold z_gen, mscal, madd, msub.
    rewrite (outer_block d a b a a Ha Hb N (or_introl eq_refl) (or_introl eq_refl) i j Hi Hj), (outer_block d a b b b Ha Hb N (or_intror eq_refl) (or_intror eq_refl) i j Hi Hj).
    rewrite !Nat.eqb_refl. destruct (Nat.eqb_spec a b); [congruence|]. destruct (Nat.eqb_spec b a); [congruence|]. cbn [andb].
    unfold block2. destruct (Nat.eqb i a), (Nat.eqb i b), (Nat.eqb j a), (Nat.eqb j b); apply Ceq; cbn; ring.
  - unfold phase_pair. blk; unfold cis, C1, C0; apply Ceq; cbn; ring.
Qed.
Lemma exp_y d a b x : (a < d)%nat -> (b < d)%nat -> a <> b -> meq d (expm d (mscal (Ci * RtoC x) (y_gen a b d))) (real_rotation a b x).
Proof.
  intros Ha Hb N. set (h := RtoC (1 / 2)). set (ih := (0, 1 / 2)%R : C).
  assert (Q1 : h * h = RtoC (1 / 4)) by (unfold h; apply Ceq; cbn; field).
  assert (Q2 : ih * ih = - RtoC (1 / 4)) by (unfold ih; apply Ceq; cbn; field).
  assert (Q4 : h = RtoC (1 / 4) + RtoC (1 / 4)) by (unfold h; apply Ceq; cbn; field).
  assert (Q3 : h * ih = ih * h /\ ih = h * ih + ih * h) by (unfold h, ih; split; apply Ceq; cbn; field). destruct Q3 as [Q3 Q5].
  apply (exp_block d a b x (block2 a b h (- ih) ih h) (block2 a b h ih (- ih) h)); try assumption.
  - eapply meq_trans; [apply block2_mul; assumption|]. unfold h, ih. blk; apply Ceq; cbn; field.
  - eapply meq_trans; [apply block2_mul; assumption|]. unfold h, ih. blk; apply Ceq; cbn; field.
  - eapply meq_trans; [apply block2_mul; assumption|]. unfold h, ih. blk; apply Ceq; cbn; field.
  - eapply meq_trans; [apply block2_mul; assumption|]. unfold h, ih. blk; apply Ceq; cbn; field.
  - intros i j Hi Hj. unfold y_gen, mscal, madd.
    rewrite (outer_block d a b a b Ha Hb N (or_introl eq_refl) (or_intror eq_refl) i j Hi Hj), (outer_block d a b b a Ha Hb N (or_intror eq_refl) (or_introl eq_refl) i j Hi Hj).
    rewrite !Nat.eqb_refl. destruct (Nat.eqb_spec a b); [congruence|]. destruct (Nat.eqb_spec b a); [congruence|]. cbn [andb]. unfold h, ih.
    unfold block2. destruct (Nat.eqb i a), (Nat.eqb i b), (Nat.eqb j a), (Nat.eqb j b); apply Ceq; cbn; field.
  - unfold real_rotation, h, ih. blk; unfold cis; rewrite cos_neg, sin_neg; apply Ceq; cbn; field.
Qed.

Lemma phase_pair_unitary d a b x : (a < d)%nat -> (b < d)%nat -> a <> b -> unitary d (phase_pair a b x).
Proof.
  intros Ha Hb N. pose proof (sin2_cos2 x) as S1. unfold Rsqr in S1. pose proof (sin2_cos2 (- x)) as S2. unfold Rsqr in S2.
  apply two_level_unitary; try assumption; apply Ceq; cbn; rewrite ?cos_neg, ?sin_neg in *; try ring; lra.
Qed.
Lemma real_rotation_unitary d a b x : (a < d)%nat -> (b < d)%nat -> a <> b -> unitary d (real_rotation a b x).
Proof.
  intros Ha Hb N. pose proof (sin2_cos2 x) as S1. unfold Rsqr in S1.
  apply two_level_unitary; try assumption; apply Ceq; cbn; try ring; lra.
Qed.

Lemma mprod_app n l l' : meq n (mprod n (l ++ l')) (mmul n (mprod n l) (mprod n l')).
Proof.
  induction l as [|a l IH]; cbn [app mprod].
  - apply meq_sym, mmul_id_l.
  - eapply meq_trans; [apply mmul_ext; [apply meq_refl|exact IH]|]. apply meq_sym, mmul_assoc.
Qed.
Lemma mprod_unitary n l : (forall a, In a l -> unitary n a) -> unitary n (mprod n l).
Proof.
  induction l as [|a l IH]; intros H; [apply unitary_id|]. apply unitary_mmul; [apply H; left; reflexivity|apply IH; intros b Hb; apply H; right; exact Hb].
Qed.

Lemma step_ok p d u k gen : (k < List.length p)%nat -> sud_step expm p d u k gen = Ok (mmul d u (expm d (mscal (Ci * RtoC (nth k p 0%R)) gen))).
Proof. intros H. unfold sud_step. rewrite pyindex_nat. rewrite (nth_error_nth' p 0%R H). reflexivity. Qed.
Lemma diag_loop p d : (sud_params d <= List.length p)%nat -> forall ls u, (forall l, In l ls -> (l < d - 1)%nat) ->
  exists v, sud_diag expm p d ls u = Ok v /\ meq d v (mmul d u (mprod d (map (fun l => phase_pair l (d - 1) (entry p d l l)) ls))).
Proof.
  intros L. induction ls as [|l ls IH]; intros u H; cbn [sud_diag].
  - exists u. split; [reflexivity|]. apply meq_sym, mmul_id_r.
  - assert (Hl : (l < d - 1)%nat) by (apply H; left; reflexivity).
    rewrite step_ok by (unfold sud_params, reindex in *; nia). cbn [bindr].
    destruct (IH (mmul d u (expm d (mscal (Ci * RtoC (nth (reindex l l d) p 0%R)) (z_gen l (d - 1) d))))) as (v & E & M); [intros; apply H; right; assumption|].
    exists v. split; [exact E|]. eapply meq_trans; [exact M|]. cbn [map mprod]. eapply meq_trans; [apply mmul_assoc|]. apply mmul_ext; [apply meq_refl|].
    apply mmul_ext; [|apply meq_refl]. apply exp_z; lia.
Qed.
Lemma off_loop p d : (sud_params d <= List.length p)%nat -> forall mns u, (forall mn, In mn mns -> (fst mn < snd mn)%nat /\ (snd mn < d)%nat) ->
  exists v, sud_off expm p d mns u = Ok v /\
    meq d v (mmul d u (mprod d (flat_map (fun mn => [phase_pair (fst mn) (snd mn) (entry p d (snd mn) (fst mn)); real_rotation (fst mn) (snd mn) (entry p d (fst mn) (snd mn))]) mns))).
Proof.
  intros L. induction mns as [|[m n] mns IH]; intros u H; cbn [sud_off].
  - exists u. split; [reflexivity|]. apply meq_sym, mmul_id_r.
  - destruct (H (m, n) (or_introl eq_refl)) as [H1 H2]. cbn [fst snd] in *.
    rewrite step_ok by (unfold sud_params, reindex in *; nia). cbn [bindr]. rewrite step_ok by (unfold sud_params, reindex in *; nia). cbn [bindr].
    edestruct IH as (v & E & M); [|exists v; split; [exact E|]].
    + intros mn Hm. apply H. right. exact Hm.
    + eapply meq_trans; [exact M|]. cbn [flat_map app mprod fst snd].
      eapply meq_trans; [apply mmul_assoc|]. eapply meq_trans; [apply mmul_assoc|]. apply mmul_ext; [apply meq_refl|].
      apply mmul_ext; [apply exp_z; lia|]. apply mmul_ext; [apply exp_y; lia|apply meq_refl].
Qed.
Lemma flat_map_flat_map {X Y Z} (f : X -> list Y) (g : Y -> list Z) l : flat_map g (flat_map f l) = flat_map (fun x => flat_map g (f x)) l.
Proof. induction l as [|x l IH]; [reflexivity|]. cbn. rewrite flat_map_app, IH. reflexivity. Qed.
Lemma flat_map_map {X Y Z} (f : X -> Y) (g : Y -> list Z) l : flat_map g (map f l) = flat_map (fun x => g (f x)) l.
Proof. induction l as [|x l IH]; [reflexivity|]. cbn. now rewrite IH. Qed.
Lemma pairs_up_In d mn : In mn (pairs_up d) -> (fst mn < snd mn)%nat /\ (snd mn < d)%nat.
Proof.
  unfold pairs_up. intros H. apply in_flat_map in H. destruct H as (m & Hm & H). apply in_map_iff in H. destruct H as (n & <- & Hn).
  apply in_seq in Hm, Hn. cbn [fst snd]. lia.
Qed.
Lemma sud_closed p d : (sud_params d <= List.length p)%nat -> exists u, generic_sud expm p d = Ok u /\ meq d u (rotation_of p d).
Proof.
  intros L. unfold generic_sud. destruct (diag_loop p d L (seq 0 (d - 1)) mid) as (u & E & M); [intros l Hl; apply in_seq in Hl; lia|]. rewrite E. cbn [bindr].
  destruct (off_loop p d L (pairs_up d) u (pairs_up_In d)) as (v & E' & M'). exists v. split; [exact E'|].
  eapply meq_trans; [exact M'|]. unfold rotation_of. eapply meq_trans; [|apply meq_sym, mprod_app]. apply mmul_ext.
  - eapply meq_trans; [exact M|]. apply mmul_id_l.
  - unfold pairs_up. rewrite flat_map_flat_map. assert (Q : forall (l : list nat) (f g : nat -> list mat), (forall x, f x = g x) -> flat_map f l = flat_map g l).
    { intros l f g Q. induction l as [|x l IH]; [reflexivity|]. cbn. now rewrite Q, IH. }
    erewrite (Q (seq 0 (d - 1))); [apply meq_refl|]. intros m. cbn beta. rewrite flat_map_map. reflexivity.
Qed.
Lemma rotation_unitary p d : unitary d (rotation_of p d).
Proof.
  apply mprod_unitary. intros a H. apply in_app_or in H. destruct H as [H|H].
  - apply in_map_iff in H. destruct H as (l & <- & H). apply in_seq in H. apply phase_pair_unitary; lia.
  - apply in_flat_map in H. destruct H as (m & Hm & H). apply in_flat_map in H. destruct H as (n & Hn & H). apply in_seq in Hm, Hn.
    destruct H as [<-|[<-|[]]]; [apply phase_pair_unitary|apply real_rotation_unitary]; lia.
Qed.
Lemma sud_unitary p d u : (sud_params d <= List.length p)%nat -> generic_sud expm p d = Ok u -> unitary d u.
Proof.
  intros L H. destruct (sud_closed p d L) as (v & E & M). rewrite H in E. injection E as <-. eapply unitary_ext; [apply meq_sym; exact M|]. apply rotation_unitary.
Qed.
End Sud.

(** Too few parameters are not accepted. *)
Lemma sud_short_diag expm p d k : (k < d - 1)%nat -> (List.length p <= k * d + k)%nat -> forall ls u, In k ls -> exists e, sud_diag expm p d ls u = Err e.
Proof.
  intros H L. induction ls as [|l ls IH]; intros u K; [destruct K|]. cbn [sud_diag]. destruct (Nat.eq_dec l k) as [->|N].
  - unfold sud_step. rewrite pyindex_nat. rewrite (proj2 (nth_error_None p (reindex k k d))) by (unfold reindex; lia). eexists. reflexivity.
  - destruct (sud_step expm p d u (reindex l l d) (z_gen l (d - 1) d)) as [v|e]; [|eexists; reflexivity]. cbn [bindr]. apply IH. destruct K; [congruence|assumption].
Qed.
Lemma sud_short_off expm p d m n : (List.length p <= n * d + m)%nat -> forall mns u, In (m, n) mns -> exists e, sud_off expm p d mns u = Err e.
Proof.
  intros L. induction mns as [|[a b] mns IH]; intros u K; [destruct K|]. cbn [sud_off fst snd]. destruct (Nat.eq_dec a m) as [->|N].
  - destruct (Nat.eq_dec b n) as [->|N'].
    + unfold sud_step at 1. rewrite pyindex_nat. rewrite (proj2 (nth_error_None p (reindex n m d))) by (unfold reindex; lia). eexists. reflexivity.
    + destruct (sud_step expm p d u (reindex b m d) (z_gen m b d)) as [v|e]; [|eexists; reflexivity]. cbn [bindr].
      destruct (sud_step expm p d v (reindex m b d) (y_gen m b d)) as [v'|e]; [|eexists; reflexivity]. cbn [bindr]. apply IH. destruct K as [K|K]; [congruence|exact K].
  - destruct (sud_step expm p d u (reindex b a d) (z_gen a b d)) as [v|e]; [|eexists; reflexivity]. cbn [bindr].
    destruct (sud_step expm p d v (reindex a b d) (y_gen a b d)) as [v'|e]; [|eexists; reflexivity]. cbn [bindr]. apply IH. destruct K as [K|K]; [congruence|exact K].
Qed.
Lemma sud_short expm p d : (List.length p < sud_params d)%nat -> exists e, generic_sud expm p d = Err e.
Proof.
  intros L. unfold generic_sud. destruct (sud_diag expm p d (seq 0 (d - 1)) mid) as [u|e]; [|eexists; reflexivity]. cbn [bindr].
  unfold sud_params in L. assert (2 <= d)%nat by nia. apply (sud_short_off expm p d (d - 2) (d - 1)); [nia|].
  unfold pairs_up. apply in_flat_map. exists (d - 2)%nat. split; [apply in_seq; lia|]. apply in_map_iff. exists (d - 1)%nat. split; [reflexivity|apply in_seq; lia].
Qed.
