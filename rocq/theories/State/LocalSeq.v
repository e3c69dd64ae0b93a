(** The rotations of one node (retrieve_local_sequence). *)
From Coq Require Import Reals List Arith ZArith Lia Lra.
From Verif.Base Require Import Py Cplx Matrix Angle.
From Verif.Gates Require Import AnglesModel SingleModel SingleSpec SingleProofs.
From Verif.Local Require Import QrMath AdaModel AdaProofs.
From Verif.Sim Require Import TnSpec TnProofs.
From Verif.State Require Import DdModel DdSpec DdProofs CutProofs PrepModel OpAct.
Import ListNotations.
Local Open Scope nat_scope.

Definition lrun (d : nat) (os : list operation) (v : vec) : vec := fold_left (fun v o => mapply d (op_mat o) v) os v.
Lemma lrun_app d a b v : lrun d (a ++ b) v = lrun d b (lrun d a v).
Proof. apply fold_left_app. Qed.
Lemma lrun_veq d os : forall v w, veq d v w -> veq d (lrun d os v) (lrun d os w).
Proof. induction os as [|o os IH]; intros v w H; cbn; [exact H|]. apply IH. apply mapply_ext; [apply meq_refl|exact H]. Qed.
Lemma lrun_scal d os : forall c v, veq d (lrun d os (fun k => Cmul c (v k))) (fun k => Cmul c (lrun d os v k)).
Proof.
  induction os as [|o os IH]; intros c v; cbn; [intros k _; reflexivity|]. intros k Hk. etransitivity; [|apply (IH c (mapply d (op_mat o) v) k Hk)]. apply (lrun_veq d os); [|exact Hk].
  intros i Hi. unfold mapply. rewrite <- csum_mul_l. apply csum_ext. intros j Hj. ring.
Qed.
Lemma lrun_zero d os v : veq d v (fun _ => C0) -> veq d (lrun d os v) (fun _ => C0).
Proof.
  intros H k Hk. transitivity (lrun d os (fun i => Cmul C0 (v i)) k).
  - apply (lrun_veq d os); [|exact Hk]. intros i Hi. rewrite (H i Hi). ring.
  - rewrite (lrun_scal d os C0 v k Hk). ring.
Qed.

Definition loop_op (cs : list (nat * nat)) (q : nat) (iap : nat * (R * R)) : operation := Operation cs q false (fst iap) (fst (snd iap)) (snd (snd iap)).

(** the rotation of the loop *)
Section Turn.
Variables (d i : nat) (coef : vec).
Hypothesis Hi : i + 1 < d.
Let a := fst (get_angles (coef (i + 1)) (coef i)).
Let p := snd (get_angles (coef (i + 1)) (coef i)).
Lemma turn_matrix : exists m, r_matrix d (PList [PInt (Z.of_nat i); PInt (Z.of_nat (i + 1)); PFloat a; PFloat p]) = Ok m /\ meq d m (rotation i (i + 1) a p).
Proof.
  eexists. split.
  - apply r_matrix_spec. exists (Z.of_nat i), (Z.of_nat (i + 1)), a, p, []. split; [reflexivity|]. split; [lia|]. split; [lia|]. split; [lia|reflexivity].
  - rewrite Z.min_l, Z.max_r by lia. rewrite !Nat2Z.id. eapply meq_trans; [apply r_array_rotation; lia|apply rotation_regulated].
Qed.
Lemma turn_zero : mapply d (rotation i (i + 1) a p) coef (i + 1) = C0.
Proof.
  pose proof (swing_zero d (fun r _ => coef r) 0 i (i + 1) ltac:(lia) ltac:(lia)) as Z.
  rewrite <- Z. unfold mapply, mmul. apply csum_ext. intros k Hk. f_equal. symmetry. apply (swing_rotation d (fun r _ => coef r) 0 i (i + 1) ltac:(lia) (i + 1) k Hi Hk).
Qed.
Lemma turn_other j : j <> i -> j <> i + 1 -> j < d -> mapply d (rotation i (i + 1) a p) coef j = coef j.
Proof.
  intros N1 N2 Hj. unfold mapply. rewrite <- (csum_mid_l d j coef Hj). apply csum_ext. intros k Hk. f_equal. apply rotation_outside; assumption.
Qed.
Lemma turn_back : veq d (mapply d (rotation i (i + 1) (- a) p) (mapply d (rotation i (i + 1) a p) coef)) coef.
Proof.
  intros k Hk. rewrite <- (mapply_mmul d (rotation i (i + 1) (- a) p) (rotation i (i + 1) a p) coef k Hk). rewrite <- (mapply_id d coef k Hk).
  apply mapply_ext; [|intros j _; reflexivity|exact Hk]. apply rotation_inv; lia.
Qed.
Lemma turn_norm : norm2 d (mapply d (rotation i (i + 1) a p) coef) = norm2 d coef.
Proof. apply norm2_unitary. apply rotation_unitary; lia. Qed.
End Turn.

Lemma local_loop_ok d cs q n : forall coef, n < d -> (forall j, n < j < d -> coef j = C0) ->
  exists v log, local_loop d n coef = Ok (v, log) /\ (forall j, 0 < j < d -> v j = C0) /\ norm2 d v = norm2 d coef /\
    List.length log = n /\ Forall (fun iap => fst iap < n) log /\ veq d (lrun d (map (loop_op cs q) log) v) coef.
Proof.
  induction n as [|i IH]; intros coef Hn Z.
  - exists coef, []. cbn. repeat split; trivial.
  - cbn [local_loop]. destruct (turn_matrix d i coef ltac:(lia)) as (m & E & M). rewrite E. cbn [bindr].
    set (a := fst (get_angles (coef (i + 1)) (coef i))) in *. set (p := snd (get_angles (coef (i + 1)) (coef i))) in *.
    assert (Q : veq d (mapply d m coef) (mapply d (rotation i (i + 1) a p) coef)) by (apply mapply_ext; [exact M|intros k _; reflexivity]).
    destruct (IH (mapply d m coef)) as (v & log & E' & Zv & Nv & Ll & Fl & Rv); [lia| |].
    { intros j Hj. rewrite (Q j) by lia. destruct (Nat.eq_dec j (i + 1)) as [->|N]; [apply (turn_zero d i coef); lia|]. etransitivity; [apply (turn_other d i coef j); lia|apply Z; lia]. }
    exists v, (log ++ [(i, ((- a)%R, p))]). rewrite E'. cbn [bindr fst snd]. split; [reflexivity|]. split; [exact Zv|]. split; [|split; [|split]].
    + rewrite Nv. rewrite (norm2_ext d _ _ Q). apply turn_norm. lia.
    + rewrite app_length. cbn. lia.
    + apply Forall_app. split; [eapply Forall_impl; [|exact Fl]; cbn; intros; lia|]. constructor; [cbn; lia|constructor].
    + rewrite map_app, lrun_app. cbn [map lrun fold_left]. intros k Hk. rewrite <- (turn_back d i coef ltac:(lia) k Hk). fold a p. unfold op_mat, loop_op. cbn [o_z o_level o_theta o_phi fst snd].
      apply mapply_ext; [apply meq_refl| |exact Hk]. intros j Hj. etransitivity; [apply (Rv j Hj)|apply (Q j Hj)].
Qed.

Lemma norm2_first d v : 0 < d -> (forall j, 0 < j < d -> v j = C0) -> norm2 d v = Cnorm2 (v 0).
Proof.
  intros Hd Z. unfold norm2. apply (rsum_single d (fun k => Cnorm2 (v k)) 0 Hd). intros k Hk N. rewrite (Z k) by lia. unfold Cnorm2, C0. cbn. ring.
Qed.
Lemma Cmod_one z : Cnorm2 z = 1%R -> Cmod z = 1%R.
Proof. intros E. unfold Cmod. rewrite E. apply sqrt_1. Qed.
Lemma phase_of x c : (0 < x)%R -> Cnorm2 c = 1%R -> cis (angle (find_complex_number (RtoC x) c)) = c.
Proof.
  intros X N. set (z := find_complex_number (RtoC x) c). set (k := (/ (x * x))%R).
  assert (K : (0 < k)%R) by (apply Rinv_0_lt_compat; nra).
  assert (E : z = Cmul (RtoC k) c).
  { unfold z, find_complex_number, k, RtoC, Re, Im, Cmul. cbn. apply Ceq; cbn; field; lra. }
  assert (M : Cmod z = k).
  { rewrite E, Cmod_mul, (Cmod_one c N). unfold Cmod, Cnorm2, RtoC. cbn. replace (k * k + 0 * 0)%R with (k * k)%R by ring. rewrite sqrt_square by lra. ring. }
  pose proof (angle_polar z) as P. rewrite M in P. rewrite E in P at 1.
  assert (D : Cmul (RtoC k) (Csub c (cis (angle z))) = C0) by (replace (Cmul (RtoC k) (Csub c (cis (angle z)))) with (Csub (Cmul (RtoC k) c) (Cmul (RtoC k) (cis (angle z)))) by ring; rewrite <- P; ring).
  apply Cmul_integral in D. destruct D as [D|D]; [apply (RtoC_inj k 0) in D; lra|]. replace (cis (angle z)) with (Csub c (Csub c (cis (angle z)))) by ring. rewrite D. ring.
Qed.

Lemma weights_nth ch i : nth i (map weight ch) C0 = weight (nth i ch dead).
Proof. apply (map_nth weight ch dead). Qed.
Lemma weights_norm ch : norm2 (List.length ch) (fun i => nth i (map weight ch) C0) = sumR (map (fun c => Cnorm2 (weight c)) ch).
Proof.
  rewrite <- (rsum_list (map (fun c => Cnorm2 (weight c)) ch) (List.length ch)) by apply map_length. unfold norm2. apply rsum_ext. intros k Hk. rewrite weights_nth.
  rewrite (nth_indep _ 0%R (Cnorm2 (weight dead))) by (rewrite map_length; exact Hk). symmetry. apply (map_nth (fun c => Cnorm2 (weight c))).
Qed.

Lemma local_ops_ok cs q x ch : 1 < List.length ch -> sumR (map (fun c => Cnorm2 (weight c)) ch) = 1%R -> (0 < x)%R -> let d := List.length ch in
  exists ops, local_ops cs q d (RtoC x) ch = Ok ops /\ List.length ops = d /\
    Forall (fun o => o_controls o = cs /\ o_qudit o = q /\ (if o_z o then 1 else o_level o + 1) < d) ops /\
    veq d (lrun d ops (ket 0)) (fun i => weight (nth i ch dead)).
Proof.
  intros L U X d. unfold local_ops. fold d.
  destruct (local_loop_ok d cs q (d - 1) (fun i => nth i (map weight ch) C0)) as (v & log & E & Zv & Nv & Ll & Fl & Rv); [lia|lia|].
  rewrite E. cbn [bindr fst snd]. eexists. split; [reflexivity|]. split; [cbn [List.length]; rewrite map_length, Ll; lia|]. split.
  - constructor; [cbn; split; [reflexivity|split; [reflexivity|lia]]|]. apply Forall_forall. intros o Ho. apply in_map_iff in Ho. destruct Ho as (iap & <- & Hin). cbn. rewrite Forall_forall in Fl. specialize (Fl iap Hin). split; [reflexivity|split; [reflexivity|lia]].
  - assert (N1 : Cnorm2 (v 0) = 1%R) by (rewrite <- (norm2_first d v ltac:(lia) Zv), Nv; unfold d; rewrite weights_norm; exact U).
    intros i Hi. rewrite <- weights_nth. rewrite <- (Rv i Hi). unfold lrun at 1. cbn [fold_left]. change (fold_left (fun (v0 : vec) (o : operation) => mapply d (op_mat o) v0) (map (loop_op cs q) log)) with (lrun d (map (loop_op cs q) log)). 
    apply (lrun_veq d (map (loop_op cs q) log)); [|exact Hi]. intros j Hj. rewrite (mapply_ket d _ 0 j) by lia. unfold op_mat. cbn [o_z o_theta].
    unfold zrot, two_level. destruct (Nat.eqb_spec j 0) as [->|J0].
    + cbn [Nat.eqb]. replace (- (- angle (find_complex_number (RtoC x) (v 0%nat)) * 2 / 2))%R with (angle (find_complex_number (RtoC x) (v 0%nat))) by field. apply phase_of; assumption.
    + rewrite (Zv j) by lia. destruct (Nat.eqb_spec j 1) as [->|J1]; [reflexivity|]. unfold mid. apply Nat.eqb_neq in J0. rewrite J0. reflexivity.
Qed.
