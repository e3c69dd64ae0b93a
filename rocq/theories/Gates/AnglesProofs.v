From Coq Require Import Reals Lra Lia ZArith.
From Verif Require Import Gates.AnglesModel Gates.AnglesSpec.
Open Scope R_scope.

Lemma Int_part_bounds x : IZR (Int_part x) <= x < IZR (Int_part x) + 1.
Proof. destruct (base_Int_part x) as [H1 H2]. lra. Qed.

Lemma rmod_bounds x m : 0 < m -> 0 <= rmod x m < m.
Proof.
  intros Hm. unfold rmod. pose proof (Int_part_bounds (x / m)) as [H1 H2].
  assert (x = m * (x / m)) by (field; lra). set (q := x / m) in *. clearbody q. nra.
Qed.
Lemma rmod_same x m : same_mod m (rmod x m) x.
Proof. exists (- Int_part (x / m))%Z. rewrite opp_IZR. unfold rmod. ring. Qed.

Lemma IZR_lt_1 k : (-1 < IZR k < 1) -> k = 0%Z.
Proof. intros [H1 H2]. apply lt_IZR in H1, H2. lia. Qed.

(** uniqueness of the representative in a half-open interval *)
Lemma same_mod_unique m x y lo : 0 < m -> same_mod m x y ->
  lo <= x < lo + m -> lo <= y < lo + m -> x = y.
Proof.
  intros Hm (k & Hk) Hx Hy. assert (k = 0%Z).
  { apply IZR_lt_1. set (z := IZR k) in *. clearbody z. split; nra. }
  subst k. lra.
Qed.
Lemma same_mod_sym m x y : same_mod m x y -> same_mod m y x.
Proof. intros (k & H). exists (- k)%Z. rewrite opp_IZR, H. ring. Qed.
Lemma same_mod_trans m x y z : same_mod m x y -> same_mod m y z -> same_mod m x z.
Proof. intros (k & H) (l & H'). exists (k + l)%Z. rewrite plus_IZR, H, H'. ring. Qed.
Lemma same_mod_refl m x : same_mod m x x.
Proof. exists 0%Z. ring. Qed.
Lemma same_mod_shift m x y : same_mod m x y -> same_mod m (x - m) y.
Proof. intros (k & H). exists (k - 1)%Z. rewrite minus_IZR, H. ring. Qed.

Lemma rmod_small x m : 0 <= x < m -> rmod x m = x.
Proof.
  intros H. apply (same_mod_unique m _ _ 0); [lra|apply rmod_same| |lra].
  pose proof (rmod_bounds x m). lra.
Qed.

Lemma new_mod_spec a b : 0 < b ->
  same_mod b (new_mod a b) a /\ (0 <= a -> 0 <= new_mod a b < b) /\ (a < 0 -> - b < new_mod a b <= 0).
Proof.
  intros Hb. unfold new_mod. pose proof (rmod_bounds a b Hb) as Hr. pose proof (rmod_same a b) as Hs.
  destruct (Req_EM_T (rmod a b) 0) as [E|E].
  - split; [exact Hs|]. split; intros; lra.
  - destruct (Rlt_dec a 0) as [Ha|Ha].
    + split; [apply same_mod_shift; exact Hs|]. split; intros; lra.
    + split; [exact Hs|]. split; intros; lra.
Qed.

Lemma new_mod_fix a b : 0 < b -> - b < a < b -> new_mod a b = a.
Proof.
  intros Hb Ha. destruct (new_mod_spec a b Hb) as (Hs & Hp & Hn).
  destruct (Rlt_dec a 0) as [H|H].
  - specialize (Hn H). destruct Hs as (k & Hk). assert (k = 0%Z); [|subst k; lra].
    apply IZR_lt_1. set (z := IZR k) in *. clearbody z. split; nra.
  - assert (0 <= a) by lra. apply (same_mod_unique b _ _ 0); [lra|exact Hs| |lra]. specialize (Hp H0). lra.
Qed.

Lemma pi_mod_spec a : same_mod (2 * PI) (pi_mod a) a /\ - PI <= pi_mod a <= PI.
Proof.
  pose proof PI_RGT_0 as HP. assert (Hb : 0 < 2 * PI) by lra.
  destruct (new_mod_spec a (2 * PI) Hb) as (Hs & Hp & Hn).
  assert (Hr : - (2 * PI) < new_mod a (2 * PI) < 2 * PI).
  { destruct (Rlt_dec a 0); [specialize (Hn r)|assert (0 <= a) by lra; specialize (Hp H)]; lra. }
  unfold pi_mod. set (x := new_mod a (2 * PI)) in *.
  destruct (Rlt_dec 0 x).
  - destruct (Rlt_dec PI x).
    + split; [apply same_mod_shift; exact Hs|lra].
    + split; [exact Hs|lra].
  - destruct (Rlt_dec x 0).
    + rewrite Rabs_left by assumption. destruct (Rlt_dec PI (- x)).
      * split; [|lra]. destruct Hs as (k & Hk). exists (k + 1)%Z. rewrite plus_IZR, Hk. ring.
      * split; [exact Hs|lra].
    + split; [exact Hs|lra].
Qed.
Lemma pi_mod_fix a : - PI <= a <= PI -> pi_mod a = a.
Proof.
  pose proof PI_RGT_0 as HP. intros Ha. unfold pi_mod. rewrite new_mod_fix by lra.
  destruct (Rlt_dec 0 a).
  - destruct (Rlt_dec PI a); lra.
  - destruct (Rlt_dec a 0); [|lra]. rewrite Rabs_left by assumption. destruct (Rlt_dec PI (- a)); lra.
Qed.

Lemma regulate_theta_spec t :
  same_mod (4 * PI) (regulate_theta t) t /\
  2 / 10 * PI <= Rabs (regulate_theta t) < 42 / 10 * PI /\
  (2 / 10 * PI <= Rabs (regulate_theta t)) .
Proof.
  pose proof PI_RGT_0 as HP. unfold regulate_theta.
  pose proof (rmod_bounds (Rabs (t / PI)) 4 ltac:(lra)) as Hr.
  destruct (rmod_same (Rabs (t / PI)) 4) as (k & Hk).
  set (u := rmod (Rabs (t / PI)) 4) in *.
  set (t1 := if Rlt_dec t 0 then u * -1 else u).
  assert (H1 : same_mod 4 t1 (t / PI) /\ Rabs t1 = u).
  { unfold t1. destruct (Rlt_dec t 0) as [Ht|Ht].
    - assert (t / PI < 0).
      { replace (t / PI) with (- (- t / PI)) by (field; lra).
        assert (0 < - t / PI) by (apply Rdiv_lt_0_compat; lra). lra. }
      rewrite Rabs_left in Hk by assumption. split.
      + exists (- k)%Z. rewrite opp_IZR, Hk. ring.
      + replace (u * -1) with (- u) by ring. rewrite Rabs_Ropp, Rabs_right; lra.
    - assert (0 <= t / PI) by (apply Rmult_le_pos; [lra|left; apply Rinv_0_lt_compat; lra]).
      rewrite Rabs_right in Hk by lra. split; [exists k; exact Hk|]. rewrite Rabs_right; lra. }
  destruct H1 as [(j & Hj) Habs].
  set (t2 := if Rlt_dec (Rabs t1) (2 / 10) then t1 + 4 else t1).
  assert (H2 : same_mod 4 t2 (t / PI) /\ 2 / 10 <= Rabs t2 < 42 / 10).
  { unfold t2. destruct (Rlt_dec (Rabs t1) (2 / 10)) as [Hs|Hs].
    - split; [exists (j + 1)%Z; rewrite plus_IZR, Hj; ring|].
      apply Rabs_def2 in Hs. rewrite Rabs_right; lra.
    - split; [exists j; exact Hj|]. lra. }
  destruct H2 as [(l & Hl) Hb]. split; [|split].
  - exists l. rewrite Hl. field. lra.
  - rewrite Rabs_mult, (Rabs_right PI) by lra. nra.
  - rewrite Rabs_mult, (Rabs_right PI) by lra. nra.
Qed.

Lemma regulate_theta_sign t : 2 / 10 * PI <= Rabs t < 4 * PI -> regulate_theta t = t.
Proof.
  pose proof PI_RGT_0 as HP. intros H. unfold regulate_theta.
  assert (E : Rabs (t / PI) = Rabs t / PI).
  { unfold Rdiv. rewrite Rabs_mult, (Rabs_right (/ PI)); [reflexivity|].
    left. apply Rinv_0_lt_compat. lra. }
  assert (Hu : 2 / 10 <= Rabs t / PI < 4).
  { assert (Rabs t = Rabs t / PI * PI) by (field; lra). set (u := Rabs t / PI) in *. clearbody u. split; nra. }
  rewrite E, rmod_small by lra.
  assert (Hx : forall x, Rabs x = Rabs t / PI ->
     (if Rlt_dec (Rabs x) (2 / 10) then x + 4 else x) = x).
  { intros x Hx. rewrite Hx. destruct (Rlt_dec (Rabs t / PI) (2 / 10)); lra. }
  destruct (Rlt_dec t 0) as [Ht|Ht].
  - rewrite Hx.
    + rewrite Rabs_left by assumption. field. lra.
    + replace (Rabs t / PI * -1) with (- (Rabs t / PI)) by ring. rewrite Rabs_Ropp, Rabs_right; lra.
  - rewrite Hx.
    + rewrite Rabs_right by lra. field. lra.
    + rewrite Rabs_right; lra.
Qed.

Lemma theta_cost_props t : 0 <= theta_cost t /\ theta_cost (- t) = theta_cost t.
Proof.
  unfold theta_cost. split.
  - pose proof (Rabs_pos (t / PI)).
    pose proof (Rabs_pos (rmod (Rabs (t / PI) + 1 / 4) (1 / 2) - 1 / 4)). lra.
  - replace (- t / PI) with (- (t / PI)) by (unfold Rdiv; ring). rewrite Rabs_Ropp. reflexivity.
Qed.
Lemma phi_cost_props t : 0 <= phi_cost t /\ phi_cost (- t) = phi_cost t.
Proof.
  unfold phi_cost. split.
  - pose proof (Rabs_pos (t / PI)). lra.
  - replace (- t / PI) with (- (t / PI)) by (unfold Rdiv; ring). rewrite Rabs_Ropp. reflexivity.
Qed.
Lemma theta_cost_zero t : theta_cost t = 0 <-> t = 0.
Proof.
  pose proof PI_RGT_0 as HP. unfold theta_cost. split.
  - intros H. pose proof (Rabs_pos (t / PI)).
    pose proof (Rabs_pos (rmod (Rabs (t / PI) + 1 / 4) (1 / 2) - 1 / 4)).
    assert (E : Rabs (t / PI) = 0) by lra.
    destruct (Req_dec (t / PI) 0) as [E'|E']; [|apply Rabs_no_R0 in E'; contradiction].
    assert (t = t / PI * PI) by (field; lra). rewrite H2, E'. ring.
  - intros ->. replace (0 / PI) with 0 by (field; lra). rewrite Rabs_R0.
    rewrite rmod_small by lra. replace (0 + 1 / 4 - 1 / 4) with 0 by ring. rewrite Rabs_R0. ring.
Qed.
