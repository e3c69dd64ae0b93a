From Coq Require Import List Arith ZArith Reals Bool Lia Lra.
From Verif Require Import Base.Cplx Base.Angle Misim.TableModel Misim.TableSpec Misim.TableProofs.
Import ListNotations.
Local Open Scope nat_scope.

(** errors of the arithmetic *)
Section Arith.
Variable tol : R.
Hypothesis pos : (0 < tol)%R.
Lemma near_mod a b : near tol a b = true -> (Cmod (Csub a b) <= 2 * tol)%R.
Proof.
  intros H. unfold near in H. apply andb_true_iff in H. destruct H as [A B]. unfold close in A, B.
  destruct Rle_dec as [P|]; [|discriminate]. destruct Rle_dec as [Q|]; [|discriminate].
  apply Cmod_le; [lra|]. unfold Csub, Cadd, Copp, Cnorm2. cbn [fst snd].
  replace (fst a + - fst b)%R with (fst a - fst b)%R by ring. replace (snd a + - snd b)%R with (snd a - snd b)%R by ring.
  fold (Rsqr (fst a - fst b)) (Rsqr (snd a - snd b)). rewrite (Rsqr_abs (fst a - fst b)), (Rsqr_abs (snd a - snd b)).
  assert (Rsqr (Rabs (fst a - fst b)) <= Rsqr tol)%R by (apply Rsqr_incr_1; [assumption|apply Rabs_pos|lra]).
  assert (Rsqr (Rabs (snd a - snd b)) <= Rsqr tol)%R by (apply Rsqr_incr_1; [assumption|apply Rabs_pos|lra]).
  unfold Rsqr in *. nra.
Qed.
Lemma Cmod_opp z : Cmod (Copp z) = Cmod z.
Proof. unfold Cmod. f_equal. unfold Cnorm2, Copp. cbn. ring. Qed.
Lemma mul_error a b : (Cmod (Csub (mul tol a b) (Cmul a b)) <= 2 * tol * (Cmod a + Cmod b))%R.
Proof.
  pose proof (Cmod_nonneg a). pose proof (Cmod_nonneg b). unfold mul.
  destruct (near tol a C1) eqn:A.
  - apply near_mod in A. replace (Csub b (Cmul a b)) with (Cmul (Copp (Csub a C1)) b) by (apply injective_projections; cbn; ring).
    rewrite Cmod_mul, Cmod_opp. nra.
  - destruct (near tol b C1) eqn:B.
    + apply near_mod in B. replace (Csub a (Cmul a b)) with (Cmul a (Copp (Csub b C1))) by (apply injective_projections; cbn; ring).
      rewrite Cmod_mul, Cmod_opp. nra.
    + destruct (near tol a C0) eqn:A0; [|destruct (near tol b C0) eqn:B0]; cbn [orb].
      * apply near_mod in A0. replace (Csub C0 (Cmul a b)) with (Cmul (Copp (Csub a C0)) b) by (apply injective_projections; cbn; ring).
        rewrite Cmod_mul, Cmod_opp. nra.
      * apply near_mod in B0. replace (Csub C0 (Cmul a b)) with (Cmul a (Copp (Csub b C0))) by (apply injective_projections; cbn; ring).
        rewrite Cmod_mul, Cmod_opp. nra.
      * replace (Csub (Cmul a b) (Cmul a b)) with C0 by (apply injective_projections; cbn; ring). rewrite (proj2 (Cmod_0 C0) eq_refl). nra.
Qed.
(** quotient * b against a *)
Lemma div_error a b : b <> C0 -> (Cmod (Csub (Cmul (div tol a b) b) a) <= 2 * tol * (1 + Cmod a))%R.
Proof.
  intros Nb. pose proof (Cmod_nonneg a). unfold div.
  destruct (near tol a b) eqn:A.
  - apply near_mod in A. replace (Csub (Cmul C1 b) a) with (Copp (Csub a b)) by (apply injective_projections; cbn; ring). rewrite Cmod_opp. nra.
  - destruct (near tol b C1) eqn:B.
    + apply near_mod in B. replace (Csub (Cmul a b) a) with (Cmul a (Csub b C1)) by (apply injective_projections; cbn; ring). rewrite Cmod_mul. nra.
    + replace (Csub _ a) with C0; [rewrite (proj2 (Cmod_0 C0) eq_refl); nra|].
      assert (Cnorm2 b <> 0)%R. { intros E. apply Nb. destruct b as [x y]. unfold Cnorm2 in E. cbn in E. apply injective_projections; cbn; nra. }
      unfold Cnorm2 in *. apply injective_projections; cbn; field; assumption.
Qed.
End Arith.

(** rounding of small numbers *)
Lemma Int_part_0 x : (0 <= x < 1)%R -> Int_part x = 0%Z.
Proof.
  intros H. pose proof (base_Int_part x) as [A B]. assert (Int_part x < 1)%Z by (apply lt_IZR; lra). assert (-1 < Int_part x)%Z by (apply lt_IZR; lra). lia.
Qed.
Lemma nearbyint_0 x : (0 <= x < 1 / 2)%R -> nearbyint x = 0%Z.
Proof. intros H. unfold nearbyint. rewrite Int_part_0 by lra. destruct Rlt_dec; [reflexivity|lra]. Qed.
Lemma nearbyint_1 x : (1 / 2 < x < 1)%R -> nearbyint x = 1%Z.
Proof. intros H. unfold nearbyint. rewrite Int_part_0 by lra. destruct Rlt_dec; [lra|]. destruct Rlt_dec; [reflexivity|lra]. Qed.

Section Witness.
Variable tol : R.
Variable mask : nat.
Variable root : R.
Variable limit0 : nat.
Hypothesis pos : (0 < tol)%R.
Hypothesis fine : (16 * tol * INR mask < 1)%R.
Hypothesis many : (4 <= mask)%nat.
Hypothesis big_root : (1 / 2 <= root)%R.
Notation hash := (hash mask).
Notation lookup := (lookup tol mask root).
Notation close := (close tol).
Notation init := (init tol mask root limit0).
Lemma settings : sound_settings tol mask.
Proof. pose proof (pos_INR mask). split; nra. Qed.
Lemma mask4 : (4 <= INR mask)%R. Proof. replace 4%R with (INR 4) by (cbn; ring). apply le_INR, many. Qed.
Lemma hash_0 x : (0 <= x)%R -> (x * INR mask < 1 / 2)%R -> hash x = 0.
Proof. intros A B. unfold TableModel.hash. rewrite nearbyint_0; [lia|]. pose proof mask4. split; [nra|exact B]. Qed.
Lemma hash_1 x : (1 / 2 < x * INR mask)%R -> (x * INR mask < 1)%R -> hash x = 1.
Proof. intros A B. unfold TableModel.hash. rewrite nearbyint_1 by lra. lia. Qed.
Lemma tol_small : (tol < 1 / 64)%R. Proof. pose proof mask4. nra. Qed.

(** storing a small number that is not near to any other *)
Lemma store t v : good tol mask root t -> (tol < v)%R -> (v * INR mask < 1)%R -> (forall c, stored t c -> close (vals t c) v = false) ->
  exists a, fst (lookup t v) = Cell a /\ ~ stored t a /\ good tol mask root (snd (lookup t v)) /\ vals (snd (lookup t v)) a = v /\
  (forall c, stored (snd (lookup t v)) c <-> c = a \/ stored t c) /\ (forall c, stored t c -> vals (snd (lookup t v)) c = vals t c).
Proof.
  intros H V M Far. pose proof settings as S. pose proof (lookup_good tol mask root S t v H ltac:(lra)) as O.
  destruct (lookup t v) as [p t']. cbn [fst snd] in *. destruct O as (G1 & Q & C & K & [-> | (_ & a & -> & E & N & O)]).
  - exfalso. pose proof mask4. pose proof tol_small. destruct p as [| | |c]; cbn in Q; apply (within tol mask S) in Q as Q'; try nra.
    rewrite (Far c) in Q by (apply C; reflexivity). discriminate.
  - exists a. split; [reflexivity|]. split; [exact N|]. split; [exact G1|]. split; [exact E|]. split; [|intros c Hc; apply K, Hc].
    intros c. split; [apply O|]. intros [-> | Hc]; [apply C; reflexivity|apply K, Hc].
Qed.
Lemma init_far v : (v * INR mask < 1)%R -> forall c, stored init c -> close (vals init c) v = false.
Proof.
  intros M c Sc. rewrite (init_stored tol mask root limit0 settings c Sc). apply (close_not tol). pose proof mask4. pose proof tol_small.
  rewrite Rabs_pos_eq by nra. nra.
Qed.

(** two numbers in the first bucket *)
Lemma two x y : (tol < x)%R -> (x + tol < y)%R -> (y * INR mask < 1)%R ->
  exists a b t, run tol mask root limit0 init [Lookup x; Lookup y] = Some t /\ good tol mask root t /\ a <> b /\ vals t a = x /\ vals t b = y /\ stored t a /\ stored t b /\
  (forall c, stored t c -> c = a \/ c = b \/ vals t c = (1 / 2)%R).
Proof.
  intros X Y M. pose proof mask4 as M4. pose proof tol_small as Ts.
  destruct (store init x) as (a & Ea & Na & G1 & Va & Sa & Ka); [apply init_good, settings|lra|nra|apply init_far; nra|].
  destruct (store (snd (lookup init x)) y) as (b & Eb & Nb & G2 & Vb & Sb & Kb); [exact G1|lra|exact M| |].
  { intros c Hc. apply Sa in Hc. destruct Hc as [-> | Hc].
    - rewrite Va. apply (close_not tol). rewrite Rabs_minus_sym, Rabs_pos_eq by lra. lra.
    - rewrite (Ka c Hc). apply init_far; [nra|exact Hc]. }
  exists a, b, (snd (lookup (snd (lookup init x)) y)). split; [reflexivity|]. split; [exact G2|].
  assert (Sa1 : stored (snd (lookup init x)) a) by (apply Sa; auto).
  split; [intros ->; apply Nb, Sa1|]. split; [rewrite Kb by exact Sa1; exact Va|]. split; [exact Vb|]. split; [apply Sb; auto|]. split; [apply Sb; auto|].
  intros c Hc. apply Sb in Hc. destruct Hc as [-> | Hc]; [auto|]. pose proof Hc as Hc1. apply Sa in Hc. destruct Hc as [-> | Hc]; [auto|]. right. right.
  rewrite (Kb c Hc1), (Ka c Hc). apply (init_stored tol mask root limit0 settings c Hc).
Qed.

(** the answer to one question changes *)
Lemma history : exists t v p p' os t', reachable tol mask root limit0 t /\ (0 <= v)%R /\ lookup t v = (p, t) /\ run tol mask root limit0 t os = Some t' /\
  (forall w, In (Lookup w) os -> (0 <= w)%R) /\ (exists os', os = map Lookup os') /\ lookup t' v = (p', t') /\ p <> p'.
Proof.
  pose proof mask4 as M4. pose proof tol_small as Ts. pose proof settings as St.
  set (x := (2 * tol)%R). set (y := (x + 9 / 10 * tol)%R). set (z := (x + 3 / 2 * tol)%R).
  destruct (store init x) as (a & Ea & Na & G1 & Va & Sa & Ka); [apply init_good, St|unfold x; lra|unfold x; nra|apply init_far; unfold x; nra|].
  set (t := snd (lookup init x)) in *.
  assert (Hy : (0 <= y)%R) by (unfold y, x; lra).
  assert (S1 : stored t a) by (apply Sa; auto).
  assert (L1 : lookup t y = (Cell a, t)).
  { pose proof (lookup_good tol mask root St t y G1 Hy) as O. destruct (lookup t y) as [p t']. cbn [fst snd] in O. destruct O as (_ & Q & C & _ & [-> | (Far & _)]).
    - destruct p as [| | |c]; cbn in Q; try (apply (within tol mask St) in Q; unfold y, x in Q; nra).
      assert (Sc := C c eq_refl). apply Sa in Sc. destruct Sc as [-> | Sc]; [reflexivity|]. rewrite (Ka c Sc), (init_stored tol mask root limit0 St c Sc) in Q.
      apply (within tol mask St) in Q. unfold y, x in Q. nra.
    - specialize (Far a S1). rewrite Va in Far. apply (close_not tol) in Far. rewrite Rabs_minus_sym, Rabs_pos_eq in Far by (unfold y; lra). unfold y in Far. lra. }
  destruct (store t z) as (b & Eb & Nb & G2 & Vb & Sb & Kb); [exact G1|unfold z, x; lra|unfold z, x; nra| |].
  { intros c Hc. apply Sa in Hc. destruct Hc as [-> | Hc].
    - rewrite Va. apply (close_not tol). rewrite Rabs_minus_sym, Rabs_pos_eq by (unfold z; lra). unfold z. lra.
    - rewrite (Ka c Hc). apply init_far; [unfold z, x; nra|exact Hc]. }
  set (t2 := snd (lookup t z)) in *.
  assert (S2 : stored t2 b) by (apply Sb; auto).
  assert (L2 : lookup t2 y = (Cell b, t2)).
  { pose proof (lookup_good tol mask root St t2 y G2 Hy) as O.
    assert (He : hash (y - tol) = hash (y + tol)). { rewrite !hash_0; unfold y, x; try reflexivity; try lra; nra. }
    pose proof (nearest tol mask root St t2 y) as Near. destruct (lookup t2 y) as [p t'] eqn:Lk. cbn [fst snd] in O. destruct O as (_ & Q & C & _ & [-> | (Far & _)]).
    - destruct p as [| | |c]; cbn in Q; try (apply (within tol mask St) in Q; unfold y, x in Q; nra).
      specialize (Near c t2 G2 Hy He eq_refl b S2). cbn in Near. rewrite Vb, (Rabs_pos_eq (z - y)) in Near by (unfold z, y; lra).
      assert (Sc := C c eq_refl). apply Sb in Sc. destruct Sc as [-> | Sc]; [reflexivity|]. exfalso. rewrite (Kb c Sc) in Near. apply Sa in Sc as Sc'. destruct Sc' as [-> | Sc'].
      + rewrite Va, Rabs_minus_sym, Rabs_pos_eq in Near by (unfold y; lra). unfold z, y in Near. lra.
      + rewrite (Ka c Sc'), (init_stored tol mask root limit0 St c Sc') in Near. rewrite Rabs_pos_eq in Near by (unfold y, x; nra). unfold z, y, x in Near. nra.
    - specialize (Far b S2). rewrite Vb in Far. apply (close_not tol) in Far. rewrite Rabs_pos_eq in Far by (unfold z, y; lra). unfold z, y in Far. lra. }
  exists t, y, (Cell a), (Cell b), [Lookup z], t2. split.
  { exists [Lookup x]. split; [intros v [[= <-] | []]; unfold x; lra|reflexivity]. }
  split; [exact Hy|]. split; [exact L1|]. split; [reflexivity|]. split; [intros w [[= <-] | []]; unfold z, x; lra|]. split; [exists [z]; reflexivity|]. split; [exact L2|].
  intros [= ->]. apply Nb, S1.
Qed.

(** at the border of a bucket not the nearest number *)
Lemma border : exists t v a c, reachable tol mask root limit0 t /\ (0 <= v)%R /\ lookup t v = (Cell a, t) /\ stored t c /\ (Rabs (vals t c - v) < Rabs (vals t a - v))%R.
Proof.
  pose proof mask4 as M4. pose proof tol_small as Ts. pose proof settings as St.
  set (e := (1 / 2 / INR mask)%R). assert (Em : (e * INR mask = 1 / 2)%R) by (unfold e; field; lra).
  set (v := (e - 97 / 100 * tol)%R). set (x := (v - 1 / 10 * tol)%R). set (y := (v + 95 / 100 * tol)%R).
  assert (Le : (8 * tol < e)%R). { unfold e. apply (Rmult_lt_reg_r (INR mask)); [lra|]. fold e. rewrite Em. lra. }
  assert (Lm : (2 * e * INR mask = 1)%R) by lra.
  destruct (two x y) as (a & b & t & R & G1 & D & Va & Vb & Sa & Sb & O); [unfold x, v; lra|unfold x, y; lra|unfold y, v; nra|].
  assert (Hx : hash x = 0) by (apply hash_0; unfold x, v; nra).
  assert (Hy : hash y = 0) by (apply hash_0; unfold y, v; nra).
  assert (Hv : hash v = 0) by (apply hash_0; unfold v; nra).
  assert (Hl : hash (v - tol) = 0) by (apply hash_0; unfold v; nra).
  assert (Hu : hash (v + tol) = 1) by (apply hash_1; unfold v; nra).
  exists t, v, b, a. split; [exists [Lookup x; Lookup y]; split; [intros w [[= <-] | [[= <-] | []]]; unfold x, y, v; lra|exact R]|].
  split; [unfold v; lra|]. split; [|split; [exact Sa|rewrite Va, Vb, Rabs_minus_sym, !Rabs_pos_eq by (unfold x, y; lra); unfold x, y; lra]].
  assert (B1 : bucket t 1 = []).
  { destruct (bucket t 1) as [|c r] eqn:E; [reflexivity|exfalso]. assert (Ic : In c (bucket t 1)) by (rewrite E; cbn; auto). pose proof (g_key tol mask root t G1 1 c Ic) as K.
    destruct (O c) as [-> | [-> | F]]; [exists 1; exact Ic|rewrite Va, Hx in K; discriminate|rewrite Vb, Hy in K; discriminate|].
    assert (2 <= hash (vals t c)); [|lia]. rewrite F.
    assert (W : (nearbyint (1 / 2 * INR mask) >= 2)%Z -> 2 <= hash (1 / 2)) by (intros W; unfold TableModel.hash; lia).
    apply W. pose proof (half_bounds (1 / 2 * INR mask)) as [_ H2]. assert (1 < nearbyint (1 / 2 * INR mask))%Z by (apply lt_IZR; lra). lia. }
  assert (Ib : In b (bucket t 0)). { destruct Sb as [k Hk]. assert (k = 0) as <-; [|exact Hk]. rewrite <- (g_key tol mask root t G1 k b Hk), Vb. exact Hy. }
  assert (Tl : tail t 0 = Some b).
  { rewrite (g_tail tol mask root t G1). destruct (last_of (bucket t 0)) as [c|] eqn:El; [|apply last_none in El; rewrite El in Ib; destruct Ib].
    pose proof (last_max tol mask St (vals t) _ c (g_sorted tol mask root t G1 0) El b Ib) as Mx. pose proof (last_in _ _ El) as Ic. rewrite Vb in Mx.
    destruct (O c) as [-> | [-> | F]]; [exists 0; exact Ic|rewrite Va in Mx; unfold x, y in Mx; lra|reflexivity|].
    exfalso. pose proof (g_key tol mask root t G1 0 c Ic) as K. rewrite F in K.
    assert (W : (nearbyint (1 / 2 * INR mask) >= 2)%Z -> 2 <= hash (1 / 2)) by (intros W; unfold TableModel.hash; lia).
    pose proof (half_bounds (1 / 2 * INR mask)) as [_ H2]. assert (1 < nearbyint (1 / 2 * INR mask))%Z by (apply lt_IZR; lra). lia. }
  unfold TableModel.lookup.
  rewrite (proj2 (close_not tol v 0)) by (rewrite Rminus_0_r, Rabs_pos_eq by (unfold v; lra); unfold v; lra).
  rewrite (proj2 (close_not tol v 1)) by (rewrite Rabs_minus_sym, Rabs_pos_eq by (unfold v; nra); unfold v; nra).
  rewrite (proj2 (close_not tol v root)) by (rewrite Rabs_minus_sym, Rabs_pos_eq by (unfold v; nra); unfold v; nra).
  rewrite Hl, Hu, Hv. cbn [Nat.eqb negb]. rewrite Tl, B1. cbn [hd_error]. rewrite Vb.
  rewrite (proj2 (close_iff tol v y)); [reflexivity|]. rewrite Rabs_minus_sym, Rabs_pos_eq by (unfold y; lra). unfold y. lra.
Qed.
End Witness.
