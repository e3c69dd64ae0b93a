(** Matrices on a pair of qudits that mix the two lowest levels of both and nothing else. *)
From Coq Require Import Reals Lra Lia List Arith ZArith.
From Verif.Base Require Import Py Cplx Matrix Fiber.
From Verif.Gates Require Import SingleModel SingleSpec SingleProofs TwoModel TwoSpec TwoProofs.
From Verif.Ent Require Import BlockModel PairMath CrotProofs.
Import ListNotations.
Local Open Scope C_scope.

Lemma csum_two d f : (2 <= d)%nat -> (forall k, (2 <= k < d)%nat -> f k = C0) -> csum d f = f 0%nat + f 1%nat.
Proof.
  intros Hd H. replace d with (2 + (d - 2))%nat by lia. rewrite csum_app, (csum_0 (d - 2)); [cbn; ring|].
  intros k Hk. apply H. lia.
Qed.

Section Quad.
Variables (dc dt : nat).
Hypothesis Hdc : (2 <= dc)%nat.
Hypothesis Hdt : (2 <= dt)%nat.
Notation n := (dc * dt)%nat.

(** [A4] on the four lowest states, [Ac] on the first qudit when the second is above level 1, [At] on the second
    when the first is above level 1. *)
Definition qent (A4 Ac At : mat) (c t c' t' : nat) : C :=
  match Nat.ltb c 2, Nat.ltb t 2 with
  | true, true => if (Nat.ltb c' 2 && Nat.ltb t' 2)%bool then A4 (2 * c + t)%nat (2 * c' + t')%nat else C0
  | true, false => if (Nat.ltb c' 2 && Nat.eqb t' t)%bool then Ac c c' else C0
  | false, true => if (Nat.eqb c' c && Nat.ltb t' 2)%bool then At t t' else C0
  | false, false => if (Nat.eqb c' c && Nat.eqb t' t)%bool then C1 else C0
  end.
Definition quad (A4 Ac At : mat) : mat := fun r s => qent A4 Ac At (r / dt) (r mod dt) (s / dt) (s mod dt).

Lemma qsum A4 Ac At c t (g : nat -> nat -> C) : (c < dc)%nat -> (t < dt)%nat ->
  csum dc (fun c' => csum dt (fun t' => qent A4 Ac At c t c' t' * g c' t')) =
  match Nat.ltb c 2, Nat.ltb t 2 with
  | true, true => csum 4 (fun k => A4 (2 * c + t)%nat k * g (k / 2)%nat (k mod 2))
  | true, false => csum 2 (fun k => Ac c k * g k t)
  | false, true => csum 2 (fun k => At t k * g c k)
  | false, false => g c t
  end.
Proof.
  intros Hc Ht. unfold qent. destruct (Nat.ltb_spec c 2) as [Lc|Lc], (Nat.ltb_spec t 2) as [Lt|Lt].
  - rewrite csum_two; [|exact Hdc|].
    + rewrite !(csum_two dt); [|lia| |lia|]; try (intros k Hk; destruct (Nat.ltb_spec k 2); [lia|]; rewrite Bool.andb_false_r; ring).
      cbn [Nat.ltb Nat.leb andb csum]. cbn [Nat.mul Nat.add]. 
      change (0 / 2)%nat with 0%nat. change (1 / 2)%nat with 0%nat. change (2 / 2)%nat with 1%nat. change (3 / 2)%nat with 1%nat.
      change (0 mod 2)%nat with 0%nat. change (1 mod 2)%nat with 1%nat. change (2 mod 2)%nat with 0%nat. change (3 mod 2)%nat with 1%nat. ring.
    + intros k Hk. destruct (Nat.ltb_spec k 2); [lia|]. cbn [andb]. apply csum_0. intros; ring.
  - rewrite csum_two; [|exact Hdc|].
    + rewrite !(csum_single dt _ t Ht); try (intros k Hk N; apply Nat.eqb_neq in N; rewrite N, Bool.andb_false_r; ring).
      rewrite Nat.eqb_refl. cbn [Nat.ltb Nat.leb andb csum]. ring.
    + intros k Hk. destruct (Nat.ltb_spec k 2); [lia|]. cbn [andb]. apply csum_0. intros; ring.
  - rewrite (csum_single dc _ c Hc).
    + rewrite csum_two; [|exact Hdt|].
      * rewrite Nat.eqb_refl. cbn [Nat.ltb Nat.leb andb csum]. ring.
      * intros k Hk. destruct (Nat.ltb_spec k 2); [lia|]. rewrite Bool.andb_false_r. ring.
    + intros k Hk N. apply Nat.eqb_neq in N. rewrite N. cbn [andb]. apply csum_0. intros; ring.
  - rewrite (csum_single dc _ c Hc).
    + rewrite (csum_single dt _ t Ht).
      * rewrite !Nat.eqb_refl. cbn [andb]. ring.
      * intros k Hk N. apply Nat.eqb_neq in N. rewrite N, Bool.andb_false_r. ring.
    + intros k Hk N. apply Nat.eqb_neq in N. rewrite N. cbn [andb]. apply csum_0. intros; ring.
Qed.

Lemma quad_mul A4 Ac At B4 Bc Bt : meq n (mmul n (quad A4 Ac At) (quad B4 Bc Bt)) (quad (mmul 4 A4 B4) (mmul 2 Ac Bc) (mmul 2 At Bt)).
Proof.
  intros r s Hr Hs. unfold mmul at 1. rewrite csum_prod. unfold quad.
  assert (Lr : (r / dt < dc)%nat) by (apply Nat.div_lt_upper_bound; lia). assert (Ls : (s / dt < dc)%nat) by (apply Nat.div_lt_upper_bound; lia).
  assert (Mr := Nat.mod_upper_bound r dt ltac:(lia)). assert (Ms := Nat.mod_upper_bound s dt ltac:(lia)).
  set (c := (r / dt)%nat) in *. set (t := (r mod dt)%nat) in *. set (c' := (s / dt)%nat) in *. set (t' := (s mod dt)%nat) in *.
  transitivity (csum dc (fun k => csum dt (fun l => qent A4 Ac At c t k l * qent B4 Bc Bt k l c' t'))).
  { apply csum_ext. intros k Hk. apply csum_ext. intros l Hl.
    rewrite Nat.div_add_l, (Nat.div_small l dt), Nat.add_0_r by lia. rewrite (Nat.add_comm (k * dt) l), Nat.mod_add, (Nat.mod_small l dt) by lia. reflexivity. }
  rewrite (qsum A4 Ac At c t (fun k l => qent B4 Bc Bt k l c' t') Lr Mr). unfold qent.
  destruct (Nat.ltb_spec c 2) as [Lc|Lc], (Nat.ltb_spec t 2) as [Lt|Lt].
  - unfold mmul. destruct (Nat.ltb c' 2 && Nat.ltb t' 2)%bool; [apply csum_ext|apply csum_0]; intros k Hk;
      (destruct k as [|[|[|[|k]]]]; [..|lia]; cbn; ring).
  - unfold mmul. destruct (Nat.ltb c' 2 && Nat.eqb t' t)%bool; [apply csum_ext|apply csum_0]; intros k Hk;
      (destruct (Nat.ltb_spec k 2); [|lia]); destruct (Nat.ltb_spec t 2); try lia; ring.
  - unfold mmul. destruct (Nat.eqb c' c && Nat.ltb t' 2)%bool; [apply csum_ext|apply csum_0]; intros k Hk;
      (destruct (Nat.ltb_spec k 2); [|lia]); destruct (Nat.ltb_spec c 2); try lia; ring.
  - reflexivity.
Qed.
Lemma quad_ext A4 Ac At B4 Bc Bt : meq 4 A4 B4 -> meq 2 Ac Bc -> meq 2 At Bt -> meq n (quad A4 Ac At) (quad B4 Bc Bt).
Proof.
  intros H4 Hc Ht r s _ _. unfold quad, qent. set (c := (r / dt)%nat). set (t := (r mod dt)%nat). set (c' := (s / dt)%nat). set (t' := (s mod dt)%nat).
  destruct (Nat.ltb_spec c 2), (Nat.ltb_spec t 2); [destruct (Nat.ltb_spec c' 2), (Nat.ltb_spec t' 2)|destruct (Nat.ltb_spec c' 2)|destruct (Nat.ltb_spec t' 2)|]; rewrite ?Bool.andb_false_r; cbn [andb]; try reflexivity.
  - apply H4; lia.
  - destruct (Nat.eqb t' t); [|reflexivity]. apply Hc; lia.
  - destruct (Nat.eqb c' c); [|reflexivity]. cbn [andb]. apply Ht; lia.
Qed.
Lemma quad_id : meq n (quad mid mid mid) mid.
Proof.
  intros r s Hr Hs. unfold quad, qent. assert (E : Nat.eqb r s = (Nat.eqb (s / dt) (r / dt) && Nat.eqb (s mod dt) (r mod dt))%bool).
  { destruct (Nat.eqb_spec r s) as [->|N]; [rewrite !Nat.eqb_refl; reflexivity|]. symmetry. apply Bool.not_true_iff_false. intros X.
    apply andb_prop in X. destruct X as [X Y]. apply Nat.eqb_eq in X, Y. apply N.
    rewrite (Nat.div_mod r dt), (Nat.div_mod s dt), X, Y by lia. reflexivity. }
  unfold mid at 4. rewrite E. unfold mid. set (c := (r / dt)%nat). set (t := (r mod dt)%nat). set (c' := (s / dt)%nat). set (t' := (s mod dt)%nat).
  destruct (Nat.ltb_spec c 2), (Nat.ltb_spec t 2); cbn [andb].
  - destruct (Nat.ltb_spec c' 2), (Nat.ltb_spec t' 2); cbn [andb];
      repeat match goal with |- context [Nat.eqb ?x ?y] => destruct (Nat.eqb_spec x y) end; cbn [andb]; try reflexivity; exfalso; lia.
  - destruct (Nat.ltb_spec c' 2); cbn [andb];
      repeat match goal with |- context [Nat.eqb ?x ?y] => destruct (Nat.eqb_spec x y) end; cbn [andb]; try reflexivity; exfalso; lia.
  - destruct (Nat.ltb_spec t' 2);
      repeat match goal with |- context [Nat.eqb ?x ?y] => destruct (Nat.eqb_spec x y) end; cbn [andb]; try reflexivity; exfalso; lia.
  - reflexivity.
Qed.
(** A list of such matrices. *)
Definition quads (l : list (mat * mat * mat)) : list mat := map (fun x => quad (fst (fst x)) (snd (fst x)) (snd x)) l.
Lemma quad_chain l : meq n (chain n (quads l))
  (quad (chain 4 (map (fun x => fst (fst x)) l)) (chain 2 (map (fun x => snd (fst x)) l)) (chain 2 (map snd l))).
Proof.
  induction l as [|x l IH]; [apply meq_sym, quad_id|]. cbn [quads map]. eapply meq_trans; [apply chain_cons|].
  eapply meq_trans; [apply mmul_ext; [exact IH|apply meq_refl]|]. eapply meq_trans; [apply quad_mul|]. apply quad_ext; apply meq_sym, chain_cons.
Qed.

(** *** The gates *)
Lemma ltb2_cases x : (Nat.ltb x 2 = true /\ (x = 0 \/ x = 1)%nat) \/ (Nat.ltb x 2 = false /\ (2 <= x)%nat).
Proof. destruct (Nat.ltb_spec x 2); [left|right]; split; trivial; lia. Qed.
Lemma tl01 m i j : tl 0 1 m i j = match i, j with
  | 0%nat, 0%nat => m00 m | 0%nat, 1%nat => m01 m | 1%nat, 0%nat => m10 m | 1%nat, 1%nat => m11 m
  | 0%nat, _ => C0 | 1%nat, _ => C0 | _, _ => mid i j end.
Proof. unfold tl, two_level. destruct i as [|[|i]], j as [|[|j]]; reflexivity. Qed.
Lemma on0_quad m : meq n (mkron dt (tl 0 1 m) mid) (quad (mkron 2 (tl 0 1 m) mid) (tl 0 1 m) mid).
Proof.
  intros r s _ _. unfold quad, qent, mkron. set (c := (r / dt)%nat). set (t := (r mod dt)%nat). set (c' := (s / dt)%nat). set (t' := (s mod dt)%nat).
  destruct (ltb2_cases c) as [[-> Hc]|[-> Hc]], (ltb2_cases t) as [[-> Ht]|[-> Ht]].
  - destruct (ltb2_cases c') as [[-> Hc']|[-> Hc']], (ltb2_cases t') as [[-> Ht']|[-> Ht']]; cbn [andb].
    + destruct Hc as [-> | ->], Ht as [-> | ->], Hc' as [-> | ->], Ht' as [-> | ->]; reflexivity.
    + unfold mid. destruct (Nat.eqb_spec t t'); [lia|ring].
    + rewrite tl01. destruct Hc as [-> | ->]; destruct c' as [|[|c']]; try lia; ring.
    + unfold mid. destruct (Nat.eqb_spec t t'); [lia|ring].
  - destruct (ltb2_cases c') as [[-> Hc']|[-> Hc']]; cbn [andb].
    + unfold mid. rewrite (Nat.eqb_sym t' t). destruct (Nat.eqb t t'); ring.
    + rewrite tl01. destruct Hc as [-> | ->]; destruct c' as [|[|c']]; try lia; ring.
  - replace (tl 0 1 m c c') with (mid c c') by (rewrite tl01; destruct c as [|[|c0]]; try lia; destruct c' as [|[|c0']]; reflexivity).
    unfold mid. rewrite (Nat.eqb_sym c' c). destruct (Nat.eqb c c'); cbn [andb]; [|ring].
    destruct (ltb2_cases t') as [[-> Ht']|[-> Ht']]; [ring|]. destruct (Nat.eqb_spec t t'); [lia|ring].
  - replace (tl 0 1 m c c') with (mid c c') by (rewrite tl01; destruct c as [|[|c0]]; try lia; destruct c' as [|[|c0']]; reflexivity).
    unfold mid. rewrite (Nat.eqb_sym c' c), (Nat.eqb_sym t' t). destruct (Nat.eqb c c'), (Nat.eqb t t'); cbn [andb]; ring.
Qed.
Lemma on1_quad m : meq n (mkron dt mid (tl 0 1 m)) (quad (mkron 2 mid (tl 0 1 m)) mid (tl 0 1 m)).
Proof.
  intros r s _ _. unfold quad, qent, mkron. set (c := (r / dt)%nat). set (t := (r mod dt)%nat). set (c' := (s / dt)%nat). set (t' := (s mod dt)%nat).
  destruct (ltb2_cases c) as [[-> Hc]|[-> Hc]], (ltb2_cases t) as [[-> Ht]|[-> Ht]].
  - destruct (ltb2_cases c') as [[-> Hc']|[-> Hc']], (ltb2_cases t') as [[-> Ht']|[-> Ht']]; cbn [andb].
    + destruct Hc as [-> | ->], Ht as [-> | ->], Hc' as [-> | ->], Ht' as [-> | ->]; reflexivity.
    + rewrite tl01. destruct Ht as [-> | ->]; destruct t' as [|[|t']]; try lia; ring.
    + unfold mid. destruct (Nat.eqb_spec c c'); [lia|ring].
    + unfold mid. destruct (Nat.eqb_spec c c'); [lia|ring].
  - replace (tl 0 1 m t t') with (mid t t') by (rewrite tl01; destruct t as [|[|t0]]; try lia; destruct t' as [|[|t0']]; reflexivity).
    unfold mid. rewrite (Nat.eqb_sym t' t). destruct (ltb2_cases c') as [[-> Hc']|[-> Hc']]; cbn [andb].
    + destruct (Nat.eqb t t'); ring.
    + destruct (Nat.eqb_spec c c'); [lia|ring].
  - unfold mid. rewrite (Nat.eqb_sym c' c). destruct (Nat.eqb c c'); cbn [andb]; [|ring].
    destruct (ltb2_cases t') as [[-> Ht']|[-> Ht']]; [ring|]. rewrite tl01. destruct Ht as [-> | ->]; destruct t' as [|[|t']]; try lia; ring.
  - replace (tl 0 1 m t t') with (mid t t') by (rewrite tl01; destruct t as [|[|t0]]; try lia; destruct t' as [|[|t0']]; reflexivity).
    unfold mid. rewrite (Nat.eqb_sym c' c), (Nat.eqb_sym t' t). destruct (Nat.eqb c c'), (Nat.eqb t t'); cbn [andb]; ring.
Qed.
(** A two-level matrix of two of the four lowest states. *)
Lemma two_quad c1 t1 c2 t2 m : (c1 < 2)%nat -> (t1 < 2)%nat -> (c2 < 2)%nat -> (t2 < 2)%nat ->
  meq n (tl (dt * c1 + t1) (dt * c2 + t2) m) (quad (tl (2 * c1 + t1) (2 * c2 + t2) m) mid mid).
Proof.
  intros B1 B2 B3 B4 r s Hr Hs. unfold quad, qent, tl, two_level.
  assert (Dr := Nat.div_mod r dt ltac:(lia)). assert (Mr := Nat.mod_upper_bound r dt ltac:(lia)).
  assert (Ds := Nat.div_mod s dt ltac:(lia)). assert (Ms := Nat.mod_upper_bound s dt ltac:(lia)).
  set (c := (r / dt)%nat) in *. set (t := (r mod dt)%nat) in *. set (c' := (s / dt)%nat) in *. set (t' := (s mod dt)%nat) in *.
  assert (X : forall d c t c' t' x, (t < d)%nat -> (t' < d)%nat -> x = (d * c + t)%nat -> Nat.eqb x (d * c' + t') = (Nat.eqb c c' && Nat.eqb t t')%bool).
  { clear. intros d c t c' t' x H H' ->. destruct (Nat.eqb_spec c c') as [->|N]; cbn [andb].
    - destruct (Nat.eqb_spec t t'); [subst; apply Nat.eqb_refl|apply Nat.eqb_neq; lia].
    - apply Nat.eqb_neq. intros E. apply N. nia. }
  rewrite (X dt c t c1 t1 r), (X dt c t c2 t2 r), (X dt c' t' c1 t1 s), (X dt c' t' c2 t2 s) by lia.
  assert (E : mid r s = if (Nat.eqb c c' && Nat.eqb t t')%bool then C1 else C0).
  { unfold mid. rewrite Ds. rewrite (X dt c t c' t' r) by assumption. reflexivity. }
  rewrite E. unfold mid.
  destruct (ltb2_cases c) as [[-> Hc]|[-> Hc]], (ltb2_cases t) as [[-> Ht]|[-> Ht]].
  - destruct (ltb2_cases c') as [[-> Hc']|[-> Hc']], (ltb2_cases t') as [[-> Ht']|[-> Ht']]; cbn [andb].
    + rewrite (X 2%nat c t c1 t1 (2 * c + t)%nat), (X 2%nat c t c2 t2 (2 * c + t)%nat), (X 2%nat c' t' c1 t1 (2 * c' + t')%nat), (X 2%nat c' t' c2 t2 (2 * c' + t')%nat), (X 2%nat c t c' t' (2 * c + t)%nat) by lia. reflexivity.
    + replace (Nat.eqb t' t1) with false by (symmetry; apply Nat.eqb_neq; lia). replace (Nat.eqb t' t2) with false by (symmetry; apply Nat.eqb_neq; lia).
      replace (Nat.eqb t t') with false by (symmetry; apply Nat.eqb_neq; lia). rewrite !Bool.andb_false_r.
      destruct (Nat.eqb c c1 && Nat.eqb t t1)%bool, (Nat.eqb c c2 && Nat.eqb t t2)%bool; reflexivity.
    + replace (Nat.eqb c' c1) with false by (symmetry; apply Nat.eqb_neq; lia). replace (Nat.eqb c' c2) with false by (symmetry; apply Nat.eqb_neq; lia).
      replace (Nat.eqb c c') with false by (symmetry; apply Nat.eqb_neq; lia). cbn [andb].
      destruct (Nat.eqb c c1 && Nat.eqb t t1)%bool, (Nat.eqb c c2 && Nat.eqb t t2)%bool; reflexivity.
    + replace (Nat.eqb c' c1) with false by (symmetry; apply Nat.eqb_neq; lia). replace (Nat.eqb c' c2) with false by (symmetry; apply Nat.eqb_neq; lia).
      replace (Nat.eqb c c') with false by (symmetry; apply Nat.eqb_neq; lia). cbn [andb].
      destruct (Nat.eqb c c1 && Nat.eqb t t1)%bool, (Nat.eqb c c2 && Nat.eqb t t2)%bool; reflexivity.
  - replace (Nat.eqb t t1) with false by (symmetry; apply Nat.eqb_neq; lia). replace (Nat.eqb t t2) with false by (symmetry; apply Nat.eqb_neq; lia).
    rewrite !Bool.andb_false_r. rewrite (Nat.eqb_sym t' t). destruct (ltb2_cases c') as [[-> Hc']|[-> Hc']]; cbn [andb].
    + destruct (Nat.eqb c c'), (Nat.eqb t t'); reflexivity.
    + replace (Nat.eqb c c') with false by (symmetry; apply Nat.eqb_neq; lia). reflexivity.
  - replace (Nat.eqb c c1) with false by (symmetry; apply Nat.eqb_neq; lia). replace (Nat.eqb c c2) with false by (symmetry; apply Nat.eqb_neq; lia).
    cbn [andb]. rewrite (Nat.eqb_sym c' c).
    destruct (Nat.eqb c c'); cbn [andb]; [|reflexivity]. destruct (ltb2_cases t') as [[-> Ht']|[-> Ht']]; [reflexivity|].
    destruct (Nat.eqb_spec t t'); [lia|reflexivity].
  - replace (Nat.eqb c c1) with false by (symmetry; apply Nat.eqb_neq; lia). replace (Nat.eqb c c2) with false by (symmetry; apply Nat.eqb_neq; lia).
    cbn [andb]. rewrite (Nat.eqb_sym c' c), (Nat.eqb_sym t' t). reflexivity.
Qed.
End Quad.
