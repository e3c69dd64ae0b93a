(** C90: custom and random gates.  Specification: SourceSpec. *)
From Coq Require Import Reals Lra Lia List Arith ZArith.
From Verif.Base Require Import Py PyFacts Cplx Matrix Radix.
From Verif.Gates Require Import SourceModel SourceSpec SourceProofs.
Import ListNotations.
Local Open Scope list_scope.
Local Open Scope nat_scope.

(** After any history of reads and daggers of any gates, a custom gate made from a number array still reads as that array,
    and as its conjugate transpose if it was daggered. *)
Theorem C90_custom rvs w h i dims a : nth_error (objects w) i = Some (Custom (custom_new dims (AnArray true a)), false) ->
  (~ dagged i h -> fst (act rvs (snd (acts rvs w h)) (Read i)) = Matrix a) /\
  (dagged i h -> fst (act rvs (snd (acts rvs w h)) (Read i)) = Matrix (conj_T a)).
Proof. intros H. destruct (read_custom rvs w h i _ H) as [A B]. split; [exact B|exact A]. Qed.
Print Assumptions C90_custom.
(** So a proper matrix gives a proper matrix at every read. *)
Theorem C90_proper rvs w h i dims a : proper dims a -> nth_error (objects w) i = Some (Custom (custom_new dims (AnArray true a)), false) ->
  exists b, fst (act rvs (snd (acts rvs w h)) (Read i)) = Matrix b /\ proper dims b.
Proof.
  intros P H. destruct (read_custom rvs w h i _ H) as [A B]. cbn in A, B.
  assert (D : dagged i h \/ ~ dagged i h).
  { unfold dagged. destruct (in_dec (fun x y : action => ltac:(decide equality; apply Nat.eq_dec) : {x = y} + {x <> y}) (Dag i) h); auto. }
  destruct D as [D|D]; [exists (conj_T a)|exists a; auto]. split; [exact (A D)|]. destruct P as (P1 & P2 & P3). split; [exact P2|]. split; [exact P1|apply unitary_adj; exact P3].
Qed.
Print Assumptions C90_proper.
(** But whatever the dimensions of the gate, matrices of another size and matrices that are not unitary are taken over and
    read back as they are. *)
Theorem C90_improper_refuted rvs dims : 0 < prodl dims -> exists a b, a_rows a <> prodl dims /\ a_rows b = prodl dims /\ a_cols b = prodl dims /\ ~ unitary (prodl dims) (a_ent b) /\
  fst (act rvs (World 0 [(Custom (custom_new dims (AnArray true a)), false)]) (Read 0)) = Matrix a /\
  fst (act rvs (World 0 [(Custom (custom_new dims (AnArray true b)), false)]) (Read 0)) = Matrix b.
Proof.
  intros P. exists (Array (S (prodl dims)) 1 mid), (Array (prodl dims) (prodl dims) (fun _ _ => C0)).
  split; [cbn; lia|]. split; [reflexivity|]. split; [reflexivity|]. split; [|split; reflexivity]. cbn [a_ent]. intros [U _]. specialize (U 0 0 P P).
  unfold mmul, madj, mid in U. rewrite (csum_ext _ _ (fun _ => C0)) in U by (intros; unfold Cconj, Cmul, C0; cbn; f_equal; ring).
  assert (Z : forall n, csum n (fun _ => C0) = C0) by (induction n as [|n IH]; [reflexivity|cbn; rewrite IH; unfold Cadd, C0; cbn; f_equal; ring]). rewrite Z in U. cbn in U. injection U as U. lra.
Qed.
Print Assumptions C90_improper_refuted.
(** Without an array (None, or anything that is not a number array) no exception is raised either: the gate reads as None,
    and after dag() the read raises AttributeError. *)
Theorem C90_nothing_refuted rvs w h i dims p : (forall a, p <> AnArray true a) -> nth_error (objects w) i = Some (Custom (custom_new dims p), false) ->
  (~ dagged i h -> fst (act rvs (snd (acts rvs w h)) (Read i)) = PyNone) /\
  (dagged i h -> fst (act rvs (snd (acts rvs w h)) (Read i)) = Raised AttributeError).
Proof.
  intros N H. assert (E : custom_new dims p = None) by (destruct p as [|[|] a|]; cbn; trivial; exfalso; exact (N a eq_refl)).
  rewrite E in H. destruct (read_custom rvs w h i _ H) as [A B]. split; [exact B|exact A].
Qed.
Print Assumptions C90_nothing_refuted.
(** Every read of a random gate is a unitary of the right size. *)
Theorem C90_random rvs w h i dims : draws_unitaries rvs -> dims <> [] -> nth_error (objects w) i = Some (Random dims, false) ->
  exists b, fst (act rvs (snd (acts rvs w h)) (Read i)) = Matrix b /\ proper dims b.
Proof.
  intros DU N H. destruct (read_random rvs w h i dims N H) as (k & _ & _ & _ & A & B).
  assert (D : dagged i h \/ ~ dagged i h).
  { unfold dagged. destruct (in_dec (fun x y : action => ltac:(decide equality; apply Nat.eq_dec) : {x = y} + {x <> y}) (Dag i) h); auto. }
  destruct D as [D|D]; (eexists; split; [first [exact (A D)|exact (B D)]|]); (split; [reflexivity|split; [reflexivity|]]); cbn [a_ent conj_T]; [apply unitary_adj|]; apply DU.
Qed.
Print Assumptions C90_random.
(** But it is another one at every read: a random gate is not one operation, and its dagger is not its inverse. *)
Theorem C90_fresh_refuted rvs w h i dims : draws_unitaries rvs -> never_repeats rvs -> dims <> [] -> 0 < prodl dims ->
  nth_error (objects w) i = Some (Random dims, false) -> ~ dagged i h ->
  exists a b, fst (act rvs w (Read i)) = Matrix a /\ fst (act rvs (snd (acts rvs (snd (act rvs w (Read i))) h)) (Read i)) = Matrix b /\
    ~ meq (prodl dims) (a_ent a) (a_ent b).
Proof. exact (reads_differ rvs w h i dims). Qed.
Print Assumptions C90_fresh_refuted.
Theorem C90_inverse_refuted rvs w i dims : draws_unitaries rvs -> never_repeats rvs -> dims <> [] -> 0 < prodl dims ->
  nth_error (objects w) i = Some (Random dims, false) ->
  exists a b, fst (act rvs w (Read i)) = Matrix a /\ fst (act rvs (snd (act rvs (snd (act rvs w (Read i))) (Dag i))) (Read i)) = Matrix b /\
    ~ meq (prodl dims) (mmul (prodl dims) (a_ent b) (a_ent a)) mid.
Proof. exact (dag_differs rvs w i dims). Qed.
Print Assumptions C90_inverse_refuted.
(** There are generators that draw unitaries and never repeat themselves, and proper matrices. *)
Example C90_case : (exists rvs, draws_unitaries rvs /\ never_repeats rvs) /\ proper [2; 3] (Array 6 6 mid).
Proof.
  split; [|split; [reflexivity|split; [reflexivity|apply unitary_id]]].
  exists (fun d k r c => if Nat.eqb r c then cis (/ INR (S k)) else C0). split.
  - intros d k. apply (unitary_ext d (mdiag (fun _ => cis (/ INR (S k))))); [intros r c _ _; reflexivity|]. apply mdiag_unitary. intros j _. apply Cnorm2_cis.
  - intros d j k P N E. specialize (E 0 0 P P). cbn [Nat.eqb] in E. assert (X := f_equal fst E). unfold cis in X. cbn [fst] in X. apply N.
    assert (B : forall n, (0 < / INR (S n) <= 1)%R).
    { intros n. assert (Q : (1 <= INR (S n))%R) by (rewrite S_INR; assert (Y := pos_INR n); lra). split; [apply Rinv_0_lt_compat; lra|]. rewrite <- Rinv_1. apply Rinv_le_contravar; lra. }
    assert (PB := PI2_3_2). assert (Bj := B j). assert (Bk := B k).
    assert (Y : (/ INR (S j) = / INR (S k))%R).
    { destruct (Rtotal_order (/ INR (S j)) (/ INR (S k))) as [L|[L|L]]; trivial; exfalso.
      - assert (Q := cos_decreasing_1 (/ INR (S j)) (/ INR (S k)) ltac:(lra) ltac:(lra) ltac:(lra) ltac:(lra) L). lra.
      - assert (Q := cos_decreasing_1 (/ INR (S k)) (/ INR (S j)) ltac:(lra) ltac:(lra) ltac:(lra) ltac:(lra) L). lra. }
    assert (Q : INR (S j) = INR (S k)) by (rewrite <- (Rinv_inv (INR (S j))), <- (Rinv_inv (INR (S k))), Y; reflexivity).
    apply INR_eq in Q. lia.
Qed.
