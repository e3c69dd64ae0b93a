(** Custom and random gates (C90). *)
From Coq Require Import Reals Lra Lia List Arith ZArith.
From Verif.Base Require Import Py PyFacts Cplx Matrix Radix.
From Verif.Gates Require Import SourceModel SourceSpec.
Import ListNotations.
Local Open Scope list_scope.
Local Open Scope nat_scope.

Lemma set_flag_nth i : forall l j, nth_error (set_flag i l) j = match nth_error l j with Some (s, f) => Some (s, if Nat.eqb i j then true else f) | None => None end.
Proof.
  induction i as [|i IH]; intros [|[s f] l] [|j]; try reflexivity; cbn.
  - destruct (nth_error l j) as [[? ?]|]; reflexivity.
  - apply IH.
Qed.
Section Hist.
  Variable rvs : nat -> nat -> mat.
  Lemma act_objects w a i s f : nth_error (objects w) i = Some (s, f) ->
    nth_error (objects (snd (act rvs w a))) i = Some (s, match a with Dag j => if Nat.eqb j i then true else f | Read _ => f end).
  Proof.
    intros H. destruct a as [j|j]; cbn [act].
    - destruct (nth_error (objects w) j) as [[s' f']|]; cbn; exact H.
    - destruct (nth_error (objects w) j) as [x|] eqn:E; cbn [snd objects].
      + rewrite set_flag_nth, H. reflexivity.
      + destruct (Nat.eqb_spec j i) as [->|N]; [congruence|exact H].
  Qed.
  Lemma acts_objects h : forall w i s f, nth_error (objects w) i = Some (s, f) ->
    exists f', nth_error (objects (snd (acts rvs w h))) i = Some (s, f') /\ (f' = true <-> f = true \/ dagged i h).
  Proof.
    induction h as [|a h IH]; intros w i s f H; cbn [acts snd].
    - exists f. split; [exact H|]. unfold dagged. cbn. tauto.
    - assert (X := act_objects w a i s f H). destruct (IH _ _ _ _ X) as (f' & E & I). exists f'. split; [exact E|]. rewrite I. unfold dagged. cbn [In]. destruct a as [j|j].
      + split; [tauto|]. intros [A|[A|A]]; [auto|discriminate|auto].
      + destruct (Nat.eqb_spec j i) as [->|N]; [tauto|]. split; [tauto|]. intros [A|[A|A]]; [auto|injection A as A; contradiction|auto].
  Qed.
  Lemma act_drawn w a : drawn w <= drawn (snd (act rvs w a)).
  Proof.
    destruct a as [j|j]; cbn [act]; destruct (nth_error (objects w) j) as [[s f]|]; cbn; trivial. destruct s as [st|[|d ds]]; cbn; lia.
  Qed.
  Lemma acts_drawn h : forall w, drawn w <= drawn (snd (acts rvs w h)).
  Proof. induction h as [|a h IH]; intros w; cbn [acts snd]; [lia|]. specialize (IH (snd (act rvs w a))). assert (X := act_drawn w a). lia. Qed.

  (** What a read of a custom gate answers after any history. *)
  Theorem read_custom w h i st : nth_error (objects w) i = Some (Custom st, false) ->
    (dagged i h -> fst (act rvs (snd (acts rvs w h)) (Read i)) = match st with Some a => Matrix (conj_T a) | None => Raised AttributeError end) /\
    (~ dagged i h -> fst (act rvs (snd (acts rvs w h)) (Read i)) = match st with Some a => Matrix a | None => PyNone end).
  Proof.
    intros H. destruct (acts_objects h w i _ _ H) as (f & E & I). cbn [act]. rewrite E. destruct f; cbn; split; intros D; destruct st; trivial; exfalso.
    - destruct (proj1 I eq_refl) as [X|X]; [discriminate|contradiction].
    - destruct (proj1 I eq_refl) as [X|X]; [discriminate|contradiction].
    - discriminate (proj2 I (or_intror D)).
    - discriminate (proj2 I (or_intror D)).
  Qed.
  (** What a read of a random gate answers. *)
  Theorem read_random w h i dims : dims <> [] -> nth_error (objects w) i = Some (Random dims, false) ->
    exists k, drawn w <= k /\ drawn (snd (acts rvs w h)) = k /\ drawn (snd (act rvs (snd (acts rvs w h)) (Read i))) = S k /\
      (dagged i h -> fst (act rvs (snd (acts rvs w h)) (Read i)) = Matrix (conj_T (Array (prodl dims) (prodl dims) (rvs (prodl dims) k)))) /\
      (~ dagged i h -> fst (act rvs (snd (acts rvs w h)) (Read i)) = Matrix (Array (prodl dims) (prodl dims) (rvs (prodl dims) k))).
  Proof.
    intros N H. destruct (acts_objects h w i _ _ H) as (f & E & I). exists (drawn (snd (acts rvs w h))). split; [apply acts_drawn|]. split; [reflexivity|].
    cbn [act]. rewrite E. destruct dims as [|d ds]; [contradiction|]. unfold read_gate, array_of. cbn [fst snd drawn]. split; [reflexivity|]. destruct f; split; intros D; trivial; exfalso.
    - destruct (proj1 I eq_refl) as [X|X]; [discriminate|contradiction].
    - discriminate (proj2 I (or_intror D)).
  Qed.
  (** The samples of two reads. *)
  Theorem reads_differ w h i dims : draws_unitaries rvs -> never_repeats rvs -> dims <> [] -> 0 < prodl dims -> nth_error (objects w) i = Some (Random dims, false) -> ~ dagged i h ->
    exists a b, fst (act rvs w (Read i)) = Matrix a /\ fst (act rvs (snd (acts rvs (snd (act rvs w (Read i))) h)) (Read i)) = Matrix b /\ ~ meq (prodl dims) (a_ent a) (a_ent b).
  Proof.
    intros DU NR N P H ND. destruct (read_random w [] i dims N H) as (k & _ & K1 & K2 & _ & K4). cbn [acts snd] in *.
    assert (H' := act_objects w (Read i) i _ _ H). cbn in H'.
    destruct (read_random (snd (act rvs w (Read i))) h i dims N H') as (k' & L & _ & _ & _ & K4').
    eexists _, _. split; [apply K4; intros []|]. split; [apply K4'; exact ND|]. cbn [a_ent]. apply NR; [exact P|]. lia.
  Qed.
  Theorem dag_differs w i dims : draws_unitaries rvs -> never_repeats rvs -> dims <> [] -> 0 < prodl dims -> nth_error (objects w) i = Some (Random dims, false) ->
    exists a b, fst (act rvs w (Read i)) = Matrix a /\ fst (act rvs (snd (act rvs (snd (act rvs w (Read i))) (Dag i))) (Read i)) = Matrix b /\
      ~ meq (prodl dims) (mmul (prodl dims) (a_ent b) (a_ent a)) mid.
  Proof.
    intros DU NR N P H. destruct (read_random w [] i dims N H) as (k & _ & K1 & K2 & _ & K4). cbn [acts snd] in *.
    assert (H' := act_objects w (Read i) i _ _ H). cbn in H'.
    destruct (read_random (snd (act rvs w (Read i))) [Dag i] i dims N H') as (k' & L & L2 & _ & K3' & _). cbn [acts snd] in *.
    eexists _, _. split; [apply K4; intros []|]. split; [apply K3'; left; reflexivity|]. cbn [a_ent conj_T]. intros X.
    apply (NR (prodl dims) k k' P ltac:(lia)).
    (* V^dagger U = 1 gives U = V *)
    assert (U1 := DU (prodl dims) k). assert (U2 := DU (prodl dims) k'). set (d := prodl dims) in *. set (A := rvs d k) in *. set (B := rvs d k') in *.
    assert (Y : meq d (mmul d B (mmul d (madj B) A)) (mmul d B mid)) by (apply mmul_ext; [apply meq_refl|exact X]).
    apply meq_trans with (mmul d (mmul d B (madj B)) A).
    - apply meq_sym. apply meq_trans with (mmul d mid A); [apply mmul_ext; [exact (proj2 U2)|apply meq_refl]|apply mmul_id_l].
    - apply meq_trans with (mmul d B (mmul d (madj B) A)); [apply mmul_assoc|]. apply meq_trans with (mmul d B mid); [exact Y|apply mmul_id_r].
  Qed.
End Hist.
