(** Sessions: every operation keeps the states, and returns what it has to. *)
From Coq Require Import List Arith Lia Reals Lra Bool Sorted.
From Verif Require Import Base.Cplx Base.Matrix Base.Radix Sim.TnModel Misim.DdModel Misim.DdSpec Misim.DdProofs Misim.DdGateProofs
  Misim.MisimModel Misim.NodeModel Misim.NodeSpec Misim.NodeShapeProofs Misim.NodeProofs Misim.ControlsProofs Misim.CanonProofs
  Misim.SessionModel Misim.SessionSpec Misim.SessionProofs Misim.SessionReadProofs Misim.SessionCountProofs.
Import ListNotations.
Local Open Scope nat_scope.

Section Run.
Variable dims : list nat.
Hypothesis pos : forall d, In d dims -> 0 < d.
Variable uhash : bool -> list aedge -> nat.
Variable ahash : bool -> aedge -> aedge -> nat.
Variable mhash : bool -> ref -> ref -> nat.
Variable ihash : ref -> ref -> nat.
Notation sgood := (sgood dims uhash).
Notation stands := (stands dims).
Notation step := (step 0 dims uhash ahash mhash ihash).
Notation run := (run 0 dims uhash ahash mhash ihash).

Lemma table_ext h h' T : hext h h' -> table_good dims h T -> table_good dims h' T.
Proof.
  intros X G k a b c E. destruct (G k a b c E) as (n & x & y & Hn & Dx & Dy & Q). exists n, x, y. split; [exact Hn|]. split; [eapply den_ext; eassumption|]. split; [eapply den_ext; eassumption|]. exact Q.
Qed.
Definition holds (xs : list state) (z : session) : Prop :=
  sgood (mem z) /\ table_good dims (heaps (mem z) false) (ips z) /\ Forall2 (stands (mem z)) (states z) xs.
Lemma holds_start : holds [] start.
Proof. split; [apply (init_good dims uhash)|]. split; [intros k a b c; discriminate|constructor]. Qed.
Lemma holds_at xs z k : holds xs z -> k < length xs -> exists e, state_at z k = Done e /\ nth_error (states z) k = Some e /\ stands (mem z) e (at_state xs k).
Proof.
  intros (_ & _ & F) Hk. unfold state_at, at_state. revert k Hk. generalize (states z) F. clear F. intros es F. induction F as [|e x es xs P F IH]; intros k Hk; [cbn in Hk; lia|].
  destruct k as [|k]; [exists e; cbn; auto|]. cbn [length] in Hk. apply (IH k). lia.
Qed.
Lemma holds_grow xs z s : holds xs z -> sgood s -> sext (mem z) s -> holds xs (Se s (ips z) (states z)).
Proof.
  intros (_ & T & F) G X. split; [exact G|]. split; [apply (table_ext (heaps (mem z) false)); [apply X|exact T]|]. cbn [mem states]. clear -F X. induction F; constructor; [apply (stands_ext dims (mem z)); assumption|assumption].
Qed.
Lemma keep_ok xs z c x : holds xs z -> makes dims uhash (mem z) c x -> exists z', keep z c = Done (Nothing, z') /\ holds (xs ++ [x]) z'.
Proof.
  intros H (e & s & E & G & X & S). unfold keep. rewrite E. eexists. split; [reflexivity|]. destruct (holds_grow xs z s H G X) as (G' & T & F). split; [exact G'|]. split; [exact T|].
  cbn [states mem]. apply Forall2_app; [exact F|]. constructor; [exact S|constructor].
Qed.
Lemma stands_val s e x : stands s e x -> exists f, dene (heaps s false) e f /\ nfe (rev dims) f /\ forall p, valid dims p -> ev f (rev p) = x p.
Proof. intros H. exact H. Qed.

Lemma step_ok xs z o : holds xs z -> fits dims (length xs) o -> no_entry o -> exists r z', step z o = Done (r, z') /\ right dims xs o r /\ holds (after dims xs o) z'.
Proof.
  intros H Fi Ne. assert (G : sgood (mem z)) by apply H.
  assert (Kept : forall c x, makes dims uhash (mem z) c x -> exists r z', keep z c = Done (r, z') /\ r = Nothing /\ holds (xs ++ [x]) z').
  { intros c x Mk. destruct (keep_ok xs z c x H Mk) as (z' & E & H'). exists Nothing, z'. auto. }
  destruct o as [levels| |d A c t k|j k|j k|j k|k codes|k levels|k i|k|k|d A c t|d A c t rows cols]; cbn [fits] in Fi; cbn [SessionModel.step after].
  - destruct (Kept _ _ (basis_makes dims pos uhash (mem z) levels G Fi)) as (r & z' & E & -> & H'). exists Nothing, z'. split; [exact E|]. split; [exact Logic.I|exact H'].
  - destruct (Kept _ _ (zero_makes dims pos uhash (mem z) G)) as (r & z' & E & -> & H'). exists Nothing, z'. split; [exact E|]. split; [exact Logic.I|exact H'].
  - destruct Fi as [Fi Hk]. destruct (holds_at xs z k H Hk) as (e & E & _ & S). rewrite E. cbn [cbind].
    destruct (Kept _ _ (apply_makes dims pos uhash ahash mhash (mem z) d A c t e _ G Fi S)) as (r & z' & Q & -> & H'). exists Nothing, z'. split; [exact Q|]. split; [exact Logic.I|exact H'].
  - destruct Fi as [Hj Hk]. destruct (holds_at xs z j H Hj) as (e & E & _ & S). destruct (holds_at xs z k H Hk) as (e' & E' & _ & S'). rewrite E, E'. cbn [cbind].
    destruct (Kept _ _ (sum_makes dims pos uhash ahash (mem z) e _ e' _ G S S')) as (r & z' & Q & -> & H'). exists Nothing, z'. split; [exact Q|]. split; [exact Logic.I|exact H'].
  - destruct Fi as [Hj Hk]. destruct (holds_at xs z j H Hj) as (e & E & _ & S). destruct (holds_at xs z k H Hk) as (e' & E' & _ & S'). rewrite E, E'. cbn [cbind].
    pose proof (inner_norm dims ihash (mem z) e e' _ _ (ips z) (proj1 (proj2 H)) S S') as V. destruct (inner_stands dims ihash (mem z) e e' _ _ (ips z) (proj1 (proj2 H)) S S') as [T _].
    destruct (inner 0 dims ihash (heaps (mem z) false) e e' (ips z)) as [w T']. cbn [fst snd] in *. eexists _, _. split; [reflexivity|]. split; [exact V|]. split; [exact G|]. split; [exact T|apply H].
  - destruct Fi as [Hj Hk]. destruct (holds_at xs z j H Hj) as (e & E & _ & S). destruct (holds_at xs z k H Hk) as (e' & E' & _ & S'). rewrite E, E'. cbn [cbind]. unfold fidelity.
    pose proof (inner_norm dims ihash (mem z) e e' _ _ (ips z) (proj1 (proj2 H)) S S') as V. destruct (inner_stands dims ihash (mem z) e e' _ _ (ips z) (proj1 (proj2 H)) S S') as [T _].
    destruct (inner 0 dims ihash (heaps (mem z) false) e e' (ips z)) as [w T']. cbn [fst snd] in *. eexists _, _. split; [reflexivity|]. split; [exact V|]. split; [exact G|]. split; [exact T|apply H].
  - destruct Fi as [Hk (levels & -> & Hl)]. destruct (holds_at xs z k H Hk) as (e & E & _ & (f & D & N & V)). rewrite E. cbn [cbind].
    rewrite (by_string_ok dims (heaps (mem z) false) levels Hl (length dims) e f C1 (le_n _) D) by (rewrite sizes_all; exact N). cbn [cbind]. eexists _, _. split; [reflexivity|]. split; [|exact H].
    intros l El. assert (l = levels). { clear -El. revert l El. induction levels as [|a levels IH]; intros [|b l] El; try discriminate; [reflexivity|]. cbn [map] in El. injection El as E1 E2. f_equal; [lia|apply IH; exact E2]. }
    subst l. rewrite <- (V levels Hl). rewrite <- (valid_length _ _ Hl), firstn_all. ring.
  - destruct Fi as [Hk Hl]. destruct (holds_at xs z k H Hk) as (e & E & _ & (f & D & N & V)). rewrite E. cbn [cbind].
    rewrite (by_levels_ok dims (heaps (mem z) false) (length dims) e f C1 levels (le_n _) D) by (rewrite sizes_all; assumption). cbn [cbind]. eexists _, _. split; [reflexivity|]. split; [|exact H].
    cbn [right]. rewrite <- V by (rewrite <- (rev_involutive dims); apply valid_rev; exact Hl). rewrite rev_involutive. ring.
  - destruct Fi as [Hk Hi]. destruct (holds_at xs z k H Hk) as (e & E & _ & (f & D & N & V)). rewrite E. cbn [cbind]. unfold listed.
    assert (Ex : exists p, valid (rev dims) p /\ i = undigits (rev dims) p).
    { exists (digits (rev dims) i). rewrite <- prodl_rev in Hi. split; [apply valid_digits|symmetry; apply undigits_digits]; exact Hi. }
    destruct Ex as (p & Hp & ->). rewrite fold_mul, Nat.mul_1_l, <- prodl_rev, repr_digits by exact Hp.
    rewrite (by_levels_ok dims (heaps (mem z) false) (length dims) e f C1 p (le_n _) D) by (rewrite sizes_all; assumption). cbn [cbind]. eexists _, _. split; [reflexivity|]. split; [|exact H].
    intros levels Hl El. apply (f_equal (digits (rev dims))) in El. rewrite !digits_undigits in El by (try apply valid_rev; assumption). subst p. rewrite (V levels Hl). ring.
  - destruct (holds_at xs z k H Fi) as (e & E & _ & (f & D & N & V)). rewrite E. cbn [cbind]. eexists _, _. split; [reflexivity|]. split; [|exact H].
    intros levels Hl. rewrite (read_write (mem z) _ _ f) by exact D. rewrite <- (V levels Hl). apply (get_vector_ok dims f pos (nfe_ewf _ _ N)). apply valid_rev, Hl.
  - destruct (holds_at xs z k H Fi) as (e & E & _ & (f & D & N & V)). rewrite E. cbn [cbind]. eexists _, _. split; [reflexivity|]. split; [|exact H].
    cbn [right]. destruct (count_nodes dims (heaps (mem z) false) (snd e) (snd f) (hg_unique _ _ _ _ (sg_heap _ _ _ G false)) (proj2 D)) as (l & Dl & Hl & ->).
    { destruct N as [->|[_ O]]; [left; reflexivity|right; rewrite sizes_all; exact O]. }
    apply (number_ok dims f _ N V l Dl Hl).
  - destruct (gate_right dims pos uhash (mem z) d A c t G Fi) as (f & (e & s & E & G' & X & D) & O & W & V). rewrite E. eexists _, _. split; [reflexivity|]. split; [|apply holds_grow; assumption].
    intros p q Hp Hq. rewrite (vectorized_ok dims pos s e f t D O p q Hp Hq). apply V; assumption.
  - destruct Ne.
Qed.
Lemma after_length xs o : length (after dims xs o) = match o with Basis _ | Zero | Apply _ _ _ _ _ | Sum _ _ => S (length xs) | _ => length xs end.
Proof. destruct o; cbn [after]; try reflexivity; rewrite app_length; cbn; lia. Qed.
Lemma run_ok : forall os xs z, holds xs z -> used_right dims (length xs) os -> exists rs z', run z os = Done (rs, z') /\ all_right dims xs os rs /\ holds (meaning dims xs os) z'.
Proof.
  induction os as [|o os IH]; intros xs z H U; [exists [], z; cbn; auto|]. destruct U as (Fi & Ne & U). destruct (step_ok xs z o H Fi Ne) as (r & z1 & E & R & H1).
  rewrite <- after_length in U. destruct (IH (after dims xs o) z1 H1 U) as (rs & z2 & E2 & R2 & H2). exists (r :: rs), z2. cbn [SessionModel.run]. rewrite E. cbn [cbind fst snd]. rewrite E2. cbn [cbind fst snd].
  split; [reflexivity|]. split; [split; assumption|exact H2].
Qed.
Lemma reached_holds xs z : reached_session dims uhash ahash mhash ihash xs z -> holds xs z.
Proof. intros (os & rs & U & E & ->). destruct (run_ok os [] start holds_start U) as (rs' & z' & E' & _ & H). rewrite E in E'. injection E' as <- <-. exact H. Qed.
End Run.
