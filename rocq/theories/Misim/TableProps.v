(** C98: the numbers stored by the C++ simulator. *)
From Coq Require Import List Arith Reals Lia Lra Bool.
From Verif Require Import Base.Cplx Base.Angle Misim.TableModel Misim.TableSpec Misim.TableProofs Misim.TableCountProofs Misim.TableCases.
Import ListNotations.
Local Open Scope nat_scope.

(** The number that stands for v is within the tolerance of v, and looking it up changes no number stored before. *)
Theorem C98_close : forall tol mask root limit0 t v p t', sound_settings tol mask -> reachable tol mask root limit0 t -> (0 <= v)%R ->
  lookup tol mask root t v = (p, t') -> (Rabs (value root t' p - v) <= tol)%R /\ (forall a, stored t a -> stored t' a /\ vals t' a = vals t a).
Proof.
  intros tol mask root limit0 t v p t' S H V E. destruct (lookup_outcome tol mask root S t v p t' (reachable_good tol mask root limit0 S t H) V E) as (_ & Q & _ & K & _).
  split; [apply close_iff, Q|exact K].
Qed.
Print Assumptions C98_close.
(** Two numbers in the table differ by more than the tolerance. *)
Theorem C98_separate : forall tol mask root limit0 t a b, sound_settings tol mask -> reachable tol mask root limit0 t -> stored t a -> stored t b -> a <> b ->
  (tol < Rabs (vals t a - vals t b))%R.
Proof. intros tol mask root limit0 t a b S H. apply (g_far tol mask root t (reachable_good tol mask root limit0 S t H)). Qed.
Print Assumptions C98_separate.
(** A stored number is found again, in its own cell, whatever was stored in between. *)
Theorem C98_again : forall tol mask root limit0 t a vs t', sound_settings tol mask -> reachable tol mask root limit0 t -> stored t a ->
  (forall v, In v vs -> (0 <= v)%R) -> run tol mask root limit0 t (map Lookup vs) = Some t' -> vals t' a = vals t a /\ lookup tol mask root t' (vals t a) = (Cell a, t').
Proof.
  intros tol mask root limit0 t a vs t' S H Sa V R. pose proof (reachable_good tol mask root limit0 S t H) as G.
  destruct (lookups_keep tol mask root limit0 S vs t t' a G V R Sa) as [Sa' E]. split; [exact E|]. rewrite <- E. apply again; [exact S| |exact Sa'].
  apply (run_good tol mask root limit0 S (map Lookup vs) t t' G); [|exact R]. intros v Hv. apply in_map_iff in Hv. destruct Hv as (w & [= <-] & Hw). apply V, Hw.
Qed.
Print Assumptions C98_again.
(** The collection of garbage keeps every number with a reference and changes none. *)
Theorem C98_collection : forall tol mask root limit0 t f, sound_settings tol mask -> reachable tol mask root limit0 t ->
  let t' := collect mask limit0 f t in
  (forall a, stored t a -> 0 < refs t a -> stored t' a /\ vals t' a = vals t a /\ lookup tol mask root t' (vals t a) = (Cell a, t')) /\ (forall a, stored t' a -> stored t a).
Proof.
  intros tol mask root limit0 t f S H t'. destruct (collect_good tol mask root limit0 S f t (reachable_good tol mask root limit0 S t H)) as (G & K & B & E). fold t' in G, K, B, E.
  split; [|exact B]. intros a Sa R. split; [apply K; assumption|]. split; [rewrite E; reflexivity|]. rewrite <- E. apply again; [exact S|exact G|apply K; assumption].
Qed.
Print Assumptions C98_collection.
(** Where no border between two buckets is within the tolerance, no stored number is nearer than the one that is returned. *)
Theorem C98_nearest : forall tol mask root limit0 t v a t', sound_settings tol mask -> reachable tol mask root limit0 t -> (0 <= v)%R ->
  hash mask (v - tol) = hash mask (v + tol) -> lookup tol mask root t v = (Cell a, t') -> forall c, stored t c -> (Rabs (vals t' a - v) <= Rabs (vals t c - v))%R.
Proof. intros tol mask root limit0 t v a t' S H. apply (nearest tol mask root S t v a t' (reachable_good tol mask root limit0 S t H)). Qed.
Print Assumptions C98_nearest.
(** Across the border of two buckets as well: no number of another bucket is nearer than the one that is returned. *)
Theorem C98_nearest_across : forall tol mask root limit0 t v a t', sound_settings tol mask -> reachable tol mask root limit0 t -> (0 <= v)%R ->
  lookup tol mask root t v = (Cell a, t') -> forall c, stored t c -> hash mask (vals t c) <> hash mask (vals t' a) -> (Rabs (vals t' a - v) <= Rabs (vals t c - v))%R.
Proof. intros tol mask root limit0 t v a t' S H. apply (across tol mask root S t v a t' (reachable_good tol mask root limit0 S t H)). Qed.
Print Assumptions C98_nearest_across.
(** A number stays as long as it was released less often than it was taken, whatever else happens to the table. *)
Theorem C98_references : forall tol mask root limit0 t a os t', sound_settings tol mask -> reachable tol mask root limit0 t -> stored t a ->
  (forall v, In (Lookup v) os -> (0 <= v)%R) -> run tol mask root limit0 t os = Some t' ->
  (forall os1 os2, os = os1 ++ os2 -> released a os1 < refs t a + taken a os1) ->
  stored t' a /\ vals t' a = vals t a /\ refs t' a + released a os = refs t a + taken a os.
Proof. intros tol mask root limit0 t a os t' S H. apply (references tol mask root limit0 S a os t t' (reachable_good tol mask root limit0 S t H)). Qed.
Print Assumptions C98_references.
(** The count is the number of stored cells.  Below the limit an unforced collection does nothing; otherwise a collection leaves exactly the cells with references. *)
Theorem C98_limit : forall tol mask root limit0 t f, sound_settings tol mask -> reachable tol mask root limit0 t ->
  (exists l, NoDup l /\ (forall a, In a l <-> stored t a) /\ count t = length l) /\
  (f = false /\ count t < gc_limit t -> collect mask limit0 f t = t) /\
  (f = true \/ gc_limit t <= count t -> 1 < count t -> forall a, stored (collect mask limit0 f t) a <-> stored t a /\ 0 < refs t a).
Proof.
  intros tol mask root limit0 t f S H. pose proof (reachable_good tol mask root limit0 S t H) as G.
  split; [apply (cells tol mask root S t G (reachable_counted tol mask root limit0 S t H))|apply (collects tol mask root limit0 t f G)].
Qed.
Print Assumptions C98_limit.
(** Complex numbers: both parts within the tolerance; conjugation and negation through the sign bits are exact. *)
Theorem C98_complex : forall tol mask root limit0 t z, sound_settings tol mask -> reachable tol mask root limit0 t ->
  let (c, t') := clookup tol mask root t z in (Rabs (fst (cvalue root t' c) - fst z) <= tol)%R /\ (Rabs (snd (cvalue root t' c) - snd z) <= tol)%R.
Proof.
  intros tol mask root limit0 t z S H. pose proof (reachable_good tol mask root limit0 S t H) as G. unfold clookup.
  destruct (slookup_close tol mask root S t (fst z) G) as (G1 & Q1 & _ & C1). destruct (slookup tol mask root t (fst z)) as [r t1]. cbn [fst snd] in *.
  destruct (slookup_close tol mask root S t1 (snd z) G1) as (_ & Q2 & K2 & _). destruct (slookup tol mask root t1 (snd z)) as [i t2]. cbn [fst snd] in *.
  unfold cvalue. cbn [fst snd]. split; apply close_iff; [|exact Q2]. rewrite (svalue_kept root t1 t2 r K2 C1). exact Q1.
Qed.
Print Assumptions C98_complex.
Theorem C98_signs : forall root t c, cvalue root t (conj c) = Cconj (cvalue root t c) /\ cvalue root t (neg c) = Copp (cvalue root t c).
Proof. intros root t [r i]. unfold cvalue, conj, neg, Cconj, Copp. cbn [fst snd]. rewrite !flip_value. auto. Qed.
Print Assumptions C98_signs.
(** The shortcuts in products and quotients cost at most 2 tol times the size of the operands. *)
Theorem C98_arithmetic : forall tol a b, (0 < tol)%R ->
  (Cmod (Csub (mul tol a b) (Cmul a b)) <= 2 * tol * (Cmod a + Cmod b))%R /\ (b <> C0 -> (Cmod (Csub (Cmul (div tol a b) b) a) <= 2 * tol * (1 + Cmod a))%R).
Proof. intros tol a b P. split; [apply mul_error, P|apply div_error, P]. Qed.
Print Assumptions C98_arithmetic.
(** The number that stands for v depends on what was stored before: a lookup that first gives one cell gives another after more numbers were stored. *)
Theorem C98_history_refuted : forall tol mask root limit0, (0 < tol)%R -> (16 * tol * INR mask < 1)%R -> 4 <= mask -> (1 / 2 <= root)%R ->
  exists t v p p' vs t', reachable tol mask root limit0 t /\ (0 <= v)%R /\ lookup tol mask root t v = (p, t) /\ run tol mask root limit0 t (map Lookup vs) = Some t' /\
  (forall w, In w vs -> (0 <= w)%R) /\ lookup tol mask root t' v = (p', t') /\ p <> p'.
Proof.
  intros tol mask root limit0 P F M R. destruct (history tol mask root limit0 P F M R) as (t & v & p & p' & os & t' & A & B & D & E & G & (vs & ->) & I & J).
  exists t, v, p, p', vs, t'. repeat split; auto. intros w Hw. apply G. apply in_map, Hw.
Qed.
Print Assumptions C98_history_refuted.
(** At the border of a bucket a stored number that is farther away can be returned. *)
Theorem C98_border_refuted : forall tol mask root limit0, (0 < tol)%R -> (16 * tol * INR mask < 1)%R -> 4 <= mask -> (1 / 2 <= root)%R ->
  exists t v a c, reachable tol mask root limit0 t /\ (0 <= v)%R /\ lookup tol mask root t v = (Cell a, t) /\ stored t c /\ (Rabs (vals t c - v) < Rabs (vals t a - v))%R.
Proof. exact border. Qed.
Print Assumptions C98_border_refuted.
(** Zero has two forms: the number -tol becomes a zero with a sign bit, which is not the zero the package compares with. *)
Theorem C98_negative_zero_refuted : forall tol mask root t, (0 < tol)%R -> slookup tol mask root t (- tol) = ((true, Zero), t) /\ slookup tol mask root t tol = ((false, Zero), t).
Proof.
  intros tol mask root t P. assert (E : lookup tol mask root t tol = (Zero, t)).
  { unfold lookup. rewrite (proj2 (close_iff tol tol 0)); [reflexivity|]. rewrite Rminus_0_r, Rabs_pos_eq; lra. }
  split; unfold slookup.
  - destruct Rlt_dec; [|lra]. rewrite Rabs_Ropp, (Rabs_pos_eq tol) by lra. destruct Rlt_dec; [lra|]. rewrite E. reflexivity.
  - destruct Rlt_dec; [lra|]. rewrite E. reflexivity.
Qed.
Print Assumptions C98_negative_zero_refuted.

(** The settings of the source (tolerance 2^-42, 2^16 + 1 buckets) are sound, and a table with three numbers. *)
Lemma source_settings : (0 < / 2 ^ 42)%R /\ (16 * / 2 ^ 42 * INR (2 ^ 16) < 1)%R.
Proof.
  rewrite pow_INR. replace (INR 2) with 2%R by (cbn; ring). split; [apply Rinv_0_lt_compat, pow_lt; lra|].
  replace 42 with (26 + 16) by reflexivity. rewrite pow_add. rewrite Rinv_mult.
  replace (16 * (/ 2 ^ 26 * / 2 ^ 16) * 2 ^ 16)%R with (16 * / 2 ^ 26)%R by (field; split; apply pow_nonzero; lra).
  apply (Rmult_lt_reg_r (2 ^ 26)); [apply pow_lt; lra|]. rewrite Rmult_assoc, Rinv_l by (apply pow_nonzero; lra). cbn [pow]. lra.
Qed.
Example C98_case_source : sound_settings (/ 2 ^ 42) (2 ^ 16).
Proof. destruct source_settings as [A B]. split; [exact A|]. assert (0 <= INR (2 ^ 16))%R by apply pos_INR. nra. Qed.
Example C98_case : exists a b t, reachable (/ 2 ^ 42) (2 ^ 16) (sqrt 2 / 2) 10 t /\ a <> b /\ stored t a /\ stored t b.
Proof.
  destruct source_settings as [A B].
  assert (M : 4 <= 2 ^ 16). { change (2 ^ 2 <= 2 ^ 16). apply Nat.pow_le_mono_r; lia. }
  assert (Q : (1 / 2 <= sqrt 2 / 2)%R). { assert (sqrt 1 <= sqrt 2)%R by (apply sqrt_le_1; lra). rewrite sqrt_1 in H. lra. }
  destruct (two (/ 2 ^ 42) (2 ^ 16) (sqrt 2 / 2) 10 A B M Q (2 * / 2 ^ 42) (4 * / 2 ^ 42)) as (a & b & t & R & _ & D & _ & _ & Sa & Sb & _); try nra.
  exists a, b, t. split; [|auto]. exists [Lookup (2 * / 2 ^ 42); Lookup (4 * / 2 ^ 42)]. split; [|exact R]. intros v [[= <-] | [[= <-] | []]]; lra.
Qed.
