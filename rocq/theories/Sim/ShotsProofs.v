From Coq Require Import Reals Lra Lia.
From Verif.Base Require Import Py Cplx.
From Verif.Sim Require Import BackendModel BackendProofs ShotsModel ShotsSpec.
Local Open Scope list_scope.
Local Open Scope nat_scope.

(** chunks *)
Lemma chunksize_pos n procs : 0 < n -> 0 < procs -> 0 < chunksize n procs.
Proof.
  intros N P. unfold chunksize. destruct (Nat.eqb_spec (n mod (procs * 4)) 0) as [E | E]; [| lia].
  apply Nat.div_str_pos. split; [lia |]. apply Nat.mod_divide in E; [| lia]. destruct E as [k ->]. destruct k; [lia | nia].
Qed.
Lemma chunksize_one n procs : 0 < n -> n <= procs * 4 -> chunksize n procs = 1.
Proof.
  intros N P. unfold chunksize. destruct (Nat.eq_dec n (procs * 4)) as [-> | E].
  - rewrite Nat.mod_same by lia. cbn [Nat.eqb]. apply Nat.div_same. lia.
  - rewrite Nat.mod_small, Nat.div_small by lia. now replace (n =? 0) with false by (symmetry; apply Nat.eqb_neq; lia).
Qed.
Lemma concat_chunks {A} fuel size (l : list A) : 0 < size -> List.length l <= fuel -> concat (chunks_ fuel size l) = l.
Proof.
  intros P. revert l. induction fuel as [| f IH]; intros l L; [destruct l; [reflexivity | cbn in L; lia] |].
  cbn [chunks_]. destruct l as [| x r]; [reflexivity |]. cbn [concat]. rewrite IH; [apply firstn_skipn |].
  rewrite skipn_length. cbn [List.length] in *. lia.
Qed.

Section Pool.
Variable (pid : nat -> Z) (work : Z -> list nat -> res (list outcome)) (W : Z -> nat -> nat -> outcome -> Prop).
Hypothesis work_ok : forall p is os, work p is = Ok os -> List.length os = List.length is /\
  forall k, k < List.length is -> W p k (nth k is 0) (nth k os (OIndex 0)).
Lemma pool_map_spec size fuel : 0 < size -> forall l c r, List.length l <= fuel ->
  pool_map pid work c (chunks_ fuel size l) = Ok r ->
  List.length r = List.length l /\
  forall i, i < List.length l -> W (pid (c + i / size)) (i mod size) (nth i l 0) (nth i r (OIndex 0)).
Proof.
  intros P. induction fuel as [| f IH]; intros l c r L H.
  - destruct l; [| cbn in L; lia]. injection H as <-. split; [reflexivity | cbn; lia].
  - cbn [chunks_] in H. destruct l as [| x l0]; [injection H as <-; split; [reflexivity | cbn; lia] |].
    remember (x :: l0) as l eqn:El. assert (Ll : 0 < List.length l) by (subst; cbn; lia). clear El.
    cbn [pool_map] in H. destruct (work (pid c) (firstn size l)) as [a | e] eqn:Wa; [| discriminate H]. cbn [bindr] in H.
    destruct (pool_map pid work (S c) (chunks_ f size (skipn size l))) as [b | e] eqn:Wb; [| discriminate H].
    cbn [bindr] in H. injection H as <-. destruct (work_ok _ _ _ Wa) as [La Ha].
    destruct (IH (skipn size l) (S c) b) as [Lb Hb]; [rewrite skipn_length; lia | assumption |].
    rewrite skipn_length in Lb, Hb. rewrite firstn_length in La, Ha. split; [rewrite app_length; lia |].
    intros i Hi. destruct (Nat.lt_ge_cases i size) as [J | J].
    + rewrite Nat.div_small, Nat.mod_small, Nat.add_0_r by lia. rewrite app_nth1 by lia.
      specialize (Ha i ltac:(lia)). rewrite <- (firstn_skipn size l) at 1. rewrite app_nth1 by (rewrite firstn_length; lia). exact Ha.
    + specialize (Hb (i - size) ltac:(lia)). rewrite app_nth2 by lia. replace (i - List.length a) with (i - size) by lia.
      replace (c + i / size) with (S c + (i - size) / size).
      * replace (i mod size) with ((i - size) mod size).
        -- replace (nth i l 0) with (nth (i - size) (skipn size l) 0); [exact Hb |].
           rewrite <- (firstn_skipn size l) at 2. rewrite app_nth2 by (rewrite firstn_length; lia). f_equal. rewrite firstn_length. lia.
        -- replace i with (i - size + 1 * size) at 2 by lia. now rewrite Nat.mod_add by lia.
      * replace i with (i - size + 1 * size) at 2 by lia. rewrite Nat.div_add by lia. lia.
Qed.
Hypothesis work_total : forall p is, exists os, work p is = Ok os.
Lemma pool_map_total cs : forall c, exists r, pool_map pid work c cs = Ok r.
Proof.
  induction cs as [| is cs IH]; intros c; [now exists [] |]. cbn [pool_map]. destruct (work_total (pid c) is) as [a ->].
  destruct (IH (S c)) as [b ->]. cbn [bindr]. eauto.
Qed.
End Pool.

(** measurement *)
Lemma total_nonneg ps : (forall p, In p ps -> (0 <= p)%R) -> (0 <= total ps)%R.
Proof. induction ps as [| p r IH]; intros H; cbn [total fold_right]; [lra |]. specialize (IH (fun q I => H q (or_intror I))). specialize (H p (or_introl eq_refl)). unfold total in *. lra. Qed.
Lemma search_right_iff ps : (forall p, In p ps -> (0 <= p)%R) -> forall acc tot u i, (0 < tot)%R -> (acc / tot <= u)%R -> i < List.length ps ->
  search_right acc tot u ps = i <-> ((acc + sum_upto ps i) / tot <= u < (acc + sum_upto ps (S i)) / tot)%R.
Proof.
  induction ps as [| p r IH]; intros NN acc tot u i T A L; [cbn in L; lia |].
  assert (Mono : forall x y, (x <= y)%R -> (x / tot <= y / tot)%R).
  { intros x y X. apply Rmult_le_compat_r; [| assumption]. left. now apply Rinv_0_lt_compat. }
  assert (P : (0 <= p)%R) by (apply NN; now left).
  assert (SN : forall k, (0 <= sum_upto r k)%R).
  { intros k. apply (total_nonneg (firstn k r)). intros q I. apply NN. right. rewrite <- (firstn_skipn k r). apply in_or_app. now left. }
  cbn [search_right]. destruct (Rlt_dec u ((acc + p) / tot)) as [C | C].
  - split.
    + intros <-. unfold sum_upto. cbn [firstn fold_right]. replace (acc + 0)%R with acc by ring. replace (acc + (p + 0))%R with (acc + p)%R by ring. lra.
    + intros [H1 H2]. destruct i as [| i]; [reflexivity |]. exfalso.
      assert ((acc + p) / tot <= (acc + sum_upto (p :: r) (S i)) / tot)%R.
      { apply Mono. unfold sum_upto. cbn [firstn fold_right]. specialize (SN i). unfold sum_upto in SN. lra. }
      lra.
  - assert (A' : ((acc + p) / tot <= u)%R) by lra. split.
    + intros <-. cbn [List.length] in L. assert (L' : search_right (acc + p) tot u r < List.length r) by lia.
      pose proof (proj1 (IH (fun q I => NN q (or_intror I)) _ _ _ _ T A' L') eq_refl) as H.
      unfold sum_upto in *. cbn [firstn fold_right] in *. rewrite <- !Rplus_assoc. exact H.
    + intros H. destruct i as [| i].
      * exfalso. unfold sum_upto in H. cbn [firstn fold_right] in H. replace (acc + (p + 0))%R with (acc + p)%R in H by ring. lra.
      * f_equal. cbn [List.length] in L. apply (IH (fun q I => NN q (or_intror I)) _ _ _ i T A' ltac:(lia)).
        unfold sum_upto in *. cbn [firstn fold_right] in H. rewrite <- !Rplus_assoc in H. exact H.
Qed.
Lemma search_right_lt ps : forall acc tot u, (0 < tot)%R -> (acc / tot <= u)%R -> (u < (acc + total ps) / tot)%R -> search_right acc tot u ps < List.length ps.
Proof.
  induction ps as [| p r IH]; intros acc tot u T A B; cbn [total fold_right search_right List.length] in *.
  - replace (acc + 0)%R with acc in B by ring. lra.
  - destruct (Rlt_dec u ((acc + p) / tot)) as [C | C]; [lia |]. apply -> Nat.succ_lt_mono. apply IH; [assumption | lra |].
    rewrite Rplus_assoc. exact B.
Qed.
Lemma sum_upto_S ps i : i < List.length ps -> sum_upto ps (S i) = (sum_upto ps i + nth i ps 0)%R.
Proof.
  revert i. induction ps as [| p r IH]; intros i L; [cbn in L; lia |]. unfold sum_upto in *. destruct i as [| i]; cbn [firstn fold_right nth]; [lra |].
  cbn [List.length] in L. specialize (IH i ltac:(lia)). cbn [firstn] in IH. rewrite IH. lra.
Qed.
Lemma sum_upto_all ps : sum_upto ps (List.length ps) = total ps.
Proof. unfold sum_upto, total. now rewrite firstn_all. Qed.

Lemma probs_nonneg v p : In p (probabilities v) -> (0 <= p)%R.
Proof. intros I. apply in_map_iff in I. destruct I as (x & <- & _). apply Cnorm2_nonneg. Qed.
Lemma Cnorm2_C0 : Cnorm2 C0 = 0%R.
Proof. unfold Cnorm2, C0. cbn. ring. Qed.
Lemma tolerance_small : (0 < tolerance < 1 / 2)%R.
Proof. unfold tolerance. lra. Qed.

Section Meas.
Variables (seed : Z -> Z -> Z) (uniform : Z -> R).
Hypothesis U : unit_interval uniform.
Lemma measure_total_pos v : ~ (tolerance < Rabs (total (probabilities v) - 1))%R -> (0 < total (probabilities v))%R.
Proof. intros H. pose proof tolerance_small. unfold Rabs in H. destruct (Rcase_abs _); lra. Qed.
Lemma measure_iff v p t i : normalised v -> i < List.length v ->
  measure_state seed uniform p t v = Ok i <->
  (sum_upto (map Cnorm2 v) i <= uniform (seed p t) < sum_upto (map Cnorm2 v) i + Cnorm2 (nth i v C0))%R.
Proof.
  intros N L. unfold measure_state. unfold normalised in N. fold (probabilities v) in *. fold (total (probabilities v)) in N. rewrite N.
  destruct (Rlt_dec _ _) as [C | C].
  - exfalso. replace (1 - 1)%R with 0%R in C by ring. rewrite Rabs_R0 in C. pose proof tolerance_small. lra.
  - assert (L' : i < List.length (probabilities v)) by (unfold probabilities; now rewrite map_length).
    pose proof (search_right_iff (probabilities v) (probs_nonneg v) 0 1 (uniform (seed p t)) i) as H.
    rewrite (sum_upto_S _ _ L') in H. unfold Rdiv in H. rewrite Rinv_1, !Rmult_1_r, !Rplus_0_l in H.
    assert (E : nth i (probabilities v) 0%R = Cnorm2 (nth i v C0)).
    { unfold probabilities. rewrite <- Cnorm2_C0 at 1. apply map_nth. }
    rewrite E in H. split.
    + intros X. injection X as X. apply H; [lra | apply U | assumption | assumption].
    + intros X. f_equal. apply H; [lra | apply U | assumption | assumption].
Qed.
Lemma measure_possible v p t i : measure_state seed uniform p t v = Ok i -> possible v i.
Proof.
  unfold measure_state. destruct (Rlt_dec _ _) as [C | C]; [discriminate |]. intros H. injection H as H.
  pose proof (measure_total_pos v C) as T. set (ps := probabilities v) in *. set (u := uniform (seed p t)) in *.
  assert (A : (0 / total ps <= u)%R) by (unfold Rdiv; rewrite Rmult_0_l; apply U).
  assert (L : search_right 0 (total ps) u ps < List.length ps).
  { apply search_right_lt; [assumption | assumption |]. rewrite Rplus_0_l. unfold Rdiv. rewrite Rinv_r by lra. apply U. }
  rewrite H in L. pose proof (proj1 (search_right_iff ps (probs_nonneg v) _ _ _ i T A L) H) as X.
  rewrite (sum_upto_S _ _ L), !Rplus_0_l in X. assert (P : (0 < nth i ps 0)%R).
  { destruct (Rle_dec (nth i ps 0%R) 0%R) as [Q | Q]; [exfalso | lra].
    assert ((sum_upto ps i + nth i ps 0) / total ps <= sum_upto ps i / total ps)%R.
    { apply Rmult_le_compat_r; [left; now apply Rinv_0_lt_compat | lra]. }
    lra. }
  unfold ps, probabilities in *. rewrite map_length in L. split; [assumption |]. intros E.
  assert (F : nth i (map Cnorm2 v) 0%R = Cnorm2 (nth i v C0)) by (rewrite <- Cnorm2_C0 at 1; apply map_nth).
  rewrite F, E, Cnorm2_C0 in P. lra.
Qed.
Lemma measure_returns v p t : normalised v -> exists i, measure_state seed uniform p t v = Ok i.
Proof.
  intros N. unfold measure_state. unfold normalised in N. fold (probabilities v) in N. fold (total (probabilities v)) in N.
  destruct (Rlt_dec _ _) as [C | C]; [| eauto]. exfalso. rewrite N in C. replace (1 - 1)%R with 0%R in C by ring. rewrite Rabs_R0 in C. pose proof tolerance_small. lra.
Qed.
Lemma finish_possible full p t v o : finish seed uniform full p t v = Ok o -> outcome_of full v o.
Proof.
  unfold finish, outcome_of. destruct full; [now intros H; injection H |].
  destruct (measure_state _ _ _ _ _) as [i | e] eqn:M; [| discriminate]. cbn [bindr]. intros H. injection H as <-.
  exists i. split; [reflexivity |]. now apply measure_possible in M.
Qed.
End Meas.

Section Sim.
Context {S : Type}.
Variables (seed : Z -> Z -> Z) (uniform : Z -> R) (pid ms : nat -> Z) (noisy_tn : S -> res (vec * S)) (noisy_mi : nat -> res vec).
Notation sim := (stochastic_simulation seed uniform pid ms noisy_tn noisy_mi).

Lemma chunk_tn_spec full p : forall is s os, chunk_tn seed uniform ms noisy_tn full p s is = Ok os ->
  List.length os = List.length is /\ forall k, k < List.length is -> exists v, stream noisy_tn s k = Ok v /\
    finish seed uniform full p (ms (nth k is 0)) v = Ok (nth k os (OIndex 0)).
Proof.
  induction is as [| i r IH]; intros s os H; cbn [chunk_tn] in H; [injection H as <-; split; [reflexivity | cbn; lia] |].
  destruct (noisy_tn s) as [[v s'] | e] eqn:N; [| discriminate H].
  destruct (finish _ _ _ _ _ v) as [o | e] eqn:F; [| discriminate H]. cbn [bindr] in H.
  destruct (chunk_tn _ _ _ _ _ _ s' r) as [os' | e] eqn:Q; [| discriminate H]. cbn [bindr] in H. injection H as <-.
  destruct (IH _ _ Q) as [L G]. split; [cbn [List.length]; lia |]. intros [| k] K.
  - exists v. cbn [stream]. rewrite N. now split.
  - cbn [stream]. rewrite N. cbn [nth List.length] in *. apply G. lia.
Qed.
Lemma chunk_mi_spec full p : forall is os, chunk_mi seed uniform ms noisy_mi full p is = Ok os ->
  List.length os = List.length is /\ forall k, k < List.length is -> exists v, noisy_mi (nth k is 0) = Ok v /\
    finish seed uniform full p (ms (nth k is 0)) v = Ok (nth k os (OIndex 0)).
Proof.
  induction is as [| i r IH]; intros os H; cbn [chunk_mi] in H; [injection H as <-; split; [reflexivity | cbn; lia] |].
  destruct (noisy_mi i) as [v | e] eqn:N; [| discriminate H]. cbn [bindr] in H.
  destruct (finish _ _ _ _ _ v) as [o | e] eqn:F; [| discriminate H]. cbn [bindr] in H.
  destruct (chunk_mi seed uniform ms noisy_mi full p r) as [os' | e] eqn:Q; [| discriminate H]. cbn [bindr] in H. injection H as <-.
  destruct (IH _ eq_refl) as [L G]. split; [cbn [List.length]; lia |]. intros [| k] K.
  - exists v. now split.
  - cbn [nth List.length] in *. apply G. lia.
Qed.

Lemma sim_tn procs s0 b z rs : tensor_network (b_kind b) -> 0 < procs -> b_shots b = VInt z -> sim procs s0 b = Ok rs ->
  let n := Z.to_nat z in
  List.length rs = n /\ forall i, i < n -> exists v, stream noisy_tn s0 (i mod chunksize n procs) = Ok v /\
    finish seed uniform (truthy (b_full b)) (pid (i / chunksize n procs)) (ms i) v = Ok (nth i rs (OIndex 0)).
Proof.
  intros [K1 K2] P E H n. unfold stochastic_simulation in H. rewrite E in H. fold n in H.
  destruct (Nat.eq_dec n 0) as [N | N].
  { rewrite N in *. cbn [seq chunks chunks_ List.length pool_map] in H. destruct (b_kind b); try congruence; injection H as <-; (split; [reflexivity | lia]). }
  assert (H' : pool_map pid (fun p is => chunk_tn seed uniform ms noisy_tn (truthy (b_full b)) p s0 is) 0 (chunks (chunksize n procs) (seq 0 n)) = Ok rs).
  { destruct (b_kind b); congruence. }
  clear H. unfold chunks in H'. rewrite seq_length in H'.
  pose proof (pool_map_spec pid _ (fun p k i o => exists v, stream noisy_tn s0 k = Ok v /\ finish seed uniform (truthy (b_full b)) p (ms i) v = Ok o)
    (fun p is os => chunk_tn_spec _ p is s0 os) (chunksize n procs) n (chunksize_pos n procs ltac:(lia) P) (seq 0 n) 0 rs) as G.
  rewrite seq_length in G. destruct (G (le_n n) H') as [L A]. split; [assumption |]. intros i Hi. specialize (A i Hi).
  rewrite seq_nth in A by assumption. exact A.
Qed.
Lemma sim_mi procs s0 b z rs : b_kind b = MISim -> 0 < procs -> b_shots b = VInt z -> sim procs s0 b = Ok rs ->
  let n := Z.to_nat z in
  List.length rs = n /\ forall i, i < n -> exists v, noisy_mi i = Ok v /\
    finish seed uniform (truthy (b_full b)) (pid (i / chunksize n procs)) (ms i) v = Ok (nth i rs (OIndex 0)).
Proof.
  intros K P E H n. unfold stochastic_simulation in H. rewrite E, K in H. fold n in H.
  destruct (Nat.eq_dec n 0) as [N | N]; [rewrite N in *; injection H as <-; split; [reflexivity | lia] |].
  unfold chunks in H. rewrite seq_length in H.
  pose proof (pool_map_spec pid _ (fun p k i o => exists v, noisy_mi i = Ok v /\ finish seed uniform (truthy (b_full b)) p (ms i) v = Ok o)
    (fun p is os => chunk_mi_spec _ p is os) (chunksize n procs) n (chunksize_pos n procs ltac:(lia) P) (seq 0 n) 0 rs) as G.
  rewrite seq_length in G. destruct (G (le_n n) H) as [L A]. split; [assumption |]. intros i Hi. specialize (A i Hi).
  rewrite seq_nth in A by assumption. exact A.
Qed.

Lemma sim_length procs s0 b z rs : 0 < procs -> b_shots b = VInt z -> sim procs s0 b = Ok rs -> List.length rs = Z.to_nat z.
Proof.
  intros P E H. destruct (b_kind b) eqn:K.
  - apply (sim_tn procs s0 b z rs); auto. rewrite K. split; discriminate.
  - now apply (sim_mi procs s0 b z rs).
  - unfold stochastic_simulation in H. rewrite E, K in H. discriminate H.
  - apply (sim_tn procs s0 b z rs); auto. rewrite K. split; discriminate.
  - apply (sim_tn procs s0 b z rs); auto. rewrite K. split; discriminate.
  - apply (sim_tn procs s0 b z rs); auto. rewrite K. split; discriminate.
Qed.
Lemma sim_outcomes_tn procs s0 b z rs : unit_interval uniform -> tensor_network (b_kind b) -> 0 < procs -> b_shots b = VInt z -> sim procs s0 b = Ok rs ->
  forall i, i < Z.to_nat z -> exists v, stream noisy_tn s0 (i mod chunksize (Z.to_nat z) procs) = Ok v /\ outcome_of (truthy (b_full b)) v (nth i rs (OIndex 0)).
Proof.
  intros U K P E H i Hi. destruct (proj2 (sim_tn procs s0 b z rs K P E H) i Hi) as (v & A & B). exists v. split; [assumption |].
  now apply finish_possible in B.
Qed.
Lemma sim_outcomes_mi procs s0 b z rs : unit_interval uniform -> b_kind b = MISim -> 0 < procs -> b_shots b = VInt z -> sim procs s0 b = Ok rs ->
  forall i, i < Z.to_nat z -> exists v, noisy_mi i = Ok v /\ outcome_of (truthy (b_full b)) v (nth i rs (OIndex 0)).
Proof.
  intros U K P E H i Hi. destruct (proj2 (sim_mi procs s0 b z rs K P E H) i Hi) as (v & A & B). exists v. split; [assumption |].
  now apply finish_possible in B.
Qed.

Lemma finish_returns full p t v : normalised v -> exists o, finish seed uniform full p t v = Ok o.
Proof. intros N. unfold finish. destruct full; [eauto |]. destruct (measure_returns seed uniform v p t N) as [i ->]. cbn [bindr]. eauto. Qed.
Lemma sim_returns procs s0 b z : b_kind b <> Innsbruck01 -> b_shots b = VInt z ->
  (forall s, exists v s', noisy_tn s = Ok (v, s') /\ normalised v) -> (forall i, exists v, noisy_mi i = Ok v /\ normalised v) ->
  exists rs, sim procs s0 b = Ok rs.
Proof.
  intros K E HT HM. unfold stochastic_simulation. rewrite E.
  assert (T : exists rs, pool_map pid (fun p is => chunk_tn seed uniform ms noisy_tn (truthy (b_full b)) p s0 is) 0
    (chunks (chunksize (Z.to_nat z) procs) (seq 0 (Z.to_nat z))) = Ok rs).
  { apply pool_map_total. intros p is. generalize s0. induction is as [| i r IH]; intros s; [now exists [] |]. cbn [chunk_tn].
    destruct (HT s) as (v & s' & -> & N). destruct (finish_returns (truthy (b_full b)) p (ms i) v N) as [o ->]. destruct (IH s') as [os ->]. cbn [bindr]. eauto. }
  assert (M : exists rs, pool_map pid (fun p is => chunk_mi seed uniform ms noisy_mi (truthy (b_full b)) p is) 0
    (chunks (chunksize (Z.to_nat z) procs) (seq 0 (Z.to_nat z))) = Ok rs).
  { apply pool_map_total. intros p is. induction is as [| i r IH]; [now exists [] |]. cbn [chunk_mi].
    destruct (HM i) as (v & -> & N). cbn [bindr]. destruct (finish_returns (truthy (b_full b)) p (ms i) v N) as [o ->]. destruct IH as [os ->]. cbn [bindr]. eauto. }
  destruct (b_kind b); auto. congruence.
Qed.

(** repeated noise *)
Lemma sim_repeats procs s0 b z rs i j : tensor_network (b_kind b) -> 0 < procs -> b_shots b = VInt z -> truthy (b_full b) = true ->
  sim procs s0 b = Ok rs -> i < Z.to_nat z -> j < Z.to_nat z ->
  i mod chunksize (Z.to_nat z) procs = j mod chunksize (Z.to_nat z) procs -> nth i rs (OIndex 0) = nth j rs (OIndex 0).
Proof.
  intros K P E F H I J M. pose proof (proj2 (sim_tn procs s0 b z rs K P E H)) as G. cbn zeta in G.
  destruct (G i I) as (v & A & B), (G j J) as (v' & A' & B'). rewrite F in B, B'. cbn in B, B'. rewrite M in A. congruence.
Qed.
Lemma sim_all_same procs s0 b z rs i j : tensor_network (b_kind b) -> b_shots b = VInt z -> truthy (b_full b) = true ->
  Z.to_nat z <= procs * 4 -> sim procs s0 b = Ok rs -> i < Z.to_nat z -> j < Z.to_nat z -> nth i rs (OIndex 0) = nth j rs (OIndex 0).
Proof.
  intros K E F L H I J. apply (sim_repeats procs s0 b z rs); auto; [lia |]. rewrite chunksize_one by lia. now rewrite !Nat.mod_1_r.
Qed.
Lemma sim_same_outcome procs s0 b z rs i j : tensor_network (b_kind b) -> b_shots b = VInt z ->
  Z.to_nat z <= procs * 4 -> sim procs s0 b = Ok rs -> i < Z.to_nat z -> j < Z.to_nat z ->
  pid i = pid j -> ms i = ms j -> nth i rs (OIndex 0) = nth j rs (OIndex 0).
Proof.
  intros K E L H I J EP EM. pose proof (proj2 (sim_tn procs s0 b z rs K ltac:(lia) E H)) as G. cbn zeta in G.
  rewrite chunksize_one in G by lia. destruct (G i I) as (v & A & B), (G j J) as (v' & A' & B').
  rewrite !Nat.mod_1_r in *. rewrite !Nat.div_1_r in *. rewrite EP, EM in B. rewrite A in A'. injection A' as <-. congruence.
Qed.
End Sim.

Lemma saved_spec b rs : truthy (b_path b) = true -> truthy (b_file b) = true ->
  (truthy (b_full b) = true -> save_results b rs = Some (States rs)) /\
  (truthy (b_full b) = false -> truthy (b_memory b) = true -> exists rows, save_results b rs = Some (Shots rows) /\
     map fst rows = seq 0 (List.length rs) /\ map snd rows = rs).
Proof.
  intros P F. unfold save_results. rewrite P, F. split; [intros -> ; reflexivity |]. intros -> ->. cbn [andb].
  eexists. split; [reflexivity |]. generalize 0. induction rs as [| r rs IH]; intros k; [now split |].
  cbn [List.length seq combine map fst snd]. destruct (IH (S k)) as [A B]. now rewrite A, B.
Qed.
Lemma not_saved b rs : truthy (b_full b) = false /\ truthy (b_memory b) = false \/ truthy (b_path b) = false \/ truthy (b_file b) = false -> save_results b rs = None.
Proof.
  unfold save_results. destruct (truthy (b_full b)), (truthy (b_memory b)), (truthy (b_path b)), (truthy (b_file b)); cbn; intuition discriminate.
Qed.

(** *** run() with the stochastic simulation of this file: [setup] gives the noisy executions and the first state of
    the generator of a circuit under the settings of the backend. *)
Lemma run_counts {Circ V S : Type} (execute : Circ -> res V) (empty : V) seed uniform pid ms (noisy_tn : backend -> Circ -> S -> res (vec * S)) noisy_mi procs s0 b c opts z res' :
  0 < procs -> b_kind b <> Innsbruck01 -> b_noise (load b opts) <> VNone -> b_shots (load b opts) = VInt z ->
  snd (run execute (fun b c => stochastic_simulation seed uniform pid ms (noisy_tn b c) (noisy_mi b c) procs s0 b) empty b c opts) = Ok res' ->
  List.length (r_counts res') = Z.to_nat z /\ (50 <= z)%Z.
Proof.
  intros P K N Z. unfold run. cbn [snd]. set (b1 := load b opts) in *. intros H.
  assert (E : exists v rs, stochastic_simulation seed uniform pid ms (noisy_tn b1 c) (noisy_mi b1 c) procs s0 b1 = Ok rs /\ res' = JResult v rs /\ (50 <= z)%Z).
  { rewrite Z in H. unfold at_least_50 in H. destruct (b_kind b) eqn:Kb; try contradiction; (destruct (b_noise b1); [contradiction|..]);
    cbn [bindr assert] in H; (destruct (50 <=? z)%Z eqn:L; cbn [bindr assert] in H; [|discriminate H]); apply Z.leb_le in L;
    (destruct (execute c) as [v|]; cbn [bindr] in H; [|discriminate H]);
    (destruct (stochastic_simulation seed uniform pid ms (noisy_tn b1 c) (noisy_mi b1 c) procs s0 b1) as [rs|] eqn:St; cbn [bindr] in H; [|discriminate H]);
    injection H as <-; eauto. }
  destruct E as (v & rs & St & -> & L). split; [|exact L]. cbn [r_counts]. eapply sim_length; eassumption.
Qed.

(** ** Flags *)
Lemma truthy_iff v : truthy v = false <-> v = VNone \/ v = VInt 0 \/ v = VBool false \/ v = VStr ""%string.
Proof.
  destruct v as [|z|b|s|m]; cbn [truthy].
  - split; [now left|reflexivity].
  - destruct (Z.eqb_spec z 0) as [->|N]; cbn; (split; [intros H; discriminate || tauto|]); intros H; decompose [or] H; try discriminate; congruence.
  - destruct b; (split; [intros H; discriminate || tauto|]); intros H; decompose [or] H; try discriminate; congruence.
  - destruct (String.eqb_spec s ""%string) as [->|N]; cbn; (split; [intros H; discriminate || tauto|]); intros H; decompose [or] H; try discriminate; congruence.
  - split; [discriminate|]. intros H. decompose [or] H; discriminate.
Qed.
