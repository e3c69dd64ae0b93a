From Coq Require Import Ascii String.
From Verif.Base Require Import Py.
From Verif.Sim Require Import JobModel JobSpec.
Local Open Scope nat_scope.

Lemma status_eqb_eq a b : status_eqb a b = true <-> a = b.
Proof. destruct a, b; split; intros H; try reflexivity; try discriminate H; vm_compute in H; discriminate H. Qed.

Lemma is_final_spec s : is_final s = true <-> final s.
Proof.
  unfold final. destruct s; split; intros H; try reflexivity; try (now vm_compute in H); auto;
  destruct H as [H | [H | H]]; discriminate H.
Qed.

Definition ends (s : jstatus) : bool := existsb (status_eqb s) [DONE; ERROR].
Lemma ends_spec s : ends s = true <-> s = DONE \/ s = ERROR.
Proof. destruct s; split; intros H; try reflexivity; try (now vm_compute in H); auto; destruct H as [H | H]; discriminate H. Qed.

Lemma expired_spec clock t k : expired clock t k = true <-> late clock t k.
Proof. unfold expired, late. destruct t; [rewrite Z.leb_le; lia | split; [discriminate | tauto]]. Qed.

Section W.
Variables (s : nat -> jstatus) (clock : nat -> Z) (timeout : option Z).
Let st k := Ok (s k).
Notation wl := (wait_loop st clock timeout).

Lemma wl_step f k : wl (S f) k =
  if ends (s k) then ([], Ok k) else if expired clock timeout k then ([], Err JobTimeoutError)
  else (s k :: fst (wl f (S k)), snd (wl f (S k))).
Proof. cbn [wait_loop st]. fold (ends (s k)). destruct (ends (s k)), (expired clock timeout k); try reflexivity. now destruct (wl f (S k)). Qed.

Lemma wl_run n : forall f k, (forall i, i < n -> ends (s (k + i)) = false /\ expired clock timeout (k + i) = false) ->
  wl (n + f) k = (map (fun i => s (k + i)) (seq 0 n) ++ fst (wl f (k + n)), snd (wl f (k + n))).
Proof.
  induction n as [| n IH]; intros f k H; [cbn [seq map app Nat.add]; rewrite Nat.add_0_r; apply surjective_pairing |].
  cbn [Nat.add]. rewrite wl_step. destruct (H 0 ltac:(lia)) as [H1 H2]. rewrite Nat.add_0_r in H1, H2. rewrite H1, H2.
  rewrite (IH f (S k)).
  - cbn [seq map app fst snd]. rewrite Nat.add_0_r, <- seq_shift, map_map. replace (S k + n) with (k + S n) by lia.
    f_equal. f_equal. f_equal. apply map_ext. intros i. f_equal. lia.
  - intros i Hi. replace (S k + i) with (k + S i) by lia. apply H. lia.
Qed.
End W.

(** the wait ends with the number of the first DONE or ERROR *)
Lemma wait_returns s clock t fuel cb k :
  wait_for_final_state (fun i => Ok (s i)) clock t fuel = (cb, Ok k) <->
  (k < fuel /\ (s k = DONE \/ s k = ERROR) /\
   (forall i, i < k -> s i <> DONE /\ s i <> ERROR /\ ~ late clock t i) /\ cb = map s (seq 0 k)).
Proof.
  unfold wait_for_final_state. split.
  - enough (G : forall f j cb k, wait_loop (fun i => Ok (s i)) clock t f j = (cb, Ok k) ->
      exists n, k = j + n /\ n < f /\ ends (s k) = true /\ cb = map s (seq j n) /\
        forall i, i < n -> ends (s (j + i)) = false /\ expired clock t (j + i) = false).
    { intros H. destruct (G _ _ _ _ H) as (n & -> & Hn & He & -> & Hi). cbn [Nat.add] in *.
      repeat split; auto. now apply ends_spec.
      - intros E. destruct (Hi i H0) as [X _]. enough (ends (s i) = true) by congruence. apply ends_spec. auto.
      - intros E. destruct (Hi i H0) as [X _]. enough (ends (s i) = true) by congruence. apply ends_spec. auto.
      - intros E. destruct (Hi i H0) as [_ X]. enough (expired clock t i = true) by congruence. now apply expired_spec. }
    induction f as [| f IH]; intros j cb' k' H; [discriminate H |]. rewrite wl_step in H.
    destruct (ends (s j)) eqn:E.
    + injection H as <- <-. exists 0. rewrite Nat.add_0_r. repeat split; auto; try lia.
    + destruct (expired clock t j) eqn:X; [discriminate H |].
      destruct (wait_loop _ clock t f (S j)) as [cb2 r] eqn:W. cbn [fst snd] in H. injection H as <- ->.
      destruct (IH _ _ _ W) as (n & -> & Hn & He & -> & Hi). exists (S n).
      split; [lia |]. split; [lia |]. split; [assumption |]. split; [reflexivity |].
      intros [| i]; [now rewrite Nat.add_0_r |]. intros Hi'. replace (j + S i) with (S j + i) by lia. apply Hi. lia.
  - intros (Hk & He & Hi & ->). replace fuel with (k + S (fuel - k - 1)) by lia.
    rewrite wl_run.
    + cbn [Nat.add]. rewrite wl_step. apply ends_spec in He. rewrite He. cbn [fst snd]. now rewrite app_nil_r.
    + intros i Hi'. destruct (Hi i Hi') as (A & B & D). cbn [Nat.add]. split.
      * destruct (ends (s i)) eqn:E; [apply ends_spec in E; tauto | reflexivity].
      * destruct (expired clock t i) eqn:E; [apply expired_spec in E; tauto | reflexivity].
Qed.

Lemma wait_timeout s clock t fuel :
  snd (wait_for_final_state (fun i => Ok (s i)) clock t fuel) = Err JobTimeoutError <->
  exists k, k < fuel /\ late clock t k /\ (forall i, i < k -> ~ late clock t i) /\ forall i, i <= k -> s i <> DONE /\ s i <> ERROR.
Proof.
  unfold wait_for_final_state. split.
  - enough (G : forall f j, snd (wait_loop (fun i => Ok (s i)) clock t f j) = Err JobTimeoutError ->
      exists n, n < f /\ expired clock t (j + n) = true /\ (forall i, i < n -> expired clock t (j + i) = false) /\
        forall i, i <= n -> ends (s (j + i)) = false).
    { intros H. destruct (G _ _ H) as (n & Hn & Hx & Hi & He). exists n. cbn [Nat.add] in *. repeat split; auto.
      - now apply expired_spec.
      - intros i Hi' E. apply expired_spec in E. rewrite Hi in E by assumption. discriminate.
      - intros E. enough (ends (s i) = true) by (rewrite He in *; [discriminate | assumption]). apply ends_spec. auto.
      - intros E. enough (ends (s i) = true) by (rewrite He in *; [discriminate | assumption]). apply ends_spec. auto. }
    induction f as [| f IH]; intros j H; [discriminate H |]. rewrite wl_step in H.
    destruct (ends (s j)) eqn:E; [discriminate H |]. destruct (expired clock t j) eqn:X.
    + exists 0. repeat split; try lia; [now rewrite Nat.add_0_r |]. intros i Hi. assert (i = 0) by lia. subst. now rewrite Nat.add_0_r.
    + cbn [snd] in H. destruct (IH _ H) as (n & Hn & Hx & Hi & He). exists (S n). replace (j + S n) with (S j + n) by lia.
      split; [lia |]. split; [assumption |]. split.
      * intros [| i] Hi'; [now rewrite Nat.add_0_r |]. replace (j + S i) with (S j + i) by lia. apply Hi. lia.
      * intros [| i] Hi'; [now rewrite Nat.add_0_r |]. replace (j + S i) with (S j + i) by lia. apply He. lia.
  - intros (k & Hk & Hl & Hi & He). replace fuel with (k + S (fuel - k - 1)) by lia. rewrite wl_run.
    + cbn [Nat.add snd]. rewrite wl_step. destruct (ends (s k)) eqn:E.
      * apply ends_spec in E. destruct (He k ltac:(lia)). tauto.
      * apply expired_spec in Hl. now rewrite Hl.
    + intros i Hi'. cbn [Nat.add]. split.
      * destruct (ends (s i)) eqn:E; [| reflexivity]. apply ends_spec in E. destruct (He i ltac:(lia)). tauto.
      * destruct (expired clock t i) eqn:E; [| reflexivity]. apply expired_spec in E. destruct (Hi i Hi' E).
Qed.

Lemma wait_first_final s clock t k fuel : first_final s k -> s k <> CANCELLED -> (forall i, i < k -> ~ late clock t i) -> k < fuel ->
  wait_for_final_state (fun i => Ok (s i)) clock t fuel = (map s (seq 0 k), Ok k).
Proof.
  intros [F G] N L K. apply wait_returns. repeat split; auto.
  - destruct F as [F | [F | F]]; tauto.
  - intros E. apply (G i H). unfold final. auto.
  - intros E. apply (G i H). unfold final. auto.
Qed.

Lemma wait_bounded s clock t wait n fuel : sleeps clock wait -> (0 < wait)%Z -> (t <= Z.of_nat n * wait)%Z -> n <= fuel -> 0 < fuel ->
  snd (wait_for_final_state (fun i => Ok (s i)) clock (Some t) fuel) <> Err OutOfFuel.
Proof.
  intros SL W T F F0. unfold wait_for_final_state.
  assert (C : forall k, (clock O + Z.of_nat k * wait <= clock k)%Z).
  { induction k; [lia |]. specialize (SL k). lia. }
  enough (G : forall f j, n <= f + j -> 0 < f -> snd (wait_loop (fun i => Ok (s i)) clock (Some t) f j) <> Err OutOfFuel) by (apply G; lia).
  induction f as [| f IH]; intros j H Hf; [lia |]. rewrite wl_step. destruct (ends (s j)); [discriminate |].
  destruct (expired clock (Some t) j) eqn:E; [discriminate |]. cbn [snd].
  destruct f as [| f]; [| apply IH; lia]. exfalso. enough (expired clock (Some t) j = true) by congruence.
  apply expired_spec. cbn [late]. specialize (C (S j)). nia.
Qed.

Lemma wait_cancelled_never s clock n fuel : (forall i, s i <> DONE /\ s i <> ERROR) -> s n = CANCELLED ->
  snd (wait_for_final_state (fun i => Ok (s i)) clock None fuel) = Err OutOfFuel.
Proof.
  intros H _. unfold wait_for_final_state. generalize 0. induction fuel as [| f IH]; intros j; [reflexivity |].
  rewrite wl_step. destruct (ends (s j)) eqn:E; [apply ends_spec in E; destruct (H j); tauto |]. cbn [expired snd]. apply IH.
Qed.

Lemma wait_cancelled_forever s clock n fuel : (forall i, i < n -> s i <> DONE /\ s i <> ERROR) -> (forall i, n <= i -> s i = CANCELLED) ->
  snd (wait_for_final_state (fun i => Ok (s i)) clock None fuel) = Err OutOfFuel.
Proof.
  intros H1 H2. apply (wait_cancelled_never s clock n); [| now apply H2].
  intros i. destruct (Nat.lt_ge_cases i n) as [L | L]; [now apply H1 |]. rewrite (H2 i L). split; discriminate.
Qed.

Lemma wait_cancelled_timeout s clock t wait n fuel : (forall i, i < n -> s i <> DONE /\ s i <> ERROR) -> (forall i, n <= i -> s i = CANCELLED) ->
  sleeps clock wait -> (0 < wait)%Z -> (t <= Z.of_nat fuel * wait)%Z -> 0 < fuel ->
  snd (wait_for_final_state (fun i => Ok (s i)) clock (Some t) fuel) = Err JobTimeoutError.
Proof.
  intros H1 H2 SL W T F. pose proof (wait_bounded s clock t wait fuel fuel SL W T (le_n _) F) as B.
  assert (N : forall i, ends (s i) = false).
  { intros i. destruct (ends (s i)) eqn:E; [| reflexivity]. apply ends_spec in E.
    destruct (Nat.lt_ge_cases i n) as [L | L]; [destruct (H1 i L); tauto |]. rewrite (H2 i L) in E. destruct E; discriminate. }
  revert B. unfold wait_for_final_state. generalize 0 as j. clear T F. induction fuel as [| f IH]; intros j B; [now elim B |].
  rewrite wl_step in *. rewrite N in *. destruct (expired clock (Some t) j); [reflexivity |]. cbn [snd] in *. now apply IH.
Qed.

Lemma final_disagree s : (exists b, in_final_state (Ok s) = Ok b /\ b <> is_final s) <-> s = CANCELLED.
Proof.
  split; [intros (b & H & N) | intros ->; now exists false].
  destruct s; try reflexivity; injection H as <-; now elim N.
Qed.

Lemma from_string_iff x s : from_string x = Ok s <-> lower x = status_value s.
Proof.
  unfold from_string. split.
  - destruct (find _ _) as [s' |] eqn:F; [| discriminate]. intros H. injection H as ->.
    apply find_some in F. destruct F as [_ F]. apply String.eqb_eq in F. now symmetry.
  - intros ->. now destruct s.
Qed.
Lemma from_string_err x : (forall s, lower x <> status_value s) <-> from_string x = Err ValueError.
Proof.
  split.
  - intros H. unfold from_string. destruct (find _ _) as [s |] eqn:F; [| reflexivity].
    apply find_some in F. destruct F as [_ F]. apply String.eqb_eq in F. symmetry in F. now apply H in F.
  - intros H s E. apply from_string_iff in E. congruence.
Qed.
Lemma status_value_inj a b : status_value a = status_value b -> a = b.
Proof. destruct a, b; intros H; try reflexivity; discriminate H. Qed.
Lemma str_round_trip s : from_string (status_str s) = Err ValueError.
Proof. now destruct s. Qed.
Lemma non_final_spec s : In s non_final_states <-> ~ final s.
Proof.
  unfold non_final_states. rewrite filter_In. rewrite <- is_final_spec. destruct (is_final s).
  - split; [intros [_ H]; discriminate H | intros H; now elim H].
  - split; [intros _ H; discriminate H | intros _; split; [destruct s; cbn; tauto | reflexivity]].
Qed.

Lemma base_wait clock t fuel : 0 < fuel -> wait_for_final_state base_status clock t fuel = ([], Err NotImplementedError).
Proof. destruct fuel; [lia | reflexivity]. Qed.

Lemma job_ids_coincide {B V} hash (b b' : option B) pid ms : j_id (new_job (V := V) hash b "auto" pid ms) = j_id (new_job (V := V) hash b' "auto" pid ms).
Proof. reflexivity. Qed.
Lemma job_result_last {B V} (j : job B V) rs r : job_result (fold_left set_result (rs ++ [r]) j) = Ok r.
Proof. now rewrite fold_left_app. Qed.
Lemma job_keeps {B V} (j : job B V) rs : j_id (fold_left set_result rs j) = j_id j /\ j_backend (fold_left set_result rs j) = j_backend j.
Proof. revert j. induction rs as [| r rs IH]; intros j; [now split |]. exact (IH (set_result j r)). Qed.
Lemma job_queries_fail : job_done (base_status 0) = Err NotImplementedError /\ job_running (base_status 0) = Err NotImplementedError /\
  job_cancelled (base_status 0) = Err NotImplementedError /\ in_final_state (base_status 0) = Err NotImplementedError.
Proof. repeat split. Qed.

(** ** Queries *)
Lemma queries_spec s :
  (exists b, job_done (Ok s) = Ok b /\ (b = true <-> s = DONE)) /\ (exists b, job_running (Ok s) = Ok b /\ (b = true <-> s = RUNNING)) /\
  (exists b, job_cancelled (Ok s) = Ok b /\ (b = true <-> s = CANCELLED)) /\ (exists b, in_final_state (Ok s) = Ok b /\ (b = true <-> s = DONE \/ s = ERROR)).
Proof.
  repeat match goal with |- _ /\ _ => split end; (eexists; split; [reflexivity|]); destruct s; (split; [intros H; discriminate H || tauto|intros H; decompose [or] H; discriminate || reflexivity]).
Qed.

(** ** Capitalisation *)
Definition lower_ok (c d : ascii) : bool :=
  Bool.eqb (Ascii.eqb (lower_char c) d) (Ascii.eqb c d || existsb (fun p => Ascii.eqb (fst p) c && Ascii.eqb (snd p) d) letters).
Lemma lower_table : forallb (fun c => forallb (fun d => lower_ok c d) (list_ascii_of_string "abcdefghijklmnopqrstuvwxyz")) (map ascii_of_nat (seq 0 256)) = true.
Proof. vm_compute. reflexivity. Qed.
Lemma lower_char_iff c d : In d (list_ascii_of_string "abcdefghijklmnopqrstuvwxyz") -> lower_char c = d <-> c = d \/ In (c, d) letters.
Proof.
  intros Hd. assert (Hc : In c (map ascii_of_nat (seq 0 256))).
  { rewrite <- (ascii_nat_embedding c). apply in_map, in_seq. pose proof (nat_ascii_bounded c). lia. }
  assert (T := proj1 (forallb_forall _ _) (proj1 (forallb_forall _ _) lower_table c Hc) d Hd). unfold lower_ok in T. apply Bool.eqb_prop in T.
  rewrite <- (Ascii.eqb_eq (lower_char c) d), T, orb_true_iff, Ascii.eqb_eq, existsb_exists. apply or_iff_compat_l.
  split.
  - intros ((a & b) & Hi & E). apply andb_true_iff in E as (E1 & E2). apply Ascii.eqb_eq in E1, E2. cbn in E1, E2. subst. exact Hi.
  - intros Hi. exists (c, d). split; [exact Hi|]. cbn [fst snd]. now rewrite !Ascii.eqb_refl.
Qed.
Lemma lower_spells v : (forall d, In d (list_ascii_of_string v) -> In d (list_ascii_of_string "abcdefghijklmnopqrstuvwxyz")) -> forall x, lower x = v <-> spells x v.
Proof.
  unfold spells. induction v as [|d v IH]; intros Hv [|c x]; cbn [lower list_ascii_of_string].
  - split; [constructor|reflexivity].
  - split; [discriminate|intros H; inversion H].
  - split; [discriminate|intros H; inversion H].
  - assert (IH' := IH (fun d' H => Hv d' (or_intror H)) x). assert (C := lower_char_iff c d (Hv d (or_introl eq_refl))). split.
    + intros H. injection H as H1 H2. constructor; [now apply C|now apply IH'].
    + intros H. inversion H; subst. f_equal; [now apply C|now apply IH'].
Qed.
Lemma status_small s d : In d (list_ascii_of_string (status_value s)) -> In d (list_ascii_of_string "abcdefghijklmnopqrstuvwxyz").
Proof.
  assert (T : forall s, forallb (fun d => existsb (Ascii.eqb d) (list_ascii_of_string "abcdefghijklmnopqrstuvwxyz")) (list_ascii_of_string (status_value s)) = true) by (intros []; reflexivity).
  intros H. assert (E := proj1 (forallb_forall _ _) (T s) d H). apply existsb_exists in E as (a & Ha & E). apply Ascii.eqb_eq in E. now subst.
Qed.
Lemma from_string_spells x s : from_string x = Ok s <-> spells x (status_value s).
Proof. rewrite from_string_iff. apply lower_spells, status_small. Qed.
Lemma from_string_not_spells x : (forall s, ~ spells x (status_value s)) <-> from_string x = Err ValueError.
Proof.
  rewrite <- from_string_err. split; intros H s; specialize (H s); rewrite (lower_spells (status_value s) (status_small s) x) in *; exact H.
Qed.
