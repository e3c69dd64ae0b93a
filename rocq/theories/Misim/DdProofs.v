(** Exact decision diagrams (tolerance 0): normalisation, addition and multiplication compute what they should. *)
From Coq Require Import List ZArith Arith Lia Reals Bool Lra.
From Verif Require Import Base.Cplx Base.Matrix Base.Radix Misim.DdModel Misim.DdSpec.
Import ListNotations.
Local Open Scope nat_scope.

Lemma is_eq_spec x y : is_eq x y = true <-> x = y.
Proof.
  unfold is_eq. destruct x as [a b], y as [c d]. cbn.
  destruct (Req_EM_T a c) as [->|N]; [destruct (Req_EM_T b d) as [->|N]|]; split; try congruence; intros E; injection E; intros; contradiction.
Qed.
Lemma is_zero_spec x : is_zero x = true <-> x = C0. Proof. apply is_eq_spec. Qed.
Lemma is_one_spec x : is_one x = true <-> x = C1. Proof. apply is_eq_spec. Qed.
Lemma is_zero_false x : is_zero x = false <-> x <> C0.
Proof. rewrite <- is_zero_spec. destruct (is_zero x); split; congruence. Qed.
Lemma near_spec x y : near 0 x y = true <-> x = y.
Proof.
  unfold near. destruct x as [a b], y as [c d]. cbn.
  destruct (Rle_dec (Rabs (a - c)) 0) as [H|H]; [destruct (Rle_dec (Rabs (b - d)) 0) as [K|K]|].
  - split; [intros _|reflexivity]. pose proof (Rabs_pos (a - c)). pose proof (Rabs_pos (b - d)).
    assert (Rabs (a - c) = 0%R) by lra. assert (Rabs (b - d) = 0%R) by lra.
    assert (A : (a - c = 0)%R) by (destruct (Req_dec (a - c) 0) as [E|E]; [exact E|pose proof (Rabs_pos_lt _ E); lra]).
    assert (B : (b - d = 0)%R) by (destruct (Req_dec (b - d) 0) as [E|E]; [exact E|pose proof (Rabs_pos_lt _ E); lra]).
    f_equal; lra.
  - split; [congruence|]. intros E. injection E as -> ->. exfalso. apply K. replace (d - d)%R with 0%R by ring. rewrite Rabs_R0. lra.
  - split; [congruence|]. intros E. injection E as -> ->. exfalso. apply H. replace (c - c)%R with 0%R by ring. rewrite Rabs_R0. lra.
Qed.
Lemma near_zero_spec x : near_zero 0 x = true <-> x = C0. Proof. apply near_spec. Qed.
Lemma near_zero_false x : near_zero 0 x = false <-> x <> C0.
Proof. rewrite <- near_zero_spec. destruct (near_zero 0 x); split; congruence. Qed.

Lemma Cinv_r z : z <> C0 -> Cmul z (Cinv z) = C1.
Proof.
  intros H. assert (N : Cnorm2 z <> 0%R) by (intros E; apply H; apply Cnorm2_0; exact E).
  destruct z as [a b]. unfold Cmul, Cinv, C1, Cnorm2 in *. cbn in *. apply Ceq; cbn; field; exact N.
Qed.
Lemma Cdiv_mul x y : y <> C0 -> Cmul y (Cdiv x y) = x.
Proof. intros H. unfold Cdiv. transitivity (Cmul x (Cmul y (Cinv y))); [ring|]. rewrite Cinv_r by exact H. ring. Qed.
Lemma Cdiv_0 y : Cdiv C0 y = C0. Proof. unfold Cdiv. ring. Qed.
Lemma Cmul_0_l x : Cmul C0 x = C0. Proof. ring. Qed.
Lemma Cmul_0_r x : Cmul x C0 = C0. Proof. ring. Qed.
Lemma Cmul_1_l x : Cmul C1 x = x. Proof. ring. Qed.
Lemma Cmul_neq_0 x y : x <> C0 -> y <> C0 -> Cmul x y <> C0.
Proof. intros A B E. destruct (Cmul_integral _ _ E); contradiction. Qed.
Lemma RtoC_neq_0 x : x <> 0%R -> RtoC x <> C0.
Proof. intros H E. apply H. apply RtoC_inj. exact E. Qed.

(** ** lists *)
Lemma tab_length {A} n (f : nat -> A) : length (tab n f) = n.
Proof. unfold tab. rewrite map_length, seq_length. reflexivity. Qed.
Lemma tab_nth {A} n (f : nat -> A) i d : i < n -> nth i (tab n f) d = f i.
Proof. intros H. unfold tab. rewrite (nth_indep _ d (f 0)) by (rewrite map_length, seq_length; exact H). rewrite map_nth, seq_nth by exact H. reflexivity. Qed.
Lemma tab_ext {A} n (f g : nat -> A) : (forall i, i < n -> f i = g i) -> tab n f = tab n g.
Proof. intros H. unfold tab. apply map_ext_in. intros i Hi. apply in_seq in Hi. apply H. lia. Qed.
Lemma Forall_tab {A} (P : A -> Prop) n f : (forall i, i < n -> P (f i)) -> Forall P (tab n f).
Proof. intros H. apply Forall_forall. intros x Hx. apply in_map_iff in Hx. destruct Hx as (i & <- & Hi). apply in_seq in Hi. apply H. lia. Qed.
Lemma Forall_edge_at (P : edge -> Prop) es i : Forall P es -> i < length es -> P (edge_at es i).
Proof. intros F H. rewrite Forall_forall in F. apply F. apply nth_In. exact H. Qed.
Lemma edge_at_Forall (P : edge -> Prop) es : (forall i, i < length es -> P (edge_at es i)) -> Forall P es.
Proof.
  intros H. apply Forall_forall. intros x Hx. destruct (In_nth _ _ zero_edge Hx) as (i & L & <-). apply H. exact L.
Qed.

Lemma edge_at_tab n (f : nat -> edge) i : i < n -> edge_at (tab n f) i = f i.
Proof. apply tab_nth. Qed.

(** ** values *)
Lemma ev_zero p : ev zero_edge p = C0.
Proof. unfold ev, zero_edge. cbn. ring. Qed.
Lemma ev_weight_0 e p : fst e = C0 -> ev e p = C0.
Proof. intros H. unfold ev. rewrite H. ring. Qed.
Lemma ev_node w v es i p : ev (w, Node v es) (i :: p) = Cmul w (ev (edge_at es i) p).
Proof. reflexivity. Qed.
Lemma ev_scale w n p : ev (w, n) p = Cmul w (ev (C1, n) p).
Proof. unfold ev. cbn. ring. Qed.
Lemma ewf_zero ss : ewf ss zero_edge. Proof. left. reflexivity. Qed.
Lemma ewf_child s r v es i : wf (s :: r) (Node v es) -> i < s -> ewf r (edge_at es i).
Proof. intros (_ & L & F) H. apply (Forall_edge_at (fun e => fst e = C0 \/ wf r (snd e)) es i F). rewrite L. exact H. Qed.

(** ** normalisation *)
Lemma clear_length cached es : length (clear 0 cached es) = length es.
Proof. unfold clear. destruct cached; [apply map_length|reflexivity]. Qed.
Lemma clear_at cached es i : fst (edge_at (clear 0 cached es) i) = fst (edge_at es i) /\
  (fst (edge_at es i) <> C0 -> edge_at (clear 0 cached es) i = edge_at es i).
Proof.
  unfold clear. destruct cached; [|split; [reflexivity|intros; reflexivity]].
  unfold edge_at. set (f := fun e : edge => if near_zero 0 (fst e) then zero_edge else e).
  assert (Z : f zero_edge = zero_edge) by (unfold f; destruct (near_zero 0 (fst zero_edge)); reflexivity).
  rewrite <- Z at 1 4. rewrite map_nth. unfold f. destruct (near_zero 0 (fst (nth i es zero_edge))) eqn:E.
  - apply near_zero_spec in E. rewrite E. split; [reflexivity|]. intros N. contradiction N; reflexivity.
  - split; [reflexivity|intros; reflexivity].
Qed.
Lemma clear_ev cached es i p : ev (edge_at (clear 0 cached es) i) p = ev (edge_at es i) p.
Proof.
  destruct (clear_at cached es i) as [A B]. destruct (is_zero (fst (edge_at es i))) eqn:Z.
  - apply is_zero_spec in Z. rewrite !ev_weight_0; [reflexivity|exact Z|rewrite A; exact Z].
  - apply is_zero_false in Z. rewrite B by exact Z. reflexivity.
Qed.
Lemma clear_ewf cached es i ss : ewf ss (edge_at es i) -> ewf ss (edge_at (clear 0 cached es) i).
Proof.
  intros H. destruct (clear_at cached es i) as [A B]. destruct (is_zero (fst (edge_at es i))) eqn:Z.
  - apply is_zero_spec in Z. left. rewrite A. exact Z.
  - apply is_zero_false in Z. rewrite B by exact Z. exact H.
Qed.

Lemma mag2_0 es i : mag2 es i = 0%R <-> fst (edge_at es i) = C0.
Proof. unfold mag2. split; [apply Cnorm2_0|]. intros ->. unfold Cnorm2, C0. cbn. ring. Qed.
Lemma mag2_nonneg es i : (0 <= mag2 es i)%R. Proof. apply Cnorm2_nonneg. Qed.

(** the pivot of a vector node is an edge with the largest weight *)
Lemma vpivot_fold es l acc : (fst acc = mag2 es (snd acc)) ->
  let r := fold_left (fun (acc : R * nat) i => if Rle_dec (fst acc) (mag2 es i + 0) then (mag2 es i, i) else acc) l acc in
  fst r = mag2 es (snd r) /\ (fst acc <= fst r)%R /\ (forall i, In i l -> (mag2 es i <= fst r)%R) /\ (snd r = snd acc \/ In (snd r) l).
Proof.
  revert acc. induction l as [|i l IH]; intros acc E.
  - cbn. repeat split; [exact E|lra|intros i []|left; reflexivity].
  - cbn [fold_left]. set (acc' := if Rle_dec (fst acc) (mag2 es i + 0) then (mag2 es i, i) else acc).
    assert (E' : fst acc' = mag2 es (snd acc') /\ (fst acc <= fst acc')%R /\ (mag2 es i <= fst acc')%R /\ (snd acc' = snd acc \/ snd acc' = i)).
    { unfold acc'. destruct (Rle_dec (fst acc) (mag2 es i + 0)) as [L|L]; cbn.
      - repeat split; [lra|lra|right; reflexivity].
      - repeat split; [exact E|lra|lra|left; reflexivity]. }
    destruct E' as (E1 & E2 & E3 & E4). destruct (IH acc' E1) as (I1 & I2 & I3 & I4). cbn zeta in *.
    repeat split; [exact I1|lra| |].
    + intros j [<-|Hj]; [lra|apply I3; exact Hj].
    + destruct I4 as [I4|I4]; [|right; right; exact I4]. destruct E4 as [E4|E4]; [left; congruence|right; left; congruence].
Qed.
Lemma vpivot_max es : es <> [] -> vpivot 0 es < length es /\ forall i, i < length es -> (mag2 es i <= mag2 es (vpivot 0 es))%R.
Proof.
  intros N. unfold vpivot. destruct (vpivot_fold es (rev (seq 0 (length es))) (mag2 es 0, 0) eq_refl) as (H1 & H2 & H3 & H4). cbn zeta in *.
  set (r := fold_left _ _ _) in *. split.
  - destruct H4 as [->|H4]; [cbn; destruct es; [congruence|cbn; lia]|]. apply in_rev, in_seq in H4. lia.
  - intros i Hi. rewrite <- H1. apply H3. apply -> in_rev. apply in_seq. lia.
Qed.
Lemma sum_mag2_ge n es i : i < n -> (mag2 es i <= sum_mag2 n es)%R.
Proof.
  assert (P : forall n, (0 <= sum_mag2 n es)%R) by (intros k; induction k; cbn; [lra|pose proof (mag2_nonneg es k); lra]).
  induction n; intros H; [lia|]. cbn. destruct (Nat.eq_dec i n) as [->|Hn]; [pose proof (P n); lra|].
  pose proof (IHn ltac:(lia)). pose proof (mag2_nonneg es n). lra.
Qed.

(** at most one edge is not zero *)
Definition at_most_one (es : list edge) : Prop := forall i j, i < length es -> j < length es ->
  fst (edge_at es i) <> C0 -> fst (edge_at es j) <> C0 -> i = j.

Lemma filter_two {A} (f : A -> bool) l a b r : filter f l = a :: b :: r -> NoDup l -> In a l /\ In b l /\ f a = true /\ f b = true /\ a <> b.
Proof.
  intros E N. assert (I : forall x, In x (a :: b :: r) -> In x l /\ f x = true) by (intros x Hx; rewrite <- E in Hx; apply filter_In in Hx; exact Hx).
  destruct (I a) as [A1 A2]; [left; reflexivity|]. destruct (I b) as [B1 B2]; [right; left; reflexivity|].
  repeat split; try assumption. intros ->. pose proof (NoDup_filter f N) as F. rewrite E in F. inversion F as [|x xs NI NF]; subst. apply NI. left. reflexivity.
Qed.

Lemma vnormalise_ok cached es : cached = true \/ at_most_one es ->
  match vnormalise 0 cached es with
  | None => forall i, i < length es -> fst (edge_at es i) = C0
  | Some (w, fs) => length fs = length es /\ (forall i p, i < length es -> Cmul w (ev (edge_at fs i) p) = ev (edge_at es i) p) /\
      (forall i ss, i < length es -> ewf ss (edge_at es i) -> ewf ss (edge_at fs i))
  end.
Proof.
  intros Hc. unfold vnormalise. set (f := fun i => negb (near_zero 0 (fst (edge_at es i)))).
  assert (Hf : forall i, f i = true <-> fst (edge_at es i) <> C0).
  { intros i. unfold f. rewrite negb_true_iff. apply near_zero_false. }
  set (cs := clear 0 cached es). assert (Lc : length cs = length es) by apply clear_length.
  assert (Wc : forall i, fst (edge_at cs i) = fst (edge_at es i)) by (intros i; apply clear_at).
  destruct (filter f (seq 0 (length es))) as [|k [|k' rest]] eqn:E.
  - intros i Hi. destruct (is_zero (fst (edge_at es i))) eqn:Z; [apply is_zero_spec; exact Z|]. apply is_zero_false in Z.
    assert (I : In i (filter f (seq 0 (length es)))) by (apply filter_In; split; [apply in_seq; lia|apply Hf; exact Z]).
    rewrite E in I. destruct I.
  - assert (Hk : In k (filter f (seq 0 (length es)))) by (rewrite E; left; reflexivity).
    apply filter_In in Hk. destruct Hk as [Hk1 Hk2]. apply in_seq in Hk1. apply Hf in Hk2.
    assert (Hz : forall i, i < length es -> i <> k -> fst (edge_at es i) = C0).
    { intros i Hi N. destruct (is_zero (fst (edge_at es i))) eqn:Z; [apply is_zero_spec; exact Z|]. apply is_zero_false in Z.
      assert (I : In i (filter f (seq 0 (length es)))) by (apply filter_In; split; [apply in_seq; lia|apply Hf; exact Z]).
      rewrite E in I. destruct I as [I|[]]. congruence. }
    assert (Ek : edge_at cs k = edge_at es k) by (apply (proj2 (clear_at cached es k)); exact Hk2).
    rewrite Lc. split; [apply tab_length|]. split.
    + intros i p Hi. rewrite edge_at_tab by exact Hi. destruct (Nat.eqb_spec i k) as [->|N].
      * rewrite Ek. unfold ev. cbn. ring.
      * rewrite (ev_weight_0 (edge_at cs i)) by (rewrite Wc; apply Hz; assumption). rewrite (ev_weight_0 (edge_at es i)) by (apply Hz; assumption). ring.
    + intros i ss Hi H. rewrite edge_at_tab by exact Hi. destruct (Nat.eqb_spec i k) as [->|N].
      * rewrite Ek. right. cbn. destruct H as [H|H]; [contradiction|exact H].
      * apply clear_ewf. exact H.
  - destruct (filter_two f _ _ _ _ E (seq_NoDup _ _)) as (A1 & B1 & A2 & B2 & AB). apply in_seq in A1, B1. apply Hf in A2, B2.
    assert (C : cached = true). { destruct Hc as [Hc|Hc]; [exact Hc|]. exfalso. apply AB. apply Hc; (lia || assumption). }
    subst cached. cbn [andb]. set (p := vpivot 0 cs).
    assert (Nn : cs <> []) by (intros Q; rewrite Q in Lc; cbn in Lc; lia).
    destruct (vpivot_max cs Nn) as [P1 P2]. fold p in P1, P2.
    assert (P3 : (0 < mag2 cs p)%R).
    { pose proof (P2 k ltac:(lia)) as Q. pose proof (mag2_nonneg cs k). destruct (Req_dec (mag2 cs k) 0) as [Z|Z]; [|lra].
      apply mag2_0 in Z. rewrite Wc in Z. contradiction. }
    assert (P4 : fst (edge_at cs p) <> C0) by (intros Z; apply mag2_0 in Z; lra).
    set (mm := sqrt (mag2 cs p)). assert (Hmm : (0 < mm)%R) by (apply sqrt_lt_R0; exact P3).
    set (nm := sqrt (sum_mag2 (length cs) cs)). assert (Hnm : (0 < nm)%R) by (apply sqrt_lt_R0; pose proof (sum_mag2_ge (length cs) cs p P1); lra).
    set (w := fst (edge_at cs p)) in *.
    assert (Top : (if negb (is_one w) then Cmul w (RtoC (nm / mm)) else RtoC (nm / mm)) = Cmul w (RtoC (nm / mm))).
    { destruct (is_one w) eqn:O; cbn [negb]; [|reflexivity]. apply is_one_spec in O. rewrite O. ring. }
    rewrite Top. set (top := Cmul w (RtoC (nm / mm))).
    assert (Q0 : (nm / mm)%R <> 0%R) by (unfold Rdiv; apply Rmult_integral_contrapositive_currified; [lra|apply Rinv_neq_0_compat; lra]).
    assert (T0 : top <> C0) by (apply Cmul_neq_0; [exact P4|apply RtoC_neq_0; exact Q0]).
    replace (near_zero 0 top) with false by (symmetry; apply near_zero_false; exact T0). rewrite andb_false_r.
    rewrite Lc in *. split; [apply tab_length|].
    assert (Child : forall i, i < length es -> Cmul top (if Nat.eqb i p then RtoC (mm / nm) else Cdiv (fst (edge_at cs i)) top) = fst (edge_at es i)).
    { intros i Hi. destruct (Nat.eqb_spec i p) as [->|N].
      - unfold top. rewrite <- Wc. fold w. transitivity (Cmul w (RtoC ((nm / mm) * (mm / nm)))); [rewrite RtoC_mul; ring|].
        replace (nm / mm * (mm / nm))%R with 1%R by (field; lra). rewrite RtoC_1. ring.
      - rewrite Cdiv_mul by exact T0. apply Wc. }
    split.
    + intros i q Hi. rewrite edge_at_tab by exact Hi. specialize (Child i Hi).
      set (c := if Nat.eqb i p then _ else _) in *. destruct (is_zero c) eqn:Z.
      * apply is_zero_spec in Z. rewrite Z in Child. rewrite ev_zero. rewrite (ev_weight_0 (edge_at es i)) by (rewrite <- Child; ring). ring.
      * rewrite <- (clear_ev true es i q). fold cs. unfold ev. cbn [fst snd]. rewrite Wc, <- Child. ring.
    + intros i ss Hi H. rewrite edge_at_tab by exact Hi. specialize (Child i Hi).
      set (c := if Nat.eqb i p then _ else _) in *. destruct (is_zero c) eqn:Z; [apply ewf_zero|].
      apply is_zero_false in Z. assert (N : fst (edge_at es i) <> C0) by (rewrite <- Child; apply Cmul_neq_0; assumption).
      right. cbn [snd]. unfold cs. rewrite (proj2 (clear_at true es i) N). destruct H as [H|H]; [contradiction|exact H].
Qed.

Lemma mpivot_fold es l acc :
  (forall k, acc = Some k -> fst (edge_at es k) <> C0) ->
  match fold_left (fun (acc : option nat) i =>
    if near_zero 0 (fst (edge_at es i)) then acc
    else match acc with None => Some i | Some k => if Rlt_dec 0 (mag2 es i - mag2 es k) then Some i else acc end) l acc with
  | None => acc = None /\ forall i, In i l -> fst (edge_at es i) = C0
  | Some k => fst (edge_at es k) <> C0 /\ (acc = Some k \/ In k l)
  end.
Proof.
  revert acc. induction l as [|i l IH]; intros acc H.
  - cbn. destruct acc as [k|]; [split; [apply H; reflexivity|left; reflexivity]|split; [reflexivity|intros i []]].
  - cbn [fold_left]. destruct (near_zero 0 (fst (edge_at es i))) eqn:Z.
    + apply near_zero_spec in Z. specialize (IH acc H). destruct (fold_left _ l acc) as [k|].
      * destruct IH as [I1 [I2|I2]]; split; try assumption; [left; exact I2|right; right; exact I2].
      * destruct IH as [I1 I2]. split; [exact I1|]. intros j [<-|Hj]; [exact Z|apply I2; exact Hj].
    + apply near_zero_false in Z.
      set (acc' := match acc with None => Some i | Some k => if Rlt_dec 0 (mag2 es i - mag2 es k) then Some i else acc end).
      assert (A : (exists k, acc' = Some k) /\ (forall k, acc' = Some k -> fst (edge_at es k) <> C0 /\ (acc = Some k \/ k = i))).
      { unfold acc'. destruct acc as [k|]; [destruct (Rlt_dec 0 (mag2 es i - mag2 es k))|].
        - split; [eauto|]. intros k' E. injection E as <-. split; [exact Z|right; reflexivity].
        - split; [eauto|]. intros k' E. injection E as <-. split; [apply H; reflexivity|left; reflexivity].
        - split; [eauto|]. intros k' E. injection E as <-. split; [exact Z|right; reflexivity]. }
      destruct A as [[k0 A0] A]. specialize (IH acc' (fun k E => proj1 (A k E))). destruct (fold_left _ l acc') as [k|].
      * destruct IH as [I1 [I2|I2]]; split; try assumption; [|right; right; exact I2].
        destruct (A k I2) as [_ [B|B]]; [left; exact B|right; left; symmetry; exact B].
      * destruct IH as [I1 _]. congruence.
Qed.
Lemma mpivot_ok es : match mpivot 0 es with
  | None => forall i, i < length es -> fst (edge_at es i) = C0
  | Some k => k < length es /\ fst (edge_at es k) <> C0 end.
Proof.
  unfold mpivot. pose proof (mpivot_fold es (seq 0 (length es)) None ltac:(discriminate)) as H.
  destruct (fold_left _ _ _) as [k|].
  - destruct H as [H [E|E]]; [discriminate|]. apply in_seq in E. split; [lia|exact H].
  - destruct H as [_ H]. intros i Hi. apply H. apply in_seq. lia.
Qed.

Lemma mnormalise_ok cached es :
  match mnormalise 0 cached es with
  | None => forall i, i < length es -> fst (edge_at es i) = C0
  | Some (w, fs) => length fs = length es /\ (forall i p, i < length es -> Cmul w (ev (edge_at fs i) p) = ev (edge_at es i) p) /\
      (forall i ss, i < length es -> ewf ss (edge_at es i) -> ewf ss (edge_at fs i))
  end.
Proof.
  unfold mnormalise. set (cs := clear 0 cached es). assert (Lc : length cs = length es) by apply clear_length.
  assert (Wc : forall i, fst (edge_at cs i) = fst (edge_at es i)) by (intros i; apply clear_at).
  pose proof (mpivot_ok cs) as P. destruct (mpivot 0 cs) as [k|].
  - destruct P as [P1 P2]. set (w := fst (edge_at cs k)) in *. rewrite Lc. split; [apply tab_length|].
    assert (Nr : forall i, (if near 0 (fst (edge_at cs i)) C1 then C1 else fst (edge_at cs i)) = fst (edge_at cs i)).
    { intros i. destruct (near 0 (fst (edge_at cs i)) C1) eqn:E; [|reflexivity]. apply near_spec in E. congruence. }
    split.
    + intros i p Hi. rewrite edge_at_tab by exact Hi. rewrite <- (clear_ev cached es i p). fold cs.
      destruct (Nat.eqb_spec i k) as [->|N].
      * unfold ev. cbn [fst snd]. fold w. ring.
      * rewrite Nr. unfold ev. cbn [fst snd]. rewrite <- (Cdiv_mul (fst (edge_at cs i)) w P2) at 2. ring.
    + intros i ss Hi H. apply (clear_ewf cached) in H. fold cs in H. rewrite edge_at_tab by exact Hi. destruct (Nat.eqb_spec i k) as [->|N].
      * right. cbn. destruct H as [H|H]; [contradiction|exact H].
      * rewrite Nr. destruct H as [H|H]; [left; cbn; rewrite H; apply Cdiv_0|right; exact H].
  - intros i Hi. rewrite <- Wc. apply P. lia.
Qed.

(** making a node: the value of the edge is the value of the edges given *)
Lemma make_ok m cached v es : m = true \/ cached = true \/ at_most_one es ->
  (forall i p, i < length es -> ev (make 0 m cached v es) (i :: p) = ev (edge_at es i) p) /\
  (forall r, v = length r -> (forall i, i < length es -> ewf r (edge_at es i)) -> ewf (length es :: r) (make 0 m cached v es)).
Proof.
  intros H. unfold make.
  assert (K : match (if m then mnormalise 0 cached es else vnormalise 0 cached es) with
    | None => forall i, i < length es -> fst (edge_at es i) = C0
    | Some (w, fs) => length fs = length es /\ (forall i p, i < length es -> Cmul w (ev (edge_at fs i) p) = ev (edge_at es i) p) /\
        (forall i ss, i < length es -> ewf ss (edge_at es i) -> ewf ss (edge_at fs i)) end).
  { destruct m; [apply mnormalise_ok|]. apply vnormalise_ok. destruct H as [H|H]; [discriminate|exact H]. }
  destruct (if m then mnormalise 0 cached es else vnormalise 0 cached es) as [[w fs]|].
  - destruct K as (K1 & K2 & K3). split.
    + intros i p Hi. rewrite ev_node. apply K2. exact Hi.
    + intros r Hv Hw. right. cbn. split; [exact Hv|]. split; [exact K1|]. apply edge_at_Forall. intros i Hi. rewrite K1 in Hi. apply K3; [exact Hi|]. apply Hw. exact Hi.
  - split; [|intros; apply ewf_zero]. intros i p Hi. rewrite ev_zero, ev_weight_0; [reflexivity|]. apply K. exact Hi.
Qed.

(** ** paths *)
Lemma arity_cons m d r : arity m (d :: r) = (d * cols m d) :: arity m r. Proof. reflexivity. Qed.
Lemma arity_length m ds : length (arity m ds) = length ds. Proof. apply map_length. Qed.
Lemma index_split c i j : j < c -> (i * c + j) / c = i /\ (i * c + j) mod c = j.
Proof.
  intros H. split.
  - rewrite Nat.add_comm, Nat.div_add by lia. rewrite Nat.div_small by exact H. reflexivity.
  - rewrite Nat.add_comm, Nat.mod_add by lia. apply Nat.mod_small. exact H.
Qed.
Lemma index_lt d c i j : i < d -> j < c -> i * c + j < d * c.
Proof. intros. nia. Qed.
Lemma entry_valid m ds p q : valid ds p -> valid (columns m ds) q -> valid (arity m ds) (entry m ds p q).
Proof.
  revert p q. induction ds as [|d r IH]; intros p q Hp Hq; inversion Hp as [|i d' p' ds' Hi Hp']; subst; inversion Hq as [|j c q' cs' Hj Hq']; subst; cbn; constructor.
  - apply index_lt; assumption.
  - apply IH; assumption.
Qed.
Lemma entry_false ds p : length p = length ds -> entry false ds p (repeat 0 (length ds)) = p.
Proof.
  revert p. induction ds as [|d r IH]; intros [|i p] L; cbn in *; try lia; [reflexivity|]. rewrite IH by lia. f_equal. lia.
Qed.
Lemma columns_false ds : valid (columns false ds) (repeat 0 (length ds)).
Proof. induction ds as [|d r IH]; cbn; constructor; [cbn; lia|exact IH]. Qed.
Lemma arity_false ds : arity false ds = ds.
Proof. unfold arity, cols. induction ds as [|d r IH]; cbn in *; [reflexivity|]. rewrite IH. f_equal. lia. Qed.
Lemma columns_true ds : columns true ds = ds.
Proof. unfold columns, cols. apply map_id. Qed.

Lemma psum_ext ds f g : (forall q, valid ds q -> f q = g q) -> psum ds f = psum ds g.
Proof.
  revert f g. induction ds as [|d r IH]; intros f g H; cbn.
  - apply H. constructor.
  - apply csum_ext. intros i Hi. apply IH. intros q Hq. apply H. constructor; assumption.
Qed.
Lemma psum_0 ds : psum ds (fun _ => C0) = C0.
Proof. induction ds as [|d r IH]; cbn; [reflexivity|]. apply csum_0. intros. exact IH. Qed.
Lemma psum_mul_l ds c f : psum ds (fun q => Cmul c (f q)) = Cmul c (psum ds f).
Proof.
  revert f. induction ds as [|d r IH]; intros f; cbn; [reflexivity|]. rewrite <- csum_mul_l. apply csum_ext. intros i _. apply (IH (fun q => f (i :: q))).
Qed.
Lemma psum_add ds f g : psum ds (fun q => Cadd (f q) (g q)) = Cadd (psum ds f) (psum ds g).
Proof.
  revert f g. induction ds as [|d r IH]; intros f g; cbn; [reflexivity|]. rewrite <- csum_add. apply csum_ext. intros i _. apply IH.
Qed.
Lemma delta_refl p : delta p p = C1.
Proof. unfold delta. destruct (list_eq_dec _ p p); [reflexivity|congruence]. Qed.
Lemma delta_neq p q : p <> q -> delta p q = C0.
Proof. intros H. unfold delta. destruct (list_eq_dec _ p q); [contradiction|reflexivity]. Qed.
Lemma delta_cons i j p q : delta (i :: p) (j :: q) = Cmul (mid i j) (delta p q).
Proof.
  unfold mid. destruct (Nat.eqb_spec i j) as [->|N].
  - unfold delta. destruct (list_eq_dec Nat.eq_dec p q) as [->|M], (list_eq_dec Nat.eq_dec (j :: _) (j :: _)) as [E|E]; try congruence; ring.
  - rewrite delta_neq by congruence. ring.
Qed.
Lemma delta_sym p q : delta p q = delta q p.
Proof. unfold delta. destruct (list_eq_dec _ p q), (list_eq_dec _ q p); congruence. Qed.
Lemma psum_delta ds p f : valid ds p -> psum ds (fun q => Cmul (delta p q) (f q)) = f p.
Proof.
  revert p f. induction ds as [|d r IH]; intros p f H; inversion H as [|i d' p' ds' Hi Hp]; subst; cbn [psum].
  - rewrite delta_refl. ring.
  - rewrite (csum_ext d _ (fun k => Cmul (mid i k) (f (k :: p')))).
    + apply (csum_mid_l d i (fun k => f (k :: p'))). exact Hi.
    + intros k Hk. rewrite (psum_ext r _ (fun q => Cmul (mid i k) (Cmul (delta p' q) (f (k :: q))))) by (intros q _; rewrite delta_cons; ring).
      rewrite psum_mul_l. rewrite (IH p' (fun q => f (k :: q)) Hp). reflexivity.
Qed.
Lemma psum_delta_r ds p f : valid ds p -> psum ds (fun q => Cmul (f q) (delta q p)) = f p.
Proof. intros H. rewrite (psum_ext ds _ (fun q => Cmul (delta p q) (f q))) by (intros q _; rewrite delta_sym; ring). apply psum_delta. exact H. Qed.

(** ** the identity *)
Lemma is_ident_ok ds n p q : is_ident ds n = true -> valid ds p -> valid ds q -> val n (entry true ds p q) = delta p q.
Proof.
  revert n p q. induction ds as [|d r IH]; intros n p q H Hp Hq; inversion Hp as [|i d' p' ds' Hi Hp']; subst; inversion Hq as [|j d'' q' ds'' Hj Hq']; subst.
  - rewrite delta_refl. reflexivity.
  - destruct n as [|v es]; [discriminate|]. cbn in H. rewrite forallb_forall in H.
    specialize (H (i * d + j)). rewrite in_seq in H. specialize (H ltac:(split; [lia|pose proof (index_lt d d i j Hi Hj); lia])).
    destruct (index_split d i j Hj) as [D M]. rewrite D, M in H. cbn [entry val cols]. rewrite delta_cons.
    change (nth (i * d + j) es (C0, Term)) with (edge_at es (i * d + j)). unfold mid.
    destruct (Nat.eqb i j).
    + apply andb_prop in H. destruct H as [H1 H2]. apply is_one_spec in H2. rewrite H2, (IH _ _ _ H1 Hp' Hq'). reflexivity.
    + apply is_zero_spec in H. rewrite H. ring.
Qed.
Lemma make_ident_ok ds : (forall d, In d ds -> 0 < d) ->
  ewf (arity true ds) (make_ident 0 ds) /\ forall p q, valid ds p -> valid ds q -> ev (make_ident 0 ds) (entry true ds p q) = delta p q.
Proof.
  induction ds as [|d r IH]; intros P.
  - split; [right; exact I|]. intros p q Hp Hq. inversion Hp; inversion Hq; subst. rewrite delta_refl. unfold ev. cbn. ring.
  - destruct IH as [IW IV]; [intros; apply P; right; assumption|]. cbn [make_ident].
    set (es := tab (d * d) _). assert (L : length es = d * d) by apply tab_length.
    destruct (make_ok true false (length r) es (or_introl eq_refl)) as [Mv Mw]. split.
    + rewrite arity_cons. cbn [cols]. rewrite <- L. apply Mw; [rewrite arity_length; reflexivity|]. intros i Hi. rewrite L in Hi.
      unfold es. rewrite edge_at_tab by exact Hi. destruct (Nat.eqb _ _); [exact IW|apply ewf_zero].
    + intros p q Hp Hq. inversion Hp as [|i d' p' ds' Hi Hp']; subst; inversion Hq as [|j d'' q' ds'' Hj Hq']; subst.
      cbn [entry cols]. pose proof (index_lt d d i j Hi Hj) as B. rewrite Mv by lia.
      unfold es. rewrite edge_at_tab by exact B. destruct (index_split d i j Hj) as [D M]. rewrite D, M.
      rewrite delta_cons. unfold mid. destruct (Nat.eqb i j); [rewrite IV by assumption; ring|rewrite ev_zero; ring].
Qed.
Lemma make_ident_one ds : (forall d, In d ds -> 0 < d) -> fst (make_ident 0 ds) = C1.
Proof.
  induction ds as [|d r IH]; intros P; [reflexivity|]. cbn [make_ident].
  assert (Hd : 0 < d) by (apply P; left; reflexivity). specialize (IH (fun x H => P x (or_intror H))).
  set (es := tab (d * d) _). assert (L : length es = d * d) by apply tab_length.
  assert (E0 : edge_at es 0 = make_ident 0 r).
  { unfold es. rewrite edge_at_tab by nia. rewrite Nat.div_0_l, Nat.mod_0_l by lia. reflexivity. }
  assert (W : forall i, i < d * d -> fst (edge_at es i) = C1 \/ fst (edge_at es i) = C0).
  { intros i Hi. unfold es. rewrite edge_at_tab by exact Hi. destruct (Nat.eqb _ _); [left; exact IH|right; reflexivity]. }
  unfold make, mnormalise. cbn [clear]. pose proof (mpivot_ok es) as Pv. destruct (mpivot 0 es) as [k|].
  - cbn [fst]. destruct Pv as [P1 P2]. destruct (W k ltac:(lia)) as [E|E]; [exact E|contradiction].
  - exfalso. specialize (Pv 0 ltac:(nia)). rewrite E0, IH in Pv. apply C1_neq_C0. exact Pv.
Qed.

Section WithSame.
Variable same : node -> node -> bool.
Hypothesis same_sound : forall a b, same a b = true -> a = b.

(** ** addition *)
Lemma scaled_ev (e x : edge) p : ev (if is_zero (fst e) then e else (Cmul (fst e) (fst x), snd e)) p = Cmul (fst x) (ev e p).
Proof.
  destruct (is_zero (fst e)) eqn:Z; [|unfold ev; cbn; ring]. apply is_zero_spec in Z. rewrite ev_weight_0 by exact Z. ring.
Qed.
Lemma scaled_ewf ss (e x : edge) : ewf ss e -> ewf ss (if is_zero (fst e) then e else (Cmul (fst e) (fst x), snd e)).
Proof. intros H. destruct (is_zero (fst e)); [exact H|]. destruct H as [H|H]; [left; cbn; rewrite H; ring|right; exact H]. Qed.

Lemma add2_ok m : forall ss n x y, length ss <= n -> ewf ss x -> ewf ss y ->
  ewf ss (add2 0 same m n x y) /\ forall p, valid ss p -> ev (add2 0 same m n x y) p = Cadd (ev x p) (ev y p).
Proof.
  induction ss as [|s r IH]; intros n x y Hn Hx Hy.
  - assert (E : add2 0 same m n x y = if is_zero (fst x) then y else if is_zero (fst y) then x else
      match snd x, snd y with Term, Term => let w := Cadd (fst x) (fst y) in if near_zero 0 w then zero_edge else (w, snd y) | _, _ => add2 0 same m n x y end).
    { destruct n; cbn; destruct (is_zero (fst x)), (is_zero (fst y)); try reflexivity; destruct (snd x), (snd y); reflexivity. }
    destruct (is_zero (fst x)) eqn:Zx.
    { rewrite E. apply is_zero_spec in Zx. split; [exact Hy|]. intros p _. rewrite (ev_weight_0 x p Zx). ring. }
    destruct (is_zero (fst y)) eqn:Zy.
    { rewrite E. apply is_zero_spec in Zy. split; [exact Hx|]. intros p _. rewrite (ev_weight_0 y p Zy). ring. }
    apply is_zero_false in Zx, Zy. destruct Hx as [Hx|Hx]; [contradiction|]. destruct Hy as [Hy|Hy]; [contradiction|].
    destruct x as [wx nx], y as [wy ny]. cbn [fst snd] in *. destruct nx; [|destruct Hx]. destruct ny; [|destruct Hy].
    rewrite E. cbn zeta. destruct (near_zero 0 (Cadd wx wy)) eqn:Z.
    + apply near_zero_spec in Z. split; [apply ewf_zero|]. intros p Hp. inversion Hp; subst. unfold ev, zero_edge. cbn. rewrite <- Z. ring.
    + split; [right; exact I|]. intros p Hp. inversion Hp; subst. unfold ev. cbn. ring.
  - assert (Hm : forall w, w = Cadd (fst x) (fst y) -> forall nd, wf (s :: r) nd -> snd x = nd -> snd y = nd ->
      ewf (s :: r) (if near_zero 0 w then zero_edge else (w, snd y)) /\
      forall p, ev (if near_zero 0 w then zero_edge else (w, snd y)) p = Cadd (ev x p) (ev y p)).
    { intros w -> nd Wn Ex Ey. destruct (near_zero 0 (Cadd (fst x) (fst y))) eqn:Z.
      - apply near_zero_spec in Z. split; [apply ewf_zero|]. intros p. rewrite ev_zero. unfold ev. rewrite Ex, Ey.
        transitivity (Cmul (Cadd (fst x) (fst y)) (val nd p)); [rewrite Z; ring|ring].
      - split; [right; cbn [snd]; rewrite Ey; exact Wn|]. intros p. unfold ev. cbn [fst snd]. rewrite Ex, Ey. ring. }
    destruct n as [|n]; [cbn in Hn; lia|]. cbn [add2]. destruct (is_zero (fst x)) eqn:Zx.
    { apply is_zero_spec in Zx. split; [exact Hy|]. intros p _. rewrite (ev_weight_0 x p Zx). ring. }
    destruct (is_zero (fst y)) eqn:Zy.
    { apply is_zero_spec in Zy. split; [exact Hx|]. intros p _. rewrite (ev_weight_0 y p Zy). ring. }
    apply is_zero_false in Zx, Zy. destruct Hx as [Hx|Hx]; [contradiction|]. destruct Hy as [Hy|Hy]; [contradiction|].
    destruct x as [wx nx], y as [wy ny]. cbn [fst snd] in *. destruct nx as [|v es]; [destruct Hx|]. destruct ny as [|u fs]; [destruct Hy|].
    destruct (same (Node v es) (Node u fs)) eqn:Sm.
    { apply same_sound in Sm. injection Sm as -> ->. destruct (Hm _ eq_refl _ Hx eq_refl eq_refl) as [A B]. split; [exact A|]. intros p _. apply B. }
    clear Hm. destruct Hx as (Vx & Lx & Fx). destruct Hy as (Vy & Ly & Fy).
    set (g := fun i => _). set (gs := tab (length es) g).
    assert (Lg : length gs = s) by (unfold gs; rewrite tab_length; exact Lx).
    destruct (make_ok m true v gs (or_intror (or_introl eq_refl))) as [Mv Mw]. rewrite Lg in *.
    assert (G : forall i, i < s -> ewf r (g i) /\ forall p, valid r p -> ev (g i) p = Cadd (Cmul wx (ev (edge_at es i) p)) (Cmul wy (ev (edge_at fs i) p))).
    { intros i Hi. assert (W1 : ewf r (edge_at es i)) by (apply (Forall_edge_at (fun e => fst e = C0 \/ wf r (snd e)) es i Fx); lia).
      assert (W2 : ewf r (edge_at fs i)) by (apply (Forall_edge_at (fun e => fst e = C0 \/ wf r (snd e)) fs i Fy); lia).
      unfold g. cbn zeta. set (e1 := if is_zero (fst (edge_at es i)) then _ else _). set (e2 := if is_zero (fst (edge_at fs i)) then _ else _).
      destruct (IH n e1 e2) as [A B]; [cbn in Hn; lia|apply (scaled_ewf r (edge_at es i) (wx, Term)); exact W1|apply (scaled_ewf r (edge_at fs i) (wy, Term)); exact W2|].
      split; [exact A|]. intros p Hp. rewrite (B p Hp). f_equal; [apply (scaled_ev (edge_at es i) (wx, Term))|apply (scaled_ev (edge_at fs i) (wy, Term))]. }
    split.
    + apply Mw; [exact Vx|]. intros i Hi. unfold gs. rewrite edge_at_tab by lia. apply G. exact Hi.
    + intros p Hp. inversion Hp as [|i s' p' r' Hi Hp']; subst. rewrite Mv by exact Hi. unfold gs. rewrite edge_at_tab by exact Hi.
      rewrite (proj2 (G i Hi) p' Hp'). rewrite !ev_node. reflexivity.
Qed.

Lemma accumulate_ok m ss n (f : nat -> edge) k : length ss <= n -> (forall i, i < k -> ewf ss (f i)) ->
  ewf ss (accumulate 0 same m n (tab k f)) /\ forall p, valid ss p -> ev (accumulate 0 same m n (tab k f)) p = csum k (fun i => ev (f i) p).
Proof.
  intros Hn Hf. destruct k as [|k]; [split; [apply ewf_zero|intros; apply ev_zero]|].
  unfold accumulate, tab. cbn [seq map].
  assert (K : forall j a acc, (forall i, i < a + j -> ewf ss (f i)) -> ewf ss acc -> (forall p, valid ss p -> ev acc p = csum a (fun i => ev (f i) p)) ->
    let r := fold_left (fun acc t => if is_zero (fst acc) then t else if is_zero (fst t) then acc else add2 0 same m n acc t) (map f (seq a j)) acc in
    ewf ss r /\ forall p, valid ss p -> ev r p = csum (a + j) (fun i => ev (f i) p)).
  { induction j as [|j IH]; intros a acc W Wa Va.
    - cbn. rewrite Nat.add_0_r. split; assumption.
    - cbn [seq map fold_left]. replace (a + S j) with (S a + j) in * by lia. apply IH; [exact W| |].
      + destruct (is_zero (fst acc)); [apply W; lia|]. destruct (is_zero (fst (f a))); [exact Wa|]. apply add2_ok; [exact Hn|exact Wa|apply W; lia].
      + intros p Hp. cbn [csum]. rewrite <- (Va p Hp). destruct (is_zero (fst acc)) eqn:Z.
        { apply is_zero_spec in Z. rewrite (ev_weight_0 acc p Z). ring. }
        destruct (is_zero (fst (f a))) eqn:Z'.
        { apply is_zero_spec in Z'. rewrite (ev_weight_0 (f a) p Z'). ring. }
        apply (proj2 (add2_ok m ss n acc (f a) Hn Wa (W a ltac:(lia)))); exact Hp. }
  destruct (K k 1 (f 0)) as [A B].
  - intros i Hi. apply Hf. lia.
  - apply Hf. lia.
  - intros p _. cbn. ring.
  - split; [exact A|]. intros p Hp. rewrite (B p Hp). reflexivity.
Qed.

(** ** multiplication *)
Lemma scale_ok ss (x y e : edge) : ewf ss e -> 
  let w := Cmul (Cmul (fst e) (fst x)) (fst y) in let s := if near_zero 0 w then zero_edge else (w, snd e) in
  ewf ss s /\ forall p, ev s p = Cmul (Cmul (fst x) (fst y)) (ev e p).
Proof.
  intros H w s. assert (V : forall p, ev s p = Cmul (Cmul (fst x) (fst y)) (ev e p)).
  { intros p. unfold s. destruct (near_zero 0 w) eqn:Z; [|unfold ev, w; cbn; ring]. apply near_zero_spec in Z. rewrite ev_zero. unfold ev.
    transitivity (Cmul w (val (snd e) p)); [rewrite Z; ring|unfold w; ring]. }
  split; [|exact V]. unfold s. destruct (near_zero 0 w) eqn:Z; [apply ewf_zero|]. destruct H as [H|H]; [left|right; exact H].
  cbn. unfold w. rewrite H. ring.
Qed.

Lemma multiply2_ok m : forall ds x y, (forall d, In d ds -> 0 < d) -> ewf (arity true ds) x -> ewf (arity m ds) y ->
  ewf (arity m ds) (multiply2 0 same m ds x y) /\
  forall p c, valid ds p -> valid (columns m ds) c ->
    ev (multiply2 0 same m ds x y) (entry m ds p c) = psum ds (fun q => Cmul (ev x (entry true ds p q)) (ev y (entry m ds q c))).
Proof.
  induction ds as [|d r IH]; intros x y P Hx Hy.
  - cbn [multiply2]. destruct (is_zero (fst x)) eqn:Zx; [|destruct (is_zero (fst y)) eqn:Zy]; cbn [orb].
    + apply is_zero_spec in Zx. split; [apply ewf_zero|]. intros. cbn [psum]. rewrite (ev_weight_0 x _ Zx), ev_zero. ring.
    + apply is_zero_spec in Zy. split; [apply ewf_zero|]. intros. cbn [psum]. rewrite (ev_weight_0 y _ Zy), ev_zero. ring.
    + split; [right; exact I|]. intros p c Hp Hc. inversion Hp; inversion Hc; subst. cbn [psum entry]. unfold ev. cbn. ring.
  - cbn [multiply2]. destruct (is_zero (fst x)) eqn:Zx; [|destruct (is_zero (fst y)) eqn:Zy]; cbn [orb].
    { apply is_zero_spec in Zx. split; [apply ewf_zero|]. intros. rewrite ev_zero. rewrite (psum_ext _ _ (fun _ => C0)) by (intros; rewrite (ev_weight_0 x _ Zx); ring). symmetry. apply psum_0. }
    { apply is_zero_spec in Zy. split; [apply ewf_zero|]. intros. rewrite ev_zero. rewrite (psum_ext _ _ (fun _ => C0)) by (intros; rewrite (ev_weight_0 y _ Zy); ring). symmetry. apply psum_0. }
    apply is_zero_false in Zx, Zy.
    destruct Hx as [Hx|Hx]; [contradiction|]. destruct Hy as [Hy|Hy]; [contradiction|]. set (ds := d :: r) in *.
    assert (Fac : forall p c, psum ds (fun q => Cmul (ev x (entry true ds p q)) (ev y (entry m ds q c))) =
      Cmul (Cmul (fst x) (fst y)) (psum ds (fun q => Cmul (val (snd x) (entry true ds p q)) (val (snd y) (entry m ds q c))))).
    { intros p c. rewrite <- psum_mul_l. apply psum_ext. intros q _. unfold ev. ring. }
    destruct (is_ident ds (snd x)) eqn:Ix.
    { set (n2 := snd (if m && is_ident ds (snd y) then make_ident 0 ds else y)).
      assert (W2 : ewf (arity m ds) (C1, n2) /\ forall p c, valid ds p -> valid (columns m ds) c -> val n2 (entry m ds p c) = val (snd y) (entry m ds p c)).
      { unfold n2. destruct m; cbn [andb]; [destruct (is_ident ds (snd y)) eqn:Iy|].
        - destruct (make_ident_ok ds P) as [A B]. pose proof (make_ident_one ds P) as O. split.
          + right. cbn [snd]. destruct A as [A|A]; [rewrite O in A; exfalso; apply C1_neq_C0; exact A|exact A].
          + intros p c Hp Hc. rewrite columns_true in Hc. specialize (B p c Hp Hc). unfold ev in B. rewrite O, Cmul_1_l in B.
            rewrite B. symmetry. apply is_ident_ok; assumption.
        - split; [right; exact Hy|intros; reflexivity].
        - split; [right; exact Hy|intros; reflexivity]. }
      destruct W2 as [W2 V2]. destruct (scale_ok (arity m ds) x y (C1, n2) W2) as [A B]. cbn zeta in *. cbn [fst snd] in *. split; [exact A|].
      intros p c Hp Hc. rewrite B, Fac. f_equal. unfold ev. cbn [fst snd]. rewrite Cmul_1_l, V2 by assumption.
      rewrite (psum_ext ds _ (fun q => Cmul (delta p q) (val (snd y) (entry m ds q c)))) by (intros q Hq; rewrite (is_ident_ok ds _ p q Ix Hp Hq); reflexivity).
      symmetry. apply (psum_delta ds p (fun q => val (snd y) (entry m ds q c)) Hp). }
    destruct (m && is_ident ds (snd y)) eqn:Iy.
    { apply andb_prop in Iy. destruct Iy as [-> Iy]. destruct (scale_ok (arity true ds) x y (C1, snd x) (or_intror Hx)) as [A B]. cbn zeta in *. cbn [fst snd] in *.
      split; [exact A|]. intros p c Hp Hc. rewrite columns_true in Hc. rewrite B, Fac. f_equal. unfold ev. cbn [fst snd]. rewrite Cmul_1_l.
      rewrite (psum_ext ds _ (fun q => Cmul (val (snd x) (entry true ds p q)) (delta q c))) by (intros q Hq; rewrite (is_ident_ok ds _ q c Iy Hq Hc); reflexivity).
      symmetry. apply (psum_delta_r ds c (fun q => val (snd x) (entry true ds p q)) Hc). }
    destruct x as [wx nx], y as [wy ny]. cbn [fst snd] in *. destruct nx as [|vx xs]; [destruct Hx|]. destruct ny as [|vy ys]; [destruct Hy|].
    assert (Ix' : forall i, i < d * d -> ewf (arity true r) (edge_at xs i)) by (intros i Hi; apply (ewf_child (d * d) (arity true r) vx xs i Hx Hi)).
    assert (Iy' : forall i, i < d * cols m d -> ewf (arity m r) (edge_at ys i)) by (intros i Hi; apply (ewf_child (d * cols m d) (arity m r) vy ys i Hy Hi)).
    fold (cols m d). set (cl := cols m d) in *.
    set (g := fun idx => accumulate 0 same m (length r) (tab d (fun k => multiply2 0 same m r (edge_at xs (d * (idx / cl) + k)) (edge_at ys (idx mod cl + cl * k))))).
    set (es := tab (d * cl) g). assert (Le : length es = d * cl) by apply tab_length.
    assert (Pd : 0 < d) by (apply P; left; reflexivity). assert (Pcl : 0 < cl) by (unfold cl, cols; destruct m; lia).
    assert (Pr : forall e, In e r -> 0 < e) by (intros e He; apply P; right; exact He).
    assert (G : forall i j, i < d -> j < cl -> ewf (arity m r) (g (i * cl + j)) /\ forall p c, valid r p -> valid (columns m r) c ->
      ev (g (i * cl + j)) (entry m r p c) = csum d (fun k => psum r (fun q => Cmul (ev (edge_at xs (i * d + k)) (entry true r p q)) (ev (edge_at ys (k * cl + j)) (entry m r q c))))).
    { intros i j Hi Hj. unfold g. destruct (index_split cl i j Hj) as [D M]. rewrite D, M.
      assert (W : forall k, k < d -> ewf (arity m r) (multiply2 0 same m r (edge_at xs (d * i + k)) (edge_at ys (j + cl * k))) /\
        forall p c, valid r p -> valid (columns m r) c -> ev (multiply2 0 same m r (edge_at xs (d * i + k)) (edge_at ys (j + cl * k))) (entry m r p c) =
          psum r (fun q => Cmul (ev (edge_at xs (d * i + k)) (entry true r p q)) (ev (edge_at ys (j + cl * k)) (entry m r q c)))).
      { intros k Hk. apply IH; [exact Pr|apply Ix'; nia|apply Iy'; pose proof (index_lt d cl k j Hk Hj); lia]. }
      destruct (accumulate_ok m (arity m r) (length r) (fun k => multiply2 0 same m r (edge_at xs (d * i + k)) (edge_at ys (j + cl * k))) d) as [A B].
      - rewrite arity_length. lia.
      - intros k Hk. apply W. exact Hk.
      - split; [exact A|]. intros p c Hp Hc. rewrite B by (apply entry_valid; assumption). apply csum_ext. intros k Hk.
        rewrite (proj2 (W k Hk) p c Hp Hc). replace (d * i + k) with (i * d + k) by lia. replace (j + cl * k) with (k * cl + j) by lia. reflexivity. }
    assert (G' : forall i, i < d * cl -> ewf (arity m r) (edge_at es i)).
    { intros i Hi. unfold es. rewrite edge_at_tab by exact Hi.
      assert (Di : i / cl < d) by (apply Nat.div_lt_upper_bound; lia). assert (Mi : i mod cl < cl) by (apply Nat.mod_upper_bound; lia).
      pose proof (proj1 (G (i / cl) (i mod cl) Di Mi)) as Q. replace (i / cl * cl + i mod cl) with i in Q; [exact Q|].
      rewrite Nat.mul_comm. apply Nat.div_mod. lia. }
    destruct (make_ok m true (length r) es (or_intror (or_introl eq_refl))) as [Mv Mw]. rewrite Le in *.
    set (e := make 0 m true (length r) es) in *.
    assert (We : ewf (arity m ds) e) by (unfold ds; rewrite arity_cons; fold cl; apply Mw; [rewrite arity_length; reflexivity|exact G']).
    assert (Ve : forall p c, valid ds p -> valid (columns m ds) c -> ev e (entry m ds p c) = 
      psum ds (fun q => Cmul (val (Node vx xs) (entry true ds p q)) (val (Node vy ys) (entry m ds q c)))).
    { intros p c Hp Hc. unfold ds in Hp, Hc. inversion Hp as [|i d' p' ds' Hi Hp']; subst; inversion Hc as [|j d'' c' ds'' Hj Hc']; subst.
      unfold ds. cbn [entry psum]. fold (cols m d). fold cl. fold cl in Hj. rewrite Mv by (apply index_lt; assumption).
      unfold es. rewrite edge_at_tab by (apply index_lt; assumption). rewrite (proj2 (G i j Hi Hj) p' c' Hp' Hc'). reflexivity. }
    destruct (is_zero (fst e)) eqn:Ze.
    + split; [exact We|]. intros p c Hp Hc. rewrite Fac, <- Ve by assumption. apply is_zero_spec in Ze. rewrite (ev_weight_0 e _ Ze). ring.
    + destruct (scale_ok (arity m ds) (wx, Node vx xs) (wy, Node vy ys) e We) as [A B]. cbn zeta in *. cbn [fst snd] in *. split; [exact A|].
      intros p c Hp Hc. rewrite B, Fac, <- Ve by assumption. reflexivity.
Qed.

(** a matrix times a vector, a matrix times a matrix *)
Lemma apply_ok ds x y : (forall d, In d ds -> 0 < d) -> ewf (arity true ds) x -> ewf ds y ->
  ewf ds (multiply2 0 same false ds x y) /\
  forall p, valid ds p -> ev (multiply2 0 same false ds x y) p = psum ds (fun q => Cmul (ev x (entry true ds p q)) (ev y q)).
Proof.
  intros P Hx Hy. rewrite <- (arity_false ds) in Hy at 1. destruct (multiply2_ok false ds x y P Hx Hy) as [A B]. rewrite arity_false in A. split; [exact A|].
  intros p Hp. pose proof (valid_length _ _ Hp) as Lp. specialize (B p (repeat 0 (length ds)) Hp (columns_false ds)). rewrite entry_false in B by exact Lp.
  rewrite B. apply psum_ext. intros q Hq. rewrite entry_false by (apply valid_length; exact Hq). reflexivity.
Qed.
Lemma product_ok ds x y : (forall d, In d ds -> 0 < d) -> ewf (arity true ds) x -> ewf (arity true ds) y ->
  ewf (arity true ds) (multiply2 0 same true ds x y) /\
  forall p c, valid ds p -> valid ds c -> ev (multiply2 0 same true ds x y) (entry true ds p c) = psum ds (fun q => Cmul (ev x (entry true ds p q)) (ev y (entry true ds q c))).
Proof. intros P Hx Hy. destruct (multiply2_ok true ds x y P Hx Hy) as [A B]. split; [exact A|]. intros p c Hp Hc. apply B; [exact Hp|rewrite columns_true; exact Hc]. Qed.
End WithSame.

(** ** the conjugate transpose *)
Lemma conj_transpose_ok : forall ds e, (forall d, In d ds -> 0 < d) -> ewf (arity true ds) e ->
  ewf (arity true ds) (conj_transpose 0 ds e) /\
  forall p q, valid ds p -> valid ds q -> ev (conj_transpose 0 ds e) (entry true ds p q) = Cconj (ev e (entry true ds q p)).
Proof.
  induction ds as [|d r IH]; intros e P He.
  - cbn. split.
    + destruct He as [He|He]; [left; cbn; rewrite He; apply Cconj_C0|right; exact He].
    + intros p q Hp Hq. inversion Hp; inversion Hq; subst. unfold ev. cbn. rewrite Cconj_mul, Cconj_C1. reflexivity.
  - destruct e as [w n]. assert (Pd : 0 < d) by (apply P; left; reflexivity).
    destruct n as [|v es].
    { destruct He as [He|He]; [|destruct He]. cbn in He. subst w. cbn [conj_transpose snd fst]. split; [left; cbn; apply Cconj_C0|].
      intros p q Hp Hq. rewrite !ev_weight_0; [symmetry; apply Cconj_C0|reflexivity|apply Cconj_C0]. }
    cbn [conj_transpose snd fst]. 
    destruct He as [He|He].
    { cbn in He. subst w. split; [left; cbn; rewrite Cconj_C0; ring|]. intros p q Hp Hq. rewrite !ev_weight_0; [symmetry; apply Cconj_C0|reflexivity|cbn; rewrite Cconj_C0; ring]. }
    rewrite arity_cons in He. cbn [snd cols] in He. pose proof He as (Hv & Hl & Hf).
    set (g := fun idx => conj_transpose 0 r (edge_at es (d * (idx mod d) + idx / d))).
    set (gs := tab (length es) g). assert (Lg : length gs = d * d) by (unfold gs; rewrite tab_length; exact Hl).
    destruct (make_ok true false v gs (or_introl eq_refl)) as [Mv Mw]. rewrite Lg in *.
    assert (G : forall i j, i < d -> j < d -> ewf (arity true r) (g (i * d + j)) /\
      forall p q, valid r p -> valid r q -> ev (g (i * d + j)) (entry true r p q) = Cconj (ev (edge_at es (j * d + i)) (entry true r q p))).
    { intros i j Hi Hj. unfold g. destruct (index_split d i j Hj) as [D M]. rewrite D, M. replace (d * j + i) with (j * d + i) by lia.
      apply IH; [intros e He'; apply P; right; exact He'|]. apply (ewf_child (d * d) (arity true r) v es); [exact He|apply index_lt; assumption]. }
    assert (W : ewf (d * d :: arity true r) (make 0 true false v gs)).
    { apply Mw; [exact Hv|]. intros i Hi. unfold gs. rewrite edge_at_tab by lia.
      assert (Di : i / d < d) by (apply Nat.div_lt_upper_bound; lia). assert (Mi : i mod d < d) by (apply Nat.mod_upper_bound; lia).
      pose proof (proj1 (G (i / d) (i mod d) Di Mi)) as Q. replace (i / d * d + i mod d) with i in Q; [exact Q|]. rewrite Nat.mul_comm. apply Nat.div_mod. lia. }
    split.
    + rewrite arity_cons. cbn [cols]. destruct W as [W|W]; [left; cbn; rewrite W; ring|right; exact W].
    + clear Hv. intros p q Hp Hq. inversion Hp as [|i d' p' ds' Hi Hp']; subst; inversion Hq as [|j d'' q' ds'' Hj Hq']; subst. cbn [entry cols].
      transitivity (Cmul (Cconj w) (ev (make 0 true false v gs) (i * d + j :: entry true r p' q'))); [unfold ev; cbn [fst snd]; ring|].
      rewrite Mv by (apply index_lt; assumption). unfold gs. rewrite edge_at_tab by (rewrite Hl; apply index_lt; assumption).
      rewrite (proj2 (G i j Hi Hj) p' q' Hp' Hq'). rewrite ev_node, Cconj_mul. reflexivity.
Qed.
