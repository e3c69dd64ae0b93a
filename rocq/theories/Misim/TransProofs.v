(** Proofs about TransModel. *)
From Coq Require Import List Arith Lia Reals Bool.
From Verif Require Import Base.Cplx Base.Matrix Base.Radix Misim.DdModel Misim.DdSpec Misim.DdProofs Misim.NodeShapeProofs
  Misim.CanonProofs Misim.KronModel Misim.KronProofs Misim.TransModel Misim.TransSpec.
Import ListNotations.
Local Open Scope nat_scope.

Lemma Cmul_C1_r x : Cmul x C1 = x.
Proof. ring. Qed.
Lemma pos_div d i j : j < d -> (i * d + j) / d = i /\ (i * d + j) mod d = j.
Proof.
  intros H. assert (N : d <> 0) by lia. split; [symmetry; apply (Nat.div_unique _ _ _ j); lia|symmetry; apply (Nat.mod_unique _ _ i); lia].
Qed.
Lemma sizes_S dims m : m < length dims -> sizes_below dims (S m) = nth m dims 0 :: sizes_below dims m.
Proof.
  intros H. unfold sizes_below. replace (firstn (S m) dims) with (firstn m dims ++ [nth m dims 0]); [apply rev_app_distr|].
  clear -H. revert m H. induction dims as [|d r IH]; intros m H; [cbn in H; lia|]. destruct m as [|m]; [reflexivity|]. cbn [firstn nth app]. f_equal. apply IH. cbn in H. lia.
Qed.
Lemma sizes_length dims m : m <= length dims -> length (sizes_below dims m) = m.
Proof. intros H. unfold sizes_below. rewrite rev_length, firstn_length. lia. Qed.

Lemma marked_node dims v es : 0 < nth v dims 0 -> length es = nth v dims 0 * nth v dims 0 ->
  (marked 0 dims (Node v es) = true <-> forall p, p < nth v dims 0 * nth v dims 0 ->
     marked 0 dims (snd (edge_at es p)) = true /\ edge_at es p = edge_at es (p mod nth v dims 0 * nth v dims 0 + p / nth v dims 0)).
Proof.
  intros Hd L. rewrite <- special_true by assumption. cbn [marked]. fold (flags dims es).
  destruct (special 0 (nth v dims 0) es (flags dims es)) as [[|]|]; split; congruence.
Qed.

Lemma valid_cons_inv d r p : valid (d :: r) p -> exists i p', p = i :: p' /\ i < d /\ valid r p'.
Proof. intros H. inversion H; subst. eexists; eexists; split; [reflexivity|split; assumption]. Qed.

Lemma marked_symmetric dims : (forall d, In d dims -> 0 < d) -> forall m n, m <= length dims -> wf (arity true (sizes_below dims m)) n -> marked 0 dims n = true ->
  forall p q, valid (sizes_below dims m) p -> valid (sizes_below dims m) q ->
  val n (entry true (sizes_below dims m) p q) = val n (entry true (sizes_below dims m) q p).
Proof.
  intros Hd. induction m as [|m IH]; intros n Hm W M p q Vp Vq.
  - reflexivity.
  - rewrite sizes_S in * by lia. set (ds := sizes_below dims m) in *. set (d := nth m dims 0) in *.
    destruct n as [|v es]; [destruct W|]. cbn [arity map] in W. fold (arity true ds) in W. destruct W as [Ev [L F]].
    unfold arity in Ev. rewrite map_length in Ev. unfold ds in Ev. rewrite sizes_length in Ev by lia. subst v. change (cols true d) with d in L.
    assert (Pd : 0 < d) by (apply Hd, nth_In; lia).
    pose proof (proj1 (marked_node dims m es Pd L) M) as K. fold d in K.
    apply valid_cons_inv in Vp as (i & p' & -> & Hi & Vp). apply valid_cons_inv in Vq as (j & q' & -> & Hj & Vq).
    cbn [entry val]. change (cols true d) with d. change (C0, Term) with zero_edge. fold (edge_at es (i * d + j)) (edge_at es (j * d + i)).
    destruct (K (i * d + j)) as [Mk Eq]; [nia|]. destruct (pos_div d i j Hj) as [D1 D2]. rewrite D1, D2 in Eq. rewrite <- Eq.
    assert (We : fst (edge_at es (i * d + j)) = C0 \/ wf (arity true ds) (snd (edge_at es (i * d + j)))).
    { rewrite Forall_forall in F. apply F. unfold edge_at. apply nth_In. rewrite L. nia. }
    destruct We as [Z|We]; [rewrite Z; ring|]. f_equal. apply IH; [lia|exact We|exact Mk|exact Vp|exact Vq].
Qed.

Lemma transpose_value dims e : (forall d, In d dims -> 0 < d) ->
  transpose 0 dims e = if marked 0 dims (snd e) then Some e else None.
Proof.
  intros Hd. unfold transpose. destruct e as [w [|v es]]; [reflexivity|]. cbn [snd]. destruct (marked 0 dims (Node v es)); [reflexivity|].
  destruct (nth_error dims v) as [[|d]|] eqn:N; try reflexivity. exfalso. apply nth_error_In, Hd in N. lia.
Qed.
Lemma transpose_sound dims m e t : (forall d, In d dims -> 0 < d) -> m <= length dims -> matrix_over (sizes_below dims m) e ->
  transpose 0 dims e = Some t -> t = e /\ transposed (sizes_below dims m) e t.
Proof.
  intros Hd Hm W E. rewrite transpose_value in E by exact Hd. destruct (marked 0 dims (snd e)) eqn:M; [|discriminate]. injection E as <-.
  split; [reflexivity|]. split; [exact W|]. intros p q Vp Vq. unfold entry_at, ev. destruct W as [Z|W]; [rewrite Z; ring|].
  f_equal. apply marked_symmetric; assumption.
Qed.
Lemma transpose_asymmetric dims m e : (forall d, In d dims -> 0 < d) -> m <= length dims -> matrix_over (sizes_below dims m) e ->
  ~ symmetric_matrix (sizes_below dims m) e -> transpose 0 dims e = None.
Proof.
  intros Hd Hm W A. destruct (transpose 0 dims e) as [t|] eqn:E; [|reflexivity]. exfalso. apply A.
  destruct (transpose_sound dims m e t Hd Hm W E) as [-> H]. exact H.
Qed.

(** gates on register 0 *)
Lemma levels_exist dims m : (forall d, In d dims -> 0 < d) -> valid (sizes_below dims m) (repeat 0 (length (sizes_below dims m))).
Proof.
  intros Hd. assert (H : forall d, In d (sizes_below dims m) -> 0 < d).
  { intros d H. apply Hd. unfold sizes_below in H. apply in_rev in H. rewrite <- (firstn_skipn m dims). apply in_or_app. left. exact H. }
  clear Hd. induction (sizes_below dims m) as [|d r IH]; [constructor|]. cbn [length repeat]. constructor; [apply H; left; reflexivity|apply IH; intros; apply H; right; assumption].
Qed.
Lemma symmetric_marked dims : (forall d, In d dims -> 0 < d) -> forall m n, m <= length dims -> okn true 0 (sizes_below dims m) n ->
  (forall p q, valid (sizes_below dims m) p -> valid (sizes_below dims m) q ->
     val n (entry true (sizes_below dims m) p q) = val n (entry true (sizes_below dims m) q p)) -> marked 0 dims n = true.
Proof.
  intros Hd. induction m as [|m IH]; intros n Hm O Sy; destruct n as [|v es]; try reflexivity; [destruct O|].
  rewrite sizes_S in * by lia. pose proof (levels_exist dims m Hd) as V0. set (ds := sizes_below dims m) in *. set (d := nth m dims 0) in *.
  apply okn_cons in O. destruct O as [Ev [L O]]. unfold ds in Ev. rewrite sizes_length in Ev by lia. subst v. change (cols true d) with d in *.
  assert (Pd : 0 < d) by (apply Hd, nth_In; lia).
  assert (En : forall i j p q, i < d -> j < d -> valid ds p -> valid ds q ->
    ev (edge_at es (i * d + j)) (entry true ds p q) = ev (edge_at es (j * d + i)) (entry true ds q p)).
  { intros i j p q Hi Hj Vp Vq. exact (Sy (i :: p) (j :: q) (Forall2_cons _ _ Hi Vp) (Forall2_cons _ _ Hj Vq)). }
  apply marked_node; [exact Pd|exact L|]. fold d. intros k Hk.
  assert (Hi : k / d < d) by (apply Nat.div_lt_upper_bound; lia). assert (Hj : k mod d < d) by (apply Nat.mod_upper_bound; lia).
  assert (Ek : k = k / d * d + k mod d) by (rewrite Nat.mul_comm; apply Nat.div_mod; lia).
  set (i := k / d) in *. set (j := k mod d) in *. rewrite Ek.
  destruct (Nat.eq_dec i j) as [Eij|Nij].
  - rewrite <- Eij. split; [|reflexivity]. destruct (O (i * d + i)) as [Z|(N & _ & Oc)]; [nia|rewrite Z; reflexivity|].
    apply IH; [lia|exact Oc|]. intros p q Vp Vq. pose proof (En i i p q Hi Hi Vp Vq) as X. unfold ev in X. exact (Cmul_cancel _ _ _ N X).
  - (* off the diagonal: the edges go to the terminal node or are zero *)
    assert (T : forall a b, a < d -> b < d -> a <> b -> edge_at es (a * d + b) = zero_edge \/ (fst (edge_at es (a * d + b)) <> C0 /\ ds = [] /\ snd (edge_at es (a * d + b)) = Term)).
    { intros a b Ha Hb Nab. destruct (O (a * d + b)) as [Z|(N & D & Oc)]; [nia|left; exact Z|right]. split; [exact N|].
      destruct (pos_div d a b Hb) as [D1 D2]. destruct (D eq_refl) as [D'|D']; [rewrite D1, D2 in D'; contradiction|].
      destruct ds as [|x r]; [|discriminate D']. split; [reflexivity|]. destruct (snd (edge_at es (a * d + b))); [reflexivity|destruct Oc]. }
    pose proof (En i j _ _ Hi Hj V0 V0) as X.
    destruct (T i j Hi Hj Nij) as [Z1|(N1 & D1 & T1)], (T j i Hj Hi (not_eq_sym Nij)) as [Z2|(N2 & D2 & T2)].
    + rewrite Z1, Z2. split; reflexivity.
    + exfalso. apply N2. rewrite Z1, D2 in X. unfold ev in X. cbn in X. rewrite !Cmul_C1_r in X. rewrite <- X. ring.
    + exfalso. apply N1. rewrite Z2, D1 in X. unfold ev in X. cbn in X. rewrite !Cmul_C1_r in X. rewrite X. ring.
    + split; [rewrite T1; reflexivity|]. rewrite D1 in X. unfold ev in X. cbn in X. rewrite !Cmul_C1_r in X.
      rewrite (surjective_pairing (edge_at es (i * d + j))), (surjective_pairing (edge_at es (j * d + i))). rewrite T1, T2, X. reflexivity.
Qed.
Lemma gate_transposed dims T M cs e : (forall d, In d dims -> 0 < d) -> make_gate 0 dims T M cs 0 = Some e -> symmetric_matrix (rev dims) e ->
  transpose 0 dims e = Some e.
Proof.
  intros Hd E [_ Sy]. rewrite transpose_value by exact Hd. pose proof (make_gate_oke dims Hd 0 T M cs e E) as O.
  destruct O as [-> |[N O]]; [reflexivity|]. assert (R : rev dims = sizes_below dims (length dims)) by (unfold sizes_below; rewrite firstn_all; reflexivity).
  rewrite R in *. rewrite (symmetric_marked dims Hd (length dims) (snd e)); [reflexivity|lia|exact O|]. intros p q Vp Vq.
  pose proof (Sy p q Vp Vq) as X. unfold entry_at, ev in X. exact (Cmul_cancel _ _ _ N X).
Qed.
