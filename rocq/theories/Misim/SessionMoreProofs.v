(** Sessions: the phase of the inner product, equal states, the number of nodes over all histories, single entries. *)
From Coq Require Import List Arith Lia Reals Lra Bool Sorted.
From Verif Require Import Base.Cplx Base.Matrix Base.Radix Sim.TnModel Misim.DdModel Misim.DdSpec Misim.DdProofs Misim.DdGateProofs
  Misim.MisimModel Misim.NodeModel Misim.NodeSpec Misim.NodeShapeProofs Misim.NodeProofs Misim.ControlsProofs Misim.CanonProofs
  Misim.SessionModel Misim.SessionSpec Misim.SessionProofs Misim.SessionReadProofs Misim.SessionCountProofs Misim.SessionRunProofs.
Import ListNotations.
Local Open Scope nat_scope.

Lemma pivot_path : forall ds n, nf ds n -> exists p r, valid ds p /\ (0 < r)%R /\ val n p = RtoC r.
Proof.
  induction ds as [|d r IH]; intros [|v es] H; try (destruct H; fail); [exists [], 1%R; split; [constructor|]; split; [lra|reflexivity]|].
  apply nf_cons in H. destruct H as (_ & Le & (_ & k & y & Hk & Wk & Px & _) & H). rewrite Le in Hk. assert (Nw : fst (edge_at es k) <> C0) by (rewrite Wk; apply RtoC_neq_0; lra).
  destruct (IH _ (nfe_node _ _ (H k Hk) Nw)) as (p & x & Hp & Px' & Vp). exists (k :: p), (y * x)%R. split; [constructor; assumption|]. split; [apply Rmult_lt_0_compat; assumption|].
  cbn [val]. change (nth k es (C0, Term)) with (edge_at es k). rewrite Wk, Vp. unfold RtoC, Cmul. cbn. f_equal; ring.
Qed.

Section More.
Variable dims : list nat.
Hypothesis pos : forall d, In d dims -> 0 < d.
Variable uhash : bool -> list aedge -> nat.
Variable ahash : bool -> aedge -> aedge -> nat.
Variable mhash : bool -> ref -> ref -> nat.
Variable ihash : ref -> ref -> nat.
Notation stands := (stands dims).
Notation step := (step 0 dims uhash ahash mhash ihash).
Notation holds := (holds dims uhash).

(** ** inner products *)
Lemma stands_phase s e x : stands s e x -> (exists p r, valid dims p /\ (r <> 0)%R /\ x p = Cmul (RtoC r) (fst e) /\ fst e <> C0) \/ (fst e = C0 /\ forall p, valid dims p -> x p = C0).
Proof.
  intros (f & [W D] & N & V). destruct N as [->|[Nw O]].
  - right. split; [rewrite W; reflexivity|]. intros p Hp. rewrite <- (V p Hp). apply ev_weight_0. reflexivity.
  - left. destruct (pivot_path _ _ O) as (p & r & Hp & Pr & Vp). assert (Hp' : valid dims (rev p)) by (rewrite <- (rev_involutive dims); apply valid_rev; exact Hp).
    exists (rev p), r. split; [exact Hp'|]. split; [lra|]. rewrite <- (V _ Hp'), rev_involutive. unfold ev. rewrite Vp, W. split; [ring|exact Nw].
Qed.
Lemma inner_phase xs z j k : holds xs z -> j < length xs -> k < length xs -> exists c z', step z (Inner j k) = Done (Number c, z') /\
  ((exists p, valid dims p /\ at_state xs k p <> C0 /\ Cmul c (Cconj (at_state xs k p)) = Cmul (overlap dims (at_state xs j) (at_state xs k)) (at_state xs k p)) \/
   ((forall p, valid dims p -> at_state xs k p = C0) /\ c = C0)).
Proof.
  intros H Hj Hk. destruct (holds_at dims uhash xs z j H Hj) as (e & E & _ & S). destruct (holds_at dims uhash xs z k H Hk) as (e' & E' & _ & S'). cbn [SessionModel.step]. rewrite E, E'. cbn [cbind].
  destruct (inner_stands dims ihash (mem z) e e' _ _ (ips z) (proj1 (proj2 H)) S S') as [T V]. pose proof (inner_zero dims ihash (mem z) e e' _ (ips z) S) as Z.
  destruct (inner 0 dims ihash (heaps (mem z) false) e e' (ips z)) as [c T']. cbn [fst snd] in *. eexists _, _. split; [reflexivity|].
  destruct (stands_phase _ _ _ S') as [(p & r & Hp & Nr & Vp & Nw)|[Zw Vz]].
  - left. exists p. split; [exact Hp|]. rewrite Vp. split; [apply Cmul_neq_0; [apply RtoC_neq_0; exact Nr|exact Nw]|]. rewrite Cconj_mul.
    replace (Cconj (RtoC r)) with (RtoC r) by (unfold Cconj, RtoC; cbn; rewrite Ropp_0; reflexivity).
    transitivity (Cmul (RtoC r) (Cmul c (Cconj (fst e')))); [ring|]. rewrite V. ring.
  - right. auto.
Qed.

(** ** equal states *)
Lemma same_edge xs z j k e e' : holds xs z -> j < length xs -> k < length xs -> nth_error (states z) j = Some e -> nth_error (states z) k = Some e' ->
  (e = e' <-> forall p, valid dims p -> at_state xs j p = at_state xs k p).
Proof.
  intros H Hj Hk Ee Ee'. destruct (holds_at dims uhash xs z j H Hj) as (e1 & _ & Q & (f & [W D] & N & V)). destruct (holds_at dims uhash xs z k H Hk) as (e2 & _ & Q' & (f' & [W' D'] & N' & V')).
  rewrite Ee in Q. rewrite Ee' in Q'. injection Q as <-. injection Q' as <-. split.
  - intros <- p Hp. rewrite <- (V p Hp), <- (V' p Hp). unfold ev. rewrite <- W, <- W', (den_fun _ _ _ _ D D'). reflexivity.
  - intros Eq. assert (Eq' : forall p, valid (rev dims) p -> ev f p = ev f' p).
    { intros p Hp. assert (Hp' : valid dims (rev p)) by (rewrite <- (rev_involutive dims); apply valid_rev; exact Hp). rewrite <- (rev_involutive p), (V _ Hp'), (V' _ Hp'). apply Eq. exact Hp'. }
    assert (F : f = f').
    { destruct N as [->|[Nw O]]; destruct N' as [->|[Nw' O']]; [reflexivity| | |].
      - exfalso. destruct (pivot_path _ _ O') as (p & r & Hp & Pr & Vp). specialize (Eq' p Hp). rewrite ev_weight_0 in Eq' by reflexivity. symmetry in Eq'. revert Eq'. unfold ev. rewrite Vp. apply Cmul_neq_0; [exact Nw'|apply RtoC_neq_0; lra].
      - exfalso. destruct (pivot_path _ _ O) as (p & r & Hp & Pr & Vp). specialize (Eq' p Hp). rewrite (ev_weight_0 zero_edge) in Eq' by reflexivity. revert Eq'. unfold ev. rewrite Vp. apply Cmul_neq_0; [exact Nw|apply RtoC_neq_0; lra].
      - destruct (canonical (rev dims) (snd f) (snd f') (Cdiv (fst f') (fst f)) O O') as [En Ec].
        + intros p Hp. specialize (Eq' p Hp). unfold ev in Eq'. apply (Cmul_cancel (fst f)); [exact Nw|]. rewrite Eq'.
          transitivity (Cmul (Cmul (fst f) (Cdiv (fst f') (fst f))) (val (snd f') p)); [|ring]. rewrite Cdiv_mul by exact Nw. reflexivity.
        + rewrite (surjective_pairing f), (surjective_pairing f'), En. f_equal. rewrite <- (Cdiv_mul (fst f') (fst f) Nw), Ec. ring. }
    subst f'. rewrite (surjective_pairing e), (surjective_pairing e'), W, W'. f_equal. apply (den_inj _ (hg_unique _ _ _ _ (sg_heap _ _ _ (proj1 H) false)) (snd f)); assumption.
Qed.

(** ** refused levels *)
Lemma make_vector_done v es s : exists e s', make_node 0 dims uhash false false v es s = Done (e, s').
Proof.
  unfold make_node. destruct (get_node (heaps s false)) as [a h1]. destruct (g_vnormalise ref None 0 false es) as [[w es']|]; [|eexists _, _; reflexivity].
  destruct (find _ _); eexists _, _; reflexivity.
Qed.
Lemma basis_refused levels : forall k u e s, (exists v, u <= v < u + k /\ (nth_error levels v = None \/ nth v dims 0 <= nth v levels 0)) ->
  basis_layers 0 dims uhash levels (seq u k) e s = Throw OutOfRange.
Proof.
  induction k as [|k IH]; intros u e s (v & Hv & B); [lia|]. cbn [seq basis_layers]. destruct (nth_error levels u) as [l|] eqn:El; [|reflexivity].
  destruct (Nat.ltb_spec l (nth u dims 0)) as [L|L]; [|reflexivity]. unfold bind. destruct (make_vector_done u (tab (nth u dims 0) (fun i => if Nat.eqb i l then e else zero_a)) s) as (e' & s' & ->).
  apply IH. exists v. split; [|exact B]. destruct (Nat.eq_dec u v) as [->|]; [|lia]. exfalso. destruct B as [B|B]; [congruence|]. rewrite (nth_error_nth _ _ 0 El) in B. lia.
Qed.

(** ** the number of nodes does not depend on the history *)
Lemma cover_length {A} (R P : A -> A -> Prop) : forall l l', ForallOrdPairs (fun a b => ~ P a b) l -> (forall a, In a l -> exists b, In b l' /\ R a b) ->
  (forall a a' b, In a l -> In a' l -> R a b -> R a' b -> P a a') -> length l <= length l'.
Proof.
  induction l as [|a l IH]; intros l' O C J; [cbn; lia|]. inversion O as [|? ? Oa Ol]; subst. destruct (C a (or_introl eq_refl)) as (b & Hb & Rab). apply in_split in Hb. destruct Hb as (u & w & ->).
  rewrite app_length. cbn [length]. enough (length l <= length (u ++ w)) by (rewrite app_length in *; lia). apply IH; [exact Ol| |intros; eapply J; try (right; eassumption); eassumption].
  intros a' Ha'. destruct (C a' (or_intror Ha')) as (b' & Hb' & R'). exists b'. split; [|exact R']. apply in_app_iff in Hb'. apply in_app_iff. destruct Hb' as [?|[<-|?]]; [auto| |auto].
  exfalso. apply (proj1 (Forall_forall _ _) Oa a' Ha'). apply (J a a' b); [left; reflexivity|right; exact Ha'|exact Rab|exact R'].
Qed.
Lemma alike_sym x q q' : alike dims x q q' -> alike dims x q' q.
Proof.
  intros [L (c & Nc & H)]. split; [congruence|]. exists (Cdiv C1 c). split; [intros Z; apply C1_neq_C0; rewrite <- (Cdiv_mul C1 c Nc), Z; ring|]. intros p Hp.
  rewrite H by (unfold below in *; rewrite L; exact Hp). transitivity (Cmul (Cmul c (Cdiv C1 c)) (sub_state x q' p)); [rewrite Cdiv_mul by exact Nc; ring|ring].
Qed.
Lemma alike_trans x q q' q'' : alike dims x q q' -> alike dims x q' q'' -> alike dims x q q''.
Proof.
  intros [L (c & Nc & H)] [L' (c' & Nc' & H')]. split; [congruence|]. exists (Cmul c c'). split; [apply Cmul_neq_0; assumption|]. intros p Hp.
  rewrite H by exact Hp. rewrite H' by (unfold below in *; rewrite <- L; exact Hp). ring.
Qed.
Notation proportional := (proportional dims).
Lemma above_valid q p : above dims q -> valid (below dims q) p -> valid dims (p ++ rev q).
Proof. intros [L V] Hp. rewrite <- (firstn_skipn (length dims - length q) dims). apply Forall2_app; [exact Hp|]. rewrite <- (rev_involutive (skipn _ dims)). apply valid_rev. rewrite <- firstn_rev. exact V. Qed.
Lemma proportional_alike x y q q' : proportional x y -> above dims q -> above dims q' -> alike dims x q q' -> alike dims y q q'.
Proof.
  intros (c & Nc & H) A A' [L (k & Nk & K)]. split; [exact L|]. exists k. split; [exact Nk|]. intros p Hp. specialize (K p Hp). unfold sub_state in *.
  rewrite H in K by (apply above_valid; assumption). rewrite H in K by (apply above_valid; [exact A'|unfold below in *; rewrite <- L; exact Hp]). apply (Cmul_cancel c); [exact Nc|]. rewrite K. ring.
Qed.
Lemma proportional_nonzero x y q : proportional x y -> above dims q -> nonzero dims x q -> nonzero dims y q.
Proof.
  intros (c & Nc & H) A (p & Hp & N). exists p. split; [exact Hp|]. intros Z. apply N. unfold sub_state in *. rewrite H by (apply above_valid; assumption). rewrite Z. ring.
Qed.
Lemma proportional_sym x y : proportional x y -> proportional y x.
Proof.
  intros (c & Nc & H). exists (Cdiv C1 c). split; [intros Z; apply C1_neq_C0; rewrite <- (Cdiv_mul C1 c Nc), Z; ring|]. intros p Hp. rewrite H by exact Hp.
  transitivity (Cmul (Cmul c (Cdiv C1 c)) (y p)); [rewrite Cdiv_mul by exact Nc; ring|ring].
Qed.
Lemma number_le x y n n' : proportional x y -> node_number dims x n -> node_number dims y n' -> n <= n'.
Proof.
  intros Pr (l & -> & Hl & Ol & _) (l' & -> & Hl' & _ & Cl). apply le_n_S. apply (cover_length (alike dims y) (alike dims x)); [exact Ol| |].
  - intros q Hq. destruct (Hl q Hq) as [A N]. apply Cl; [exact A|]. apply (proportional_nonzero x y); assumption.
  - intros q q' b Hq Hq' R R'. apply (proportional_alike y x); [apply proportional_sym, Pr|apply Hl, Hq|apply Hl, Hq'|]. eapply alike_trans; [exact R|]. apply alike_sym, R'.
Qed.
Lemma number_same x y n n' : proportional x y -> node_number dims x n -> node_number dims y n' -> n = n'.
Proof. intros P A B. apply Nat.le_antisymm; [apply (number_le x y)|apply (number_le y x)]; try assumption. apply proportional_sym, P. Qed.

(** ** single entries of a matrix *)
Lemma by_entry_zero h t : forall n e f amp q, n <= length dims -> dene h e f -> oke true t (sizes_below dims n) f -> valid (sizes_below dims n) q ->
  by_entry 0 h e amp (repeat 0 n) q = Done (Cmul (ev f (entry true (sizes_below dims n) (repeat 0 n) q)) amp).
Proof.
  assert (Zero : forall e f amp p q, dene h e f -> f = zero_edge -> by_entry 0 h e amp p q = Done C0).
  { intros e f amp p q [W D] ->. cbn in W, D. inversion D as [Er|]. destruct p; cbn [by_entry]; rewrite <- Er, W; f_equal; ring. }
  induction n as [|n IH]; intros e f amp q Hn D O Hq.
  - destruct O as [->|[Z O]]; [rewrite (Zero e zero_edge) by (exact D || reflexivity); rewrite ev_weight_0 by reflexivity; f_equal; ring|]. destruct D as [W D]. cbn in O. destruct (snd f) eqn:Ef; [|destruct O].
    inversion D as [Er|]. cbn [repeat by_entry]. rewrite <- Er. inversion Hq; subst. unfold ev. rewrite Ef, W. cbn [entry sizes_below firstn rev val]. f_equal. ring.
  - destruct O as [->|[Z O]]; [rewrite (Zero e zero_edge) by (exact D || reflexivity); rewrite ev_weight_0 by reflexivity; f_equal; ring|].
    destruct D as [W D]. destruct (ok_ref dims true t _ _ _ n D O ltac:(lia)) as (a & es & Ea & En & Ol & Fe & Va). rewrite sizes_S in * by lia. destruct q as [|j q]; [inversion Hq|]. apply valid_cons in Hq. destruct Hq as [Hj Hq].
    cbn [repeat by_entry entry]. rewrite Ea. cbn [Nat.mul Nat.add]. assert (Le : length (snd (cell h a)) = nth n dims 0 * nth n dims 0) by (rewrite (Forall2_len _ _ _ Fe); apply Ol).
    assert (Hj' : j < nth n dims 0 * nth n dims 0) by nia. rewrite (nth_error_nth' _ zero_a) by (rewrite Le; exact Hj'). change (nth j (snd (cell h a)) zero_a) with (at_a (snd (cell h a)) j).
    pose proof (denes_at h _ _ j Fe) as Dj. assert (Oj : oke true t (sizes_below dims n) (edge_at es j)) by (apply (okl_edge true t _ _ es j Ol); exact Hj').
    assert (Ev : ev f (j :: entry true (sizes_below dims n) (repeat 0 n) q) = Cmul (fst f) (ev (edge_at es j) (entry true (sizes_below dims n) (repeat 0 n) q))) by (rewrite (surjective_pairing f), En, ev_node; reflexivity).
    rewrite Ev. destruct (near_zero 0 (fst (at_a (snd (cell h a)) j))) eqn:Nz.
    + apply near_zero_spec in Nz. rewrite (proj1 Dj) in Nz. rewrite (ev_weight_0 (edge_at es j)) by exact Nz. f_equal. ring.
    + rewrite (IH _ (edge_at es j)) by (assumption || lia). f_equal. rewrite W. ring.
Qed.
Lemma by_entry_out h t n e f amp i rows cols : n < length dims -> dene h e f -> oke true t (sizes_below dims (S n)) f -> fst f <> C0 -> 1 <= i -> cols <> [] ->
  by_entry 0 h e amp (i :: rows) cols = Throw OutOfRange.
Proof.
  intros Hn [W D] O Nw Hi Nc. pose proof (oke_node _ _ _ _ O Nw) as On. destruct (ok_ref dims true t _ _ _ n D On Hn) as (a & es & Ea & En & Ol & Fe & Va). destruct cols as [|j cols]; [congruence|].
  cbn [by_entry]. rewrite Ea. assert (Le : nth_error (snd (cell h a)) (i * length (snd (cell h a)) + j) = None) by (apply nth_error_None; nia). rewrite Le. reflexivity.
Qed.
Lemma by_entry_other h t : forall n e f amp rows cols, n <= length dims -> dene h e f -> oke true t (sizes_below dims n) f -> valid (sizes_below dims n) rows -> valid (sizes_below dims n) cols ->
  rows <> repeat 0 n -> by_entry 0 h e amp rows cols = Throw OutOfRange \/ by_entry 0 h e amp rows cols = Done C0.
Proof.
  induction n as [|n IH]; intros e f amp rows cols Hn D O Hr Hc Nr; [inversion Hr; subst; destruct Nr; reflexivity|].
  destruct O as [->|[Z O]].
  - right. destruct D as [W D]. cbn in W, D. inversion D as [Er|]. destruct rows; cbn [by_entry]; rewrite <- Er, W; f_equal; ring.
  - destruct D as [W D]. destruct (ok_ref dims true t _ _ _ n D O ltac:(lia)) as (a & es & Ea & En & Ol & Fe & Va). rewrite sizes_S in * by lia.
    destruct rows as [|i rows]; [inversion Hr|]. destruct cols as [|j cols]; [inversion Hc|]. apply valid_cons in Hr. destruct Hr as [Hi Hr]. apply valid_cons in Hc. destruct Hc as [Hj Hc].
    cbn [by_entry]. rewrite Ea. assert (Le : length (snd (cell h a)) = nth n dims 0 * nth n dims 0) by (rewrite (Forall2_len _ _ _ Fe); apply Ol).
    destruct i as [|i].
    + cbn [Nat.mul Nat.add]. assert (Hj' : j < nth n dims 0 * nth n dims 0) by nia. rewrite (nth_error_nth' _ zero_a) by (rewrite Le; exact Hj'). destruct (near_zero 0 _); [right; reflexivity|].
      apply (IH _ (edge_at es j)); [lia|apply (denes_at h _ _ j Fe)|apply (okl_edge true t _ _ es j Ol); exact Hj'|exact Hr|exact Hc|]. intros E. apply Nr. cbn. rewrite E. reflexivity.
    + left. assert (Q : nth_error (snd (cell h a)) (S i * length (snd (cell h a)) + j) = None) by (apply nth_error_None; nia). rewrite Q. reflexivity.
Qed.
End More.
