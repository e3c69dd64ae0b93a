(** Sessions: the number of nodes. *)
From Coq Require Import List Arith Lia Reals Lra Bool Sorted.
From Verif Require Import Base.Cplx Base.Matrix Base.Radix Sim.TnModel Misim.DdModel Misim.DdSpec Misim.DdProofs Misim.DdGateProofs
  Misim.MisimModel Misim.NodeModel Misim.NodeSpec Misim.NodeShapeProofs Misim.NodeProofs Misim.ControlsProofs Misim.CanonProofs
  Misim.SessionModel Misim.SessionSpec Misim.SessionProofs Misim.SessionReadProofs.
Import ListNotations.
Local Open Scope nat_scope.

(** ** following the levels of the top registers *)
Fixpoint follow (e : edge) (q : list nat) : edge :=
  match q with
  | [] => e
  | i :: r => match snd e with Term => zero_edge | Node _ es => follow (Cmul (fst e) (fst (edge_at es i)), snd (edge_at es i)) r end
  end.
Lemma follow_zero q : forall e, fst e = C0 -> fst (follow e q) = C0.
Proof. induction q as [|i q IH]; intros e Z; [exact Z|]. cbn [follow]. destruct (snd e) as [|v es]; [reflexivity|]. apply IH. cbn [fst]. rewrite Z. ring. Qed.
Lemma follow_ev q : forall e p, ev e (q ++ p) = ev (follow e q) p.
Proof.
  induction q as [|i q IH]; intros e p; [reflexivity|]. cbn [app follow]. destruct (snd e) as [|v es] eqn:E.
  - unfold ev. rewrite E. cbn [val fst zero_edge]. ring.
  - rewrite <- IH. unfold ev. rewrite E. cbn [val fst snd]. change (nth i es (C0, Term)) with (edge_at es i). ring.
Qed.
Lemma follow_scale a q : forall e, fst e <> C0 -> fst (follow e q) <> C0 -> follow (Cmul a (fst e), snd e) q = (Cmul a (fst (follow e q)), snd (follow e q)).
Proof.
  induction q as [|i q IH]; intros e N F; cbn [follow fst snd] in *; [reflexivity|]. destruct (snd e) as [|v es]; [cbn in F; congruence|].
  set (e' := (Cmul (fst e) (fst (edge_at es i)), snd (edge_at es i))) in *. assert (N' : fst e' <> C0) by (intros Z; apply F, follow_zero, Z).
  rewrite <- (IH e' N' F). unfold e'. cbn [fst snd]. f_equal. f_equal. ring.
Qed.
Lemma follow_nf q : forall ds e, nfe ds e -> length q <= length ds -> valid (firstn (length q) ds) q -> fst (follow e q) <> C0 -> nf (skipn (length q) ds) (snd (follow e q)).
Proof.
  induction q as [|i q IH]; intros ds e N L V F; cbn [follow length skipn] in *.
  - apply (nfe_node ds e N F).
  - destruct ds as [|d r]; [cbn in L; lia|]. cbn [firstn skipn] in *. apply valid_cons in V. destruct V as [Hi V]. destruct (snd e) as [|v es] eqn:E; [cbn in F; congruence|].
    assert (Ne : fst e <> C0). { intros Z. apply F. apply follow_zero. cbn [fst]. rewrite Z. ring. }
    pose proof (nfe_node _ _ N Ne) as O. rewrite E in O. apply nf_cons in O. destruct O as (_ & _ & _ & O).
    apply IH; [|cbn in L; lia|exact V|exact F]. assert (Nc : fst (edge_at es i) <> C0). { intros Z. apply F. apply follow_zero. cbn [fst]. rewrite Z. ring. }
    right. split; [apply Cmul_neq_0; assumption|]. cbn [snd]. apply (nfe_node _ _ (O i Hi) Nc).
Qed.
Lemma follow_inside q : forall e, fst (follow e q) <> C0 -> inside (snd e) (snd (follow e q)).
Proof.
  induction q as [|i q IH]; intros e F; [constructor|]. cbn [follow] in *. destruct (snd e) as [|v es] eqn:E; [cbn in F; congruence|].
  assert (Nc : fst (edge_at es i) <> C0). { intros Z. apply F. apply follow_zero. cbn [fst]. rewrite Z. ring. }
  apply (inside_edge v es (edge_at es i)); [|apply (IH _ F)]. unfold edge_at, g_at in *. destruct (Nat.lt_ge_cases i (length es)) as [L|L]; [apply nth_In; exact L|].
  exfalso. apply Nc. unfold edge_at. rewrite nth_overflow by exact L. reflexivity.
Qed.
Lemma inside_term m : inside Term m -> m = Term.
Proof. intros H. inversion H. reflexivity. Qed.
Lemma inside_follow n m : inside n m -> forall ds, nf ds n -> m <> Term -> exists q, length q < length ds /\ valid (firstn (length q) ds) q /\ fst (follow (C1, n) q) <> C0 /\ snd (follow (C1, n) q) = m.
Proof.
  induction 1 as [n|v es e m He Hi IH]; intros ds O N.
  - exists []. destruct ds as [|d r]; [destruct n; [congruence|destruct O]|]. cbn. split; [lia|]. split; [constructor|]. split; [apply C1_neq_C0|reflexivity].
  - destruct ds as [|d r]; [destruct O|]. apply nf_cons in O. destruct O as (_ & L & _ & O). apply (In_nth _ _ zero_edge) in He. destruct He as (i & Hi' & <-).
    change (nth i es zero_edge) with (edge_at es i) in *. rewrite L in Hi'. destruct (O i Hi') as [E|[Nw Oe]].
    + rewrite E in Hi. cbn in Hi. apply inside_term in Hi. contradiction.
    + destruct (IH r Oe N) as (q & Lq & Vq & Fq & Sq). exists (i :: q). cbn [length firstn follow snd fst]. split; [lia|]. split; [apply valid_cons; auto|].
      replace (Cmul C1 (fst (edge_at es i)), snd (edge_at es i)) with (Cmul (fst (edge_at es i)) (fst (C1, snd (edge_at es i))), snd (C1, snd (edge_at es i))) by (cbn; f_equal; ring).
      rewrite (follow_scale (fst (edge_at es i)) q (C1, snd (edge_at es i)) C1_neq_C0 Fq). cbn [fst snd]. split; [apply Cmul_neq_0; assumption|exact Sq].
Qed.
Lemma nf_leaf : forall ds n, nf ds n -> inside n Term.
Proof.
  induction ds as [|d r IH]; intros [|v es] O; try (destruct O; fail); [constructor|]. apply nf_cons in O. destruct O as (_ & L & (_ & k & x & Hk & Wk & Px & _) & O). rewrite L in Hk.
  assert (Nw : fst (edge_at es k) <> C0) by (rewrite Wk; apply RtoC_neq_0; lra). apply (inside_edge v es (edge_at es k)).
  - unfold edge_at. apply nth_In. lia.
  - apply IH. apply (nfe_node _ _ (O k Hk) Nw).
Qed.

(** ** the number of the sub-diagrams is the number of the states below *)
Section Number.
Variable dims : list nat.
Variable f : edge.
Variable x : state.
Hypothesis f_nf : nfe (rev dims) f.
Hypothesis f_x : forall p, valid dims p -> ev f (rev p) = x p.

Lemma rev_below q : length q <= length dims -> rev (below dims q) = skipn (length q) (rev dims).
Proof. intros L. unfold below. rewrite skipn_rev. reflexivity. Qed.
Lemma sub_ev q p : above dims q -> valid (below dims q) p -> sub_state x q p = ev (follow f q) (rev p).
Proof.
  intros [L V] Hp. unfold sub_state. rewrite <- f_x.
  - rewrite rev_app_distr, rev_involutive. apply follow_ev.
  - rewrite <- (firstn_skipn (length dims - length q) dims). apply Forall2_app; [exact Hp|]. rewrite <- (rev_involutive (skipn _ dims)). apply valid_rev. rewrite <- firstn_rev. exact V.
Qed.
Lemma nonzero_iff q : above dims q -> (nonzero dims x q <-> fst (follow f q) <> C0).
Proof.
  intros A. split.
  - intros (p & Hp & N) Z. apply N. rewrite (sub_ev q p A Hp). apply ev_weight_0. exact Z.
  - intros F. pose proof (follow_nf q (rev dims) f f_nf) as O. destruct A as [L V]. rewrite rev_length in O. specialize (O ltac:(lia) V F).
    assert (K : forall ds n, nf ds n -> exists p, valid ds p /\ val n p <> C0).
    { induction ds as [|d r IH]; intros [|v es] H; try (destruct H; fail); [exists []; split; [constructor|apply C1_neq_C0]|].
      apply nf_cons in H. destruct H as (_ & Le & (_ & k & y & Hk & Wk & Px & _) & H). rewrite Le in Hk. assert (Nw : fst (edge_at es k) <> C0) by (rewrite Wk; apply RtoC_neq_0; lra).
      destruct (IH _ (nfe_node _ _ (H k Hk) Nw)) as (p & Hp & Np). exists (k :: p). split; [constructor; assumption|]. cbn [val]. change (nth k es (C0, Term)) with (edge_at es k). apply Cmul_neq_0; assumption. }
    destruct (K _ _ O) as (p & Hp & Np). exists (rev p). rewrite <- rev_below in Hp by lia.
    assert (Hp' : valid (below dims q) (rev p)) by (rewrite <- (rev_involutive (below dims q)); apply valid_rev; exact Hp). split; [exact Hp'|].
    rewrite (sub_ev q (rev p) (conj L V) Hp'), rev_involutive. apply Cmul_neq_0; assumption.
Qed.
Lemma alike_iff q q' : above dims q -> above dims q' -> fst (follow f q) <> C0 -> fst (follow f q') <> C0 -> (alike dims x q q' <-> snd (follow f q) = snd (follow f q')).
Proof.
  intros A A' F F'. pose proof A as [L V]. pose proof A' as [L' V']. assert (Lr : length (rev dims) = length dims) by apply rev_length.
  pose proof (follow_nf q (rev dims) f f_nf ltac:(lia) V F) as O. pose proof (follow_nf q' (rev dims) f f_nf ltac:(lia) V' F') as O'. split.
  - intros [E (c & Nc & H)]. rewrite <- E in O'. apply (canonical (skipn (length q) (rev dims)) _ _ (Cdiv (Cmul c (fst (follow f q'))) (fst (follow f q))) O O').
    intros p Hp. rewrite <- rev_below in Hp by lia. assert (Hp' : valid (below dims q) (rev p)) by (rewrite <- (rev_involutive (below dims q)); apply valid_rev; exact Hp).
    specialize (H (rev p) Hp'). rewrite (sub_ev q (rev p) A Hp') in H. assert (B : below dims q' = below dims q) by (unfold below; rewrite E; reflexivity).
    rewrite (sub_ev q' (rev p) A') in H by (rewrite B; exact Hp'). rewrite rev_involutive in H. unfold ev in H. apply (Cmul_cancel (fst (follow f q))); [exact F|]. rewrite H.
    transitivity (Cmul (Cmul (fst (follow f q)) (Cdiv (Cmul c (fst (follow f q'))) (fst (follow f q)))) (val (snd (follow f q')) p)); [|ring]. rewrite Cdiv_mul by exact F. ring.
  - intros E. assert (El : length q = length q'). { rewrite E in O. pose proof (nf_length _ _ _ O O') as Q. rewrite !skipn_length in Q. lia. }
    split; [exact El|]. exists (Cdiv (fst (follow f q)) (fst (follow f q'))). split.
    + intros Z. apply F. rewrite <- (Cdiv_mul (fst (follow f q)) (fst (follow f q')) F'), Z. ring.
    + intros p Hp. rewrite (sub_ev q p A Hp), (sub_ev q' p A') by (unfold below in *; rewrite <- El; exact Hp). unfold ev. rewrite E.
      transitivity (Cmul (Cmul (fst (follow f q')) (Cdiv (fst (follow f q)) (fst (follow f q')))) (val (snd (follow f q')) (rev p))); [|ring]. rewrite Cdiv_mul by exact F'. reflexivity.
Qed.
Lemma is_term (n : node) : {n = Term} + {n <> Term}. Proof. destruct n; [left; reflexivity|right; discriminate]. Qed.
Lemma drop_term (l : list node) : NoDup l -> In Term l -> exists l', NoDup l' /\ (forall m, In m l' <-> In m l /\ m <> Term) /\ length l = S (length l').
Proof.
  intros D I. apply in_split in I. destruct I as (a & b & ->). exists (a ++ b). pose proof (NoDup_remove_1 _ _ _ D) as D1. pose proof (NoDup_remove_2 _ _ _ D) as D2.
  split; [exact D1|]. split; [|rewrite !app_length; cbn; lia]. intros m. rewrite !in_app_iff. cbn [In]. split.
  - intros H. split; [tauto|]. intros ->. apply D2. apply in_app_iff. exact H.
  - intros [[H|[H|H]] N]; [auto|congruence|auto].
Qed.
Lemma number_ok l : NoDup l -> (forall m, In m l <-> inside (snd f) m) -> node_number dims x (length l).
Proof.
  intros D H. assert (It : In Term l). { apply H. destruct f_nf as [E|[N O]]; [rewrite E; constructor|apply (nf_leaf _ _ O)]. }
  destruct (drop_term l D It) as (l' & D' & H' & ->).
  assert (C : forall ns, (forall m, In m ns -> In m l') -> exists qs, Forall2 (fun m q => above dims q /\ fst (follow f q) <> C0 /\ snd (follow f q) = m) ns qs).
  { induction ns as [|m ns IH]; intros Hm; [exists []; constructor|]. destruct IH as [qs F]; [intros; apply Hm; right; assumption|].
    destruct (proj1 (H' m) (Hm m (or_introl eq_refl))) as [I N]. apply H in I. destruct f_nf as [E|[Nw O]]; [exfalso; apply N; rewrite E in I; apply inside_term; exact I|].
    destruct (inside_follow _ _ I _ O N) as (q & Lq & Vq & Fq & Sq). rewrite rev_length in Lq. exists (q :: qs). constructor; [|exact F]. split; [split; assumption|].
    pose proof (follow_scale (fst f) q (C1, snd f) C1_neq_C0 Fq) as S. cbn [fst snd] in S. replace (Cmul (fst f) C1, snd f) with f in S by (destruct f; cbn; f_equal; ring).
    rewrite S. cbn [fst snd]. split; [apply Cmul_neq_0; assumption|exact Sq]. }
  destruct (C l' (fun m Hm => Hm)) as [qs F]. exists qs. split; [rewrite (Forall2_len _ _ _ F); reflexivity|]. split; [|split].
  - intros q Hq. clear -F Hq f_nf f_x. induction F as [|m q' ns qs (A & Fq & _) F IH]; [destruct Hq|]. destruct Hq as [<-|Hq]; [split; [exact A|apply nonzero_iff; assumption]|apply IH; exact Hq].
  - clear -F D' f_nf f_x. induction F as [|m q ns qs (A & Fq & Sq) F IH]; [constructor|]. inversion D' as [|? ? D1 D2]; subst. constructor; [|apply IH; exact D2].
    apply Forall_forall. intros q' Hq' Al. assert (K : exists m, In m ns /\ above dims q' /\ fst (follow f q') <> C0 /\ snd (follow f q') = m).
    { clear -F Hq'. induction F as [|m q0 ns qs P F IH]; [destruct Hq'|]. destruct Hq' as [<-|Hq']; [exists m; split; [left; reflexivity|exact P]|]. destruct (IH Hq') as (m' & Hm & P'). exists m'. split; [right; exact Hm|exact P']. }
    destruct K as (m' & Hm & A' & Fq' & Sq'). apply (proj1 (alike_iff q q' A A' Fq Fq')) in Al. rewrite Al, Sq' in D1. contradiction.
  - intros q A Nz. apply (nonzero_iff q A) in Nz. pose proof (follow_inside q f Nz) as I. apply H in I.
    assert (N : snd (follow f q) <> Term). { pose proof A as [L V]. pose proof (follow_nf q (rev dims) f f_nf) as O. rewrite rev_length in O. specialize (O ltac:(lia) V Nz). intros E. rewrite E in O.
      destruct (skipn (length q) (rev dims)) as [|d r] eqn:Es; [|destruct O]. apply (f_equal (@length nat)) in Es. rewrite skipn_length, rev_length in Es. cbn in Es. lia. }
    assert (I' : In (snd (follow f q)) l') by (apply H'; auto).
    assert (K : exists q', In q' qs /\ above dims q' /\ fst (follow f q') <> C0 /\ snd (follow f q') = snd (follow f q)).
    { clear -F I'. induction F as [|m q0 ns qs P F IH]; [destruct I'|]. destruct I' as [->|I']; [exists q0; split; [left; reflexivity|exact P]|]. destruct (IH I') as (q' & Hq & P'). exists q'. split; [right; exact Hq|exact P']. }
    destruct K as (q' & Hq & A' & F' & S'). exists q'. split; [exact Hq|]. apply alike_iff; auto.
Qed.
End Number.

(** ** the walk through the nodes *)
Inductive reach (h : heap) : ref -> ref -> Prop :=
  | reach_refl r : reach h r r
  | reach_edge a e r : In e (snd (cell h a)) -> reach h (snd e) r -> reach h (Some a) r.
Lemma reach_step h r a e : reach h r (Some a) -> In e (snd (cell h a)) -> reach h r (snd e).
Proof.
  intros H. remember (Some a) as x eqn:Ex. revert a Ex. induction H as [r|b e' r He H IH]; intros a Ex I.
  - subst r. apply (reach_edge h a e); [exact I|constructor].
  - apply (reach_edge h b e'); [exact He|]. apply (IH a Ex I).
Qed.
Lemma den_child h a fs : den h (Some a) (Node (fst (cell h a)) fs) -> Forall2 (fun e f => fst e = fst f /\ den h (snd e) (snd f)) (snd (cell h a)) fs.
Proof. intros H. inversion H. assumption. Qed.
Lemma F2_left {A B} (R : A -> B -> Prop) l l' x : Forall2 R l l' -> In x l -> exists y, In y l' /\ R x y.
Proof. induction 1 as [|a b l l' P F IH]; [intros []|]. intros [<-|I]; [exists b; split; [left; reflexivity|exact P]|]. destruct (IH I) as (y & Hy & Q). exists y. split; [right; exact Hy|exact Q]. Qed.
Lemma F2_right {A B} (R : A -> B -> Prop) l l' y : Forall2 R l l' -> In y l' -> exists x, In x l /\ R x y.
Proof. induction 1 as [|a b l l' P F IH]; [intros []|]. intros [<-|I]; [exists a; split; [left; reflexivity|exact P]|]. destruct (IH I) as (x & Hx & Q). exists x. split; [right; exact Hx|exact Q]. Qed.
Lemma reach_inside h r r' : reach h r r' -> forall n, den h r n -> exists m, den h r' m /\ inside n m.
Proof.
  induction 1 as [r|a e r He H IH]; intros n D; [exists n; split; [exact D|constructor]|]. inversion D as [|a' fs T F]; subst. destruct (F2_left _ _ _ _ F He) as (g & Hg & W & Dg).
  destruct (IH _ Dg) as (m & Dm & I). exists m. split; [exact Dm|]. apply (inside_edge _ fs g); assumption.
Qed.
Lemma inside_reach h n m : inside n m -> forall r, den h r n -> exists r', reach h r r' /\ den h r' m.
Proof.
  induction 1 as [n|v es g m Hg H IH]; intros r D; [exists r; split; [constructor|exact D]|]. inversion D as [|a fs T F]; subst. destruct (F2_right _ _ _ _ F Hg) as (e & He & W & De).
  destruct (IH _ De) as (r' & R & D'). exists r'. split; [apply (reach_edge h a e); assumption|exact D'].
Qed.

Section Walk.
Variable dims : list nat.
Variable h : heap.
Notation sizes := (sizes_below dims).
Definition fit (n : nat) (r : ref) : Prop := exists t, den h r t /\ (t = Term \/ nf (sizes n) t).
Definition closed (w : list ref) (y : ref) : Prop := forall a e, y = Some a -> In e (snd (cell h a)) -> In (snd e) w.
Lemma closed_mono w w' y : incl w w' -> closed w y -> closed w' y.
Proof. intros I H a e E He. apply I. apply (H a e E He). Qed.
Lemma visited_spec v r : visited v r = true <-> In r v.
Proof.
  unfold visited. rewrite existsb_exists. split; [intros (y & Hy & E); apply ref_eqb_spec in E; subst; exact Hy|]. intros H. exists r. split; [exact H|]. apply ref_eqb_spec. reflexivity.
Qed.
Lemma visited_false v r : visited v r = false <-> ~ In r v.
Proof. rewrite <- visited_spec. destruct (visited v r); split; congruence. Qed.
Lemma fit_child n a e : fit (S n) (Some a) -> n < length dims -> In e (snd (cell h a)) -> fit n (snd e).
Proof.
  intros (t & D & [->|O]) Hn He; [inversion D|]. destruct (nf_ref dims h _ _ n D O Hn) as (a' & es & Ea & _ & L & Ne & F & _). injection Ea as <-.
  destruct (F2_left _ _ _ _ F He) as (g & Hg & W & Dg). exists (snd g). split; [exact Dg|]. apply (In_nth _ _ zero_edge) in Hg. destruct Hg as (i & Hi & <-). rewrite L in Hi.
  destruct (Ne i Hi) as [E|[_ O']]; [left; change (nth i es zero_edge) with (edge_at es i); rewrite E; reflexivity|right; exact O'].
Qed.
Lemma count_ok : forall n r v, n <= length dims -> fit n r -> ~ In r v -> NoDup v ->
  let res := node_count h n r v in
  incl v (snd res) /\ NoDup (snd res) /\ In r (snd res) /\ fst res + length v = length (snd res) /\
  forall y, In y (snd res) -> In y v \/ (reach h r y /\ closed (snd res) y).
Proof.
  assert (Base : forall r v, ~ In r v -> visit v r = r :: v) by (intros r v N; unfold visit; rewrite (proj2 (visited_false v r) N); reflexivity).
  assert (Leaf : forall v, ~ In (None : ref) v -> NoDup v -> incl v (None :: v) /\ NoDup (None :: v) /\ In None (None :: v) /\ 1 + length v = length (None :: v) /\
    forall y, In y (None :: v) -> In y v \/ (reach h None y /\ closed (None :: v) y)).
  { intros v N D. split; [intros y Hy; right; exact Hy|]. split; [constructor; assumption|]. split; [left; reflexivity|]. split; [reflexivity|]. intros y [<-|Hy]; [right; split; [constructor|]|left; exact Hy].
    intros a e E. discriminate. }
  induction n as [|n IH]; intros [a|] v Hn Ft N D; cbn [node_count]; rewrite (Base _ _ N); cbn [fst snd]; try (apply Leaf; assumption).
  - exfalso. destruct Ft as (t & Dt & [->|O]); [inversion Dt|]. destruct t; [inversion Dt|destruct O].
  - set (step := fun (acc : nat * list ref) (e : aedge) => _).
    assert (K : forall (es : list aedge) (acc : nat * list ref), (forall e, In e es -> In e (snd (cell h a))) -> incl (Some a :: v) (snd acc) -> NoDup (snd acc) -> fst acc + length v = length (snd acc) ->
      (forall y, In y (snd acc) -> In y (Some a :: v) \/ (reach h (Some a) y /\ closed (snd acc) y)) ->
      let res := fold_left step es acc in incl (snd acc) (snd res) /\ NoDup (snd res) /\ fst res + length v = length (snd res) /\ (forall e, In e es -> In (snd e) (snd res)) /\
      (forall y, In y (snd res) -> In y (Some a :: v) \/ (reach h (Some a) y /\ closed (snd res) y))).
    { induction es as [|e es IHe]; intros acc He I Dn L P; cbn [fold_left]; [split; [apply incl_refl|]; split; [exact Dn|]; split; [exact L|]; split; [intros e []|exact P]|].
      assert (Q : incl (snd acc) (snd (step acc e)) /\ NoDup (snd (step acc e)) /\ fst (step acc e) + length v = length (snd (step acc e)) /\ In (snd e) (snd (step acc e)) /\
        forall y, In y (snd (step acc e)) -> In y (Some a :: v) \/ (reach h (Some a) y /\ closed (snd (step acc e)) y)).
      { unfold step. destruct (visited (snd acc) (snd e)) eqn:Vi.
        - apply visited_spec in Vi. split; [apply incl_refl|]. auto.
        - apply visited_false in Vi. assert (Ie : In e (snd (cell h a))) by (apply He; left; reflexivity).
          destruct (IH (snd e) (snd acc) ltac:(lia) (fit_child n a e Ft ltac:(lia) Ie) Vi Dn) as (I1 & D1 & R1 & L1 & P1).
          destruct (node_count h n (snd e) (snd acc)) as [k w]. cbn [fst snd] in *. split; [exact I1|]. split; [exact D1|]. split; [lia|]. split; [exact R1|].
          intros y Hy. destruct (P1 y Hy) as [Y|[Ry Cy]].
          + destruct (P y Y) as [Z|[Ra Ca]]; [left; exact Z|right]. split; [exact Ra|]. apply (closed_mono (snd acc)); assumption.
          + right. split; [|exact Cy]. apply (reach_edge h a e); assumption. }
      destruct Q as (I1 & D1 & L1 & R1 & P1). destruct (IHe (step acc e)) as (I2 & D2 & L2 & R2 & P2).
      - intros e' He'. apply He. right. exact He'.
      - intros y Hy. apply I1. apply I. exact Hy.
      - exact D1.
      - exact L1.
      - exact P1.
      - split; [intros y Hy; apply I2; apply I1; exact Hy|]. split; [exact D2|]. split; [exact L2|]. split; [|exact P2]. intros e' [<-|He']; [apply I2; exact R1|apply R2; exact He']. }
    destruct (K (snd (cell h a)) (1, Some a :: v)) as (I2 & D2 & L2 & R2 & P2); cbn [fst snd].
    + intros e He. exact He.
    + apply incl_refl.
    + constructor; assumption.
    + cbn. lia.
    + intros y Hy. left. exact Hy.
    + cbv zeta in *. cbn [fst snd] in *. split; [intros y Hy; apply I2; right; exact Hy|]. split; [exact D2|]. split; [apply I2; left; reflexivity|]. split; [exact L2|].
      intros y Hy. destruct (P2 y Hy) as [[<-|Z]|Z]; [right; split; [constructor|]|left; exact Z|right; exact Z]. intros a' e [= <-] He. apply R2. exact He.
Qed.
Lemma count_nodes r t : unique h -> den h r t -> (t = Term \/ nf (sizes (length dims)) t) ->
  exists l, NoDup l /\ (forall m, In m l <-> inside t m) /\ fst (node_count h (length dims) r []) = length l.
Proof.
  intros U D O. destruct (count_ok (length dims) r [] (le_n _) (ex_intro _ t (conj D O)) (fun F => F) (NoDup_nil _)) as (_ & Dn & Ir & L & P). set (w := snd (node_count h (length dims) r [])) in *.
  assert (Re : forall y, In y w <-> reach h r y).
  { intros y. split; [intros Hy; destruct (P y Hy) as [[]|[R _]]; exact R|]. intros R. assert (K : forall x, In x w -> reach h x y -> In y w); [|apply (K r Ir R)].
    clear -P. intros x Hx R. induction R as [x|a e x He R IH]; [exact Hx|]. apply IH. destruct (P _ Hx) as [[]|[_ C]]. apply (C a e eq_refl He). }
  assert (C : forall ys, incl ys w -> exists ns, Forall2 (fun y m => den h y m /\ inside t m) ys ns).
  { induction ys as [|y ys IH]; intros I; [exists []; constructor|]. destruct IH as [ns F]; [intros z Hz; apply I; right; exact Hz|].
    destruct (reach_inside h r y (proj1 (Re y) (I y (or_introl eq_refl))) t D) as (m & Dm & Im). exists (m :: ns). constructor; auto. }
  destruct (C w (incl_refl w)) as [ns F]. exists ns. split; [|split].
  - clear -Dn F U. revert Dn. induction F as [|y m ys ns [Dm _] F IH]; intros Dn; [constructor|]. inversion Dn as [|? ? D1 D2]; subst. constructor; [|apply IH; exact D2].
    intros I. apply D1. destruct (F2_right _ _ _ _ F I) as (y' & Hy' & Dm' & _). rewrite (den_inj h U m y y' Dm Dm'). exact Hy'.
  - intros m. split; [intros I; destruct (F2_right _ _ _ _ F I) as (y & _ & _ & Q); exact Q|]. intros I. destruct (inside_reach h t m I r D) as (y & R & Dm).
    destruct (F2_left _ _ _ _ F (proj2 (Re y) R)) as (m' & Im & Dm' & _). rewrite (den_fun h m m' y Dm Dm'). exact Im.
  - rewrite <- (Forall2_len _ _ _ F). cbn [length] in L. lia.
Qed.
End Walk.
