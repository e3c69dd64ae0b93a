(** Which edges of the diagrams of a simulation are zero. *)
From Coq Require Import List Arith Lia Reals Lra Bool.
From Verif Require Import Base.Cplx Base.Matrix Base.Radix Misim.DdModel Misim.DdSpec Misim.DdProofs Misim.DdGateProofs.
Import ListNotations.
Local Open Scope nat_scope.

(** A diagram over the registers [ds] whose edges of weight 0 go to the terminal; if it is a matrix it is diagonal on
    every register but [t]. *)
Fixpoint okn (m : bool) (t : nat) (ds : list nat) (n : node) : Prop :=
  match ds, n with
  | [], Term => True
  | d :: r, Node v es => v = length r /\ length es = d * cols m d /\
      forall i, i < d * cols m d -> edge_at es i = zero_edge \/
        (fst (edge_at es i) <> C0 /\ (m = true -> i / d = i mod d \/ length r = t) /\ okn m t r (snd (edge_at es i)))
  | _, _ => False
  end.
Definition oke (m : bool) (t : nat) (ds : list nat) (e : edge) : Prop := e = zero_edge \/ (fst e <> C0 /\ okn m t ds (snd e)).
Definition okl (m : bool) (t d : nat) (r : list nat) (es : list edge) : Prop := length es = d * cols m d /\
  forall i, i < d * cols m d -> edge_at es i = zero_edge \/
    (fst (edge_at es i) <> C0 /\ (m = true -> i / d = i mod d \/ length r = t) /\ okn m t r (snd (edge_at es i))).
Lemma okn_cons m t d r v es : okn m t (d :: r) (Node v es) <-> v = length r /\ okl m t d r es.
Proof. unfold okl. cbn [okn]. tauto. Qed.
Lemma okl_edge m t d r es i : okl m t d r es -> i < d * cols m d -> oke m t r (edge_at es i).
Proof. intros [_ H] Hi. destruct (H i Hi) as [E|(A & _ & B)]; [left; exact E|right; auto]. Qed.
Lemma oke_zero m t ds : oke m t ds zero_edge. Proof. left. reflexivity. Qed.
Lemma oke_fst m t ds e : oke m t ds e -> fst e = C0 -> e = zero_edge.
Proof. intros [E|[N _]] Z; [exact E|contradiction]. Qed.
Lemma oke_node m t ds e : oke m t ds e -> fst e <> C0 -> okn m t ds (snd e).
Proof. intros [->|[_ H]] N; [contradiction N; reflexivity|exact H]. Qed.

Definition kept (e f : edge) : Prop := (e = zero_edge /\ f = zero_edge) \/ (fst e <> C0 /\ fst f <> C0 /\ snd f = snd e).
Definition tidy (es : list edge) : Prop := forall i, i < length es -> fst (edge_at es i) = C0 -> edge_at es i = zero_edge.
Lemma okl_tidy m t d r es : okl m t d r es -> tidy es.
Proof. intros H i Hi Z. apply (oke_fst m t r); [|exact Z]. apply (okl_edge m t d); [exact H|]. destruct H as [L _]. lia. Qed.
Lemma Cdiv_neq_0 x y : x <> C0 -> y <> C0 -> Cdiv x y <> C0.
Proof. intros X Y E. apply X. rewrite <- (Cdiv_mul x y Y), E. ring. Qed.

Lemma vnormalise_kept cached es : tidy es ->
  match vnormalise 0 cached es with None => True | Some (w, fs) => w <> C0 /\ length fs = length es /\ forall i, i < length es -> kept (edge_at es i) (edge_at fs i) end.
Proof.
  intros Ti. unfold vnormalise. set (f := fun i => negb (near_zero 0 (fst (edge_at es i)))).
  assert (Hf : forall i, f i = true <-> fst (edge_at es i) <> C0).
  { intros i. unfold f. rewrite negb_true_iff. apply near_zero_false. }
  set (cs := clear 0 cached es). assert (Lc : length cs = length es) by apply clear_length.
  assert (Ec : forall i, i < length es -> edge_at cs i = edge_at es i).
  { intros i Hi. destruct (clear_at cached es i) as [A B]. destruct (is_zero (fst (edge_at es i))) eqn:Z; [|apply B, is_zero_false, Z].
    apply is_zero_spec in Z. pose proof (Ti i Hi Z) as E. unfold cs, clear. destruct cached; [|reflexivity].
    unfold edge_at in *. set (g := fun e : edge => if near_zero 0 (fst e) then zero_edge else e).
    rewrite (nth_indep _ zero_edge (g zero_edge)) by (rewrite map_length; exact Hi). rewrite map_nth. unfold g. rewrite E. destruct (near_zero 0 _); reflexivity. }
  destruct (filter f (seq 0 (length es))) as [|k [|k' rest]] eqn:E; [exact I| |].
  - assert (Hk : In k (filter f (seq 0 (length es)))) by (rewrite E; left; reflexivity).
    apply filter_In in Hk. destruct Hk as [Hk1 Hk2]. apply in_seq in Hk1. apply Hf in Hk2.
    rewrite (Ec k) by lia. split; [exact Hk2|]. rewrite Lc. split; [apply tab_length|]. intros i Hi. rewrite edge_at_tab by exact Hi.
    destruct (Nat.eqb_spec i k) as [->|N].
    + right. rewrite Ec by lia. split; [exact Hk2|]. split; [|reflexivity]. cbn. intros Q. injection Q. intros. lra.
    + left. assert (Z : fst (edge_at es i) = C0).
      { destruct (is_zero (fst (edge_at es i))) eqn:Z; [apply is_zero_spec; exact Z|]. apply is_zero_false in Z.
        assert (I : In i (filter f (seq 0 (length es)))) by (apply filter_In; split; [apply in_seq; lia|apply Hf; exact Z]).
        rewrite E in I. destruct I as [I|[]]. congruence. }
      rewrite Ec by lia. split; apply Ti; assumption.
  - destruct (filter_two f _ _ _ _ E (seq_NoDup _ _)) as (A1 & B1 & A2 & B2 & AB). apply in_seq in A1, B1. apply Hf in A2, B2.
    set (p := vpivot 0 cs). assert (Nn : cs <> []) by (intros Q; rewrite Q in Lc; cbn in Lc; lia).
    destruct (vpivot_max cs Nn) as [P1 P2]. fold p in P1, P2.
    assert (P3 : (0 < mag2 cs p)%R).
    { pose proof (P2 k ltac:(lia)) as Q. pose proof (mag2_nonneg cs k). destruct (Req_dec (mag2 cs k) 0) as [Z|Z]; [|lra].
      apply mag2_0 in Z. rewrite Ec in Z by lia. contradiction. }
    assert (P4 : fst (edge_at cs p) <> C0) by (intros Z; apply mag2_0 in Z; lra).
    set (mm := sqrt (mag2 cs p)). assert (Hmm : (0 < mm)%R) by (apply sqrt_lt_R0; exact P3).
    set (nm := sqrt (sum_mag2 (length cs) cs)). assert (Hnm : (0 < nm)%R) by (apply sqrt_lt_R0; pose proof (sum_mag2_ge (length cs) cs p P1); lra).
    set (w := fst (edge_at cs p)) in *.
    assert (Q0 : (nm / mm)%R <> 0%R) by (unfold Rdiv; apply Rmult_integral_contrapositive_currified; [lra|apply Rinv_neq_0_compat; lra]).
    assert (Q1 : (mm / nm)%R <> 0%R) by (unfold Rdiv; apply Rmult_integral_contrapositive_currified; [lra|apply Rinv_neq_0_compat; lra]).
    set (top := if cached && negb (is_one w) then Cmul w (RtoC (nm / mm)) else RtoC (nm / mm)).
    assert (T0 : top <> C0) by (unfold top; destruct (cached && negb (is_one w)); [apply Cmul_neq_0; [exact P4|]|]; apply RtoC_neq_0; exact Q0).
    replace (near_zero 0 top) with false by (symmetry; apply near_zero_false; exact T0). rewrite andb_false_r.
    split; [exact T0|]. rewrite Lc in *. split; [apply tab_length|]. intros i Hi. rewrite edge_at_tab by exact Hi.
    destruct (Nat.eqb_spec i p) as [->|N].
    + replace (is_zero (RtoC (mm / nm))) with false by (symmetry; apply is_zero_false, RtoC_neq_0, Q1). right. rewrite <- Ec by lia. split; [exact P4|]. split; [apply RtoC_neq_0, Q1|reflexivity].
    + rewrite Ec by lia. destruct (is_zero (fst (edge_at es i))) eqn:Z.
      * apply is_zero_spec in Z. rewrite Z, Cdiv_0. replace (is_zero C0) with true by (symmetry; apply is_zero_spec; reflexivity). left. split; [apply Ti; assumption|reflexivity].
      * apply is_zero_false in Z. replace (is_zero (Cdiv (fst (edge_at es i)) top)) with false by (symmetry; apply is_zero_false, Cdiv_neq_0; assumption).
        right. split; [exact Z|]. split; [apply Cdiv_neq_0; assumption|reflexivity].
Qed.

Lemma mnormalise_kept cached es : tidy es ->
  match mnormalise 0 cached es with None => True | Some (w, fs) => w <> C0 /\ length fs = length es /\ forall i, i < length es -> kept (edge_at es i) (edge_at fs i) end.
Proof.
  intros Ti. unfold mnormalise. set (cs := clear 0 cached es). assert (Lc : length cs = length es) by apply clear_length.
  assert (Ec : forall i, i < length es -> edge_at cs i = edge_at es i).
  { intros i Hi. destruct (clear_at cached es i) as [A B]. destruct (is_zero (fst (edge_at es i))) eqn:Z; [|apply B, is_zero_false, Z].
    apply is_zero_spec in Z. pose proof (Ti i Hi Z) as E. unfold cs, clear. destruct cached; [|reflexivity].
    unfold edge_at in *. set (g := fun e : edge => if near_zero 0 (fst e) then zero_edge else e).
    rewrite (nth_indep _ zero_edge (g zero_edge)) by (rewrite map_length; exact Hi). rewrite map_nth. unfold g. rewrite E. destruct (near_zero 0 _); reflexivity. }
  pose proof (mpivot_ok cs) as P. destruct (mpivot 0 cs) as [k|]; [|exact I]. destruct P as [P1 P2]. set (w := fst (edge_at cs k)) in *.
  split; [exact P2|]. rewrite Lc in *. split; [apply tab_length|]. intros i Hi. rewrite edge_at_tab by exact Hi.
  assert (Nr : (if near 0 (fst (edge_at cs i)) C1 then C1 else fst (edge_at cs i)) = fst (edge_at cs i)).
  { destruct (near 0 (fst (edge_at cs i)) C1) eqn:E; [|reflexivity]. apply near_spec in E. congruence. }
  rewrite Nr. destruct (Nat.eqb_spec i k) as [->|N].
  - right. rewrite Ec by lia. rewrite <- Ec by lia. split; [exact P2|]. split; [|reflexivity]. cbn. intros Q. injection Q. intros. lra.
  - rewrite Ec by lia. destruct (is_zero (fst (edge_at es i))) eqn:Z.
    + apply is_zero_spec in Z. pose proof (Ti i Hi Z) as E. left. split; [exact E|]. rewrite E. unfold zero_edge. cbn [fst snd]. rewrite Cdiv_0. reflexivity.
    + apply is_zero_false in Z. right. split; [exact Z|]. split; [apply Cdiv_neq_0; assumption|reflexivity].
Qed.

Lemma kept_okl m t d r es fs : okl m t d r es -> length fs = length es -> (forall i, i < length es -> kept (edge_at es i) (edge_at fs i)) -> okl m t d r fs.
Proof.
  intros [L H] Lf K. split; [lia|]. intros i Hi. destruct (K i ltac:(lia)) as [[_ E]|(A & B & E)]; [left; exact E|].
  destruct (H i Hi) as [Z|(_ & D & O)]; [rewrite Z in A; contradiction A; reflexivity|]. right. rewrite E. auto.
Qed.
Lemma make_shape m cached t d r es : okl m t d r es ->
  match (if m then mnormalise 0 cached es else vnormalise 0 cached es) with None => True | Some (w, fs) => w <> C0 /\ okl m t d r fs end.
Proof.
  intros H. pose proof (okl_tidy m t d r es H) as Ti.
  pose proof (mnormalise_kept cached es Ti) as A. pose proof (vnormalise_kept cached es Ti) as B.
  destruct m; [destruct (mnormalise 0 cached es) as [[w fs]|]|destruct (vnormalise 0 cached es) as [[w fs]|]]; try exact I;
    [destruct A as (W & L & K)|destruct B as (W & L & K)]; (split; [exact W|eapply kept_okl; eassumption]).
Qed.
Lemma make_oke m cached t d r es : okl m t d r es -> oke m t (d :: r) (make 0 m cached (length r) es).
Proof.
  intros H. pose proof (make_shape m cached t d r es H) as K. unfold make.
  destruct (if m then mnormalise 0 cached es else vnormalise 0 cached es) as [[w fs]|]; [|apply oke_zero].
  destruct K as [W K]. right. split; [exact W|]. apply okn_cons. auto.
Qed.
Lemma make_zero m cached v es : fst (make 0 m cached v es) = C0 -> tidy es -> make 0 m cached v es = zero_edge.
Proof.
  intros Z Ti. unfold make in *. pose proof (mnormalise_kept cached es Ti) as A. pose proof (vnormalise_kept cached es Ti) as B.
  destruct m; [destruct (mnormalise 0 cached es) as [[w fs]|]|destruct (vnormalise 0 cached es) as [[w fs]|]]; try reflexivity; cbn in Z; [destruct A|destruct B]; contradiction.
Qed.

Lemma is_zero_0 : is_zero (fst zero_edge) = true. Proof. apply is_zero_spec. reflexivity. Qed.
Section Ops.
Variable same : node -> node -> bool.
Lemma add2_zero_l m n y : add2 0 same m n zero_edge y = y.
Proof. destruct n; cbn [add2]; rewrite is_zero_0; reflexivity. Qed.
Lemma multiply2_zero_l m ds y : multiply2 0 same m ds zero_edge y = zero_edge.
Proof. destruct ds; cbn [multiply2]; rewrite is_zero_0; reflexivity. Qed.
Lemma multiply2_zero_r m ds x : multiply2 0 same m ds x zero_edge = zero_edge.
Proof. destruct ds; cbn [multiply2]; rewrite is_zero_0, orb_true_r; reflexivity. Qed.

Lemma scaled_oke m t ds (e x : edge) : oke m t ds e -> fst x <> C0 -> oke m t ds (if is_zero (fst e) then e else (Cmul (fst e) (fst x), snd e)).
Proof.
  intros [->|[N O]] X; [replace (is_zero (fst zero_edge)) with true by (symmetry; apply is_zero_spec; reflexivity); left; reflexivity|].
  replace (is_zero (fst e)) with false by (symmetry; apply is_zero_false; exact N). right. split; [apply Cmul_neq_0; assumption|exact O].
Qed.
Lemma okl_tab m t d r f : (forall i, i < d * cols m d -> f i = zero_edge \/ ((m = true -> i / d = i mod d \/ length r = t) /\ oke m t r (f i))) -> okl m t d r (tab (d * cols m d) f).
Proof.
  intros H. split; [apply tab_length|]. intros i Hi. rewrite edge_at_tab by exact Hi. destruct (H i Hi) as [E|[D [E|[N O]]]]; [left; exact E|left; exact E|right; auto].
Qed.
Lemma add2_oke m t : forall ds x y, oke m t ds x -> oke m t ds y -> oke m t ds (add2 0 same m (length ds) x y).
Proof.
  induction ds as [|d r IH]; intros x y Hx Hy.
  - cbn [add2 length]. destruct (is_zero (fst x)) eqn:Zx; [exact Hy|]. destruct (is_zero (fst y)) eqn:Zy; [exact Hx|].
    apply is_zero_false in Zx, Zy. pose proof (oke_node _ _ _ _ Hx Zx) as Nx. pose proof (oke_node _ _ _ _ Hy Zy) as Ny.
    destruct (snd x); [|destruct Nx]. destruct (snd y) eqn:Ey; [|destruct Ny].
    destruct (near_zero 0 _) eqn:Z; [left; reflexivity|]. apply near_zero_false in Z. right. split; [exact Z|]. exact I.
  - cbn [add2 length]. destruct (is_zero (fst x)) eqn:Zx; [exact Hy|]. destruct (is_zero (fst y)) eqn:Zy; [exact Hx|].
    apply is_zero_false in Zx, Zy. pose proof (oke_node _ _ _ _ Hx Zx) as Nx. pose proof (oke_node _ _ _ _ Hy Zy) as Ny.
    destruct (snd x) as [|v es] eqn:Ex; [destruct Nx|]. destruct (snd y) as [|u fs] eqn:Ey; [destruct Ny|].
    destruct (same (Node v es) (Node u fs)).
    + destruct (near_zero 0 _) eqn:Z; [left; reflexivity|]. apply near_zero_false in Z. right. split; [exact Z|exact Ny].
    + apply okn_cons in Nx, Ny. destruct Nx as [-> Nx], Ny as [_ Ny]. apply make_oke. rewrite (proj1 Nx). apply okl_tab. intros i Hi.
      destruct Nx as [Lx Nx], Ny as [Ly Ny].
      destruct (Nx i Hi) as [E1|(A1 & B1 & D1)]; destruct (Ny i Hi) as [E2|(A2 & B2 & D2)].
      * left. rewrite E1, E2, is_zero_0. apply add2_zero_l.
      * right. split; [exact B2|]. apply IH; apply scaled_oke; try assumption; [rewrite E1; apply oke_zero|right; auto].
      * right. split; [exact B1|]. apply IH; apply scaled_oke; try assumption; [right; auto|rewrite E2; apply oke_zero].
      * right. split; [exact B1|]. apply IH; apply scaled_oke; try assumption; right; auto.
Qed.

(** adding up from the first term or from zero is the same *)
Lemma accumulate_fold m n terms : accumulate 0 same m n terms = fold_left (fun acc t =>
  if is_zero (fst acc) then t else if is_zero (fst t) then acc else add2 0 same m n acc t) terms zero_edge.
Proof.
  destruct terms as [|t0 r]; [reflexivity|]. cbn [accumulate fold_left]. replace (is_zero (fst zero_edge)) with true by (symmetry; apply is_zero_spec; reflexivity). reflexivity.
Qed.
Lemma fold_oke m t ds : forall terms acc, oke m t ds acc -> Forall (oke m t ds) terms -> oke m t ds (fold_left (fun acc t =>
  if is_zero (fst acc) then t else if is_zero (fst t) then acc else add2 0 same m (length ds) acc t) terms acc).
Proof.
  induction terms as [|x r IH]; intros acc A F; [exact A|]. inversion F; subst. cbn [fold_left]. apply IH; [|assumption].
  destruct (is_zero (fst acc)); [assumption|]. destruct (is_zero (fst x)); [assumption|]. apply add2_oke; assumption.
Qed.
Lemma accumulate_oke m t ds terms : Forall (oke m t ds) terms -> oke m t ds (accumulate 0 same m (length ds) terms).
Proof. intros F. rewrite accumulate_fold. apply fold_oke; [apply oke_zero|exact F]. Qed.
Lemma accumulate_zero m n terms : (forall e, In e terms -> e = zero_edge) -> accumulate 0 same m n terms = zero_edge.
Proof.
  rewrite accumulate_fold. induction terms as [|x r IH]; intros H; [reflexivity|]. cbn [fold_left].
  replace (is_zero (fst zero_edge)) with true by (symmetry; apply is_zero_spec; reflexivity). rewrite (H x) by (left; reflexivity). apply IH. intros e He. apply H. right. exact He.
Qed.

Lemma make_ident_oke t ds : (forall d, In d ds -> 0 < d) -> okn true t ds (snd (make_ident 0 ds)) /\ fst (make_ident 0 ds) = C1.
Proof.
  induction ds as [|d r IH]; intros P; [split; [exact I|reflexivity]|].
  assert (P' : forall x, In x r -> 0 < x) by (intros; apply P; right; assumption). destruct (IH P') as [O W].
  split; [|apply make_ident_one; exact P]. cbn [make_ident].
  assert (K : oke true t (d :: r) (make 0 true false (length r) (tab (d * d) (fun idx => if Nat.eqb (idx / d) (idx mod d) then make_ident 0 r else zero_edge)))).
  { apply make_oke. apply (okl_tab true t d r). intros i Hi. destruct (Nat.eqb_spec (i / d) (i mod d)) as [E|N]; [|left; reflexivity].
    right. split; [auto|]. right. split; [rewrite W; intros Q; injection Q; intros; lra|exact O]. }
  apply (oke_node _ _ _ _ K). change (make 0 true false (length r) _) with (make_ident 0 (d :: r)). rewrite make_ident_one by exact P. intros Q. injection Q. intros. lra.
Qed.

Lemma scale_oke m t ds (e x y : edge) : fst x <> C0 -> fst y <> C0 -> fst e <> C0 -> okn m t ds (snd e) ->
  oke m t ds (if near_zero 0 (Cmul (Cmul (fst e) (fst x)) (fst y)) then zero_edge else (Cmul (Cmul (fst e) (fst x)) (fst y), snd e)).
Proof. intros X Y E O. destruct (near_zero 0 _) eqn:Z; [left; reflexivity|]. apply near_zero_false in Z. right. split; assumption. Qed.
Lemma C1_neq_0 : C1 <> C0. Proof. intros Q. injection Q. intros. lra. Qed.

Definition rows (m : bool) (d : nat) (r : list nat) (xs ys : list edge) : list edge :=
  tab (d * cols m d) (fun idx => accumulate 0 same m (length r) (tab d (fun k =>
    multiply2 0 same m r (edge_at xs (d * (idx / cols m d) + k)) (edge_at ys (idx mod cols m d + cols m d * k))))).
Lemma rows_okl m t d r xs ys : 0 < d -> (forall x y, oke true t r x -> oke m t r y -> oke m t r (multiply2 0 same m r x y)) ->
  okl true t d r xs -> okl m t d r ys -> okl m t d r (rows m d r xs ys).
Proof.
  intros Hd IH [Lx Nx] [Ly Ny]. unfold rows. change (cols true d) with d in *.
  apply okl_tab. intros i Hi.
  assert (Ic : i / cols m d < d) by (apply Nat.div_lt_upper_bound; [destruct m; cbn; lia|lia]).
  assert (Jc : i mod cols m d < cols m d) by (apply Nat.mod_upper_bound; destruct m; cbn; lia).
  assert (T : forall k, k < d -> oke m t r (multiply2 0 same m r (edge_at xs (d * (i / cols m d) + k)) (edge_at ys (i mod cols m d + cols m d * k)))).
  { intros k Hk. apply IH.
    - destruct (Nx (d * (i / cols m d) + k) ltac:(nia)) as [E|(A & _ & B)]; [left; exact E|right; auto].
    - destruct (Ny (i mod cols m d + cols m d * k) ltac:(nia)) as [E|(A & _ & B)]; [left; exact E|right; auto]. }
  assert (F : oke m t r (accumulate 0 same m (length r) (tab d (fun k => multiply2 0 same m r (edge_at xs (d * (i / cols m d) + k)) (edge_at ys (i mod cols m d + cols m d * k)))))).
  { apply accumulate_oke. apply Forall_tab. exact T. }
  destruct m; [|right; split; [discriminate|exact F]]. change (cols true d) with d in *.
  destruct (Nat.eq_dec (i / d) (i mod d)) as [E|N]; [right; split; [auto|exact F]|].
  destruct (Nat.eq_dec (length r) t) as [Et|Nt]; [right; split; [auto|exact F]|]. left.
  apply accumulate_zero. intros f Hf. apply in_map_iff in Hf. destruct Hf as (k & <- & Hk). apply in_seq in Hk.
  assert (Z1 : edge_at xs (d * (i / d) + k) = zero_edge \/ i / d = k).
  { destruct (Nx (d * (i / d) + k) ltac:(nia)) as [E|(_ & B & _)]; [left; exact E|right]. destruct (B eq_refl) as [B'|B']; [|contradiction].
    replace (d * (i / d) + k) with (i / d * d + k) in B' by lia. destruct (index_split d (i / d) k ltac:(lia)) as [Q1 Q2]. rewrite Q1, Q2 in B'. exact B'. }
  assert (Z2 : edge_at ys (i mod d + d * k) = zero_edge \/ k = i mod d).
  { destruct (Ny (i mod d + d * k) ltac:(nia)) as [E|(_ & B & _)]; [left; exact E|right]. destruct (B eq_refl) as [B'|B']; [|contradiction].
    replace (i mod d + d * k) with (k * d + i mod d) in B' by lia. destruct (index_split d k (i mod d) ltac:(lia)) as [Q1 Q2]. rewrite Q1, Q2 in B'. exact B'. }
  destruct Z1 as [Z1|Z1]; [rewrite Z1; apply multiply2_zero_l|].
  destruct Z2 as [Z2|Z2]; [|exfalso; apply N; congruence]. rewrite Z2. apply multiply2_zero_r.
Qed.
Lemma multiply2_eq m d r x y : multiply2 0 same m (d :: r) x y =
  if is_zero (fst x) || is_zero (fst y) then zero_edge else
  let scale (e : edge) : edge := let w := Cmul (Cmul (fst e) (fst x)) (fst y) in if near_zero 0 w then zero_edge else (w, snd e) in
  if is_ident (d :: r) (snd x) then scale (C1, snd (if m && is_ident (d :: r) (snd y) then make_ident 0 (d :: r) else y))
  else if m && is_ident (d :: r) (snd y) then scale (C1, snd x)
  else match snd x, snd y with
    | Node _ xs, Node _ ys => let e := make 0 m true (length r) (rows m d r xs ys) in if is_zero (fst e) then e else scale e
    | _, _ => zero_edge
    end.
Proof. reflexivity. Qed.
Lemma multiply2_oke m t : forall ds x y, (forall d, In d ds -> 0 < d) -> oke true t ds x -> oke m t ds y -> oke m t ds (multiply2 0 same m ds x y).
Proof.
  induction ds as [|d r IH]; intros x y P Hx Hy.
  - cbn [multiply2]. destruct (is_zero (fst x)) eqn:Zx; [left; reflexivity|]. destruct (is_zero (fst y)) eqn:Zy; [left; reflexivity|]. cbn [orb].
    apply is_zero_false in Zx, Zy. right. split; [apply Cmul_neq_0; assumption|exact I].
  - rewrite multiply2_eq. destruct (is_zero (fst x)) eqn:Zx; [left; reflexivity|]. destruct (is_zero (fst y)) eqn:Zy; [left; reflexivity|]. cbn [orb]. cbv zeta.
    apply is_zero_false in Zx, Zy. pose proof (oke_node _ _ _ _ Hx Zx) as Nx. pose proof (oke_node _ _ _ _ Hy Zy) as Ny.
    destruct (is_ident (d :: r) (snd x)).
    + apply (scale_oke m t (d :: r) (C1, snd (if m && is_ident (d :: r) (snd y) then make_ident 0 (d :: r) else y)) x y Zx Zy C1_neq_0).
      cbn [snd]. destruct m; [|exact Ny]. cbn [andb]. destruct (is_ident (d :: r) (snd y)); [|exact Ny]. apply (make_ident_oke t (d :: r) P).
    + destruct (m && is_ident (d :: r) (snd y)) eqn:Iy.
      { apply andb_true_iff in Iy. destruct Iy as [-> _]. apply (scale_oke true t (d :: r) (C1, snd x) x y Zx Zy C1_neq_0). exact Nx. }
      destruct (snd x) as [|v xs]; [destruct Nx|]. destruct (snd y) as [|u ys]; [destruct Ny|].
      apply okn_cons in Nx, Ny. destruct Nx as [_ Nx], Ny as [_ Ny].
      pose proof (make_oke m true t d r _ (rows_okl m t d r xs ys (P d (or_introl eq_refl)) (fun x y => IH x y (fun q Hq => P q (or_intror Hq))) Nx Ny)) as K.
      set (e := make 0 m true (length r) _) in *.
      destruct (is_zero (fst e)) eqn:Ze; [exact K|]. apply is_zero_false in Ze. apply (scale_oke m t (d :: r) e x y Zx Zy Ze). apply (oke_node _ _ _ _ K Ze).
Qed.

(** the product of edges with weights, from the product of the nodes *)
Lemma multiply2_weights m t ds x y : (forall d, In d ds -> 0 < d) -> ds <> [] -> oke true t ds x -> oke m t ds y -> fst x <> C0 -> fst y <> C0 ->
  multiply2 0 same m ds x y = let e := multiply2 0 same m ds (C1, snd x) (C1, snd y) in
    if is_zero (fst e) then zero_edge else (Cmul (Cmul (fst e) (fst x)) (fst y), snd e).
Proof.
  intros P D Hx Hy Zx Zy. destruct ds as [|d r]; [contradiction|].
  assert (One : is_zero C1 = false) by (apply is_zero_false, C1_neq_0).
  assert (Sc : forall w, w <> C0 -> near_zero 0 (Cmul (Cmul w (fst x)) (fst y)) = false).
  { intros w W. apply near_zero_false. apply Cmul_neq_0; [apply Cmul_neq_0|]; assumption. }
  assert (S1 : forall w : C, Cmul (Cmul w C1) C1 = w) by (intros w; ring).
  rewrite !multiply2_eq. cbn [fst snd]. rewrite One. replace (is_zero (fst x)) with false by (symmetry; apply is_zero_false; exact Zx). replace (is_zero (fst y)) with false by (symmetry; apply is_zero_false; exact Zy). cbn [orb]. cbv zeta.
  destruct (is_ident (d :: r) (snd x)).
  - cbn [fst snd]. rewrite Sc by exact C1_neq_0. rewrite S1. replace (near_zero 0 C1) with false by (symmetry; apply near_zero_false, C1_neq_0). cbn [fst snd]. rewrite One. f_equal.
    destruct (m && is_ident (d :: r) (snd y)); reflexivity.
  - destruct (m && is_ident (d :: r) (snd y)) eqn:Iy.
    + cbn [fst snd]. rewrite Sc by exact C1_neq_0. rewrite S1. replace (near_zero 0 C1) with false by (symmetry; apply near_zero_false, C1_neq_0). cbn [fst snd]. rewrite One. reflexivity.
    + pose proof (oke_node _ _ _ _ Hx Zx) as Nx. pose proof (oke_node _ _ _ _ Hy Zy) as Ny.
      destruct (snd x) as [|v xs]; [destruct Nx|]. destruct (snd y) as [|u ys]; [destruct Ny|].
      apply okn_cons in Nx, Ny. destruct Nx as [_ Nx], Ny as [_ Ny].
      pose proof (make_oke m true t d r _ (rows_okl m t d r xs ys (P d (or_introl eq_refl)) (fun x y => multiply2_oke m t r x y (fun q Hq => P q (or_intror Hq))) Nx Ny)) as K.
      set (e := make 0 m true (length r) _) in *. destruct (is_zero (fst e)) eqn:Ze.
      * rewrite Ze. apply is_zero_spec in Ze. apply (oke_fst _ _ _ _ K Ze).
      * pose proof Ze as Z. apply is_zero_false in Z. rewrite Sc by exact Z. rewrite S1. replace (near_zero 0 (fst e)) with false by (symmetry; apply near_zero_false; exact Z). cbn [fst snd].
        rewrite Ze. reflexivity.
Qed.

End Ops.

Lemma Cconj_neq_0 z : z <> C0 -> Cconj z <> C0.
Proof. intros N E. apply N. destruct z as [a b]. unfold Cconj, C0 in *. cbn in E. injection E. intros. f_equal; lra. Qed.
Lemma conj_transpose_oke t : forall ds e, (forall d, In d ds -> 0 < d) -> oke true t ds e -> oke true t ds (conj_transpose 0 ds e).
Proof.
  induction ds as [|d r IH]; intros e P He.
  - cbn [conj_transpose]. destruct He as [-> |[N O]]; [left; unfold zero_edge; cbn; f_equal; unfold Cconj, C0; cbn; f_equal; lra|].
    right. split; [apply Cconj_neq_0; exact N|exact O].
  - cbn [conj_transpose]. destruct He as [-> |[N O]]; [left; unfold zero_edge; cbn; f_equal; unfold Cconj, C0; cbn; f_equal; lra|].
    destruct (snd e) as [|v es]; [destruct O|]. apply okn_cons in O. destruct O as [-> [L O]]. change (cols true d) with d in *. assert (Hd : 0 < d) by (apply P; left; reflexivity).
    assert (K : oke true t (d :: r) (make 0 true false (length r) (tab (length es) (fun idx => conj_transpose 0 r (edge_at es (d * (idx mod d) + idx / d)))))).
    { apply make_oke. rewrite L. apply (okl_tab true t d r). intros i Hi. change (cols true d) with d in *.
      assert (Ic : i / d < d) by (apply Nat.div_lt_upper_bound; lia). assert (Jc : i mod d < d) by (apply Nat.mod_upper_bound; lia).
      assert (Hp : oke true t r (edge_at es (d * (i mod d) + i / d))).
      { destruct (O (d * (i mod d) + i / d) ltac:(nia)) as [E|(A & _ & B)]; [left; exact E|right; auto]. }
      destruct (O (d * (i mod d) + i / d) ltac:(nia)) as [E|(A & B & _)].
      - left. rewrite E. unfold zero_edge. destruct r; cbn; f_equal; unfold Cconj, C0; cbn; f_equal; lra.
      - right. split; [|apply IH; [intros; apply P; right; assumption|exact Hp]]. intros _. destruct (B eq_refl) as [B'|B']; [left|right; exact B'].
        replace (d * (i mod d) + i / d) with (i mod d * d + i / d) in B' by lia. destruct (index_split d (i mod d) (i / d) Ic) as [Q1 Q2]. rewrite Q1, Q2 in B'. auto. }
    destruct K as [E|[W O']]; [|right; split; [cbn; apply Cmul_neq_0; [exact W|apply Cconj_neq_0; exact N]|exact O']].
    left. rewrite E. cbn. unfold zero_edge. f_equal. unfold C0, Cmul. cbn. f_equal; ring.
Qed.

Lemma zero_state_oke dims : (forall d, In d dims -> 0 < d) -> forall k, k <= length dims ->
  oke false 0 (sizes_below dims k) (fold_left (fun first v => make 0 false false v (first :: repeat zero_edge (nth v dims 0 - 1))) (seq 0 k) one_edge).
Proof.
  intros P. induction k as [|k IH]; intros Hk; [right; split; [exact C1_neq_0|exact I]|].
  rewrite seq_S, fold_left_app. cbn [fold_left plus]. specialize (IH ltac:(lia)). set (f := fold_left _ _ _) in *.
  rewrite (sizes_S dims k ltac:(lia)). assert (Hd : 0 < nth k dims 0) by (apply P, nth_In; lia).
  replace (make 0 false false k) with (make 0 false false (length (sizes_below dims k))) by (rewrite sizes_length; [reflexivity|lia]).
  apply make_oke. split; [cbn [length]; rewrite repeat_length; cbn; lia|]. intros [|i] Hi.
  - destruct IH as [E|[N O]]; [left; exact E|right; split; [exact N|split; [discriminate|exact O]]].
  - left. change (edge_at (f :: repeat zero_edge (nth k dims 0 - 1)) (S i)) with (nth i (repeat zero_edge (nth k dims 0 - 1)) zero_edge). apply nth_repeat.
Qed.

Lemma okn_vector t t' : forall ds n, okn false t ds n -> okn false t' ds n.
Proof.
  induction ds as [|d r IH]; intros [|v es] H; try exact H; try (destruct H; fail). apply okn_cons in H. destruct H as [-> [L H]]. apply okn_cons. split; [reflexivity|]. split; [exact L|].
  intros i Hi. destruct (H i Hi) as [E|(A & _ & B)]; [left; exact E|right; split; [exact A|split; [discriminate|apply IH; exact B]]].
Qed.
(** below its own register a matrix is diagonal *)
Lemma okn_diag t t' : forall ds n, length ds <= t -> length ds <= t' -> okn true t ds n -> okn true t' ds n.
Proof.
  induction ds as [|d r IH]; intros [|v es] T T' H; try exact H; try (destruct H; fail). cbn [length] in T, T'. apply okn_cons in H. destruct H as [-> [L H]]. apply okn_cons. split; [reflexivity|]. split; [exact L|].
  intros i Hi. destruct (H i Hi) as [E|(A & D & B)]; [left; exact E|right; split; [exact A|split; [|apply IH; [lia|lia|exact B]]]]. intros _. destruct (D eq_refl) as [D'|D']; [left; exact D'|lia].
Qed.
Lemma okn_ident t t' : forall ds n, is_ident ds n = true -> okn true t ds n -> okn true t' ds n.
Proof.
  induction ds as [|d r IH]; intros [|v es] I H; try exact H; try (destruct H; fail). apply okn_cons in H. destruct H as [-> [L H]]. apply okn_cons. split; [reflexivity|]. split; [exact L|].
  intros i Hi. destruct (H i Hi) as [E|(A & D & B)]; [left; exact E|right; split; [exact A|]]. cbn [is_ident] in I. rewrite forallb_forall in I. specialize (I i). rewrite in_seq in I. specialize (I ltac:(cbn in Hi; lia)). cbv zeta in I.
  destruct (Nat.eqb_spec (i / d) (i mod d)) as [E|N]; [|apply is_zero_spec in I; contradiction]. apply andb_true_iff in I. destruct I as [I _]. split; [auto|]. apply IH; assumption.
Qed.

(** the diagrams of the gates *)
Section Gate.
Variable dims : list nat.
Hypothesis pos : forall d, In d dims -> 0 < d.
Variable tg : nat.
Definition entries_ok (t v : nat) (es : list edge) : Prop := length es = t * t /\ forall i, i < t * t -> oke true tg (sizes_below dims v) (edge_at es i).
Lemma ident_oke v : v <= length dims -> oke true tg (sizes_below dims v) (make_ident 0 (sizes_below dims v)).
Proof. intros H. destruct (make_ident_oke tg (sizes_below dims v) (sizes_pos dims v pos)) as [A B]. right. rewrite B. split; [exact C1_neq_0|exact A]. Qed.
Lemma diag_layer v (f : nat -> edge) : v < length dims -> (forall p, p < nth v dims 0 * nth v dims 0 -> p / nth v dims 0 = p mod nth v dims 0 -> oke true tg (sizes_below dims v) (f p)) ->
  okl true tg (nth v dims 0) (sizes_below dims v) (tab (nth v dims 0 * nth v dims 0) (fun p => if Nat.eqb (p / nth v dims 0) (p mod nth v dims 0) then f p else zero_edge)).
Proof.
  intros Hv H. apply (okl_tab true tg). intros i Hi. destruct (Nat.eqb_spec (i / nth v dims 0) (i mod nth v dims 0)) as [E|N]; [right; split; [auto|apply H; assumption]|left; reflexivity].
Qed.
Lemma make_layer cached v es : v < length dims -> okl true tg (nth v dims 0) (sizes_below dims v) es -> oke true tg (sizes_below dims (S v)) (make 0 true cached v es).
Proof.
  intros Hv H. rewrite sizes_S by exact Hv. pose proof (make_oke true cached tg _ _ _ H) as K. rewrite sizes_length in K by lia. exact K.
Qed.
Lemma below_oke t v st st' : v < length dims -> entries_ok t v (fst st) -> below_target 0 dims t st v = Some st' -> entries_ok t (S v) (fst st').
Proof.
  destruct st as [es cs]. intros Hv [L H] E. unfold below_target in E. destruct (match on_register cs v with Some l => _ | None => false end); [discriminate|]. injection E as <-. cbn [fst].
  split; [apply tab_length|]. intros i Hi. rewrite edge_at_tab by exact Hi. apply make_layer; [exact Hv|]. apply diag_layer; [exact Hv|]. intros p _ _.
  destruct (on_register cs v) as [l|]; [|apply H; exact Hi]. destruct (Nat.eqb (p / nth v dims 0) l); [apply H; exact Hi|]. destruct (Nat.eqb (i / t) (i mod t)); [apply ident_oke; lia|apply oke_zero].
Qed.
Lemma all_below_oke t : forall k v st st', v + k <= length dims -> entries_ok t v (fst st) -> all_below 0 dims t st (seq v k) = Some st' -> entries_ok t (v + k) (fst st').
Proof.
  induction k as [|k IH]; intros v st st' Hv H E; [injection E as <-; rewrite Nat.add_0_r; exact H|]. cbn [seq all_below] in E.
  destruct (below_target 0 dims t st v) as [st1|] eqn:E1; [|discriminate]. replace (v + S k) with (S v + k) by lia. apply (IH (S v) st1); [lia| |exact E]. eapply below_oke; [lia|exact H|exact E1].
Qed.
Lemma above_oke v st : v < length dims -> oke true tg (sizes_below dims v) (fst st) -> oke true tg (sizes_below dims (S v)) (fst (above_target 0 dims st v)).
Proof.
  destruct st as [e cs]. intros Hv H. unfold above_target. cbn [fst] in *. apply make_layer; [exact Hv|]. apply diag_layer; [exact Hv|]. intros p _ _.
  destruct (on_register cs v) as [l|]; [|exact H]. destruct (Nat.eqb (p / nth v dims 0) l); [exact H|apply ident_oke; lia].
Qed.
Lemma target_okl t es : tg < length dims -> nth tg dims 0 = t -> entries_ok t tg es -> okl true tg t (sizes_below dims tg) es.
Proof.
  intros Ht E [L H]. split; [exact L|]. intros i Hi. destruct (H i Hi) as [Z|[A B]]; [left; exact Z|right; split; [exact A|split; [intros _; right; apply sizes_length; lia|exact B]]].
Qed.
Lemma above_all_oke : forall k v st, v + k <= length dims -> oke true tg (sizes_below dims v) (fst st) -> oke true tg (sizes_below dims (v + k)) (fst (fold_left (above_target 0 dims) (seq v k) st)).
Proof.
  induction k as [|k IH]; intros v st Hv H; [rewrite Nat.add_0_r; exact H|]. cbn [seq fold_left]. replace (v + S k) with (S v + k) by lia. apply IH; [lia|]. apply above_oke; [lia|exact H].
Qed.
Lemma entries_oke t d (A : mat) : entries_ok t 0 (tab (t * t) (fun i => let w := A (i / d) (i mod d) in if is_zero w then zero_edge else (w, Term))).
Proof.
  split; [apply tab_length|]. intros i Hi. rewrite edge_at_tab by exact Hi. cbv zeta. destruct (is_zero (A (i / d) (i mod d))) eqn:Z; [left; reflexivity|]. apply is_zero_false in Z. right. split; [exact Z|exact I].
Qed.
Lemma make_gate_oke d A cs e : make_gate 0 dims d A cs tg = Some e -> oke true tg (rev dims) e.
Proof.
  unfold make_gate. destruct (nth_error dims tg) as [t|] eqn:E; [|discriminate]. assert (Ht : tg < length dims) by (apply nth_error_Some; rewrite E; discriminate). apply (nth_error_nth dims tg 0) in E.
  destruct (Nat.ltb (d * d) (t * t)); [discriminate|]. cbv zeta. destruct (all_below 0 dims t _ (seq 0 tg)) as [[es rest]|] eqn:B; [|discriminate]. intros Q. injection Q as <-.
  rewrite <- sizes_all. replace (length dims) with (S tg + (length dims - S tg)) at 1 by lia. apply above_all_oke; [lia|]. cbn [fst]. apply make_layer; [exact Ht|].
  rewrite E. apply target_okl; [exact Ht|exact E|]. exact (all_below_oke t tg 0 (_, cs) _ ltac:(cbn; lia) (entries_oke t d A) B).
Qed.
End Gate.
