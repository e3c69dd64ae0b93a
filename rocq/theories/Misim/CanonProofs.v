(** The diagrams of states are in normal form, and a state has only one diagram in normal form. *)
From Coq Require Import List Arith Lia Reals Lra Bool.
From Verif Require Import Base.Cplx Base.Matrix Base.Radix Misim.DdModel Misim.DdSpec Misim.DdProofs Misim.DdGateProofs Misim.NodeShapeProofs.
Import ListNotations.
Local Open Scope nat_scope.

(** the squares of the weights add up to 1, and the first of the largest weights is real and positive *)
Definition normal_edges (es : list edge) : Prop := sum_mag2 (length es) es = 1%R /\
  exists k x, k < length es /\ fst (edge_at es k) = RtoC x /\ (0 < x)%R /\
    (forall i, i < length es -> (mag2 es i <= mag2 es k)%R) /\ (forall i, i < k -> (mag2 es i < mag2 es k)%R).
Fixpoint nf (ds : list nat) (n : node) : Prop :=
  match ds, n with
  | [], Term => True
  | d :: r, Node v es => v = length r /\ length es = d /\ normal_edges es /\
      forall i, i < d -> edge_at es i = zero_edge \/ (fst (edge_at es i) <> C0 /\ nf r (snd (edge_at es i)))
  | _, _ => False
  end.
Definition nfe (ds : list nat) (e : edge) : Prop := e = zero_edge \/ (fst e <> C0 /\ nf ds (snd e)).
Lemma nf_cons d r v es : nf (d :: r) (Node v es) <-> v = length r /\ length es = d /\ normal_edges es /\ forall i, i < d -> nfe r (edge_at es i).
Proof. unfold nfe. cbn [nf]. tauto. Qed.
Lemma nfe_zero ds : nfe ds zero_edge. Proof. left. reflexivity. Qed.
Lemma nfe_node ds e : nfe ds e -> fst e <> C0 -> nf ds (snd e).
Proof. intros [->|[_ H]] N; [contradiction N; reflexivity|exact H]. Qed.

Lemma vpivot_first es : es <> [] -> vpivot 0 es < length es /\ (forall i, i < length es -> (mag2 es i <= mag2 es (vpivot 0 es))%R) /\
  forall i, i < vpivot 0 es -> (mag2 es i < mag2 es (vpivot 0 es))%R.
Proof.
  intros N. set (F := fun (acc : R * nat) i => if Rle_dec (fst acc) (mag2 es i + 0) then (mag2 es i, i) else acc).
  assert (K : forall n acc, let r := fold_left F (rev (seq 0 n)) acc in
    (r = acc /\ forall i, i < n -> (mag2 es i < fst acc)%R) \/
    (snd r < n /\ fst r = mag2 es (snd r) /\ (fst acc <= fst r)%R /\ (forall i, i < n -> (mag2 es i <= fst r)%R) /\ forall i, i < snd r -> (mag2 es i < fst r)%R)).
  { induction n as [|n IH]; intros acc; [left; split; [reflexivity|intros i Hi; lia]|]. rewrite seq_S, rev_app_distr. cbn [rev app plus fold_left].
    set (acc' := F acc n). assert (E' : acc' = F acc n) by reflexivity. unfold F in E'. specialize (IH acc'). cbv zeta in *. set (r := fold_left F (rev (seq 0 n)) acc') in *.
    destruct (Rle_dec (fst acc) (mag2 es n + 0)) as [L|L].
    - assert (E1 : fst acc' = mag2 es n) by (rewrite E'; reflexivity). assert (E2 : snd acc' = n) by (rewrite E'; reflexivity). right. destruct IH as [[Er H]|(A & B & D & G & H)].
      + rewrite Er, E2, E1. split; [lia|]. split; [reflexivity|]. split; [lra|]. split.
        * intros i Hi. destruct (Nat.eq_dec i n) as [->|Ni]; [lra|]. rewrite E1 in H. specialize (H i ltac:(lia)). lra.
        * intros i Hi. rewrite E1 in H. apply H. exact Hi.
      + split; [lia|]. split; [exact B|]. split; [lra|]. split; [|exact H]. intros i Hi. destruct (Nat.eq_dec i n) as [->|Ni]; [lra|apply G; lia].
    - rewrite E' in *. destruct IH as [[Er H]|(A & B & D & G & H)].
      + left. split; [exact Er|]. intros i Hi. destruct (Nat.eq_dec i n) as [->|Ni]; [lra|apply H; lia].
      + right. split; [lia|]. split; [exact B|]. split; [exact D|]. split; [|exact H]. intros i Hi. destruct (Nat.eq_dec i n) as [->|Ni]; [lra|apply G; lia]. }
  assert (L : 0 < length es) by (destruct es; [congruence|cbn; lia]).
  unfold vpivot. fold F. destruct (K (length es) (mag2 es 0, 0)) as [[_ H]|(A & B & _ & G & H)]; cbv zeta in *.
  - specialize (H 0 L). cbn in H. lra.
  - set (r := fold_left F _ _) in *. rewrite <- B. auto.
Qed.

Lemma sum_mag2_ext n es fs : (forall i, i < n -> mag2 es i = mag2 fs i) -> sum_mag2 n es = sum_mag2 n fs.
Proof. induction n as [|n IH]; intros H; [reflexivity|]. cbn [sum_mag2]. rewrite IH, H by (intros; try apply H; lia). reflexivity. Qed.
Lemma sum_mag2_scale n es fs c : (forall i, i < n -> mag2 es i = (c * mag2 fs i)%R) -> sum_mag2 n es = (c * sum_mag2 n fs)%R.
Proof. induction n as [|n IH]; intros H; [cbn; ring|]. cbn [sum_mag2]. rewrite IH, H by (intros; try apply H; lia). ring. Qed.
Lemma sum_mag2_one n es k : k < n -> (forall i, i < n -> i <> k -> mag2 es i = 0%R) -> sum_mag2 n es = mag2 es k.
Proof.
  assert (Z : forall n, (forall i, i < n -> mag2 es i = 0%R) -> sum_mag2 n es = 0%R).
  { induction n0 as [|m IH]; intros H; [reflexivity|]. cbn [sum_mag2]. rewrite IH, H by (intros; try apply H; lia). ring. }
  induction n as [|n IH]; intros Hk H; [lia|]. cbn [sum_mag2]. destruct (Nat.eq_dec k n) as [->|N].
  - rewrite Z by (intros i Hi; apply H; lia). ring.
  - rewrite IH by (intros; try apply H; lia). rewrite (H n) by lia. ring.
Qed.
Lemma Cnorm2_div x y : y <> C0 -> Cnorm2 (Cdiv x y) = (/ Cnorm2 y * Cnorm2 x)%R.
Proof.
  intros H. pose proof (f_equal Cnorm2 (Cdiv_mul x y H)) as E. rewrite Cnorm2_mul in E. assert (N : Cnorm2 y <> 0%R) by (intros Q; apply H, Cnorm2_0, Q).
  rewrite <- E. field. exact N.
Qed.
Lemma Cnorm2_RtoC x : Cnorm2 (RtoC x) = (x * x)%R. Proof. unfold Cnorm2, RtoC. cbn. ring. Qed.
Lemma RtoC_C1 : C1 = RtoC 1. Proof. reflexivity. Qed.

Lemma vnormalise_normal cached es w fs : cached = true \/ at_most_one es -> vnormalise 0 cached es = Some (w, fs) -> normal_edges fs.
Proof.
  intros Hc. unfold vnormalise. set (f := fun i => negb (near_zero 0 (fst (edge_at es i)))).
  assert (Hf : forall i, f i = true <-> fst (edge_at es i) <> C0).
  { intros i. unfold f. rewrite negb_true_iff. apply near_zero_false. }
  set (cs := clear 0 cached es). assert (Lc : length cs = length es) by apply clear_length.
  assert (Wc : forall i, fst (edge_at cs i) = fst (edge_at es i)) by (intros i; apply clear_at).
  destruct (filter f (seq 0 (length es))) as [|k [|k' more]] eqn:E; [discriminate| |].
  - intros Q. injection Q as <- <-. assert (Hk : In k (filter f (seq 0 (length es)))) by (rewrite E; left; reflexivity).
    apply filter_In in Hk. destruct Hk as [Hk1 Hk2]. apply in_seq in Hk1. apply Hf in Hk2.
    assert (Hz : forall i, i < length es -> i <> k -> fst (edge_at es i) = C0).
    { intros i Hi N. destruct (is_zero (fst (edge_at es i))) eqn:Z; [apply is_zero_spec; exact Z|]. apply is_zero_false in Z.
      assert (I : In i (filter f (seq 0 (length es)))) by (apply filter_In; split; [apply in_seq; lia|apply Hf; exact Z]).
      rewrite E in I. destruct I as [I|[]]. congruence. }
    rewrite Lc. set (gs := tab (length es) _).
    assert (Wk : fst (edge_at gs k) = C1) by (unfold gs; rewrite edge_at_tab by lia; rewrite Nat.eqb_refl; reflexivity).
    assert (Mk : mag2 gs k = 1%R) by (unfold mag2; rewrite Wk, RtoC_C1, Cnorm2_RtoC; ring).
    assert (Mz : forall i, i < length es -> i <> k -> mag2 gs i = 0%R).
    { intros i Hi N. unfold gs. apply mag2_0. rewrite edge_at_tab by exact Hi. destruct (Nat.eqb_spec i k); [contradiction|]. rewrite Wc. apply Hz; assumption. }
    assert (Lg : length gs = length es) by apply tab_length. unfold normal_edges. rewrite Lg. split; [rewrite (sum_mag2_one _ _ k); [exact Mk|lia|exact Mz]|].
    exists k, 1%R. split; [lia|]. split; [exact Wk|]. split; [lra|]. split; intros i Hi.
    + destruct (Nat.eq_dec i k) as [->|N]; [lra|]. rewrite Mz, Mk by assumption. lra.
    + rewrite Mz, Mk by lia. lra.
  - destruct (filter_two f _ _ _ _ E (seq_NoDup _ _)) as (A1 & B1 & A2 & B2 & AB). apply in_seq in A1, B1. apply Hf in A2, B2.
    assert (C : cached = true). { destruct Hc as [Hc|Hc]; [exact Hc|]. exfalso. apply AB. apply Hc; (lia || assumption). }
    subst cached. cbn [andb]. set (p := vpivot 0 cs).
    assert (Nn : cs <> []) by (intros Q; rewrite Q in Lc; cbn in Lc; lia).
    destruct (vpivot_first cs Nn) as (P1 & P2 & P5). fold p in P1, P2, P5.
    assert (P3 : (0 < mag2 cs p)%R).
    { pose proof (P2 k ltac:(lia)) as Q. pose proof (mag2_nonneg cs k). destruct (Req_dec (mag2 cs k) 0) as [Z|Z]; [|lra].
      apply mag2_0 in Z. rewrite Wc in Z. contradiction. }
    assert (P4 : fst (edge_at cs p) <> C0) by (intros Z; apply mag2_0 in Z; lra).
    set (mm := sqrt (mag2 cs p)). assert (Hmm : (0 < mm)%R) by (apply sqrt_lt_R0; exact P3).
    set (sm := sum_mag2 (length cs) cs). assert (Hsm : (0 < sm)%R) by (pose proof (sum_mag2_ge (length cs) cs p P1); unfold sm; lra).
    set (nm := sqrt sm). assert (Hnm : (0 < nm)%R) by (apply sqrt_lt_R0; exact Hsm).
    assert (Smm : (mm * mm)%R = mag2 cs p) by (apply sqrt_def; lra). assert (Snm : (nm * nm)%R = sm) by (apply sqrt_def; lra).
    set (w0 := fst (edge_at cs p)) in *.
    assert (Top : (if negb (is_one w0) then Cmul w0 (RtoC (nm / mm)) else RtoC (nm / mm)) = Cmul w0 (RtoC (nm / mm))).
    { destruct (is_one w0) eqn:O; cbn [negb]; [|reflexivity]. apply is_one_spec in O. rewrite O. ring. }
    rewrite Top. set (top := Cmul w0 (RtoC (nm / mm))).
    assert (Q0 : (nm / mm)%R <> 0%R) by (unfold Rdiv; apply Rmult_integral_contrapositive_currified; [lra|apply Rinv_neq_0_compat; lra]).
    assert (T0 : top <> C0) by (apply Cmul_neq_0; [exact P4|apply RtoC_neq_0; exact Q0]).
    assert (Ntop : Cnorm2 top = sm).
    { unfold top. rewrite Cnorm2_mul, Cnorm2_RtoC. unfold w0. change (Cnorm2 (fst (edge_at cs p))) with (mag2 cs p). rewrite <- Smm, <- Snm. field. lra. }
    replace (near_zero 0 top) with false by (symmetry; apply near_zero_false; exact T0). rewrite andb_false_r. intros Q. injection Q as <- <-.
    rewrite Lc. set (gs := tab (length es) _). assert (Lg : length gs = length es) by apply tab_length.
    assert (Mg : forall i, i < length es -> mag2 gs i = (/ sm * mag2 cs i)%R).
    { intros i Hi. unfold gs. unfold mag2 at 1. rewrite edge_at_tab by exact Hi. set (c := if Nat.eqb i p then _ else _).
      assert (Nc : Cnorm2 c = (/ sm * mag2 cs i)%R).
      { unfold c. destruct (Nat.eqb_spec i p) as [->|N].
        - rewrite Cnorm2_RtoC, <- Smm, <- Snm. field. lra.
        - rewrite Cnorm2_div, Ntop by exact T0. reflexivity. }
      destruct (is_zero c) eqn:Z; [|exact Nc]. apply is_zero_spec in Z. rewrite <- Nc, Z. reflexivity. }
    assert (Is : (0 < / sm)%R) by (apply Rinv_0_lt_compat; exact Hsm).
    unfold normal_edges. rewrite Lg. split; [rewrite (sum_mag2_scale _ _ _ _ Mg), <- Lc; fold sm; field; lra|].
    exists p, (mm / nm)%R. rewrite Lc in *. split; [exact P1|]. split; [|split; [|split]].
    + unfold gs. rewrite edge_at_tab by exact P1. rewrite Nat.eqb_refl. destruct (is_zero _) eqn:Z; [|reflexivity]. apply is_zero_spec in Z. cbn. symmetry. exact Z.
    + apply Rdiv_lt_0_compat; assumption.
    + intros i Hi. rewrite !Mg by assumption. apply Rmult_le_compat_l; [lra|apply P2; exact Hi].
    + intros i Hi. rewrite !Mg by lia. apply Rmult_lt_compat_l; [exact Is|apply P5; exact Hi].
Qed.

Definition nfl (d : nat) (r : list nat) (es : list edge) : Prop := length es = d /\ forall i, i < d -> nfe r (edge_at es i).
Lemma nfl_tidy d r es : nfl d r es -> tidy es.
Proof. intros [L H] i Hi Z. destruct (H i ltac:(lia)) as [E|[N _]]; [exact E|contradiction]. Qed.
Lemma make_nf cached d r es : cached = true \/ at_most_one es -> nfl d r es -> nfe (d :: r) (make 0 false cached (length r) es).
Proof.
  intros Hc H. pose proof (vnormalise_kept cached es (nfl_tidy d r es H)) as K. pose proof (vnormalise_normal cached es) as N. unfold make.
  destruct (vnormalise 0 cached es) as [[w fs]|]; [|apply nfe_zero]. destruct K as (W & L & K). right. split; [exact W|]. cbn [snd]. apply nf_cons.
  destruct H as [Le H]. split; [reflexivity|]. split; [lia|]. split; [apply (N w fs Hc eq_refl)|]. intros i Hi. destruct (K i ltac:(lia)) as [[_ E]|(A & B & E)]; [left; exact E|].
  right. split; [exact B|]. rewrite E. apply (nfe_node r (edge_at es i)); [apply H; exact Hi|exact A].
Qed.
Lemma nfl_tab d r f : (forall i, i < d -> nfe r (f i)) -> nfl d r (tab d f).
Proof. intros H. split; [apply tab_length|]. intros i Hi. rewrite edge_at_tab by exact Hi. apply H. exact Hi. Qed.

Section Ops.
Variable same : node -> node -> bool.
Lemma scaled_nfe ds (e x : edge) : nfe ds e -> fst x <> C0 -> nfe ds (if is_zero (fst e) then e else (Cmul (fst e) (fst x), snd e)).
Proof.
  intros [->|[N O]] X; [rewrite is_zero_0; left; reflexivity|]. replace (is_zero (fst e)) with false by (symmetry; apply is_zero_false; exact N).
  right. split; [apply Cmul_neq_0; assumption|exact O].
Qed.
Lemma add2_nf : forall ds x y, nfe ds x -> nfe ds y -> nfe ds (add2 0 same false (length ds) x y).
Proof.
  induction ds as [|d r IH]; intros x y Hx Hy.
  - cbn [add2 length]. destruct (is_zero (fst x)) eqn:Zx; [exact Hy|]. destruct (is_zero (fst y)) eqn:Zy; [exact Hx|].
    apply is_zero_false in Zx, Zy. pose proof (nfe_node _ _ Hx Zx) as Nx. pose proof (nfe_node _ _ Hy Zy) as Ny.
    destruct (snd x); [|destruct Nx]. destruct (snd y) eqn:Ey; [|destruct Ny].
    destruct (near_zero 0 _) eqn:Z; [left; reflexivity|]. apply near_zero_false in Z. right. split; [exact Z|exact I].
  - cbn [add2 length]. destruct (is_zero (fst x)) eqn:Zx; [exact Hy|]. destruct (is_zero (fst y)) eqn:Zy; [exact Hx|].
    apply is_zero_false in Zx, Zy. pose proof (nfe_node _ _ Hx Zx) as Nx. pose proof (nfe_node _ _ Hy Zy) as Ny.
    destruct (snd x) as [|v es] eqn:Ex; [destruct Nx|]. destruct (snd y) as [|u fs] eqn:Ey; [destruct Ny|].
    destruct (same (Node v es) (Node u fs)).
    + destruct (near_zero 0 _) eqn:Z; [left; reflexivity|]. apply near_zero_false in Z. right. split; [exact Z|exact Ny].
    + apply nf_cons in Nx, Ny. destruct Nx as (-> & Lx & _ & Nx), Ny as (_ & Ly & _ & Ny). apply make_nf; [left; reflexivity|]. rewrite Lx. apply nfl_tab. intros i Hi.
      apply IH; apply scaled_nfe; try assumption; [apply Nx|apply Ny]; exact Hi.
Qed.
Lemma accumulate_nf ds terms : Forall (nfe ds) terms -> nfe ds (accumulate 0 same false (length ds) terms).
Proof.
  intros F. rewrite accumulate_fold. assert (K : forall terms acc, nfe ds acc -> Forall (nfe ds) terms -> nfe ds (fold_left (fun acc t =>
    if is_zero (fst acc) then t else if is_zero (fst t) then acc else add2 0 same false (length ds) acc t) terms acc)).
  { clear. induction terms as [|x r IH]; intros acc A F; [exact A|]. inversion F; subst. cbn [fold_left]. apply IH; [|assumption].
    destruct (is_zero (fst acc)); [assumption|]. destruct (is_zero (fst x)); [assumption|]. apply add2_nf; assumption. }
  apply K; [apply nfe_zero|exact F].
Qed.
(** the matrix only has to be a matrix over the registers *)
Lemma multiply2_nf t : forall ds x y, oke true t ds x -> nfe ds y -> nfe ds (multiply2 0 same false ds x y).
Proof.
  induction ds as [|d r IH]; intros x y Hx Hy.
  - cbn [multiply2]. destruct (is_zero (fst x)) eqn:Zx; [left; reflexivity|]. destruct (is_zero (fst y)) eqn:Zy; [left; reflexivity|]. cbn [orb].
    apply is_zero_false in Zx, Zy. right. split; [apply Cmul_neq_0; assumption|exact I].
  - rewrite multiply2_eq. destruct (is_zero (fst x)) eqn:Zx; [left; reflexivity|]. destruct (is_zero (fst y)) eqn:Zy; [left; reflexivity|]. cbn [orb andb]. cbv zeta.
    apply is_zero_false in Zx, Zy. pose proof (oke_node _ _ _ _ Hx Zx) as Nx. pose proof (nfe_node _ _ Hy Zy) as Ny.
    assert (Sc : forall e : edge, nf (d :: r) (snd e) -> nfe (d :: r) (if near_zero 0 (Cmul (Cmul (fst e) (fst x)) (fst y)) then zero_edge else (Cmul (Cmul (fst e) (fst x)) (fst y), snd e))).
    { intros e O. destruct (near_zero 0 _) eqn:Z; [left; reflexivity|]. apply near_zero_false in Z. right. split; assumption. }
    destruct (is_ident (d :: r) (snd x)); [apply (Sc (C1, snd y)); exact Ny|].
    destruct (snd x) as [|v xs]; [destruct Nx|]. destruct (snd y) as [|u ys]; [destruct Ny|].
    apply okn_cons in Nx. destruct Nx as [_ Nx]. apply nf_cons in Ny. destruct Ny as (_ & Ly & _ & Ny).
    assert (K : nfe (d :: r) (make 0 false true (length r) (rows same false d r xs ys))).
    { apply make_nf; [left; reflexivity|]. unfold rows. cbn [cols]. rewrite Nat.mul_1_r. apply nfl_tab. intros i Hi. apply accumulate_nf. apply Forall_tab. intros k Hk. apply IH.
      - apply (okl_edge true t d r); [exact Nx|]. cbn [cols]. rewrite Nat.div_1_r. nia.
      - rewrite Nat.mod_1_r, Nat.add_0_l, Nat.mul_1_l. apply Ny. exact Hk. }
    set (e := make 0 false true (length r) _) in *.
    destruct (is_zero (fst e)) eqn:Ze; [exact K|]. apply is_zero_false in Ze. apply Sc. apply (nfe_node _ _ K Ze).
Qed.
End Ops.

(** ** one diagram per state *)
Lemma csum_RtoC n es : csum n (fun i => RtoC (mag2 es i)) = RtoC (sum_mag2 n es).
Proof. induction n as [|n IH]; [reflexivity|]. cbn [csum sum_mag2]. rewrite IH, RtoC_add. reflexivity. Qed.
Lemma nf_norm : forall ds n, nf ds n -> psum ds (fun p => Cmul (val n p) (Cconj (val n p))) = C1.
Proof.
  induction ds as [|d r IH]; intros [|v es] H; try (destruct H; fail).
  - cbn. rewrite Cconj_C1. ring.
  - apply nf_cons in H. destruct H as (_ & L & [S1 _] & H). cbn [psum].
    rewrite (csum_ext d _ (fun i => RtoC (mag2 es i))); [rewrite csum_RtoC, <- L, S1; reflexivity|]. intros i Hi.
    rewrite (psum_ext r _ (fun q => Cmul (RtoC (mag2 es i)) (Cmul (val (snd (edge_at es i)) q) (Cconj (val (snd (edge_at es i)) q))))).
    + rewrite psum_mul_l. destruct (H i Hi) as [E|[N O]]; [rewrite (proj2 (mag2_0 es i)) by (rewrite E; reflexivity); rewrite RtoC_0; ring|]. rewrite IH by exact O. ring.
    + intros q _. cbn [val]. fold (edge_at es i). unfold mag2. rewrite <- Cmul_conj, Cconj_mul. change (nth i es (C0, Term)) with (edge_at es i). ring.
Qed.
Lemma nfe_norm ds e : nfe ds e -> psum ds (fun p => Cmul (ev e p) (Cconj (ev e p))) = RtoC (Cnorm2 (fst e)).
Proof.
  intros H. rewrite (psum_ext ds _ (fun q => Cmul (RtoC (Cnorm2 (fst e))) (Cmul (val (snd e) q) (Cconj (val (snd e) q))))).
  - rewrite psum_mul_l. destruct H as [->|[N O]]; [cbn; unfold Cnorm2, C0; cbn; replace (0 * 0 + 0 * 0)%R with 0%R by ring; rewrite RtoC_0; ring|]. rewrite nf_norm by exact O. ring.
  - intros q _. unfold ev. rewrite <- Cmul_conj, Cconj_mul. ring.
Qed.
Lemma psum_scaled ds c f : psum ds (fun p => Cmul (Cmul c (f p)) (Cconj (Cmul c (f p)))) = Cmul (RtoC (Cnorm2 c)) (psum ds (fun p => Cmul (f p) (Cconj (f p)))).
Proof. rewrite <- psum_mul_l. apply psum_ext. intros q _. rewrite <- Cmul_conj, Cconj_mul. ring. Qed.
Lemma square_inj x y : (0 < x)%R -> (0 < y)%R -> (x * x)%R = (y * y)%R -> x = y.
Proof. intros X Y E. nra. Qed.
Lemma Cmul_cancel a b c : a <> C0 -> Cmul a b = Cmul a c -> b = c.
Proof.
  intros N E. assert (Z : Cmul a (Csub b c) = C0) by (replace (Cmul a (Csub b c)) with (Csub (Cmul a b) (Cmul a c)) by ring; rewrite E; ring).
  destruct (Cmul_integral _ _ Z) as [Q|Q]; [contradiction|]. replace b with (Cadd (Csub b c) c) by ring. rewrite Q. ring.
Qed.

Theorem canonical : forall ds n n' c, nf ds n -> nf ds n' -> (forall p, valid ds p -> val n p = Cmul c (val n' p)) -> n = n' /\ c = C1.
Proof.
  induction ds as [|d r IH]; intros [|v es] [|v' es'] c H H' E; try (destruct H; fail); try (destruct H'; fail).
  - split; [reflexivity|]. specialize (E [] ltac:(constructor)). cbn in E. rewrite E. ring.
  - pose proof (nf_norm _ _ H) as N1. pose proof (nf_norm _ _ H') as N1'.
    assert (Nc : Cnorm2 c = 1%R).
    { apply RtoC_inj. rewrite RtoC_1. rewrite <- N1. rewrite (psum_ext _ _ (fun p => Cmul (Cmul c (val (Node v' es') p)) (Cconj (Cmul c (val (Node v' es') p))))) by (intros p Hp; rewrite E by exact Hp; reflexivity).
      rewrite psum_scaled, N1'. ring. }
    apply nf_cons in H, H'. destruct H as (-> & L & [S1 (k & x & K1 & K2 & K3 & K4 & K5)] & H), H' as (-> & L' & [S1' (k' & x' & K1' & K2' & K3' & K4' & K5')] & H').
    assert (Ei : forall i q, i < d -> valid r q -> ev (edge_at es i) q = Cmul c (ev (edge_at es' i) q)).
    { intros i q Hi Hq. specialize (E (i :: q) ltac:(constructor; assumption)). exact E. }
    assert (Mi : forall i, i < d -> mag2 es i = mag2 es' i).
    { intros i Hi. apply RtoC_inj. unfold mag2. rewrite <- (nfe_norm r _ (H i Hi)), <- (nfe_norm r _ (H' i Hi)).
      rewrite (psum_ext r _ (fun q => Cmul (Cmul c (ev (edge_at es' i) q)) (Cconj (Cmul c (ev (edge_at es' i) q))))) by (intros q Hq; rewrite Ei by assumption; reflexivity).
      rewrite psum_scaled, Nc, RtoC_1. ring. }
    rewrite L in *. rewrite L' in *.
    assert (Kk : k = k').
    { destruct (lt_eq_lt_dec k k') as [[Q|Q]|Q]; [|exact Q|].
      - pose proof (K5' k Q). pose proof (K4 k' K1'). rewrite (Mi k K1), (Mi k' K1') in *. lra.
      - pose proof (K5 k' Q). pose proof (K4' k K1). rewrite (Mi k K1), (Mi k' K1') in *. lra. }
    subst k'. assert (Xx : x = x').
    { apply square_inj; [assumption|assumption|]. rewrite <- !Cnorm2_RtoC, <- K2, <- K2'. apply (Mi k K1). }
    subst x'.
    assert (Step : forall i, i < d -> fst (edge_at es i) <> C0 -> snd (edge_at es i) = snd (edge_at es' i) /\ fst (edge_at es i) = Cmul c (fst (edge_at es' i))).
    { intros i Hi Nw. assert (Nw' : fst (edge_at es' i) <> C0) by (intros Q; apply mag2_0 in Q; rewrite <- Mi in Q by exact Hi; apply mag2_0 in Q; contradiction).
      pose proof (nfe_node _ _ (H i Hi) Nw) as O. pose proof (nfe_node _ _ (H' i Hi) Nw') as O'.
      destruct (IH (snd (edge_at es i)) (snd (edge_at es' i)) (Cdiv (Cmul c (fst (edge_at es' i))) (fst (edge_at es i))) O O') as [En Ec].
      - intros q Hq. apply (Cmul_cancel (fst (edge_at es i))); [exact Nw|]. pose proof (Ei i q Hi Hq) as Q. unfold ev in Q. rewrite Q.
        transitivity (Cmul (Cmul (fst (edge_at es i)) (Cdiv (Cmul c (fst (edge_at es' i))) (fst (edge_at es i)))) (val (snd (edge_at es' i)) q)); [|ring].
        rewrite Cdiv_mul by exact Nw. ring.
      - split; [exact En|]. rewrite <- (Cdiv_mul (Cmul c (fst (edge_at es' i))) (fst (edge_at es i)) Nw), Ec. ring. }
    assert (Nk : fst (edge_at es k) <> C0) by (rewrite K2; apply RtoC_neq_0; lra).
    assert (Ec : c = C1).
    { destruct (Step k K1 Nk) as [_ Q]. rewrite K2, K2' in Q. apply (Cmul_cancel (RtoC x)); [apply RtoC_neq_0; lra|]. rewrite Q at 2. ring. }
    split; [|exact Ec]. f_equal. apply (nth_ext _ _ zero_edge zero_edge); [lia|]. intros i Hi. rewrite L in Hi. change (edge_at es i = edge_at es' i).
    destruct (H i Hi) as [Q|[Nw _]].
    + assert (Q' : fst (edge_at es' i) = C0) by (apply mag2_0; rewrite <- Mi by exact Hi; apply mag2_0; rewrite Q; reflexivity).
      destruct (H' i Hi) as [Q2|[Nw _]]; [congruence|contradiction].
    + destruct (Step i Hi Nw) as [A B]. rewrite Ec in B. rewrite (surjective_pairing (edge_at es i)), (surjective_pairing (edge_at es' i)), A, B. f_equal. ring.
Qed.
