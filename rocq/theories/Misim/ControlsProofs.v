(** Gates with any number of controls (makeGateDD): the proofs of DdGateProofs.v for a list of controls. *)
From Coq Require Import List ZArith Arith Lia Reals Bool Sorted.
From Verif Require Import Base.Cplx Base.Matrix Base.Radix Misim.DdModel Misim.DdSpec Misim.DdProofs Misim.DdGateProofs.
Import ListNotations.
Local Open Scope nat_scope.

(** the controls, in the order of the registers *)
Notation ctls := (list (nat * nat)).
Definition ons (cs : ctls) (p : list nat) : bool :=
  forallb (fun c => if Nat.ltb (fst c) (length p) then Nat.eqb (reg p (fst c)) (snd c) else true) cs.
Definition rest (cs : ctls) (v : nat) : ctls := filter (fun c => negb (Nat.ltb (fst c) v)) cs.
Definition here (cs : ctls) (v : nat) : option nat := on_register (rest cs v) v.
Definition ordered (cs : ctls) : Prop := StronglySorted (fun a b => fst a < fst b) cs.
Lemma rest_0 cs : rest cs 0 = cs.
Proof. induction cs as [|c cs IH]; [reflexivity|]. unfold rest in *. cbn [filter]. change (negb (Nat.ltb (fst c) 0)) with true. cbv iota. f_equal. exact IH. Qed.
Lemma rest_ordered cs v : ordered cs -> ordered (rest cs v).
Proof.
  induction 1 as [|c cs H IH F]; [constructor|]. unfold rest in *. cbn [filter]. destruct (negb _); [|exact IH]. constructor; [exact IH|].
  rewrite Forall_forall in *. intros x Hx. apply filter_In in Hx. apply F. apply Hx.
Qed.
Lemma rest_none cs v : Forall (fun c => v <= fst c) cs -> rest cs v = cs.
Proof. induction 1 as [|c cs H F IH]; [reflexivity|]. unfold rest in *. cbn [filter]. destruct (Nat.ltb_spec (fst c) v); [lia|]. cbn [negb]. f_equal. exact IH. Qed.
Lemma rest_next cs v : ordered cs -> next_control (rest cs v) v = rest cs (S v).
Proof.
  induction 1 as [|c cs H IH F]; [reflexivity|]. unfold rest in *. cbn [filter]. destruct (Nat.ltb_spec (fst c) v) as [L|L]; cbn [negb].
  - rewrite IH. destruct (Nat.ltb_spec (fst c) (S v)); [reflexivity|lia].
  - unfold next_control, on_register. destruct c as [r l]. cbn [fst] in *. destruct (Nat.eqb_spec r v) as [->|N].
    + cbn [tl]. destruct (Nat.ltb_spec v (S v)); [|lia]. cbn [negb].
      fold (rest cs v) (rest cs (S v)). rewrite !rest_none; [reflexivity| |]; apply (Forall_impl _ (P := fun a => v < fst a)); try exact F; intros a Ha; cbn in *; lia.
    + destruct (Nat.ltb_spec r (S v)); [lia|]. cbn [negb]. fold (rest cs v) (rest cs (S v)). f_equal.
      rewrite !rest_none; [reflexivity| |]; apply (Forall_impl _ (P := fun a => r < fst a)); try exact F; intros a Ha; cbn in *; lia.
Qed.
Lemma here_in cs v l : here cs v = Some l -> In (v, l) cs.
Proof.
  unfold here, on_register. destruct (rest cs v) as [|[r k] more] eqn:E; [discriminate|]. destruct (Nat.eqb_spec r v) as [->|N]; [|discriminate]. intros Q. injection Q as ->.
  assert (I : In (v, l) (rest cs v)) by (rewrite E; left; reflexivity). apply filter_In in I. apply I.
Qed.
Lemma here_none cs v l : ordered cs -> here cs v = None -> ~ In (v, l) cs.
Proof.
  intros O H I. assert (I' : In (v, l) (rest cs v)) by (apply filter_In; split; [exact I|]; cbn [fst]; rewrite Nat.ltb_irrefl; reflexivity).
  unfold here in H. pose proof (rest_ordered cs v O) as O'. destruct (rest cs v) as [|[r k] more] eqn:E; [destruct I'|]. cbn in H. destruct (Nat.eqb_spec r v) as [->|N]; [discriminate|].
  destruct I' as [Q|I']; [injection Q as -> _; contradiction|]. inversion O' as [|x y _ F]; subst. rewrite Forall_forall in F. specialize (F _ I'). cbn in F.
  assert (Ir : In (r, k) (rest cs v)) by (rewrite E; left; reflexivity). apply filter_In in Ir. destruct Ir as [_ Ir]. cbn [fst] in Ir. destruct (Nat.ltb_spec r v); [discriminate|lia].
Qed.
Lemma here_unique cs v l k : ordered cs -> here cs v = Some l -> In (v, k) cs -> k = l.
Proof.
  intros O H I. assert (I' : In (v, k) (rest cs v)) by (apply filter_In; split; [exact I|]; cbn [fst]; rewrite Nat.ltb_irrefl; reflexivity).
  unfold here in H. pose proof (rest_ordered cs v O) as O'. destruct (rest cs v) as [|[r j] more] eqn:E; [destruct I'|]. cbn in H. destruct (Nat.eqb_spec r v) as [->|N]; [|discriminate].
  injection H as ->. destruct I' as [Q|I']; [injection Q as ->; reflexivity|]. inversion O' as [|x y _ F]; subst. rewrite Forall_forall in F. specialize (F _ I'). cbn in F. lia.
Qed.
Lemma ons_cons cs i p : ordered cs -> ons cs (i :: p) = (match here cs (length p) with Some l => Nat.eqb i l | None => true end) && ons cs p.
Proof.
  intros O. apply bool_ext. rewrite andb_true_iff. unfold ons. rewrite !forallb_forall. split.
  - intros H. split.
    + destruct (here cs (length p)) as [l|] eqn:E; [|reflexivity]. specialize (H _ (here_in _ _ _ E)). cbn [fst snd length] in H.
      destruct (Nat.ltb_spec (length p) (S (length p))); [|lia]. rewrite reg_top in H. exact H.
    + intros [r l] I. specialize (H _ I). cbn [fst snd length] in *. destruct (Nat.ltb_spec r (length p)) as [L|L]; [|reflexivity].
      destruct (Nat.ltb_spec r (S (length p))); [|lia]. rewrite reg_below in H by exact L. exact H.
  - intros [H1 H2] [r l] I. specialize (H2 _ I). cbn [fst snd length] in *. destruct (Nat.ltb_spec r (S (length p))) as [L|L]; [|reflexivity].
    destruct (Nat.eq_dec r (length p)) as [->|N].
    + rewrite reg_top. destruct (here cs (length p)) as [k|] eqn:E; [rewrite (here_unique _ _ _ _ O E I); exact H1|destruct (here_none _ _ l O E I)].
    + destruct (Nat.ltb_spec r (length p)); [|lia]. rewrite reg_below by assumption. exact H2.
Qed.

Section Gate.
Variables (dims : list nat) (t : nat) (M : mat) (c : ctls).
Hypothesis dims_pos : forall d, In d dims -> 0 < d.
Hypothesis t_lt : t < length dims.
Hypothesis c_sorted : ordered c.
Hypothesis c_ok : forall r l, In (r, l) c -> r <> t /\ (r < t -> l < nth r dims 0).
Let T := nth t dims 0.

(** the entry of the controlled gate *)
Definition gsmat (p q : list nat) : C :=
  if ons c p then (if agree_b t p q then M (reg p t) (reg q t) else C0) else delta p q.
Definition gsbelow (row col : nat) (p q : list nat) : C := Cmul (if ons c p then M row col else mid row col) (delta p q).

Definition below_inv (v : nat) (st : list edge * list (nat * nat)) : Prop :=
  length (fst st) = T * T /\ snd st = rest c v /\
  forall row col, row < T -> col < T -> ewf (arity true (sizes_below dims v)) (edge_at (fst st) (row * T + col)) /\
    forall p q, valid (sizes_below dims v) p -> valid (sizes_below dims v) q ->
      ev (edge_at (fst st) (row * T + col)) (entry true (sizes_below dims v) p q) = gsbelow row col p q.

Lemma node_ok v (f : nat -> edge) : v < length dims ->
  let d := nth v dims 0 in
  (forall i, i < d -> ewf (arity true (sizes_below dims v)) (f i)) ->
  let e := make 0 true false v (tab (d * d) (fun idx => if Nat.eqb (idx / d) (idx mod d) then f (idx / d) else zero_edge)) in
  ewf (arity true (sizes_below dims (S v))) e /\
  forall i j p q, i < d -> j < d -> ev e (entry true (sizes_below dims (S v)) (i :: p) (j :: q)) =
    if Nat.eqb i j then ev (f i) (entry true (sizes_below dims v) p q) else C0.
Proof.
  intros Hv d Hf. set (es := tab (d * d) _). intros e. assert (Le : length es = d * d) by apply tab_length.
  assert (Pd : 0 < d) by (apply dims_pos; apply nth_In; exact Hv).
  destruct (make_ok true false v es (or_introl eq_refl)) as [Mv Mw]. rewrite Le in *. rewrite sizes_S by exact Hv. fold d. split.
  - rewrite arity_cons. cbn [cols]. apply Mw; [rewrite arity_length, sizes_length by lia; reflexivity|]. intros i Hi. unfold es. rewrite edge_at_tab by exact Hi.
    destruct (Nat.eqb _ _); [apply Hf; apply Nat.div_lt_upper_bound; lia|apply ewf_zero].
  - intros i j p q Hi Hj. cbn [entry cols]. unfold e. rewrite Mv by (apply index_lt; assumption). unfold es. rewrite edge_at_tab by (apply index_lt; assumption).
    destruct (index_split d i j Hj) as [D Md]. rewrite D, Md. destruct (Nat.eqb i j); [reflexivity|apply ev_zero].
Qed.

Lemma below_step v st : v < t -> below_inv v st -> exists st', below_target 0 dims T st v = Some st' /\ below_inv (S v) st'.
Proof.
  intros Hv (L & E & I). destruct st as [es cs]. cbn [fst snd] in *. subst cs. unfold below_target. rewrite (rest_next c v c_sorted). change (on_register (rest c v) v) with (here c v). set (d := nth v dims 0).
  assert (Vl : v < length dims) by lia.
  assert (Nl : match here c v with Some l => Nat.leb d l && Nat.ltb 1 T | None => false end = false).
  { destruct (here c v) as [l|] eqn:H; [|reflexivity]. destruct (c_ok v l (here_in _ _ _ H)) as [_ K]. specialize (K Hv). fold d in K. destruct (Nat.leb_spec d l); [lia|reflexivity]. }
  rewrite Nl. eexists. split; [reflexivity|]. unfold below_inv. cbn [fst snd]. rewrite tab_length. split; [reflexivity|]. split; [reflexivity|].
  intros row col Hr Hc. rewrite edge_at_tab by (apply index_lt; assumption). destruct (index_split T row col Hc) as [Dt Mt]. rewrite Dt, Mt.
  set (f := fun i => match here c v with
    | Some l => if Nat.eqb i l then edge_at es (row * T + col) else if Nat.eqb row col then make_ident 0 (sizes_below dims v) else zero_edge
    | None => edge_at es (row * T + col) end).
  destruct (I row col Hr Hc) as [Iw Iv]. destruct (make_ident_ok (sizes_below dims v) (sizes_pos dims v dims_pos)) as [Jw Jv].
  destruct (node_ok v f Vl) as [Nw Nv].
  { intros i _. unfold f. destruct (here c v) as [l|]; [destruct (Nat.eqb i l)|]; try exact Iw. destruct (Nat.eqb row col); [exact Jw|apply ewf_zero]. }
  cbn zeta in Nw, Nv. fold d in Nw, Nv.
  set (e := make _ _ _ _ _) in *. split; [exact Nw|]. intros p q Hp Hq. rewrite sizes_S in Hp, Hq by exact Vl. fold d in Hp, Hq.
  inversion Hp as [|i d' p' ds' Hi Hp' E1 E2]; subst d' ds' p. inversion Hq as [|j d'' q' ds'' Hj Hq' E3 E4]; subst d'' ds'' q.
  rewrite Nv by assumption. unfold gsbelow. rewrite delta_cons, (ons_cons c i p' c_sorted). pose proof (valid_length _ _ Hp') as Lp. rewrite sizes_length in Lp by lia. rewrite Lp.
  unfold mid at 2. destruct (Nat.eqb i j); [|ring]. unfold f.
  destruct (here c v) as [l|] eqn:Hh.
  - destruct (Nat.eqb i l); cbn [andb].
    + rewrite Iv by assumption. unfold gsbelow. ring.
    + unfold mid. destruct (Nat.eqb row col); [rewrite Jv by assumption; ring|rewrite ev_zero; ring].
  - cbn [andb]. rewrite Iv by assumption. unfold gsbelow. ring.
Qed.
Lemma all_below_ok : forall k v st, v + k <= t -> below_inv v st -> exists st', all_below 0 dims T st (seq v k) = Some st' /\ below_inv (v + k) st'.
Proof.
  induction k as [|k IH]; intros v st H I.
  - exists st. split; [reflexivity|]. rewrite Nat.add_0_r. exact I.
  - cbn [seq all_below]. destruct (below_step v st ltac:(lia) I) as (st1 & E1 & I1). rewrite E1. destruct (IH (S v) st1 ltac:(lia) I1) as (st2 & E2 & I2).
    exists st2. split; [exact E2|]. replace (v + S k) with (S v + k) by lia. exact I2.
Qed.

Definition above_inv (v : nat) (st : edge * list (nat * nat)) : Prop :=
  snd st = rest c v /\ ewf (arity true (sizes_below dims v)) (fst st) /\
  forall p q, valid (sizes_below dims v) p -> valid (sizes_below dims v) q -> ev (fst st) (entry true (sizes_below dims v) p q) = gsmat p q.

Lemma above_step v st : t < v -> v < length dims -> above_inv v st -> above_inv (S v) (above_target 0 dims st v).
Proof.
  intros Hv Vl (E & Iw & Iv). destruct st as [e0 cs]. cbn [fst snd] in *. subst cs. unfold above_target. rewrite (rest_next c v c_sorted). change (on_register (rest c v) v) with (here c v). set (d := nth v dims 0).
  set (f := fun i => match here c v with Some l => if Nat.eqb i l then e0 else make_ident 0 (sizes_below dims v) | None => e0 end).
  destruct (make_ident_ok (sizes_below dims v) (sizes_pos dims v dims_pos)) as [Jw Jv].
  destruct (node_ok v f Vl) as [Nw Nv].
  { intros i _. unfold f. destruct (here c v) as [l|]; [destruct (Nat.eqb i l)|]; assumption. }
  cbn zeta in Nw, Nv. fold d in Nw, Nv. unfold above_inv. cbn [fst snd].
  split; [reflexivity|]. split; [exact Nw|]. intros p q Hp Hq. rewrite sizes_S in Hp, Hq by exact Vl. fold d in Hp, Hq.
  inversion Hp as [|i d' p' ds' Hi Hp' E1 E2]; subst d' ds' p. inversion Hq as [|j d'' q' ds'' Hj Hq' E3 E4]; subst d'' ds'' q.
  pose proof (Nv i j p' q' Hi Hj) as Nv'. unfold f in Nv'. rewrite Nv'. clear Nv'.
  pose proof (valid_length _ _ Hp') as Lp. pose proof (valid_length _ _ Hq') as Lq. rewrite sizes_length in Lp, Lq by lia.
  unfold gsmat. rewrite (ons_cons c i p' c_sorted), Lp, agree_above, delta_cons, !reg_below by lia. unfold mid.
  destruct (Nat.eqb i j); cbn [andb].
  - destruct (here c v) as [l|] eqn:Hh.
    + destruct (Nat.eqb i l).
      * rewrite Iv by assumption. unfold gsmat. cbn [andb]. destruct (ons c p'); [reflexivity|ring].
      * cbn [andb]. rewrite Jv by assumption. ring.
    + cbn [andb]. rewrite Iv by assumption. unfold gsmat. destruct (ons c p'); [reflexivity|ring].
  - destruct (match here c v with Some l => _ | None => _ end && ons c p'); [reflexivity|ring].
Qed.
Lemma above_ok : forall k v st, t < v -> v + k <= length dims -> above_inv v st -> above_inv (v + k) (fold_left (above_target 0 dims) (seq v k) st).
Proof.
  induction k as [|k IH]; intros v st H K I.
  - rewrite Nat.add_0_r. exact I.
  - cbn [seq fold_left]. replace (v + S k) with (S v + k) by lia. apply IH; [lia|lia|]. apply above_step; [exact H|lia|exact I].
Qed.

(** makeGateDD builds the controlled gate *)
Lemma make_gates_ok : exists e, make_gate 0 dims T M c t = Some e /\ ewf (arity true (rev dims)) e /\
  forall p q, valid (rev dims) p -> valid (rev dims) q -> ev e (entry true (rev dims) p q) = gsmat p q.
Proof.
  assert (PT : 0 < T) by (apply dims_pos; apply nth_In; exact t_lt).
  unfold make_gate. rewrite (nth_error_nth' dims 0 t_lt). fold T. rewrite Nat.ltb_irrefl. set (es0 := tab (T * T) _).
  assert (I0 : below_inv 0 (es0, c)).
  { split; [apply tab_length|]. split; [symmetry; apply rest_0|]. intros row col Hr Hc. cbn [fst]. unfold es0. rewrite edge_at_tab by (apply index_lt; assumption).
    destruct (index_split T row col Hc) as [D Md]. rewrite D, Md. cbn zeta.
    assert (On : forall p, length p = 0 -> ons c p = true). { intros p Lp. unfold ons. apply forallb_forall. intros x _. rewrite Lp. reflexivity. }
    destruct (is_zero (M row col)) eqn:Z.
    - split; [apply ewf_zero|]. apply is_zero_spec in Z. intros p q Hp Hq. inversion Hp; inversion Hq; subst. rewrite ev_zero. unfold gsbelow. rewrite On by reflexivity. rewrite Z. ring.
    - split; [right; exact I|]. intros p q Hp Hq. inversion Hp; inversion Hq; subst. unfold gsbelow. rewrite On by reflexivity. rewrite delta_refl. unfold ev. cbn. ring. }
  destruct (all_below_ok t 0 _ ltac:(lia) I0) as ([es rest] & E & (L & R & I1)). cbn [plus] in E, L, R, I1. rewrite E. eexists. split; [reflexivity|].
  cbn [fst snd] in *. subst rest.
  assert (Ht0 : here c t = None) .
  { destruct (here c t) as [l|] eqn:Hh; [|reflexivity]. destruct (proj1 (c_ok t l (here_in _ _ _ Hh)) eq_refl). }
  assert (A : above_inv (S t) (make 0 true false t es, rest c t)).
  { unfold above_inv. cbn [fst snd]. split.
    - rewrite <- (rest_next c t c_sorted). unfold next_control. change (on_register (rest c t) t) with (here c t). rewrite Ht0. reflexivity.
    - destruct (make_ok true false t es (or_introl eq_refl)) as [Mv Mw]. rewrite L in *. rewrite sizes_S by exact t_lt. fold T. split.
      + rewrite arity_cons. cbn [cols]. apply Mw; [rewrite arity_length, sizes_length by lia; reflexivity|]. intros i Hi.
        assert (Di : i / T < T) by (apply Nat.div_lt_upper_bound; lia). assert (Mi : i mod T < T) by (apply Nat.mod_upper_bound; lia).
        pose proof (proj1 (I1 (i / T) (i mod T) Di Mi)) as Q. replace (i / T * T + i mod T) with i in Q; [exact Q|]. rewrite Nat.mul_comm. apply Nat.div_mod. lia.
      + intros p q Hp Hq. inversion Hp as [|i d' p' ds' Hi Hp' E1 E2]; subst d' ds' p. inversion Hq as [|j d'' q' ds'' Hj Hq' E3 E4]; subst d'' ds'' q.
        cbn [entry cols]. rewrite Mv by (apply index_lt; assumption). rewrite (proj2 (I1 i j Hi Hj) p' q' Hp' Hq'). unfold gsbelow, gsmat.
        pose proof (valid_length _ _ Hp') as Lp. pose proof (valid_length _ _ Hq') as Lq. rewrite sizes_length in Lp, Lq by lia.
        rewrite (ons_cons c i p' c_sorted), Lp. rewrite Ht0. cbn [andb]. pose proof (agree_target i j p' q' ltac:(lia)) as Ag. rewrite Lp in Ag. rewrite Ag.
        pose proof (reg_top i p') as R1. rewrite Lp in R1. pose proof (reg_top j q') as R2. rewrite Lq in R2. rewrite R1, R2.
        rewrite delta_cons. unfold eqb_path, delta. destruct (list_eq_dec Nat.eq_dec p' q'), (ons c p'); ring. }
  pose proof (above_ok (length dims - S t) (S t) _ ltac:(lia) ltac:(lia) A) as (_ & B1 & B2). replace (S t + (length dims - S t)) with (length dims) in * by lia.
  rewrite sizes_all in *. split; [exact B1|exact B2].
Qed.
End Gate.
