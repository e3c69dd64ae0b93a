(** Decision diagrams of gates, of the initial state, and reading the amplitudes. *)
From Coq Require Import List ZArith Arith Lia Reals Bool.
From Verif Require Import Base.Cplx Base.Matrix Base.Radix Misim.DdModel Misim.DdSpec Misim.DdProofs.
Import ListNotations.
Local Open Scope nat_scope.

(** the level of register u on a path (top register first) *)
Definition reg (p : list nat) (u : nat) : nat := nth (length p - 1 - u) p 0.
Lemma reg_top i p : reg (i :: p) (length p) = i.
Proof. unfold reg. cbn [length]. replace (S (length p) - 1 - length p) with 0 by lia. reflexivity. Qed.
Lemma reg_below i p u : u < length p -> reg (i :: p) u = reg p u.
Proof. intros H. unfold reg. cbn [length]. replace (S (length p) - 1 - u) with (S (length p - 1 - u)) by lia. reflexivity. Qed.
Lemma reg_ext p q : length p = length q -> (forall u, u < length p -> reg p u = reg q u) -> p = q.
Proof.
  revert q. induction p as [|i p IH]; intros [|j q] L H; cbn in L; try lia; [reflexivity|].
  injection L as L. f_equal.
  - pose proof (H (length p) ltac:(cbn; lia)) as E. rewrite reg_top in E. rewrite L, reg_top in E. exact E.
  - apply IH; [exact L|]. intros u Hu. pose proof (H u ltac:(cbn; lia)) as E. rewrite !reg_below in E by lia. exact E.
Qed.
Lemma reg_rev l u : u < length l -> reg (rev l) u = nth u l 0.
Proof. intros H. unfold reg. rewrite rev_length, rev_nth by lia. f_equal. lia. Qed.

Definition agree_b (t : nat) (p q : list nat) : bool := forallb (fun u => Nat.eqb u t || Nat.eqb (reg p u) (reg q u)) (seq 0 (length p)).
Lemma agree_spec t p q : agree_b t p q = true <-> forall u, u < length p -> u <> t -> reg p u = reg q u.
Proof.
  unfold agree_b. rewrite forallb_forall. split; intros H u.
  - intros Hu N. specialize (H u). rewrite in_seq in H. specialize (H ltac:(lia)). apply orb_prop in H. rewrite !Nat.eqb_eq in H. destruct H; [contradiction|assumption].
  - intros Hu. apply in_seq in Hu. destruct (Nat.eqb_spec u t) as [->|N]; [reflexivity|]. cbn. apply Nat.eqb_eq. apply H; [lia|exact N].
Qed.
Lemma bool_ext (a b : bool) : (a = true <-> b = true) -> a = b.
Proof. destruct a, b; intros [H K]; try reflexivity; [symmetry; apply H; reflexivity|apply K; reflexivity]. Qed.
Definition eqb_path (p q : list nat) : bool := if list_eq_dec Nat.eq_dec p q then true else false.
Lemma agree_target i j p q : length p = length q -> agree_b (length p) (i :: p) (j :: q) = eqb_path p q.
Proof.
  intros L. apply bool_ext. rewrite agree_spec. unfold eqb_path. destruct (list_eq_dec Nat.eq_dec p q) as [->|N]; split; try congruence; intros H.
  - intros u Hu N. cbn in Hu. rewrite !reg_below by lia. reflexivity.
  - exfalso. apply N. apply reg_ext; [exact L|]. intros u Hu. pose proof (H u ltac:(cbn; lia) ltac:(lia)) as E. rewrite !reg_below in E by lia. exact E.
Qed.
Lemma agree_above t i j p q : length p = length q -> t < length p -> agree_b t (i :: p) (j :: q) = Nat.eqb i j && agree_b t p q.
Proof.
  intros L Ht. apply bool_ext. rewrite andb_true_iff, !agree_spec, Nat.eqb_eq. split.
  - intros H. split.
    + pose proof (H (length p) ltac:(cbn; lia) ltac:(lia)) as E. rewrite reg_top in E. rewrite L, reg_top in E. exact E.
    + intros u Hu N. pose proof (H u ltac:(cbn; lia) N) as E. rewrite !reg_below in E by lia. exact E.
  - intros [-> H] u Hu N. cbn in Hu. destruct (Nat.eq_dec u (length p)) as [->|N'].
    + rewrite reg_top. rewrite L, reg_top. reflexivity.
    + rewrite !reg_below by lia. apply H; [lia|exact N].
Qed.

(** at most one control: a register and a level *)
Definition ctl := option (nat * nat).
Definition on (c : ctl) (p : list nat) : bool :=
  match c with Some (r, l) => if Nat.ltb r (length p) then Nat.eqb (reg p r) l else true | None => true end.
Definition ctl_list (c : ctl) (v : nat) : list (nat * nat) :=
  match c with Some (r, l) => if Nat.ltb r v then [] else [(r, l)] | None => [] end.
Definition ctl_here (c : ctl) (v : nat) : option nat :=
  match c with Some (r, l) => if Nat.eqb r v then Some l else None | None => None end.
Lemma ctl_on_register c v : on_register (ctl_list c v) v = ctl_here c v.
Proof.
  destruct c as [[r l]|]; [|reflexivity]. cbn [ctl_list ctl_here]. destruct (Nat.ltb_spec r v) as [L|L]; cbn [on_register]; [|reflexivity].
  destruct (Nat.eqb_spec r v); [lia|reflexivity].
Qed.
Lemma ctl_next c v : next_control (ctl_list c v) v = ctl_list c (S v).
Proof.
  unfold next_control. rewrite ctl_on_register. destruct c as [[r l]|]; [|reflexivity]. cbn [ctl_list ctl_here].
  destruct (Nat.eqb_spec r v) as [->|N].
  - rewrite Nat.ltb_irrefl. destruct (Nat.ltb_spec v (S v)); [reflexivity|lia].
  - destruct (Nat.ltb_spec r v), (Nat.ltb_spec r (S v)); try reflexivity; lia.
Qed.
Lemma on_cons c i p : on c (i :: p) = match ctl_here c (length p) with Some l => Nat.eqb i l | None => on c p end.
Proof.
  destruct c as [[r l]|]; [|reflexivity]. cbn [on ctl_here length]. destruct (Nat.eqb_spec r (length p)) as [->|N].
  - destruct (Nat.ltb_spec (length p) (S (length p))); [|lia]. rewrite reg_top. reflexivity.
  - destruct (Nat.ltb_spec r (S (length p))), (Nat.ltb_spec r (length p)); try reflexivity; try lia. rewrite reg_below by assumption. reflexivity.
Qed.
Lemma ctl_here_off c v p : length p = v -> forall l, ctl_here c v = Some l -> on c p = true.
Proof.
  intros L l H. destruct c as [[r k]|]; [|reflexivity]. cbn [on ctl_here] in *. destruct (Nat.eqb_spec r v) as [->|N]; [|discriminate]. rewrite L, Nat.ltb_irrefl. reflexivity.
Qed.

Lemma sizes_S dims v : v < length dims -> sizes_below dims (S v) = nth v dims 0 :: sizes_below dims v.
Proof.
  intros H. unfold sizes_below. assert (E : firstn (S v) dims = firstn v dims ++ [nth v dims 0]).
  { revert v H. induction dims as [|d r IH]; intros v H; cbn in H; [lia|]. destruct v as [|v]; [reflexivity|]. cbn [firstn nth app]. f_equal. apply (IH v). lia. }
  rewrite E, rev_app_distr. reflexivity.
Qed.
Lemma sizes_length dims v : v <= length dims -> length (sizes_below dims v) = v.
Proof. intros H. unfold sizes_below. rewrite rev_length. apply firstn_length_le. exact H. Qed.
Lemma sizes_all dims : sizes_below dims (length dims) = rev dims.
Proof. unfold sizes_below. rewrite firstn_all. reflexivity. Qed.
Lemma in_firstn {A} n (l : list A) x : In x (firstn n l) -> In x l.
Proof. intros H. rewrite <- (firstn_skipn n l). apply in_or_app. left. exact H. Qed.
Lemma sizes_pos dims v : (forall d, In d dims -> 0 < d) -> forall d, In d (sizes_below dims v) -> 0 < d.
Proof. intros P d H. unfold sizes_below in H. apply in_rev in H. apply P. apply (in_firstn v). exact H. Qed.

Section Gate.
Variables (dims : list nat) (t : nat) (M : mat) (c : ctl).
Hypothesis dims_pos : forall d, In d dims -> 0 < d.
Hypothesis t_lt : t < length dims.
Hypothesis c_ok : forall r l, c = Some (r, l) -> r <> t /\ (r < t -> l < nth r dims 0).
Let T := nth t dims 0.

(** the entry of the controlled gate *)
Definition gmat (p q : list nat) : C :=
  if on c p then (if agree_b t p q then M (reg p t) (reg q t) else C0) else delta p q.
Definition gbelow (row col : nat) (p q : list nat) : C := Cmul (if on c p then M row col else mid row col) (delta p q).

Definition below_inv (v : nat) (st : list edge * list (nat * nat)) : Prop :=
  length (fst st) = T * T /\ snd st = ctl_list c v /\
  forall row col, row < T -> col < T -> ewf (arity true (sizes_below dims v)) (edge_at (fst st) (row * T + col)) /\
    forall p q, valid (sizes_below dims v) p -> valid (sizes_below dims v) q ->
      ev (edge_at (fst st) (row * T + col)) (entry true (sizes_below dims v) p q) = gbelow row col p q.

Lemma node_ok v (f : nat -> edge) : v < length dims ->
  let d := nth v dims 0 in
  (forall i, i < d -> ewf (arity true (sizes_below dims v)) (f i)) ->
  let e := make 0 true false v (tab (d * d) (fun idx => if Nat.eqb (idx / d) (idx mod d) then f (idx / d) else zero_edge)) in
  ewf (arity true (sizes_below dims (S v))) e /\
  forall i j p q, i < d -> j < d -> ev e (entry true (sizes_below dims (S v)) (i :: p) (j :: q)) =
    if Nat.eqb i j then ev (f i) (entry true (sizes_below dims v) p q) else C0.
Proof.
  intros Hv d Hf. set (es := tab (d * d) _). intros e. assert (Le : length es = d * d) by apply tab_length.
  assert (Pd : 0 < d) by (apply dims_pos; apply nth_In; exact Hv).
  destruct (make_ok true false v es (or_introl eq_refl)) as [Mv Mw]. rewrite Le in *. rewrite sizes_S by exact Hv. fold d. split.
  - rewrite arity_cons. cbn [cols]. apply Mw; [rewrite arity_length, sizes_length by lia; reflexivity|]. intros i Hi. unfold es. rewrite edge_at_tab by exact Hi.
    destruct (Nat.eqb _ _); [apply Hf; apply Nat.div_lt_upper_bound; lia|apply ewf_zero].
  - intros i j p q Hi Hj. cbn [entry cols]. unfold e. rewrite Mv by (apply index_lt; assumption). unfold es. rewrite edge_at_tab by (apply index_lt; assumption).
    destruct (index_split d i j Hj) as [D Md]. rewrite D, Md. destruct (Nat.eqb i j); [reflexivity|apply ev_zero].
Qed.

Lemma below_step v st : v < t -> below_inv v st -> exists st', below_target 0 dims T st v = Some st' /\ below_inv (S v) st'.
Proof.
  intros Hv (L & E & I). destruct st as [es cs]. cbn [fst snd] in *. subst cs. unfold below_target. rewrite ctl_on_register, ctl_next. set (d := nth v dims 0).
  assert (Vl : v < length dims) by lia.
  assert (Nl : match ctl_here c v with Some l => Nat.leb d l && Nat.ltb 1 T | None => false end = false).
  { destruct (ctl_here c v) as [l|] eqn:H; [|reflexivity]. destruct c as [[r k]|]; [|discriminate]. cbn in H. destruct (Nat.eqb_spec r v) as [->|N]; [|discriminate].
    injection H as <-. destruct (c_ok v k eq_refl) as [_ K]. specialize (K Hv). fold d in K. destruct (Nat.leb_spec d k); [lia|reflexivity]. }
  rewrite Nl. eexists. split; [reflexivity|]. unfold below_inv. cbn [fst snd]. rewrite tab_length. split; [reflexivity|]. split; [reflexivity|].
  intros row col Hr Hc. rewrite edge_at_tab by (apply index_lt; assumption). destruct (index_split T row col Hc) as [Dt Mt]. rewrite Dt, Mt.
  set (f := fun i => match ctl_here c v with
    | Some l => if Nat.eqb i l then edge_at es (row * T + col) else if Nat.eqb row col then make_ident 0 (sizes_below dims v) else zero_edge
    | None => edge_at es (row * T + col) end).
  destruct (I row col Hr Hc) as [Iw Iv]. destruct (make_ident_ok (sizes_below dims v) (sizes_pos dims v dims_pos)) as [Jw Jv].
  destruct (node_ok v f Vl) as [Nw Nv].
  { intros i _. unfold f. destruct (ctl_here c v) as [l|]; [destruct (Nat.eqb i l)|]; try exact Iw. destruct (Nat.eqb row col); [exact Jw|apply ewf_zero]. }
  cbn zeta in Nw, Nv. fold d in Nw, Nv.
  set (e := make _ _ _ _ _) in *. split; [exact Nw|]. intros p q Hp Hq. rewrite sizes_S in Hp, Hq by exact Vl. fold d in Hp, Hq.
  inversion Hp as [|i d' p' ds' Hi Hp' E1 E2]; subst d' ds' p. inversion Hq as [|j d'' q' ds'' Hj Hq' E3 E4]; subst d'' ds'' q.
  rewrite Nv by assumption. unfold gbelow. rewrite delta_cons, on_cons. pose proof (valid_length _ _ Hp') as Lp. rewrite sizes_length in Lp by lia. rewrite Lp.
  unfold mid at 2. destruct (Nat.eqb i j); [|ring]. unfold f.
  destruct (ctl_here c v) as [l|] eqn:Hh.
  - rewrite <- (ctl_here_off c v p' Lp l Hh) in *. 
    destruct (Nat.eqb i l).
    + rewrite Iv by assumption. unfold gbelow. rewrite (ctl_here_off c v p' Lp l Hh). ring.
    + unfold mid. destruct (Nat.eqb row col); [rewrite Jv by assumption; ring|rewrite ev_zero; ring].
  - rewrite Iv by assumption. unfold gbelow. ring.
Qed.
Lemma all_below_ok : forall k v st, v + k <= t -> below_inv v st -> exists st', all_below 0 dims T st (seq v k) = Some st' /\ below_inv (v + k) st'.
Proof.
  induction k as [|k IH]; intros v st H I.
  - exists st. split; [reflexivity|]. rewrite Nat.add_0_r. exact I.
  - cbn [seq all_below]. destruct (below_step v st ltac:(lia) I) as (st1 & E1 & I1). rewrite E1. destruct (IH (S v) st1 ltac:(lia) I1) as (st2 & E2 & I2).
    exists st2. split; [exact E2|]. replace (v + S k) with (S v + k) by lia. exact I2.
Qed.

Definition above_inv (v : nat) (st : edge * list (nat * nat)) : Prop :=
  snd st = ctl_list c v /\ ewf (arity true (sizes_below dims v)) (fst st) /\
  forall p q, valid (sizes_below dims v) p -> valid (sizes_below dims v) q -> ev (fst st) (entry true (sizes_below dims v) p q) = gmat p q.

Lemma above_step v st : t < v -> v < length dims -> above_inv v st -> above_inv (S v) (above_target 0 dims st v).
Proof.
  intros Hv Vl (E & Iw & Iv). destruct st as [e0 cs]. cbn [fst snd] in *. subst cs. unfold above_target. rewrite ctl_on_register, ctl_next. set (d := nth v dims 0).
  set (f := fun i => match ctl_here c v with Some l => if Nat.eqb i l then e0 else make_ident 0 (sizes_below dims v) | None => e0 end).
  destruct (make_ident_ok (sizes_below dims v) (sizes_pos dims v dims_pos)) as [Jw Jv].
  destruct (node_ok v f Vl) as [Nw Nv].
  { intros i _. unfold f. destruct (ctl_here c v) as [l|]; [destruct (Nat.eqb i l)|]; assumption. }
  cbn zeta in Nw, Nv. fold d in Nw, Nv. unfold above_inv. cbn [fst snd].
  split; [reflexivity|]. split; [exact Nw|]. intros p q Hp Hq. rewrite sizes_S in Hp, Hq by exact Vl. fold d in Hp, Hq.
  inversion Hp as [|i d' p' ds' Hi Hp' E1 E2]; subst d' ds' p. inversion Hq as [|j d'' q' ds'' Hj Hq' E3 E4]; subst d'' ds'' q.
  pose proof (Nv i j p' q' Hi Hj) as Nv'. unfold f in Nv'. rewrite Nv'. clear Nv'.
  pose proof (valid_length _ _ Hp') as Lp. pose proof (valid_length _ _ Hq') as Lq. rewrite sizes_length in Lp, Lq by lia.
  unfold gmat. rewrite on_cons, Lp, agree_above, delta_cons, !reg_below by lia. unfold mid.
  destruct (Nat.eqb i j); cbn [andb].
  - destruct (ctl_here c v) as [l|] eqn:Hh.
    + destruct (Nat.eqb i l).
      * rewrite Iv by assumption. unfold gmat. rewrite (ctl_here_off c v p' Lp l Hh). reflexivity.
      * rewrite Jv by assumption. ring.
    + rewrite Iv by assumption. unfold gmat. destruct (on c p'); [reflexivity|ring].
  - destruct (match ctl_here c v with Some l => _ | None => _ end); [reflexivity|ring].
Qed.
Lemma above_ok : forall k v st, t < v -> v + k <= length dims -> above_inv v st -> above_inv (v + k) (fold_left (above_target 0 dims) (seq v k) st).
Proof.
  induction k as [|k IH]; intros v st H K I.
  - rewrite Nat.add_0_r. exact I.
  - cbn [seq fold_left]. replace (v + S k) with (S v + k) by lia. apply IH; [lia|lia|]. apply above_step; [exact H|lia|exact I].
Qed.

(** makeGateDD builds the controlled gate *)
Lemma make_gate_ok : exists e, make_gate 0 dims T M (ctl_list c 0) t = Some e /\ ewf (arity true (rev dims)) e /\
  forall p q, valid (rev dims) p -> valid (rev dims) q -> ev e (entry true (rev dims) p q) = gmat p q.
Proof.
  assert (PT : 0 < T) by (apply dims_pos; apply nth_In; exact t_lt).
  unfold make_gate. rewrite (nth_error_nth' dims 0 t_lt). fold T. rewrite Nat.ltb_irrefl. set (es0 := tab (T * T) _).
  assert (I0 : below_inv 0 (es0, ctl_list c 0)).
  { split; [apply tab_length|]. split; [reflexivity|]. intros row col Hr Hc. cbn [fst]. unfold es0. rewrite edge_at_tab by (apply index_lt; assumption).
    destruct (index_split T row col Hc) as [D Md]. rewrite D, Md. cbn zeta.
    assert (On : forall p, length p = 0 -> on c p = true). { intros p Lp. destruct c as [[r l]|]; [|reflexivity]. cbn. rewrite Lp. reflexivity. }
    destruct (is_zero (M row col)) eqn:Z.
    - split; [apply ewf_zero|]. apply is_zero_spec in Z. intros p q Hp Hq. inversion Hp; inversion Hq; subst. rewrite ev_zero. unfold gbelow. rewrite On by reflexivity. rewrite Z. ring.
    - split; [right; exact I|]. intros p q Hp Hq. inversion Hp; inversion Hq; subst. unfold gbelow. rewrite On by reflexivity. rewrite delta_refl. unfold ev. cbn. ring. }
  destruct (all_below_ok t 0 _ ltac:(lia) I0) as ([es rest] & E & (L & R & I1)). cbn [plus] in E, L, R, I1. rewrite E. eexists. split; [reflexivity|].
  cbn [fst snd] in *. subst rest.
  assert (A : above_inv (S t) (make 0 true false t es, ctl_list c t)).
  { unfold above_inv. cbn [fst snd]. split.
    - destruct c as [[r l]|] eqn:Ec; [|reflexivity]. destruct (c_ok r l eq_refl) as [N _]. cbn [ctl_list]. destruct (Nat.ltb_spec r t), (Nat.ltb_spec r (S t)); try reflexivity; lia.
    - destruct (make_ok true false t es (or_introl eq_refl)) as [Mv Mw]. rewrite L in *. rewrite sizes_S by exact t_lt. fold T. split.
      + rewrite arity_cons. cbn [cols]. apply Mw; [rewrite arity_length, sizes_length by lia; reflexivity|]. intros i Hi.
        assert (Di : i / T < T) by (apply Nat.div_lt_upper_bound; lia). assert (Mi : i mod T < T) by (apply Nat.mod_upper_bound; lia).
        pose proof (proj1 (I1 (i / T) (i mod T) Di Mi)) as Q. replace (i / T * T + i mod T) with i in Q; [exact Q|]. rewrite Nat.mul_comm. apply Nat.div_mod. lia.
      + intros p q Hp Hq. inversion Hp as [|i d' p' ds' Hi Hp' E1 E2]; subst d' ds' p. inversion Hq as [|j d'' q' ds'' Hj Hq' E3 E4]; subst d'' ds'' q.
        cbn [entry cols]. rewrite Mv by (apply index_lt; assumption). rewrite (proj2 (I1 i j Hi Hj) p' q' Hp' Hq'). unfold gbelow, gmat.
        pose proof (valid_length _ _ Hp') as Lp. pose proof (valid_length _ _ Hq') as Lq. rewrite sizes_length in Lp, Lq by lia.
        rewrite on_cons, Lp. assert (Hh : ctl_here c t = None).
        { destruct c as [[r l]|] eqn:Ec; [|reflexivity]. destruct (c_ok r l eq_refl) as [N _]. cbn. destruct (Nat.eqb_spec r t); [contradiction|reflexivity]. }
        rewrite Hh. pose proof (agree_target i j p' q' ltac:(lia)) as Ag. rewrite Lp in Ag. rewrite Ag.
        pose proof (reg_top i p') as R1. rewrite Lp in R1. pose proof (reg_top j q') as R2. rewrite Lq in R2. rewrite R1, R2.
        rewrite delta_cons. unfold eqb_path, delta. destruct (list_eq_dec Nat.eq_dec p' q'), (on c p'); ring. }
  pose proof (above_ok (length dims - S t) (S t) _ ltac:(lia) ltac:(lia) A) as (_ & B1 & B2). replace (S t + (length dims - S t)) with (length dims) in * by lia.
  rewrite sizes_all in *. split; [exact B1|exact B2].
Qed.
End Gate.

(** ** the initial state *)
Lemma zero_state_ok dims : (forall d, In d dims -> 0 < d) ->
  ewf (rev dims) (zero_state 0 dims) /\ forall p, valid (rev dims) p -> ev (zero_state 0 dims) p = delta p (repeat 0 (length dims)).
Proof.
  intros P. unfold zero_state.
  assert (K : forall k v e, v + k <= length dims -> ewf (sizes_below dims v) e ->
    (forall p, valid (sizes_below dims v) p -> ev e p = delta p (repeat 0 v)) ->
    let r := fold_left (fun first v => make 0 false false v (first :: repeat zero_edge (nth v dims 0 - 1))) (seq v k) e in
    ewf (sizes_below dims (v + k)) r /\ forall p, valid (sizes_below dims (v + k)) p -> ev r p = delta p (repeat 0 (v + k))).
  { induction k as [|k IH]; intros v e H W V.
    - cbn. rewrite Nat.add_0_r. split; assumption.
    - cbn [seq fold_left]. replace (v + S k) with (S v + k) by lia. set (d := nth v dims 0). set (es := e :: repeat zero_edge (d - 1)).
      assert (Pd : 0 < d) by (apply P; apply nth_In; lia). assert (Le : length es = d) by (unfold es; cbn; rewrite repeat_length; lia).
      assert (Z : forall i, 0 < i -> edge_at es i = zero_edge).
      { intros [|i] Hi; [lia|]. unfold edge_at, es. cbn. destruct (nth_in_or_default i (repeat zero_edge (d - 1)) zero_edge) as [I|I]; [apply repeat_spec in I; exact I|exact I]. }
      destruct (make_ok false false v es) as [Mv Mw].
      { right. right. intros i j Hi Hj Ni Nj. destruct i as [|i]; [destruct j as [|j]; [reflexivity|]|].
        - exfalso. apply Nj. rewrite Z by lia. reflexivity.
        - exfalso. apply Ni. rewrite Z by lia. reflexivity. }
      rewrite Le in *. apply IH; [lia| |].
      + rewrite sizes_S by lia. fold d. apply Mw; [rewrite sizes_length by lia; reflexivity|]. intros [|i] Hi; [exact W|]. rewrite Z by lia. apply ewf_zero.
      + intros p Hp. rewrite sizes_S in Hp by lia. fold d in Hp. inversion Hp as [|i d' p' ds' Hi Hp' E1 E2]; subst d' ds' p. rewrite Mv by exact Hi. cbn [repeat]. rewrite delta_cons.
        destruct i as [|i].
        * change (edge_at es 0) with e. rewrite V by exact Hp'. unfold mid. cbn. ring.
        * rewrite Z, ev_zero by lia. unfold mid. cbn. ring. }
  destruct (K (length dims) 0 one_edge) as [A B].
  - lia.
  - right. exact I.
  - intros p Hp. inversion Hp; subst. cbn [repeat]. rewrite delta_refl. unfold ev. cbn. ring.
  - cbn zeta in A, B. cbn [plus] in A, B. rewrite sizes_all in *. split; assumption.
Qed.

(** ** reading the amplitudes *)
Lemma fold_mul l : forall a, fold_left Nat.mul l a = a * prodl l.
Proof. induction l as [|d r IH]; intros a; cbn; [lia|]. rewrite IH. lia. Qed.
Lemma write_zero : forall n (e : edge) amp i next (v : vec), Cmul (fst e) amp = C0 -> (forall k, v k = C0) -> forall k, write 0 n e amp i next v k = C0.
Proof.
  induction n as [|n IH]; intros e amp i next v Z V k.
  - cbn. unfold update. destruct (Nat.eqb k i); [exact Z|apply V].
  - cbn [write]. destruct (snd e) as [|u es]; [unfold update; destruct (Nat.eqb k i); [exact Z|apply V]|]. rewrite Z.
    assert (K : forall l (v : vec), (forall k, v k = C0) -> forall k, fold_left (fun (v : vec) k => let ch := edge_at es k in
      if near_zero 0 (fst ch) then v else write 0 n ch C0 (i + k * ((next - i) / length es)) (i + (k + 1) * ((next - i) / length es)) v) l v k = C0).
    { induction l as [|a l IHl]; intros v' V' k'; [apply V'|]. cbn [fold_left]. apply IHl. intros k2. cbn zeta. destruct (near_zero 0 _); [apply V'|]. apply IH; [ring|exact V']. }
    apply K. exact V.
Qed.
Lemma write_ok : forall ds (e : edge) amp i (v : vec), (forall d, In d ds -> 0 < d) -> wf ds (snd e) ->
  (forall k, (k < i \/ i + prodl ds <= k) -> write 0 (length ds) e amp i (i + prodl ds) v k = v k) /\
  ((forall k, i <= k < i + prodl ds -> v k = C0) ->
   forall p, valid ds p -> write 0 (length ds) e amp i (i + prodl ds) v (i + undigits ds p) = Cmul (ev e p) amp).
Proof.
  induction ds as [|d r IH]; intros e amp i v P We.
  - cbn. split.
    + intros k Hk. unfold update. destruct (Nat.eqb_spec k i); [lia|reflexivity].
    + intros _ p Hp. inversion Hp; subst. cbn. rewrite Nat.add_0_r. unfold update. rewrite Nat.eqb_refl. unfold ev. cbn. ring.
  - assert (Pd : 0 < d) by (apply P; left; reflexivity). assert (Pr : 0 < prodl r) by (apply prodl_pos; intros x Hx; apply (P x); right; exact Hx).
    destruct e as [w n]. cbn [fst snd] in *. destruct n as [|u es]; [destruct We|]. pose proof We as We'. destruct We as (_ & Le & _).
    cbn [length write fst snd prodl]. rewrite Le. replace ((i + d * prodl r - i) / d) with (prodl r) by (replace (i + d * prodl r - i) with (prodl r * d) by lia; rewrite Nat.div_mul; lia).
    set (step := fun (v : vec) k => _). set (w' := Cmul w amp).
    assert (K : forall m, m <= d -> 
      (forall k, (k < i \/ i + m * prodl r <= k) -> fold_left step (seq 0 m) v k = v k) /\
      ((forall k, i <= k < i + d * prodl r -> v k = C0) -> forall j p, j < m -> valid r p ->
         fold_left step (seq 0 m) v (i + (j * prodl r + undigits r p)) = Cmul (ev (edge_at es j) p) w')).
    { induction m as [|m IHm]; intros Hm.
      - cbn. split; [reflexivity|]. intros _ j p Hj. lia.
      - rewrite seq_S, fold_left_app. cbn [fold_left plus]. destruct (IHm ltac:(lia)) as [F V]. set (v1 := fold_left step (seq 0 m) v) in *. unfold step. cbn zeta.
        destruct (near_zero 0 (fst (edge_at es m))) eqn:Z.
        + apply near_zero_spec in Z. split.
          * intros k Hk. apply F. nia.
          * intros V0 j p Hj Hp. destruct (Nat.eq_dec j m) as [->|N].
            -- rewrite (ev_weight_0 _ _ Z), Cmul_0_l. rewrite F by lia. apply V0. pose proof (undigits_lt _ _ Hp). nia.
            -- apply V; [exact V0|lia|exact Hp].
        + apply near_zero_false in Z. destruct (ewf_child d r u es m We' ltac:(lia)) as [Q|Q]; [contradiction|].
          destruct (IH (edge_at es m) w' (i + m * prodl r) v1 (fun d' H => P d' (or_intror H)) Q) as [G W].
          replace (i + (m + 1) * prodl r) with (i + m * prodl r + prodl r) by lia. fold w'. split.
          * intros k Hk. rewrite G by nia. apply F. nia.
          * intros V0 j p Hj Hp. pose proof (undigits_lt _ _ Hp) as U. destruct (Nat.eq_dec j m) as [->|N].
            -- rewrite Nat.add_assoc. apply W; [|exact Hp]. intros k Hk. rewrite F by lia. apply V0. nia.
            -- rewrite G by nia. apply V; [exact V0|lia|exact Hp]. }
    destruct (K d (le_n d)) as [F V]. split; [exact F|]. intros V0 p Hp. inversion Hp as [|j d' p' ds' Hj Hp' E1 E2]; subst d' ds' p. cbn [undigits].
    rewrite V by assumption. rewrite ev_node. unfold w'. ring.
Qed.
Lemma get_vector_ok dims (e : edge) : (forall d, In d dims -> 0 < d) -> ewf (rev dims) e ->
  forall p, valid (rev dims) p -> get_vector 0 dims e (undigits (rev dims) p) = ev e p.
Proof.
  intros P We p Hp. unfold get_vector. rewrite fold_mul. destruct We as [Z|We].
  - rewrite (ev_weight_0 _ _ Z). apply write_zero; [rewrite Z; ring|reflexivity].
  - pose proof (write_ok (rev dims) e C1 0 (fun _ => C0) (fun d H => P d (proj2 (in_rev dims d) H)) We) as [_ W].
    rewrite rev_length in W. cbn [plus] in W. replace (1 * prodl dims) with (prodl (rev dims)).
    + rewrite W by (try reflexivity; assumption). ring.
    + clear. induction dims as [|d r IH]; [reflexivity|]. cbn [rev prodl]. rewrite prodl_app, IH. cbn [prodl]. lia.
Qed.
