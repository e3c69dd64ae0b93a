(** States of some of the registers: every layer has one edge that is not zero. *)
From Coq Require Import List Arith Lia Reals Bool.
From Verif Require Import Base.Cplx Base.Radix Misim.DdModel Misim.DdSpec Misim.DdProofs Misim.PartModel Misim.PartSpec.
Import ListNotations.
Local Open Scope nat_scope.

Lemma filter_one f l : forall a n, a <= l < a + n -> (forall i, a <= i < a + n -> f i = Nat.eqb i l) -> filter f (seq a n) = [l].
Proof.
  intros a n. revert a. induction n as [|n IH]; intros a H F; [lia|]. cbn [seq filter]. rewrite (F a) by lia. destruct (Nat.eqb_spec a l) as [->|N].
  - f_equal. assert (G : forall i, In i (seq (S l) n) -> f i = false) by (intros i I; apply in_seq in I; rewrite F by lia; apply Nat.eqb_neq; lia).
    revert G. generalize (seq (S l) n). clear. intros s G. induction s as [|i s IH]; [reflexivity|]. cbn [filter]. rewrite (G i) by (left; reflexivity). apply IH. intros; apply G; right; assumption.
  - apply IH; [lia|]. intros i Hi. apply F. lia.
Qed.
Definition layer (d l : nat) (f : edge) : list edge := tab d (fun i => if Nat.eqb i l then f else zero_edge).
Lemma tab_same {A} n (f g : nat -> A) : (forall i, i < n -> f i = g i) -> tab n f = tab n g.
Proof. intros H. unfold tab. apply map_ext_in. intros i I. apply in_seq in I. apply H. lia. Qed.
Lemma make_layer v d l n : l < d -> make 0 false false v (layer d l (C1, n)) = (C1, Node v (layer d l (C1, n))).
Proof.
  intros L. unfold make, vnormalise. unfold clear. assert (Ln : length (layer d l (C1, n)) = d) by (unfold layer; rewrite tab_length; reflexivity). rewrite Ln.
  rewrite (filter_one _ l).
  2: lia.
  2:{ intros i Hi. unfold layer. rewrite edge_at_tab by lia. destruct (Nat.eqb i l); cbn [fst zero_edge].
      - rewrite (proj2 (near_zero_false C1)); [reflexivity|]. intros E. injection E. apply R1_neq_R0.
      - rewrite (proj2 (near_zero_spec C0)); reflexivity. }
  unfold layer at 1. rewrite edge_at_tab by exact L. rewrite Nat.eqb_refl. cbn [fst]. f_equal. f_equal. apply tab_same. intros i Hi.
  unfold layer. rewrite edge_at_tab by lia. destruct (Nat.eqb_spec i l); reflexivity.
Qed.

Lemma zero_layer d f : 0 < d -> f :: repeat zero_edge (d - 1) = layer d 0 f.
Proof.
  intros H. destruct d as [|d]; [lia|]. unfold layer, tab. cbn [seq map Nat.eqb]. f_equal. replace (S d - 1) with d by lia. clear H. rewrite <- seq_shift, map_map.
  cbn [Nat.eqb]. generalize 0 as a. induction d as [|d IH]; intros a; [reflexivity|]. cbn [repeat seq map]. f_equal. apply IH.
Qed.
Lemma part_S (l : list nat) start m : start + m < length l -> part l start (S m) = part l start m ++ [nth (start + m) l 0].
Proof.
  unfold part. revert start. induction l as [|a l IH]; intros start H; [cbn in H; lia|]. destruct start as [|start].
  - cbn [skipn Nat.add]. clear IH. revert a l H. induction m as [|m IHm]; intros a l H; [reflexivity|]. cbn [Nat.add] in H. destruct l as [|b l]; [cbn in H; lia|].
    change (firstn (S (S m)) (a :: b :: l)) with (a :: firstn (S m) (b :: l)). rewrite IHm by (cbn in *; lia). reflexivity.
  - cbn [skipn Nat.add nth]. apply IH. cbn in H. lia.
Qed.
Lemma part_length (l : list nat) start m : start + m <= length l -> length (part l start m) = m.
Proof. intros H. unfold part. rewrite firstn_length, skipn_length. lia. Qed.

Section Part.
Variable dims : list nat.
Variable start : nat.
Definition stage (m : nat) (ls : list nat) (x : node) : Prop :=
  on_registers (rev (seq start m)) x /\ forall p, valid (part dims start m) p -> ev (C1, x) (rev p) = if list_eq_dec Nat.eq_dec p ls then C1 else C0.
Lemma stage_0 : stage 0 [] Term.
Proof. split; [exact I|]. intros p H. unfold part in H. cbn [firstn] in H. inversion H; subst. unfold ev. cbn. destruct (list_eq_dec Nat.eq_dec [] []); [|contradiction]. ring. Qed.
Lemma stage_S m ls x l : stage m ls x -> length ls = m -> start + m < length dims -> l < nth (start + m) dims 0 ->
  stage (S m) (ls ++ [l]) (Node (start + m) (layer (nth (start + m) dims 0) l (C1, x))).
Proof.
  intros [O V] Ll H Hl. split.
  - rewrite seq_S, rev_app_distr. cbn [rev app on_registers]. split; [reflexivity|]. apply Forall_forall. intros e I. unfold layer, tab in I. apply in_map_iff in I as (i & <- & _).
    destruct (Nat.eqb i l); [right; exact O|left; reflexivity].
  - intros p Hp. rewrite part_S in Hp by exact H. apply Forall2_app_inv_r in Hp as (q & r & Hq & Hr & ->).
    inversion Hr as [|i d r' ds Hi Hr' E1 E2]; subst. inversion Hr'; subst. rewrite rev_app_distr. cbn [rev app]. rewrite ev_node. unfold layer. rewrite edge_at_tab by exact Hi.
    destruct (Nat.eqb_spec i l) as [->|N].
    + rewrite V by exact Hq. destruct (list_eq_dec Nat.eq_dec q ls) as [->|Nq]; destruct (list_eq_dec Nat.eq_dec _ _) as [E|E]; try ring; [contradiction E; reflexivity|].
      exfalso. apply Nq. apply app_inj_tail in E as [E _]. exact E.
    + destruct (list_eq_dec Nat.eq_dec _ _) as [E|E]; [exfalso; apply app_inj_tail in E as [_ E]; contradiction|]. unfold ev, zero_edge. cbn [fst]. ring.
Qed.
Lemma basis_run levels : forall k m ls x, start + m + k <= length dims -> stage m ls x -> length ls = m ->
  (forall v, start + m <= v < start + m + k -> exists l, nth_error levels v = Some l /\ l < nth v dims 0) ->
  exists y, basis_layers 0 dims levels (seq (start + m) k) (C1, x) = Some (C1, y) /\ stage (m + k) (ls ++ part levels (start + m) k) y.
Proof.
  induction k as [|k IH]; intros m ls x H St Ll G; cbn [seq basis_layers].
  - exists x. split; [reflexivity|]. unfold part. cbn [firstn]. rewrite Nat.add_0_r, app_nil_r. exact St.
  - destruct (G (start + m) ltac:(lia)) as (l & E & Hl). rewrite E. rewrite (proj2 (Nat.ltb_lt _ _) Hl).
    change (tab (nth (start + m) dims 0) (fun i => if Nat.eqb i l then (C1, x) else zero_edge)) with (layer (nth (start + m) dims 0) l (C1, x)). rewrite make_layer by exact Hl.
    destruct (IH (S m) (ls ++ [l]) (Node (start + m) (layer (nth (start + m) dims 0) l (C1, x)))) as (y & Ey & Sy); [lia|apply stage_S; auto; lia|rewrite app_length; cbn; lia| |].
    + intros v Hv. apply G. lia.
    + exists y. rewrite Nat.add_succ_r in Ey. split; [exact Ey|]. replace (m + S k) with (S m + k) by lia.
      replace (part levels (start + m) (S k)) with ([l] ++ part levels (start + S m) k); [rewrite app_assoc; exact Sy|].
      unfold part. replace (start + S m) with (S (start + m)) by lia. clear - E. revert E. generalize (start + m) as u. induction levels as [|a r IH]; intros [|u] E; cbn in E; try discriminate.
      * injection E as ->. reflexivity.
      * cbn [skipn]. apply IH. exact E.
Qed.
Lemma basis_fails levels : forall vs f, (exists v, In v vs /\ forall l, nth_error levels v = Some l -> nth v dims 0 <= l) -> basis_layers 0 dims levels vs f = None.
Proof.
  induction vs as [|v vs IH]; intros f (u & I & N); [destruct I|]. cbn [basis_layers]. destruct (nth_error levels v) as [l|] eqn:E; [|reflexivity].
  destruct (Nat.ltb_spec l (nth v dims 0)) as [L|L]; [|reflexivity]. apply IH. destruct I as [->|I]; [specialize (N l E); lia|]. exists u. auto.
Qed.
Lemma zero_run : (forall d, In d dims -> 0 < d) -> forall k m ls x, start + m + k <= length dims -> stage m ls x -> length ls = m ->
  exists y, zero_layers 0 dims (seq (start + m) k) (C1, x) = (C1, y) /\ stage (m + k) (ls ++ repeat 0 k) y.
Proof.
  intros P. induction k as [|k IH]; intros m ls x H St Ll; cbn [seq zero_layers].
  - exists x. split; [reflexivity|]. cbn [repeat]. rewrite Nat.add_0_r, app_nil_r. exact St.
  - assert (Pd : 0 < nth (start + m) dims 0) by (apply P, nth_In; lia). rewrite zero_layer by exact Pd. rewrite make_layer by exact Pd.
    destruct (IH (S m) (ls ++ [0]) (Node (start + m) (layer (nth (start + m) dims 0) 0 (C1, x)))) as (y & Ey & Sy); [lia|apply stage_S; auto; lia|rewrite app_length; cbn; lia|].
    exists y. rewrite Nat.add_succ_r in Ey. split; [exact Ey|]. replace (m + S k) with (S m + k) by lia. cbn [repeat]. rewrite <- app_assoc in Sy. exact Sy.
Qed.
End Part.
Lemma zero_right dims n start : (forall d, In d dims -> 0 < d) -> n + start <= length dims ->
  exists e, make_zero_state 0 dims n start = Made e /\ is_basis_state dims start n (repeat 0 n) e.
Proof.
  intros P H. unfold make_zero_state. rewrite (proj2 (Nat.ltb_ge _ _) H). destruct (zero_run dims start P n 0 [] Term) as (y & E & S); [lia|apply stage_0|reflexivity|].
  rewrite Nat.add_0_r in E. exists (C1, y). unfold one_edge. rewrite E. split; [reflexivity|]. exact S.
Qed.
Lemma basis_right dims n levels start : n + start <= length dims -> levels_given dims levels start n ->
  exists e, make_basis_state 0 dims n levels start = Made e /\ is_basis_state dims start n (part levels start n) e.
Proof.
  intros H G. unfold make_basis_state. rewrite (proj2 (Nat.ltb_ge _ _) H). destruct (basis_run dims start levels n 0 [] Term) as (y & E & S); [lia|apply stage_0|reflexivity|rewrite Nat.add_0_r; exact G|].
  rewrite Nat.add_0_r in E, S. exists (C1, y). unfold one_edge. rewrite E. split; [reflexivity|]. exact S.
Qed.
Lemma basis_wrong dims n levels start v : n + start <= length dims -> start <= v < start + n -> (forall l, nth_error levels v = Some l -> nth v dims 0 <= l) ->
  make_basis_state 0 dims n levels start = BadLevels.
Proof.
  intros H Hv N. unfold make_basis_state. rewrite (proj2 (Nat.ltb_ge _ _) H). rewrite basis_fails; [reflexivity|]. exists v. split; [apply in_seq; lia|exact N].
Qed.
