(** The decision diagram simulator computes the action of the circuit on |0...0>. *)
From Coq Require Import List ZArith Arith Lia Reals Lra String Bool Permutation Sorted.
From Verif Require Import Base.Py Base.Cplx Base.Matrix Base.Radix Base.Fiber Circuit.GateModel Gates.AnglesModel Gates.SingleModel Gates.TwoModel Gates.TwoSpec Gates.SingleProofs Gates.TwoProofs Gates.FactorySpec Gates.ActsOn.
From Verif Require Import Sim.TnModel Sim.TnSpec Sim.TnProofs Misim.DdModel Misim.DdSpec Misim.DdProofs Misim.DdGateProofs Misim.MisimModel Misim.MisimSpec Misim.MisimMatProofs.
Import ListNotations.
Local Open Scope nat_scope.

(** ** basis states and paths *)
Lemma psum_app a b f : psum (a ++ b) f = psum a (fun p => psum b (fun q => f (p ++ q)%list)).
Proof. revert f. induction a as [|d a IH]; intros f; cbn [app psum]; [reflexivity|]. apply csum_ext. intros k _. rewrite IH. reflexivity. Qed.
Definition path (dims : list nat) (k : nat) : list nat := rev (digits dims k).
Lemma psum_csum dims f : psum (rev dims) f = csum (prodl dims) (fun k => f (path dims k)).
Proof.
  revert f. induction dims as [|d r IH]; intros f; cbn [rev prodl].
  - cbn. ring.
  - rewrite psum_app, IH, csum_prod. cbn [psum]. rewrite csum_swap. apply csum_ext. intros i Hi. apply csum_ext. intros k Hk. f_equal.
    unfold path. cbn [digits rev]. rewrite Nat.div_add_l, Nat.div_small, Nat.add_0_r by lia. rewrite Nat.add_comm, Nat.mod_add, Nat.mod_small by lia. reflexivity.
Qed.
Lemma valid_rev ds xs : valid ds xs -> valid (rev ds) (rev xs).
Proof. intros H. induction H; cbn [rev]; [constructor|]. apply valid_app; [assumption|repeat constructor; assumption]. Qed.
Lemma path_valid dims k : k < prodl dims -> valid (rev dims) (path dims k).
Proof. intros H. apply valid_rev, valid_digits. exact H. Qed.
Lemma path_length dims k : List.length (path dims k) = List.length dims.
Proof. unfold path. rewrite rev_length. apply length_digits. Qed.
Lemma path_reg dims k u : u < List.length dims -> reg (path dims k) u = digit dims k u.
Proof. intros H. unfold path, digit. apply reg_rev. rewrite length_digits. exact H. Qed.
Lemma path_inj dims a b : a < prodl dims -> b < prodl dims -> path dims a = path dims b -> a = b.
Proof. intros Ha Hb E. apply (digits_inj dims); [exact Ha|exact Hb|]. unfold path in E. rewrite <- (rev_involutive (digits dims a)), E. apply rev_involutive. Qed.
Lemma path_delta dims a b : a < prodl dims -> b < prodl dims -> delta (path dims a) (path dims b) = mid a b.
Proof.
  intros Ha Hb. unfold mid. destruct (Nat.eqb_spec a b) as [->|N]; [apply delta_refl|]. apply delta_neq. intros E. apply N. apply (path_inj dims); assumption.
Qed.
Lemma path_agree dims t a b : agree_b t (path dims a) (path dims b) = true <-> agree_off dims [t] a b.
Proof.
  rewrite agree_spec, path_length. split.
  - intros H u Hu N. rewrite <- !path_reg by exact Hu. apply H; [exact Hu|]. intros ->. apply N. left. reflexivity.
  - intros H u Hu N. rewrite !path_reg by exact Hu. apply H; [exact Hu|]. intros [E|[]]. congruence.
Qed.
Lemma path_zero dims : (forall d, In d dims -> 0 < d) -> path dims 0 = repeat 0 (List.length dims).
Proof.
  intros P. apply reg_ext; rewrite path_length; [rewrite repeat_length; reflexivity|]. intros u Hu. rewrite path_reg by exact Hu.
  unfold reg. rewrite nth_repeat. unfold digit. clear P. revert u Hu. induction dims as [|d r IH]; intros u Hu; cbn in Hu; [lia|].
  cbn [digits]. destruct (Nat.eq_dec (prodl r) 0) as [E|E].
  - rewrite E. cbn [Nat.div Nat.modulo]. destruct u; [reflexivity|]. cbn [nth]. apply IH. lia.
  - rewrite Nat.div_small, Nat.mod_small by lia. destruct u; [reflexivity|]. cbn [nth]. apply IH. lia.
Qed.
Lemma sub_one dims t k : sub_index dims [t] k = digit dims k t.
Proof. unfold sub_index, sub_dims. cbn. lia. Qed.

Section Register.
Variable dims : list nat.
Hypothesis P : forall d, In d dims -> 0 < d.
Let ds := rev dims.
Lemma Prev : forall d, In d ds -> 0 < d.
Proof. intros d H. apply P. apply in_rev. exact H. Qed.

(** the diagram [e] holds the matrix [A], the vector [v] *)
Definition holds_m (e : edge) (A : mat) : Prop := ewf (arity true ds) e /\
  forall r c, r < prodl dims -> c < prodl dims -> ev e (entry true ds (path dims r) (path dims c)) = A r c.
Definition holds_v (e : edge) (v : vec) : Prop := ewf ds e /\ forall k, k < prodl dims -> ev e (path dims k) = v k.

Section Ptr.
Variable same : node -> node -> bool.
Hypothesis sound : pointers same.
Lemma holds_apply x A y v : holds_m x A -> holds_v y v -> holds_v (multiply2 0 same false ds x y) (mapply (prodl dims) A v).
Proof.
  intros [Wx Vx] [Wy Vy]. destruct (apply_ok same sound ds x y Prev Wx Wy) as [W V]. split; [exact W|]. intros k Hk. rewrite V by (apply path_valid; exact Hk).
  unfold ds at 1. rewrite psum_csum. unfold mapply. apply csum_ext. intros j Hj. rewrite Vx, Vy by assumption. reflexivity.
Qed.
End Ptr.
Lemma holds_adj x A : holds_m x A -> holds_m (conj_transpose 0 ds x) (madj A).
Proof.
  intros [Wx Vx]. destruct (conj_transpose_ok ds x Prev Wx) as [W V]. split; [exact W|]. intros r c Hr Hc. rewrite V by (apply path_valid; assumption). unfold madj. rewrite Vx by assumption. reflexivity.
Qed.
Lemma holds_dag x A b : holds_m x A -> holds_m (dag_dd 0 dims b x) (if b then madj A else A).
Proof. destruct b; [apply holds_adj|trivial]. Qed.
Lemma holds_start : holds_v (zero_state 0 dims) (ket 0).
Proof.
  destruct (zero_state_ok dims P) as [W V]. split; [exact W|]. intros k Hk. rewrite V by (apply path_valid; exact Hk). rewrite <- path_zero by exact P.
  assert (H0 : 0 < prodl dims) by lia. rewrite path_delta by assumption. reflexivity.
Qed.

(** ** single gates *)
Lemma single_acts t M : t < List.length dims ->
  acts_on dims [t] [] [] M (fun r c => gmat t M None (path dims r) (path dims c)).
Proof.
  intros Ht. constructor; intros r c Hr Hc Ha; unfold gmat; cbn [on].
  - intros _. rewrite (proj2 (path_agree dims t r c) Ha). rewrite !sub_one, !path_reg by exact Ht. reflexivity.
  - intros N. exfalso. apply N. reflexivity.
  - destruct (agree_b t _ _) eqn:E; [|reflexivity]. exfalso. apply Ha. apply path_agree. exact E.
Qed.
Lemma gate_holds t M c : t < List.length dims -> (forall r l, c = Some (r, l) -> r <> t /\ (r < t -> l < nth r dims 0)) ->
  exists e, gate_dd 0 dims (nth t dims 0) M (ctl_list c 0) t = Done e /\ holds_m e (fun r k => gmat t M c (path dims r) (path dims k)).
Proof.
  intros Ht Hc. destruct (make_gate_ok dims t M c P Ht Hc) as (e & E & W & V). exists e. unfold gate_dd. rewrite E. split; [reflexivity|]. split; [exact W|].
  intros r k Hr Hk. apply V; apply path_valid; assumption.
Qed.

(** ** gates on two lines *)
Section Two.
Variables (c t : nat).
Hypothesis Hc : c < List.length dims.
Hypothesis Ht : t < List.length dims.
Hypothesis Nct : c <> t.
Let dc := nth c dims 0.
Let dt := nth t dims 0.
Let lt := Nat.ltb c t.
Let ts := if lt then [c; t] else [t; c].
Lemma ts_sub k : sub_index dims ts k = pair_index lt dc dt (digit dims k c) (digit dims k t).
Proof. unfold ts, sub_index, sub_dims, pair_index. destruct lt; cbn; rewrite !Nat.mul_1_r, !Nat.add_0_r; reflexivity. Qed.
Lemma ts_lines : lines_ok dims ts.
Proof.
  unfold ts. split.
  - destruct lt; (constructor; [intros [E|[]]; congruence|repeat constructor; intros []]).
  - destruct lt; intros x [<-|[<-|[]]]; assumption.
Qed.
Lemma ts_in x : In x ts <-> x = c \/ x = t.
Proof. unfold ts. destruct lt; cbn; intuition. Qed.
(** a matrix on the pair that only mixes target levels, block by block *)
Lemma pair_acts (U : nat -> mat) M A :
  (forall i' j' i j, i' < dc -> j' < dt -> i < dc -> j < dt -> M (pair_index lt dc dt i' j') (pair_index lt dc dt i j) = if Nat.eqb i' i then U i' j' j else C0) ->
  (forall r k, r < prodl dims -> k < prodl dims -> A r k = if agree_b t (path dims r) (path dims k) then U (digit dims r c) (digit dims r t) (digit dims k t) else C0) ->
  acts_on dims ts [] [] M A.
Proof.
  intros HM HA. constructor; intros r k Hr Hk Ha.
  - intros _. rewrite HA, !ts_sub by assumption. rewrite HM by (apply digit_lt; assumption).
    destruct (agree_b t (path dims r) (path dims k)) eqn:E.
    + apply path_agree in E. rewrite (E c Hc) by (intros [X|[]]; congruence). rewrite Nat.eqb_refl. reflexivity.
    + destruct (Nat.eqb_spec (digit dims r c) (digit dims k c)) as [Ec|]; [|reflexivity]. exfalso.
      assert (X : agree_b t (path dims r) (path dims k) = true); [|congruence]. apply path_agree. intros i Hi Hn.
      destruct (Nat.eq_dec i c) as [->|Hne]; [exact Ec|]. apply Ha; [exact Hi|]. rewrite ts_in. intros [X|X]; [congruence|]. apply Hn. left. congruence.
  - intros N. exfalso. apply N. reflexivity.
  - rewrite HA by assumption. destruct (agree_b t _ _) eqn:E; [|reflexivity]. exfalso. apply Ha. apply path_agree in E. intros i Hi Hn. apply E; [exact Hi|].
    intros [X|[]]. apply Hn. apply ts_in. right. congruence.
Qed.
Lemma dc_pos : 0 < dc. Proof. apply P, nth_In. exact Hc. Qed.
Lemma dt_pos : 0 < dt. Proof. apply P, nth_In. exact Ht. Qed.

(** the controlled exchange *)
Lemma cx_acts x M N l : cex_array dc dt lt x = Ok M -> meq dt N (cex_op (cx_a x) (cx_b x) (cx_phi x)) -> cx_ctrl x = Z.of_nat l ->
  acts_on dims ts [] [] M (fun r k => gmat t N (Some (c, l)) (path dims r) (path dims k)).
Proof.
  intros HM HN El. pose proof dc_pos as Pc. pose proof dt_pos as Pt.
  apply (pair_acts (fun i => if (Z.of_nat i =? cx_ctrl x)%Z then cex_op (cx_a x) (cx_b x) (cx_phi x) else mid)).
  - intros i' j' i j H1 H2 H3 H4. rewrite (cex_fmat dc dt lt x M Pc Pt HM) by (apply pair_lt; assumption). apply fmat_pair; assumption.
  - intros r k Hr Hk. unfold gmat. cbn [on]. rewrite path_length. destruct (Nat.ltb_spec c (List.length dims)) as [_|]; [|lia]. rewrite !path_reg by assumption. rewrite El.
    destruct (Nat.eqb_spec (digit dims r c) l) as [E|E].
    + rewrite E, Z.eqb_refl. destruct (agree_b t _ _); [|reflexivity]. apply HN; apply digit_lt; assumption.
    + destruct (Z.eqb_spec (Z.of_nat (digit dims r c)) (Z.of_nat l)) as [X|_]; [lia|]. rewrite path_delta by assumption.
      destruct (agree_b t (path dims r) (path dims k)) eqn:Ea.
      * apply path_agree in Ea. unfold mid. destruct (Nat.eqb_spec r k) as [->|Nrk]; [rewrite Nat.eqb_refl; reflexivity|].
        destruct (Nat.eqb_spec (digit dims r t) (digit dims k t)) as [Et|]; [|reflexivity]. exfalso. apply Nrk. apply (digit_ext dims); [exact Hr|exact Hk|].
        intros i Hi. destruct (Nat.eq_dec i t) as [->|Ni]; [exact Et|]. apply Ea; [exact Hi|]. intros [X|[]]. congruence.
      * unfold mid. destruct (Nat.eqb_spec r k) as [->|]; [|reflexivity]. exfalso.
        assert (X : agree_b t (path dims k) (path dims k) = true) by (apply path_agree, agree_refl). congruence.
Qed.

(** ** the controlled sum: shifting the target by an amount that depends on the control *)
Definition setr (j : nat) (q : list nat) : list nat := rev (map (fun u => if Nat.eqb u t then j else reg q u) (seq 0 (List.length q))).
Lemma setr_length j q : List.length (setr j q) = List.length q.
Proof. unfold setr. rewrite rev_length, map_length, seq_length. reflexivity. Qed.
Lemma setr_reg j q u : u < List.length q -> reg (setr j q) u = if Nat.eqb u t then j else reg q u.
Proof. intros H. unfold setr. rewrite reg_rev by (rewrite map_length, seq_length; exact H). apply nth_map_seq. exact H. Qed.
Lemma valid_reg p : List.length p = List.length dims -> (valid ds p <-> forall u, u < List.length dims -> reg p u < nth u dims 0).
Proof.
  intros L. split.
  - intros V u Hu. pose proof (valid_rev _ _ V) as V'. unfold ds in V'. rewrite rev_involutive in V'.
    assert (E : reg p u = nth u (rev p) 0) by (rewrite <- (rev_involutive p) at 1; apply reg_rev; rewrite rev_length; lia). rewrite E. clear E.
    revert V' Hu. generalize (rev p). clear. intros l V. revert u. induction V as [|x d xs es Hx V IH]; intros u Hu; cbn in Hu; [lia|]. destruct u; [exact Hx|]. cbn. apply IH. lia.
  - intros H. rewrite <- (rev_involutive p). apply valid_rev. apply valid_nth; [rewrite rev_length; exact L|]. intros u Hu. rewrite <- reg_rev by (rewrite rev_length; lia). rewrite rev_involutive. apply H. exact Hu.
Qed.
Definition act (s : nat -> nat) (q : list nat) : list nat := setr ((reg q t + s (reg q c)) mod dt) q.
Lemma act_length s q : List.length (act s q) = List.length q. Proof. apply setr_length. Qed.
Lemma act_valid s q : valid ds q -> valid ds (act s q).
Proof.
  intros V. assert (L : List.length q = List.length dims) by (rewrite (valid_length _ _ V); apply rev_length).
  apply valid_reg; [rewrite act_length; exact L|]. intros u Hu. unfold act. rewrite setr_reg by lia. destruct (Nat.eqb_spec u t) as [->|].
  - apply Nat.mod_upper_bound. pose proof dt_pos. lia.
  - apply valid_reg; assumption.
Qed.
Lemma act_act a b q : List.length q = List.length dims -> act a (act b q) = act (fun x => b x + a x) q.
Proof.
  intros L. pose proof dt_pos as Pt. apply reg_ext; rewrite !act_length; [reflexivity|]. intros u Hu. unfold act at 1. rewrite setr_reg by (rewrite act_length; exact Hu).
  unfold act. rewrite !setr_reg by lia. rewrite Nat.eqb_refl. destruct (Nat.eqb_spec c t) as [|_]; [contradiction|].
  destruct (Nat.eqb_spec u t); [|reflexivity]. rewrite Nat.add_mod_idemp_l by lia. f_equal. lia.
Qed.
Definition shift (s : nat -> nat) (p q : list nat) : C := delta p (act s q).
Lemma shift_agree s p q : List.length p = List.length dims -> List.length q = List.length dims ->
  shift s p q = if agree_b t p q && Nat.eqb (reg p t) ((reg q t + s (reg q c)) mod dt) then C1 else C0.
Proof.
  intros Lp Lq. unfold shift. destruct (agree_b t p q && Nat.eqb (reg p t) _) eqn:E.
  - apply andb_true_iff in E as [Ea Et]. apply Nat.eqb_eq in Et. rewrite agree_spec in Ea. replace (act s q) with p; [apply delta_refl|].
    apply reg_ext; [rewrite act_length; lia|]. intros u Hu. unfold act. rewrite setr_reg by lia. destruct (Nat.eqb_spec u t) as [->|N]; [exact Et|]. apply Ea; [exact Hu|exact N].
  - apply delta_neq. intros ->. apply andb_false_iff in E. destruct E as [E|E].
    + assert (X : agree_b t (act s q) q = true); [|congruence]. apply agree_spec. rewrite act_length. intros u Hu N. unfold act. rewrite setr_reg by exact Hu. destruct (Nat.eqb_spec u t); [contradiction|reflexivity].
    + apply Nat.eqb_neq in E. apply E. unfold act at 1. rewrite setr_reg by lia. rewrite Nat.eqb_refl. reflexivity.
Qed.
Lemma shift_ext a b p q : (forall x, x < dc -> a x = b x) -> valid ds q -> shift a p q = shift b p q.
Proof.
  intros H V. unfold shift, act. rewrite H; [reflexivity|]. apply valid_reg; [|exact V|exact Hc]. rewrite (valid_length _ _ V). apply rev_length.
Qed.
Definition holds_s (e : edge) (s : nat -> nat) : Prop := ewf (arity true ds) e /\
  forall p q, valid ds p -> valid ds q -> ev e (entry true ds p q) = shift s p q.
Lemma len p : valid ds p -> List.length p = List.length dims.
Proof. intros V. rewrite (valid_length _ _ V). apply rev_length. Qed.
Lemma ident_shift : holds_s (make_ident 0 ds) (fun _ => 0).
Proof.
  destruct (make_ident_ok ds Prev) as [W V]. split; [exact W|]. intros p q Vp Vq. rewrite V by assumption. unfold shift. f_equal.
  pose proof (len q Vq) as L. apply reg_ext; [rewrite act_length; reflexivity|]. intros u Hu. unfold act. rewrite setr_reg by exact Hu. rewrite Nat.add_0_r.
  destruct (Nat.eqb_spec u t) as [->|]; [|reflexivity]. symmetry. apply Nat.mod_small. apply valid_reg; assumption.
Qed.
Definition only (i x : nat) : nat := if Nat.eqb x i then 1 else 0.
Lemma level_shift i : i < dc -> supported dt = true ->
  exists e, gate_dd 0 dims dt (cpp_x dt) [(c, i)] t = Done e /\ holds_s e (only i).
Proof.
  intros Hi Hs. destruct (make_gate_ok dims t (cpp_x dt) (Some (c, i)) P Ht) as (e & E & W & V).
  { intros r l X. injection X as <- <-. split; [exact Nct|]. intros _. exact Hi. }
  exists e. unfold gate_dd. fold dt in E. change (ctl_list (Some (c, i)) 0) with [(c, i)] in E. rewrite E. split; [reflexivity|]. split; [exact W|].
  intros p q Vp Vq. rewrite V by assumption. pose proof (len p Vp) as Lp. pose proof (len q Vq) as Lq. rewrite shift_agree by assumption.
  unfold gmat. cbn [on]. rewrite Lp. destruct (Nat.ltb_spec c (List.length dims)) as [_|]; [|lia].
  assert (Rp : reg p t < dt) by (apply valid_reg; assumption). assert (Rq : reg q t < dt) by (apply valid_reg; assumption).
  destruct (agree_b t p q) eqn:Ea.
  - pose proof (proj1 (agree_spec t p q) Ea c ltac:(lia) Nct) as Ec. unfold only. rewrite <- Ec. destruct (Nat.eqb_spec (reg p c) i) as [_|_].
    + rewrite cpp_x_ok, x_array_entry by assumption. reflexivity.
    + rewrite Nat.add_0_r, Nat.mod_small by exact Rq. cbn [andb]. destruct (Nat.eqb_spec (reg p t) (reg q t)) as [Et|Et].
      * replace q with p; [apply delta_refl|]. apply reg_ext; [lia|]. intros u Hu. destruct (Nat.eq_dec u t) as [->|N]; [exact Et|]. apply (proj1 (agree_spec t p q) Ea); assumption.
      * apply delta_neq. congruence.
  - cbn [andb]. destruct (Nat.eqb (reg p c) i); [reflexivity|]. apply delta_neq. intros ->. assert (X : agree_b t q q = true) by (apply agree_spec; reflexivity). congruence.
Qed.
Section Ptr2.
Variable same : node -> node -> bool.
Hypothesis sound : pointers same.
Lemma product_shift x a y b : holds_s x a -> holds_s y b -> holds_s (multiply2 0 same true ds x y) (fun z => b z + a z).
Proof.
  intros [Wx Vx] [Wy Vy]. destruct (product_ok same sound ds x y Prev Wx Wy) as [W V]. split; [exact W|]. intros p q Vp Vq. rewrite V by assumption.
  rewrite (psum_ext ds _ (fun m => Cmul (shift a p m) (delta m (act b q)))) by (intros m Vm; rewrite Vx, Vy by assumption; reflexivity).
  rewrite psum_delta_r by (apply act_valid; exact Vq). unfold shift. rewrite act_act by (apply len; exact Vq). reflexivity.
Qed.
Lemma times_shift : forall n g s x a, holds_s g s -> holds_s x a -> holds_s (times 0 same n dims g x) (fun z => a z + n * s z).
Proof.
  induction n as [|n IH]; intros g s x a Hg Hx.
  - cbn [times]. destruct Hx as [W V]. split; [exact W|]. intros p q Vp Vq. rewrite V by assumption. apply shift_ext; [intros; lia|exact Vq].
  - cbn [times]. destruct (IH g s _ _ Hg (product_shift x a g s Hx Hg)) as [W V]. split; [exact W|]. intros p q Vp Vq. fold ds. rewrite V by assumption. apply shift_ext; [intros; lia|exact Vq].
Qed.
Fixpoint total (ls : list nat) (x : nat) : nat := match ls with [] => 0 | i :: r => i * only i x + total r x end.
Lemma levels_shift : supported dt = true -> forall ls x a, (forall i, In i ls -> i < dc) -> holds_s x a ->
  exists e, csum_levels 0 same dims dt c t ls x = Done e /\ holds_s e (fun z => a z + total ls z).
Proof.
  intros Hs. induction ls as [|i ls IH]; intros x a Hl Hx.
  - cbn [csum_levels total]. exists x. split; [reflexivity|]. destruct Hx as [W V]. split; [exact W|]. intros p q Vp Vq. rewrite V by assumption. apply shift_ext; [intros; lia|exact Vq].
  - cbn [csum_levels]. destruct (level_shift i (Hl i (or_introl eq_refl)) Hs) as (g & E & Hg). rewrite E. cbn [cbind].
    destruct (IH (times 0 same i dims g x) _ (fun j Hj => Hl j (or_intror Hj)) (times_shift i g _ x a Hg Hx)) as (e & Ee & [W V]).
    exists e. split; [exact Ee|]. split; [exact W|]. intros p q Vp Vq. rewrite V by assumption. apply shift_ext; [intros; cbn [total]; lia|exact Vq].
Qed.
Lemma total_off ls x : ~ In x ls -> total ls x = 0.
Proof. induction ls as [|i ls IH]; intros H; cbn [total]; [reflexivity|]. rewrite IH by (intros X; apply H; right; exact X). unfold only. destruct (Nat.eqb_spec x i) as [->|]; [exfalso; apply H; left; reflexivity|lia]. Qed.
Lemma total_in ls x : NoDup ls -> In x ls -> total ls x = x.
Proof.
  induction ls as [|i ls IH]; intros N H; [contradiction|]. inversion N as [|i' ls' Hi Hn E1]; subst. cbn [total]. destruct H as [->|H].
  - rewrite total_off by exact Hi. unfold only. rewrite Nat.eqb_refl. lia.
  - rewrite IH by assumption. unfold only. destruct (Nat.eqb_spec x i) as [->|]; [contradiction|lia].
Qed.
Lemma csum_holds dag : supported dt = true -> exists e A, csum_dd 0 same dims c t dag = Done e /\ holds_m e (if dag then madj A else A) /\
  acts_on dims ts [] [] (csum_array dims c t) A.
Proof.
  intros Hs. unfold csum_dd. rewrite (nth_error_nth' dims 0 Ht), (nth_error_nth' dims 0 Hc). fold dt dc. rewrite Hs.
  destruct (levels_shift Hs (seq 0 dc) (make_ident 0 ds) (fun _ => 0)) as (e & E & [W V]); [intros i Hi; apply in_seq in Hi; lia|apply ident_shift|].
  fold ds. rewrite E. cbn [cbind]. exists (dag_dd 0 dims dag e), (fun r k => shift (fun z => z) (path dims r) (path dims k)). split; [reflexivity|]. split.
  - apply holds_dag. split; [exact W|]. intros r k Hr Hk. rewrite V by (apply path_valid; assumption). apply shift_ext; [|apply path_valid; exact Hk].
    intros x Hx. cbn [Nat.add]. apply total_in; [apply seq_NoDup|apply in_seq; lia].
  - pose proof dt_pos as Pt. apply (pair_acts (fun i j' j => if Nat.eqb j' ((i + j) mod dt) then C1 else C0)).
    + intros i' j' i j H1 H2 H3 H4. unfold lt, dc, dt. rewrite csum_entries by assumption. fold dt. destruct (Nat.eqb_spec i' i) as [->|]; reflexivity.
    + intros r k Hr Hk. rewrite shift_agree by apply path_length. rewrite !path_reg by assumption.
      destruct (agree_b t (path dims r) (path dims k)) eqn:Ea; [|reflexivity]. cbn [andb]. apply path_agree in Ea. rewrite (Ea c Hc) by (intros [X|[]]; congruence).
      rewrite (Nat.add_comm (digit dims k t)). reflexivity.
Qed.
End Ptr2.
End Two.

(** ** one instruction *)
Section Run.
Variable same : node -> node -> bool.
Hypothesis sound : pointers same.

Lemma last_two {A} (x y d : A) : last [x; y] d = y. Proof. reflexivity. Qed.
Lemma reads_controls g i : reads dims g i -> i_controls i = None -> control_nats g = [] /\ control_levels g = [].
Proof. intros R E. unfold control_nats, control_levels. rewrite (rd_controls _ _ _ R), E. split; reflexivity. Qed.
Lemma reads_targets g i : reads dims g i -> target_nats g = i_targets i.
Proof. intros R. unfold target_nats. rewrite (rd_targets _ _ _ R), map_map. rewrite <- (map_id (i_targets i)) at 2. apply map_ext. apply Nat2Z.id. Qed.

Lemma single_instr i t M g : i_targets i = [t] -> t < List.length dims -> i_dims i = [nth t dims 0] -> i_tag i <> "cx"%string -> i_tag i <> "csum"%string ->
  (exists N, single_matrix (i_tag i) (i_params i) (Some (nth t dims 0)) = Done (Some N) /\ meq (nth t dims 0) N M) -> g = get_gate 0 same dims i ->
  exists e A, g = Done e /\ holds_m e (if i_dag i then madj A else A) /\ acts_on dims [t] [] [] M A.
Proof.
  intros Et Ht Ed N1 N2 (N & EN & HN) ->. unfold get_gate. rewrite Et, Ed. destruct (String.eqb_spec (i_tag i) "cx") as [|_]; [contradiction|]. destruct (String.eqb_spec (i_tag i) "csum") as [|_]; [contradiction|].
  rewrite EN. cbn [cbind]. destruct (gate_holds t N None Ht) as (e & E & He); [discriminate|]. cbn [ctl_list] in E. rewrite E. cbn [cbind].
  exists (dag_dd 0 dims (i_dag i) e), (fun r k => gmat t N None (path dims r) (path dims k)). split; [reflexivity|]. split; [apply holds_dag; exact He|].
  refine (acts_ext dims [t] [] [] N M _ _ _ _ _ (meq_refl _ _) (single_acts t N Ht)).
  - split; [repeat constructor; intros []|]. intros x [<-|[]]. exact Ht.
  - intros x [].
  - unfold sub_dims. cbn. rewrite Nat.mul_1_r. exact HN.
Qed.
Lemma finish g i ts M A e : reads dims g i -> i_controls i = None -> Permutation ts (i_targets i) -> StronglySorted Peano.lt ts -> g_data g = M ->
  acts_on dims ts [] [] M A -> holds_m e (if i_dag i then madj A else A) -> exists B, matrix_of dims g B /\ holds_m e B.
Proof.
  intros R C Pm So Ed Ha He. exists (if i_dag i then madj A else A). split; [|exact He]. exists ts. rewrite (reads_targets g i R). destruct (reads_controls g i R C) as [-> ->].
  split; [exact Pm|]. split; [exact So|]. unfold core. rewrite (rd_dagger _ _ _ R), Ed. destruct (i_dag i); [|exact Ha].
  apply acts_adj; [|intros x []|exact Ha]. split.
  - apply (Permutation_NoDup (Permutation_sym Pm)). apply (rd_distinct _ _ _ R).
  - intros t Ht. apply (rd_inside _ _ _ R). apply (Permutation_in _ Pm). exact Ht.
Qed.

Lemma instr_ok g i : reads dims g i -> in_scope dims i -> exists e A, get_gate 0 same dims i = Done e /\ matrix_of dims g A /\ holds_m e A.
Proof.
  intros R (Cn & Sd & S1 & S2 & S3). destruct i as [tag dag idims tgs p ctl]. cbn [i_controls i_tag i_params i_targets] in *.
  pose proof (rd_array _ _ _ R) as HA. pose proof (rd_inside _ _ _ R) as HI. pose proof (rd_dims _ _ _ R) as HD. pose proof (rd_distinct _ _ _ R) as HN. cbn [i_tag i_targets i_params i_dims] in HA, HI, HD, HN.
  assert (One : forall t tg, tgs = [t] -> tag = tg -> tg <> "cx"%string -> tg <> "csum"%string ->
     (exists N, single_matrix tg p (Some (nth t dims 0)) = Done (Some N) /\ meq (nth t dims 0) N (g_data g)) ->
     exists e A, get_gate 0 same dims (Instr tg dag idims [t] p ctl) = Done e /\ matrix_of dims g A /\ holds_m e A).
  { intros t tg -> -> N1 N2 HNm. 
    destruct (single_instr (Instr tg dag idims [t] p ctl) t (g_data g) _ eq_refl (HI t (or_introl eq_refl)) HD N1 N2 HNm eq_refl) as (e & A & E & He & Ha).
    destruct (finish g _ [t] _ A e R Cn (Permutation_refl _) (SSorted_cons _ (SSorted_nil _) (Forall_nil _)) eq_refl Ha He) as (B & HB & HeB). exists e, B. repeat split; trivial; apply HeB. }
  inversion HA as [t p' E1 E2 E3 E4|t p' E1 E2 E3 E4|t p' E1 E2 E3 E4|t p' E1 E2 E3 E4|t p' M HM E1 E2 E3 E4|t p' M HM E1 E2 E3 E4|t p' M HM E1 E2 E3 E4|t p' E1 E2 E3 E4|c t p' x M HX HM E1 E2 E3 E4|c t p' E1 E2 E3 E4].
  - subst tgs. apply (One t "x"%string); try congruence. rewrite <- E4. apply x_ok. apply supported_spec. exact Sd.
  - subst tgs. apply (One t "z"%string); try congruence. rewrite <- E4. apply z_ok. apply supported_spec. exact Sd.
  - subst tgs. apply (One t "h"%string); try congruence. rewrite <- E4. apply h_ok. apply supported_spec. exact Sd.
  - subst tgs. apply (One t "s"%string); try congruence. rewrite <- E4. apply s_ok. apply supported_spec. exact Sd.
  - subst tgs. apply (One t "rxy"%string); try congruence. subst M. apply rxy_ok; [apply supported_spec; exact Sd|exact HM|]. apply S1. subst tag. left. reflexivity.
  - subst tgs. apply (One t "rz"%string); try congruence. subst M. apply rz_ok; [apply supported_spec; exact Sd|exact HM|]. apply S1. subst tag. right. left. reflexivity.
  - subst tgs. apply (One t "rh"%string); try congruence. subst M. apply rh_ok; [apply supported_spec; exact Sd|exact HM|]. apply S1. subst tag. right. right. left. reflexivity.
  - subst tgs. apply (One t "virtrz"%string); try congruence. destruct S2 as (a & f & -> & Ha); [congruence|]. rewrite <- E4. apply virtrz_ok; [apply supported_spec; exact Sd|exact Ha].
  - subst tgs tag M p'. destruct (S3 eq_refl) as (a & b & l & rest & -> & Hb & Hl). cbn [last hd] in *.
    pose proof (cex_new_spec _ _ HX) as [Hab _]. unfold cex_new in HX. cbn [get_int nth_error bindr] in HX. destruct rest as [|[z|f|s] rest]; cbn [get_float nth_error bindr] in HX; try discriminate.
    all: try (destruct ((0 <=? a)%Z && (a <? b)%Z) eqn:El; [|discriminate]; destruct (Rle_dec 0 _); [|discriminate]; destruct (Rle_dec _ (2 * PI)); [|discriminate]; injection HX as <-; apply andb_true_iff in El as [El1 El2]; apply Z.leb_le in El1; apply Z.ltb_lt in El2; cbn [cx_a cx_b cx_ctrl cx_phi] in * ).
    assert (Hc : c < List.length dims) by (apply HI; left; reflexivity). assert (Ht : t < List.length dims) by (apply HI; right; left; reflexivity).
    assert (Nct : c <> t) by (inversion HN as [|y ys Hy _]; subst; intros ->; apply Hy; left; reflexivity).
    destruct (emb_x_ok (nth t dims 0) (proj2 (supported_spec _) Sd) f (Z.to_nat a) (Z.to_nat b) ltac:(lia) ltac:(lia)) as (N & EN & HNm).
    assert (Hcl : forall u k, Some (c, Z.to_nat l) = Some (u, k) -> u <> t /\ (u < t -> k < nth u dims 0)) by (intros u k X; injection X as <- <-; split; [exact Nct|lia]).
    destruct (gate_holds t N (Some (c, Z.to_nat l)) Ht Hcl) as (e & E & He).
    assert (Ha : acts_on dims (if Nat.ltb c t then [c; t] else [t; c]) [] [] (g_data g) (fun r k => gmat t N (Some (c, Z.to_nat l)) (path dims r) (path dims k))).
    { apply (cx_acts c t Hc Ht Nct (Cex (Z.to_nat a) (Z.to_nat b) l f)); [exact HM|exact HNm|]. cbn. lia. }
    destruct (finish g _ (if Nat.ltb c t then [c; t] else [t; c]) (g_data g) (fun r k => gmat t N (Some (c, Z.to_nat l)) (path dims r) (path dims k)) (dag_dd 0 dims dag e) R Cn) as (B & HB & HeB); [| |reflexivity|exact Ha|apply holds_dag; exact He|].
    { cbn [i_targets]. destruct (Nat.ltb c t); [apply Permutation_refl|apply perm_swap]. }
    { destruct (Nat.ltb_spec c t); repeat constructor; lia. }
    exists (dag_dd 0 dims dag e), B. split; [|split; [exact HB|exact HeB]].
    unfold get_gate. cbn [i_targets i_tag String.eqb Ascii.eqb Bool.eqb i_params plist cbind i_dag]. rewrite get_size_0, get_size_1, get_size_2 by lia. cbn [cbind get_double nth_error].
    unfold cex_dd. rewrite (nth_error_nth' dims 0 Ht), (proj2 (supported_spec _) Sd), EN. cbn [cbind]. change (ctl_list (Some (c, Z.to_nat l)) 0) with [(c, Z.to_nat l)] in E. rewrite E. reflexivity.
  - subst tgs tag p'. cbn [last hd] in *. assert (Hc : c < List.length dims) by (apply HI; left; reflexivity). assert (Ht : t < List.length dims) by (apply HI; right; left; reflexivity).
    assert (Nct : c <> t) by (inversion HN as [|y ys Hy _]; subst; intros ->; apply Hy; left; reflexivity).
    destruct (csum_holds c t Hc Ht Nct same sound dag (proj2 (supported_spec _) Sd)) as (e & A & E & He & Ha).
    destruct (finish g _ (if Nat.ltb c t then [c; t] else [t; c]) (csum_array dims c t) A e R Cn) as (B & HB & HeB); [| |symmetry; exact E4|exact Ha|exact He|].
    { cbn [i_targets]. destruct (Nat.ltb c t); [apply Permutation_refl|apply perm_swap]. }
    { destruct (Nat.ltb_spec c t); repeat constructor; lia. }
    exists e, B. split; [|split; [exact HB|exact HeB]]. unfold get_gate. cbn [i_targets i_tag String.eqb Ascii.eqb Bool.eqb i_dag]. exact E.
Qed.

(** ** the circuit *)
Lemma evolves_veq gs : forall psi psi' phi, veq (prodl dims) psi psi' -> evolves dims psi gs phi -> evolves dims psi' gs phi.
Proof.
  induction gs as [|g gs IH]; intros psi psi' phi H E; cbn in *.
  - intros k Hk. rewrite (E k Hk). apply H. exact Hk.
  - destruct E as (A & HA & E). exists A. split; [exact HA|]. refine (IH _ _ _ _ E). intros k Hk. unfold mapply. apply csum_ext. intros j Hj. rewrite (H j Hj). reflexivity.
Qed.
Lemma run_ok : forall gs is, Forall2 (reads dims) gs is -> Forall (in_scope dims) is -> forall e v, holds_v e v ->
  exists e' w, run_dd 0 same dims is e = Done e' /\ holds_v e' w /\ evolves dims v gs w.
Proof.
  intros gs is H. induction H as [|g i gs is R H IH]; intros Sc e v Hv.
  - exists e, v. cbn. split; [reflexivity|]. split; [exact Hv|]. intros k _. reflexivity.
  - inversion Sc as [|i' is' Si Ss]; subst. destruct (instr_ok g i R Si) as (x & A & E & HA & Hx). cbn [run_dd]. rewrite E. cbn [cbind].
    destruct (IH Ss _ _ (holds_apply same sound x A e v Hx Hv)) as (e' & w & E' & Hw & Ev). exists e', w. split; [exact E'|]. split; [exact Hw|]. cbn [evolves]. exists A. split; assumption.
Qed.
Lemma no_noise draw : forall is k, generate dims [] draw k is = Done is.
Proof. induction is as [|i is IH]; intros k; cbn [generate]; [reflexivity|]. cbn [find_tag find modes_errors cbind fst snd]. rewrite IH. reflexivity. Qed.
Lemma misim_ok gs is draw : Forall2 (reads dims) gs is -> Forall (in_scope dims) is ->
  exists v, misim 0 same dims [] draw is = Done v /\ evolves dims (ket 0) gs v.
Proof.
  intros HR Sc. destruct (run_ok gs is HR Sc _ _ holds_start) as (e & w & E & [W V] & Ev).
  unfold misim, simulate. cbn [physical existsb]. rewrite no_noise. cbn [cbind]. unfold ddsimulator. rewrite E. cbn [cbind]. eexists. split; [reflexivity|].
  assert (Q : veq (prodl dims) (reverse_axes dims (get_vector 0 dims e)) w).
  { intros k Hk. pose proof (valid_digits dims k Hk) as Vk. rewrite <- (undigits_digits dims k Hk) at 1. rewrite reverse_entry by exact Vk. rewrite get_vector_ok by (try exact P; try exact W; apply valid_rev; exact Vk). apply V. exact Hk. }
  clear - Ev Q. revert Ev. generalize (ket 0). induction gs as [|g gs IH]; intros psi Ev; cbn in *.
  - intros k Hk. rewrite (Q k Hk). apply Ev. exact Hk.
  - destruct Ev as (A & HA & Ev). exists A. split; [exact HA|]. apply IH. exact Ev.
Qed.
End Run.
End Register.
