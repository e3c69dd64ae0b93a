(** Sessions: every state of the program is the diagram in normal form of what it means, and what is read from it is right. *)
From Coq Require Import List Arith Lia Reals Lra Bool Sorted FunctionalExtensionality.
From Verif Require Import Base.Cplx Base.Matrix Base.Radix Sim.TnModel Misim.DdModel Misim.DdSpec Misim.DdProofs Misim.DdGateProofs
  Misim.MisimModel Misim.NodeModel Misim.NodeSpec Misim.NodeShapeProofs Misim.NodeProofs Misim.ControlsProofs Misim.CanonProofs
  Misim.SessionModel Misim.SessionSpec.
Import ListNotations.
Local Open Scope nat_scope.

(** ** sums over basis states *)
Lemma psum_app a b f : psum (a ++ b) f = psum a (fun p => psum b (fun q => f (p ++ q))).
Proof. revert f. induction a as [|d r IH]; intros f; [reflexivity|]. cbn [app psum]. apply csum_ext. intros i Hi. apply IH. Qed.
Lemma psum_csum ds n f : psum ds (fun q => csum n (fun i => f i q)) = csum n (fun i => psum ds (fun q => f i q)).
Proof.
  induction n as [|n IH]; cbn [csum]; [apply psum_0|]. rewrite <- IH. apply psum_add.
Qed.
Lemma psum_rev dims : forall f, psum (rev dims) f = psum dims (fun p => f (rev p)).
Proof.
  induction dims as [|d r IH]; intros f; [reflexivity|]. cbn [rev psum]. rewrite psum_app, IH. cbn [psum]. rewrite psum_csum. reflexivity.
Qed.
Lemma valid_rev ds p : valid ds p -> valid (rev ds) (rev p).
Proof. intros H. induction H as [|x d xs ds Hx H IH]; [constructor|]. cbn [rev]. apply Forall2_app; [exact IH|]. constructor; [exact Hx|constructor]. Qed.
Lemma valid_cons d r i q : valid (d :: r) (i :: q) <-> i < d /\ valid r q.
Proof. split; [intros H; inversion H; auto|intros [A B]; constructor; assumption]. Qed.

Lemma change_length p : forall t j, length (change p t j) = length p.
Proof. induction p as [|i p IH]; intros [|t] j; cbn; auto. Qed.
Lemma change_nth p : forall t j u, t < length p -> nth u (change p t j) 0 = if Nat.eqb u t then j else nth u p 0.
Proof. induction p as [|i p IH]; intros [|t] j [|u] H; cbn in *; try lia; try reflexivity. apply IH. lia. Qed.
Lemma change_same p : forall t, change p t (nth t p 0) = p.
Proof. induction p as [|i p IH]; intros [|t]; cbn; [reflexivity|reflexivity|reflexivity|]. rewrite IH. reflexivity. Qed.
Lemma change_valid ds p : valid ds p -> forall t j, j < nth t ds 0 -> valid ds (change p t j).
Proof.
  intros H. induction H as [|x d xs ds Hx H IH]; intros [|t] j Hj; cbn [change nth] in *; try constructor; try assumption. apply IH. exact Hj.
Qed.
Lemma psum_change dims : forall p t g, valid dims p -> t < length dims ->
  psum dims (fun q => if list_eq_dec Nat.eq_dec q (change p t (nth t q 0)) then g q else C0) = csum (nth t dims 0) (fun j => g (change p t j)).
Proof.
  induction dims as [|d r IH]; intros p t g Hp Ht; [cbn in Ht; lia|]. destruct p as [|i p]; [inversion Hp|]. apply valid_cons in Hp. destruct Hp as [Hi Hp]. destruct t as [|t]; cbn [psum nth].
  - apply csum_ext. intros j Hj. rewrite (psum_ext r _ (fun q => Cmul (delta p q) (g (j :: q)))); [apply (psum_delta r p (fun q => g (j :: q)) Hp)|].
    intros q Hq. cbn [change]. unfold delta. destruct (list_eq_dec Nat.eq_dec p q) as [->|N]; destruct (list_eq_dec Nat.eq_dec (j :: q) (j :: _)) as [E|E]; try congruence; try ring.
  - rewrite (csum_single d _ i Hi).
    + cbn [change nth]. rewrite <- (IH p t (fun q => g (i :: q)) Hp ltac:(cbn in Ht; lia)). apply psum_ext. intros q Hq. cbn [change].
      destruct (list_eq_dec Nat.eq_dec (i :: q) (i :: _)) as [E|E]; destruct (list_eq_dec Nat.eq_dec q _) as [E'|E']; try reflexivity; congruence.
    + intros k Hk N. rewrite (psum_ext r _ (fun _ => C0)); [apply psum_0|]. intros q Hq. cbn [change]. destruct (list_eq_dec Nat.eq_dec (k :: q) (i :: _)) as [E|E]; [congruence|reflexivity].
Qed.

(** ** gates *)
Lemma gsmat_entry A c t p q : length p = length q -> t < length p -> (forall r l, In (r, l) c -> r < length p) -> gsmat t A c (rev p) (rev q) = gate_entry A c t p q.
Proof.
  intros L Ht Hc. unfold gsmat, gate_entry.
  replace (ons c (rev p)) with (satisfied c p).
  2:{ unfold ons, satisfied. rewrite rev_length. induction c as [|[r l] c IH]; [reflexivity|]. cbn [forallb fst snd]. rewrite IH by (intros; eapply Hc; right; eassumption).
      pose proof (Hc r l (or_introl eq_refl)) as Hr. rewrite (proj2 (Nat.ltb_lt _ _) Hr), reg_rev by exact Hr. reflexivity. }
  destruct (satisfied c p).
  - destruct (agree_b t (rev p) (rev q)) eqn:E; destruct (list_eq_dec Nat.eq_dec q (change p t (nth t q 0))) as [Q|Q].
    + rewrite !reg_rev by lia. reflexivity.
    + exfalso. apply Q. apply agree_spec with (t := t) in E || idtac. rewrite agree_spec in E. rewrite rev_length in E.
      apply list_nth_ext; [rewrite change_length; lia|]. intros u Hu. rewrite change_nth by lia. destruct (Nat.eqb_spec u t) as [->|N]; [reflexivity|].
      specialize (E u ltac:(lia) N). rewrite !reg_rev in E by lia. auto.
    + exfalso. assert (E' : agree_b t (rev p) (rev q) = true); [|congruence]. apply agree_spec. rewrite rev_length. intros u Hu N. rewrite !reg_rev by lia.
      rewrite Q at 1. rewrite change_nth by lia. destruct (Nat.eqb_spec u t); [contradiction|reflexivity].
    + reflexivity.
  - unfold delta. destruct (list_eq_dec Nat.eq_dec (rev p) (rev q)) as [Q|Q]; destruct (list_eq_dec Nat.eq_dec p q) as [Q'|Q']; try reflexivity.
    + exfalso. apply Q'. rewrite <- (rev_involutive p), <- (rev_involutive q), Q. reflexivity.
    + congruence.
Qed.
Lemma applied_sum dims A c t x p : valid dims p -> t < length dims -> psum dims (fun q => Cmul (gate_entry A c t p q) (x q)) = applied dims A c t x p.
Proof.
  intros Hp Ht. unfold applied, gate_entry. destruct (satisfied c p).
  - rewrite <- (psum_change dims p t (fun q => Cmul (A (nth t p 0) (nth t q 0)) (x q)) Hp Ht) || idtac.
    transitivity (psum dims (fun q => if list_eq_dec Nat.eq_dec q (change p t (nth t q 0)) then Cmul (A (nth t p 0) (nth t q 0)) (x q) else C0)).
    + apply psum_ext. intros q _. destruct (list_eq_dec Nat.eq_dec q _); [reflexivity|ring].
    + rewrite (psum_change dims p t (fun q => Cmul (A (nth t p 0) (nth t q 0)) (x q)) Hp Ht). apply csum_ext. intros j Hj.
      rewrite change_nth by (rewrite (valid_length _ _ Hp); exact Ht). rewrite Nat.eqb_refl. reflexivity.
  - apply psum_delta. exact Hp.
Qed.

(** ** normal forms are diagrams *)
Lemma nf_okn t : forall ds n, nf ds n -> okn false t ds n.
Proof.
  induction ds as [|d r IH]; intros [|v es] H; try (destruct H; fail); [exact I|]. apply nf_cons in H. destruct H as (-> & L & _ & H). apply okn_cons. split; [reflexivity|]. split; [cbn; lia|].
  cbn [cols]. rewrite Nat.mul_1_r. intros i Hi. destruct (H i Hi) as [E|[N O]]; [left; exact E|right]. split; [exact N|]. split; [discriminate|apply IH; exact O].
Qed.
Lemma nfe_oke t ds e : nfe ds e -> oke false t ds e.
Proof. intros [->|[N O]]; [left; reflexivity|right; split; [exact N|apply nf_okn; exact O]]. Qed.
Lemma nf_wf : forall ds n, nf ds n -> wf ds n.
Proof.
  induction ds as [|d r IH]; intros [|v es] H; try (destruct H; fail); [exact I|]. apply nf_cons in H. destruct H as (-> & L & _ & H). split; [reflexivity|]. split; [exact L|].
  apply Forall_forall. intros e He. apply (In_nth _ _ zero_edge) in He. destruct He as (i & Hi & <-). change (nth i es zero_edge) with (edge_at es i).
  destruct (H i ltac:(lia)) as [E|[N O]]; [left; rewrite E; reflexivity|right; apply IH; exact O].
Qed.
Lemma nfe_ewf ds e : nfe ds e -> ewf ds e.
Proof. intros [->|[N O]]; [left; reflexivity|right; apply nf_wf; exact O]. Qed.

Section Session.
Variable dims : list nat.
Hypothesis pos : forall d, In d dims -> 0 < d.
Variable uhash : bool -> list aedge -> nat.
Variable ahash : bool -> aedge -> aedge -> nat.
Variable mhash : bool -> ref -> ref -> nat.
Variable ihash : ref -> ref -> nat.
Notation sizes := (sizes_below dims).
Notation sgood := (sgood dims uhash).
Notation refines := (refines dims uhash).

(** the edge is the diagram of the state *)
Definition stands (s : store) (e : aedge) (x : state) : Prop :=
  exists f, dene (heaps s false) e f /\ nfe (rev dims) f /\ forall p, valid dims p -> ev f (rev p) = x p.
Lemma stands_ext s s' e x : sext s s' -> stands s e x -> stands s' e x.
Proof. intros X (f & D & N & V). exists f. split; [eapply dene_ext; [apply X|exact D]|]. auto. Qed.
Definition makes (s : store) (c : M aedge) (x : state) : Prop := exists e s', c s = Done (e, s') /\ sgood s' /\ sext s s' /\ stands s' e x.
Lemma makes_of s c f x : refines s false c f -> nfe (rev dims) f -> (forall p, valid dims p -> ev f (rev p) = x p) -> makes s c x.
Proof. intros (e & s' & E & G & X & D) N V. exists e, s'. split; [exact E|]. split; [exact G|]. split; [exact X|]. exists f. auto. Qed.

Lemma gate_right s d A c t : sgood s -> gate_fits dims d c t -> exists f, refines s true (gate_m 0 dims uhash d A c t) f /\ oke true t (rev dims) f /\ ewf (arity true (rev dims)) f /\
  forall p q, valid dims p -> valid dims q -> ev f (entry true (rev dims) (rev p) (rev q)) = gate_entry A c t p q.
Proof.
  intros G (Ht & -> & O & Hc). destruct (make_gates_ok dims t A c pos Ht O) as (f & E & W & V); [intros r l I; destruct (Hc r l I) as (_ & N & L); auto|].
  exists f. pose proof (gate_matches dims pos uhash s (nth t dims 0) A c t G) as K. unfold gate_dd in K. rewrite E in K. split; [exact K|].
  split; [apply (gate_oke dims pos (nth t dims 0) A c t); unfold gate_dd; rewrite E; reflexivity|]. split; [exact W|]. intros p q Hp Hq.
  rewrite V by (apply valid_rev; assumption). apply gsmat_entry; rewrite ?(valid_length _ _ Hp), ?(valid_length _ _ Hq); [reflexivity|exact Ht|]. intros r l I. apply (Hc r l I).
Qed.
Lemma apply_makes s d A c t e x : sgood s -> gate_fits dims d c t -> stands s e x ->
  makes s (let* g := gate_m 0 dims uhash d A c t in mul_m 0 dims uhash ahash mhash false (rev dims) g e) (applied dims A c t x).
Proof.
  intros G Fi (f & D & N & V). destruct (gate_right s d A c t G Fi) as (g & Rg & Og & Wg & Vg).
  pose proof Fi as (Ht & _). apply (makes_of s _ (multiply2 0 node_eqb false (rev dims) g f)).
  - eapply (refines_bind dims uhash s true false); [exact Rg|]. intros ga s' G' X' Dg. rewrite <- !sizes_all in *. eapply (mul_refines dims pos uhash ahash mhash false t); [lia|exact G'|exact Dg| |exact Og|].
    + eapply dene_ext; [apply X'|exact D].
    + apply nfe_oke. exact N.
  - apply (multiply2_nf node_eqb t); assumption.
  - intros p Hp. assert (Same : forall a b, node_eqb a b = true -> a = b) by (intros a b; apply node_eqb_spec).
    destruct (apply_ok node_eqb Same (rev dims) g f) as [_ K]; [intros d' H; apply pos; apply in_rev; exact H|exact Wg|apply nfe_ewf; exact N|].
    rewrite K by (apply valid_rev; exact Hp). rewrite psum_rev. rewrite <- (applied_sum dims A c t x p Hp Ht). apply psum_ext. intros q Hq. rewrite Vg, V by assumption. reflexivity.
Qed.
Lemma sum_makes s e x e' x' : sgood s -> stands s e x -> stands s e' x' -> makes s (add_m 0 dims uhash ahash false (length dims) e e') (plus_state x x').
Proof.
  intros G (f & D & N & V) (f' & D' & N' & V'). assert (L : length dims = length (rev dims)) by (rewrite rev_length; reflexivity).
  apply (makes_of s _ (add2 0 node_eqb false (length dims) f f')).
  - eapply (add_refines dims pos uhash ahash false 0); [lia|exact G|exact D|exact D'| |]; rewrite sizes_all; apply nfe_oke; assumption.
  - rewrite L. apply add2_nf; assumption.
  - intros p Hp. assert (Same : forall a b, node_eqb a b = true -> a = b) by (intros a b; apply node_eqb_spec).
    destruct (add2_ok node_eqb Same false (rev dims) (length dims) f f') as [_ K]; [lia|apply nfe_ewf; exact N|apply nfe_ewf; exact N'|].
    rewrite K by (apply valid_rev; exact Hp). rewrite V, V' by exact Hp. reflexivity.
Qed.

(** basis states: the layers, as diagrams *)
Definition basis_edge (levels : list nat) (v : nat) (f : edge) : edge :=
  make 0 false false v (tab (nth v dims 0) (fun i => if Nat.eqb i (nth v levels 0) then f else zero_edge)).
Lemma basis_amo levels v f : at_most_one (tab (nth v dims 0) (fun i => if Nat.eqb i (nth v levels 0) then f else zero_edge)).
Proof.
  intros i j Hi Hj. rewrite tab_length in *. rewrite !edge_at_tab by assumption. destruct (Nat.eqb_spec i (nth v levels 0)); destruct (Nat.eqb_spec j (nth v levels 0)); cbn [fst zero_edge]; intros; congruence.
Qed.
Lemma basis_refines levels : valid dims levels -> forall k v s e f, v + k = length dims -> sgood s -> dene (heaps s false) e f ->
  nfe (sizes v) f -> (forall p, valid (sizes v) p -> ev f p = delta p (rev (firstn v levels))) ->
  makes s (basis_layers 0 dims uhash levels (seq v k) e) (basis_state levels).
Proof.
  intros HL. induction k as [|k IH]; intros v s e f Hv G D N V; cbn [seq basis_layers].
  - rewrite Nat.add_0_r in Hv. subst v. rewrite sizes_all in *. exists e, s. split; [reflexivity|]. split; [exact G|]. split; [apply sext_refl|]. exists f. split; [exact D|]. split; [exact N|].
    intros p Hp. rewrite V by (apply valid_rev; exact Hp). unfold delta, basis_state. rewrite <- (valid_length _ _ HL), firstn_all.
    destruct (list_eq_dec Nat.eq_dec (rev p) (rev levels)) as [Q|Q]; destruct (list_eq_dec Nat.eq_dec p levels) as [Q'|Q']; try reflexivity; [|congruence].
    exfalso. apply Q'. rewrite <- (rev_involutive p), <- (rev_involutive levels), Q. reflexivity.
  - pose proof (valid_length _ _ HL) as LL. assert (Hn : v < length levels) by lia. rewrite (nth_error_nth' levels 0 Hn).
    assert (Hl : nth v levels 0 < nth v dims 0). { clear -HL Hn. revert v Hn. induction HL as [|x d xs ds Hx H IH]; intros [|v] Hn; cbn in *; try lia. apply IH. lia. }
    rewrite (proj2 (Nat.ltb_lt _ _) Hl). set (l := nth v levels 0) in *. set (dd := nth v dims 0) in *. set (fs := tab dd (fun i => if Nat.eqb i l then f else zero_edge)).
    assert (Nl : nfl dd (sizes v) fs).
    { apply nfl_tab. intros i Hi. destruct (Nat.eqb i l); [exact N|apply nfe_zero]. }
    assert (Ol : okl false 0 dd (sizes v) fs).
    { split; [unfold fs; rewrite tab_length; cbn; lia|]. cbn [cols]. rewrite Nat.mul_1_r. intros i Hi. unfold fs. rewrite edge_at_tab by exact Hi. destruct (Nat.eqb i l); [|left; reflexivity].
      destruct (nfe_oke 0 _ _ N) as [E|[A B]]; [left; exact E|right]. split; [exact A|]. split; [discriminate|exact B]. }
    destruct (make_refines dims pos uhash s false false 0 v (tab dd (fun i => if Nat.eqb i l then e else zero_a)) fs G ltac:(lia)) as (e' & s' & E & G' & X' & D'); [|exact Ol|].
    { apply (rell_tab ref node (den (heaps s false))). intros i Hi. destruct (Nat.eqb i l); [exact D|]. split; [reflexivity|constructor]. }
    destruct (make_ok false false v fs) as [M1 M2]; [right; right; apply (basis_amo levels v f)|].
    assert (Ls : length (sizes v) = v) by (apply sizes_length; lia).
    assert (N' : nfe (sizes (S v)) (make 0 false false v fs)).
    { rewrite sizes_S by lia. fold dd. rewrite <- Ls at 2. apply make_nf; [right; apply (basis_amo levels v f)|exact Nl]. }
    destruct (IH (S v) s' e' (make 0 false false v fs) ltac:(lia) G' D' N') as (e2 & s2 & E2 & G2 & X2 & S2).
    + intros p Hp. rewrite sizes_S in Hp by lia. destruct p as [|i p]; [inversion Hp|]. apply valid_cons in Hp. destruct Hp as [Hi Hp].
      rewrite M1 by (unfold fs; rewrite tab_length; exact Hi). unfold fs. rewrite edge_at_tab by exact Hi.
      assert (Ef : rev (firstn (S v) levels) = l :: rev (firstn v levels)).
      { unfold l. clear -Hn. revert v Hn. induction levels as [|x r IH]; intros [|v] Hn; cbn in *; try lia; [reflexivity|]. rewrite IH by lia. reflexivity. }
      rewrite Ef. unfold delta. destruct (Nat.eqb_spec i l) as [->|Ni].
      * rewrite V by exact Hp. unfold delta. destruct (list_eq_dec Nat.eq_dec p _) as [Q|Q]; destruct (list_eq_dec Nat.eq_dec (l :: p) _) as [Q'|Q']; try reflexivity; congruence.
      * rewrite ev_weight_0 by reflexivity. destruct (list_eq_dec Nat.eq_dec (i :: p) _) as [Q'|Q']; [congruence|reflexivity].
    + exists e2, s2. split; [unfold bind; fold dd l; rewrite E; exact E2|]. split; [exact G2|]. split; [eapply sext_trans; eassumption|exact S2].
Qed.
Lemma basis_makes s levels : sgood s -> valid dims levels -> makes s (basis_m 0 dims uhash levels) (basis_state levels).
Proof.
  intros G HL. apply (basis_refines levels HL (length dims) 0 s one_a one_edge); [lia|exact G|split; [reflexivity|constructor]| |].
  - right. split; [apply C1_neq_C0|exact I].
  - intros p Hp. inversion Hp; subst. unfold delta. cbn [firstn rev]. destruct (list_eq_dec Nat.eq_dec [] []); [unfold ev; cbn [fst snd one_edge val]; ring|congruence].
Qed.
(** makeZeroState builds the same layers *)
Lemma zero_layers_basis : forall k v e, v + k <= length dims -> zero_layers 0 dims uhash (seq v k) e = basis_layers 0 dims uhash (repeat 0 (length dims)) (seq v k) e.
Proof.
  induction k as [|k IH]; intros v e Hv; [reflexivity|]. cbn [seq zero_layers basis_layers].
  rewrite (nth_error_nth' (repeat 0 (length dims)) 0) by (rewrite repeat_length; lia). rewrite nth_repeat.
  assert (P : 0 < nth v dims 0) by (apply pos, nth_In; lia). rewrite (proj2 (Nat.ltb_lt _ _) P).
  replace (tab (nth v dims 0) (fun i => if Nat.eqb i 0 then e else zero_a)) with (e :: repeat zero_a (nth v dims 0 - 1)).
  - unfold bind. apply functional_extensionality. intros s. destruct (make_node 0 dims uhash false false v (e :: repeat zero_a (nth v dims 0 - 1)) s) as [[e' s']|x]; [|reflexivity]. rewrite IH by lia. reflexivity.
  - destruct (nth v dims 0) as [|d]; [lia|]. unfold tab. cbn [seq map Nat.eqb]. f_equal. replace (S d - 1) with d by lia.
    rewrite <- seq_shift, map_map. cbn [Nat.eqb]. clear. generalize 0. induction d as [|d IH]; intros k; [reflexivity|]. cbn [seq map repeat]. f_equal. apply IH.
Qed.
Lemma zero_makes s : sgood s -> makes s (zero_state_m 0 dims uhash) (basis_state (repeat 0 (length dims))).
Proof.
  intros G. unfold zero_state_m. rewrite zero_layers_basis by lia. apply basis_makes; [exact G|]. apply valid_nth; [apply repeat_length|]. intros i Hi. rewrite nth_repeat. apply pos, nth_In. exact Hi.
Qed.
End Session.
