(** The synthesised operations turn |0...0> into the state of the tree. *)
From Coq Require Import Reals List Arith ZArith Lia Lra.
From Verif.Base Require Import Py Cplx Matrix Radix.
From Verif.Sim Require Import TnModel TnSpec TnProofs.
From Verif.State Require Import DdModel DdSpec DdProofs CutProofs PrepModel PrepSpec OpAct LocalSeq.
Import ListNotations.
Local Open Scope nat_scope.

Definition zeros (cards : list nat) : list nat := map (fun _ => 0) cards.
(** the column a node makes out of |0...0>, for a terminal node |0...0> itself *)
Definition col (t : dd) (s : list nat) : C := match t with Inner _ _ => below t s | Term _ _ => if forallb (Nat.eqb 0) s then C1 else C0 end.
Lemma col_amp cards t s : good cards t -> valid cards s -> Cmul (weight t) (col t s) = path_amp t s.
Proof.
  intros G V. rewrite path_amp_below. destruct cards as [|d r].
  - apply valid_nil_inv in V. subst s. destruct G as (w & b & ->). reflexivity.
  - destruct G as [(b & ->)|(x & ch & -> & _)]; [cbn; ring|reflexivity].
Qed.
Lemma alike_col t s q : alike t s -> col t q = col s q.
Proof. unfold alike. destruct t, s; cbn; intros E; try discriminate; [reflexivity|]. injection E as ->. destruct q; reflexivity. Qed.
Lemma alike_sym t s : alike t s -> alike s t.
Proof. unfold alike. congruence. Qed.
Lemma alike_trans t s u : alike t s -> alike s u -> alike t u.
Proof. unfold alike. congruence. Qed.

Section Hash.
Variable hash : list (Z * C) -> Z.
Notation hash_of := (hash_of hash).
Notation no_clash := (no_clash hash).

Lemma first_like_go h : forall l k c, In c l -> hash_of c = h ->
  exists i c', (fix go i l := match l with [] => 0 | c :: r => if Z.eqb (hash_of c) h then i else go (S i) r end) k l = k + i /\ nth_error l i = Some c' /\ hash_of c' = h.
Proof.
  induction l as [|a l IH]; intros k c Hin E; [contradiction|]. destruct (Z.eqb_spec (hash_of a) h) as [Q|Q].
  - exists 0, a. split; [lia|]. split; trivial.
  - destruct Hin as [->|Hin]; [contradiction|]. destruct (IH (S k) c Hin E) as (i & c' & A & B & D). exists (S i), c'. rewrite A. split; [lia|]. split; trivial.
Qed.
Lemma first_like_spec ch c : In c ch -> exists c', nth_error ch (first_like hash ch (hash_of c)) = Some c' /\ hash_of c' = hash_of c.
Proof.
  intros Hin. destruct (first_like_go (hash_of c) ch 0 c Hin eq_refl) as (i & c' & A & B & D). exists c'. split; [|exact D]. unfold first_like. rewrite A. exact B.
Qed.
Lemma index_nth ch i c : nth_error ch i = Some c -> nth i (children_index hash ch) 0 = first_like hash ch (hash_of c).
Proof.
  intros E. unfold children_index. rewrite (nth_indep _ 0 (first_like hash ch (hash_of dead))) by (rewrite map_length; apply nth_error_Some; congruence).
  rewrite (map_nth (fun c => first_like hash ch (hash_of c))). rewrite (nth_error_nth _ _ _ E). reflexivity.
Qed.
Lemma index_first ch c : nth_error ch 0 = Some c -> nth_error ch (nth 0 (children_index hash ch) 0) = Some c.
Proof.
  intros E. rewrite (index_nth ch 0 c E). destruct ch as [|a ch]; [discriminate|]. cbn in E. injection E as ->. unfold first_like. rewrite Z.eqb_refl. reflexivity.
Qed.

(** *** reduced *)
Definition nz (c : dd) : bool := negb (is0 (weight c)).
Lemma nz_true c : nz c = true <-> weight c <> C0.
Proof. unfold nz. rewrite Bool.negb_true_iff. apply is0_false. Qed.
Lemma filter_combine (g : dd -> nat) l : map snd (filter (fun ci : dd * nat => negb (is0 (weight (fst ci)))) (combine l (map g l))) = map g (filter nz l).
Proof. induction l as [|c l IH]; cbn; [reflexivity|]. unfold nz at 1. destruct (negb _); cbn; rewrite IH; reflexivity. Qed.
Lemma reduced_unfold ch : reduced hash ch = match map (fun c => first_like hash ch (hash_of c)) (filter nz ch) with [] => Err IndexError | [_] => Ok false | first :: rest => Ok (forallb (Nat.eqb first) rest) end.
Proof. unfold reduced, children_index. rewrite filter_combine. reflexivity. Qed.
Lemma reduced_ok ch : (exists c, In c ch /\ weight c <> C0) -> exists b, reduced hash ch = Ok b.
Proof.
  intros (c & Hin & N). rewrite reduced_unfold. assert (X : In c (filter nz ch)) by (apply filter_In; split; [exact Hin|apply nz_true; exact N]).
  destruct (filter nz ch) as [|a [|b l]]; [contradiction| |]; cbn; eauto.
Qed.
Lemma two_positions {A} (p : A -> bool) l : 2 <= List.length (filter p l) -> exists i j a b, i <> j /\ nth_error l i = Some a /\ nth_error l j = Some b /\ p a = true /\ p b = true.
Proof.
  induction l as [|x l IH]; cbn; [lia|]. destruct (p x) eqn:P; cbn; intros H.
  - destruct (filter p l) as [|y m] eqn:F; [cbn in H; lia|]. assert (Y : In y (filter p l)) by (rewrite F; left; reflexivity). apply filter_In in Y. destruct Y as [Y Py]. apply In_nth_error in Y. destruct Y as (j & Hj).
    exists 0, (S j), x, y. auto.
  - destruct (IH H) as (i & j & a & b & N & Ha & Hb & Pa & Pb). exists (S i), (S j), a, b. auto.
Qed.
Lemma reduced_true ch : reduced hash ch = Ok true ->
  (forall c c', In c ch -> In c' ch -> weight c <> C0 -> weight c' <> C0 -> hash_of c = hash_of c') /\
  forall x cx, nth_error ch x = Some cx -> weight cx <> C0 -> exists y cy, y <> x /\ nth_error ch y = Some cy /\ weight cy <> C0.
Proof.
  rewrite reduced_unfold. set (g := fun c => first_like hash ch (hash_of c)). intros E.
  assert (K : 2 <= List.length (filter nz ch) /\ exists k, forall c, In c (filter nz ch) -> g c = k).
  { destruct (filter nz ch) as [|a [|b l]]; cbn [map] in E; try discriminate. split; [cbn; lia|]. exists (g a). intros c [->|Hc]; [reflexivity|].
    injection E as E. assert (E' : forallb (Nat.eqb (g a)) (map g (b :: l)) = true) by exact E. rewrite forallb_forall in E'. symmetry. apply Nat.eqb_eq. apply E'. apply in_map. exact Hc. }
  destruct K as (K1 & k & K2). split.
  - intros c c' Hc Hc' N N'. destruct (first_like_spec ch c Hc) as (r & R1 & R2). destruct (first_like_spec ch c' Hc') as (r' & R1' & R2').
    assert (Gc : g c = k) by (apply K2; apply filter_In; split; [exact Hc|apply nz_true; exact N]). assert (Gc' : g c' = k) by (apply K2; apply filter_In; split; [exact Hc'|apply nz_true; exact N']).
    unfold g in Gc, Gc'. rewrite Gc in R1. rewrite Gc' in R1'. congruence.
  - intros x cx Hx Nx. destruct (two_positions nz ch K1) as (i & j & a & b & N & Ha & Hb & Pa & Pb). rewrite nz_true in Pa, Pb. destruct (Nat.eq_dec i x) as [->|X]; [exists j, b; auto|exists i, a; auto].
Qed.

(** *** runs *)
Lemma run_app dims a b f : run dims (a ++ b) f = run dims b (run dims a f).
Proof. apply fold_left_app. Qed.
Lemma ctl_pre cs pre s : (forall c, In c cs -> fst c < List.length pre) -> ctl cs (pre ++ s) = ctl cs pre.
Proof.
  intros H. unfold ctl. induction cs as [|c cs IH]; cbn; [reflexivity|]. rewrite IH by (intros x Hx; apply H; right; exact Hx). f_equal. rewrite app_nth1; [reflexivity|]. apply H. left. reflexivity.
Qed.
Lemma opact_local pdims d r o cs f pre x s : o_controls o = cs -> o_qudit o = List.length pdims -> (forall c, In c cs -> fst c < List.length pdims) -> List.length pre = List.length pdims ->
  opact (pdims ++ d :: r) o f (pre ++ x :: s) = if ctl cs pre then mapply d (op_mat o) (fun b => f (pre ++ b :: s)) x else f (pre ++ x :: s).
Proof.
  intros Ec Eq Hc Lp. unfold opact. rewrite Ec, Eq, ctl_pre by (intros c Hin; rewrite Lp; apply Hc; exact Hin). destruct (ctl cs pre); [|reflexivity].
  rewrite <- Lp. unfold mapply. rewrite (app_nth2 pre (x :: s)) by lia. rewrite Nat.sub_diag. rewrite Lp, (app_nth2 pdims (d :: r)) by lia. rewrite Nat.sub_diag. cbn [nth].
  apply csum_ext. intros b _. rewrite <- Lp, set_nth_app. reflexivity.
Qed.
Lemma run_local pdims d r cs os : Forall (fun o => o_controls o = cs /\ o_qudit o = List.length pdims) os -> (forall c, In c cs -> fst c < List.length pdims) ->
  forall f pre x s, List.length pre = List.length pdims -> x < d ->
  run (pdims ++ d :: r) os f (pre ++ x :: s) = if ctl cs pre then lrun d os (fun b => f (pre ++ b :: s)) x else f (pre ++ x :: s).
Proof.
  intros F Hc. induction F as [|o os [E1 E2] F IH]; intros f pre x s Lp Hx; cbn.
  - destruct (ctl cs pre); reflexivity.
  - etransitivity; [apply (IH (opact (pdims ++ d :: r) o f) pre x s Lp Hx)|]. destruct (ctl cs pre) eqn:Q.
    + apply (lrun_veq d os); [|exact Hx]. intros b Hb. rewrite (opact_local pdims d r o cs) by assumption. rewrite Q. reflexivity.
    + rewrite (opact_local pdims d r o cs) by assumption. rewrite Q. reflexivity.
Qed.

Lemma zeros_spec cards s : valid cards s -> (forallb (Nat.eqb 0) s = true <-> s = zeros cards).
Proof.
  intros V. split.
  - intros H. revert s V H. induction cards as [|d r IH]; intros s V H; [apply valid_nil_inv in V; exact V|]. apply valid_cons_ex in V. destruct V as (x & q & -> & Hx & V). cbn [forallb] in H. apply Bool.andb_true_iff in H. destruct H as [H1 H2]. apply Nat.eqb_eq in H1. subst x. cbn. f_equal. apply IH; assumption.
  - intros ->. clear V. induction cards; cbn; trivial.
Qed.
Lemma zeros_valid cards : (forall d, In d cards -> 0 < d) -> valid cards (zeros cards).
Proof. induction cards as [|d r IH]; intros H; cbn; constructor; [apply H; left; reflexivity|]. apply IH. auto with datatypes. Qed.

(** what a list of operations for a node does; [pre] are the digits before the qudits of the node *)
Definition makes (dims pdims cards : list nat) (cs : list (nat * nat)) (t : dd) (ops : list operation) : Prop :=
  forall f pre s, valid pdims pre -> valid cards s ->
    (ctl cs pre = false -> run dims ops f (pre ++ s) = f (pre ++ s)) /\
    (ctl cs pre = true -> (forall s', valid cards s' -> s' <> zeros cards -> f (pre ++ s') = C0) -> run dims ops f (pre ++ s) = Cmul (f (pre ++ zeros cards)) (col t s)).

Lemma terminal_makes dims pdims cards cs w b : makes dims pdims cards cs (Term w b) [].
Proof.
  intros f pre s Vp Vs. cbn [col]. change (run dims [] f) with f. split; [reflexivity|]. intros _ H. destruct (forallb (Nat.eqb 0) s) eqn:E.
  - apply (zeros_spec cards s Vs) in E. rewrite <- E. ring.
  - rewrite (H s Vs); [ring|]. intros X. apply (zeros_spec cards s Vs) in X. congruence.
Qed.
Lemma makes_alike dims pdims cards cs t t' ops : alike t t' -> makes dims pdims cards cs t ops -> makes dims pdims cards cs t' ops.
Proof. intros A H f pre s Vp Vs. destruct (H f pre s Vp Vs) as [H1 H2]. split; [exact H1|]. intros Q Z. rewrite <- (alike_col t t' s A). apply H2; assumption. Qed.

(** the branches, one after the other *)
Lemma branches_make dims pdims d r cs ch : (forall c, In c cs -> fst c < List.length pdims) -> forall is ls, NoDup is -> (forall i, In i is -> i < d) ->
  Forall2 (fun i l => makes dims (pdims ++ [d]) r (cs ++ [(List.length pdims, i)]) (nth i ch dead) l) is ls ->
  forall f pre x s, valid pdims pre -> x < d -> valid r s ->
    (ctl cs pre = false \/ ~ In x is -> run dims (concat ls) f (pre ++ x :: s) = f (pre ++ x :: s)) /\
    (ctl cs pre = true -> In x is -> (forall s', valid r s' -> s' <> zeros r -> f (pre ++ x :: s') = C0) -> run dims (concat ls) f (pre ++ x :: s) = Cmul (f (pre ++ x :: zeros r)) (col (nth x ch dead) s)).
Proof.
  intros Hcs is ls ND Hb F. induction F as [|i l is ls M F IH]; intros f pre x s Vp Hx Vs.
  - cbn. split; [reflexivity|]. intros _ [].
  - inversion ND as [|? ? Ni ND']; subst. cbn [concat]. rewrite run_app.
    assert (Vx : valid (pdims ++ [d]) (pre ++ [x])) by (apply valid_app; [exact Vp|constructor; [exact Hx|constructor]]).
    assert (Lp : List.length pre = List.length pdims) by (apply valid_length; exact Vp).
    assert (Cx : ctl (cs ++ [(List.length pdims, i)]) (pre ++ [x]) = ctl cs pre && Nat.eqb x i).
    { unfold ctl at 1. rewrite forallb_app. cbn [forallb fst snd]. f_equal; [apply (ctl_pre cs pre [x]); intros c Hc; rewrite Lp; apply Hcs; exact Hc|]. rewrite app_nth2 by lia. rewrite Lp, Nat.sub_diag. cbn. apply Bool.andb_true_r. }
    assert (Mx : forall q, valid r q -> (ctl cs pre && Nat.eqb x i = false -> run dims l f (pre ++ x :: q) = f (pre ++ x :: q)) /\
      (ctl cs pre && Nat.eqb x i = true -> (forall s', valid r s' -> s' <> zeros r -> f (pre ++ x :: s') = C0) -> run dims l f (pre ++ x :: q) = Cmul (f (pre ++ x :: zeros r)) (col (nth i ch dead) q))).
    { intros q Vq. destruct (M f (pre ++ [x]) q Vx Vq) as [M1 M2]. rewrite Cx, <- !app_assoc in *. cbn [app] in *. split; [exact M1|]. intros A Z. apply M2; [exact A|]. intros s' V' N'. rewrite <- app_assoc. cbn [app]. apply Z; assumption. }
    destruct (IH ND' (fun j Hj => Hb j (or_intror Hj)) (run dims l f) pre x s Vp Hx Vs) as [I1 I2]. split.
    + intros H. rewrite I1 by (destruct H as [H|H]; [left; exact H|right; intros X; apply H; right; exact X]). apply Mx; [exact Vs|].
      destruct H as [->|H]; [reflexivity|]. apply Bool.andb_false_intro2. apply Nat.eqb_neq. intros ->. apply H. left. reflexivity.
    + intros Q Hin Z. destruct (Nat.eq_dec x i) as [->|N].
      * rewrite I1 by (right; exact Ni). apply Mx; [exact Vs| |exact Z]. rewrite Q, Nat.eqb_refl. reflexivity.
      * assert (Off : ctl cs pre && Nat.eqb x i = false) by (apply Bool.andb_false_intro2; apply Nat.eqb_neq; exact N).
        assert (Hz : forall q, valid r q -> run dims l f (pre ++ x :: q) = f (pre ++ x :: q)) by (intros q Vq; apply Mx; assumption).
        destruct Hin as [X|Hin]; [congruence|]. rewrite I2; trivial.
        -- rewrite Hz; [reflexivity|]. apply zeros_valid. intros e He. destruct (In_nth _ _ 0 He) as (k & Hk & <-). clear -Vs Hk. revert s Vs k Hk. induction r as [|e r IH]; intros s V k Hk; [cbn in Hk; lia|]. apply valid_cons_ex in V. destruct V as (y & q & -> & Hy & V). destruct k as [|k]; cbn; [lia|]. apply (IH q V). cbn in Hk. lia.
        -- intros s' V' N'. rewrite Hz by exact V'. apply Z; assumption.
Qed.

Lemma no_clash_child w ch c : no_clash (Inner w ch) -> In c ch -> no_clash c.
Proof.
  intros H Hin. apply In_nth_error in Hin. destruct Hin as (i & Hi). intros p v l a b E. apply (H (i :: p) v l a b). cbn. rewrite Hi. exact E.
Qed.
Lemma merges_child w ch c : merges_well (Inner w ch) -> In c ch -> merges_well c.
Proof.
  intros H Hin. apply In_nth_error in Hin. destruct Hin as (i & Hi). intros p v l a b ca cb c0 E. apply (H (i :: p) v l a b ca cb c0). cbn. rewrite Hi. exact E.
Qed.
Lemma sum_nonzero ch : sumR (map (fun c => Cnorm2 (weight c)) ch) = 1%R -> exists c, In c ch /\ weight c <> C0.
Proof.
  induction ch as [|c ch IH]; cbn; intros H; [lra|]. destruct (is0 (weight c)) eqn:E.
  - apply is0_true in E. rewrite E in H. destruct IH as (x & Hx & N); [|exists x; auto]. assert (Z0 : Cnorm2 C0 = 0%R) by (cbv -[Rplus Rmult IZR]; ring). rewrite Z0 in H. lra.
  - apply is0_false in E. exists c. auto.
Qed.

Lemma full_pos r : 0 < full_nodes r.
Proof. destruct r; cbn; lia. Qed.
Lemma concat_length {A} (ls : list (list A)) m : Forall (fun l => List.length l <= m) ls -> List.length (concat ls) <= List.length ls * m.
Proof. induction 1 as [|l ls H F IH]; cbn; [lia|]. rewrite app_length. lia. Qed.

Theorem synth_ok : forall cards pdims cs t, (forall d, In d cards -> 1 < d) -> good cards t -> no_clash t -> merges_well t ->
  (forall c, In c cs -> fst c < List.length pdims /\ snd c < nth (fst c) pdims 0) ->
  exists ops, synthesis hash cards (List.length pdims) cs t = Ok ops /\ Forall (op_ok (pdims ++ cards)) ops /\ List.length ops <= full_nodes cards - 1 /\
    makes (pdims ++ cards) pdims cards cs t ops.
Proof.
  induction cards as [|d r IH]; intros pdims cs t D G NC MW Hcs.
  - destruct G as (w & b & ->). exists []. cbn. split; [reflexivity|]. split; [constructor|]. split; [lia|apply terminal_makes].
  - destruct G as [(b & ->)|(x & ch & -> & X & L & U & F)]; [exists []; cbn; split; [reflexivity|]; split; [constructor|]; split; [lia|apply terminal_makes]|].
    pose proof (D d (or_introl eq_refl)) as Hd. assert (Hc : forall c, In c cs -> fst c < List.length pdims) by (intros c Hin; apply Hcs; exact Hin).
    cbn [synthesis]. subst d. destruct (local_ops_ok cs (List.length pdims) x ch Hd U X) as (lo & El & Ll & Fl & Vl). rewrite El. cbn [bindr]. set (d := List.length ch) in *.
    destruct (reduced_ok ch (sum_nonzero ch U)) as (red & Er). rewrite Er. cbn [bindr].
    assert (Dr : forall e, In e r -> 1 < e) by auto with datatypes. rewrite Forall_forall in F.
    assert (Lops : Forall (op_ok (pdims ++ d :: r)) lo).
    { eapply Forall_impl; [|exact Fl]. intros o (E1 & E2 & E3). split; [|split].
      - rewrite E2, app_length. cbn. lia.
      - rewrite E2, app_nth2, Nat.sub_diag by lia. cbn. exact E3.
      - rewrite E1, E2. intros c Hin. destruct (Hcs c Hin) as [H1 H2]. split; [exact H1|]. rewrite app_nth1 by exact H1. exact H2. }
    assert (Lrun : forall f pre y s, valid pdims pre -> y < d -> run (pdims ++ d :: r) lo f (pre ++ y :: s) = if ctl cs pre then lrun d lo (fun b => f (pre ++ b :: s)) y else f (pre ++ y :: s)).
    { intros f pre y s Vp Hy. apply run_local; trivial; [eapply Forall_impl; [|exact Fl]; cbv beta; tauto|apply valid_length; exact Vp]. }
    assert (Zr : valid r (zeros r)) by (apply zeros_valid; intros e He; specialize (Dr e He); lia).
    (* what the rotations of the node make *)
    assert (First : forall f pre, valid pdims pre -> ctl cs pre = true -> (forall s', valid (d :: r) s' -> s' <> zeros (d :: r) -> f (pre ++ s') = C0) ->
      (forall y, y < d -> run (pdims ++ d :: r) lo f (pre ++ y :: zeros r) = Cmul (f (pre ++ zeros (d :: r))) (weight (nth y ch dead))) /\
      (forall y s', y < d -> valid r s' -> s' <> zeros r -> run (pdims ++ d :: r) lo f (pre ++ y :: s') = C0)).
    { intros f pre Vp Q Z. split.
      - intros y Hy. rewrite (Lrun f pre y _ Vp Hy), Q. rewrite <- (Vl y Hy). rewrite <- (lrun_scal d lo (f (pre ++ zeros (d :: r))) (ket 0) y Hy).
        apply (lrun_veq d lo); [|exact Hy]. intros b Hb. unfold ket. destruct (Nat.eqb_spec b 0) as [->|N]; [change (zeros (d :: r)) with (0 :: zeros r); ring|]. rewrite Z; [ring| |].
        + constructor; [exact Hb|exact Zr].
        + cbn. congruence.
      - intros y s' Hy Vs' N. rewrite (Lrun f pre y _ Vp Hy), Q. apply lrun_zero; [|exact Hy]. intros b Hb. apply Z; [constructor; assumption|]. intros E. injection E as _ E. exact (N E). }
    assert (Fin : forall y s, y < d -> valid r s -> forall f0 c', Cmul (weight (nth y ch dead)) (col c' s) = Cmul (weight (nth y ch dead)) (col (nth y ch dead) s) ->
      Cmul (Cmul f0 (weight (nth y ch dead))) (col c' s) = Cmul f0 (col (Inner (RtoC x) ch) (y :: s))).
    { intros y s Hy Vs f0 c' E. cbn [col below]. change (Term C0 false) with dead. rewrite <- (col_amp r (nth y ch dead) s); [|apply F; apply nth_In; exact Hy|exact Vs]. rewrite <- E. ring. }
    destruct red.
    + (* merged *)
      set (c0 := nth 0 ch dead). assert (E0 : nth_error ch 0 = Some c0) by (apply nth_error_nth'; unfold d in Hd; lia). rewrite (index_first ch c0 E0).
      assert (In0 : In c0 ch) by (apply (nth_error_In _ _ E0)). clearbody c0.
      destruct (IH (pdims ++ [d]) cs c0 Dr (F c0 In0) (no_clash_child _ _ _ NC In0) (merges_child _ _ _ MW In0)) as (l & E & Fo & Lo & Mo).
      { intros c Hin. destruct (Hcs c Hin) as [H1 H2]. rewrite app_length. split; [lia|]. rewrite app_nth1 by exact H1. exact H2. }
      rewrite app_length, Nat.add_comm in E. cbn [List.length plus] in E. rewrite E. cbn [bindr]. rewrite <- app_assoc in Fo, Mo. cbn [app] in Fo, Mo.
      exists (lo ++ l). split; [reflexivity|]. split; [apply Forall_app; auto|]. split; [rewrite app_length; cbn [full_nodes]; pose proof (full_pos r); nia|].
      intros f pre s Vp Vs. apply valid_cons_ex in Vs. destruct Vs as (y & s' & -> & Hy & Vs). rewrite run_app.
      assert (Vy : valid (pdims ++ [d]) (pre ++ [y])) by (apply valid_app; [exact Vp|constructor; [exact Hy|constructor]]).
      assert (Lp : List.length pre = List.length pdims) by (apply valid_length; exact Vp).
      destruct (Mo (run (pdims ++ d :: r) lo f) (pre ++ [y]) s' Vy Vs) as [M1 M2]. rewrite (ctl_pre cs pre [y]) in M1, M2 by (intros c Hin; rewrite Lp; apply Hc; exact Hin). rewrite <- !app_assoc in M1, M2. cbn [app] in M1, M2. split.
      * intros Q. rewrite (M1 Q), (Lrun f pre y s' Vp Hy), Q. reflexivity.
      * intros Q Z. destruct (First f pre Vp Q Z) as [F1 F2]. rewrite (M2 Q).
        -- rewrite <- (app_assoc pre [y] (zeros r)). cbn [app]. rewrite (F1 y Hy). apply Fin; trivial. destruct (is0 (weight (nth y ch dead))) eqn:Ez; [apply is0_true in Ez; rewrite Ez; ring|]. apply is0_false in Ez. f_equal.
           destruct (reduced_true ch Er) as [R1 R2]. assert (Qy : nth_error ch y = Some (nth y ch dead)) by (apply nth_error_nth'; exact Hy). destruct (R2 y _ Qy Ez) as (z & cz & Nz & Qz & Wz).
           assert (Iy : In (nth y ch dead) ch) by (apply nth_In; exact Hy).
           assert (Al : forall c c', In c ch -> In c' ch -> weight c <> C0 -> weight c' <> C0 -> alike c c') by (intros c c' H1 H2 H3 H4; apply (NC [] _ ch c c' eq_refl H1 H2); apply R1; assumption).
           destruct r as [|d2 r2].
           ++ apply valid_nil_inv in Vs. subst s'. destruct (F c0 In0) as (w0 & b0 & ->). destruct (F _ Iy) as (wy & by_ & ->). reflexivity.
           ++ apply alike_col. apply (MW [] (RtoC x) ch y z (nth y ch dead) cz c0 eq_refl (not_eq_sym Nz) Qy Qz Ez Wz); trivial.
              ** apply Al; trivial. apply (nth_error_In _ _ Qz).
              ** destruct (F _ Iy) as [(b & Eb)|(x2 & ch2 & Eb & _)]; [rewrite Eb in Ez; cbn in Ez; congruence|eauto].
        -- intros s2 V2 N2. rewrite <- app_assoc. cbn [app]. apply F2; assumption.
    + (* one branch after the other *)
      destruct (mapr_Forall2 (fun i => match nth_error ch (nth i (children_index hash ch) 0) with
          | Some c => synthesis hash r (S (List.length pdims)) (cs ++ [(List.length pdims, i)]) c | None => Err IndexError end)
        (fun i l => (makes (pdims ++ d :: r) (pdims ++ [d]) r (cs ++ [(List.length pdims, i)]) (nth i ch dead) l) /\ Forall (op_ok (pdims ++ d :: r)) l /\ List.length l <= full_nodes r - 1) (seq 0 d)) as (ls & E & Fls).
      { intros i Hi. apply in_seq in Hi. assert (Qi : nth_error ch i = Some (nth i ch dead)) by (apply nth_error_nth'; unfold d in *; lia).
        assert (Ii : In (nth i ch dead) ch) by (apply nth_In; unfold d in *; lia).
        rewrite (index_nth ch i _ Qi). destruct (first_like_spec ch _ Ii) as (c' & Q' & Eh). rewrite Q'. pose proof (nth_error_In _ _ Q') as I'.
        destruct (IH (pdims ++ [d]) (cs ++ [(List.length pdims, i)]) c' Dr (F c' I') (no_clash_child _ _ _ NC I') (merges_child _ _ _ MW I')) as (l & E & Fo & Lo & Mo).
        { intros c Hin. rewrite app_length. cbn [List.length]. apply in_app_iff in Hin. destruct Hin as [Hin|[<-|[]]]; cbn [fst snd].
          - destruct (Hcs c Hin) as [H1 H2]. split; [lia|]. rewrite app_nth1 by exact H1. exact H2.
          - split; [lia|]. rewrite app_nth2, Nat.sub_diag by lia. cbn. lia. }
        rewrite app_length, Nat.add_comm in E. cbn [List.length plus] in E. rewrite <- app_assoc in Fo, Mo. cbn [app] in Fo, Mo.
        exists l. split; [exact E|]. split; [|auto]. apply (makes_alike _ _ _ _ c'); [|exact Mo]. apply (NC [] _ ch c' _ eq_refl I' Ii Eh). }
      rewrite E. cbn [bindr]. exists (lo ++ concat ls). split; [reflexivity|].
      assert (Fm : Forall2 (fun i l => makes (pdims ++ d :: r) (pdims ++ [d]) r (cs ++ [(List.length pdims, i)]) (nth i ch dead) l) (seq 0 d) ls) by (clear -Fls; induction Fls; constructor; tauto).
      assert (Fo : Forall (Forall (op_ok (pdims ++ d :: r))) ls) by (clear -Fls; induction Fls; constructor; tauto).
      assert (Fc : Forall (fun l => List.length l <= full_nodes r - 1) ls) by (clear -Fls; induction Fls; constructor; tauto).
      pose proof (Forall2_len _ _ _ Fm) as Lls. rewrite seq_length in Lls.
      split; [apply Forall_app; split; [exact Lops|]; apply Forall_forall; intros o Ho; apply in_concat in Ho; destruct Ho as (l & Hl & Ho); rewrite Forall_forall in Fo; specialize (Fo l Hl); rewrite Forall_forall in Fo; auto|].
      split; [rewrite app_length; pose proof (concat_length ls _ Fc); rewrite Lls in *; cbn [full_nodes]; pose proof (full_pos r); nia|].
      intros f pre s Vp Vs. apply valid_cons_ex in Vs. destruct Vs as (y & s' & -> & Hy & Vs). rewrite run_app.
      destruct (branches_make (pdims ++ d :: r) pdims d r cs ch Hc (seq 0 d) ls (seq_NoDup d 0) ltac:(intros i Hi; apply in_seq in Hi; lia) Fm (run (pdims ++ d :: r) lo f) pre y s' Vp Hy Vs) as [B1 B2]. split.
      * intros Q. rewrite (B1 (or_introl Q)), (Lrun f pre y s' Vp Hy), Q. reflexivity.
      * intros Q Z. destruct (First f pre Vp Q Z) as [F1 F2]. rewrite (B2 Q); [|apply in_seq; lia|intros s2 V2 N2; apply F2; assumption].
        rewrite (F1 y Hy). apply Fin; trivial.
Qed.
End Hash.
