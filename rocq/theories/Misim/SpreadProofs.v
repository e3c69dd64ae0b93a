(** Sharing one excitation: the gates as maps of states, and the amplitudes followed through them. *)
From Coq Require Import List Arith Lia Reals Lra Bool Sorted.
From Verif Require Import Base.Cplx Base.Matrix Base.Radix Gates.SingleModel Gates.SingleProofs Misim.DdModel Misim.DdSpec Misim.DdProofs Misim.DdGateProofs
  Misim.MisimModel Misim.MisimSpec Misim.MisimMatProofs Misim.MisimProofs Misim.ControlsProofs Misim.SessionModel Misim.SessionSpec Misim.SessionProofs
  Misim.SpreadModel Misim.SpreadSpec.
Import ListNotations.
Local Open Scope nat_scope.

Lemma valid_level ds p : valid ds p -> forall t, t < length ds -> nth t p 0 < nth t ds 0.
Proof. intros H. induction H as [|x d xs ds Hx H IH]; intros [|t] L; cbn in *; try lia. apply IH. lia. Qed.

Section Gates.
Variable dims : list nat.
Hypothesis pos : forall d, In d dims -> 0 < d.
Variable same : node -> node -> bool.
Hypothesis sound : pointers same.
Notation vrev := SessionProofs.valid_rev.

(** the edge is a diagram of the state *)
Definition is_state (e : edge) (x : state) : Prop := ewf (rev dims) e /\ forall p, valid dims p -> ev e (rev p) = x p.
Lemma pos_rev d : In d (rev dims) -> 0 < d.
Proof. intros H. apply pos, in_rev. exact H. Qed.
Definition is_map (g : edge) (f : state -> state) : Prop := forall e x, is_state e x -> is_state (multiply2 0 same false (rev dims) g e) (f x).

Lemma gate_map d A c t : gate_fits dims d c t -> exists g, gate_dd 0 dims d A c t = Done g /\ is_map g (applied dims A c t).
Proof.
  intros (Ht & -> & O & Hc). destruct (make_gates_ok dims t A c pos Ht O) as (g & E & W & V); [intros r l I; destruct (Hc r l I) as (_ & N & L); auto|].
  exists g. unfold gate_dd. rewrite E. split; [reflexivity|]. intros e x [We Ve].
  destruct (apply_ok same sound (rev dims) g e pos_rev W We) as [W' V']. split; [exact W'|]. intros p Hp.
  rewrite V' by (apply vrev; exact Hp). rewrite psum_rev, <- (applied_sum dims A c t x p Hp Ht). apply psum_ext. intros q Hq.
  rewrite V, Ve by (try apply vrev; assumption). rewrite gsmat_entry; [reflexivity| | |].
  - rewrite (valid_length _ _ Hp), (valid_length _ _ Hq). reflexivity.
  - rewrite (valid_length _ _ Hp). exact Ht.
  - intros r l I. rewrite (valid_length _ _ Hp). apply (Hc r l I).
Qed.

(** the inverse of the controlled sum *)
Definition sum_back (c t : nat) (x : state) : state := fun p => x (change p t ((nth t p 0 + nth c p 0) mod nth t dims 0)).
Lemma csum_map c t : c < length dims -> t < length dims -> c <> t -> supported (nth t dims 0) = true ->
  exists g, csum_dd 0 same dims c t true = Done g /\ is_map g (sum_back c t).
Proof.
  intros Hc Ht N Hs. unfold csum_dd. rewrite (nth_error_nth' dims 0 Ht), (nth_error_nth' dims 0 Hc), Hs.
  destruct (levels_shift dims pos c t Hc Ht N same sound Hs (seq 0 (nth c dims 0)) (make_ident 0 (rev dims)) (fun _ => 0)) as (g & E & [W V]).
  { intros i Hi. apply in_seq in Hi. lia. } { apply ident_shift; assumption. }
  rewrite E. cbn [cbind]. eexists. split; [reflexivity|]. unfold dag_dd. destruct (conj_transpose_ok (rev dims) g pos_rev W) as [Wd Vd].
  intros e x [We Ve]. destruct (apply_ok same sound (rev dims) _ e pos_rev Wd We) as [W' V']. split; [exact W'|]. intros p Hp.
  rewrite V' by (apply vrev; exact Hp).
  assert (Pt : 0 < nth t dims 0) by (apply pos, nth_In; exact Ht).
  assert (A : act dims c t (fun z => z) (rev p) = rev (change p t ((nth t p 0 + nth c p 0) mod nth t dims 0))).
  { pose proof (valid_length _ _ Hp) as L. apply reg_ext; rewrite act_length, !rev_length; [rewrite change_length; reflexivity|]. intros u Hu. unfold act. rewrite setr_reg by (rewrite rev_length; exact Hu).
    rewrite !reg_rev by (rewrite ?change_length; lia). rewrite change_nth by lia. reflexivity. }
  rewrite (psum_ext (rev dims) _ (fun q => Cmul (ev e q) (delta q (act dims c t (fun z => z) (rev p))))).
  - rewrite psum_delta_r by (rewrite A; apply vrev, change_valid; [exact Hp|apply Nat.mod_upper_bound; lia]). rewrite A. unfold sum_back. rewrite Ve; [reflexivity|].
    apply change_valid; [exact Hp|apply Nat.mod_upper_bound; lia].
  - intros q Hq. rewrite Vd by (try apply vrev; assumption). rewrite V by (try apply vrev; assumption).
    rewrite (shift_ext dims c t Hc Ht N _ (fun z => z)) by first [apply vrev; exact Hp | intros z Hz; cbn [Nat.add]; apply (total_in dims c t Hc Ht N); [apply seq_NoDup|apply in_seq; lia]].
    unfold shift, delta. destruct (list_eq_dec _ _ _); rewrite ?Cconj_C1, ?Cconj_C0; ring.
Qed.

(** a matrix that takes every level from one other level *)
Definition moves (d : nat) (A : mat) (s : nat -> nat) : Prop := forall i, i < d -> s i < d /\ forall j, j < d -> A i j = if Nat.eqb j (s i) then C1 else C0.
Lemma applied_moves A s c t x p : t < length dims -> moves (nth t dims 0) A s -> valid dims p ->
  applied dims A c t x p = if satisfied c p then x (change p t (s (nth t p 0))) else x p.
Proof.
  intros Ht M Hp. unfold applied. destruct (satisfied c p); [|reflexivity].
  assert (L : nth t p 0 < nth t dims 0) by (apply valid_level; assumption). destruct (M _ L) as [Hs E].
  rewrite (csum_single _ _ (s (nth t p 0)) Hs).
  - rewrite E, Nat.eqb_refl by exact Hs. ring.
  - intros k Hk N. rewrite E by exact Hk. rewrite (proj2 (Nat.eqb_neq _ _) N). ring.
Qed.
Lemma x_moves d : In d [2; 3; 5] -> moves d (cpp_x d) (fun i => (i + (d - 1)) mod d).
Proof.
  intros [<-|[<-|[<-|[]]]] i Hi; (split; [apply Nat.mod_upper_bound; lia|]); intros j Hj;
    do 5 (destruct i as [|i]; [do 5 (destruct j as [|j]; [first [exfalso; lia|reflexivity]|]); lia|]); lia.
Qed.
Lemma xdag_moves d : In d [2; 3; 5] -> moves d (cpp_xdag d) (fun i => (i + 1) mod d).
Proof.
  intros [<-|[<-|[<-|[]]]] i Hi; (split; [apply Nat.mod_upper_bound; lia|]); intros j Hj;
    do 5 (destruct i as [|i]; [do 5 (destruct j as [|j]; [first [exfalso; lia|reflexivity]|]); lia|]); lia.
Qed.
Lemma h_first d : In d [2; 3; 5] -> forall i, i < d -> cpp_h d i 0 = RtoC (1 / sqrt (INR d)).
Proof.
  intros [<-|[<-|[<-|[]]]] i Hi; unfold cpp_h;
    (match goal with |- Cmul _ (cis ?a) = _ => replace a with 0%R by (do 5 (destruct i as [|i]; [cbn [nth h_table INR]; unfold Rdiv; ring|]); lia) end);
    rewrite cis_0; ring.
Qed.
End Gates.

(** ** the amplitudes as functions of the levels of the lines *)
Inductive code := Zr | Keep | Part.
Definition code_eqb (a b : code) : bool := match a, b with Zr, Zr | Keep, Keep | Part, Part => true | _, _ => false end.
Lemma code_eqb_eq a b : code_eqb a b = true -> a = b.
Proof. destruct a, b; intros H; try discriminate H; reflexivity. Qed.
Fixpoint all_levels (ds : list nat) : list (list nat) :=
  match ds with [] => [[]] | d :: r => flat_map (fun i => map (cons i) (all_levels r)) (seq 0 d) end.
Lemma all_levels_in ds v : valid ds v -> In v (all_levels ds).
Proof.
  intros H. induction H as [|x d xs ds Hx H IH]; cbn [all_levels]; [left; reflexivity|]. apply in_flat_map. exists x. split; [apply in_seq; lia|]. apply in_map. exact IH.
Qed.
(** exactly one level is 1 and the others are 0 *)
Definition quiet (v : list nat) : bool := forallb (Nat.eqb 0) v.
Fixpoint one_up (v : list nat) : bool :=
  match v with [] => false | 0 :: r => one_up r | 1 :: r => quiet r | _ => false end.
Definition target (v : list nat) : code := if quiet v then Keep else if one_up v then Part else Zr.

Definition start (v : list nat) : code :=
  match v with a :: b :: r => if quiet r then if Nat.eqb a 1 then Part else if Nat.eqb a 0 && Nat.eqb b 0 then Keep else Zr else Zr | _ => Zr end.
Definition step (t : nat) (s : nat -> nat) (c : list (nat * nat)) (F : list nat -> code) (v : list nat) : code :=
  if satisfied c v then F (change v t (s (nth t v 0))) else F v.
Definition back (k c : nat) (F : list nat -> code) (v : list nat) : code := F (change v 1 ((nth 1 v 0 + nth c v 0) mod k)).
Definition up (d i : nat) : nat := (i + (d - 1)) mod d.
Definition down (d i : nat) : nat := (i + 1) mod d.
Definition first_part (d : nat) : list nat -> code := step 0 (up d) [(1, 0)] (step 0 (down d) [] start).
Definition run2 (d : nat) := first_part d.
Definition run3 (d : nat) := back 3 2 (back 3 2 (step 2 (up 3) [(1, 2)] (first_part d))).
Definition run5 (d : nat) :=
  back 5 4 (back 5 4 (back 5 4 (back 5 4 (step 4 (up 5) [(1, 4)] (back 5 3 (back 5 3 (back 5 3 (step 3 (up 5) [(1, 3)]
  (back 5 2 (back 5 2 (step 2 (up 5) [(1, 2)] (first_part d)))))))))))).
Definition agrees (F : list nat -> code) (ds : list nat) : bool := forallb (fun v => code_eqb (F v) (target v)) (all_levels ds).
Lemma agrees_eq F ds v : agrees F ds = true -> valid ds v -> F v = target v.
Proof. intros H V. apply code_eqb_eq. apply (proj1 (forallb_forall _ _) H). apply all_levels_in. exact V. Qed.
Lemma run2_ok d : In d [2; 3; 5] -> agrees (run2 d) [d; 2] = true.
Proof. intros [<-|[<-|[<-|[]]]]; vm_compute; reflexivity. Qed.
Lemma run3_ok d : In d [2; 3; 5] -> agrees (run3 d) [d; 3; 3] = true.
Proof. intros [<-|[<-|[<-|[]]]]; vm_compute; reflexivity. Qed.
Lemma run5_ok d : In d [2; 3; 5] -> agrees (run5 d) [d; 5; 5; 5; 5] = true.
Proof. intros [<-|[<-|[<-|[]]]]; vm_compute; reflexivity. Qed.

Section Lines.
Variable dims : list nat.
Hypothesis pos : forall d, In d dims -> 0 < d.
Variable lines : list nat.
Hypothesis nodup : NoDup lines.
Hypothesis inside : forall l, In l lines -> l < length dims.
Variable x : state.
Let l0 := hd 0 lines.
Definition levels_of (p : list nat) : list nat := map (fun l => nth l p 0) lines.
Definition value (c : code) (p : list nat) : C :=
  match c with Zr => C0 | Keep => x (rested lines p) | Part => Cmul (RtoC (1 / sqrt (INR (length lines)))) (x (change (rested lines p) l0 1)) end.
Definition follows (y : state) (F : list nat -> code) : Prop := forall p, valid dims p -> y p = value (F (levels_of p)) p.

Lemma rested_length ls p : length (rested ls p) = length p.
Proof. induction ls as [|l ls IH]; cbn; [reflexivity|]. rewrite change_length. exact IH. Qed.
Lemma rested_nth ls p u : (forall l, In l ls -> l < length p) -> nth u (rested ls p) 0 = if existsb (Nat.eqb u) ls then 0 else nth u p 0.
Proof.
  induction ls as [|l ls IH]; intros H; cbn [rested existsb]; [reflexivity|]. rewrite change_nth by (rewrite rested_length; apply H; left; reflexivity).
  rewrite IH by (intros; apply H; right; assumption). destruct (Nat.eqb u l); reflexivity.
Qed.
Lemma in_b u ls : existsb (Nat.eqb u) ls = true <-> In u ls.
Proof. rewrite existsb_exists. split; [intros (v & I & E); apply Nat.eqb_eq in E; subst; exact I|intros I; exists u; split; [exact I|apply Nat.eqb_refl]]. Qed.
Lemma within p l : valid dims p -> In l lines -> l < length p.
Proof. intros Hp Hl. rewrite (valid_length _ _ Hp). apply inside. exact Hl. Qed.
Lemma rested_change p l j : valid dims p -> In l lines -> rested lines (change p l j) = rested lines p.
Proof.
  intros Hp Hl. pose proof (within p) as W. apply list_nth_ext; [rewrite !rested_length, change_length; reflexivity|]. intros u _.
  rewrite !rested_nth by (intros; rewrite ?change_length; apply W; assumption). destruct (existsb (Nat.eqb u) lines) eqn:E; [reflexivity|].
  rewrite change_nth by (apply W; assumption). destruct (Nat.eqb_spec u l) as [->|]; [|reflexivity]. exfalso. apply in_b in Hl. congruence.
Qed.
Lemma value_change c p l j : valid dims p -> In l lines -> value c (change p l j) = value c p.
Proof. intros Hp Hl. unfold value. rewrite rested_change by assumption. reflexivity. Qed.
Lemma levels_nth p i : i < length lines -> nth i (levels_of p) 0 = nth (nth i lines 0) p 0.
Proof. intros H. unfold levels_of. rewrite (nth_indep _ 0 ((fun l => nth l p 0) 0)) by (rewrite map_length; exact H). apply (map_nth (fun l => nth l p 0)). Qed.
Lemma levels_change p i j : valid dims p -> i < length lines -> levels_of (change p (nth i lines 0) j) = change (levels_of p) i j.
Proof.
  intros Hp Hi. apply list_nth_ext; [unfold levels_of; rewrite change_length, !map_length; reflexivity|]. intros u Hu. unfold levels_of in Hu at 1. rewrite map_length in Hu.
  rewrite levels_nth by exact Hu. rewrite change_nth by (apply within; [exact Hp|apply nth_In; exact Hi]). rewrite change_nth by (unfold levels_of; rewrite map_length; exact Hi). rewrite levels_nth by exact Hu.
  destruct (Nat.eqb_spec u i) as [->|N]; [rewrite Nat.eqb_refl; reflexivity|]. destruct (Nat.eqb_spec (nth u lines 0) (nth i lines 0)) as [E|_]; [|reflexivity].
  exfalso. apply N. apply (proj1 (NoDup_nth lines 0) nodup); assumption.
Qed.
Definition on_lines (c : list (nat * nat)) : list (nat * nat) := map (fun a => (nth (fst a) lines 0, snd a)) c.
Lemma satisfied_lines c p : (forall r l, In (r, l) c -> r < length lines) -> satisfied (on_lines c) p = satisfied c (levels_of p).
Proof.
  induction c as [|[r l] c IH]; intros H; [reflexivity|]. unfold satisfied, on_lines in *. cbn [map forallb fst snd]. rewrite IH by (intros; eapply H; right; eassumption).
  rewrite levels_nth by (apply (H r l); left; reflexivity). reflexivity.
Qed.
Lemma follows_step A s c i y F : i < length lines -> (forall r l, In (r, l) c -> r < length lines) -> moves (nth (nth i lines 0) dims 0) A s -> follows y F ->
  follows (applied dims A (on_lines c) (nth i lines 0) y) (step i s c F).
Proof.
  intros Hi Hc M Y p Hp. assert (I : In (nth i lines 0) lines) by (apply nth_In; exact Hi). assert (L : nth i lines 0 < length dims) by (apply inside; exact I).
  rewrite (applied_moves dims A s) by assumption. rewrite satisfied_lines by exact Hc. unfold step. destruct (satisfied c (levels_of p)); [|apply Y; exact Hp].
  rewrite Y by (apply change_valid; [exact Hp|apply M; apply valid_level; assumption]). rewrite value_change, levels_change by assumption. rewrite levels_nth by exact Hi. reflexivity.
Qed.
Lemma follows_back k c y F : 1 < length lines -> c < length lines -> nth (nth 1 lines 0) dims 0 = k -> follows y F ->
  follows (sum_back dims (nth c lines 0) (nth 1 lines 0) y) (back k c F).
Proof.
  intros H1 Hc E Y p Hp. unfold sum_back, back. rewrite E. assert (I : In (nth 1 lines 0) lines) by (apply nth_In; exact H1).
  assert (K : 0 < k) by (rewrite <- E; apply pos, nth_In, inside; exact I).
  rewrite Y by (apply change_valid; [exact Hp|rewrite E; apply Nat.mod_upper_bound; lia]). rewrite value_change, levels_change, !levels_nth by assumption. reflexivity.
Qed.

Lemma C0_dec (a : C) : {a = C0} + {a <> C0}.
Proof.
  destruct a as [r i]. destruct (Req_EM_T r 0) as [->|N]; [destruct (Req_EM_T i 0) as [->|N]|]; [left; reflexivity| |]; right; intros E; injection E; intros; contradiction.
Qed.
Lemma quiet_map (f : nat -> nat) ls : quiet (map f ls) = true <-> forall l, In l ls -> f l = 0.
Proof.
  unfold quiet. rewrite forallb_forall. split.
  - intros H l I. symmetry. apply Nat.eqb_eq. apply H. apply in_map. exact I.
  - intros H v I. apply in_map_iff in I as (l & <- & I). rewrite (H l I). reflexivity.
Qed.
Lemma one_up_map (f : nat -> nat) ls : NoDup ls -> (one_up (map f ls) = true <-> exists u, In u ls /\ f u = 1 /\ forall l, In l ls -> l <> u -> f l = 0).
Proof.
  intros N. induction N as [|a ls Ha N IH]; cbn [map one_up]; [split; [discriminate|intros (u & [] & _)]|].
  destruct (f a) as [|[|n]] eqn:E.
  - rewrite IH. split.
    + intros (u & I & Eu & O). exists u. split; [right; exact I|]. split; [exact Eu|]. intros l [<-|Il] Nl; [exact E|apply O; assumption].
    + intros (u & [<-|I] & Eu & O); [congruence|]. exists u. split; [exact I|]. split; [exact Eu|]. intros l Il Nl. apply O; [right; exact Il|exact Nl].
  - rewrite quiet_map. split.
    + intros H. exists a. split; [left; reflexivity|]. split; [exact E|]. intros l [<-|Il] Nl; [contradiction|apply H; exact Il].
    + intros (u & [<-|I] & Eu & O) l Il; [apply O; [right; exact Il|intros ->; contradiction]|].
      exfalso. assert (f a = 0); [|congruence]. apply O; [left; reflexivity|intros ->; contradiction].
  - split; [discriminate|]. intros (u & [<-|I] & Eu & O); [congruence|]. assert (f a = 0); [|congruence]. apply O; [left; reflexivity|intros ->; contradiction].
Qed.
Lemma rested_at_rest p : valid dims p -> at_rest lines p -> rested lines p = p.
Proof.
  intros Hp H. apply list_nth_ext; [apply rested_length|]. intros u _. rewrite rested_nth by (intros; apply within; assumption).
  destruct (existsb (Nat.eqb u) lines) eqn:E; [|reflexivity]. symmetry. apply H. apply in_b. exact E.
Qed.
Lemma levels_valid p : valid dims p -> valid (map (fun l => nth l dims 0) lines) (levels_of p).
Proof.
  intros Hp. unfold levels_of. revert inside. generalize lines. intros ls H. induction ls as [|l ls IH]; cbn [map]; constructor; [|apply IH; intros; apply H; right; assumption].
  apply valid_level; [exact Hp|apply H; left; reflexivity].
Qed.
Lemma follows_end y F p : follows y F -> agrees F (map (fun l => nth l dims 0) lines) = true -> valid dims p ->
  (at_rest lines p -> y p = x p) /\
  (forall u, In u lines -> only_up u lines p -> y p = Cmul (RtoC (1 / sqrt (INR (length lines)))) (x (change (rested lines p) l0 1))) /\
  (~ at_rest lines p -> (forall u, In u lines -> ~ only_up u lines p) -> y p = C0).
Proof.
  intros Y A Hp. rewrite (Y p Hp), (agrees_eq F _ _ A (levels_valid p Hp)). unfold target, levels_of.
  pose proof (quiet_map (fun l => nth l p 0) lines) as Q. pose proof (one_up_map (fun l => nth l p 0) lines nodup) as O. cbv beta in Q, O.
  split; [|split].
  - intros H. rewrite (proj2 Q) by exact H. cbn [value]. rewrite rested_at_rest by assumption. reflexivity.
  - intros u Hu [U1 U2]. destruct (quiet _); [exfalso; assert (nth u p 0 = 0) by (apply Q; [reflexivity|exact Hu]); congruence|].
    rewrite (proj2 O) by (exists u; auto). reflexivity.
  - intros N1 N2. destruct (quiet _); [exfalso; apply N1; intros l Hl; apply Q; [reflexivity|exact Hl]|].
    destruct (one_up _); [|reflexivity]. exfalso. destruct (proj1 O eq_refl) as (u & Hu & U). apply (N2 u Hu). exact U.
Qed.
Lemma follows_start l1 r k : lines = l0 :: l1 :: r -> k = length lines -> In k [2; 3; 5] -> nth l1 dims 0 = k ->
  (forall p, valid dims p -> x p <> C0 -> at_rest lines p \/ only_up l0 lines p) ->
  follows (applied dims (cpp_h k) [(l0, 1)] l1 x) start.
Proof.
  intros El Ek Hk E1 U p Hp.
  assert (I0 : In l0 lines) by (rewrite El; left; reflexivity). assert (I1 : In l1 lines) by (rewrite El; right; left; reflexivity).
  assert (Ir : forall l, In l r -> In l lines) by (intros l H; rewrite El; right; right; exact H).
  assert (N01 : l0 <> l1 /\ (forall l, In l r -> l <> l0 /\ l <> l1)).
  { pose proof nodup as N. rewrite El in N. apply NoDup_cons_iff in N as [Na N]. apply NoDup_cons_iff in N as [Na' N]. split; [intros X; apply Na; left; auto|].
    intros l H. split; intros ->; [apply Na; right; exact H|apply Na'; exact H]. }
  destruct N01 as [N01 Nr]. pose proof (within p) as W. pose proof (inside l1 I1) as L1.
  assert (Zero : forall q, valid dims q -> ~ (at_rest lines q \/ only_up l0 lines q) -> x q = C0).
  { intros q Hq N. destruct (C0_dec (x q)) as [Z|Z]; [exact Z|]. exfalso. apply N. apply U; assumption. }
  assert (Ev : levels_of p = nth l0 p 0 :: nth l1 p 0 :: map (fun l => nth l p 0) r) by (unfold levels_of; rewrite El at 1; reflexivity).
  rewrite Ev. cbn [start]. pose proof (quiet_map (fun l => nth l p 0) r) as Q. cbv beta in Q.
  unfold applied, satisfied. cbn [forallb fst snd]. rewrite andb_true_r.
  destruct (Nat.eqb_spec (nth l0 p 0) 1) as [E|E].
  - assert (Pk : 0 < k) by (destruct Hk as [<-|[<-|[<-|[]]]]; lia). rewrite E1, (csum_single k _ 0 Pk).
    + assert (Lp : nth l1 p 0 < k) by (rewrite <- E1; apply valid_level; assumption). rewrite (h_first k Hk _ Lp). destruct (quiet _) eqn:Eq.
      * cbn [value]. rewrite <- Ek. f_equal. f_equal. apply list_nth_ext; [rewrite !change_length, rested_length; reflexivity|]. intros u _.
        rewrite !change_nth by (rewrite ?rested_length; apply W; assumption). rewrite rested_nth by (intros; apply W; assumption).
        destruct (Nat.eqb_spec u l0) as [->|N0]; [destruct (Nat.eqb_spec l0 l1); [contradiction|exact E]|].
        destruct (Nat.eqb_spec u l1) as [->|N1]; [rewrite (proj2 (in_b l1 lines) I1); reflexivity|].
        destruct (existsb (Nat.eqb u) lines) eqn:Eb; [|reflexivity]. apply in_b in Eb. rewrite El in Eb. destruct Eb as [Eb|[Eb|Eb]]; [congruence|congruence|]. apply Q; [reflexivity|exact Eb].
      * cbn [value]. rewrite Zero; [ring|apply change_valid; [exact Hp|rewrite E1; exact Pk]|].
        assert (X : ~ forall l, In l r -> nth l (change p l1 0) 0 = 0).
        { intros X. assert (Y : false = true); [|discriminate]. apply Q. intros l Hl. specialize (X l Hl). rewrite change_nth in X by (apply W; assumption).
          destruct (Nat.eqb_spec l l1); [exfalso; apply (Nr l Hl); assumption|exact X]. }
        intros [A|[_ A]]; apply X; intros l Hl; apply A; auto. apply (Nr l Hl).
    + intros j Hj Nj. rewrite Zero; [ring|apply change_valid; [exact Hp|rewrite E1; exact Hj]|].
      assert (X : nth l1 (change p l1 j) 0 <> 0) by (rewrite change_nth by (apply W; assumption); rewrite Nat.eqb_refl; exact Nj).
      intros [A|[_ A]]; apply X; apply A; auto.
  - destruct (quiet _) eqn:Eq; [|cbn [value]; apply Zero; [exact Hp|]].
    + destruct (Nat.eqb (nth l0 p 0) 0 && Nat.eqb (nth l1 p 0) 0) eqn:Eab; cbn [value].
      * apply andb_true_iff in Eab as [Ea Eb]. apply Nat.eqb_eq in Ea, Eb. rewrite rested_at_rest; [reflexivity|exact Hp|]. intros l Hl. rewrite El in Hl.
        destruct Hl as [<-|[<-|Hl]]; [exact Ea|exact Eb|]. apply Q; [reflexivity|exact Hl].
      * apply Zero; [exact Hp|]. intros [A|[A _]]; [|contradiction]. rewrite (A l0 I0), (A l1 I1) in Eab. discriminate.
    + intros [A|[A _]]; [|contradiction]. assert (Y : false = true); [|discriminate]. apply Q. intros l Hl. apply A. auto.
Qed.
End Lines.

(** ** the three functions *)
Section Functions.
Variable dims : list nat.
Hypothesis pos : forall d, In d dims -> 0 < d.
Variable same : node -> node -> bool.
Hypothesis sound : pointers same.
Variable lines : list nat.
Hypothesis fit : NoDup lines /\ (forall l, In l lines -> l < length dims) /\ forall l, In l (tl lines) -> nth l dims 0 = length lines.
Notation is_map := (is_map dims same).
Notation line i := (nth i lines 0).
Notation size i := (nth (nth i lines 0) dims 0).

Lemma line_inside i : i < length lines -> line i < length dims.
Proof. intros H. apply fit. apply nth_In. exact H. Qed.
Lemma line_size i : 0 < i -> i < length lines -> size i = length lines.
Proof. intros H1 H2. destruct fit as (_ & _ & F). apply F. destruct lines as [|l ls]; [cbn in H2; lia|]. destruct i as [|i]; [lia|]. cbn [nth tl]. apply nth_In. cbn in H2. lia. Qed.
Lemma line_other i j : i < length lines -> j < length lines -> i <> j -> line i <> line j.
Proof. intros Hi Hj N E. apply N. apply (proj1 (NoDup_nth lines 0)); [apply fit|assumption|assumption|exact E]. Qed.
Lemma lines_at i : i < length lines -> line_at lines i = Done (line i).
Proof. intros H. unfold line_at. rewrite (nth_error_nth' lines 0 H). reflexivity. Qed.
Lemma free_gate i A : i < length lines -> exists g, gate_dd 0 dims (size i) A [] (line i) = Done g /\ is_map g (applied dims A [] (line i)).
Proof.
  intros H. apply gate_map; [exact pos|exact sound|]. split; [apply line_inside; exact H|]. split; [reflexivity|]. split; [constructor|]. intros r l [].
Qed.
Lemma bound_gate i c l d A : i < length lines -> c < length lines -> c <> i -> l < size c -> d = size i -> exists g, gate_dd 0 dims d A [(line c, l)] (line i) = Done g /\ is_map g (applied dims A [(line c, l)] (line i)).
Proof.
  intros H Hc N L ->. apply gate_map; [exact pos|exact sound|]. split; [apply line_inside; exact H|]. split; [reflexivity|]. split; [repeat constructor|].
  intros r m [E|[]]. injection E as <- <-. split; [apply line_inside; exact Hc|]. split; [apply line_other; assumption|exact L].
Qed.
Lemma sum_gate c : 1 < c -> c < length lines -> In (length lines) [2; 3; 5] -> exists g, csum_dd 0 same dims (line c) (line 1) true = Done g /\ is_map g (sum_back dims (line c) (line 1)).
Proof.
  intros H1 Hc K. apply csum_map; [exact pos|exact sound|apply line_inside; exact Hc|apply line_inside; lia|apply line_other; lia|]. rewrite line_size by lia.
  destruct K as [<-|[<-|[<-|[]]]]; reflexivity.
Qed.

Variable e : edge.
Hypothesis we : ewf (rev dims) e.
Notation x := (amplitude e).
Lemma x_state : is_state dims e x.
Proof. split; [exact we|]. intros p Hp. reflexivity. Qed.

(** without the matrices of the first register *)
Definition nothing (y : state) : Prop := forall p, valid dims p -> y p = C0.
Lemma nothing_applied A c t y : nothing y -> nothing (applied dims A c t y).
Proof.
  intros Y p Hp. unfold applied. destruct (satisfied c p); [|apply Y; exact Hp]. apply csum_0.
  intros j Hj. rewrite Y by (apply change_valid; assumption). ring.
Qed.
Lemma nothing_back c t y : t < length dims -> nothing y -> nothing (sum_back dims c t y).
Proof. intros Ht Y p Hp. unfold sum_back. apply Y. apply change_valid; [exact Hp|]. assert (0 < nth t dims 0) by (apply pos, nth_In; exact Ht). apply Nat.mod_upper_bound. lia. Qed.
Lemma zero_map : is_map zero_edge (fun _ _ => C0).
Proof.
  intros f y [W V]. destruct (apply_ok same sound (rev dims) zero_edge f (pos_rev dims pos)) as [W' V']; [left; reflexivity|exact W|]. split; [exact W'|]. intros p Hp.
  rewrite V' by (apply SessionProofs.valid_rev; exact Hp). rewrite (psum_ext _ _ (fun _ => C0)); [apply psum_0|]. intros q _. unfold ev, zero_edge. cbn [fst]. ring.
Qed.
Lemma no_first_done : 1 < length lines -> ~ In (size 0) [2; 3; 5] -> down_and_up 0 dims (line 0) (line 1) = Done (zero_edge, zero_edge).
Proof.
  intros L N. unfold down_and_up. rewrite (nth_error_nth' dims 0 (line_inside 0 ltac:(lia))). destruct (_ || _ || _) eqn:E; [|reflexivity].
  exfalso. apply N. apply orb_true_iff in E as [E|E]; [apply orb_true_iff in E as [E|E]|]; apply Nat.eqb_eq in E; cbn; auto.
Qed.
Lemma nothing_end e' y : is_state dims e' y -> nothing y -> forall p, valid dims p -> amplitude e' p = C0.
Proof. intros [_ V] Y p Hp. unfold amplitude. rewrite V by exact Hp. apply Y. exact Hp. Qed.
Lemma lost : In (length lines) [2; 3; 5] -> 1 < size 0 -> ~ In (size 0) [2; 3; 5] ->
  exists e', spread 0 same dims lines e = Done e' /\ forall p, valid dims p -> amplitude e' p = C0.
Proof.
  intros K5 S0 N.
  assert (B : forall A i l d, In (length lines) [2; 3; 5] -> 1 < i -> i < length lines -> l < length lines -> d = length lines -> exists g, gate_dd 0 dims d A [(line 1, l)] (line i) = Done g /\ is_map g (applied dims A [(line 1, l)] (line i))).
  { intros A i l d _ H1 Hi Hl ->. apply bound_gate; [exact Hi|lia|lia|rewrite line_size by lia; exact Hl|rewrite line_size by lia; reflexivity]. }
  destruct K5 as [K|[K|[K|[]]]]; symmetry in K; assert (K5 : In (length lines) [2; 3; 5]) by (rewrite K; cbn; tauto); assert (L1 : line 1 < length dims) by (apply line_inside; lia);
    unfold spread; rewrite K; unfold spread2, spread3, spread5; rewrite !lines_at by lia; cbn [cbind].
  - destruct (bound_gate 1 0 1 2 (cpp_h 2) ltac:(lia) ltac:(lia) ltac:(lia) S0) as (h & -> & Mh); [rewrite line_size by lia; lia|]. cbn [cbind].
    rewrite no_first_done by (try lia; exact N). cbn [cbind fst snd multiplied]. eexists. split; [reflexivity|]. eapply nothing_end; [exact (zero_map _ _ (zero_map _ _ (Mh _ _ x_state)))|]. intros p _. reflexivity.
  - destruct (bound_gate 1 0 1 3 (cpp_h 3) ltac:(lia) ltac:(lia) ltac:(lia) S0) as (h & -> & Mh); [rewrite line_size by lia; lia|]. cbn [cbind].
    rewrite no_first_done by (try lia; exact N). cbn [cbind fst snd].
    destruct (B (cpp_x 3) 2 2 3) as (x12 & -> & M12); try (exact K5 || lia). cbn [cbind].
    destruct (sum_gate 2 ltac:(lia) ltac:(lia) K5) as (s2 & -> & M2). cbn [cbind multiplied].
    eexists. split; [reflexivity|]. eapply nothing_end; [exact (M2 _ _ (M2 _ _ (M12 _ _ (zero_map _ _ (zero_map _ _ (Mh _ _ x_state))))))|].
    do 2 (apply nothing_back; [exact L1|]). apply nothing_applied. intros p _. reflexivity.
  - destruct (bound_gate 1 0 1 5 (cpp_h 5) ltac:(lia) ltac:(lia) ltac:(lia) S0) as (h & -> & Mh); [rewrite line_size by lia; lia|]. cbn [cbind].
    rewrite no_first_done by (try lia; exact N). cbn [cbind fst snd].
    destruct (B (cpp_x 5) 2 2 5) as (x12 & -> & M12); try (exact K5 || lia). cbn [cbind].
    destruct (B (cpp_x 5) 3 3 5) as (x13 & -> & M13); try (exact K5 || lia). cbn [cbind].
    destruct (B (cpp_x 5) 4 4 5) as (x14 & -> & M14); try (exact K5 || lia). cbn [cbind].
    destruct (sum_gate 2 ltac:(lia) ltac:(lia) K5) as (s2 & -> & M2). cbn [cbind].
    destruct (sum_gate 3 ltac:(lia) ltac:(lia) K5) as (s3 & -> & M3). cbn [cbind].
    destruct (sum_gate 4 ltac:(lia) ltac:(lia) K5) as (s4 & -> & M4). cbn [cbind multiplied].
    pose proof (M2 _ _ (M2 _ _ (M12 _ _ (zero_map _ _ (zero_map _ _ (Mh _ _ x_state)))))) as S.
    pose proof (M3 _ _ (M3 _ _ (M3 _ _ (M13 _ _ S)))) as S3. pose proof (M4 _ _ (M4 _ _ (M4 _ _ (M4 _ _ (M14 _ _ S3))))) as S4. clear S S3.
    eexists. split; [reflexivity|]. eapply nothing_end; [exact S4|].
    do 4 (apply nothing_back; [exact L1|]). apply nothing_applied. do 3 (apply nothing_back; [exact L1|]). apply nothing_applied.
    do 2 (apply nothing_back; [exact L1|]). apply nothing_applied. intros p _. reflexivity.
Qed.

Hypothesis first_size : In (size 0) [2; 3; 5].
Lemma down_up : 1 < length lines -> exists g h, down_and_up 0 dims (line 0) (line 1) = Done (g, h) /\
  is_map g (applied dims (cpp_xdag (size 0)) [] (line 0)) /\ is_map h (applied dims (cpp_x (size 0)) [(line 1, 0)] (line 0)).
Proof.
  intros H. unfold down_and_up. rewrite (nth_error_nth' dims 0 (line_inside 0 ltac:(lia))).
  destruct (free_gate 0 (cpp_xdag (size 0)) ltac:(lia)) as (g & Eg & Mg).
  destruct (bound_gate 0 1 0 (size 0) (cpp_x (size 0)) ltac:(lia) H ltac:(lia)) as (h & Eh & Mh); [rewrite line_size by lia; lia|reflexivity|].
  exists g, h. replace (Nat.eqb (size 0) 2 || Nat.eqb (size 0) 3 || Nat.eqb (size 0) 5) with true by (destruct first_size as [<-|[<-|[<-|[]]]]; reflexivity).
  rewrite Eg. cbn [cbind]. rewrite Eh. cbn [cbind]. auto.
Qed.
Hypothesis ue : unshared dims lines e.
Notation follows := (follows dims lines x).

Lemma first_follows k l1 r : lines = line 0 :: l1 :: r -> k = length lines -> In k [2; 3; 5] ->
  follows (applied dims (cpp_x (size 0)) [(line 1, 0)] (line 0) (applied dims (cpp_xdag (size 0)) [] (line 0) (applied dims (cpp_h k) [(line 0, 1)] (line 1) x))) (first_part (size 0)).
Proof.
  intros El Ek Hk. assert (L : 1 < length lines) by (rewrite El; cbn; lia). assert (E0 : line 0 = hd 0 lines) by (rewrite El; reflexivity). assert (E1 : line 1 = l1) by (rewrite El; reflexivity).
  destruct fit as (N & I & _). unfold first_part.
  apply (follows_step dims lines N I x (cpp_x (size 0)) (up (size 0)) [(1, 0)] 0); [lia|intros r' l [E|[]]; injection E as <- <-; exact L|apply x_moves; exact first_size|].
  apply (follows_step dims lines N I x (cpp_xdag (size 0)) (down (size 0)) [] 0); [lia|intros r' l []|apply xdag_moves; exact first_size|].
  rewrite E0, E1. apply (follows_start dims lines N I x l1 r k); [rewrite <- E0; exact El|exact Ek|exact Hk| |].
  - rewrite <- E1, line_size by lia. auto.
  - exact ue.
Qed.
Lemma shared_of e' y F : is_state dims e' y -> follows y F -> agrees F (map (fun l => nth l dims 0) lines) = true -> shared dims lines e e'.
Proof.
  intros [_ V] Y A p Hp. destruct fit as (N & I & _). change (amplitude e' p) with (ev e' (rev p)). rewrite (V p Hp). apply (follows_end dims lines N I x y F p Y A Hp).
Qed.
Lemma sizes_of : length lines = S (length (tl lines)) -> map (fun l => nth l dims 0) lines = size 0 :: repeat (length lines) (length (tl lines)).
Proof.
  intros L. destruct fit as (_ & _ & F). destruct lines as [|l ls] eqn:E; [discriminate|]. cbn [map nth tl] in *. f_equal. clear - F.
  remember (length (l :: ls)) as k. clear Heqk. induction ls as [|a ls IH]; [reflexivity|]. cbn [map length repeat]. rewrite (F a) by (left; reflexivity). f_equal. apply IH. intros; apply F; right; assumption.
Qed.

Lemma spread2_ok : length lines = 2 -> exists e', spread2 0 same dims lines e = Done e' /\ ewf (rev dims) e' /\ shared dims lines e e'.
Proof.
  intros K. assert (El : exists l1 r, lines = line 0 :: l1 :: r) by (destruct lines as [|a [|b r]]; try discriminate K; exists b, r; reflexivity). destruct El as (l1 & r & El).
  unfold spread2. rewrite !lines_at by lia. cbn [cbind].
  destruct (bound_gate 1 0 1 2 (cpp_h 2) ltac:(lia) ltac:(lia) ltac:(lia)) as (h & -> & Mh); [destruct first_size as [<-|[<-|[<-|[]]]]; lia|rewrite line_size by lia; lia|]. cbn [cbind].
  destruct (down_up ltac:(lia)) as (m & u & -> & Mm & Mu). cbn [cbind fst snd multiplied].
  pose proof (Mu _ _ (Mm _ _ (Mh _ _ x_state))) as S. eexists. split; [reflexivity|]. split; [apply S|]. eapply shared_of; [exact S|apply (first_follows 2 l1 r); [exact El|auto|cbn; tauto]|].
  rewrite sizes_of by (rewrite El; reflexivity). rewrite K. replace (length (tl lines)) with 1 by (rewrite El in *; cbn in *; lia). apply run2_ok; exact first_size.
Qed.
Lemma spread3_ok : length lines = 3 -> exists e', spread3 0 same dims lines e = Done e' /\ ewf (rev dims) e' /\ shared dims lines e e'.
Proof.
  intros K. assert (El : exists l1 r, lines = line 0 :: l1 :: r) by (destruct lines as [|a [|b r]]; try discriminate K; exists b, r; reflexivity). destruct El as (l1 & r & El).
  unfold spread3. rewrite !lines_at by lia. cbn [cbind].
  destruct (bound_gate 1 0 1 3 (cpp_h 3) ltac:(lia) ltac:(lia) ltac:(lia)) as (h & -> & Mh); [destruct first_size as [<-|[<-|[<-|[]]]]; lia|rewrite line_size by lia; lia|]. cbn [cbind].
  destruct (down_up ltac:(lia)) as (m & u & -> & Mm & Mu). cbn [cbind fst snd].
  destruct (bound_gate 2 1 2 3 (cpp_x 3) ltac:(lia) ltac:(lia) ltac:(lia)) as (x12 & -> & M12); [rewrite line_size by lia; lia|rewrite line_size by lia; lia|]. cbn [cbind].
  destruct (sum_gate 2 ltac:(lia) ltac:(lia)) as (s2 & -> & M2); [rewrite K; cbn; tauto|]. cbn [cbind multiplied].
  pose proof (M2 _ _ (M2 _ _ (M12 _ _ (Mu _ _ (Mm _ _ (Mh _ _ x_state)))))) as S. eexists. split; [reflexivity|]. split; [apply S|].
  eapply (shared_of _ _ (run3 (size 0))); [exact S| |].
  - unfold run3. do 2 (apply follows_back; [exact pos|apply fit|apply fit|lia|lia|rewrite line_size by lia; exact K|]).
    apply (follows_step dims lines (proj1 fit) (proj1 (proj2 fit)) x _ _ [(1, 2)] 2);
      [lia|intros ? ? [E|[]]; injection E as <- <-; lia|rewrite line_size, K by lia; apply x_moves; cbn; tauto|].
    apply (first_follows 3 l1 r); [exact El|auto|cbn; tauto].
  - rewrite sizes_of by (rewrite El; reflexivity). rewrite K. replace (length (tl lines)) with 2 by (rewrite El in *; cbn in *; lia). apply run3_ok; exact first_size.
Qed.
Lemma spread5_ok : length lines = 5 -> exists e', spread5 0 same dims lines e = Done e' /\ ewf (rev dims) e' /\ shared dims lines e e'.
Proof.
  intros K. assert (El : exists l1 r, lines = line 0 :: l1 :: r) by (destruct lines as [|a [|b r]]; try discriminate K; exists b, r; reflexivity). destruct El as (l1 & r & El).
  assert (K5 : In (length lines) [2; 3; 5]) by (rewrite K; cbn; tauto).
  unfold spread5. rewrite !lines_at by lia. cbn [cbind].
  destruct (bound_gate 1 0 1 5 (cpp_h 5) ltac:(lia) ltac:(lia) ltac:(lia)) as (h & -> & Mh); [destruct first_size as [<-|[<-|[<-|[]]]]; lia|rewrite line_size by lia; lia|]. cbn [cbind].
  destruct (down_up ltac:(lia)) as (m & u & -> & Mm & Mu). cbn [cbind fst snd].
  destruct (bound_gate 2 1 2 5 (cpp_x 5) ltac:(lia) ltac:(lia) ltac:(lia)) as (x12 & -> & M12); [rewrite line_size by lia; lia|rewrite line_size by lia; lia|]. cbn [cbind].
  destruct (bound_gate 3 1 3 5 (cpp_x 5) ltac:(lia) ltac:(lia) ltac:(lia)) as (x13 & -> & M13); [rewrite line_size by lia; lia|rewrite line_size by lia; lia|]. cbn [cbind].
  destruct (bound_gate 4 1 4 5 (cpp_x 5) ltac:(lia) ltac:(lia) ltac:(lia)) as (x14 & -> & M14); [rewrite line_size by lia; lia|rewrite line_size by lia; lia|]. cbn [cbind].
  destruct (sum_gate 2 ltac:(lia) ltac:(lia) K5) as (s2 & -> & M2). cbn [cbind].
  destruct (sum_gate 3 ltac:(lia) ltac:(lia) K5) as (s3 & -> & M3). cbn [cbind].
  destruct (sum_gate 4 ltac:(lia) ltac:(lia) K5) as (s4 & -> & M4). cbn [cbind multiplied].
  pose proof (M2 _ _ (M2 _ _ (M12 _ _ (Mu _ _ (Mm _ _ (Mh _ _ x_state)))))) as S.
  pose proof (M3 _ _ (M3 _ _ (M3 _ _ (M13 _ _ S)))) as S3. pose proof (M4 _ _ (M4 _ _ (M4 _ _ (M4 _ _ (M14 _ _ S3))))) as S4. clear S S3.
  eexists. split; [reflexivity|]. split; [apply S4|]. eapply (shared_of _ _ (run5 (size 0))); [exact S4| |].
  - unfold run5. do 4 (apply follows_back; [exact pos|apply fit|apply fit|lia|lia|rewrite line_size by lia; exact K|]).
    apply (follows_step dims lines (proj1 fit) (proj1 (proj2 fit)) x _ _ [(1, 4)] 4);
      [lia|intros ? ? [E|[]]; injection E as <- <-; lia|rewrite line_size, K by lia; apply x_moves; cbn; tauto|].
    do 3 (apply follows_back; [exact pos|apply fit|apply fit|lia|lia|rewrite line_size by lia; exact K|]).
    apply (follows_step dims lines (proj1 fit) (proj1 (proj2 fit)) x _ _ [(1, 3)] 3);
      [lia|intros ? ? [E|[]]; injection E as <- <-; lia|rewrite line_size, K by lia; apply x_moves; cbn; tauto|].
    do 2 (apply follows_back; [exact pos|apply fit|apply fit|lia|lia|rewrite line_size by lia; exact K|]).
    apply (follows_step dims lines (proj1 fit) (proj1 (proj2 fit)) x _ _ [(1, 2)] 2);
      [lia|intros ? ? [E|[]]; injection E as <- <-; lia|rewrite line_size, K by lia; apply x_moves; cbn; tauto|].
    apply (first_follows 5 l1 r); [exact El|auto|cbn; tauto].
  - rewrite sizes_of by (rewrite El; reflexivity). rewrite K. replace (length (tl lines)) with 4 by (rewrite El in *; cbn in *; lia). apply run5_ok; exact first_size.
Qed.
Lemma spread_ok : In (length lines) [2; 3; 5] -> exists e', spread 0 same dims lines e = Done e' /\ ewf (rev dims) e' /\ shared dims lines e e'.
Proof.
  intros [K|[K|[K|[]]]]; unfold spread; rewrite <- K; [apply spread2_ok|apply spread3_ok|apply spread5_ok]; auto.
Qed.
End Functions.

Lemma too_few dims same lines e :
  (length lines < 2 -> spread2 0 same dims lines e = Throw OutOfRange) /\
  (length lines < 3 -> forall e', spread3 0 same dims lines e <> Done e') /\
  (length lines < 5 -> forall e', spread5 0 same dims lines e <> Done e').
Proof.
  assert (D : forall A B (m : cres A) (f : A -> cres B) b, (forall a, f a <> Done b) -> (let! a := m in f a) <> Done b) by (intros A B [a|y] f b H; cbn [cbind]; [apply H|discriminate]).
  split; [|split].
  - intros H. destruct lines as [|a [|b r]]; [reflexivity|reflexivity|cbn in H; lia].
  - intros H e'. unfold spread3. do 4 (apply D; intros ?). destruct lines as [|? [|? [|? ?]]]; try (cbn in H; lia); cbn; discriminate.
  - intros H e'. unfold spread5. do 4 (apply D; intros ?). destruct (Nat.ltb_spec (length lines) 3) as [L|L]; [destruct lines as [|? [|? [|? ?]]]; try (cbn in L; lia); cbn; discriminate|].
    do 2 (apply D; intros ?). destruct (Nat.ltb_spec (length lines) 4) as [L'|L']; [destruct lines as [|? [|? [|? [|? ?]]]]; try (cbn in L'; lia); cbn; discriminate|].
    do 2 (apply D; intros ?). destruct lines as [|? [|? [|? [|? [|? ?]]]]]; try (cbn in H; lia); try (cbn in L'; lia); cbn; discriminate.
Qed.
