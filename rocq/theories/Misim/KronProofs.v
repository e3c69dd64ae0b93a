(** Tensor products of diagrams over registers of one size. *)
From Coq Require Import List Arith Reals Bool Lia Lra.
From Verif Require Import Base.Cplx Base.Matrix Base.Radix Misim.DdModel Misim.DdSpec Misim.DdProofs Misim.DdGateProofs Misim.NodeSpec Misim.NodeShapeProofs Misim.NodeProofs Misim.KronModel Misim.KronSpec.
Import ListNotations.
Local Open Scope nat_scope.

Lemma valid_app a b p q : valid a p -> valid b q -> valid (a ++ b) (p ++ q).
Proof. intros H K. induction H; [exact K|constructor; assumption]. Qed.
Lemma entry_app a b p p' q q' : length p = length a -> length p' = length a ->
  entry true (a ++ b) (p ++ q) (p' ++ q') = entry true a p p' ++ entry true b q q'.
Proof.
  revert p p'. induction a as [|d a IH]; intros [|i p] [|j p'] L L'; cbn in *; try discriminate; [reflexivity|]. rewrite IH by lia. reflexivity.
Qed.
Lemma valid_length a p : valid a p -> length p = length a.
Proof. intros H. induction H; cbn; congruence. Qed.
Lemma arity_repeat d m : arity true (repeat d m) = repeat (d * d) m.
Proof. unfold arity, cols. induction m as [|m IH]; [reflexivity|]. cbn. rewrite IH. reflexivity. Qed.
Lemma repeat_plus {A} (a : A) m k : repeat a (m + k) = repeat a m ++ repeat a k.
Proof. apply repeat_app. Qed.

(** ** the check of new nodes *)
Lemma edge_same_spec e f : edge_same 0 e f = true <-> e = f.
Proof.
  unfold edge_same. rewrite andb_true_iff, node_eqb_spec, near_spec. destruct e, f; cbn. split; [intros [-> ->]; reflexivity|intros E; injection E as -> ->; auto].
Qed.
Definition flags (dims : list nat) (es : list edge) : list bool := map (fun e => marked 0 dims (snd e)) es.
Lemma nth_flag dims es p : p < length es -> nth_error (flags dims es) p = Some (marked 0 dims (snd (edge_at es p))).
Proof. intros H. unfold flags. rewrite nth_error_map. rewrite (nth_error_nth' es zero_edge H). reflexivity. Qed.
Lemma nth_edge es p : p < length es -> nth_error es p = Some (edge_at es p).
Proof. intros H. apply nth_error_nth'. exact H. Qed.
Lemma flip_lt d p : 0 < d -> p < d * d -> p mod d * d + p / d < d * d.
Proof.
  intros Hd Hp. assert (A : p / d < d) by (apply Nat.div_lt_upper_bound; lia). assert (B : p mod d < d) by (apply Nat.mod_upper_bound; lia). nia.
Qed.
Lemma diagonal_some dims d es is : 0 < d -> length es = d * d -> (forall i, In i is -> i < d) -> exists b, diagonal_marked d (flags dims es) is = Some b.
Proof.
  intros Hd L. induction is as [|i r IH]; intros H; [exists true; reflexivity|]. cbn [diagonal_marked]. assert (Hi : i < d) by (apply H; left; reflexivity).
  rewrite nth_flag by (rewrite L; nia). destruct (marked 0 dims _); [|exists false; reflexivity]. apply IH. intros j Hj. apply H. right. exact Hj.
Qed.
Lemma diagonal_true dims d es is : 0 < d -> length es = d * d -> (forall i, In i is -> i < d) ->
  (diagonal_marked d (flags dims es) is = Some true <-> forall i, In i is -> marked 0 dims (snd (edge_at es (i * d + i))) = true).
Proof.
  intros Hd L. induction is as [|i r IH]; intros H; [split; [intros _ i []|reflexivity]|]. cbn [diagonal_marked]. assert (Hi : i < d) by (apply H; left; reflexivity).
  rewrite nth_flag by (rewrite L; nia). specialize (IH (fun j Hj => H j (or_intror Hj))). destruct (marked 0 dims (snd (edge_at es (i * d + i)))) eqn:M.
  - rewrite IH. split; [intros Q j [<-|Hj]; [exact M|apply Q; exact Hj]|intros Q j Hj; apply Q; right; exact Hj].
  - split; [discriminate|]. intros Q. rewrite Q in M by (left; reflexivity). discriminate.
Qed.
Lemma mirror_some dims d es ps : 0 < d -> length es = d * d -> (forall p, In p ps -> p < d * d) ->
  (forall p, In p ps -> p / d <> p mod d -> marked 0 dims (snd (edge_at es p)) = true) -> exists b, mirror_images 0 d es (flags dims es) ps = Some b.
Proof.
  intros Hd L. induction ps as [|p r IH]; intros H M; [exists true; reflexivity|]. cbn [mirror_images]. assert (Hp : p < d * d) by (apply H; left; reflexivity).
  assert (R : exists b, mirror_images 0 d es (flags dims es) r = Some b) by (apply IH; [intros q Hq; apply H; right; exact Hq|intros q Hq; apply M; right; exact Hq]).
  destruct (Nat.eqb_spec (p / d) (p mod d)) as [E|E]; [exact R|]. rewrite nth_flag, !nth_edge by (rewrite L; first [exact Hp|apply flip_lt; assumption]).
  rewrite M by (first [left; reflexivity|exact E]). destruct (edge_same 0 _ _); [exact R|exists false; reflexivity].
Qed.
Lemma mirror_true dims d es ps : 0 < d -> length es = d * d -> (forall p, In p ps -> p < d * d) ->
  (mirror_images 0 d es (flags dims es) ps = Some true <->
   forall p, In p ps -> p / d <> p mod d -> marked 0 dims (snd (edge_at es p)) = true /\ edge_at es p = edge_at es (p mod d * d + p / d)).
Proof.
  intros Hd L. induction ps as [|p r IH]; intros H; [split; [intros _ p []|reflexivity]|]. cbn [mirror_images]. assert (Hp : p < d * d) by (apply H; left; reflexivity).
  specialize (IH (fun j Hj => H j (or_intror Hj))).
  destruct (Nat.eqb_spec (p / d) (p mod d)) as [E|E].
  { rewrite IH. split; [intros Q j [<-|Hj] Nj; [contradiction|apply Q; assumption]|intros Q j Hj; apply Q; right; exact Hj]. }
  rewrite nth_flag, !nth_edge by (rewrite L; first [exact Hp|apply flip_lt; assumption]).
  destruct (marked 0 dims (snd (edge_at es p))) eqn:M.
  - destruct (edge_same 0 _ _) eqn:S.
    + apply edge_same_spec in S. rewrite IH. split; [intros Q j [<-|Hj] Nj; [split; assumption|apply Q; assumption]|intros Q j Hj; apply Q; right; exact Hj].
    + split; [discriminate|]. intros Q. destruct (Q p (or_introl eq_refl) E) as [_ S']. apply edge_same_spec in S'. congruence.
  - split; [discriminate|]. intros Q. destruct (Q p (or_introl eq_refl) E) as [M' _]. congruence.
Qed.
Lemma special_some dims d es : 0 < d -> length es = d * d -> (forall p, p < d * d -> p / d <> p mod d -> marked 0 dims (snd (edge_at es p)) = true) ->
  exists b, special 0 d es (flags dims es) = Some b.
Proof.
  intros Hd L H. unfold special. destruct (diagonal_some dims d es (seq 0 d) Hd L) as [b E]; [intros i Hi; apply in_seq in Hi; lia|]. rewrite E. destruct b; [|exists false; reflexivity].
  apply mirror_some; [exact Hd|exact L|intros p Hp; apply in_seq in Hp; lia|]. intros p Hp. apply in_seq in Hp. apply H. lia.
Qed.
Lemma special_true dims d es : 0 < d -> length es = d * d ->
  (special 0 d es (flags dims es) = Some true <-> forall p, p < d * d -> marked 0 dims (snd (edge_at es p)) = true /\ edge_at es p = edge_at es (p mod d * d + p / d)).
Proof.
  intros Hd L. unfold special.
  assert (Dg : forall p, p < d * d -> p / d = p mod d -> p / d * d + p / d = p /\ p / d < d).
  { intros p Hp E. split; [|apply Nat.div_lt_upper_bound; lia]. rewrite E at 2. rewrite (Nat.div_mod p d) at 3 by lia. lia. }
  assert (A := diagonal_true dims d es (seq 0 d) Hd L). assert (B := mirror_true dims d es (seq 0 (d * d)) Hd L).
  specialize (A ltac:(intros i Hi; apply in_seq in Hi; lia)). specialize (B ltac:(intros i Hi; apply in_seq in Hi; lia)). split.
  - destruct (diagonal_marked d (flags dims es) (seq 0 d)) as [[|]|]; try discriminate. intros Q. rewrite B in Q. apply proj1 in A. specialize (A eq_refl). intros p Hp.
    destruct (Nat.eq_dec (p / d) (p mod d)) as [E|E]; [|apply Q; [apply in_seq; lia|exact E]]. destruct (Dg p Hp E) as [X Y]. rewrite <- E, X. split; [|reflexivity].
    rewrite <- X. apply A. apply in_seq. lia.
  - intros Q. replace (diagonal_marked d (flags dims es) (seq 0 d)) with (Some true).
    + rewrite B. intros p Hp _. apply in_seq in Hp. apply Q. lia.
    + symmetry. rewrite A. intros i Hi. apply in_seq in Hi. apply Q. nia.
Qed.
(** what making a node does to its edges *)
Lemma make_map cached v es : exists g, g zero_edge = zero_edge /\ (forall e, snd (g e) = snd e \/ snd (g e) = Term) /\
  (make 0 true cached v es = zero_edge \/ exists w, make 0 true cached v es = (w, Node v (map g es))).
Proof.
  set (c := fun e : edge => if cached then (if near_zero 0 (fst e) then zero_edge else e) else e).
  assert (Ec : clear 0 cached es = map c es).
  { unfold clear, c. destruct cached; [reflexivity|]. symmetry. apply map_id. }
  unfold make, mnormalise. rewrite Ec. assert (P := mpivot_ok (map c es)). destruct (mpivot 0 (map c es)) as [k|].
  - destruct P as [Hk Nk]. set (w := fst (edge_at (map c es) k)) in *.
    exists (fun e => (Cdiv (fst (c e)) w, snd (c e))). split; [|split].
    + assert (Z : c zero_edge = zero_edge) by (unfold c; destruct cached; [destruct (near_zero 0 (fst zero_edge)); reflexivity|reflexivity]). rewrite Z. cbn. rewrite Cdiv_0. reflexivity.
    + intros e. cbn [snd]. unfold c. destruct cached; [|left; reflexivity]. destruct (near_zero 0 (fst e)); [right|left]; reflexivity.
    + right. exists w. do 2 f_equal. apply (nth_ext _ _ zero_edge (Cdiv (fst (c zero_edge)) w, snd (c zero_edge))); [rewrite tab_length, !map_length; reflexivity|].
      rewrite tab_length, map_length. intros i Hi. rewrite (map_nth (fun e => (Cdiv (fst (c e)) w, snd (c e)))). fold (edge_at (tab (length es) (fun i => if i =? k then (C1, snd (edge_at (map c es) i)) else (Cdiv (if near 0 (fst (edge_at (map c es) i)) C1 then C1 else fst (edge_at (map c es) i)) w, snd (edge_at (map c es) i)))) i).
      rewrite edge_at_tab by exact Hi.
      assert (X : edge_at (map c es) i = c (nth i es zero_edge)) by (unfold edge_at; rewrite (nth_indep _ zero_edge (c zero_edge)) by (rewrite map_length; exact Hi); apply map_nth).
      destruct (Nat.eqb_spec i k) as [->|_].
      * rewrite <- X. unfold w. f_equal. symmetry. unfold Cdiv. apply Cinv_r. exact Nk.
      * rewrite X. destruct (near 0 (fst (c (nth i es zero_edge))) C1) eqn:Nr; [apply near_spec in Nr; rewrite Nr|]; reflexivity.
  - exists (fun _ => zero_edge). split; [reflexivity|]. split; [intros e; right; reflexivity|left; reflexivity].
Qed.
Lemma node_at_some N d cached v es : 0 < d -> v < N -> length es = d * d ->
  (forall p, p < d * d -> p / d <> p mod d -> marked 0 (repeat d N) (snd (edge_at es p)) = true) ->
  node_at 0 (repeat d N) cached v es = Some (make 0 true cached v es) /\
  ((forall p, p < d * d -> marked 0 (repeat d N) (snd (edge_at es p)) = true /\ edge_at es p = edge_at es (p mod d * d + p / d)) ->
   marked 0 (repeat d N) (snd (make 0 true cached v es)) = true).
Proof.
  intros Hd Hv L H. unfold node_at. rewrite repeat_length. replace (v <? N) with true by (symmetry; apply Nat.ltb_lt; exact Hv).
  assert (Dv : nth v (repeat d N) 0 = d) by (rewrite (nth_indep _ 0 d) by (rewrite repeat_length; exact Hv); apply nth_repeat).
  destruct (make_map cached v es) as (g & Gz & Gs & [E|(w & E)]); rewrite E; [split; reflexivity|]. cbn [snd].
  assert (Lg : length (map g es) = d * d) by (rewrite map_length; exact L).
  assert (A : forall p, edge_at (map g es) p = g (edge_at es p)) by (intros p; unfold edge_at; rewrite <- Gz at 1; apply map_nth).
  assert (Mk : forall p, marked 0 (repeat d N) (snd (edge_at es p)) = true -> marked 0 (repeat d N) (snd (edge_at (map g es) p)) = true).
  { intros p Hp. rewrite A. destruct (Gs (edge_at es p)) as [->| ->]; [exact Hp|reflexivity]. }
  rewrite Dv. fold (flags (repeat d N) (map g es)). split.
  - destruct (special_some (repeat d N) d (map g es) Hd Lg) as [b Eb]; [intros p Hp Np; apply Mk; apply H; assumption|]. rewrite Eb. reflexivity.
  - intros Q. cbn [marked]. rewrite Dv. fold (flags (repeat d N) (map g es)). replace (special 0 d (map g es) (flags (repeat d N) (map g es))) with (Some true); [reflexivity|]. symmetry.
    apply special_true; [exact Hd|exact Lg|]. intros p Hp. destruct (Q p Hp) as [Q1 Q2]. split; [apply Mk; exact Q1|]. rewrite !A. f_equal. exact Q2.
Qed.
Lemma node_at_inv dims cached v es e : node_at 0 dims cached v es = Some e -> e = make 0 true cached v es.
Proof.
  unfold node_at. destruct (v <? length dims); [|discriminate]. destruct (snd (make 0 true cached v es)); [congruence|]. destruct (special 0 _ _ _); congruence.
Qed.

Section Uniform.
Variables d N : nat.
Hypothesis d_pos : 0 < d.
Let D := repeat d N.
Lemma nth_D v : v < N -> nth v D 0 = d.
Proof. intros H. unfold D. rewrite (nth_indep _ 0 d) by (rewrite repeat_length; exact H). apply nth_repeat. Qed.
Lemma len_D : length D = N. Proof. apply repeat_length. Qed.
Lemma rev_repeat n : rev (repeat d n) = repeat d n.
Proof. induction n as [|n IH]; [reflexivity|]. cbn. rewrite IH. symmetry. apply (repeat_cons n d). Qed.
Lemma firstn_repeat n m : n <= m -> firstn n (repeat d m) = repeat d n.
Proof. revert m. induction n as [|n IH]; intros [|m] H; try reflexivity; [lia|]. cbn. rewrite IH by lia. reflexivity. Qed.
Lemma sizes_D v : v <= N -> sizes_below D v = repeat d v.
Proof. intros H. unfold sizes_below, D. rewrite firstn_repeat by exact H. apply rev_repeat. Qed.

Definition diag (i : nat) : bool := Nat.eqb (i / d) (i mod d).
Lemma ident_path m : forall n p, is_ident (repeat d m) n = true -> valid (repeat (d * d) m) p -> val n p = if forallb diag p then C1 else C0.
Proof.
  induction m as [|m IH]; intros n p H V; cbn [repeat] in V; inversion V as [|i s p' r Hi Hp]; subst; [reflexivity|].
  cbn [repeat is_ident] in H. destruct n as [|v es]; [discriminate|]. cbn [val forallb]. rewrite forallb_forall in H.
  assert (Hi' := H i ltac:(apply in_seq; lia)). cbn zeta in Hi'. unfold edge_at, zero_edge in Hi'. fold (diag i) in Hi'. destruct (diag i); cbn [andb].
  - apply andb_prop in Hi' as [A B]. apply is_one_spec in B. rewrite B, (IH _ _ A Hp). destruct (forallb diag p'); ring.
  - apply is_zero_spec in Hi'. rewrite Hi'. ring.
Qed.

Lemma wf_next ss n : wf ss n -> next_register n = length ss.
Proof. destruct ss, n; cbn; try tauto. intros (-> & _). reflexivity. Qed.

(** one layer *)
Lemma make_weight v es w : (forall i, i < length es -> fst (edge_at es i) = C0 \/ fst (edge_at es i) = w) ->
  (exists i, i < length es /\ fst (edge_at es i) <> C0) -> exists fs, make 0 true false v es = (w, Node v fs) /\ length fs = length es.
Proof.
  intros H (i & Hi & Ni). unfold make, mnormalise. cbn [clear]. assert (P := mpivot_ok es). destruct (mpivot 0 es) as [k|].
  - destruct P as [Hk Nk]. destruct (H k Hk) as [E|E]; [contradiction|]. rewrite E. eexists. split; [reflexivity|]. apply tab_length.
  - exfalso. apply Ni. apply P. exact Hi.
Qed.
Lemma layer_ok ss e : fst e <> C0 -> wf ss (snd e) -> length ss < N ->
  exists e', diagonal_layer 0 D (d * d) d (length ss) e = Some e' /\ wf (d * d :: ss) (snd e') /\ fst e' = fst e /\
  (marked 0 D (snd e) = true -> marked 0 D (snd e') = true) /\ forall i q, i < d * d -> ev e' (i :: q) = if diag i then ev e q else C0.
Proof.
  intros Ne We Hl. unfold diagonal_layer. replace (d * d <=? d * d) with true by (symmetry; apply Nat.leb_le; lia).
  set (es := tab (d * d) _).
  assert (L : length es = d * d) by apply tab_length.
  assert (A : forall i, i < d * d -> edge_at es i = if diag i then e else zero_edge).
  { intros i Hi. unfold es. rewrite edge_at_tab by exact Hi. replace (i <? d * d) with true by (symmetry; apply Nat.ltb_lt; exact Hi). reflexivity. }
  assert (D0 : diag 0 = true) by (unfold diag; rewrite Nat.div_small, Nat.mod_small by lia; reflexivity).
  destruct (make_ok true false (length ss) es (or_introl eq_refl)) as [M1 M2].
  destruct (make_weight (length ss) es (fst e)) as (fs & E & Lf).
  { intros i Hi. rewrite A by lia. destruct (diag i); [right|left]; reflexivity. }
  { exists 0. split; [nia|]. rewrite A, D0 by nia. exact Ne. }
  destruct (node_at_some N d false (length ss) es d_pos Hl L) as [Y1 Y2].
  { intros p Hp Np. rewrite A by exact Hp. unfold diag. rewrite (proj2 (Nat.eqb_neq _ _) Np). reflexivity. }
  exists (make 0 true false (length ss) es). split; [exact Y1|]. split; [|split; [|split]].
  - assert (W := M2 ss eq_refl). rewrite L in W. destruct W as [W|W]; [|rewrite E in W; cbn in W; contradiction|exact W].
    intros i Hi. rewrite A by exact Hi. destruct (diag i); [right; exact We|left; reflexivity].
  - rewrite E. reflexivity.
  - intros Mk. apply Y2. intros p Hp. rewrite !A by (first [exact Hp|apply flip_lt; assumption]). unfold diag. destruct (Nat.eqb_spec (p / d) (p mod d)) as [Ep|Ep].
    + assert (Bq : p / d < d) by (apply Nat.div_lt_upper_bound; lia). replace (p mod d * d + p / d) with p; [rewrite Ep, Nat.eqb_refl; split; [exact Mk|reflexivity]|]. rewrite <- Ep. rewrite (Nat.div_mod p d) at 1 by lia. rewrite <- Ep. lia.
    + split; [reflexivity|]. assert (Bq : p / d < d) by (apply Nat.div_lt_upper_bound; lia). rewrite Nat.div_add_l, (Nat.div_small (p / d)), Nat.add_0_r by lia. rewrite (Nat.add_comm _ (p / d)), Nat.mod_add, (Nat.mod_small (p / d)) by lia.
      destruct (Nat.eqb_spec (p mod d) (p / d)); [congruence|reflexivity].
  - intros i q Hi. rewrite M1 by lia. rewrite A by exact Hi. destruct (diag i); [reflexivity|apply ev_zero].
Qed.
Lemma layers_ok k : forall ss e, fst e <> C0 -> wf (d * d :: ss) (snd e) -> S (length ss) + k <= N ->
  exists e', diagonal_layers 0 D k e = Some e' /\ wf (repeat (d * d) k ++ d * d :: ss) (snd e') /\ fst e' = fst e /\
  (marked 0 D (snd e) = true -> marked 0 D (snd e') = true) /\ forall p q, valid (repeat (d * d) k) p -> ev e' (p ++ q) = if forallb diag p then ev e q else C0.
Proof.
  induction k as [|k IH]; intros ss e Ne We Hl.
  - exists e. split; [reflexivity|]. split; [exact We|]. split; [reflexivity|]. split; [intros Mk; exact Mk|]. intros p q V. inversion V; subst. reflexivity.
  - cbn [diagonal_layers]. assert (We' := We). destruct (snd e) as [|u fs] eqn:S; [contradiction|]. destruct We as (-> & Lf & _). rewrite Lf.
    rewrite nth_D by lia.
    destruct (layer_ok (d * d :: ss) e Ne) as (e1 & E1 & W1 & F1 & K1 & V1); [rewrite S; exact We'|cbn; lia|].
    cbn [length] in E1. rewrite E1. destruct (IH (d * d :: ss) e1) as (e2 & E2 & W2 & F2 & K2 & V2); [rewrite F1; exact Ne|exact W1|cbn; lia|].
    exists e2. split; [exact E2|]. cbn [repeat]. rewrite (repeat_cons k (d * d)). split; [rewrite <- app_assoc; exact W2|]. split; [congruence|]. split; [intros Mk; apply K2, K1; first [exact Mk|rewrite S; exact Mk]|].
    intros p q V. destruct p as [|i p] using rev_ind; [apply valid_length in V; rewrite app_length in V; cbn in V; lia|]. clear IHp.
    assert (Vp : valid (repeat (d * d) k) p /\ i < d * d).
    { clear -V. revert p V. induction k as [|k IH]; intros p V; cbn in V.
      - destruct p as [|j p]; cbn in V; inversion V as [|? ? ? ? H K]; subst; [split; [constructor|exact H]|]. inversion K. destruct p; discriminate.
      - destruct p as [|j p]; cbn in V; inversion V as [|? ? ? ? H K]; subst; [exfalso; apply valid_length in K; rewrite app_length in K; cbn in K; lia|].
        destruct (IH p K). split; [constructor; assumption|assumption]. }
    destruct Vp as [Vp Hi]. rewrite <- app_assoc. cbn [app]. rewrite V2 by exact Vp. rewrite forallb_app. cbn [forallb]. rewrite andb_true_r.
    destruct (forallb diag p); cbn [andb]; [|reflexivity]. apply V1. exact Hi.
Qed.

Lemma all_some_inv {A B} (f : A -> option B) l : forall r, all_some (map f l) = Some r ->
  length r = length l /\ forall i a b, nth_error l i = Some a -> nth_error r i = Some b -> f a = Some b.
Proof.
  induction l as [|a l IH]; intros r H; cbn in H.
  - injection H as <-. split; [reflexivity|]. intros [|i] a b E; discriminate E.
  - destruct (f a) as [b|] eqn:E; [|discriminate]. destruct (all_some (map f l)) as [s|]; [|discriminate]. injection H as <-. destruct (IH s eq_refl) as [L F].
    split; [cbn; congruence|]. intros [|i] x y X Y; cbn in *; [congruence|]. exact (F i x y X Y).
Qed.
Lemma all_some_ok {A B} (f : A -> option B) l : (forall a, In a l -> exists b, f a = Some b) -> exists r, all_some (map f l) = Some r.
Proof.
  induction l as [|a l IH]; intros H; [exists []; reflexivity|]. destruct (H a) as [b E]; [left; reflexivity|].
  destruct IH as (r & R); [intros x Hx; apply H; right; exact Hx|]. exists (b :: r). cbn. rewrite E, R. reflexivity.
Qed.

Lemma without_zero m x : fst x = C0 -> without_factors d m x = zero_edge.
Proof. intros H. destruct m; cbn; rewrite (proj2 (is_zero_spec _) H); reflexivity. Qed.

Lemma kron2_ok k y : matrix_diagram d k y -> forall m n x, m <= n -> m + k <= N -> matrix_diagram d m x ->
  forall e, kron2 0 D n x y = Some e -> ewf (repeat (d * d) (m + k)) e /\
  forall p q, valid (repeat (d * d) m) p -> valid (repeat (d * d) k) q -> ev e (p ++ q) = Cmul (ev (without_factors d m x) p) (ev y q).
Proof.
  unfold matrix_diagram. rewrite arity_repeat. intros Wy. induction m as [|m IH]; intros n x Hn HN Wx e Ke; rewrite arity_repeat in Wx.
  - destruct (is_zero (fst x)) eqn:Zx.
    { apply is_zero_spec in Zx. assert (e = zero_edge) as -> by (destruct n; cbn [kron2] in Ke; rewrite (proj2 (near_zero_spec _) Zx) in Ke; cbn [orb] in Ke; congruence). split; [apply ewf_zero|].
      intros p q _ _. rewrite without_zero, !ev_zero by exact Zx. ring. }
    apply is_zero_false in Zx. destruct Wx as [Wx|Wx]; [contradiction|]. cbn in Wx. destruct (snd x) as [|? ?] eqn:Sx; [|contradiction].
    assert (Ex : kron2 0 D n x y = if near_zero 0 (fst y) then Some zero_edge else Some (Cmul (fst x) (fst y), snd y)).
    { destruct n; cbn [kron2]; rewrite (proj2 (near_zero_false _) Zx), Sx; reflexivity. }
    rewrite Ex in Ke. destruct (near_zero 0 (fst y)) eqn:Zy; injection Ke as <-.
    + apply near_zero_spec in Zy. split; [apply ewf_zero|]. intros p q _ _. rewrite ev_zero, (ev_weight_0 y) by exact Zy. ring.
    + split; [right; cbn; destruct Wy as [Wy|Wy]; [apply near_zero_false in Zy; contradiction|exact Wy]|].
      intros p q V _. inversion V; subst. cbn [app without_factors]. rewrite (proj2 (is_zero_false _) Zx). destruct x as [w nx]. cbn in Sx. subst nx. unfold ev. cbn. ring.
  - destruct (is_zero (fst x)) eqn:Zx.
    { apply is_zero_spec in Zx. assert (e = zero_edge) as -> by (destruct n; cbn [kron2] in Ke; rewrite (proj2 (near_zero_spec _) Zx) in Ke; cbn [orb] in Ke; congruence). split; [apply ewf_zero|].
      intros p q _ _. rewrite without_zero, !ev_zero by exact Zx. ring. }
    assert (Zx' := Zx). apply is_zero_false in Zx. destruct Wx as [Wx|Wx]; [contradiction|].
    destruct (near_zero 0 (fst y)) eqn:Zy.
    { assert (e = zero_edge) as -> by (destruct n; cbn [kron2] in Ke; rewrite Zy, orb_true_r in Ke; congruence). split; [apply ewf_zero|].
      intros p q _ _. apply near_zero_spec in Zy. rewrite ev_zero, (ev_weight_0 y) by exact Zy. ring. }
    assert (Zy' := Zy). apply near_zero_false in Zy. destruct Wy as [Wy|Wy]; [contradiction|].
    destruct n as [|n]; [lia|]. cbn [kron2] in Ke. rewrite (proj2 (near_zero_false _) Zx), Zy' in Ke. cbn [orb] in Ke.
    assert (Wx' := Wx). destruct x as [w nx]. cbn [fst snd] in *. destruct nx as [|v es]; [contradiction|]. cbn [repeat wf] in Wx. destruct Wx as (Ev & Le & F).
    rewrite repeat_length in Ev. subst v. rewrite sizes_D in Ke by lia. rewrite (wf_next _ _ Wy), repeat_length in Ke.
    cbn [without_factors fst snd]. rewrite Zx'. destruct (is_ident (repeat d (S m)) (Node m es)) eqn:I.
    + rewrite Le, nth_D in Ke by lia. destruct (layer_ok (repeat (d * d) k) y Zy Wy) as (e1 & E1 & W1 & F1 & K1 & V1); [rewrite repeat_length; lia|].
      rewrite repeat_length in E1. rewrite E1 in Ke. destruct (layers_ok m (repeat (d * d) k) e1) as (e2 & E2 & W2 & F2 & K2 & V2); [rewrite F1; exact Zy|exact W1|rewrite repeat_length; lia|].
      rewrite E2 in Ke. injection Ke as <-.
      assert (S2 : (fst y, snd e2) = e2) by (rewrite <- F1, <- F2; destruct e2; reflexivity). rewrite S2. split.
      * right. replace (repeat (d * d) (S m + k)) with (repeat (d * d) m ++ d * d :: repeat (d * d) k); [exact W2|].
        replace (S m + k) with (m + S k) by lia. rewrite repeat_plus. reflexivity.
      * intros p q Vp Vq. unfold ev at 2. cbn [fst snd]. rewrite (ident_path (S m) _ p I Vp).
        assert (Sp : exists p' i, p = p' ++ [i] /\ valid (repeat (d * d) m) p' /\ i < d * d).
        { clear -Vp. cbn [repeat] in Vp. revert p Vp. induction m as [|m IH]; intros p V; inversion V as [|i s p' r Hi Hp]; subst.
          - inversion Hp; subst. exists [], i. repeat split; [constructor|exact Hi].
          - destruct (IH p' Hp) as (p1 & j & -> & A & B). exists (i :: p1), j. repeat split; [constructor; assumption|exact B]. }
        destruct Sp as (p' & i & -> & Vp' & Hi). rewrite <- app_assoc. cbn [app]. rewrite V2 by exact Vp'. rewrite forallb_app. cbn [forallb]. rewrite andb_true_r.
        destruct (forallb diag p'); cbn [andb]; [|ring]. rewrite V1 by exact Hi. destruct (diag i); ring.
    + destruct (all_some (map (fun e => kron2 0 D n e y) es)) as [fs|] eqn:R; [|discriminate]. destruct (all_some_inv _ _ _ R) as [Lf G].
      destruct (node_at 0 D true (k + m) fs) as [e0|] eqn:Ne0; [|discriminate]. injection Ke as <-. apply node_at_inv in Ne0. subst e0. set (e := make 0 true true (k + m) fs).
      assert (P : forall i, i < d * d -> ewf (repeat (d * d) (m + k)) (edge_at fs i) /\
        forall p q, valid (repeat (d * d) m) p -> valid (repeat (d * d) k) q -> ev (edge_at fs i) (p ++ q) = Cmul (ev (without_factors d m (edge_at es i)) p) (ev y q)).
      { intros i Hi. assert (X : nth_error es i = Some (edge_at es i)) by (apply nth_error_nth'; lia).
        assert (Y : nth_error fs i = Some (edge_at fs i)) by (apply nth_error_nth'; lia).
        assert (E := G i _ _ X Y). cbv beta in E. apply (IH n (edge_at es i)); [lia|lia| |exact E]. rewrite arity_repeat. rewrite Forall_forall in F. apply F. apply nth_error_In in X. exact X. }
      destruct (make_ok true true (k + m) fs (or_introl eq_refl)) as [M1 M2]. fold e in M1, M2. split.
      * assert (W := M2 (repeat (d * d) (m + k))). rewrite repeat_length, Lf, Le in W. destruct (W ltac:(lia) (fun i Hi => proj1 (P i Hi))) as [Z|Z].
        -- left. cbn. rewrite Z. ring.
        -- right. exact Z.
      * intros p q Vp Vq. cbn [repeat] in Vp. inversion Vp as [|i s p' r Hi Hp]; subst. cbn [app].
        transitivity (Cmul w (ev e (i :: p' ++ q))); [unfold ev; cbn [fst snd]; ring|]. rewrite M1 by lia. rewrite (proj2 (P i Hi)) by assumption.
        assert (Z0 : without_factors d m zero_edge = zero_edge) by (apply without_zero; reflexivity).
        assert (X : edge_at (map (without_factors d m) es) i = without_factors d m (edge_at es i)) by (unfold edge_at; rewrite <- Z0 at 1; apply map_nth).
        rewrite ev_node, X. ring.
Qed.

(** products of matrices that are marked are marked *)
Lemma zero_kron n x y : fst x = C0 -> kron2 0 D n x y = Some zero_edge.
Proof. intros Z. destruct n; cbn [kron2]; rewrite (proj2 (near_zero_spec _) Z); reflexivity. Qed.
Lemma kron2_ident k n x y m : 0 < m -> m + k <= N -> ewf (repeat (d * d) k) y -> ewf (repeat (d * d) m) x -> is_ident (repeat d m) (snd x) = true ->
  exists e, kron2 0 D n x y = Some e /\ (marked 0 D (snd y) = true -> marked 0 D (snd e) = true).
Proof.
  intros Hm HN Wy Wx I. destruct m as [|m]; [lia|].
  destruct (near_zero 0 (fst x)) eqn:Zx; [exists zero_edge; split; [destruct n; cbn [kron2]; rewrite Zx; reflexivity|reflexivity]|].
  destruct (near_zero 0 (fst y)) eqn:Zy; [exists zero_edge; split; [destruct n; cbn [kron2]; rewrite Zx, Zy; reflexivity|reflexivity]|].
  assert (Ny := Zy). apply near_zero_false in Ny. assert (Nx := Zx). apply near_zero_false in Nx.
  destruct Wy as [Wy|Wy]; [contradiction|]. destruct Wx as [Wx|Wx]; [contradiction|]. destruct x as [w nx]. cbn [fst snd] in *. destruct nx as [|v es]; [contradiction|].
  cbn [repeat wf] in Wx. destruct Wx as (Ev & Le & F). rewrite repeat_length in Ev. subst v.
  assert (E : kron2 0 D n (w, Node m es) y = match diagonal_layer 0 D (length es) (nth m D 0) (next_register (snd y)) y with
    | Some e => match diagonal_layers 0 D m e with Some e' => Some (fst y, snd e') | None => None end | None => None end).
  { destruct n; cbn [kron2 fst snd]; rewrite Zx, Zy; cbn [orb]; rewrite sizes_D, I by lia; reflexivity. }
  rewrite E, Le, nth_D, (wf_next _ _ Wy), repeat_length by lia.
  destruct (layer_ok (repeat (d * d) k) y Ny Wy) as (e1 & E1 & W1 & F1 & K1 & V1); [rewrite repeat_length; lia|]. rewrite repeat_length in E1. rewrite E1.
  destruct (layers_ok m (repeat (d * d) k) e1) as (e2 & E2 & W2 & F2 & K2 & V2); [rewrite F1; exact Ny|exact W1|rewrite repeat_length; lia|].
  rewrite E2. eexists. split; [reflexivity|]. intros Mk. apply K2, K1, Mk.
Qed.
Lemma kron2_marked k y : ewf (repeat (d * d) k) y -> marked 0 D (snd y) = true -> forall m n x, m <= n -> m + k <= N -> ewf (repeat (d * d) m) x ->
  fst x = C0 \/ marked 0 D (snd x) = true -> exists e, kron2 0 D n x y = Some e /\ marked 0 D (snd e) = true.
Proof.
  intros Wy My. induction m as [|m IH]; intros n x Hn HN Wx Mx.
  - destruct (near_zero 0 (fst x)) eqn:Zx; [exists zero_edge; split; [destruct n; cbn [kron2]; rewrite Zx; reflexivity|reflexivity]|].
    destruct (near_zero 0 (fst y)) eqn:Zy; [exists zero_edge; split; [destruct n; cbn [kron2]; rewrite Zx, Zy; reflexivity|reflexivity]|].
    apply near_zero_false in Zx as Nx. destruct Wx as [Wx|Wx]; [contradiction|]. destruct x as [w [|v es]]; [|contradiction]. exists (Cmul w (fst y), snd y). split; [|exact My].
    destruct n; cbn [kron2]; rewrite Zx, Zy; reflexivity.
  - destruct (near_zero 0 (fst x)) eqn:Zx; [exists zero_edge; split; [destruct n; cbn [kron2]; rewrite Zx; reflexivity|reflexivity]|].
    destruct (near_zero 0 (fst y)) eqn:Zy; [exists zero_edge; split; [destruct n; cbn [kron2]; rewrite Zx, Zy; reflexivity|reflexivity]|].
    destruct (is_ident (repeat d (S m)) (snd x)) eqn:I.
    { destruct (kron2_ident k n x y (S m) ltac:(lia) HN Wy Wx I) as (e & E & M). exists e. split; [exact E|apply M; exact My]. }
    apply near_zero_false in Zx as Nx. apply near_zero_false in Zy as Ny. assert (Wy0 := Wy). destruct Wx as [Wx|Wx]; [contradiction|]. destruct Wy as [Wy|Wy]; [contradiction|]. destruct Mx as [Mx|Mx]; [contradiction|].
    destruct n as [|n]; [lia|]. destruct x as [w nx]. cbn [fst snd] in *. destruct nx as [|v es]; [contradiction|]. cbn [repeat wf] in Wx. destruct Wx as (Ev & Le & F). rewrite repeat_length in Ev. subst v.
    cbn [kron2 fst snd]. rewrite Zx, Zy, sizes_D, I by lia. cbn [orb]. cbn [marked] in Mx. rewrite nth_D in Mx by lia. fold (flags D es) in Mx.
    destruct (special 0 d es (flags D es)) as [[|]|] eqn:Sp; try discriminate. assert (Sp' := proj1 (special_true D d es d_pos Le) Sp). clear Mx Sp. rename Sp' into Sp.
    assert (Q : forall p, p < d * d -> exists e, kron2 0 D n (edge_at es p) y = Some e /\ marked 0 D (snd e) = true).
    { intros p Hp. apply IH; [lia|lia| |right; apply Sp; exact Hp]. rewrite Forall_forall in F. apply F. apply nth_In. lia. }
    destruct (all_some_ok (fun e => kron2 0 D n e y) es) as (fs & R).
    { intros a Ha. destruct (In_nth es a zero_edge Ha) as (p & Hp & Ep). destruct (Q p ltac:(lia)) as (e & E & _). exists e. unfold edge_at in E. rewrite Ep in E. exact E. }
    rewrite R. destruct (all_some_inv _ _ _ R) as [Lf G].
    assert (P : forall p, p < d * d -> kron2 0 D n (edge_at es p) y = Some (edge_at fs p)).
    { intros p Hp. apply (G p); apply nth_error_nth'; lia. }
    destruct (node_at_some N d true (next_register (snd y) + m) fs d_pos) as [Y1 Y2].
    { rewrite (wf_next _ _ Wy), repeat_length. lia. }
    { congruence. }
    { intros p Hp _. destruct (Q p Hp) as (e & E & M). rewrite P in E by exact Hp. injection E as ->. exact M. }
    fold D in Y1, Y2. rewrite Y1. eexists. split; [reflexivity|]. cbn [snd]. apply Y2. intros p Hp. split.
    + destruct (Q p Hp) as (e & E & M). rewrite P in E by exact Hp. injection E as ->. exact M.
    + assert (A := P p Hp). assert (B := P _ (flip_lt d p d_pos Hp)). rewrite <- (proj2 (Sp p Hp)), A in B. congruence.
Qed.
Lemma kron2_safe k y : ewf (repeat (d * d) k) y -> forall m n x, m <= n -> m + k <= N -> ewf (repeat (d * d) m) x ->
  safe D (marked 0 D (snd y)) d m x -> exists e, kron2 0 D n x y = Some e.
Proof.
  intros Wy. induction m as [|m IH]; intros n x Hn HN Wx Sx.
  - destruct (near_zero 0 (fst x)) eqn:Zx; [exists zero_edge; destruct n; cbn [kron2]; rewrite Zx; reflexivity|].
    destruct (near_zero 0 (fst y)) eqn:Zy; [exists zero_edge; destruct n; cbn [kron2]; rewrite Zx, Zy; reflexivity|].
    apply near_zero_false in Zx as Nx. destruct Wx as [Wx|Wx]; [contradiction|]. destruct x as [w [|v es]]; [|contradiction]. exists (Cmul w (fst y), snd y).
    destruct n; cbn [kron2]; rewrite Zx, Zy; reflexivity.
  - destruct (near_zero 0 (fst x)) eqn:Zx; [exists zero_edge; destruct n; cbn [kron2]; rewrite Zx; reflexivity|].
    destruct (near_zero 0 (fst y)) eqn:Zy; [exists zero_edge; destruct n; cbn [kron2]; rewrite Zx, Zy; reflexivity|].
    destruct (is_ident (repeat d (S m)) (snd x)) eqn:I.
    { destruct (kron2_ident k n x y (S m) ltac:(lia) HN Wy Wx I) as (e & E & M). exists e. exact E. }
    apply near_zero_false in Zx as Nx. apply near_zero_false in Zy as Ny. assert (Wy0 := Wy). destruct Wx as [Wx|Wx]; [contradiction|]. destruct Wy as [Wy|Wy]; [contradiction|].
    destruct Sx as [Sx|Sx]; [contradiction|].
    destruct n as [|n]; [lia|]. destruct x as [w nx]. cbn [fst snd] in *. destruct nx as [|v es]; [contradiction|]. cbn [repeat wf] in Wx. destruct Wx as (Ev & Le & F). rewrite repeat_length in Ev. subst v.
    destruct Sx as [Sx|Sx]; [rewrite I in Sx; discriminate|].
    cbn [kron2 fst snd]. rewrite Zx, Zy, sizes_D, I by lia. cbn [orb].
    assert (Wp : forall p, p < d * d -> ewf (repeat (d * d) m) (edge_at es p)) by (intros p Hp; rewrite Forall_forall in F; apply F; apply nth_In; lia).
    assert (Q : forall p, p < d * d -> exists e, kron2 0 D n (edge_at es p) y = Some e /\ (p / d <> p mod d -> marked 0 D (snd e) = true)).
    { intros p Hp. specialize (Sx p Hp). destruct (Nat.eqb_spec (p / d) (p mod d)) as [E|E].
      - destruct (IH n (edge_at es p) ltac:(lia) ltac:(lia) (Wp p Hp) Sx) as [e Ee]. exists e. split; [exact Ee|]. intros X. contradiction.
      - destruct Sx as [Z|[Sy M]]; [exists zero_edge; split; [apply zero_kron; exact Z|reflexivity]|].
        destruct (kron2_marked k y Wy0 Sy m n (edge_at es p)) as (e & Ee & Me); [lia|lia|apply Wp; exact Hp|right; exact M|]. exists e. split; [exact Ee|]. intros _. exact Me. }
    destruct (all_some_ok (fun e => kron2 0 D n e y) es) as (fs & R).
    { intros a Ha. destruct (In_nth es a zero_edge Ha) as (p & Hp & Ep). destruct (Q p ltac:(lia)) as (e & E & _). exists e. unfold edge_at in E. rewrite Ep in E. exact E. }
    rewrite R. destruct (all_some_inv _ _ _ R) as [Lf G].
    assert (P : forall p, p < d * d -> kron2 0 D n (edge_at es p) y = Some (edge_at fs p)).
    { intros p Hp. apply (G p); apply nth_error_nth'; lia. }
    destruct (node_at_some N d true (next_register (snd y) + m) fs d_pos) as [Y1 Y2].
    { rewrite (wf_next _ _ Wy), repeat_length. lia. }
    { congruence. }
    { intros p Hp Np. destruct (Q p Hp) as (e & E & M). rewrite P in E by exact Hp. injection E as ->. exact (M Np). }
    fold D in Y1. rewrite Y1. eexists. reflexivity.
Qed.
End Uniform.

Lemma plain_same d m : forall x p, plain d m x -> ev (without_factors d m x) p = ev x p.
Proof.
  induction m as [|m IH]; intros x p H.
  - cbn. destruct (is_zero (fst x)) eqn:Z; [apply is_zero_spec in Z; rewrite ev_zero, ev_weight_0 by exact Z|]; reflexivity.
  - destruct (is_zero (fst x)) eqn:Z; [apply is_zero_spec in Z; rewrite without_zero, ev_zero, ev_weight_0 by exact Z; reflexivity|].
    destruct H as [H|H]; [apply is_zero_false in Z; contradiction|]. destruct x as [w [|v es]]; cbn [without_factors fst snd] in *; rewrite Z; [reflexivity|].
    destruct (is_ident (repeat d (S m)) (Node v es)); [rewrite H; reflexivity|].
    destruct p as [|i p]; [reflexivity|]. rewrite !ev_node. f_equal. unfold edge_at. assert (Z0 : without_factors d m zero_edge = zero_edge) by (apply without_zero; reflexivity).
    rewrite <- Z0 at 1. rewrite map_nth. destruct (Nat.lt_ge_cases i (length es)) as [Hi|Hi].
    + apply IH. rewrite Forall_forall in H. apply H. apply nth_In. exact Hi.
    + rewrite (nth_overflow es) by exact Hi. rewrite Z0. reflexivity.
Qed.

Lemma levels_entry d m p q : levels d m p -> levels d m q -> valid (repeat (d * d) m) (entry true (repeat d m) p q).
Proof. intros H K. rewrite <- arity_repeat. apply entry_valid; [exact H|rewrite columns_true; exact K]. Qed.
Lemma tensor_app d m k p p' q q' : levels d m p -> levels d m p' ->
  entry true (repeat d (m + k)) (p ++ q) (p' ++ q') = entry true (repeat d m) p p' ++ entry true (repeat d k) q q'.
Proof. intros H K. rewrite repeat_plus. apply entry_app; [exact (valid_length _ _ H)|exact (valid_length _ _ K)]. Qed.

Lemma kronecker_general d N m k x y e : 0 < d -> m + k <= N -> matrix_diagram d m x -> matrix_diagram d k y ->
  kronecker 0 (repeat d N) x y = Some e -> tensor d m k (without_factors d m x) y e.
Proof.
  intros Hd HN Wx Wy E. unfold kronecker in E. destruct (kron2_ok d N Hd k y Wy m (length (repeat d N)) x ltac:(rewrite repeat_length; lia) HN Wx e E) as (We & Ve).
  split; [unfold matrix_diagram; rewrite arity_repeat; exact We|].
  intros p p' q q' Hp Hp' Hq Hq'. unfold entry_of. rewrite tensor_app by assumption. apply Ve; apply levels_entry; assumption.
Qed.
Lemma kronecker_returns d N m k x y : 0 < d -> m + k <= N -> matrix_diagram d m x -> matrix_diagram d k y ->
  safe (repeat d N) (marked 0 (repeat d N) (snd y)) d m x -> exists e, kronecker 0 (repeat d N) x y = Some e.
Proof.
  intros Hd HN Wx Wy S. unfold kronecker. unfold matrix_diagram in *. rewrite arity_repeat in *. eapply kron2_safe; try eassumption. rewrite repeat_length. lia.
Qed.
Lemma tensor_ext d m k x x' y e : (forall p, ev x p = ev x' p) -> tensor d m k x y e -> tensor d m k x' y e.
Proof. intros E [W H]. split; [exact W|]. intros p p' q q' Hp Hp' Hq Hq'. rewrite H by assumption. unfold entry_of. rewrite E. reflexivity. Qed.
Lemma kronecker_plain d N m k x y e : 0 < d -> m + k <= N -> matrix_diagram d m x -> matrix_diagram d k y -> plain d m x ->
  kronecker 0 (repeat d N) x y = Some e -> tensor d m k x y e.
Proof.
  intros Hd HN Wx Wy P E. assert (T := kronecker_general d N m k x y e Hd HN Wx Wy E).
  eapply tensor_ext; [|exact T]. intros p. apply plain_same. exact P.
Qed.

(** ** identities *)
Lemma make_ident_flag ds : (forall d, In d ds -> 0 < d) -> is_ident ds (snd (make_ident 0 ds)) = true.
Proof.
  induction ds as [|d r IH]; intros P; [reflexivity|].
  assert (Hd : 0 < d) by (apply P; left; reflexivity). assert (Pr : forall x, In x r -> 0 < x) by (intros x H; apply P; right; exact H). specialize (IH Pr).
  assert (O := make_ident_one r Pr). cbn [make_ident]. set (es := tab (d * d) _). assert (L : length es = d * d) by apply tab_length.
  assert (A : forall i, i < d * d -> edge_at es i = if Nat.eqb (i / d) (i mod d) then make_ident 0 r else zero_edge) by (intros i Hi; unfold es; apply edge_at_tab; exact Hi).
  unfold make, mnormalise. cbn [clear]. assert (Pv := mpivot_ok es). destruct (mpivot 0 es) as [k|].
  - destruct Pv as [Hk Nk]. rewrite L in Hk. assert (Wk : fst (edge_at es k) = C1).
    { rewrite A in * by exact Hk. destruct (Nat.eqb _ _); [exact O|contradiction Nk; reflexivity]. }
    rewrite Wk. cbn [snd is_ident]. apply forallb_forall. intros i Hi. apply in_seq in Hi. rewrite L. rewrite edge_at_tab by lia. rewrite A by lia.
    assert (D1 : Cdiv C1 C1 = C1) by (rewrite <- (Cmul_1_l (Cdiv C1 C1)); apply Cdiv_mul; apply C1_neq_C0).
    destruct (Nat.eqb (i / d) (i mod d)) eqn:Ei.
    + rewrite O. rewrite (proj2 (near_spec C1 C1) eq_refl), D1. destruct (Nat.eqb i k); cbn [fst snd]; rewrite IH, (proj2 (is_one_spec C1) eq_refl); reflexivity.
    + destruct (Nat.eqb_spec i k) as [->|_].
      * rewrite A, Ei in Nk by exact Hk. contradiction Nk. reflexivity.
      * cbn [fst snd]. destruct (near 0 (fst zero_edge) C1) eqn:Nr; [apply near_spec in Nr; symmetry in Nr; contradiction (C1_neq_C0 Nr)|].
        cbn [zero_edge fst]. rewrite Cdiv_0. apply is_zero_spec. reflexivity.
  - exfalso. specialize (Pv 0 ltac:(nia)). rewrite A in Pv by nia. rewrite Nat.div_0_l, Nat.mod_0_l in Pv by lia. cbn [Nat.eqb] in Pv. rewrite O in Pv. exact (C1_neq_C0 Pv).
Qed.
Lemma repeat_pos d n : 0 < d -> forall x, In x (repeat d n) -> 0 < x.
Proof. intros H x Hx. apply repeat_spec in Hx. subst x. exact H. Qed.
Lemma ident_plain d n : 0 < d -> plain d n (make_ident 0 (repeat d n)).
Proof.
  intros Hd. destruct n as [|n]; [right; exact I|]. right. destruct (snd (make_ident 0 (repeat d (S n)))) as [|v es] eqn:E; [exact I|].
  rewrite <- E, make_ident_flag by (apply repeat_pos; exact Hd). apply make_ident_one. apply repeat_pos. exact Hd.
Qed.
Lemma ident_ok d N n : 0 < d -> n <= N -> exists e, ident 0 (repeat d N) n = Some e /\ e = make_ident 0 (repeat d n) /\ matrix_diagram d n e /\
  forall p q, levels d n p -> levels d n q -> entry_of d n e p q = delta p q.
Proof.
  intros Hd Hn. unfold ident. rewrite repeat_length. replace (n <=? N) with true by (symmetry; apply Nat.leb_le; exact Hn). rewrite (sizes_D d N Hd) by exact Hn.
  eexists. split; [reflexivity|]. split; [reflexivity|]. exact (make_ident_ok (repeat d n) (repeat_pos d n Hd)).
Qed.
Lemma flip_flip d p : 0 < d -> p < d * d -> p / d <> p mod d -> (p mod d * d + p / d) / d <> (p mod d * d + p / d) mod d.
Proof.
  intros Hd Hp Np. assert (Bq : p / d < d) by (apply Nat.div_lt_upper_bound; lia). rewrite Nat.div_add_l, (Nat.div_small (p / d)), Nat.add_0_r by lia.
  rewrite (Nat.add_comm _ (p / d)), Nat.mod_add, (Nat.mod_small (p / d)) by lia. congruence.
Qed.
Lemma flip_diag d p : 0 < d -> p / d = p mod d -> p mod d * d + p / d = p.
Proof. intros Hd E. rewrite <- E. rewrite (Nat.div_mod p d) at 3 by lia. rewrite <- E. lia. Qed.
Lemma ident_marked d N n : 0 < d -> n <= N -> marked 0 (repeat d N) (snd (make_ident 0 (repeat d n))) = true.
Proof.
  intros Hd. induction n as [|n IH]; intros Hn; [reflexivity|]. cbn [repeat make_ident]. rewrite repeat_length.
  set (es := tab (d * d) _). assert (L : length es = d * d) by apply tab_length.
  assert (A : forall i, i < d * d -> edge_at es i = if Nat.eqb (i / d) (i mod d) then make_ident 0 (repeat d n) else zero_edge) by (intros i Hi; unfold es; apply edge_at_tab; exact Hi).
  destruct (node_at_some N d false n es Hd ltac:(lia) L) as [_ Y].
  { intros p Hp Np. rewrite A by exact Hp. rewrite (proj2 (Nat.eqb_neq _ _) Np). reflexivity. }
  apply Y. intros p Hp. destruct (Nat.eq_dec (p / d) (p mod d)) as [E|E].
  - rewrite flip_diag by assumption. split; [|reflexivity]. rewrite A, E, Nat.eqb_refl by exact Hp. apply IH. lia.
  - rewrite !A by (first [exact Hp|apply flip_lt; assumption]). rewrite (proj2 (Nat.eqb_neq _ _) E), (proj2 (Nat.eqb_neq _ _) (flip_flip d p Hd Hp E)). split; reflexivity.
Qed.
Lemma ident_safe D sy d m x : is_ident (repeat d m) (snd x) = true -> safe D sy d m x.
Proof. intros I. destruct m as [|m]; right; [destruct (snd x); exact Logic.I|]. destruct (snd x) as [|v es]; [exact Logic.I|]. left. exact I. Qed.
Lemma extend_ok d N m h l e : 0 < d -> h + m + l <= N -> matrix_diagram d m e -> l = 0 \/ (plain d m e /\ safe (repeat d N) true d m e) ->
  exists g, extend 0 (repeat d N) e h l = Some g /\ matrix_diagram d (h + m + l) g /\
  forall a a' p p' b b', levels d h a -> levels d h a' -> levels d m p -> levels d m p' -> levels d l b -> levels d l b' ->
  entry_of d (h + m + l) g (a ++ p ++ b) (a' ++ p' ++ b') = Cmul (delta a a') (Cmul (entry_of d m e p p') (delta b b')).
Proof.
  intros Hd HN We Pe. unfold extend.
  assert (F : exists f, (if Nat.ltb 0 l then match ident 0 (repeat d N) l with Some i => kronecker 0 (repeat d N) e i | None => None end else Some e) = Some f /\
    matrix_diagram d (m + l) f /\ forall p p' b b', levels d m p -> levels d m p' -> levels d l b -> levels d l b' ->
    entry_of d (m + l) f (p ++ b) (p' ++ b') = Cmul (entry_of d m e p p') (delta b b')).
  { destruct (Nat.ltb_spec 0 l) as [Hl|Hl].
    - destruct Pe as [Pe|[Pe Se]]; [lia|]. destruct (ident_ok d N l Hd ltac:(lia)) as (i & Ei & Eq & Wi & Vi). rewrite Ei.
      destruct (kronecker_returns d N m l e i Hd ltac:(lia) We Wi) as (f & Ef); [rewrite Eq, ident_marked by lia; exact Se|].
      destruct (kronecker_plain d N m l e i f Hd ltac:(lia) We Wi Pe Ef) as (Wf & Vf). exists f. split; [exact Ef|]. split; [exact Wf|].
      intros p p' b b' Hp Hp' Hb Hb'. rewrite Vf, Vi by assumption. reflexivity.
    - assert (l = 0) as -> by lia. exists e. split; [reflexivity|]. rewrite Nat.add_0_r. split; [exact We|].
      intros p p' b b' Hp Hp' Hb Hb'. inversion Hb; subst. inversion Hb'; subst. rewrite !app_nil_r, delta_refl. ring. }
  destruct F as (f & -> & Wf & Vf). destruct (Nat.ltb_spec 0 h) as [Hh|Hh].
  - destruct (ident_ok d N h Hd ltac:(lia)) as (i & Ei & Eq & Wi & Vi). rewrite Ei.
    destruct (kronecker_returns d N h (m + l) i f Hd ltac:(lia) Wi Wf) as (g & Eg); [apply ident_safe; rewrite Eq; apply make_ident_flag; apply repeat_pos; exact Hd|].
    destruct (kronecker_plain d N h (m + l) i f g Hd ltac:(lia) Wi Wf) as (Wg & Vg); [rewrite Eq; apply ident_plain; exact Hd|exact Eg|].
    exists g. split; [exact Eg|]. replace (h + m + l) with (h + (m + l)) by lia. split; [exact Wg|].
    intros a a' p p' b b' Ha Ha' Hp Hp' Hb Hb'. rewrite Vg, Vi, Vf; try assumption; [reflexivity| |]; unfold levels; rewrite repeat_plus; apply valid_app; assumption.
  - assert (h = 0) as -> by lia. exists f. split; [reflexivity|]. split; [exact Wf|]. intros a a' p p' b b' Ha Ha' Hp Hp' Hb Hb'.
    inversion Ha; subst. inversion Ha'; subst. cbn [app Nat.add]. rewrite Vf, delta_refl by assumption. ring.
Qed.

(** ** gates *)
Lemma diagonal_is_marked d N t : 0 < d -> forall m n, m <= N -> m <= t -> okn true t (repeat d m) n -> marked 0 (repeat d N) n = true.
Proof.
  intros Hd. induction m as [|m IH]; intros n Hm Ht O; destruct n as [|v es]; try (destruct O; fail); [reflexivity|].
  cbn [repeat] in O. apply okn_cons in O. destruct O as [Ev [L O]]. rewrite repeat_length in Ev, O. subst v. change (cols true d) with d in *. cbn [marked].
  assert (Dv : nth m (repeat d N) 0 = d) by (rewrite (nth_indep _ 0 d) by (rewrite repeat_length; lia); apply nth_repeat). rewrite Dv. fold (flags (repeat d N) es).
  replace (special 0 d es (flags (repeat d N) es)) with (Some true); [reflexivity|]. symmetry. apply special_true; [exact Hd|exact L|]. intros p Hp.
  assert (Z : forall q, q < d * d -> q / d <> q mod d -> edge_at es q = zero_edge).
  { intros q Hq Nq. destruct (O q Hq) as [E|(_ & A & _)]; [exact E|]. destruct (A eq_refl) as [A'|A']; [contradiction|lia]. }
  destruct (Nat.eq_dec (p / d) (p mod d)) as [E|E].
  - rewrite flip_diag by assumption. split; [|reflexivity]. destruct (O p Hp) as [Q|(_ & _ & Q)]; [rewrite Q; reflexivity|]. apply IH; [lia|lia|exact Q].
  - rewrite !Z by (first [assumption|apply flip_lt; assumption|apply flip_flip; assumption]). split; reflexivity.
Qed.
Lemma okn_safe d N t : 0 < d -> forall m x, m <= N -> oke true t (repeat d m) x -> safe (repeat d N) true d m x.
Proof.
  intros Hd. induction m as [|m IH]; intros x Hm O; (destruct O as [->|[Nx O]]; [left; reflexivity|]); right; destruct (snd x) as [|v es]; try exact I.
  right. cbn [repeat] in O. apply okn_cons in O. destruct O as [Ev O]. rewrite repeat_length in Ev. intros i Hi. destruct (Nat.eqb_spec (i / d) (i mod d)) as [E|E].
  - apply IH; [lia|]. eapply okl_edge; [exact O|exact Hi].
  - destruct O as [L O]. destruct (O i Hi) as [Z|(_ & A & B)]; [left; rewrite Z; reflexivity|]. right. split; [reflexivity|]. destruct (A eq_refl) as [A'|A']; [contradiction|].
    rewrite repeat_length in A'. apply (diagonal_is_marked d N t Hd m); [lia|lia|exact B].
Qed.
Lemma gate_safe d N n T M cs t e : 0 < d -> n <= N -> make_gate 0 (repeat d n) T M cs t = Some e -> safe (repeat d N) true d n e.
Proof.
  intros Hd Hn E. apply (okn_safe d N t Hd); [exact Hn|]. rewrite <- (rev_repeat d n). eapply make_gate_oke; [apply repeat_pos; exact Hd|exact E].
Qed.

(** ** what goes wrong *)
(** the weight in front of an identity is lost *)
Lemma identity_factor d N m k x y : 0 < d -> 0 < m -> m + k <= N -> matrix_diagram d m x -> matrix_diagram d k y -> fst x <> C0 -> is_ident (repeat d m) (snd x) = true ->
  exists e, kronecker 0 (repeat d N) x y = Some e /\ tensor d m k (C1, snd x) y e.
Proof.
  intros Hd Hm HN Wx Wy Nx I. destruct (kronecker_returns d N m k x y Hd HN Wx Wy (ident_safe _ _ d m x I)) as (e & E).
  assert (T := kronecker_general d N m k x y e Hd HN Wx Wy E). exists e. split; [exact E|].
  destruct m as [|m]; [lia|]. cbn [without_factors] in T. rewrite (proj2 (is_zero_false _) Nx) in T. destruct (snd x) as [|v es]; [discriminate I|].
  rewrite I in T. exact T.
Qed.
Definition zmat : mat := fun i j => if Nat.eqb i j then (if Nat.eqb i 0 then C1 else Copp C1) else C0.
Lemma mpivot_first e f : fst e <> C0 -> Cnorm2 (fst f) = Cnorm2 (fst e) -> mpivot 0 [e; zero_edge; zero_edge; f] = Some 0.
Proof.
  intros Ne Nf. unfold mpivot, mag2, edge_at. cbn [length seq fold_left nth]. rewrite (proj2 (near_zero_false (fst e)) Ne).
  change (fst zero_edge) with C0. rewrite (proj2 (near_zero_spec C0) eq_refl).
  destruct (near_zero 0 (fst f)); [reflexivity|]. rewrite Nf. destruct (Rlt_dec 0 _) as [H|H]; [|reflexivity].
  exfalso. rewrite Rminus_diag_eq in H by reflexivity. exact (Rlt_irrefl 0 H).
Qed.
Lemma make_two v e f : fst e <> C0 -> Cnorm2 (fst f) = Cnorm2 (fst e) ->
  make 0 true false v [e; zero_edge; zero_edge; f] = (fst e, Node v [(C1, snd e); zero_edge; zero_edge; (Cdiv (fst f) (fst e), snd f)]).
Proof.
  intros Ne Nf. unfold make, mnormalise. cbn [clear]. rewrite mpivot_first by assumption. unfold edge_at, tab. cbn [nth length seq map Nat.eqb].
  assert (Z : near 0 (fst zero_edge) C1 = false) by (destruct (near 0 (fst zero_edge) C1) eqn:E; [apply near_spec in E; symmetry in E; contradiction (C1_neq_C0 E)|reflexivity]).
  rewrite Z. cbn [zero_edge fst snd]. rewrite Cdiv_0. fold zero_edge. destruct (near 0 (fst f) C1) eqn:E; [apply near_spec in E; rewrite <- E|]; reflexivity.
Qed.
Lemma C1_norm : Cnorm2 C1 = 1%R. Proof. unfold Cnorm2, C1. cbn. ring. Qed.
Lemma opp_norm : Cnorm2 (Copp C1) = 1%R. Proof. unfold Cnorm2, C1, Copp. cbn. ring. Qed.
Lemma opp_neq : Copp C1 <> C0. Proof. intros E. assert (F : Cnorm2 (Copp C1) = Cnorm2 C0) by (rewrite E; reflexivity). rewrite opp_norm in F. unfold Cnorm2, C0 in F. cbn in F. lra. Qed.
Lemma div_one c : Cdiv c C1 = c.
Proof. rewrite <- (Cmul_1_l (Cdiv c C1)). apply Cdiv_mul. apply C1_neq_C0. Qed.
Lemma div_self c : c <> C0 -> Cdiv c c = C1.
Proof. intros H. apply (Cdiv_mul C1 c) in H as E. unfold Cdiv in *. rewrite Cinv_r by exact H. reflexivity. Qed.
Definition id2 : node := Node 0 [one_edge; zero_edge; zero_edge; one_edge].
Definition z_diagram : edge := (C1, Node 1 [(C1, id2); zero_edge; zero_edge; (Copp C1, id2)]).
Lemma z_gate : make_gate 0 [2; 2] 2 zmat [] 1 = Some z_diagram.
Proof.
  unfold make_gate. cbn [nth_error Nat.mul Nat.add Nat.ltb Nat.leb]. unfold tab. cbn [seq map].
  change (zmat (0 / 2) (0 mod 2)) with C1. change (zmat (1 / 2) (1 mod 2)) with C0. change (zmat (2 / 2) (2 mod 2)) with C0. change (zmat (3 / 2) (3 mod 2)) with (Copp C1).
  rewrite (proj2 (is_zero_spec C0) eq_refl), (proj2 (is_zero_false C1) C1_neq_C0), (proj2 (is_zero_false _) opp_neq).
  cbn [all_below below_target on_register next_control seq]. unfold tab. cbn [Nat.mul Nat.add seq map nth].
  change (Nat.eqb (0 / 2) (0 mod 2)) with true. change (Nat.eqb (1 / 2) (1 mod 2)) with false. change (Nat.eqb (2 / 2) (2 mod 2)) with false. change (Nat.eqb (3 / 2) (3 mod 2)) with true.
  cbv iota. unfold edge_at. cbn [nth]. rewrite (make_two 0 (C1, Term) (C1, Term) C1_neq_C0 eq_refl), (make_two 0 (Copp C1, Term) (Copp C1, Term) opp_neq eq_refl).
  assert (Zz : make 0 true false 0 [zero_edge; zero_edge; zero_edge; zero_edge] = zero_edge).
  { unfold make, mnormalise. cbn [clear]. assert (Pv := mpivot_ok [zero_edge; zero_edge; zero_edge; zero_edge]). destruct (mpivot 0 _) as [k|]; [|reflexivity].
    exfalso. destruct Pv as [Hk Nk]. apply Nk. unfold edge_at. cbn in Hk. destruct k as [|[|[|[|k]]]]; try reflexivity. lia. }
  rewrite Zz. cbn [fst snd length Nat.sub seq fold_left].
  rewrite (make_two 1) by (cbn [fst]; first [apply C1_neq_C0 | rewrite C1_norm; apply opp_norm]). cbn [fst snd].
  rewrite (div_self (Copp C1) opp_neq), !div_one. reflexivity.
Qed.
Lemma one_zero : is_one C1 = true /\ is_zero C0 = true /\ is_zero C1 = false /\ is_zero (Copp C1) = false /\ is_one (Copp C1) = false.
Proof.
  repeat split; [apply is_one_spec; reflexivity|apply is_zero_spec; reflexivity|apply is_zero_false; exact C1_neq_C0|apply is_zero_false; exact opp_neq|].
  destruct (is_one (Copp C1)) eqn:E; [|reflexivity]. exfalso. apply is_one_spec in E. unfold Copp, C1 in E. injection E. intros. lra.
Qed.
Lemma id2_ident : is_ident [2] id2 = true.
Proof.
  destruct one_zero as (A & B & _). cbn [is_ident id2 Nat.mul Nat.add seq forallb].
  change (Nat.eqb (0 / 2) (0 mod 2)) with true. change (Nat.eqb (1 / 2) (1 mod 2)) with false. change (Nat.eqb (2 / 2) (2 mod 2)) with false. change (Nat.eqb (3 / 2) (3 mod 2)) with true.
  unfold edge_at. cbn [nth one_edge zero_edge fst snd]. rewrite A, B. reflexivity.
Qed.
Lemma z_not_ident : is_ident [2; 2] (snd z_diagram) = false.
Proof.
  destruct one_zero as (_ & _ & _ & _ & E). apply not_true_is_false. intros H. cbn [is_ident z_diagram snd] in H. rewrite forallb_forall in H.
  specialize (H 3 ltac:(apply in_seq; lia)). change (Nat.eqb (3 / 2) (3 mod 2)) with true in H. cbv beta iota zeta in H. apply andb_prop in H as [_ H].
  change (is_one (Copp C1) = true) in H. congruence.
Qed.
Lemma z_wf : matrix_diagram 2 2 z_diagram.
Proof. right. cbn. repeat split; repeat constructor; cbn; try (right; repeat split; repeat constructor; fail); left; reflexivity. Qed.
Lemma z_flat : without_factors 2 2 z_diagram = (C1, Node 1 [(C1, id2); zero_edge; zero_edge; (C1, id2)]).
Proof.
  destruct one_zero as (A & B & C & E & F). assert (NI := z_not_ident). assert (I2 := id2_ident). unfold z_diagram in *. cbn [without_factors fst snd repeat] in *. rewrite C.
  rewrite NI. cbn [map fst snd zero_edge]. rewrite B, C, E. unfold id2 at 1 3. fold id2. rewrite I2. reflexivity.
Qed.
Lemma two_levels3 p : levels 2 3 p -> exists a b c, p = [a; b] ++ [c] /\ a < 2 /\ b < 2 /\ c < 2.
Proof.
  intros V. inversion V as [|a ? ? ? Ha V1]; subst. inversion V1 as [|b ? ? ? Hb V2]; subst. inversion V2 as [|c ? ? ? Hc V3]; subst. inversion V3; subst.
  exists a, b, c. repeat split; assumption.
Qed.
Lemma levels2 a b : a < 2 -> b < 2 -> levels 2 2 [a; b]. Proof. intros. constructor; [assumption|]. constructor; [assumption|]. constructor. Qed.
Lemma levels1 a : a < 2 -> levels 2 1 [a]. Proof. intros. constructor; [assumption|]. constructor. Qed.
Lemma flat_delta a b a' b' : a < 2 -> b < 2 -> a' < 2 -> b' < 2 ->
  entry_of 2 2 (C1, Node 1 [(C1, id2); zero_edge; zero_edge; (C1, id2)]) [a; b] [a'; b'] = delta [a; b] [a'; b'].
Proof.
  intros. rewrite !delta_cons, delta_refl. destruct a as [|[|a]], b as [|[|b]], a' as [|[|a']], b' as [|[|b']]; try lia; unfold entry_of, ev, mid, zero_edge, one_edge; cbn; ring.
Qed.
Lemma z_entry a b a' b' : a < 2 -> b < 2 -> a' < 2 -> b' < 2 -> entry_of 2 2 z_diagram [a; b] [a'; b'] = Cmul (zmat a a') (delta [b] [b']).
Proof.
  intros. rewrite !delta_cons, delta_refl. destruct a as [|[|a]], b as [|[|b]], a' as [|[|a']], b' as [|[|b']]; try lia; unfold entry_of, ev, mid, zmat, z_diagram, zero_edge, one_edge; cbn; ring.
Qed.
Lemma z_extended : exists e, extend 0 [2; 2; 2] z_diagram 0 1 = Some e /\ forall p q, levels 2 3 p -> levels 2 3 q -> entry_of 2 3 e p q = delta p q.
Proof.
  destruct (ident_ok 2 3 1 ltac:(lia) ltac:(lia)) as (i & Ei & Eq & Wi & Vi).
  destruct (kronecker_returns 2 3 2 1 z_diagram i ltac:(lia) ltac:(lia) z_wf Wi) as (e & E).
  { rewrite Eq, ident_marked by lia. apply (gate_safe 2 3 2 2 zmat [] 1); [lia|lia|exact z_gate]. }
  destruct (kronecker_general 2 3 2 1 z_diagram i e ltac:(lia) ltac:(lia) z_wf Wi E) as (W & V). rewrite z_flat in V.
  exists e. split; [unfold extend; cbn [Nat.ltb Nat.leb]; change [2; 2; 2] with (repeat 2 3); rewrite Ei, E; reflexivity|].
  intros p q Hp Hq. destruct (two_levels3 p Hp) as (a & b & c & -> & Ha & Hb & Hc). destruct (two_levels3 q Hq) as (a' & b' & c' & -> & Ha' & Hb' & Hc').
  change 3 with (2 + 1) at 1. rewrite V by (first [apply levels2|apply levels1]; assumption). rewrite flat_delta, Vi by (first [apply levels1; assumption|assumption]).
  cbn [app]. rewrite !delta_cons, !delta_refl. ring.
Qed.
Lemma mixed_extended e0 : fst e0 <> C0 -> wf [4] (snd e0) ->
  if marked 0 [2; 3] (snd e0) then extend 0 [2; 3] e0 1 0 = None
  else exists e, extend 0 [2; 3] e0 1 0 = Some e /\ forall i j, ev e (entry true [3; 2] [2; i] [2; j]) = C0.
Proof.
  intros N W. assert (P : forall x, In x [2] -> 0 < x) by (intros x [<-|[]]; lia).
  assert (O := make_ident_one [2] P). assert (Fl := make_ident_flag [2] P). destruct (make_ident_ok [2] P) as [WI _].
  unfold extend. cbn [Nat.ltb Nat.leb]. unfold ident. cbn [length Nat.leb]. change (sizes_below [2; 3] 1) with [2]. unfold kronecker. cbn [length].
  destruct (make_ident 0 [2]) as [w n]. cbn [fst snd] in *. subst w. destruct WI as [WI|WI]; [contradiction (C1_neq_C0 WI)|]. cbn [snd] in WI.
  destruct n as [|v es]; [contradiction|]. destruct WI as (Ev & Le & _). cbn in Ev, Le. subst v. cbn [kron2 fst snd].
  rewrite (proj2 (near_zero_false C1) C1_neq_C0), (proj2 (near_zero_false _) N). cbn [orb]. change (sizes_below [2; 3] 1) with [2]. rewrite Fl, Le, (wf_next _ _ W).
  unfold diagonal_layer. cbn [length nth Nat.mul Nat.add Nat.leb diagonal_layers]. unfold tab. cbn [seq map]. change (4 =? 4) with true.
  change (Nat.ltb 0 4 && Nat.eqb (0 / 2) (0 mod 2)) with true. change (Nat.ltb 1 4 && Nat.eqb (1 / 2) (1 mod 2)) with false. change (Nat.ltb 2 4 && Nat.eqb (2 / 2) (2 mod 2)) with false. change (Nat.ltb 3 4 && Nat.eqb (3 / 2) (3 mod 2)) with true. cbv iota.
  unfold node_at. change (1 <? length [2; 3]) with true. cbv iota zeta. rewrite (make_two 1 e0 e0 N eq_refl). cbn [snd nth]. unfold special. cbn [map seq diagonal_marked snd Nat.mul Nat.add nth_error].
  destruct (marked 0 [2; 3] (snd e0)); [reflexivity|]. eexists. split; [reflexivity|]. intros i j. cbn [snd entry cols]. rewrite ev_node. unfold edge_at. rewrite nth_overflow by (cbn; lia). rewrite ev_zero. ring.
Qed.
Definition z_small : edge := (C1, Node 0 [one_edge; zero_edge; zero_edge; (Copp C1, Term)]).
Lemma z_small_gate : make_gate 0 [2] 2 zmat [] 0 = Some z_small.
Proof.
  unfold make_gate. cbn [nth_error Nat.mul Nat.add Nat.ltb Nat.leb]. unfold tab. cbn [seq map].
  change (zmat (0 / 2) (0 mod 2)) with C1. change (zmat (1 / 2) (1 mod 2)) with C0. change (zmat (2 / 2) (2 mod 2)) with C0. change (zmat (3 / 2) (3 mod 2)) with (Copp C1).
  rewrite (proj2 (is_zero_spec C0) eq_refl), (proj2 (is_zero_false C1) C1_neq_C0), (proj2 (is_zero_false _) opp_neq).
  cbn [all_below seq length Nat.sub fold_left fst]. rewrite (make_two 0) by (cbn [fst]; first [apply C1_neq_C0 | rewrite C1_norm; apply opp_norm]). cbn [fst snd].
  rewrite div_one. reflexivity.
Qed.
Lemma z_small_plain : matrix_diagram 2 1 z_small /\ plain 2 1 z_small.
Proof.
  split.
  - right. cbn. repeat split; repeat constructor; cbn; try (left; reflexivity); right; exact I.
  - right. cbn [z_small snd]. destruct (is_ident (repeat 2 1) _); [reflexivity|]. repeat constructor; cbn; right; exact I.
Qed.

(** ** a product that throws *)
Definition xmat : mat := fun i j => if Nat.eqb i j then C0 else C1.
Definition ymat : mat := fun i j => if Nat.eqb i j then C0 else if Nat.eqb i 0 then (0, -1)%R else (0, 1)%R.
Lemma make_anti cached v e f : fst e <> C0 -> Cnorm2 (fst f) = Cnorm2 (fst e) ->
  make 0 true cached v [zero_edge; e; f; zero_edge] = (fst e, Node v [zero_edge; (C1, snd e); (Cdiv (fst f) (fst e), snd f); zero_edge]).
Proof.
  intros Ne Nf. assert (Nf0 : fst f <> C0) by (intros E; rewrite E in Nf; apply Ne; apply Cnorm2_0; rewrite <- Nf; unfold Cnorm2, C0; cbn; ring).
  assert (Cl : clear 0 cached [zero_edge; e; f; zero_edge] = [zero_edge; e; f; zero_edge]).
  { destruct cached; [|reflexivity]. cbn [clear map]. rewrite (proj2 (near_zero_false _) Ne), (proj2 (near_zero_false _) Nf0). destruct (near_zero 0 (fst zero_edge)); reflexivity. }
  unfold make, mnormalise. rewrite Cl.
  assert (Pv : mpivot 0 [zero_edge; e; f; zero_edge] = Some 1).
  { unfold mpivot, mag2, edge_at. cbn [length seq fold_left nth]. change (fst zero_edge) with C0. rewrite (proj2 (near_zero_spec C0) eq_refl), (proj2 (near_zero_false _) Ne), (proj2 (near_zero_false _) Nf0).
    rewrite Nf. destruct (Rlt_dec 0 _) as [H|H]; [|reflexivity]. exfalso. rewrite Rminus_diag_eq in H by reflexivity. exact (Rlt_irrefl 0 H). }
  rewrite Pv. unfold edge_at, tab. cbn [nth length seq map Nat.eqb].
  assert (Z : near 0 (fst zero_edge) C1 = false) by (destruct (near 0 (fst zero_edge) C1) eqn:E; [apply near_spec in E; symmetry in E; contradiction (C1_neq_C0 E)|reflexivity]).
  rewrite Z. cbn [zero_edge fst snd]. rewrite Cdiv_0. fold zero_edge. destruct (near 0 (fst f) C1) eqn:E; [apply near_spec in E; rewrite <- E|]; reflexivity.
Qed.
Lemma anti_gate M a b : a <> C0 -> Cnorm2 b = Cnorm2 a -> M 0 0 = C0 -> M 1 1 = C0 -> M 0 1 = a -> M 1 0 = b ->
  make_gate 0 [2] 2 M [] 0 = Some (a, Node 0 [zero_edge; (C1, Term); (Cdiv b a, Term); zero_edge]).
Proof.
  intros Na Nb M00 M11 M01 M10. assert (Nb0 : b <> C0) by (intros E; rewrite E in Nb; apply Na; apply Cnorm2_0; rewrite <- Nb; unfold Cnorm2, C0; cbn; ring).
  unfold make_gate. cbn [nth_error Nat.mul Nat.add Nat.ltb Nat.leb]. unfold tab. cbn [seq map].
  change (M (0 / 2) (0 mod 2)) with (M 0 0). change (M (1 / 2) (1 mod 2)) with (M 0 1). change (M (2 / 2) (2 mod 2)) with (M 1 0). change (M (3 / 2) (3 mod 2)) with (M 1 1).
  rewrite M00, M01, M10, M11. rewrite (proj2 (is_zero_spec C0) eq_refl), (proj2 (is_zero_false _) Na), (proj2 (is_zero_false _) Nb0).
  cbn [all_below seq length Nat.sub fold_left fst]. rewrite (make_anti false 0 (a, Term) (b, Term)) by assumption. reflexivity.
Qed.
Definition x_small : edge := (C1, Node 0 [zero_edge; one_edge; one_edge; zero_edge]).
Lemma x_small_gate : make_gate 0 [2] 2 xmat [] 0 = Some x_small.
Proof. rewrite (anti_gate xmat C1 C1) by (first [reflexivity|apply C1_neq_C0]). rewrite div_one. reflexivity. Qed.
Definition y_small : edge := ((0, -1)%R, Node 0 [zero_edge; one_edge; (Cdiv (0, 1)%R (0, -1)%R, Term); zero_edge]).
Lemma minus_i : (0, -1)%R <> C0. Proof. intros E. injection E. lra. Qed.
Lemma y_small_gate : make_gate 0 [2] 2 ymat [] 0 = Some y_small.
Proof. apply (anti_gate ymat (0, -1)%R (0, 1)%R); try reflexivity; [exact minus_i|]. unfold Cnorm2. cbn. ring. Qed.
Lemma y_small_marked N : marked 0 (repeat 2 (S N)) (snd y_small) = false.
Proof.
  apply not_true_is_false. intros H. unfold y_small in H. cbn [snd marked] in H. change (nth 0 (repeat 2 (S N)) 0) with 2 in H.
  match type of H with match special 0 2 ?l _ with _ => _ end = true => fold (flags (repeat 2 (S N)) l) in H; destruct (special 0 2 l (flags (repeat 2 (S N)) l)) as [[|]|] eqn:Q; try discriminate H; apply (proj1 (special_true (repeat 2 (S N)) 2 l ltac:(lia) eq_refl)) with (p := 1) in Q; [|lia] end.
  destruct Q as [_ Q]. change (1 mod 2 * 2 + 1 / 2) with 2 in Q. unfold edge_at in Q. cbn [nth] in Q. injection Q as Q1 Q2. unfold Cdiv, Cinv, Cmul, Cnorm2 in *. cbn in *. lra.
Qed.
Lemma x_small_throws N k y : 1 + k <= N -> matrix_diagram 2 k y -> fst y <> C0 -> marked 0 (repeat 2 N) (snd y) = false -> kronecker 0 (repeat 2 N) x_small y = None.
Proof.
  intros HN Wy Ny My. unfold kronecker. rewrite repeat_length. destruct N as [|N]; [lia|]. destruct Wy as [Wy|Wy]; [contradiction|]. rewrite arity_repeat in Wy.
  cbn [kron2 x_small fst snd]. rewrite (proj2 (near_zero_false C1) C1_neq_C0), (proj2 (near_zero_false _) Ny). cbn [orb]. change (sizes_below (repeat 2 (S N)) 1) with [2].
  replace (is_ident [2] (Node 0 [zero_edge; one_edge; one_edge; zero_edge])) with false.
  2: { symmetry. apply not_true_is_false. intros H. cbn [is_ident Nat.mul Nat.add seq forallb] in H. change (0 / 2 =? 0 mod 2) with true in H. cbv beta iota zeta in H. apply andb_prop in H as [H _]. apply andb_prop in H as [_ H]. apply is_one_spec in H. symmetry in H. exact (C1_neq_C0 H). }
  assert (Kz : kron2 0 (repeat 2 (S N)) N zero_edge y = Some zero_edge) by (apply zero_kron; reflexivity).
  assert (Ko : kron2 0 (repeat 2 (S N)) N one_edge y = Some (fst y, snd y)).
  { assert (Q : kron2 0 (repeat 2 (S N)) N one_edge y = Some (Cmul C1 (fst y), snd y)) by (destruct N; cbn [kron2 one_edge fst snd]; rewrite (proj2 (near_zero_false C1) C1_neq_C0), (proj2 (near_zero_false _) Ny); reflexivity). rewrite Q. do 2 f_equal. ring. }
  cbn [map]. rewrite Kz, Ko. cbn [all_some]. rewrite (wf_next _ _ Wy), repeat_length, Nat.add_0_r. unfold node_at. rewrite repeat_length. replace (k <? S N) with true by (symmetry; apply Nat.ltb_lt; lia).
  cbv zeta. rewrite (make_anti true k) by (cbn [fst]; first [exact Ny|reflexivity]). cbn [snd fst].
  assert (Dv : nth k (repeat 2 (S N)) 0 = 2) by (rewrite (nth_indep _ 0 2) by (rewrite repeat_length; lia); apply nth_repeat). rewrite Dv.
  unfold special. cbn [seq diagonal_marked nth_error Nat.mul Nat.add mirror_images map snd zero_edge marked]. change (0 / 2 =? 0 mod 2) with true. change (1 / 2 =? 1 mod 2) with false. cbv iota. rewrite My. reflexivity.
Qed.
Lemma x_small_wf : matrix_diagram 2 1 x_small.
Proof. right. cbn. repeat split; repeat constructor; cbn; try (left; reflexivity); right; exact I. Qed.
Lemma y_small_wf : matrix_diagram 2 1 y_small.
Proof. right. cbn. repeat split; repeat constructor; cbn; try (left; reflexivity); right; exact I. Qed.
Lemma x_small_marked : marked 0 [2; 2] (snd x_small) = true.
Proof.
  cbn [x_small snd marked]. change (nth 0 [2; 2] 0) with 2. match goal with |- match special 0 2 ?l _ with _ => _ end = true => fold (flags [2; 2] l); replace (special 0 2 l (flags [2; 2] l)) with (Some true); [reflexivity|symmetry] end.
  apply special_true; [lia|reflexivity|]. intros [|[|[|[|p]]]] H; try (cbn in H; lia); split; reflexivity.
Qed.
