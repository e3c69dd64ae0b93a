(** Proofs about the search tree. *)
From Coq Require Import Reals Lra Lia List ZArith Bool Sorted FinFun.
From Verif.Base Require Import Py.
From Verif.Compiler Require Import TreeModel TreeSpec.
Import ListNotations.
Local Open Scope list_scope.
Local Open Scope nat_scope.

Section Proofs.
Context {P : Type}.
Notation info := (info P). Notation tree := (tree P). Notation ntree := (ntree P).

Lemma tree_rect' (Q : tree -> Prop) : (forall i cs, Forall Q cs -> Q (Nd i cs)) -> forall t, Q t.
Proof.
  intros H. fix F 1. intros [i cs]. apply H. induction cs as [|c cs IH]; constructor; [apply F|exact IH].
Qed.

(** *** Addresses *)
Lemma sub_app (t : tree) a b : sub t (a ++ b) = match sub t a with Some s => sub s b | None => None end.
Proof.
  revert t. induction a as [|n a IH]; intros t; [reflexivity|]. cbn [app sub].
  destruct (nth_error (children t) n) as [c|]; [apply IH|reflexivity].
Qed.
Lemma node_app (t s : tree) a b : sub t a = Some s -> node t (a ++ b) = node s b.
Proof. intros H. unfold node. now rewrite sub_app, H. Qed.
Lemma node_cons (i : info) cs n a : node (Nd i cs) (n :: a) = match nth_error cs n with Some c => node c a | None => None end.
Proof. unfold node. cbn [sub children]. now destruct (nth_error cs n). Qed.
Lemma sub_cons (i : info) cs n a : sub (Nd i cs) (n :: a) = match nth_error cs n with Some c => sub c a | None => None end.
Proof. reflexivity. Qed.
Lemma node_some (t : tree) a i : node t a = Some i <-> exists cs, sub t a = Some (Nd i cs).
Proof.
  unfold node. destruct (sub t a) as [[j cs]|]; cbn; split.
  - intros H. injection H as ->. eauto.
  - intros (cs' & H). injection H as -> ->. reflexivity.
  - discriminate.
  - intros (cs' & H). discriminate.
Qed.
Lemma leaf_node (t : tree) a i : leaf t a i <-> node t a = Some i /\ node t (a ++ [0]) = None.
Proof.
  unfold leaf. rewrite node_some. split.
  - intros H. split; [eauto|]. rewrite (node_app _ _ _ _ H). reflexivity.
  - intros [(cs & H) N]. rewrite (node_app _ _ _ _ H), node_cons in N. destruct cs as [|c cs]; [exact H|]. cbn in N. discriminate.
Qed.
Lemma node_prefix (t : tree) a b : node t (a ++ b) <> None -> node t a <> None.
Proof. unfold node. rewrite sub_app. destruct (sub t a); congruence. Qed.

(** *** Lookup *)
Fixpoint find_among (k : Z) (l : list tree) : option tree :=
  match l with [] => None | c :: r => match find_node c k with Some n => Some n | None => find_among k r end end.
Lemma find_eq (i : info) cs k : find_node (Nd i cs) k = if (key i =? k)%Z then Some (Nd i cs) else find_among k cs.
Proof. cbn [find_node]. destruct (key i =? k)%Z; [reflexivity|]. induction cs as [|c cs IH]; [reflexivity|]. cbn. now rewrite IH. Qed.
Definition missing (t : tree) (k : Z) : Prop := forall a i, node t a = Some i -> key i <> k.
Lemma missing_cons (i : info) cs k : key i <> k -> Forall (fun c => missing c k) cs -> missing (Nd i cs) k.
Proof.
  intros N F [|n a] j; [unfold node; cbn; intros H; injection H as <-; exact N|].
  rewrite node_cons. destruct (nth_error cs n) as [c|] eqn:E; [|discriminate]. intros H.
  rewrite Forall_forall in F. apply nth_error_In in E. exact (F c E a j H).
Qed.
Lemma first_here (i : info) cs k : key i = k -> first_with (Nd i cs) k [].
Proof. intros E. split; [exists i; auto|]. intros [|n b] j _ _; [now left|right; constructor]. Qed.
Lemma first_below (i : info) cs k n c a : key i <> k -> nth_error cs n = Some c -> first_with c k a ->
  (forall m c', m < n -> nth_error cs m = Some c' -> missing c' k) -> first_with (Nd i cs) k (n :: a).
Proof.
  intros N E ((j & Hj & Kj) & F) M. split.
  - exists j. rewrite node_cons, E. auto.
  - intros [|m b] j' Hj' Kj'; [unfold node in Hj'; cbn in Hj'; injection Hj' as <-; contradiction|].
    rewrite node_cons in Hj'. destruct (nth_error cs m) as [c'|] eqn:E'; [|discriminate].
    destruct (Nat.lt_trichotomy m n) as [L|[->|L]].
    + exfalso. exact (M m c' L E' b j' Hj' Kj').
    + rewrite E in E'. injection E' as <-. destruct (F b j' Hj' Kj') as [->|B]; [now left|right; now constructor].
    + right. now constructor.
Qed.
Lemma first_unique (t : tree) k a b : first_with t k a -> first_with t k b -> a = b.
Proof.
  intros ((i & Hi & Ki) & F) ((j & Hj & Kj) & G). destruct (F b j Hj Kj) as [->|A]; [reflexivity|].
  destruct (G a i Hi Ki) as [->|B]; [reflexivity|]. exfalso. clear - A B.
  induction A as [n a|n m a b L|n a b A IH]; inversion B; subst; try lia. auto.
Qed.
Lemma find_spec (t : tree) k : match find_node t k with
  | Some s => exists a, first_with t k a /\ sub t a = Some s
  | None => missing t k end.
Proof.
  induction t as [i cs IH] using tree_rect'. rewrite find_eq. destruct (Z.eqb_spec (key i) k) as [E|E].
  - exists []. split; [now apply first_here|reflexivity].
  - enough (X : match find_among k cs with
      | Some s => exists n c a, nth_error cs n = Some c /\ first_with c k a /\ sub c a = Some s /\ (forall m c', m < n -> nth_error cs m = Some c' -> missing c' k)
      | None => Forall (fun c => missing c k) cs end).
    { destruct (find_among k cs) as [s|].
      - destruct X as (n & c & a & H1 & H2 & H3 & H4). exists (n :: a). split; [eapply first_below; eassumption|]. rewrite sub_cons, H1. exact H3.
      - now apply missing_cons. }
    clear E. induction IH as [|c cs Hc IH IH']; cbn [find_among]; [constructor|].
    destruct (find_node c k) as [s|].
    + destruct Hc as (a & H1 & H2). exists 0, c, a. split; [reflexivity|]. split; [exact H1|]. split; [exact H2|]. intros; lia.
    + destruct (find_among k cs) as [s|].
      * destruct IH' as (n & c' & a & H1 & H2 & H3 & H4). exists (S n), c', a. split; [exact H1|]. split; [exact H2|]. split; [exact H3|].
        intros [|m] c'' L E; [cbn in E; injection E as <-; exact Hc|]. apply (H4 m); [lia|exact E].
      * constructor; assumption.
Qed.
Lemma lookup_some (t s : tree) k : find_node t k = Some s <-> exists a, first_with t k a /\ sub t a = Some s.
Proof.
  pose proof (find_spec t k) as F. destruct (find_node t k) as [s'|]; split.
  - intros H. injection H as ->. exact F.
  - destruct F as (a & F1 & F2). intros (b & H1 & H2). rewrite (first_unique _ _ _ _ F1 H1) in F2. congruence.
  - discriminate.
  - intros (b & ((i & Hi & Ki) & _) & _). exfalso. exact (F b i Hi Ki).
Qed.
Lemma lookup_none (t : tree) k : find_node t k = None <-> missing t k.
Proof.
  pose proof (find_spec t k) as F. destruct (find_node t k) as [s'|]; split; intros H; try discriminate; auto.
  destruct F as (a & ((i & Hi & Ki) & _) & _). exfalso. exact (H a i Hi Ki).
Qed.

(** *** Update *)
Fixpoint update_among (f : tree -> tree) (k : Z) (l : list tree) : option (list tree) :=
  match l with
  | [] => None
  | c :: r => match update_node f c k with
              | Some c' => Some (c' :: r)
              | None => match update_among f k r with Some r' => Some (c :: r') | None => None end
              end
  end.
Lemma update_eq f (i : info) cs k : update_node f (Nd i cs) k =
  if (key i =? k)%Z then Some (f (Nd i cs)) else match update_among f k cs with Some cs' => Some (Nd i cs') | None => None end.
Proof.
  cbn [update_node]. destruct (key i =? k)%Z; [reflexivity|].
  match goal with |- match ?x with _ => _ end = _ => enough (E : x = update_among f k cs) by now rewrite E end.
  induction cs as [|c cs IH]; [reflexivity|]. cbn. now rewrite IH.
Qed.
(** s at a was replaced by s'. *)
Definition replaced (t t' : tree) (a : list nat) (s s' : tree) : Prop :=
  sub t a = Some s /\ sub t' a = Some s' /\ forall b, (forall c, b <> a ++ c) -> node t' b = node t b.
Lemma update_spec f (t : tree) k : match update_node f t k with
  | Some t' => exists a s, first_with t k a /\ replaced t t' a s (f s)
  | None => missing t k end.
Proof.
  induction t as [i cs IH] using tree_rect'. rewrite update_eq. destruct (Z.eqb_spec (key i) k) as [E|E].
  - exists [], (Nd i cs). split; [now apply first_here|]. split; [reflexivity|]. split; [reflexivity|].
    intros b H. exfalso. apply (H b). reflexivity.
  - enough (X : match update_among f k cs with
      | Some cs' => exists n c c' a s, nth_error cs n = Some c /\ nth_error cs' n = Some c' /\ first_with c k a /\ replaced c c' a s (f s) /\
           (forall m c', m < n -> nth_error cs m = Some c' -> missing c' k) /\ (forall m, m <> n -> nth_error cs' m = nth_error cs m)
      | None => Forall (fun c => missing c k) cs end).
    { destruct (update_among f k cs) as [cs'|].
      - destruct X as (n & c & c' & a & s & H1 & H2 & H3 & (R1 & R2 & R3) & H5 & H6). exists (n :: a), s. split; [eapply first_below; eassumption|].
        split; [rewrite sub_cons, H1; exact R1|]. split; [rewrite sub_cons, H2; exact R2|].
        intros [|m b] H; [reflexivity|]. rewrite !node_cons. destruct (Nat.eq_dec m n) as [->|Nn].
        + rewrite H1, H2. apply R3. intros d Hd. apply (H d). now rewrite Hd.
        + now rewrite H6.
      - now apply missing_cons. }
    clear E. induction IH as [|c cs Hc IH IH']; cbn [update_among]; [constructor|].
    destruct (update_node f c k) as [c'|].
    + destruct Hc as (a & s & H1 & H2). exists 0, c, c', a, s. split; [reflexivity|]. split; [reflexivity|]. split; [exact H1|]. split; [exact H2|].
      split; [intros; lia|]. intros [|m] H; [lia|reflexivity].
    + destruct (update_among f k cs) as [cs'|].
      * destruct IH' as (n & d & d' & a & s & H1 & H2 & H3 & H4 & H5 & H6). exists (S n), d, d', a, s. split; [exact H1|]. split; [exact H2|]. split; [exact H3|].
        split; [exact H4|]. split.
        -- intros [|m] c'' L E; [cbn in E; injection E as <-; exact Hc|]. apply (H5 m); [lia|exact E].
        -- intros [|m] H; [reflexivity|]. cbn. apply H6. lia.
      * constructor; assumption.
Qed.

Lemma app_dec (a b : list nat) : (exists c, b = a ++ c) \/ forall c, b <> a ++ c.
Proof.
  revert b. induction a as [|n a IH]; intros b; [left; now exists b|].
  destruct b as [|m b]; [right; intros c H; discriminate|]. destruct (Nat.eq_dec n m) as [->|N]; [|right; intros c H; injection H; congruence].
  destruct (IH b) as [(c & ->)|H]; [left; now exists c|]. right. intros c E. injection E as E. exact (H c E).
Qed.

Lemma add_none (n : ntree) k c dc p : add n k c dc p None = Ok (NT (Some (new_node k None c dc p)) 1).
Proof. reflexivity. Qed.
Lemma add_missing (n : ntree) t k c dc p pk : root n = Some t ->
  add n k c dc p (Some pk) = Err NodeNotFoundError <-> forall a i, node t a = Some i -> key i <> pk.
Proof.
  intros R. unfold add. rewrite R. pose proof (update_spec (fun s => node_add s k c dc p) t pk) as U.
  destruct (update_node _ t pk) as [t'|]; split; intros H; try discriminate; try assumption; try reflexivity.
  destruct U as (a & s & ((i & Hi & Ki) & _) & _). exfalso. exact (H a i Hi Ki).
Qed.
Lemma add_found (n : ntree) t k c dc p pk : root n = Some t -> forall a i cs, first_with t pk a -> sub t a = Some (Nd i cs) ->
  exists t', add n k c dc p (Some pk) = Ok (NT (Some t') (size n + 1)) /\
    leaf t' (a ++ [length cs]) (Info k (Some pk) c dc false p) /\
    forall b, b <> a ++ [length cs] -> node t' b = node t b.
Proof.
  intros R a i cs F S. unfold add. rewrite R. pose proof (update_spec (fun s => node_add s k c dc p) t pk) as U.
  destruct (update_node _ t pk) as [t'|].
  - destruct U as (a' & s & F' & R1 & R2 & R3). rewrite <- (first_unique _ _ _ _ F F') in *. clear F'.
    assert (s = Nd i cs) by congruence. subst s. exists t'. split; [reflexivity|].
    assert (Ki : key i = pk) by (destruct F as ((j & Hj & Kj) & _); apply node_some in Hj; destruct Hj; congruence).
    split.
    + unfold leaf. rewrite sub_app, R2. cbn [node_add sub children label].
      rewrite nth_error_app2, Nat.sub_diag by lia. cbn. now rewrite Ki.
    + intros b N. destruct (app_dec a b) as [(d & ->)|H]; [|now apply R3].
      rewrite (node_app _ _ _ _ R2), (node_app _ _ _ _ R1). destruct d as [|m d]; [reflexivity|].
      unfold node_add. rewrite !node_cons. cbn [children label].
      destruct (Nat.lt_trichotomy m (length cs)) as [L|[E|L]].
      * now rewrite nth_error_app1.
      * subst m. rewrite nth_error_app2, Nat.sub_diag by lia. cbn [nth_error]. destruct d as [|m d]; [congruence|].
        unfold new_node. rewrite node_cons. rewrite (proj2 (nth_error_None cs (length cs))) by lia. now destruct m.
      * rewrite (proj2 (nth_error_None cs m)) by lia. rewrite (proj2 (nth_error_None (cs ++ _) m)) by (rewrite app_length; cbn; lia). reflexivity.
  - exfalso. destruct F as ((j & Hj & Kj) & _). exact (U a j Hj Kj).
Qed.
Lemma finish_found (n : ntree) t k : root n = Some t -> forall a i cs, first_with t k a -> sub t a = Some (Nd i cs) ->
  exists t', mark_finished n k = Ok (NT (Some t') (size n)) /\ node t' a = Some (finish i) /\
    forall b, b <> a -> node t' b = node t b.
Proof.
  intros R a i cs F S. unfold mark_finished. rewrite R.
  pose proof (update_spec (fun s => Nd (finish (label s)) (children s)) t k) as U.
  destruct (update_node _ t k) as [t'|].
  - destruct U as (a' & s & F' & R1 & R2 & R3). rewrite <- (first_unique _ _ _ _ F F') in *. clear F'.
    assert (s = Nd i cs) by congruence. subst s. cbn [label children] in R2. exists t'. split; [reflexivity|].
    split; [apply node_some; eauto|]. intros b N. destruct (app_dec a b) as [(d & ->)|H]; [|now apply R3].
    rewrite (node_app _ _ _ _ R2), (node_app _ _ _ _ R1). destruct d as [|m d]; [rewrite app_nil_r in N; congruence|]. now rewrite !node_cons.
  - exfalso. destruct F as ((j & Hj & Kj) & _). exact (U a j Hj Kj).
Qed.
Lemma finish_missing (n : ntree) t k : root n = Some t ->
  mark_finished n k = Err NodeNotFoundError <-> forall a i, node t a = Some i -> key i <> k.
Proof.
  intros R. unfold mark_finished. rewrite R. pose proof (update_spec (fun s => Nd (finish (label s)) (children s)) t k) as U.
  destruct (update_node _ t k) as [t'|]; split; intros H; try discriminate; try assumption; try reflexivity.
  destruct U as (a & s & ((i & Hi & Ki) & _) & _). exfalso. exact (H a i Hi Ki).
Qed.

(** *** Size and depth *)
Definition flat_idx (l : list (list (list nat))) : list (list nat) :=
  flat_map (fun ns => map (cons (fst ns)) (snd ns)) (combine (seq 0 (length l)) l).
Fixpoint addresses (t : tree) : list (list nat) := let 'Nd _ cs := t in [] :: flat_idx (map addresses cs).
Lemma flat_idx_from l : forall o, (forall n a, In (n :: a) (flat_map (fun ns => map (cons (fst ns)) (snd ns)) (combine (seq o (length l)) l)) <->
  exists m s, n = o + m /\ nth_error l m = Some s /\ In a s) /\ ~ In [] (flat_map (fun ns => map (cons (fst ns)) (snd ns)) (combine (seq o (length l)) l)) /\
  length (flat_map (fun ns => map (cons (fst ns)) (snd ns)) (combine (seq o (length l)) l)) = fold_right Nat.add 0 (map (@length _) l) /\
  (Forall (@NoDup _) l -> NoDup (flat_map (fun ns => map (cons (fst ns)) (snd ns)) (combine (seq o (length l)) l))).
Proof.
  induction l as [|s l IH]; intros o; cbn [length seq combine flat_map map fold_right fst snd].
  - split; [intros n a; split; [intros []|intros (m & s & _ & H & _); destruct m; discriminate]|]. split; [intros []|]. split; [reflexivity|]. intros _. constructor.
  - destruct (IH (S o)) as (H1 & H2 & H3 & H4). split; [|split; [|split]].
    + intros n a. rewrite in_app_iff, in_map_iff, H1. split.
      * intros [(b & E & Hb)|(m & s' & -> & E & Ha)]; [injection E as <- <-; exists 0, s; split; [lia|auto]|exists (S m), s'; split; [lia|auto]].
      * intros ([|m] & s' & -> & E & Ha); [cbn in E; injection E as <-; left; exists a; split; [f_equal; lia|exact Ha]|right; exists m, s'; split; [lia|auto]].
    + rewrite in_app_iff, in_map_iff. intros [(b & E & _)|H]; [discriminate|exact (H2 H)].
    + rewrite app_length, map_length, H3. reflexivity.
    + intros F. inversion F as [|? ? F1 F2]; subst. specialize (H4 F2).
      assert (D : forall x, In x (map (cons o) s) -> ~ In x (flat_map (fun ns => map (cons (fst ns)) (snd ns)) (combine (seq (S o) (length l)) l))).
      { intros x Hx. apply in_map_iff in Hx. destruct Hx as (b & <- & _). rewrite H1. intros (m & s' & E & _). lia. }
      revert D. assert (N : NoDup (map (cons o) s)) by (apply Injective_map_NoDup; [intros x y E; now injection E|exact F1]).
      revert N. generalize (map (cons o) s). intros u. induction u as [|x u IHu]; intros N D; [exact H4|]. inversion N as [|? ? N1 N2]; subst. cbn. constructor.
      * rewrite in_app_iff. intros [H|H]; [exact (N1 H)|exact (D x (or_introl eq_refl) H)].
      * apply IHu; [exact N2|]. intros y Hy. apply D. now right.
Qed.
Lemma addresses_spec (t : tree) : NoDup (addresses t) /\ length (addresses t) = S (size_refresh t) /\ forall a, In a (addresses t) <-> node t a <> None.
Proof.
  induction t as [i cs IH] using tree_rect'. cbn [addresses]. unfold flat_idx.
  destruct (flat_idx_from (map addresses cs) 0) as (H1 & H2 & H3 & H4). split; [|split].
  - constructor; [exact H2|]. apply H4. rewrite Forall_forall in *. intros s Hs. apply in_map_iff in Hs. destruct Hs as (c & <- & Hc). apply (IH c Hc).
  - cbn [length size_refresh]. rewrite H3. f_equal. clear - IH. rewrite map_map.
    induction IH as [|c cs (_ & L & _) _ IH']; [reflexivity|]. cbn. rewrite L, IH'. lia.
  - intros [|n a].
    + split; [discriminate|now left].
    + rewrite node_cons. split.
      * intros [E|E]; [discriminate|]. apply H1 in E. destruct E as (m & s & -> & E & Ha). cbn [Nat.add].
        rewrite nth_error_map in E. destruct (nth_error cs m) as [c|] eqn:Ec; [|discriminate]. cbn in E. injection E as <-.
        rewrite Forall_forall in IH. apply (IH c); [eapply nth_error_In; exact Ec|exact Ha].
      * destruct (nth_error cs n) as [c|] eqn:Ec; [|congruence]. intros H. right. apply H1. exists n, (addresses c). split; [reflexivity|].
        split; [rewrite nth_error_map, Ec; reflexivity|]. rewrite Forall_forall in IH. apply (IH c); [eapply nth_error_In; exact Ec|exact H].
Qed.
Lemma nodes_spec (t : tree) : nodes t (S (size_refresh t)).
Proof. exists (addresses t). apply addresses_spec. Qed.
Lemma nodes_unique (t : tree) n m : nodes t n -> nodes t m -> n = m.
Proof.
  intros (l & N & <- & H) (l' & N' & <- & H'). apply Nat.le_antisymm; apply NoDup_incl_length; auto; intros a Ha.
  - apply H', H, Ha.
  - apply H, H', Ha.
Qed.
Lemma total_size_spec (n : ntree) t m : root n = Some t -> nodes t m -> exists n', total_size n = Ok (Z.of_nat m, n') /\ root n' = Some t.
Proof.
  intros R M. rewrite (nodes_unique t m _ M (nodes_spec t)). unfold total_size. rewrite R. eexists. split; [do 2 f_equal; lia|reflexivity].
Qed.
Lemma update_size f d : (forall s, size_refresh (f s) = size_refresh s + d) -> forall (t t' : tree) k, update_node f t k = Some t' -> size_refresh t' = size_refresh t + d.
Proof.
  intros F t. induction t as [i cs IH] using tree_rect'. intros t' k. rewrite update_eq. destruct (key i =? k)%Z; [intros H; injection H as <-; apply F|].
  destruct (update_among f k cs) as [cs'|] eqn:E; [|discriminate]. intros H. injection H as <-. cbn [size_refresh].
  enough (X : length cs' = length cs /\ fold_right Nat.add 0 (map size_refresh cs') = fold_right Nat.add 0 (map size_refresh cs) + d) by lia.
  clear F. revert cs' E. induction IH as [|c cs Hc _ IH']; intros cs'; cbn [update_among]; [discriminate|].
  destruct (update_node f c k) as [c'|] eqn:Ec.
  - intros H. injection H as <-. cbn. specialize (Hc c' k Ec). lia.
  - destruct (update_among f k cs) as [r'|]; [|discriminate]. intros H. injection H as <-. cbn. destruct (IH' r' eq_refl). lia.
Qed.
Lemma found_size (t : tree) : size_refresh (found_checker t) = size_refresh t.
Proof.
  induction t as [i cs IH] using tree_rect'. cbn [found_checker size_refresh]. rewrite map_length, map_map. f_equal.
  induction IH as [|c cs Hc _ IH']; [reflexivity|]. cbn. now rewrite Hc, IH'.
Qed.
Definition size_ok (n : ntree) : Prop := match root n with None => size n = 0%Z | Some t => size n = Z.of_nat (S (size_refresh t)) end.

Lemma step_size (n : ntree) o n' : size_ok n -> step n o = Ok n' -> size_ok n'.
Proof.
  unfold size_ok. intros S. destruct o as [k c dc p [pk|]|k|]; cbn [step].
  - unfold add. destruct (root n) as [t|]; [|discriminate]. destruct (update_node _ t pk) as [t'|] eqn:E; [|discriminate].
    intros H. injection H as <-. cbn [root size]. apply (update_size _ 1) in E; [lia|].
    intros [i cs]. cbn [node_add size_refresh label children]. rewrite app_length, map_app, fold_right_app. cbn.
    clear. assert (X : forall m l, fold_right Nat.add m l = fold_right Nat.add 0 l + m) by (intros m l; induction l as [|x l IH]; cbn; lia).
    lia.
  - intros H. injection H as <-. reflexivity.
  - unfold mark_finished. destruct (root n) as [t|]; [|discriminate]. destruct (update_node _ t k) as [t'|] eqn:E; [|discriminate].
    intros H. injection H as <-. cbn [root size]. apply (update_size _ 0) in E; [lia|]. intros [i cs]. cbn [size_refresh label children]. lia.
  - destruct (root n) as [t|]; [|discriminate]. intros H. injection H as <-. cbn [root size retrieve fst]. now rewrite found_size.
Qed.
Lemma history_size l (n : ntree) : history empty_tree l n -> match root n with None => size n = 0%Z | Some t => exists m, nodes t m /\ size n = Z.of_nat m end.
Proof.
  intros H. enough (X : size_ok n).
  { unfold size_ok in X. destruct (root n) as [t|]; [|exact X]. exists (S (size_refresh t)). split; [apply nodes_spec|exact X]. }
  assert (E : size_ok (@empty_tree P)) by reflexivity. revert H E. generalize (@empty_tree P). intros n0 H. 
  induction H as [|n1 o n2 l n3 S _ IH|n1 o e l n3 S _ IH]; intros E; auto. apply IH. eapply step_size; eassumption.
Qed.

Lemma max_depth_eq (i : info) cs : max_depth (Nd i cs) = match cs with [] => 0 | _ => S (fold_right Nat.max 0 (map max_depth cs)) end.
Proof. now destruct cs. Qed.
Lemma height_spec (t : tree) : height t (max_depth t).
Proof.
  induction t as [i cs IH] using tree_rect'. rewrite max_depth_eq. split.
  - destruct cs as [|c cs]; [exists []; split; [discriminate|reflexivity]|].
    assert (X : exists n c' a, nth_error (c :: cs) n = Some c' /\ node c' a <> None /\ length a = fold_right Nat.max 0 (map max_depth (c :: cs))).
    { revert IH. generalize c. induction cs as [|c2 cs IHc]; intros c1 F; inversion F as [|? ? F1 F2]; subst.
      - destruct F1 as ((a & A1 & A2) & _). exists 0, c1, a. split; [reflexivity|]. split; [exact A1|]. cbn. lia.
      - destruct (IHc c2 F2) as (n & c' & a & E & A1 & A2). cbn [map fold_right] in *.
        destruct (Nat.le_ge_cases (max_depth c1) (Nat.max (max_depth c2) (fold_right Nat.max 0 (map max_depth cs)))) as [L|L].
        + exists (S n), c', a. split; [exact E|]. split; [exact A1|]. lia.
        + destruct F1 as ((b & B1 & B2) & _). exists 0, c1, b. split; [reflexivity|]. split; [exact B1|]. lia. }
    destruct X as (n & c' & a & E & A1 & A2). exists (n :: a). rewrite node_cons, E. split; [exact A1|]. cbn [length]. now rewrite A2.
  - intros [|n a] H; [cbn; lia|]. rewrite node_cons in H. destruct (nth_error cs n) as [c|] eqn:E; [|congruence].
    assert (Hc : In c cs) by (eapply nth_error_In; exact E). destruct cs as [|c0 cs]; [destruct Hc|]. cbn [length]. apply le_n_S.
    rewrite Forall_forall in IH. apply (IH c Hc) in H. transitivity (max_depth c); [exact H|].
    clear - Hc. induction (c0 :: cs) as [|x l IHl]; [destruct Hc|]. cbn. destruct Hc as [->|Hc]; [lia|]. apply IHl in Hc. lia.
Qed.
Lemma height_unique (t : tree) n m : height t n -> height t m -> n = m.
Proof. intros ((a & A1 & A2) & A3) ((b & B1 & B2) & B3). apply A3 in B1. apply B3 in A1. lia. Qed.
Lemma depth_found (n : ntree) t k : root n = Some t -> forall a s h, first_with t k a -> sub t a = Some s -> height s h -> depth n k = Ok h.
Proof.
  intros R a s h F S H. unfold depth. rewrite R. rewrite (proj2 (lookup_some t s k)) by eauto. f_equal. eapply height_unique; [apply height_spec|exact H].
Qed.
Lemma depth_missing (n : ntree) t k : root n = Some t -> depth n k = Err NodeNotFoundError <-> forall a i, node t a = Some i -> key i <> k.
Proof.
  intros R. unfold depth. rewrite R. rewrite <- (lookup_none t k). destruct (find_node t k); split; congruence.
Qed.

(** *** The finished flags *)
Lemma found_sub (t : tree) a : sub (found_checker t) a = option_map found_checker (sub t a).
Proof.
  revert t. induction a as [|n a IH]; intros [i cs]; [reflexivity|]. cbn [found_checker sub children].
  rewrite nth_error_map. destruct (nth_error cs n) as [c|]; [apply IH|reflexivity].
Qed.
Lemma finish_flag (i : info) : same_but_flag i (finish i). Proof. repeat split. Qed.
Lemma found_label (t : tree) : same_but_flag (label t) (label (found_checker t)) /\
  (finished (label (found_checker t)) = true <-> exists b j, node t b = Some j /\ finished j = true).
Proof.
  induction t as [i cs IH] using tree_rect'. cbn [found_checker label].
  assert (X : existsb (fun c => finished (label c)) (map found_checker cs) = true <-> exists n b j, node (Nd i cs) (n :: b) = Some j /\ finished j = true).
  { rewrite existsb_exists. split.
    - intros (c' & Hc & Fc). apply in_map_iff in Hc. destruct Hc as (c & <- & Hc). rewrite Forall_forall in IH. apply (IH c Hc) in Fc.
      destruct Fc as (b & j & Hb). apply In_nth_error in Hc. destruct Hc as (n & Hn). exists n, b, j. rewrite node_cons, Hn. exact Hb.
    - intros (n & b & j & Hb). rewrite node_cons in Hb. destruct (nth_error cs n) as [c|] eqn:E; [|destruct Hb; discriminate].
      exists (found_checker c). apply nth_error_In in E. split; [now apply in_map|]. rewrite Forall_forall in IH. apply (IH c E). eauto. }
  destruct (existsb _ _) eqn:E.
  - split; [apply finish_flag|]. split; [|reflexivity]. intros _. destruct (proj1 X eq_refl) as (n & b & j & H). eauto.
  - split; [repeat split|]. split.
    + intros H. exists [], i. auto.
    + intros ([|n b] & j & H1 & H2); [unfold node in H1; cbn in H1; injection H1 as <-; exact H2|].
      exfalso. enough (false = true) by discriminate. apply X. eauto.
Qed.
Lemma found_node (t : tree) a i : node t a = Some i -> exists i', node (found_checker t) a = Some i' /\ same_but_flag i i' /\
  (finished i' = true <-> exists b j, node t (a ++ b) = Some j /\ finished j = true).
Proof.
  intros H. unfold node in H. destruct (sub t a) as [s|] eqn:E; [|discriminate]. injection H as <-.
  exists (label (found_checker s)). unfold node at 1. rewrite found_sub, E. cbn [option_map]. split; [reflexivity|].
  destruct (found_label s) as [A B]. split; [exact A|]. rewrite B. split; intros (b & j & H); exists b, j; rewrite (node_app _ _ _ _ E) in *; exact H.
Qed.
Lemma found_node_none (t : tree) a : node (found_checker t) a = None <-> node t a = None.
Proof. unfold node. rewrite found_sub. destruct (sub t a); cbn; split; congruence. Qed.
Lemma found_leaf (t : tree) a i : leaf (found_checker t) a i <-> leaf t a i.
Proof.
  unfold leaf. rewrite found_sub. destruct (sub t a) as [[j [|c cs]]|]; cbn; split; congruence.
Qed.
Lemma supported_step (t : tree) : supported t -> supported (found_checker t).
Proof.
  intros S a i' H F. destruct (node t a) as [i|] eqn:E; [|apply found_node_none in E; congruence].
  destruct (found_node t a i E) as (i2 & H2 & _ & D). rewrite H in H2. injection H2 as <-. apply D in F.
  destruct F as (b & j & Hb & Fj). destruct (S _ _ Hb Fj) as (c & l & L & Fl). exists (b ++ c), l. split; [|exact Fl].
  apply found_leaf. now rewrite app_assoc.
Qed.
(** Every ancestor of a finished leaf is finished. *)
Definition closed (t : tree) : Prop := forall a b j, node t (a ++ b) = Some j -> finished j = true -> exists i, node t a = Some i /\ finished i = true.
Lemma found_closed (t : tree) : closed (found_checker t).
Proof.
  intros a b j' H F. destruct (node t (a ++ b)) as [j|] eqn:E; [|apply found_node_none in E; congruence].
  assert (Ea : node t a <> None) by (eapply node_prefix; rewrite E; discriminate).
  destruct (node t a) as [i|] eqn:Ei; [|congruence]. destruct (found_node t a i Ei) as (i' & Hi & _ & D). exists i'. split; [exact Hi|]. apply D.
  destruct (found_node t _ j E) as (j2 & Hj & _ & D'). rewrite H in Hj. injection Hj as <-. apply D' in F. destruct F as (c & k & Hk & Fk).
  exists (b ++ c), k. now rewrite app_assoc.
Qed.

(** *** The cheapest finished leaf *)
Lemma min_by_spec (r : list (result P)) : forall x, exists l1 l2, x :: r = l1 ++ min_by x r :: l2 /\
  (forall z, In z l1 -> (cost_of (min_by x r) < cost_of z)%R) /\ (forall z, In z l2 -> (cost_of (min_by x r) <= cost_of z)%R).
Proof.
  induction r as [|y r IH]; intros x; cbn [min_by]; [exists [], []; repeat split; intros ? []|].
  destruct (Rlt_dec (cost_of y) (cost_of x)) as [L|L].
  - destruct (IH y) as (l1 & l2 & E & H1 & H2). exists (x :: l1), l2. split; [cbn; now rewrite <- E|]. split; [|exact H2].
    intros z [<-|Hz]; [|now apply H1]. assert (X : In y (l1 ++ min_by y r :: l2)) by (rewrite <- E; now left).
    apply in_app_iff in X. destruct X as [X|[X|X]]; [apply H1 in X; lra|rewrite X in *; lra|apply H2 in X; lra].
  - destruct (IH x) as (l1 & l2 & E & H1 & H2). destruct l1 as [|x' l1]; cbn in E.
    + injection E as E1 E2. exists [], (y :: l2). split; [cbn; now rewrite <- E1, <- E2|]. split; [intros ? []|].
      intros z [<-|Hz]; [rewrite <- E1; lra|now apply H2].
    + injection E as E1 E2. subst x'. exists (x :: y :: l1), l2. split; [cbn; now rewrite <- E2|]. split; [|exact H2].
      intros z [<-|[<-|Hz]]; [apply H1; now left| |apply H1; now right].
      assert (cost_of (min_by x r) < cost_of x)%R by (apply H1; now left). lra.
Qed.
Fixpoint finished_ones (l : list tree) : res (list (result P)) :=
  match l with
  | [] => Ok []
  | c :: r => if finished (label c) then let? x := min_cost_decomp c in let? xs := finished_ones r in Ok (x :: xs) else finished_ones r
  end.
Lemma min_cost_eq (i : info) cs : min_cost_decomp (Nd i cs) = match cs with
  | [] => Ok ([i], (current_cost i, decomp_cost i), payload i)
  | _ => let? l := finished_ones cs in match l with [] => Err ValueError | x :: r => let '(path, cost, g) := min_by x r in Ok (i :: path, cost, g) end end.
Proof.
  now destruct cs as [|c cs].
Qed.
(** What the path to leaf a of t must be. *)
Definition best (t : tree) (a : list nat) (x : result P) : Prop :=
  exists j, leaf t a j /\ finished j = true /\ snd (fst x) = (current_cost j, decomp_cost j) /\ snd x = payload j /\ way t a (fst (fst x)) /\
    forall b j', leaf t b j' -> finished j' = true -> (current_cost j <= current_cost j')%R /\ (current_cost j' = current_cost j -> b = a \/ before a b).
Lemma finished_ones_spec cs : Forall (fun c => finished (label c) = true -> exists x a, min_cost_decomp c = Ok x /\ best c a x) cs ->
  exists l ns, finished_ones cs = Ok l /\ StronglySorted lt ns /\
    Forall2 (fun n x => exists c a, nth_error cs n = Some c /\ finished (label c) = true /\ best c a x) ns l /\
    forall n c, nth_error cs n = Some c -> finished (label c) = true -> In n ns.
Proof.
  induction 1 as [|c cs Hc _ (l & ns & E & S & F & C)].
  - exists [], []. split; [reflexivity|]. split; [constructor|]. split; [constructor|]. intros [|n] c H; discriminate.
  - assert (S' : StronglySorted lt (map Datatypes.S ns)).
    { clear - S. induction S as [|n ns _ IH F]; cbn; constructor; [exact IH|]. rewrite Forall_forall in *. intros m Hm. apply in_map_iff in Hm.
      destruct Hm as (k & <- & Hk). apply F in Hk. lia. }
    assert (F' : Forall2 (fun n x => exists c' a, nth_error (c :: cs) n = Some c' /\ finished (label c') = true /\ best c' a x) (map Datatypes.S ns) l).
    { clear - F. induction F as [|n x ns l H _ IH]; cbn; constructor; [exact H|exact IH]. }
    cbn [finished_ones]. destruct (finished (label c)) eqn:Ec.
    + destruct (Hc eq_refl) as (x & a & Ex & Bx). rewrite Ex, E. cbn [bindr]. exists (x :: l), (0 :: map Datatypes.S ns). split; [reflexivity|].
      split; [constructor; [exact S'|]; rewrite Forall_forall; intros m Hm; apply in_map_iff in Hm; destruct Hm as (k & <- & _); lia|].
      split; [constructor; [exists c, a; auto|exact F']|]. intros [|n] c' H1 H2; [now left|]. right. apply in_map. eapply C; eassumption.
    + rewrite E. exists l, (map Datatypes.S ns). split; [reflexivity|]. split; [exact S'|]. split; [exact F'|].
      intros [|n] c' H1 H2; [cbn in H1; injection H1 as <-; congruence|]. apply in_map. eapply C; eassumption.
Qed.
Lemma way_cons (i : info) cs n c a l : nth_error cs n = Some c -> way c a l -> way (Nd i cs) (n :: a) (i :: l).
Proof.
  intros E [L H]. split; [cbn; now rewrite L|]. intros [|m] Hm; [reflexivity|]. cbn [nth_error firstn]. rewrite node_cons, E. apply H. cbn in Hm. lia.
Qed.
Lemma supported_child (i : info) cs n c : nth_error cs n = Some c -> supported (Nd i cs) -> supported c.
Proof.
  intros E S a j H F. destruct (S (n :: a) j) as (b & k & L & Fk); [now rewrite node_cons, E|exact F|]. exists b, k. split; [|exact Fk].
  unfold leaf in *. cbn [app] in L. rewrite sub_cons, E in L. exact L.
Qed.
Lemma closed_child (i : info) cs n c : nth_error cs n = Some c -> closed (Nd i cs) -> closed c.
Proof.
  intros E C a b j H F. destruct (C (n :: a) b j) as (k & Hk & Fk); [cbn [app]; now rewrite node_cons, E|exact F|].
  rewrite node_cons, E in Hk. eauto.
Qed.
Lemma min_cost_spec (t : tree) : supported t -> closed t -> finished (label t) = true -> exists x a, min_cost_decomp t = Ok x /\ best t a x.
Proof.
  induction t as [i cs IH] using tree_rect'. intros S C F. rewrite min_cost_eq. destruct cs as [|c0 cs0].
  - exists ([i], (current_cost i, decomp_cost i), payload i), []. split; [reflexivity|]. exists i. split; [reflexivity|]. split; [exact F|]. split; [reflexivity|].
    split; [reflexivity|]. split; [split; [reflexivity|]; intros [|n] Hn; [reflexivity|cbn in Hn; lia]|].
    intros [|n b] j' L _; unfold leaf in L; [cbn in L; injection L as <-; split; [lra|auto]|]. cbn in L. destruct n; discriminate.
  - set (cs := c0 :: cs0) in *. destruct (finished_ones_spec cs) as (l & ns & E & SS & F2 & Cov).
    { rewrite Forall_forall in *. intros c Hc Fc. apply In_nth_error in Hc. destruct Hc as (n & Hn). apply IH; [eapply nth_error_In; exact Hn| | |exact Fc].
      - eapply supported_child; eassumption.
      - eapply closed_child; eassumption. }
    change (match cs with [] => Ok ([i], (current_cost i, decomp_cost i), payload i) | _ :: _ => let? l := finished_ones cs in match l with [] => Err ValueError | x :: r => let '(path, cost, g) := min_by x r in Ok (i :: path, cost, g) end end)
      with (let? l := finished_ones cs in match l with [] => Err ValueError | x :: r => let '(path, cost, g) := min_by x r in Ok (i :: path, cost, g) end).
    rewrite E. cbn [bindr].
    assert (NE : l <> []).
    { intros ->. destruct (S [] i eq_refl F) as (b & j & L & Fj). cbn [app] in L. destruct b as [|n b]; [unfold leaf in L; cbn in L; discriminate|].
      assert (Hn : node (Nd i cs) ([n] ++ b) = Some j) by (apply leaf_node in L; apply L). destruct (C [n] b j Hn Fj) as (k & Hk & Fk).
      rewrite node_cons in Hk. destruct (nth_error cs n) as [c|] eqn:En; [|discriminate]. unfold node in Hk. cbn in Hk. injection Hk as <-.
      specialize (Cov n c En Fk). inversion F2; subst. exact Cov. }
    destruct l as [|x r]; [congruence|]. destruct (min_by_spec r x) as (l1 & l2 & El & M1 & M2).
    destruct (min_by x r) as [[path cost] g] eqn:Em. rewrite El in F2.
    apply Forall2_app_inv_r in F2. destruct F2 as (n1 & n2' & Fa & Fb & ->). inversion Fb as [|n y n2 l2' Hn Fb' En2 El2]; subst n2' y l2'. clear Fb.
    destruct Hn as (c & a & Hn & Fc & (j & Lj & Fj & Cj & Gj & Wj & Bj)). cbn [fst snd] in Cj, Gj, Wj.
    exists (i :: path, cost, g), (n :: a). split; [reflexivity|]. exists j. cbn [fst snd].
    split; [unfold leaf; rewrite sub_cons, Hn; exact Lj|]. split; [exact Fj|]. split; [exact Cj|]. split; [exact Gj|]. split; [eapply way_cons; eassumption|].
    assert (Kc : cost_of (path, cost, g) = current_cost j) by (unfold cost_of; cbn; rewrite Cj; reflexivity). rewrite Kc in M1, M2.
    intros [|m b] j' L' Fj'; [unfold leaf in L'; cbn in L'; discriminate|].
    assert (Hm : node (Nd i cs) ([m] ++ b) = Some j') by (apply leaf_node in L'; apply L'). destruct (C [m] b j' Hm Fj') as (k & Hk & Fk).
    rewrite node_cons in Hk. destruct (nth_error cs m) as [c'|] eqn:Em'; [|discriminate]. unfold node in Hk. cbn in Hk. injection Hk as <-.
    assert (L2 : leaf c' b j') by (unfold leaf in *; rewrite sub_cons, Em' in L'; exact L').
    specialize (Cov m c' Em' Fk). apply in_app_iff in Cov.
    assert (Side : forall ns' l', Forall2 (fun n x => exists c a, nth_error cs n = Some c /\ finished (label c) = true /\ best c a x) ns' l' -> In m ns' ->
      exists z, In z l' /\ (cost_of z <= current_cost j')%R).
    { clear - Em' L2 Fj'. intros ns' l' FF. induction FF as [|n' z ns' l' H _ IH]; intros I; [destruct I|]. destruct I as [->|I].
      - exists z. split; [now left|]. destruct H as (c2 & a2 & H1 & _ & (j2 & _ & _ & C2 & _ & _ & B2)). rewrite Em' in H1. injection H1 as <-.
        destruct (B2 b j' L2 Fj') as [B3 _]. unfold cost_of. rewrite C2. exact B3.
      - destruct (IH I) as (z' & Hz & Cz). exists z'. split; [now right|exact Cz]. }
    assert (Srt : (forall k, In k n1 -> k < n) /\ (forall k, In k n2 -> n < k)).
    { clear - SS. induction n1 as [|k n1 IHn]; cbn in SS; inversion SS as [|? ? S1 S2]; subst; rewrite Forall_forall in S2.
      - split; [intros ? []|exact S2].
      - destruct (IHn S1) as [A B]. split; [|exact B]. intros k' [<-|Hk]; [apply S2; apply in_app_iff; right; now left|now apply A]. }
    destruct Cov as [I|[->|I]].
    + destruct (Side _ _ Fa I) as (z & Hz & Cz). apply M1 in Hz. split; [lra|]. intros Eq. lra.
    + rewrite Hn in Em'. injection Em' as <-. destruct (Bj b j' L2 Fj') as [B1 B2]. split; [exact B1|]. intros Eq. destruct (B2 Eq) as [->|B3]; [now left|]. right. now constructor.
    + destruct (Side _ _ Fb' I) as (z & Hz & Cz). apply M2 in Hz. split; [lra|]. intros _. right. constructor. now apply Srt.
Qed.
Lemma retrieve_found (t : tree) : supported t -> (exists a i, leaf t a i /\ finished i = true) ->
  exists path a j, snd (retrieve t) = Ok (path, Some (current_cost j, decomp_cost j), payload j) /\
    leaf t a j /\ finished j = true /\ way (fst (retrieve t)) a path /\
    forall b j', leaf t b j' -> finished j' = true -> (current_cost j <= current_cost j')%R /\ (current_cost j' = current_cost j -> b = a \/ before a b).
Proof.
  intros S (a0 & i0 & L0 & F0). unfold retrieve. cbn [fst snd].
  assert (F : finished (label (found_checker t)) = true).
  { apply found_label. exists a0, i0. apply leaf_node in L0. split; [apply L0|exact F0]. }
  rewrite F. destruct (min_cost_spec _ (supported_step t S) (found_closed t) F) as (x & a & E & (j & Lj & Fj & Cj & Gj & Wj & Bj)).
  rewrite E. cbn [bindr]. destruct x as [[path cost] g]. cbn [fst snd] in *. exists path, a, j. split; [now rewrite Cj, Gj|].
  split; [apply found_leaf; exact Lj|]. split; [exact Fj|]. split; [exact Wj|]. intros b j' L'. apply Bj. now apply found_leaf.
Qed.
Lemma retrieve_none (t : tree) : supported t -> (forall a i, leaf t a i -> finished i = false) ->
  snd (retrieve t) = Ok ([], None, payload (label t)).
Proof.
  intros S N. unfold retrieve. cbn [snd]. destruct (found_label t) as [A D]. destruct (finished (label (found_checker t))).
  - exfalso. destruct (proj1 D eq_refl) as (b & j & H & F). destruct (S b j H F) as (c & k & L & Fk). apply N in L. congruence.
  - do 2 f_equal. symmetry. apply A.
Qed.
Lemma retrieve_flags (t : tree) a i : node t a = Some i -> exists i', node (fst (retrieve t)) a = Some i' /\ same_but_flag i i' /\
  (finished i' = true <-> exists b j, node t (a ++ b) = Some j /\ finished j = true).
Proof. apply found_node. Qed.
Lemma finished_ones_bad cs : Forall (fun c => finished (label c) = true -> min_cost_decomp c = Err ValueError) cs ->
  finished_ones cs = Ok [] \/ finished_ones cs = Err ValueError.
Proof.
  induction 1 as [|c cs Hc _ IH]; [now left|]. cbn [finished_ones]. destruct (finished (label c)); [|exact IH]. rewrite (Hc eq_refl). now right.
Qed.
Lemma min_cost_bad (t : tree) : (forall a i, leaf t a i -> finished i = false) -> finished (label t) = true -> min_cost_decomp t = Err ValueError.
Proof.
  induction t as [i cs IH] using tree_rect'. intros N F. rewrite min_cost_eq. destruct cs as [|c0 cs0].
  - specialize (N [] i eq_refl). cbn in F. congruence.
  - set (cs := c0 :: cs0) in *. destruct (finished_ones_bad cs) as [E|E].
    + rewrite Forall_forall in *. intros c Hc. apply IH; [exact Hc|]. intros a j L. apply In_nth_error in Hc. destruct Hc as (n & Hn).
      apply (N (n :: a)). unfold leaf in *. rewrite sub_cons, Hn. exact L.
    + now rewrite E.
    + now rewrite E.
Qed.
Lemma retrieve_bad (t : tree) : (forall a i, leaf t a i -> finished i = false) -> (exists a i, node t a = Some i /\ finished i = true) ->
  snd (retrieve t) = Err ValueError.
Proof.
  intros N H. unfold retrieve. cbn [snd]. rewrite (proj2 (proj2 (found_label t)) H). rewrite min_cost_bad; [reflexivity| |].
  - intros a i L. apply (N a). now apply found_leaf.
  - now apply found_label.
Qed.

(** *** Histories *)
Definition sup_ok (n : ntree) : Prop := match root n with None => True | Some t => supported t end.
Lemma leaf_new (k : Z) pk c dc (p : P) : supported (new_node k pk c dc p).
Proof.
  intros [|m a] i H F; [unfold node in H; cbn in H; injection H as <-; discriminate|]. unfold new_node in H. rewrite node_cons in H. destruct m; discriminate.
Qed.
Lemma app_self {A} (a b : list A) : a = a ++ b -> b = [].
Proof. intros H. rewrite <- (app_nil_r a) in H at 1. now apply app_inv_head in H. Qed.
Lemma legal_step (n : ntree) o n' : sup_ok n -> legal n o -> step n o = Ok n' -> sup_ok n'.
Proof.
  unfold sup_ok, legal. intros S L. destruct o as [k c dc p [pk|]|k|]; cbn [step].
  - intros H. destruct (root n) as [t|] eqn:R; [|unfold add in H; rewrite R in H; discriminate].
    assert (X : exists a i cs, first_with t pk a /\ sub t a = Some (Nd i cs)).
    { pose proof (find_spec t pk) as Q. destruct (find_node t pk) as [[i cs]|]; [destruct Q as (a & Q1 & Q2); eauto|].
      apply (add_missing n t k c dc p pk R) in Q. congruence. }
    destruct X as (a & i & cs & F & Sa). destruct (add_found n t k c dc p pk R a i cs F Sa) as (t' & E & Ln & O). rewrite E in H. injection H as <-. cbn [root].
    intros b j Hb Fj. destruct (list_eq_dec Nat.eq_dec b (a ++ [length cs])) as [->|Nb].
    { apply leaf_node in Ln. destruct Ln as [Ln _]. rewrite Ln in Hb. injection Hb as <-. discriminate. }
    rewrite (O b Nb) in Hb. destruct (S b j Hb Fj) as (d & m & Lf & Fm). exists d, m. split; [|exact Fm].
    assert (Nl : b ++ d <> a).
    { intros Eq. rewrite Eq in Lf. specialize (L a m F Lf). congruence. }
    apply leaf_node in Lf. destruct Lf as [L1 L2]. apply leaf_node. split.
    + rewrite O; [exact L1|]. intros Eq. rewrite Eq in L1. rewrite (node_app _ _ _ _ Sa), node_cons in L1.
      rewrite (proj2 (nth_error_None cs (length cs))) in L1 by lia. discriminate.
    + rewrite O; [exact L2|]. intros Eq. apply app_inj_tail in Eq. destruct Eq as [Eq _]. congruence.
  - intros H. injection H as <-. cbn [root]. apply leaf_new.
  - intros H. destruct (root n) as [t|] eqn:R; [|unfold mark_finished in H; rewrite R in H; discriminate].
    assert (X : exists a i cs, first_with t k a /\ sub t a = Some (Nd i cs)).
    { pose proof (find_spec t k) as Q. destruct (find_node t k) as [[i cs]|]; [destruct Q as (a & Q1 & Q2); eauto|].
      apply (finish_missing n t k R) in Q. congruence. }
    destruct X as (a & i & cs & F & Sa). destruct (L a F) as (i' & La). assert (E0 : cs = [] /\ i' = i) by (unfold leaf in La; split; congruence). destruct E0 as [-> ->].
    destruct (finish_found n t k R a i [] F Sa) as (t' & E & Nn & O). rewrite E in H. injection H as <-. cbn [root].
    assert (La' : leaf t' a (finish i)).
    { apply leaf_node. split; [exact Nn|]. rewrite O; [apply leaf_node in La; apply La|]. intros Eq. symmetry in Eq. apply app_self in Eq. discriminate. }
    intros b j Hb Fj. destruct (list_eq_dec Nat.eq_dec b a) as [->|Nb]; [exists [], (finish i); rewrite app_nil_r; auto|].
    rewrite (O b Nb) in Hb. destruct (S b j Hb Fj) as (d & m & Lf & Fm).
    destruct (list_eq_dec Nat.eq_dec (b ++ d) a) as [Eq|Ne]; [exists d, (finish i); rewrite Eq; auto|].
    exists d, m. split; [|exact Fm]. apply leaf_node in Lf. destruct Lf as [L1 L2]. apply leaf_node. split; [now rewrite O|].
    rewrite O; [exact L2|]. intros Eq. rewrite Eq in L2. apply leaf_node in La. destruct La. congruence.
  - destruct (root n) as [t|]; [|discriminate]. intros H. injection H as <-. cbn [root retrieve fst]. now apply supported_step.
Qed.
Lemma legal_supported l (n : ntree) t : legal_history empty_tree l n -> root n = Some t -> supported t.
Proof.
  intros H R. enough (X : sup_ok n) by (unfold sup_ok in X; rewrite R in X; exact X).
  assert (E : sup_ok (@empty_tree P)) by exact I. clear R. revert H E. generalize (@empty_tree P). intros n0 H.
  induction H as [|n1 o n2 l n3 L S _ IH|n1 o e l n3 S _ IH]; intros E; auto. apply IH. eapply legal_step; eassumption.
Qed.

(** *** total_size *)
Lemma total_size_damage (n : ntree) t m n' : root n = Some t -> nodes t m -> total_size n = Ok (Z.of_nat m, n') -> size n' = (Z.of_nat m - 1)%Z.
Proof.
  intros R M H. pose proof (nodes_unique t m _ M (nodes_spec t)) as E. unfold total_size in H. rewrite R in H. injection H as _ <-. cbn [size]. lia.
Qed.
Lemma total_size_empty k c dc (p : P) n n' z : add empty_tree k c dc p None = Ok n -> total_size n = Ok (z, n') -> z = 1%Z /\ is_empty n = false /\ is_empty n' = true.
Proof. cbn. intros H. injection H as <-. cbn. intros H. injection H as <- <-. repeat split. Qed.
End Proofs.

(** *** Witness: a root with two children, the second with two leaves; costs 3, 5 and 2 finished. *)
Definition grow (n : ntree unit) (o : op unit) : ntree unit := match step n o with Ok n' => n' | Err _ => n end.
Definition sample_ops : list (op unit) :=
  [OAdd 0 0 0 tt None; OAdd 1 3 0 tt (Some 0%Z); OAdd 2 1 0 tt (Some 0%Z); OAdd 3 5 0 tt (Some 2%Z); OAdd 4 2 0 tt (Some 2%Z);
   OFinish 1; OFinish 3; OFinish 4]%Z.
Definition sample_leaf k pk c : tree unit := Nd (Info k (Some pk) c 0%R true tt) [].
Definition sample : tree unit := Nd (Info 0%Z None 0%R 0%R false tt)
  [sample_leaf 1 0 3; Nd (Info 2%Z (Some 0%Z) 1%R 0%R false tt) [sample_leaf 3 2 5; sample_leaf 4 2 2]].
Lemma first_by_search {P} (t s : tree P) k a : find_node t k = Some s -> sub t a = Some s ->
  (forall b c, sub t b = Some s -> sub t c = Some s -> b = c) -> first_with t k a.
Proof. intros F S U. apply lookup_some in F. destruct F as (b & Fb & Sb). now rewrite (U a b S Sb). Qed.
Lemma legal_if_leaf {P} (n : ntree P) t k : root n = Some t -> (exists i, find_node t k = Some (Nd i [])) -> legal n (OFinish k).
Proof.
  intros R (i & E). unfold legal. rewrite R. intros a F. exists i. apply lookup_some in E. destruct E as (b & Fb & Sb).
  unfold leaf. now rewrite (first_unique _ _ _ _ F Fb).
Qed.
Lemma legal_if_open {P} (n : ntree P) t k c dc p pk : root n = Some t -> (forall i cs, find_node t pk = Some (Nd i cs) -> finished i = false) ->
  legal n (OAdd k c dc p (Some pk)).
Proof.
  intros R E. unfold legal. rewrite R. intros a i F L. apply (E i []). apply lookup_some. exists a. auto.
Qed.
Lemma sample_history : legal_history empty_tree sample_ops (NT (Some sample) 5).
Proof.
  unfold sample_ops.
  eapply legal_ok; [exact I|reflexivity|].
  eapply legal_ok; [eapply legal_if_open; [reflexivity|intros i cs H; injection H as <- <-; reflexivity]|reflexivity|].
  eapply legal_ok; [eapply legal_if_open; [reflexivity|intros i cs H; injection H as <- <-; reflexivity]|reflexivity|].
  eapply legal_ok; [eapply legal_if_open; [reflexivity|intros i cs H; injection H as <- <-; reflexivity]|reflexivity|].
  eapply legal_ok; [eapply legal_if_open; [reflexivity|intros i cs H; injection H as <- <-; reflexivity]|reflexivity|].
  eapply legal_ok; [eapply legal_if_leaf; [reflexivity|eexists; reflexivity]|reflexivity|].
  eapply legal_ok; [eapply legal_if_leaf; [reflexivity|eexists; reflexivity]|reflexivity|].
  eapply legal_ok; [eapply legal_if_leaf; [reflexivity|eexists; reflexivity]|reflexivity|].
  constructor.
Qed.
Lemma sample_result : exists path, snd (retrieve sample) = Ok (path, Some (2, 0)%R, tt) /\ map key path = [0; 2; 4]%Z.
Proof.
  destruct (retrieve_found sample) as (path & a & j & E & L & F & W & B).
  - eapply legal_supported; [exact sample_history|reflexivity].
  - exists [0], (Info 1%Z (Some 0%Z) 3%R 0%R true tt). split; reflexivity.
  - destruct (B [1; 1] (Info 4%Z (Some 2%Z) 2%R 0%R true tt) eq_refl eq_refl) as [Le _]. cbn in Le.
    assert (a = [1; 1]).
    { assert (NN : forall n, nth_error (@nil (tree unit)) n = None) by (intros [|n]; reflexivity).
      destruct a as [|[|[|n]] a]; [discriminate L| | |unfold leaf in L; cbn in L; rewrite NN in L; discriminate].
      - destruct a as [|n a]; unfold leaf in L; cbn in L; [injection L as <-; cbn in Le; lra|rewrite NN in L; discriminate].
      - destruct a as [|[|[|n]] a]; [discriminate L| | |unfold leaf in L; cbn in L; rewrite NN in L; discriminate].
        + destruct a as [|n a]; unfold leaf in L; cbn in L; [injection L as <-; cbn in Le; lra|rewrite NN in L; discriminate].
        + destruct a as [|n a]; [reflexivity|]. unfold leaf in L; cbn in L. rewrite NN in L. discriminate. }
    subst a. unfold leaf in L. cbn in L. injection L as <-. exists path. split; [exact E|]. destruct W as [Wl Wn]. cbn [length] in *.
    destruct path as [|x [|y [|z [|u path]]]]; try discriminate.
    pose proof (Wn 0 ltac:(lia)) as W0. pose proof (Wn 1 ltac:(lia)) as W1. pose proof (Wn 2 ltac:(lia)) as W2. cbn in W0, W1, W2.
    injection W0 as ->. injection W1 as ->. injection W2 as ->. reflexivity.
Qed.
