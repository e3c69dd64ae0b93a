From Coq Require Import List ZArith Arith Lia Sorted.
From Verif Require Import Base.Py Base.Cplx Base.Matrix Base.Radix Base.Fiber.
From Verif Require Import Circuit.GateModel Gates.FactoryModel Gates.FactorySpec Gates.ActsOn.
Open Scope C_scope.

(** *** enumeration of the basis states *)
Lemma map_seq_add b P s : map (fun j => (b + j)%nat) (seq s P) = seq (b + s) P.
Proof.
  revert s. induction P as [|P IH]; intros s; [reflexivity|]. cbn [seq map]. rewrite IH.
  replace (b + S s)%nat with (S (b + s)) by lia. reflexivity.
Qed.
Lemma flat_seq d P : flat_map (fun x => map (fun j => (x * P + j)%nat) (seq 0 P)) (seq 0 d) = seq 0 (d * P).
Proof.
  induction d as [|d IH]; [reflexivity|]. rewrite seq_S, flat_map_app, IH. cbn [flat_map]. rewrite app_nil_r.
  replace (S d * P)%nat with (d * P + P)%nat by lia. rewrite seq_app. f_equal. rewrite map_seq_add. f_equal. lia.
Qed.
Lemma map_flat_map {A B D} (f : B -> D) (g : A -> list B) l : map f (flat_map g l) = flat_map (fun x => map f (g x)) l.
Proof. induction l as [|a l IH]; cbn; [reflexivity|]. rewrite map_app, IH. reflexivity. Qed.

Lemma product_ranges_digits dims : product_ranges dims = map (digits dims) (seq 0 (prodl dims)).
Proof.
  induction dims as [|d r IH]; [reflexivity|]. cbn [product_ranges prodl]. rewrite IH.
  rewrite <- flat_seq, map_flat_map. apply flat_map_ext. intros x. rewrite !map_map. apply map_ext_in.
  intros j Hj. apply in_seq in Hj. cbn [digits].
  rewrite Nat.div_add_l, Nat.div_small, Nat.add_0_r by lia.
  rewrite (Nat.add_comm (x * prodl r)), Nat.mod_add, Nat.mod_small by lia. reflexivity.
Qed.
Lemma nth_product dims r : (r < prodl dims)%nat -> nth r (product_ranges dims) [] = digits dims r.
Proof. intros H. rewrite product_ranges_digits. apply nth_map_seq. exact H. Qed.
Lemma length_product dims : List.length (product_ranges dims) = prodl dims.
Proof. rewrite product_ranges_digits, map_length, seq_length. reflexivity. Qed.
Lemma In_product dims xs : In xs (product_ranges dims) <-> valid dims xs.
Proof.
  rewrite product_ranges_digits, in_map_iff. split.
  - intros (k & <- & Hk). apply in_seq in Hk. apply valid_digits. lia.
  - intros H. exists (undigits dims xs). split; [apply digits_undigits; exact H|]. apply in_seq.
    pose proof (undigits_lt _ _ H). lia.
Qed.

Lemma index_from_spec ds key s n : (forall i, (i < s + n)%nat -> (i < prodl ds)%nat) ->
  (forall k, (s <= k < s + n)%nat -> digits ds k = key -> index_from s key (map (digits ds) (seq s n)) = Ok k) /\
  ((forall k, (s <= k < s + n)%nat -> digits ds k <> key) -> index_from s key (map (digits ds) (seq s n)) = Err KeyError).
Proof.
  revert s. induction n as [|n IH]; intros s Hb; cbn [seq map index_from].
  - split; [intros; lia|reflexivity].
  - destruct (IH (S s)) as [IH1 IH2]; [intros; apply Hb; lia|]. split.
    + intros k Hk E. destruct (eqb_listN (digits ds s) key) eqn:Es.
      * apply eqb_listN_spec in Es. f_equal. apply (digits_inj ds); [apply Hb; lia|apply Hb; lia|congruence].
      * apply IH1; [|exact E]. destruct (Nat.eq_dec k s) as [->|]; [|lia].
        rewrite (proj2 (eqb_listN_spec _ _) E) in Es. discriminate.
    + intros H. destruct (eqb_listN (digits ds s) key) eqn:Es.
      * apply eqb_listN_spec in Es. exfalso. apply (H s); [lia|exact Es].
      * apply IH2. intros; apply H; lia.
Qed.
Lemma index_product ds key : valid ds key -> index_from 0 key (product_ranges ds) = Ok (undigits ds key).
Proof.
  intros H. rewrite product_ranges_digits. apply (index_from_spec ds key 0 (prodl ds)); [intros; lia| |].
  - pose proof (undigits_lt _ _ H). lia.
  - apply digits_undigits. exact H.
Qed.
Lemma index_product_missing ds key : ~ valid ds key -> index_from 0 key (product_ranges ds) = Err KeyError.
Proof.
  intros H. rewrite product_ranges_digits. apply (index_from_spec ds key 0 (prodl ds)); [intros; lia|].
  intros k Hk E. apply H. rewrite <- E. apply valid_digits. lia.
Qed.

Lemma select_ok idx s : idx <> [] -> (forall i, In i idx -> (i < List.length s)%nat) ->
  select idx s = Ok (map (fun i => nth i s 0%nat) idx).
Proof.
  intros Hn H. unfold select. destruct idx as [|a l]; [congruence|]. clear Hn. generalize dependent (a :: l). clear.
  intros idx H. induction idx as [|i idx IH]; cbn; [reflexivity|].
  destruct (nth_error s i) as [x|] eqn:E.
  - cbn. rewrite IH by (intros; apply H; right; assumption). cbn. rewrite (nth_error_nth _ _ 0%nat E). reflexivity.
  - apply nth_error_None in E. pose proof (H i (or_introl eq_refl)). lia.
Qed.

Lemma first_err_None l : first_err l = None <-> forall x, In x l -> exists v, x = Ok v.
Proof.
  induction l as [|[v|e] l IH]; cbn.
  - split; [contradiction|reflexivity].
  - rewrite IH. split; intros H x Hx; [destruct Hx as [<-|Hx]; eauto|apply H; right; exact Hx].
  - split; [discriminate|]. intros H. destruct (H (Err e)) as (v & Hv); [left; reflexivity|discriminate].
Qed.
Lemma tabulate_ok n e A : tabulate n e = Ok A <->
  (forall r c, (r < n)%nat -> (c < n)%nat -> exists v, e r c = Ok v) /\ A = (fun r c => match e r c with Ok v => v | Err _ => C0 end).
Proof.
  unfold tabulate. destruct (first_err _) as [x|] eqn:E.
  - split; [discriminate|]. intros [H _]. exfalso.
    assert (Hn : first_err (flat_map (fun r => map (e r) (seq 0 n)) (seq 0 n)) = None); [|congruence].
    apply first_err_None. intros y Hy. apply in_flat_map in Hy. destruct Hy as (r & Hr & Hy). apply in_map_iff in Hy.
    destruct Hy as (c & <- & Hc). apply in_seq in Hr, Hc. apply H; lia.
  - pose proof (proj1 (first_err_None _) E) as E'. split.
    + intros H. injection H as <-. split; [|reflexivity]. intros r c Hr Hc. apply E'. apply in_flat_map.
      exists r. split; [apply in_seq; lia|]. apply in_map_iff. exists c. split; [reflexivity|apply in_seq; lia].
    + intros [_ ->]. reflexivity.
Qed.
Lemma first_err_val l e : first_err l = Some e -> In (Err e) l.
Proof. induction l as [|[v|x] l IH]; cbn; [discriminate|auto|]. intros H. injection H as ->. left. reflexivity. Qed.
Lemma tabulate_err n e x : tabulate n e = Err x -> exists r c, (r < n)%nat /\ (c < n)%nat /\ e r c = Err x.
Proof.
  unfold tabulate. destruct (first_err _) as [y|] eqn:E; [|discriminate]. intros H. injection H as ->.
  apply first_err_val in E. apply in_flat_map in E. destruct E as (r & Hr & Hy). apply in_map_iff in Hy.
  destruct Hy as (c & E & Hc). apply in_seq in Hr, Hc. exists r, c. repeat split; try lia. exact E.
Qed.

(** *** sorting *)
Lemma In_insN x y l : In y (insN x l) <-> y = x \/ In y l.
Proof.
  induction l as [|z l IH]; cbn; [intuition congruence|]. destruct (Nat.leb x z); cbn; [intuition congruence|].
  rewrite IH. intuition congruence.
Qed.
Lemma In_sortN y l : In y (sortN l) <-> In y l.
Proof. induction l as [|x l IH]; cbn; [reflexivity|]. rewrite In_insN, IH. intuition congruence. Qed.
Lemma length_insN x l : List.length (insN x l) = S (List.length l).
Proof. induction l as [|z l IH]; cbn; [reflexivity|]. destruct (Nat.leb x z); cbn; lia. Qed.
Lemma length_sortN l : List.length (sortN l) = List.length l.
Proof. induction l as [|x l IH]; cbn; [reflexivity|]. rewrite length_insN. lia. Qed.
Lemma insN_sorted x l : StronglySorted le l -> StronglySorted le (insN x l).
Proof.
  intros H. induction H as [|z l Hl IH Hz]; cbn; [repeat constructor|].
  destruct (Nat.leb_spec x z).
  - constructor; [constructor; assumption|]. constructor; [exact H|]. eapply Forall_impl; [|exact Hz]. intros; cbn in *; lia.
  - constructor; [exact IH|]. apply Forall_forall. intros y Hy. apply In_insN in Hy. rewrite Forall_forall in Hz.
    destruct Hy as [->|Hy]; [lia|auto].
Qed.
Lemma sortN_sorted l : StronglySorted le (sortN l).
Proof. induction l; cbn; [constructor|]. apply insN_sorted. assumption. Qed.
Lemma insN_NoDup x l : ~ In x l -> NoDup l -> NoDup (insN x l).
Proof.
  intros Hx H. induction H as [|z l Hz Hl IH]; cbn; [repeat constructor; auto|].
  destruct (Nat.leb x z); [repeat constructor; assumption|]. constructor.
  - rewrite In_insN. intros [->|Hi]; [apply Hx; left; reflexivity|contradiction].
  - apply IH. intros Hi. apply Hx. right. exact Hi.
Qed.
Lemma sortN_NoDup l : NoDup l -> NoDup (sortN l).
Proof. intros H. induction H; cbn; [constructor|]. apply insN_NoDup; [|assumption]. rewrite In_sortN. assumption. Qed.
Lemma sorted_strict l : StronglySorted le l -> NoDup l -> StronglySorted lt l.
Proof.
  intros H. induction H as [|z l Hl IH Hz]; intros Hn; [constructor|]. inversion Hn; subst. constructor; [auto|].
  rewrite Forall_forall in *. intros y Hy. specialize (Hz y Hy). destruct (Nat.eq_dec z y); [subst; contradiction|lia].
Qed.
Lemma strict_unique a b : StronglySorted lt a -> StronglySorted lt b -> (forall x, In x a <-> In x b) -> a = b.
Proof.
  intros Ha. revert b. induction Ha as [|x a Ha IH Hx]; intros b Hb H.
  - destruct b as [|y b]; [reflexivity|]. exfalso. apply (H y). left. reflexivity.
  - destruct Hb as [|y b Hb Hy].
    + exfalso. apply (H x). left. reflexivity.
    + rewrite Forall_forall in *.
      assert (x = y).
      { destruct (proj1 (H x) (or_introl eq_refl)) as [E|Hi]; [congruence|].
        destruct (proj2 (H y) (or_introl eq_refl)) as [E|Hj]; [congruence|].
        specialize (Hx _ Hj). specialize (Hy _ Hi). lia. }
      subst y. f_equal. apply IH; [exact Hb|]. intros z. split; intros Hz.
      * destruct (proj1 (H z) (or_intror Hz)) as [E|]; [|assumption]. specialize (Hx _ Hz). lia.
      * destruct (proj2 (H z) (or_intror Hz)) as [E|]; [|assumption]. specialize (Hy _ Hz). lia.
Qed.
Lemma seq_strict s n : StronglySorted lt (seq s n).
Proof.
  revert s. induction n as [|n IH]; intros s; cbn; constructor; [apply IH|]. apply Forall_forall. intros x Hx.
  apply in_seq in Hx. lia.
Qed.

Lemma minl_spec x l : In (minl x l) (x :: l) /\ forall y, In y (x :: l) -> (minl x l <= y)%nat.
Proof.
  revert x. induction l as [|z l IH]; intros x; cbn [minl].
  - split; [left; reflexivity|]. intros y [->|[]]; lia.
  - destruct (IH (Nat.min x z)) as [H1 H2]. split.
    + destruct H1 as [E|H1]; [|right; right; exact H1]. destruct (Nat.min_spec x z) as [[_ Em]|[_ Em]]; rewrite Em in E at 1; [left|right; left]; exact E.
    + intros y [->|[->|Hy]].
      * specialize (H2 (Nat.min y z) (or_introl eq_refl)). lia.
      * specialize (H2 (Nat.min x y) (or_introl eq_refl)). lia.
      * apply H2. right. exact Hy.
Qed.
Lemma maxl_spec x l : In (maxl x l) (x :: l) /\ forall y, In y (x :: l) -> (y <= maxl x l)%nat.
Proof.
  revert x. induction l as [|z l IH]; intros x; cbn [maxl].
  - split; [left; reflexivity|]. intros y [->|[]]; lia.
  - destruct (IH (Nat.max x z)) as [H1 H2]. split.
    + destruct H1 as [E|H1]; [|right; right; exact H1]. destruct (Nat.max_spec x z) as [[_ Em]|[_ Em]]; rewrite Em in E at 1; [right; left|left]; exact E.
    + intros y [->|[->|Hy]].
      * specialize (H2 (Nat.max y z) (or_introl eq_refl)). lia.
      * specialize (H2 (Nat.max x y) (or_introl eq_refl)). lia.
      * apply H2. right. exact Hy.
Qed.
Lemma minl_seq lo n : minl lo (seq (S lo) n) = lo.
Proof.
  destruct (minl_spec lo (seq (S lo) n)) as [H1 H2].
  pose proof (H2 lo (or_introl eq_refl)). change (lo :: seq (S lo) n) with (seq lo (S n)) in H1. apply in_seq in H1. lia.
Qed.

(** *** apply_identities_and_controls *)
Lemma In_slide lo (l : list nat) x : (forall q, In q l -> (lo <= q)%nat) -> (In x (map (fun q => (q - lo)%nat) l) <-> In (x + lo)%nat l).
Proof.
  intros H. rewrite in_map_iff. split.
  - intros (q & <- & Hq). pose proof (H q Hq). replace (q - lo + lo)%nat with q by lia. exact Hq.
  - intros Hx. exists (x + lo)%nat. split; [lia|exact Hx].
Qed.

(** the digits selected at the remaining lines agree iff all lines off targets and controls agree *)
Lemma rest_agree dims lo n qs cs r c :
  List.length dims = n -> (forall q, In q qs -> (lo <= q < lo + n)%nat) -> (forall q, In q cs -> (lo <= q < lo + n)%nat) ->
  let rest := map (fun q => (q - lo)%nat) (filter (fun q => negb (memN q qs) && negb (memN q cs)) (seq lo n)) in
  (map (fun i => nth i (digits dims r) 0%nat) rest = map (fun i => nth i (digits dims c) 0%nat) rest <->
   agree_off dims (map (fun q => (q - lo)%nat) (qs ++ cs)) r c).
Proof.
  intros Hn Hq Hc rest.
  assert (Hin : forall i, In i rest <-> (i < n)%nat /\ ~ In i (map (fun q => (q - lo)%nat) (qs ++ cs))).
  { intros i. unfold rest. rewrite In_slide by (intros q Hx; apply filter_In in Hx; destruct Hx as [Hx _]; apply in_seq in Hx; lia).
    rewrite In_slide by (intros q Hx; apply in_app_iff in Hx; destruct Hx as [Hx|Hx]; [specialize (Hq q Hx)|specialize (Hc q Hx)]; lia).
    rewrite filter_In, in_seq, Bool.andb_true_iff, !Bool.negb_true_iff, !memN_not_In, in_app_iff. intuition lia. }
  split.
  - intros E i Hi Hni. unfold digit.
    assert (Hr : In i rest) by (apply Hin; split; [lia|exact Hni]).
    clear -E Hr. induction rest as [|a l IH]; cbn in *; [contradiction|]. injection E as E1 E2.
    destruct Hr as [->|Hr]; [exact E1|auto].
  - intros H. apply map_ext_in. intros i Hi. apply Hin in Hi. apply H; [lia|tauto].
Qed.

Definition shift (lo : nat) (l : list nat) : list nat := map (fun q => (q - lo)%nat) l.

Lemma shift_sorted_lines dims lo n ts : List.length dims = n -> NoDup ts -> (forall q, In q ts -> (lo <= q < lo + n)%nat) ->
  lines_ok dims (shift lo (sortN ts)).
Proof.
  intros Hn Hnd Hb. split.
  - assert (H : forall l, NoDup l -> (forall q, In q l -> (lo <= q)%nat) -> NoDup (shift lo l)).
    { clear. intros l H. induction H as [|x l Hx Hl IH]; intros Hb; cbn; constructor.
      - unfold shift. rewrite In_slide by (intros; apply Hb; right; assumption).
        pose proof (Hb x (or_introl eq_refl)). replace (x - lo + lo)%nat with x by lia. exact Hx.
      - apply IH. intros; apply Hb; right; assumption. }
    apply H; [apply sortN_NoDup; exact Hnd|]. intros q Hq. rewrite In_sortN in Hq. apply Hb. exact Hq.
  - intros t Ht. unfold shift in Ht. apply in_map_iff in Ht. destruct Ht as (q & <- & Hq). rewrite In_sortN in Hq.
    specialize (Hb q Hq). lia.
Qed.
Lemma shift_off dims lo n ts cs : List.length dims = n -> (forall q, In q ts -> (lo <= q < lo + n)%nat) ->
  (forall q, In q cs -> (lo <= q < lo + n)%nat /\ ~ In q ts) -> off_targets dims (shift lo (sortN ts)) (shift lo cs).
Proof.
  intros Hn Hb Hc x Hx. unfold shift in *. rewrite In_slide in Hx by (intros q Hq; apply Hc in Hq; lia).
  destruct (Hc _ Hx). split; [lia|]. rewrite In_slide by (intros q Hq; rewrite In_sortN in Hq; apply Hb in Hq; lia).
  rewrite In_sortN. assumption.
Qed.

Lemma sub_full dims k : (k < prodl dims)%nat -> sub_index dims (seq 0 (List.length dims)) k = k.
Proof.
  intros Hk. unfold sub_index, sub_dims.
  assert (E1 : map (fun t => nth t dims 0%nat) (seq 0 (List.length dims)) = dims).
  { apply list_nth_ext; [rewrite map_length, seq_length; reflexivity|]. intros i Hi.
    rewrite map_length, seq_length in Hi. apply (nth_map_seq (fun t => nth t dims 0%nat)). exact Hi. }
  assert (E2 : map (digit dims k) (seq 0 (List.length dims)) = digits dims k).
  { apply list_nth_ext; [rewrite map_length, seq_length, length_digits; reflexivity|]. intros i Hi.
    rewrite map_length, seq_length in Hi. rewrite nth_map_seq by exact Hi. reflexivity. }
  rewrite E1, E2. apply undigits_digits. exact Hk.
Qed.
Lemma acts_full dims M : acts_on dims (seq 0 (List.length dims)) [] [] M M.
Proof.
  split; intros r c Hr Hc Ha.
  - intros _. rewrite !sub_full by assumption. reflexivity.
  - intros Hn. exfalso. apply Hn. reflexivity.
  - exfalso. apply Ha. intros i Hi Hn. exfalso. apply Hn. apply in_seq. lia.
Qed.

Definition logic_dims (qs dims : list nat) (lo : nat) : res (list nat) :=
  match qs with
  | [q] => match nth_error dims q with Some d => Ok [d] | None => Err IndexError end
  | _ => select (shift lo qs) dims
  end.

(** index of the target digits, for the dimension list the code uses *)
Lemma sub_lookup dims lo n qs lg k : List.length dims = n -> (forall q, In q qs -> (lo <= q < lo + n)%nat) ->
  qs <> [] -> logic_dims qs dims lo = Ok lg -> (k < prodl dims)%nat ->
  (exists j, index_from 0 (map (fun i => nth i (digits dims k) 0%nat) (shift lo qs)) (product_ranges lg) = Ok j) ->
  index_from 0 (map (fun i => nth i (digits dims k) 0%nat) (shift lo qs)) (product_ranges lg) = Ok (sub_index dims (shift lo qs) k).
Proof.
  intros Hn Hb Hne Hlg Hk (j & Hj).
  assert (Hv : valid lg (map (fun i => nth i (digits dims k) 0%nat) (shift lo qs))).
  { destruct (in_dec (list_eq_dec Nat.eq_dec) (map (fun i => nth i (digits dims k) 0%nat) (shift lo qs)) (product_ranges lg)) as [H|H];
      rewrite In_product in H; [exact H|].
    rewrite index_product_missing in Hj by exact H. discriminate. }
  rewrite index_product by exact Hv. f_equal. unfold sub_index.
  destruct qs as [|q [|q' qs]]; [congruence| |].
  - cbn in Hlg. destruct (nth_error dims q) as [d|]; [|discriminate]. injection Hlg as <-. cbn. reflexivity.
  - f_equal. cbn [logic_dims] in Hlg. rewrite select_ok in Hlg.
    + injection Hlg as <-. reflexivity.
    + discriminate.
    + intros i Hi. unfold shift in Hi. rewrite In_slide in Hi by (intros x Hx; apply Hb in Hx; lia). apply Hb in Hi. lia.
Qed.
Lemma sub_lookup_ok dims lo n qs lg k : List.length dims = n -> (forall q, In q qs -> (lo <= q < lo + n)%nat) ->
  (2 <= List.length qs)%nat -> logic_dims qs dims lo = Ok lg -> (k < prodl dims)%nat ->
  index_from 0 (map (fun i => nth i (digits dims k) 0%nat) (shift lo qs)) (product_ranges lg) = Ok (sub_index dims (shift lo qs) k).
Proof.
  intros Hn Hb Hne Hlg Hk. destruct qs as [|q [|q' qs]]; cbn in Hne; try lia.
  cbn [logic_dims] in Hlg. rewrite select_ok in Hlg.
  - injection Hlg as <-. apply index_product. apply sub_valid; [exact Hk|].
    intros i Hi. unfold shift in Hi. rewrite In_slide in Hi by (intros x Hx; apply Hb in Hx; lia). apply Hb in Hi. lia.
  - discriminate.
  - intros i Hi. unfold shift in Hi. rewrite In_slide in Hi by (intros x Hx; apply Hb in Hx; lia). apply Hb in Hi. lia.
Qed.

Lemma slide_bound (dims : list nat) lo n (l : list nat) i : List.length dims = n -> (forall q, In q l -> (lo <= q < lo + n)%nat) ->
  In i (map (fun q => (q - lo)%nat) l) -> (i < List.length dims)%nat.
Proof.
  intros Hn Hb Hi. apply in_map_iff in Hi. destruct Hi as (q & <- & Hq). specialize (Hb q Hq). lia.
Qed.
Lemma map_nonempty {A B} (f : A -> B) l : l <> [] -> map f l <> [].
Proof. destruct l; [congruence|discriminate]. Qed.
Lemma agree_weaken dims a b r c : agree_off dims a r c -> (forall x, In x a -> In x b) -> agree_off dims b r c.
Proof. intros H Hs i Hi Hn. apply H; [exact Hi|]. intros Hx. apply Hn. apply Hs. exact Hx. Qed.
Lemma shift_app lo a b : shift lo (a ++ b) = shift lo a ++ shift lo b.
Proof. apply map_app. Qed.

(** the value of the test "same" of the code *)
Lemma same_value dims lo n qs cs r c :
  List.length dims = n -> (forall q, In q qs -> (lo <= q < lo + n)%nat) -> (forall q, In q cs -> (lo <= q < lo + n)%nat) ->
  let rest := map (fun q => (q - lo)%nat) (filter (fun q => negb (memN q qs) && negb (memN q cs)) (seq lo n)) in
  (r < prodl dims)%nat -> (c < prodl dims)%nat ->
  exists b, (if Nat.eqb (List.length rest) 0 then Ok true
   else let? a := select rest (nth r (product_ranges dims) []) in
        let? b := select rest (nth c (product_ranges dims) []) in Ok (eqb_listN a b)) = Ok b /\
   (b = true <-> agree_off dims (shift lo qs ++ shift lo cs) r c).
Proof.
  intros Hn Hq Hc rest Hr Hcc. rewrite !nth_product by assumption.
  pose proof (rest_agree dims lo n qs cs r c Hn Hq Hc) as Hag. fold rest in Hag. cbn zeta in Hag.
  change (map (fun q => (q - lo)%nat) (qs ++ cs)) with (shift lo (qs ++ cs)) in Hag. rewrite shift_app in Hag.
  destruct (Nat.eqb_spec (List.length rest) 0) as [E|E].
  - exists true. split; [reflexivity|]. split; [|reflexivity]. intros _. apply Hag.
    destruct rest; [reflexivity|discriminate].
  - assert (Hne : rest <> []) by (intros H; rewrite H in E; apply E; reflexivity).
    assert (Hb : forall k i, In i rest -> (i < List.length (digits dims k))%nat).
    { intros k i Hi. rewrite length_digits. eapply slide_bound; [exact Hn| |exact Hi].
      intros q Hx. apply filter_In in Hx. destruct Hx as [Hx _]. apply in_seq in Hx. lia. }
    rewrite !select_ok by (trivial; apply Hb). cbn. eexists. split; [reflexivity|]. rewrite eqb_listN_spec. exact Hag.
Qed.

Lemma shift_seq lo n : shift lo (seq lo n) = seq 0 n.
Proof.
  unfold shift. replace (seq lo n) with (map (fun j => (lo + j)%nat) (seq 0 n)) by (rewrite map_seq_add; f_equal; lia).
  rewrite map_map. transitivity (map (fun x => x) (seq 0 n)); [apply map_ext; intros; lia|apply map_id].
Qed.
Lemma apply_sound M ts dims lo n ctl A :
  List.length dims = n -> (0 < n)%nat -> NoDup ts -> ts <> [] -> (forall q, In q ts -> (lo <= q < lo + n)%nat) ->
  match ctl with
  | Some (cs, lv) => cs <> [] /\ forall q, In q cs -> (lo <= q < lo + n)%nat /\ ~ In q ts
  | None => True
  end ->
  apply_ids_ctrl M ts dims (seq lo n) ctl = Ok A ->
  acts_on dims (shift lo (sortN ts)) (shift lo (match ctl with Some (cs, _) => cs | None => [] end))
    (match ctl with Some (_, lv) => lv | None => [] end) M A.
Proof.
  intros Hn Hpos Hnd Hne Hb Hctl H. unfold apply_ids_ctrl in H.
  destruct (seq lo n) as [|r0 rr] eqn:Eseq; [discriminate|].
  assert (Er : r0 = lo /\ rr = seq (S lo) (n - 1)).
  { destruct n as [|n']; [lia|]. cbn in Eseq. injection Eseq as <- <-. rewrite Nat.sub_0_r || replace (S n' - 1)%nat with n' by lia. auto. }
  destruct Er as [-> ->]. rewrite minl_seq in H. rewrite <- Eseq in H.
  rewrite (proj2 (Nat.eqb_neq (List.length dims) 0)) in H by lia.
  rewrite seq_length, length_sortN in H.
  assert (Hqs : forall q, In q (sortN ts) -> (lo <= q < lo + n)%nat) by (intros q Hq; rewrite In_sortN in Hq; auto).
  assert (Hqne : sortN ts <> []).
  { intros E. apply (f_equal (@List.length nat)) in E. rewrite length_sortN in E. destruct ts; [congruence|discriminate]. }
  destruct (Nat.eqb (List.length ts) n && match ctl with None => true | Some _ => false end)%bool eqn:Eearly.
  { apply andb_prop in Eearly. destruct Eearly as [El Ec]. destruct ctl as [|]; [discriminate|]. apply Nat.eqb_eq in El.
    injection H as <-. cbn [shift map].
    assert (Es : sortN ts = seq lo n).
    { apply strict_unique.
      - apply sorted_strict; [apply sortN_sorted|apply sortN_NoDup; exact Hnd].
      - apply seq_strict.
      - intros x. rewrite In_sortN, in_seq. split; [apply Hb|]. intros Hx.
        apply (NoDup_length_incl (l:=ts) (l':=seq lo n)); [exact Hnd|rewrite seq_length; lia| |apply in_seq; lia].
        intros y Hy. apply in_seq. apply Hb. exact Hy. }
    rewrite Es. replace (shift lo (seq lo n)) with (seq 0 (List.length dims)); [apply acts_full|].
    rewrite Hn. symmetry. apply shift_seq. }
  clear Eearly.
  set (cs := match ctl with Some (c, _) => c | None => [] end) in *.
  assert (Hcs : forall q, In q cs -> (lo <= q < lo + n)%nat /\ ~ In q ts).
  { unfold cs. destruct ctl as [[c l]|]; [apply Hctl|intros q []]. }
  assert (Hcs' : forall q, In q cs -> (lo <= q < lo + n)%nat) by (intros q Hq; apply Hcs; exact Hq).
  change (match sortN ts with
          | [q] => match nth_error dims q with Some d => Ok [d] | None => Err IndexError end
          | _ => select (map (fun q : nat => (q - lo)%nat) (sortN ts)) dims
          end) with (logic_dims (sortN ts) dims lo) in H.
  destruct (logic_dims (sortN ts) dims lo) as [lg|e] eqn:Elg; [|discriminate]. cbn [bindr] in H.
  apply tabulate_ok in H. destruct H as [Hall ->].
  set (qs := sortN ts) in *.
  change (map (fun q : nat => (q - lo)%nat) qs) with (shift lo qs) in *.
  set (value := fun r c => let? rk := select (shift lo qs) (nth r (product_ranges dims) []) in
      let? ck := select (shift lo qs) (nth c (product_ranges dims) []) in
      let? i := index_from 0 rk (product_ranges lg) in
      let? j := index_from 0 ck (product_ranges lg) in Ok (M i j)) in *.
  assert (Hval : forall r c v, (r < prodl dims)%nat -> (c < prodl dims)%nat -> value r c = Ok v ->
    v = M (sub_index dims (shift lo qs) r) (sub_index dims (shift lo qs) c)).
  { intros r c v Hr Hc Hv. unfold value in Hv. rewrite !nth_product in Hv by assumption.
    rewrite !select_ok in Hv; try (apply map_nonempty; exact Hqne);
      try (intros i Hi; rewrite length_digits; eapply slide_bound; [exact Hn|exact Hqs|exact Hi]).
    cbn [bindr] in Hv.
    destruct (index_from 0 (map (fun i => nth i (digits dims r) 0%nat) (shift lo qs)) (product_ranges lg)) as [i|] eqn:Ei; [|discriminate].
    destruct (index_from 0 (map (fun i => nth i (digits dims c) 0%nat) (shift lo qs)) (product_ranges lg)) as [j|] eqn:Ej; [|discriminate].
    cbn in Hv. injection Hv as <-.
    assert (Ei' := sub_lookup dims lo n qs lg r Hn Hqs Hqne Elg Hr (ex_intro _ i Ei)).
    assert (Ej' := sub_lookup dims lo n qs lg c Hn Hqs Hqne Elg Hc (ex_intro _ j Ej)).
    congruence. }
  assert (Hmid : forall r c, (r < prodl dims)%nat -> (c < prodl dims)%nat -> ~ agree_off dims (shift lo qs) r c -> mid r c = C0).
  { intros r c Hr Hc Hn'. unfold mid. destruct (Nat.eqb_spec r c) as [->|]; [|reflexivity]. exfalso. apply Hn'. apply agree_refl. }
  assert (Hsame := fun r c => same_value dims lo n qs cs r c Hn Hqs Hcs').
  destruct ctl as [[c0 lv]|].
  - subst c0 || (cbn in cs; subst cs). 
    assert (Hsel : forall k, (k < prodl dims)%nat -> select (shift lo c0) (nth k (product_ranges dims) []) = Ok (map (fun i => nth i (digits dims k) 0%nat) (shift lo c0))).
    { intros k Hk. rewrite nth_product by exact Hk. apply select_ok; [apply map_nonempty; apply Hctl|].
      intros i Hi. rewrite length_digits. eapply slide_bound; [exact Hn|exact Hcs'|exact Hi]. }
    change (map (fun q : nat => (q - lo)%nat) c0) with (shift lo c0) in *.
    assert (Hon : forall k, controls_on dims (shift lo c0) lv k <-> map Z.of_nat (map (fun i => nth i (digits dims k) 0%nat) (shift lo c0)) = lv).
    { intros k. unfold controls_on. rewrite map_map. reflexivity. }
    split; intros r c Hr Hc Ha; specialize (Hall r c Hr Hc); destruct (Hsame r c Hr Hc) as (b & Eb & Hb');
      rewrite !Hsel in Hall |- * by assumption; cbn [bindr] in Hall |- *; rewrite Eb in Hall |- *; cbn [bindr] in Hall |- *;
      destruct Hall as (v & Hv).
    + intros Hc1. apply Hon in Hc1. rewrite (proj2 (eqb_listZ_spec _ _) Hc1) in Hv |- *.
      assert (Ecc : map (fun i => nth i (digits dims r) 0%nat) (shift lo c0) = map (fun i => nth i (digits dims c) 0%nat) (shift lo c0)).
      { apply map_ext_in. intros i Hi. apply Ha; [eapply slide_bound; [exact Hn|exact Hcs'|exact Hi]|].
        unfold shift in Hi |- *. rewrite In_slide in Hi |- * by (intros q Hq; (apply Hcs in Hq || apply Hqs in Hq); lia).
        unfold qs. rewrite In_sortN. apply Hcs. exact Hi. }
      rewrite (proj2 (eqb_listN_spec _ _) Ecc) in Hv |- *. cbn [andb] in Hv |- *.
      assert (b = true) as -> by (apply Hb'; eapply agree_weaken; [exact Ha|intros; apply in_or_app; left; assumption]).
      fold (value r c) in Hv |- *. rewrite Hv. apply Hval; assumption.
    + intros Hc1. rewrite Hon in Hc1.
      destruct (eqb_listZ _ lv) eqn:Ez; [apply eqb_listZ_spec in Ez; contradiction|]. reflexivity.
    + destruct (eqb_listZ _ lv && _)%bool eqn:Ez; [|apply Hmid; assumption].
      apply andb_prop in Ez. destruct Ez as [_ Ez]. apply eqb_listN_spec in Ez.
      destruct b; [|apply Hmid; assumption]. exfalso. apply Ha.
      pose proof (proj1 Hb' eq_refl) as Hag. intros i Hi Hn'.
      destruct (in_dec Nat.eq_dec i (shift lo c0)) as [Hin|Hnin].
      * unfold digit. clear -Ez Hin. induction (shift lo c0) as [|x l IH]; cbn in *; [contradiction|].
        injection Ez as E1 E2. destruct Hin as [->|Hin]; auto.
      * apply Hag; [exact Hi|]. rewrite in_app_iff. tauto.
  - subst cs. cbn [shift map] in *.
    split; intros r c Hr Hc Ha; specialize (Hall r c Hr Hc); destruct (Hsame r c Hr Hc) as (b & Eb & Hb');
      rewrite Eb in Hall |- *; cbn [bindr] in Hall |- *; destruct Hall as (v & Hv); rewrite app_nil_r in Hb'.
    + intros _. assert (b = true) as -> by (apply Hb'; exact Ha).
      fold (value r c) in Hv |- *. rewrite Hv. apply Hval; assumption.
    + intros Hn'. exfalso. apply Hn'. reflexivity.
    + destruct b; [exfalso; apply Ha; apply Hb'; reflexivity|]. apply Hmid; assumption.
Qed.

(** when the call returns *)
Lemma apply_complete M ts dims lo n ctl :
  List.length dims = n -> (0 < n)%nat -> NoDup ts -> ts <> [] -> (forall q, In q ts -> (lo <= q < lo + n)%nat) ->
  match ctl with
  | Some (cs, lv) => cs <> [] /\ (forall q, In q cs -> (lo <= q < lo + n)%nat /\ ~ In q ts)
  | None => True
  end ->
  (forall t, ts = [t] -> (ctl = None /\ n = 1%nat) \/ ((t < n)%nat /\ (nth (t - lo) dims 0 <= nth t dims 0)%nat)) ->
  exists A, apply_ids_ctrl M ts dims (seq lo n) ctl = Ok A.
Proof.
  intros Hn Hpos Hnd Hne Hb Hctl Hw. unfold apply_ids_ctrl.
  destruct (seq lo n) as [|r0 rr] eqn:Eseq; [destruct n; [lia|discriminate]|].
  assert (Er : r0 = lo /\ rr = seq (S lo) (n - 1)).
  { destruct n as [|n']; [lia|]. cbn in Eseq. injection Eseq as <- <-. rewrite Nat.sub_0_r || replace (S n' - 1)%nat with n' by lia. auto. }
  destruct Er as [-> ->]. rewrite minl_seq. rewrite <- Eseq.
  rewrite (proj2 (Nat.eqb_neq (List.length dims) 0)) by lia.
  rewrite seq_length, length_sortN.
  assert (Hqs : forall q, In q (sortN ts) -> (lo <= q < lo + n)%nat) by (intros q Hq; rewrite In_sortN in Hq; auto).
  assert (Hqne : sortN ts <> []).
  { intros E. apply (f_equal (@List.length nat)) in E. rewrite length_sortN in E. destruct ts; [congruence|discriminate]. }
  destruct (Nat.eqb (List.length ts) n && match ctl with None => true | Some _ => false end)%bool eqn:Eearly; [eexists; reflexivity|].
  set (cs := match ctl with Some (c, _) => c | None => [] end) in *.
  assert (Hcs : forall q, In q cs -> (lo <= q < lo + n)%nat /\ ~ In q ts).
  { unfold cs. destruct ctl as [[c l]|]; [apply Hctl|intros q []]. }
  assert (Hcs' : forall q, In q cs -> (lo <= q < lo + n)%nat) by (intros q Hq; apply Hcs; exact Hq).
  change (match sortN ts with
          | [q] => match nth_error dims q with Some d => Ok [d] | None => Err IndexError end
          | _ => select (map (fun q : nat => (q - lo)%nat) (sortN ts)) dims
          end) with (logic_dims (sortN ts) dims lo).
  assert (Hwide : forall t, ts = [t] -> (t < n)%nat /\ (nth (t - lo) dims 0 <= nth t dims 0)%nat).
  { intros t ->. destruct (Hw t eq_refl) as [[-> ->]|]; [discriminate|assumption]. }
  assert (Hlg : exists lg, logic_dims (sortN ts) dims lo = Ok lg).
  { destruct ts as [|t [|t' ts]]; [congruence| |].
    - destruct (Hwide t eq_refl) as [Ht _]. cbn. destruct (nth_error dims t) eqn:E; [eauto|]. apply nth_error_None in E. lia.
    - destruct (sortN (t :: t' :: ts)) as [|x [|y l]] eqn:E; try (apply (f_equal (@List.length nat)) in E; rewrite length_sortN in E; discriminate).
      cbn [logic_dims]. eexists. apply select_ok; [discriminate|]. intros i Hi. eapply slide_bound; [exact Hn|exact Hqs|exact Hi]. }
  destruct Hlg as (lg & Elg). rewrite Elg. cbn [bindr].
  set (qs := sortN ts) in *.
  change (map (fun q : nat => (q - lo)%nat) qs) with (shift lo qs) in *.
  assert (Hidx : forall k, (k < prodl dims)%nat -> exists j, index_from 0 (map (fun i => nth i (digits dims k) 0%nat) (shift lo qs)) (product_ranges lg) = Ok j).
  { intros k Hk. destruct ts as [|t [|t' ts]]; [congruence| |].
    - destruct (Hwide t eq_refl) as [Ht Hd]. cbn in Elg. unfold qs in *. cbn in *.
      destruct (nth_error dims t) as [d|] eqn:E; [|discriminate]. injection Elg as <-.
      rewrite (nth_error_nth _ _ 0%nat E) in Hd. eexists. apply index_product. constructor; [|constructor].
      pose proof (Hb t (or_introl eq_refl)). pose proof (nth_digits_lt dims k (t - lo) Hk ltac:(lia)). lia.
    - eexists. eapply sub_lookup_ok; try eassumption. unfold qs. rewrite length_sortN. cbn. lia. }
  assert (Hvl : forall r c, (r < prodl dims)%nat -> (c < prodl dims)%nat -> exists v,
      (let? rk := select (shift lo qs) (nth r (product_ranges dims) []) in
      let? ck := select (shift lo qs) (nth c (product_ranges dims) []) in
      let? i := index_from 0 rk (product_ranges lg) in
      let? j := index_from 0 ck (product_ranges lg) in Ok (M i j)) = Ok v).
  { intros r c Hr Hc. rewrite !nth_product by assumption.
    rewrite !select_ok; try (apply map_nonempty; exact Hqne);
      try (intros i Hi; rewrite length_digits; eapply slide_bound; [exact Hn|exact Hqs|exact Hi]).
    cbn [bindr]. destruct (Hidx r Hr) as (i & ->). destruct (Hidx c Hc) as (j & ->). cbn. eauto. }
  assert (Hsame := fun r c => same_value dims lo n qs cs r c Hn Hqs Hcs').
  eexists. apply tabulate_ok. split; [|reflexivity]. intros r c Hr Hc.
  destruct (Hsame r c Hr Hc) as (b & Eb & _). destruct ctl as [[c0 lv]|].
  - subst cs. change (map (fun q : nat => (q - lo)%nat) c0) with (shift lo c0) in *.
    assert (Hsel : forall k, (k < prodl dims)%nat -> select (shift lo c0) (nth k (product_ranges dims) []) = Ok (map (fun i => nth i (digits dims k) 0%nat) (shift lo c0))).
    { intros k Hk. rewrite nth_product by exact Hk. apply select_ok; [apply map_nonempty; apply Hctl|].
      intros i Hi. rewrite length_digits. eapply slide_bound; [exact Hn|exact Hcs'|exact Hi]. }
    rewrite !Hsel by assumption. cbn [bindr]. destruct (eqb_listZ _ lv && _)%bool; [|eauto]. rewrite Eb. cbn [bindr]. destruct b; [|eauto]. apply Hvl; assumption.
  - rewrite Eb. cbn [bindr]. destruct b; [|eauto]. apply Hvl; assumption.
Qed.
Lemma apply_index_error M t dims lo n cs lv : List.length dims = n -> (0 < n)%nat -> (n <= t)%nat ->
  apply_ids_ctrl M [t] dims (seq lo n) (Some (cs, lv)) = Err IndexError.
Proof.
  intros Hn Hpos Ht. unfold apply_ids_ctrl. destruct n as [|n]; [lia|]. cbn [seq].
  rewrite (proj2 (Nat.eqb_neq (List.length dims) 0)) by lia. rewrite Bool.andb_false_r. cbn [sortN insN].
  rewrite (proj2 (nth_error_None dims t)) by lia. reflexivity.
Qed.

(** *** wrap_in_identities *)
Lemma fold_left_app_seq {A} (f : A -> nat -> A) a n m x :
  fold_left f (seq a (n + m)) x = fold_left f (seq (a + n) m) (fold_left f (seq a n) x).
Proof. rewrite seq_app, fold_left_app. reflexivity. Qed.

Lemma firstn_S_nth (l : list nat) k : (k < List.length l)%nat -> firstn (S k) l = firstn k l ++ [nth k l 0%nat].
Proof.
  revert k. induction l as [|x l IH]; intros k H; cbn in *; [lia|]. destruct k; [reflexivity|]. cbn. f_equal. apply IH. lia.
Qed.

Lemma wrap_pre M m lo hi sizes k : (forall d, In d sizes -> (0 < d)%nat) -> (k <= lo)%nat -> (lo <= hi)%nat -> (hi < List.length sizes)%nat ->
  meq (prodl (firstn k sizes)) (fold_left (wrap_step M m lo hi sizes) (seq 0 k) mid) mid.
Proof.
  intros Hp. induction k as [|k IH]; intros Hk Hlh Hh.
  - apply meq_refl.
  - rewrite seq_S, fold_left_app. cbn [fold_left]. unfold wrap_step at 1. cbn [Nat.add].
    rewrite (proj2 (Nat.eqb_neq k lo)) by lia. rewrite (proj2 (Nat.ltb_lt k lo)) by lia. rewrite (proj2 (Nat.ltb_ge hi k)) by lia.
    rewrite firstn_S_nth by lia. rewrite prodl_app. cbn [prodl]. rewrite Nat.mul_1_r.
    specialize (IH ltac:(lia) Hlh Hh). destruct (Nat.eqb_spec k 0) as [->|Hk0]; cbn [negb andb orb].
    + cbn. apply meq_refl.
    + eapply meq_trans; [apply mkron_ext; [exact IH|apply meq_refl]|]. apply mkron_id.
      assert (0 < nth k sizes 0)%nat by (apply Hp; apply nth_In; lia). lia.
Qed.
Lemma wrap_mid M m lo hi sizes A a n : (lo < a)%nat -> (a + n <= hi + 1)%nat ->
  fold_left (wrap_step M m lo hi sizes) (seq a n) A = A.
Proof.
  revert a A. induction n as [|n IH]; intros a A H1 H2; [reflexivity|]. cbn [seq fold_left].
  unfold wrap_step at 2. rewrite (proj2 (Nat.eqb_neq a lo)) by lia. rewrite (proj2 (Nat.ltb_ge a lo)) by lia.
  rewrite (proj2 (Nat.ltb_ge hi a)) by lia. cbn. apply IH; lia.
Qed.
Lemma div_mod_mul a b c : (b <> 0)%nat -> (c <> 0)%nat -> (a / (b * c) = a / c / b)%nat /\ ((a mod (b * c)) / c = (a / c) mod b)%nat /\ ((a mod (b * c)) mod c = a mod c)%nat.
Proof.
  intros Hb Hc. repeat split.
  - rewrite Nat.mul_comm, Nat.div_div by lia. reflexivity.
  - rewrite (Nat.mul_comm b c), Nat.mod_mul_r by lia. set (Y := ((a / c) mod b)%nat). rewrite (Nat.mul_comm c Y), Nat.div_add by lia.
    rewrite Nat.div_small by (apply Nat.mod_upper_bound; lia). lia.
  - rewrite (Nat.mul_comm b c), Nat.mod_mul_r by lia. set (Y := ((a / c) mod b)%nat). rewrite (Nat.mul_comm c Y), Nat.mod_add by lia.
    apply Nat.mod_mod. lia.
Qed.
Lemma wrap_post M m lo hi sizes A k : (forall d, In d sizes -> (0 < d)%nat) -> (lo <= hi)%nat -> (hi + 1 + k <= List.length sizes)%nat ->
  forall r c, fold_left (wrap_step M m lo hi sizes) (seq (hi + 1) k) A r c =
    A (r / prodl (firstn k (skipn (hi + 1) sizes)))%nat (c / prodl (firstn k (skipn (hi + 1) sizes)))%nat *
    mid (r mod prodl (firstn k (skipn (hi + 1) sizes)))%nat (c mod prodl (firstn k (skipn (hi + 1) sizes)))%nat.
Proof.
  intros Hp Hlh. induction k as [|k IH]; intros Hk r c.
  - cbn [seq fold_left firstn prodl]. rewrite !Nat.div_1_r, !Nat.mod_1_r. unfold mid. cbn. ring.
  - rewrite seq_S, fold_left_app. cbn [fold_left]. unfold wrap_step at 1.
    rewrite (proj2 (Nat.eqb_neq (hi + 1 + k) lo)) by lia. rewrite (proj2 (Nat.ltb_ge (hi + 1 + k) lo)) by lia.
    rewrite (proj2 (Nat.ltb_lt hi (hi + 1 + k))) by lia. cbn [andb orb]. unfold mkron. rewrite IH by lia.
    rewrite firstn_S_nth by (rewrite skipn_length; lia). rewrite prodl_app. cbn [prodl]. rewrite Nat.mul_1_r.
    assert (E : nth k (skipn (hi + 1) sizes) 0%nat = nth (hi + 1 + k) sizes 0%nat).
    { clear. revert k. generalize (hi + 1)%nat. intros a. revert sizes. induction a as [|a IHa]; intros [|s l] k; cbn; trivial; try (destruct k; reflexivity). }
    rewrite E. set (d := nth (hi + 1 + k) sizes 0%nat). set (P := prodl (firstn k (skipn (hi + 1) sizes))).
    assert (Hd : d <> 0%nat) by (assert (0 < d)%nat by (apply Hp; apply nth_In; lia); lia).
    assert (HP : P <> 0%nat).
    { assert (0 < P)%nat; [|lia]. apply prodl_pos. intros x Hx. apply Hp.
      assert (Hx' : In x (skipn (hi + 1) sizes)) by (rewrite <- (firstn_skipn k (skipn (hi + 1) sizes)); apply in_or_app; left; exact Hx).
      rewrite <- (firstn_skipn (hi + 1) sizes). apply in_or_app. right. exact Hx'. }
    destruct (div_mod_mul r P d HP Hd) as (E1 & E2 & E3). destruct (div_mod_mul c P d HP Hd) as (F1 & F2 & F3).
    rewrite E1, F1. rewrite <- E2, <- F2, <- E3, <- F3.
    set (x := (r mod (P * d))%nat). set (y := (c mod (P * d))%nat). 
    assert (Em : mid (x / d)%nat (y / d)%nat * mid (x mod d)%nat (y mod d)%nat = mid x y).
    { unfold mid. rewrite (Nat.div_mod x d Hd) at 3. rewrite (Nat.div_mod y d Hd) at 3.
      destruct (Nat.eqb_spec (x / d)%nat (y / d)%nat) as [Eq|Nq]; destruct (Nat.eqb_spec (x mod d)%nat (y mod d)%nat) as [Er|Nr];
        destruct (Nat.eqb_spec (d * (x / d) + x mod d)%nat (d * (y / d) + y mod d)%nat) as [Et|Nt]; try ring.
      - exfalso. apply Nt. congruence.
      - exfalso. apply Nr. rewrite Eq in Et. lia.
      - exfalso. apply Nq. apply (f_equal (fun z => (z / d)%nat)) in Et. 
        rewrite !(Nat.mul_comm d), !Nat.div_add_l in Et by exact Hd.
        rewrite (Nat.div_small (x mod d)), (Nat.div_small (y mod d)) in Et by (apply Nat.mod_upper_bound; exact Hd). lia.
      - exfalso. apply Nq. apply (f_equal (fun z => (z / d)%nat)) in Et. 
        rewrite !(Nat.mul_comm d), !Nat.div_add_l in Et by exact Hd.
        rewrite (Nat.div_small (x mod d)), (Nat.div_small (y mod d)) in Et by (apply Nat.mod_upper_bound; exact Hd). lia. }
    rewrite <- Em. ring.
Qed.

(** the whole wrap, entrywise *)
Lemma wrap_entry M pre sl post lo hi A r c :
  let sizes := (pre ++ sl ++ post)%list in
  (forall d, In d sizes -> (0 < d)%nat) -> sl <> [] -> lo = List.length pre -> hi = (lo + List.length sl - 1)%nat ->
  A = fold_left (wrap_step M (prodl sl) lo hi sizes) (seq 0 (List.length sizes)) mid ->
  (r < prodl sizes)%nat -> (c < prodl sizes)%nat ->
  A r c = mid (r / (prodl sl * prodl post))%nat (c / (prodl sl * prodl post))%nat *
          M ((r / prodl post) mod prodl sl)%nat ((c / prodl post) mod prodl sl)%nat *
          mid (r mod prodl post)%nat (c mod prodl post)%nat.
Proof.
  intros sizes Hp Hsl Hlo Hhi HA Hr Hc.
  assert (Hsl1 : (0 < List.length sl)%nat) by (destruct sl; [congruence|cbn; lia]).
  assert (Hlen : List.length sizes = (lo + 1 + (hi - lo) + List.length post)%nat).
  { unfold sizes. rewrite !app_length. lia. }
  assert (Hpost : skipn (hi + 1) sizes = post).
  { unfold sizes. rewrite app_assoc, skipn_app, skipn_all2 by (rewrite app_length; lia).
    rewrite app_length. replace (hi + 1 - (List.length pre + List.length sl))%nat with 0%nat by lia. reflexivity. }
  assert (Hpre : firstn lo sizes = pre) by (unfold sizes; rewrite firstn_app, Hlo, firstn_all, Nat.sub_diag; cbn; apply app_nil_r).
  assert (Ppos : (0 < prodl post)%nat) by (apply prodl_pos; intros; apply Hp; unfold sizes; rewrite !in_app_iff; tauto).
  assert (Spos : (0 < prodl sl)%nat) by (apply prodl_pos; intros; apply Hp; unfold sizes; rewrite !in_app_iff; tauto).
  subst A. rewrite Hlen, fold_left_app_seq, fold_left_app_seq, fold_left_app_seq. cbn [Nat.add].
  rewrite (wrap_mid M (prodl sl) lo hi sizes _ (lo + 1) (hi - lo)) by lia.
  replace (lo + 1 + (hi - lo))%nat with (hi + 1)%nat by lia.
  rewrite wrap_post by (trivial; lia). rewrite Hpost, firstn_all.
  cbn [seq fold_left]. unfold wrap_step at 1. rewrite Nat.eqb_refl.
  set (S := prodl sl) in *. set (P := prodl post) in *.
  assert (Hsz : prodl sizes = (prodl pre * S * P)%nat) by (unfold sizes; rewrite !prodl_app; unfold S, P; lia).
  assert (Hrp : (r / P < prodl pre * S)%nat) by (apply Nat.div_lt_upper_bound; lia).
  assert (Hcp : (c / P < prodl pre * S)%nat) by (apply Nat.div_lt_upper_bound; lia).
  assert (Ed : forall x, (x / (S * P) = x / P / S)%nat) by (intros x; apply (div_mod_mul x S P); lia).
  rewrite !Ed.
  destruct (Nat.eqb_spec lo 0) as [E0|E0].
  - assert (E1 : prodl pre = 1%nat) by (clear -Hlo E0; destruct pre; [reflexivity|cbn in Hlo; lia]). rewrite E1 in Hrp, Hcp.
    rewrite (Nat.div_small (r / P) S), (Nat.div_small (c / P) S) by lia.
    rewrite (Nat.mod_small (r / P) S), (Nat.mod_small (c / P) S) by lia.
    unfold mid at 2. cbn. ring.
  - unfold mkron. rewrite (wrap_pre M S lo hi sizes lo Hp); try lia.
    + ring.
    + rewrite Hpre. apply Nat.div_lt_upper_bound; lia.
    + rewrite Hpre. apply Nat.div_lt_upper_bound; lia.
Qed.
