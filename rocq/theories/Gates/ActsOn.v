(** Consequences of [acts_on]: composition, adjoint, unitarity, commutation, uniqueness. *)
From Coq Require Import List ZArith Arith Lia.
From Verif Require Import Base.Py Base.Cplx Base.Matrix Base.Radix Base.Fiber.
From Verif Require Import Gates.FactoryModel Gates.FactorySpec.
Open Scope C_scope.

Lemma memN_In x l : memN x l = true <-> In x l.
Proof.
  unfold memN. rewrite existsb_exists. split.
  - intros (y & Hy & E). apply Nat.eqb_eq in E. subst. exact Hy.
  - intros H. exists x. split; [exact H|apply Nat.eqb_refl].
Qed.
Lemma memN_not_In x l : memN x l = false <-> ~ In x l.
Proof. rewrite <- memN_In. destruct (memN x l); split; intros; congruence. Qed.
Lemma eqb_listN_spec a b : eqb_listN a b = true <-> a = b.
Proof. unfold eqb_listN. destruct (list_eq_dec Nat.eq_dec a b); split; congruence. Qed.
Lemma eqb_listZ_spec a b : eqb_listZ a b = true <-> a = b.
Proof. unfold eqb_listZ. destruct (list_eq_dec Z.eq_dec a b); split; congruence. Qed.

Definition masked (dims ts : list nat) (r : nat) : list nat :=
  map (fun i => if memN i ts then 0%nat else digit dims r i) (seq 0 (List.length dims)).

Lemma nth_map_seq {A} (f : nat -> A) n i d : (i < n)%nat -> nth i (map f (seq 0 n)) d = f i.
Proof.
  intros H. rewrite (nth_indep _ d (f 0%nat)) by (rewrite map_length, seq_length; exact H).
  rewrite map_nth, seq_nth by exact H. reflexivity.
Qed.
Lemma masked_nth dims ts r i : (i < List.length dims)%nat -> ~ In i ts -> nth i (masked dims ts r) 0%nat = digit dims r i.
Proof.
  intros Hi Hn. unfold masked. rewrite nth_map_seq by exact Hi. apply memN_not_In in Hn. rewrite Hn. reflexivity.
Qed.
Lemma agree_masked dims ts r c : agree_off dims ts r c <-> masked dims ts r = masked dims ts c.
Proof.
  split.
  - intros H. unfold masked. apply map_ext_in. intros i Hi. apply in_seq in Hi.
    destruct (memN i ts) eqn:E; [reflexivity|]. apply memN_not_In in E. apply H; [lia|exact E].
  - intros H i Hi Hn. rewrite <- (masked_nth dims ts r i Hi Hn), H. apply masked_nth; assumption.
Qed.
Lemma agree_refl dims ts r : agree_off dims ts r r.
Proof. intros i _ _. reflexivity. Qed.
Lemma agree_sym dims ts r c : agree_off dims ts r c -> agree_off dims ts c r.
Proof. intros H i Hi Hn. symmetry. apply H; assumption. Qed.
Lemma agree_dec dims ts r c : {agree_off dims ts r c} + {~ agree_off dims ts r c}.
Proof.
  destruct (list_eq_dec Nat.eq_dec (masked dims ts r) (masked dims ts c)) as [E|E].
  - left. apply agree_masked. exact E.
  - right. rewrite agree_masked. exact E.
Qed.
Lemma controls_dec dims cs lv k : {controls_on dims cs lv k} + {~ controls_on dims cs lv k}.
Proof. apply list_eq_dec. apply Z.eq_dec. Qed.

Lemma digit_lt dims k i : (k < prodl dims)%nat -> (i < List.length dims)%nat -> (digit dims k i < nth i dims 0)%nat.
Proof. apply nth_digits_lt. Qed.

Lemma digit_ext dims r c : (r < prodl dims)%nat -> (c < prodl dims)%nat ->
  (forall i, (i < List.length dims)%nat -> digit dims r i = digit dims c i) -> r = c.
Proof.
  intros Hr Hc H. apply (digits_inj dims); [exact Hr|exact Hc|].
  apply list_nth_ext; rewrite !length_digits; [reflexivity|exact H].
Qed.

Lemma sub_valid dims ts k : (k < prodl dims)%nat -> (forall t, In t ts -> (t < List.length dims)%nat) ->
  valid (sub_dims dims ts) (map (digit dims k) ts).
Proof.
  intros Hk. induction ts as [|t ts IH]; intros H; cbn; constructor.
  - apply digit_lt; [exact Hk|]. apply H. left. reflexivity.
  - apply IH. intros; apply H; right; assumption.
Qed.

(** change the digits on ts *)
Fixpoint lookup (i : nat) (ts xs : list nat) : option nat :=
  match ts, xs with t :: r, x :: s => if Nat.eqb i t then Some x else lookup i r s | _, _ => None end.
Lemma lookup_nil i ts xs : ~ In i ts -> lookup i ts xs = None.
Proof.
  revert xs. induction ts as [|t ts IH]; intros [|x xs] H; cbn in *; trivial.
  destruct (Nat.eqb_spec i t) as [->|]; [exfalso; apply H; left; reflexivity|]. apply IH. tauto.
Qed.
Lemma lookup_some dims i ts xs : In i ts -> valid (sub_dims dims ts) xs -> exists x, lookup i ts xs = Some x /\ (x < nth i dims 0)%nat.
Proof.
  revert xs. induction ts as [|t ts IH]; intros xs H Hv; cbn in *; [contradiction|]. inversion Hv; subst.
  destruct (Nat.eqb_spec i t) as [->|Hn].
  - eauto.
  - apply IH; [|assumption]. destruct H; [congruence|assumption].
Qed.
Lemma lookup_map ts xs : NoDup ts -> List.length xs = List.length ts ->
  map (fun i => match lookup i ts xs with Some x => x | None => 0%nat end) ts = xs.
Proof.
  revert xs. induction ts as [|t ts IH]; intros [|x xs] Hnd Hl; cbn in *; try discriminate; [reflexivity|].
  rewrite Nat.eqb_refl. f_equal. inversion Hnd; subst. etransitivity; [|apply (IH xs); [assumption|lia]].
  apply map_ext_in. intros i Hi. destruct (Nat.eqb_spec i t); [subst; contradiction|reflexivity].
Qed.

Definition redigit (dims ts xs : list nat) (r : nat) : nat :=
  undigits dims (map (fun i => match lookup i ts xs with Some x => x | None => digit dims r i end) (seq 0 (List.length dims))).

Lemma redigit_spec dims ts xs r : (r < prodl dims)%nat -> valid (sub_dims dims ts) xs ->
  (redigit dims ts xs r < prodl dims)%nat /\
  forall i, (i < List.length dims)%nat -> digit dims (redigit dims ts xs r) i = match lookup i ts xs with Some x => x | None => digit dims r i end.
Proof.
  intros Hr Hv.
  assert (V : valid dims (map (fun i => match lookup i ts xs with Some x => x | None => digit dims r i end) (seq 0 (List.length dims)))).
  { apply valid_nth; [rewrite map_length, seq_length; reflexivity|]. intros i Hi. rewrite nth_map_seq by exact Hi.
    destruct (in_dec Nat.eq_dec i ts) as [Hin|Hn].
    - destruct (lookup_some dims i ts xs Hin Hv) as (x & -> & Hx). exact Hx.
    - rewrite lookup_nil by exact Hn. apply digit_lt; assumption. }
  split; [apply undigits_lt; exact V|]. intros i Hi. unfold digit at 1, redigit. rewrite digits_undigits by exact V.
  apply nth_map_seq. exact Hi.
Qed.

Lemma acts_fibration dims ts : lines_ok dims ts ->
  fibration (prodl dims) (prodl (sub_dims dims ts)) (masked dims ts) (sub_index dims ts).
Proof.
  intros [Hnd Hb]. split.
  - intros r Hr. apply undigits_lt. apply sub_valid; assumption.
  - intros r c Hr Hc Em Es. apply (digit_ext dims); [exact Hr|exact Hc|]. intros i Hi.
    destruct (in_dec Nat.eq_dec i ts) as [Hin|Hn].
    + assert (E : map (digit dims r) ts = map (digit dims c) ts).
      { rewrite <- (digits_undigits (sub_dims dims ts) (map (digit dims r) ts)) by (apply sub_valid; assumption).
        rewrite <- (digits_undigits (sub_dims dims ts) (map (digit dims c) ts)) by (apply sub_valid; assumption).
        unfold sub_index in Es. rewrite Es. reflexivity. }
      clear -E Hin. induction ts as [|t ts IH]; cbn in *; [contradiction|]. injection E as E1 E2.
      destruct Hin as [->|Hin]; [exact E1|auto].
    + apply agree_masked in Em. apply Em; assumption.
  - intros r k Hr Hk. pose proof (valid_digits _ _ Hk) as Hv.
    destruct (redigit_spec dims ts _ r Hr Hv) as [H1 H2].
    exists (redigit dims ts (digits (sub_dims dims ts) k) r). split; [exact H1|]. split.
    + apply agree_masked. intros i Hi Hn. rewrite H2 by exact Hi. rewrite lookup_nil by exact Hn. reflexivity.
    + unfold sub_index. etransitivity; [|apply (undigits_digits _ _ Hk)]. f_equal.
      etransitivity; [|apply (lookup_map ts _ Hnd); unfold sub_dims; rewrite length_digits, map_length; reflexivity].
      apply map_ext_in. intros i Hi. rewrite H2 by (apply Hb; exact Hi).
      destruct (lookup_some dims i ts _ Hi Hv) as (x & -> & _). reflexivity.
Qed.

(** the block function *)
Definition block (cs : list nat) (lv : list Z) (M : mat) (t : list nat) : mat :=
  if list_eq_dec Z.eq_dec (map (fun c => Z.of_nat (nth c t 0%nat)) cs) lv then M else mid.
Definition off_targets (dims ts cs : list nat) : Prop :=
  forall c, In c cs -> (c < List.length dims)%nat /\ ~ In c ts.

Lemma controls_masked dims ts cs r : off_targets dims ts cs ->
  map (fun c => Z.of_nat (nth c (masked dims ts r) 0%nat)) cs = map (fun c => Z.of_nat (digit dims r c)) cs.
Proof.
  intros H. apply map_ext_in. intros c Hc. destruct (H c Hc). rewrite masked_nth by assumption. reflexivity.
Qed.
Lemma block_on dims ts cs lv M r : off_targets dims ts cs -> controls_on dims cs lv r -> block cs lv M (masked dims ts r) = M.
Proof. intros H Hc. unfold block. rewrite (controls_masked dims) by exact H. destruct (list_eq_dec _ _ _); [reflexivity|contradiction]. Qed.
Lemma block_off dims ts cs lv M r : off_targets dims ts cs -> ~ controls_on dims cs lv r -> block cs lv M (masked dims ts r) = mid.
Proof. intros H Hc. unfold block. rewrite (controls_masked dims) by exact H. destruct (list_eq_dec _ _ _); [contradiction|reflexivity]. Qed.

Lemma mid_sub dims ts r c : lines_ok dims ts -> (r < prodl dims)%nat -> (c < prodl dims)%nat -> agree_off dims ts r c ->
  mid r c = mid (sub_index dims ts r) (sub_index dims ts c).
Proof.
  intros Hl Hr Hc Ha. unfold mid. destruct (Nat.eqb_spec r c) as [->|Hne].
  - rewrite Nat.eqb_refl. reflexivity.
  - destruct (Nat.eqb_spec (sub_index dims ts r) (sub_index dims ts c)) as [E|]; [|reflexivity].
    exfalso. apply Hne. apply (fib_inj _ _ _ _ (acts_fibration dims ts Hl)); trivial. apply agree_masked. exact Ha.
Qed.

Lemma acts_on_fmat dims ts cs lv M A : lines_ok dims ts -> off_targets dims ts cs ->
  (acts_on dims ts cs lv M A <->
   meq (prodl dims) A (fmat eqb_listN (masked dims ts) (sub_index dims ts) (block cs lv M))).
Proof.
  intros Hl Ho. split.
  - intros [H1 H2 H3] r c Hr Hc. unfold fmat.
    destruct (agree_dec dims ts r c) as [Ha|Ha].
    + pose proof (proj1 (agree_masked _ _ _ _) Ha) as E. rewrite (proj2 (eqb_listN_spec _ _) E).
      destruct (controls_dec dims cs lv r) as [Hon|Hoff].
      * rewrite (block_on dims) by assumption. apply H1; assumption.
      * rewrite (block_off dims) by assumption. rewrite <- mid_sub by assumption. apply H2; assumption.
    + destruct (eqb_listN _ _) eqn:E; [apply eqb_listN_spec in E; apply agree_masked in E; contradiction|].
      apply H3; assumption.
  - intros H. split; intros r c Hr Hc Ha; rewrite H by assumption; unfold fmat.
    + intros Hon. rewrite (proj2 (eqb_listN_spec _ _) (proj1 (agree_masked _ _ _ _) Ha)).
      rewrite (block_on dims) by assumption. reflexivity.
    + intros Hoff. rewrite (proj2 (eqb_listN_spec _ _) (proj1 (agree_masked _ _ _ _) Ha)).
      rewrite (block_off dims) by assumption. symmetry. apply mid_sub; assumption.
    + destruct (eqb_listN _ _) eqn:E; [|reflexivity]. apply eqb_listN_spec in E. apply agree_masked in E. contradiction.
Qed.

Lemma acts_unique dims ts cs lv M A B : lines_ok dims ts -> off_targets dims ts cs ->
  acts_on dims ts cs lv M A -> acts_on dims ts cs lv M B -> meq (prodl dims) A B.
Proof.
  intros Hl Ho H1 H2. apply (acts_on_fmat dims ts cs lv M _ Hl Ho) in H1, H2.
  eapply meq_trans; [exact H1|apply meq_sym; exact H2].
Qed.
Lemma acts_ext dims ts cs lv M M' A A' : lines_ok dims ts -> off_targets dims ts cs ->
  meq (prodl (sub_dims dims ts)) M M' -> meq (prodl dims) A A' ->
  acts_on dims ts cs lv M A -> acts_on dims ts cs lv M' A'.
Proof.
  intros Hl Ho HM HA H. apply (acts_on_fmat _ _ _ _ _ _ Hl Ho). apply (acts_on_fmat _ _ _ _ _ _ Hl Ho) in H.
  eapply meq_trans; [apply meq_sym; exact HA|]. eapply meq_trans; [exact H|].
  apply (fmat_ext eqb_listN _ _ _ _ (acts_fibration dims ts Hl)). intros t _. unfold block. destruct (list_eq_dec _ _ _); [exact HM|apply meq_refl].
Qed.
Lemma acts_mul dims ts cs lv M1 M2 A1 A2 : lines_ok dims ts -> off_targets dims ts cs ->
  acts_on dims ts cs lv M1 A1 -> acts_on dims ts cs lv M2 A2 ->
  acts_on dims ts cs lv (mmul (prodl (sub_dims dims ts)) M1 M2) (mmul (prodl dims) A1 A2).
Proof.
  intros Hl Ho H1 H2. apply (acts_on_fmat _ _ _ _ _ _ Hl Ho) in H1, H2. apply (acts_on_fmat _ _ _ _ _ _ Hl Ho).
  eapply meq_trans; [apply mmul_ext; eassumption|].
  eapply meq_trans; [apply (fmat_mul eqb_listN eqb_listN_spec _ _ _ _ (acts_fibration dims ts Hl))|].
  apply (fmat_ext eqb_listN _ _ _ _ (acts_fibration dims ts Hl)). intros t _. unfold block.
  destruct (list_eq_dec _ _ _); [apply meq_refl|apply mmul_id_l].
Qed.
Lemma acts_id dims ts cs lv : lines_ok dims ts -> off_targets dims ts cs -> acts_on dims ts cs lv mid mid.
Proof.
  intros Hl Ho. apply (acts_on_fmat _ _ _ _ _ _ Hl Ho). apply meq_sym.
  eapply meq_trans; [|apply (fmat_id eqb_listN eqb_listN_spec _ _ _ _ (acts_fibration dims ts Hl))].
  apply (fmat_ext eqb_listN _ _ _ _ (acts_fibration dims ts Hl)). intros t _. unfold block.
  destruct (list_eq_dec _ _ _); apply meq_refl.
Qed.
Lemma acts_adj dims ts cs lv M A : lines_ok dims ts -> off_targets dims ts cs ->
  acts_on dims ts cs lv M A -> acts_on dims ts cs lv (madj M) (madj A).
Proof.
  intros Hl Ho H. apply (acts_on_fmat _ _ _ _ _ _ Hl Ho) in H. apply (acts_on_fmat _ _ _ _ _ _ Hl Ho).
  eapply meq_trans; [apply madj_ext; exact H|].
  eapply meq_trans; [apply (fmat_adj eqb_listN eqb_listN_spec)|].
  apply (fmat_ext eqb_listN _ _ _ _ (acts_fibration dims ts Hl)). intros t _. unfold block.
  destruct (list_eq_dec _ _ _); [apply meq_refl|apply madj_id].
Qed.
Lemma acts_unitary dims ts cs lv M A : lines_ok dims ts -> off_targets dims ts cs ->
  acts_on dims ts cs lv M A -> unitary (prodl (sub_dims dims ts)) M -> unitary (prodl dims) A.
Proof.
  intros Hl Ho H HM. apply (acts_on_fmat _ _ _ _ _ _ Hl Ho) in H.
  eapply unitary_ext; [apply meq_sym; exact H|].
  apply (fmat_unitary eqb_listN eqb_listN_spec _ _ _ _ (acts_fibration dims ts Hl)). intros t _. unfold block.
  destruct (list_eq_dec _ _ _); [exact HM|apply unitary_id].
Qed.

(** *** commutation *)
Definition gmat (dims cs : list nat) (lv : list Z) (M : mat) (r : nat) : mat :=
  if controls_dec dims cs lv r then M else mid.
Lemma acts_entry dims ts cs lv M A r c : lines_ok dims ts -> acts_on dims ts cs lv M A ->
  (r < prodl dims)%nat -> (c < prodl dims)%nat -> agree_off dims ts r c ->
  A r c = gmat dims cs lv M r (sub_index dims ts r) (sub_index dims ts c).
Proof.
  intros Hl H Hr Hc Ha. unfold gmat. destruct (controls_dec dims cs lv r) as [Hon|Hoff].
  - apply (ao_active _ _ _ _ _ _ H); assumption.
  - rewrite (ao_idle _ _ _ _ _ _ H r c) by assumption. apply mid_sub; assumption.
Qed.
Lemma controls_agree dims ts cs lv r c : off_targets dims ts cs -> agree_off dims ts r c ->
  (controls_on dims cs lv r <-> controls_on dims cs lv c).
Proof.
  intros Ho Ha. unfold controls_on.
  assert (E : map (fun x => Z.of_nat (digit dims r x)) cs = map (fun x => Z.of_nat (digit dims c x)) cs).
  { apply map_ext_in. intros x Hx. destruct (Ho x Hx). rewrite (Ha x) by assumption. reflexivity. }
  rewrite E. reflexivity.
Qed.
Lemma gmat_agree dims ts cs lv M r c : off_targets dims ts cs -> agree_off dims ts r c ->
  gmat dims cs lv M r = gmat dims cs lv M c.
Proof.
  intros Ho Ha. unfold gmat. pose proof (controls_agree dims ts cs lv r c Ho Ha).
  destruct (controls_dec dims cs lv r), (controls_dec dims cs lv c); tauto.
Qed.
Lemma sub_agree dims ts ts' r c : (forall t, In t ts -> (t < List.length dims)%nat /\ ~ In t ts') -> agree_off dims ts' r c ->
  sub_index dims ts r = sub_index dims ts c.
Proof.
  intros H Ha. unfold sub_index. f_equal. apply map_ext_in. intros t Ht. destruct (H t Ht). apply Ha; assumption.
Qed.

(** the intermediate state: digits of c on ts1, of r elsewhere *)
Lemma acts_prod_entry dims ts1 cs1 lv1 M1 A1 ts2 cs2 lv2 M2 A2 r c :
  lines_ok dims ts1 -> off_targets dims ts1 cs1 -> lines_ok dims ts2 -> off_targets dims ts2 cs2 ->
  (forall t, In t ts1 -> ~ In t ts2) -> (forall t, In t ts1 -> ~ In t cs2) -> (forall t, In t ts2 -> ~ In t cs1) ->
  acts_on dims ts1 cs1 lv1 M1 A1 -> acts_on dims ts2 cs2 lv2 M2 A2 ->
  (r < prodl dims)%nat -> (c < prodl dims)%nat ->
  mmul (prodl dims) A1 A2 r c =
  if agree_dec dims (ts1 ++ ts2) r c
  then gmat dims cs1 lv1 M1 r (sub_index dims ts1 r) (sub_index dims ts1 c) *
       gmat dims cs2 lv2 M2 r (sub_index dims ts2 r) (sub_index dims ts2 c)
  else C0.
Proof.
  intros Hl1 Ho1 Hl2 Ho2 D1 D2 D3 H1 H2 Hr Hc.
  set (xs := map (digit dims c) ts1).
  assert (Hv : valid (sub_dims dims ts1) xs) by (apply sub_valid; [exact Hc|apply Hl1]).
  destruct (redigit_spec dims ts1 xs r Hr Hv) as [Hk Hkd]. set (k := redigit dims ts1 xs r) in *.
  assert (Hlook : forall i, In i ts1 -> lookup i ts1 xs = Some (digit dims c i)).
  { unfold xs. clear. induction ts1 as [|t ts IH]; intros i Hi; cbn in *; [contradiction|].
    destruct (Nat.eqb_spec i t) as [->|]; [reflexivity|]. apply IH. destruct Hi; congruence. }
  assert (Kon : forall i, In i ts1 -> digit dims k i = digit dims c i).
  { intros i Hi. rewrite Hkd by (apply Hl1; exact Hi). rewrite Hlook by exact Hi. reflexivity. }
  assert (Koff : agree_off dims ts1 k r).
  { intros i Hi Hn. rewrite Hkd by exact Hi. rewrite lookup_nil by exact Hn. reflexivity. }
  destruct (agree_dec dims (ts1 ++ ts2) r c) as [Ha|Ha].
  - unfold mmul. rewrite (csum_single _ _ k Hk).
    + assert (Krc : agree_off dims ts2 k c).
      { intros i Hi Hn. destruct (in_dec Nat.eq_dec i ts1) as [Hin|Hn1]; [apply Kon; exact Hin|].
        rewrite (Koff i Hi Hn1). apply Ha; [exact Hi|]. rewrite in_app_iff. tauto. }
      rewrite (acts_entry dims ts1 cs1 lv1 M1 A1) by (assumption || apply agree_sym; assumption).
      rewrite (acts_entry dims ts2 cs2 lv2 M2 A2) by assumption.
      assert (E1 : sub_index dims ts1 k = sub_index dims ts1 c).
      { unfold sub_index. f_equal. apply map_ext_in. exact Kon. }
      assert (E2 : sub_index dims ts2 k = sub_index dims ts2 r).
      { apply (sub_agree dims ts2 ts1); [|exact Koff]. intros t Ht. split; [apply Hl2; exact Ht|]. intros Hin. exact (D1 t Hin Ht). }
      rewrite E1, E2. rewrite (gmat_agree dims ts1 cs2 lv2 M2 k r); [reflexivity| |exact Koff].
      intros x Hx. split; [apply Ho2; exact Hx|]. intros Hin. exact (D2 x Hin Hx).
    + intros k' Hk' Hne. destruct (agree_dec dims ts1 r k') as [A|A].
      * destruct (agree_dec dims ts2 k' c) as [B|B].
        -- exfalso. apply Hne. apply (digit_ext dims); [exact Hk'|exact Hk|]. intros i Hi.
           destruct (in_dec Nat.eq_dec i ts1) as [Hin|Hn].
           ++ rewrite (Kon i Hin). apply B; [exact Hi|]. apply D1. exact Hin.
           ++ rewrite (Koff i Hi Hn). symmetry. apply A; assumption.
        -- rewrite (ao_off _ _ _ _ _ _ H2 k' c) by assumption. ring.
      * rewrite (ao_off _ _ _ _ _ _ H1 r k') by assumption. ring.
  - apply csum_0. intros k' Hk'. destruct (agree_dec dims ts1 r k') as [A|A].
    + destruct (agree_dec dims ts2 k' c) as [B|B].
      * exfalso. apply Ha. intros i Hi Hn. rewrite in_app_iff in Hn. rewrite (A i Hi) by tauto. apply B; tauto.
      * rewrite (ao_off _ _ _ _ _ _ H2 k' c) by assumption. ring.
    + rewrite (ao_off _ _ _ _ _ _ H1 r k') by assumption. ring.
Qed.

Lemma acts_commute dims ts1 cs1 lv1 M1 A1 ts2 cs2 lv2 M2 A2 :
  lines_ok dims ts1 -> off_targets dims ts1 cs1 -> lines_ok dims ts2 -> off_targets dims ts2 cs2 ->
  (forall t, In t ts1 -> ~ In t ts2) -> (forall t, In t ts1 -> ~ In t cs2) -> (forall t, In t ts2 -> ~ In t cs1) ->
  acts_on dims ts1 cs1 lv1 M1 A1 -> acts_on dims ts2 cs2 lv2 M2 A2 ->
  meq (prodl dims) (mmul (prodl dims) A1 A2) (mmul (prodl dims) A2 A1).
Proof.
  intros Hl1 Ho1 Hl2 Ho2 D1 D2 D3 H1 H2 r c Hr Hc.
  rewrite (acts_prod_entry dims ts1 cs1 lv1 M1 A1 ts2 cs2 lv2 M2 A2) by assumption.
  rewrite (acts_prod_entry dims ts2 cs2 lv2 M2 A2 ts1 cs1 lv1 M1 A1); try assumption.
  - destruct (agree_dec dims (ts1 ++ ts2) r c) as [A|A], (agree_dec dims (ts2 ++ ts1) r c) as [B|B]; try ring.
    + exfalso. apply B. intros i Hi Hn. apply A; [exact Hi|]. rewrite in_app_iff in *. tauto.
    + exfalso. apply A. intros i Hi Hn. apply B; [exact Hi|]. rewrite in_app_iff in *. tauto.
  - intros t Ht Ht1. exact (D1 t Ht1 Ht).
Qed.
