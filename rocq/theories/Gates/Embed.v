From Coq Require Import List ZArith Arith Lia Sorted.
From Verif Require Import Base.Py Base.Cplx Base.Matrix Base.Radix Base.Fiber.
From Verif Require Import Circuit.GateModel Gates.FactoryModel Gates.FactorySpec Gates.ActsOn Gates.FactoryProofs.
Open Scope C_scope.

Definition unshift (lo : nat) (l : list nat) : list nat := map (fun q => (lo + q)%nat) l.

Lemma split_index S P r : (S <> 0)%nat -> (P <> 0)%nat -> r = ((r / (S * P)) * (S * P) + ((r / P) mod S * P + r mod P))%nat.
Proof.
  intros HS HP. destruct (div_mod_mul r S P HS HP) as (E1 & E2 & E3).
  rewrite (Nat.div_mod r (S * P)) at 1 by nia.
  rewrite (Nat.div_mod (r mod (S * P)) P) at 1 by exact HP. rewrite E2, E3. lia.
Qed.

Lemma skipn_skipn {A} (l : list A) a b : skipn a (skipn b l) = skipn (b + a) l.
Proof. revert l. induction b as [|b IH]; intros l; [reflexivity|]. destruct l as [|x l]; [cbn; apply skipn_nil|apply IH]. Qed.
Lemma last_In (x : nat) l : In (last (x :: l) 0%nat) (x :: l).
Proof. revert x. induction l as [|y l IH]; intros x; [left; reflexivity|]. right. apply (IH y). Qed.

Section Lift.
Variables (pre sl post : list nat).
Let sizes := (pre ++ sl ++ post)%list.
Let lo := List.length pre.
Let S := prodl sl.
Let P := prodl post.
Hypothesis Hpos : forall d, In d sizes -> (0 < d)%nat.

Let r1 (r : nat) := (r / (S * P))%nat.
Let r2 (r : nat) := ((r / P) mod S)%nat.
Let r3 (r : nat) := (r mod P)%nat.

Lemma lift_S : (S <> 0)%nat.
Proof. assert (0 < S)%nat; [|lia]. apply prodl_pos. intros; apply Hpos. unfold sizes. rewrite !in_app_iff. tauto. Qed.
Lemma lift_P : (P <> 0)%nat.
Proof. assert (0 < P)%nat; [|lia]. apply prodl_pos. intros; apply Hpos. unfold sizes. rewrite !in_app_iff. tauto. Qed.
Lemma lift_sizes : prodl sizes = (prodl pre * (S * P))%nat.
Proof. unfold sizes. rewrite !prodl_app. reflexivity. Qed.
Lemma r1_lt r : (r < prodl sizes)%nat -> (r1 r < prodl pre)%nat.
Proof. rewrite lift_sizes. intros H. apply Nat.div_lt_upper_bound; [pose proof lift_S; pose proof lift_P; nia|lia]. Qed.
Lemma r2_lt r : (r2 r < S)%nat.
Proof. apply Nat.mod_upper_bound. apply lift_S. Qed.
Lemma r3_lt r : (r3 r < P)%nat.
Proof. apply Nat.mod_upper_bound. apply lift_P. Qed.
Lemma lift_digits r : (r < prodl sizes)%nat -> digits sizes r = (digits pre (r1 r) ++ digits sl (r2 r) ++ digits post (r3 r))%list.
Proof.
  intros H. rewrite (split_index S P r lift_S lift_P) at 1. unfold sizes.
  replace (S * P)%nat with (prodl (sl ++ post)) by (rewrite prodl_app; reflexivity).
  rewrite digits_app.
  - rewrite prodl_app. f_equal. apply digits_app; [apply r2_lt|apply r3_lt].
  - rewrite prodl_app. apply r1_lt. exact H.
  - rewrite prodl_app. pose proof (r2_lt r). pose proof (r3_lt r). unfold r2, r3, S, P in *. nia.
Qed.
Lemma lift_digit_pre r i : (r < prodl sizes)%nat -> (i < lo)%nat -> digit sizes r i = digit pre (r1 r) i.
Proof. intros H Hi. unfold digit. rewrite lift_digits by exact H. rewrite app_nth1; [reflexivity|]. rewrite length_digits. exact Hi. Qed.
Lemma lift_digit_sl r i : (r < prodl sizes)%nat -> (i < List.length sl)%nat -> digit sizes r (lo + i) = digit sl (r2 r) i.
Proof.
  intros H Hi. unfold digit. rewrite lift_digits by exact H. rewrite app_nth2; rewrite length_digits; fold lo; [|lia].
  replace (lo + i - lo)%nat with i by lia. rewrite app_nth1; [reflexivity|]. rewrite length_digits. exact Hi.
Qed.
Lemma lift_digit_post r i : (r < prodl sizes)%nat -> digit sizes r (lo + (List.length sl + i)) = digit post (r3 r) i.
Proof.
  intros H. unfold digit. rewrite lift_digits by exact H. rewrite app_nth2; rewrite length_digits; fold lo; [|lia].
  replace (lo + (List.length sl + i) - lo)%nat with (List.length sl + i)%nat by lia. rewrite app_nth2; rewrite length_digits; [|lia].
  f_equal. lia.
Qed.

Variables (ts cs : list nat) (lv : list Z).
Hypothesis Hts : forall t, In t ts -> (t < List.length sl)%nat.
Hypothesis Hcs : forall t, In t cs -> (t < List.length sl)%nat.

Lemma lift_agree r c : (r < prodl sizes)%nat -> (c < prodl sizes)%nat ->
  (agree_off sizes (unshift lo ts) r c <-> r1 r = r1 c /\ r3 r = r3 c /\ agree_off sl ts (r2 r) (r2 c)).
Proof.
  intros Hr Hc. split.
  - intros H. repeat split.
    + apply (digit_ext pre); [apply r1_lt; exact Hr|apply r1_lt; exact Hc|]. intros i Hi.
      rewrite <- !lift_digit_pre by assumption. apply H; [unfold sizes; rewrite app_length; lia|].
      unfold unshift. rewrite in_map_iff. intros (q & Eq & _). unfold lo in *. lia.
    + apply (digit_ext post); [apply r3_lt|apply r3_lt|]. intros i Hi.
      rewrite <- !lift_digit_post by assumption. apply H; [unfold sizes; rewrite !app_length; unfold lo; lia|].
      unfold unshift. rewrite in_map_iff. intros (q & Eq & Hq). apply Hts in Hq. lia.
    + intros i Hi Hn. rewrite <- !lift_digit_sl by assumption. apply H; [unfold sizes; rewrite !app_length; unfold lo; lia|].
      unfold unshift. rewrite in_map_iff. intros (q & Eq & Hq). apply Hn. replace i with q by lia. exact Hq.
  - intros (H1 & H3 & H2) i Hi Hn.
    destruct (lt_dec i lo) as [Hl|Hl]; [rewrite !lift_digit_pre, H1 by assumption; reflexivity|].
    destruct (lt_dec i (lo + List.length sl)) as [Hm|Hm].
    + replace i with (lo + (i - lo))%nat by lia. rewrite !lift_digit_sl by (assumption || lia). apply H2; [lia|].
      intros Hin. apply Hn. unfold unshift. rewrite in_map_iff. exists (i - lo)%nat. split; [lia|exact Hin].
    + replace i with (lo + (List.length sl + (i - lo - List.length sl)))%nat by lia.
      rewrite !lift_digit_post, H3 by assumption. reflexivity.
Qed.
Lemma lift_controls r : (r < prodl sizes)%nat -> (controls_on sizes (unshift lo cs) lv r <-> controls_on sl cs lv (r2 r)).
Proof.
  intros Hr. unfold controls_on, unshift. rewrite map_map.
  assert (E : map (fun x => Z.of_nat (digit sizes r (lo + x))) cs = map (fun c => Z.of_nat (digit sl (r2 r) c)) cs).
  { apply map_ext_in. intros x Hx. rewrite lift_digit_sl by auto. reflexivity. }
  rewrite E. reflexivity.
Qed.
Lemma lift_sub r : (r < prodl sizes)%nat -> sub_index sizes (unshift lo ts) r = sub_index sl ts (r2 r).
Proof.
  intros Hr. unfold sub_index, sub_dims, unshift. rewrite !map_map. f_equal.
  - apply map_ext_in. intros t Ht. apply Hts in Ht. unfold sizes. rewrite app_nth2 by (unfold lo; lia).
    replace (lo + t - List.length pre)%nat with t by (unfold lo; lia). apply app_nth1. exact Ht.
  - apply map_ext_in. intros t Ht. apply lift_digit_sl; auto.
Qed.

Lemma acts_lift M B W : acts_on sl ts cs lv M B ->
  (forall r c, (r < prodl sizes)%nat -> (c < prodl sizes)%nat -> W r c = mid (r1 r) (r1 c) * B (r2 r) (r2 c) * mid (r3 r) (r3 c)) ->
  acts_on sizes (unshift lo ts) (unshift lo cs) lv M W.
Proof.
  intros [H1 H2 H3] HW. split; intros r c Hr Hc Ha; rewrite HW by assumption.
  - intros Hon. apply lift_agree in Ha; trivial. destruct Ha as (E1 & E3 & E2). apply lift_controls in Hon; trivial.
    rewrite E1, E3. unfold mid. rewrite !Nat.eqb_refl. rewrite !lift_sub by assumption.
    rewrite (H1 (r2 r) (r2 c)) by (apply r2_lt || assumption). ring.
  - intros Hoff. apply lift_agree in Ha; trivial. destruct Ha as (E1 & E3 & E2). rewrite lift_controls in Hoff by assumption.
    rewrite E1, E3. unfold mid at 1 2. rewrite !Nat.eqb_refl.
    rewrite (H2 (r2 r) (r2 c)) by (apply r2_lt || assumption).
    unfold mid. destruct (Nat.eqb_spec r c) as [->|Hne]; [rewrite Nat.eqb_refl; ring|].
    destruct (Nat.eqb_spec (r2 r) (r2 c)) as [E|]; [|ring]. exfalso. apply Hne.
    rewrite (split_index S P r lift_S lift_P), (split_index S P c lift_S lift_P).
    unfold r1, r2, r3 in *. congruence.
  - rewrite lift_agree in Ha by assumption. unfold mid at 1 2.
    destruct (Nat.eqb_spec (r1 r) (r1 c)) as [E1|]; [|ring]. destruct (Nat.eqb_spec (r3 r) (r3 c)) as [E3|]; [|ring].
    rewrite (H3 (r2 r) (r2 c)) by (apply r2_lt || tauto). ring.
Qed.
End Lift.

Lemma unshift_shift lo l : (forall q, In q l -> (lo <= q)%nat) -> unshift lo (shift lo l) = l.
Proof.
  intros H. unfold unshift, shift. rewrite map_map. rewrite <- (map_id l) at 2. apply map_ext_in. intros q Hq. specialize (H q Hq). lia.
Qed.

(** *** generate_matrix *)
Definition lines_of (g : gate mat) : list nat := (control_nats g ++ target_nats g)%list.
Definition lo_of (g : gate mat) : nat := match lines_of g with [] => 0%nat | x :: l => minl x l end.
Definition hi_of (g : gate mat) : nat := match lines_of g with [] => 0%nat | x :: l => maxl x l end.
Definition slice_of (dims : list nat) (g : gate mat) : list nat := firstn (hi_of g + 1 - lo_of g) (skipn (lo_of g) dims).

Lemma lines_control g : map Z.to_nat (control_lines g ++ target_lines g) = lines_of g.
Proof.
  unfold lines_of, control_nats, control_lines, target_nats. rewrite map_app. destruct (g_controls g) as [[c l]|]; reflexivity.
Qed.
Definition final_ctl (g : gate mat) : option (list nat * list Z) :=
  match g_controls g with Some (cs, lv) => Some (map Z.to_nat cs, lv) | None => None end.

Lemma generate_unfold dims ids g : target_lines g <> [] ->
  generate_matrix dims ids g =
  (let n := (hi_of g + 1 - lo_of g)%nat in
   let? B := match final_ctl g with
             | Some x => apply_ids_ctrl (core g) (target_nats g) (slice_of dims g) (seq (lo_of g) n) (Some x)
             | None => if Nat.ltb 0 ids then apply_ids_ctrl (core g) (target_nats g) (slice_of dims g) (seq (lo_of g) n) None else Ok (core g)
             end in
   if Nat.leb 2 ids then wrap_in_identities B (prodl (slice_of dims g)) (lines_of g) dims else Ok B).
Proof.
  intros Hne. unfold generate_matrix, reference_lines.
  destruct (control_lines g ++ target_lines g)%list as [|z zl] eqn:E.
  { apply app_eq_nil in E. destruct E. congruence. }
  cbn [bindr]. pose proof (lines_control g) as El. rewrite E in El. cbn [map] in El.
  unfold slice_of, hi_of, lo_of. cbn [map]. rewrite <- El. cbn zeta. unfold final_ctl, core, target_nats.
  destruct (g_controls g) as [[cs lv]|]; reflexivity.
Qed.

Section Gen.
Variables (dims : list nat) (g : gate mat).
Hypothesis Hwp : well_placed dims g.
Let n := (hi_of g + 1 - lo_of g)%nat.

Lemma gen_ts_ne : target_lines g <> [].
Proof. apply Hwp. Qed.
Lemma gen_tn_ne : target_nats g <> [].
Proof. unfold target_nats. intros E. apply map_eq_nil in E. exact (gen_ts_ne E). Qed.
Lemma gen_lines_range q : In q (lines_of g) -> (lo_of g <= q <= hi_of g)%nat /\ (q < List.length dims)%nat.
Proof.
  intros H. split.
  - unfold lo_of, hi_of. destruct (lines_of g) as [|x l] eqn:E; [contradiction|].
    split; [apply minl_spec; exact H|apply maxl_spec; exact H].
  - destruct Hwp as (_ & _ & Ht & Hc). unfold lines_of in H. apply in_app_iff in H. destruct H as [H|H].
    + unfold control_nats in H. destruct (g_controls g) as [[cs lv]|]; [|contradiction]. apply in_map_iff in H.
      destruct H as (z & <- & Hz). destruct (proj2 Hc z Hz) as [Hb _]. lia.
    + unfold target_nats in H. apply in_map_iff in H. destruct H as (z & <- & Hz). specialize (Ht z Hz). lia.
Qed.
Lemma gen_lo_hi : (lo_of g <= hi_of g)%nat /\ (hi_of g < List.length dims)%nat /\ In (lo_of g) (lines_of g) /\ In (hi_of g) (lines_of g).
Proof.
  assert (Hl : lines_of g <> []).
  { unfold lines_of. intros E. apply app_eq_nil in E. apply gen_tn_ne. apply E. }
  assert (H1 : In (lo_of g) (lines_of g)) by (unfold lo_of; destruct (lines_of g) as [|x l]; [congruence|apply minl_spec]).
  assert (H2 : In (hi_of g) (lines_of g)) by (unfold hi_of; destruct (lines_of g) as [|x l]; [congruence|apply maxl_spec]).
  repeat split; try assumption.
  - apply gen_lines_range. exact H1.
  - apply gen_lines_range. exact H2.
Qed.
Lemma gen_slice_len : List.length (slice_of dims g) = n.
Proof. unfold slice_of. rewrite firstn_length, skipn_length. pose proof gen_lo_hi. fold n. unfold n in *. lia. Qed.
Lemma gen_n_pos : (0 < n)%nat.
Proof. unfold n. pose proof gen_lo_hi. lia. Qed.
Lemma gen_ts_nodup : NoDup (target_nats g).
Proof.
  destruct Hwp as (_ & Hnd & Ht & _). unfold target_nats. revert Ht. induction Hnd as [|z l Hz Hl IH]; intros Ht; cbn; constructor.
  - rewrite in_map_iff. intros (y & Ey & Hy). pose proof (Ht z (or_introl eq_refl)). pose proof (Ht y (or_intror Hy)).
    assert (y = z) by lia. subst. contradiction.
  - apply IH. intros; apply Ht; right; assumption.
Qed.
Lemma gen_ts_range q : In q (target_nats g) -> (lo_of g <= q < lo_of g + n)%nat.
Proof.
  intros H. assert (Hq : In q (lines_of g)) by (apply in_or_app; right; exact H). apply gen_lines_range in Hq. unfold n. lia.
Qed.
Lemma gen_cs_range q : In q (control_nats g) -> (lo_of g <= q < lo_of g + n)%nat /\ ~ In q (target_nats g).
Proof.
  intros H. assert (Hq : In q (lines_of g)) by (apply in_or_app; left; exact H). apply gen_lines_range in Hq.
  split; [unfold n; lia|]. destruct Hwp as (_ & _ & Ht & Hc). unfold control_nats in H.
  destruct (g_controls g) as [[cs lv]|]; [|contradiction]. apply in_map_iff in H. destruct H as (z & <- & Hz).
  destruct (proj2 Hc z Hz) as [Hb Hn]. unfold target_nats. rewrite in_map_iff. intros (y & Ey & Hy). apply Hn.
  specialize (Ht y Hy). replace z with y by lia. exact Hy.
Qed.
Lemma gen_ctl : match final_ctl g with
  | Some (cs, lv) => cs <> [] /\ forall q, In q cs -> (lo_of g <= q < lo_of g + n)%nat /\ ~ In q (target_nats g)
  | None => True end.
Proof.
  pose proof gen_cs_range as H. unfold final_ctl. unfold control_nats in H. destruct Hwp as (_ & _ & _ & Hc).
  destruct (g_controls g) as [[cs lv]|]; [|exact I]. split; [apply map_nonempty; apply Hc|exact H].
Qed.
Lemma gen_final_cs : match final_ctl g with Some (cs, _) => cs | None => [] end = control_nats g.
Proof. unfold final_ctl, control_nats. destruct (g_controls g) as [[c l]|]; reflexivity. Qed.
Lemma gen_final_lv : match final_ctl g with Some (_, lv) => lv | None => [] end = control_levels g.
Proof. unfold final_ctl, control_levels. destruct (g_controls g) as [[c l]|]; reflexivity. Qed.

(** inside the slice *)
Lemma gen_local ids A : (ids < 2)%nat -> (ids = 1%nat \/ g_controls g <> None) -> generate_matrix dims ids g = Ok A ->
  acts_on (slice_of dims g) (shift (lo_of g) (sortN (target_nats g))) (shift (lo_of g) (control_nats g)) (control_levels g) (core g) A.
Proof.
  intros Hi Hid H. rewrite generate_unfold in H by apply gen_ts_ne. cbn zeta in H. fold n in H.
  rewrite (proj2 (Nat.leb_gt 2 ids)) in H by lia. pose proof gen_ctl as Hc.
  rewrite <- gen_final_cs, <- gen_final_lv.
  assert (H' : apply_ids_ctrl (core g) (target_nats g) (slice_of dims g) (seq (lo_of g) n) (final_ctl g) = Ok A).
  { unfold final_ctl in *. destruct (g_controls g) as [[cs lv]|].
    - destruct (apply_ids_ctrl _ _ _ _ _); [exact H|discriminate].
    - destruct Hid as [->|]; [|congruence]. cbn [Nat.ltb Nat.leb] in H. destruct (apply_ids_ctrl _ _ _ _ _); [exact H|discriminate]. }
  eapply apply_sound; [apply gen_slice_len|apply gen_n_pos|apply gen_ts_nodup|apply gen_tn_ne|apply gen_ts_range|exact Hc|exact H'].
Qed.
Lemma gen_bare : g_controls g = None -> generate_matrix dims 0 g = Ok (core g).
Proof.
  intros H. rewrite generate_unfold by apply gen_ts_ne. unfold final_ctl. rewrite H. reflexivity.
Qed.

Lemma gen_wrap_ok B : wrap_in_identities B (prodl (slice_of dims g)) (lines_of g) dims =
  Ok (fold_left (wrap_step B (prodl (slice_of dims g)) (lo_of g) (hi_of g) dims) (seq 0 (List.length dims)) mid).
Proof.
  unfold wrap_in_identities. destruct (existsb _ _) eqn:E.
  { exfalso. apply existsb_exists in E. destruct E as (x & Hx & Hl). rewrite In_sortN in Hx. apply gen_lines_range in Hx.
    apply Nat.leb_le in Hl. lia. }
  destruct gen_lo_hi as (H1 & H2 & H3 & H4).
  destruct (sortN (lines_of g)) as [|x l] eqn:Es.
  { exfalso. rewrite <- (In_sortN (lo_of g)) in H3. rewrite Es in H3. contradiction. }
  pose proof (sortN_sorted (lines_of g)) as Hs. rewrite Es in Hs.
  assert (Hx : x = lo_of g).
  { assert (In x (lines_of g)) by (rewrite <- In_sortN, Es; left; reflexivity). apply gen_lines_range in H.
    rewrite <- (In_sortN (lo_of g)), Es in H3. destruct H3 as [|H3]; [assumption|].
    inversion Hs as [|? ? _ Hf]; subst. rewrite Forall_forall in Hf. specialize (Hf _ H3). lia. }
  assert (Hl : last (x :: l) 0%nat = hi_of g).
  { assert (Hin : In (last (x :: l) 0%nat) (lines_of g)).
    { rewrite <- In_sortN, Es. apply last_In. }
    apply gen_lines_range in Hin.
    rewrite <- (In_sortN (hi_of g)), Es in H4.
    assert (Hle : forall a k, StronglySorted le a -> In k a -> (k <= last a 0)%nat).
    { clear. intros a k Hs. induction Hs as [|z a Ha IH Hz]; intros Hk; [contradiction|].
      destruct a as [|w a]; [destruct Hk as [->|[]]; cbn; lia|]. change (last (z :: w :: a) 0%nat) with (last (w :: a) 0%nat).
      destruct Hk as [->|Hk]; [|auto]. rewrite Forall_forall in Hz. apply Hz. apply last_In. }
    pose proof (Hle _ _ Hs H4). lia. }
  rewrite Hx in *. rewrite Hl. reflexivity.
Qed.

Lemma gen_split : dims = (firstn (lo_of g) dims ++ slice_of dims g ++ skipn (hi_of g + 1) dims)%list.
Proof.
  destruct gen_lo_hi as (H1 & H2 & _ & _). unfold slice_of.
  replace (skipn (hi_of g + 1) dims) with (skipn n (skipn (lo_of g) dims)).
  - fold n. rewrite firstn_skipn. symmetry. apply firstn_skipn.
  - rewrite skipn_skipn. f_equal. unfold n. lia.
Qed.

(** inside the register *)
Lemma gen_full ids A : (forall d, In d dims -> (0 < d)%nat) -> (2 <= ids)%nat -> generate_matrix dims ids g = Ok A ->
  acts_on dims (sortN (target_nats g)) (control_nats g) (control_levels g) (core g) A.
Proof.
  intros Hpos Hi H.
  assert (Hloc : exists B, generate_matrix dims 1 g = Ok B /\ wrap_in_identities B (prodl (slice_of dims g)) (lines_of g) dims = Ok A).
  { rewrite generate_unfold in H |- * by apply gen_ts_ne. cbn zeta in *. fold n in H |- *.
    rewrite (proj2 (Nat.leb_le 2 ids)) in H by lia. cbn [Nat.leb]. rewrite (proj2 (Nat.ltb_lt 0 ids)) in H by lia. cbn [Nat.ltb Nat.leb].
    destruct (match final_ctl g with Some _ => _ | None => _ end) as [B|e]; [|discriminate]. exists B. split; [reflexivity|exact H]. }
  destruct Hloc as (B & HB & HW). rewrite gen_wrap_ok in HW. injection HW as HW.
  apply gen_local in HB; [|lia|left; reflexivity].
  pose proof gen_split as Es. destruct gen_lo_hi as (H1 & H2 & _ & _).
  assert (Hlo : List.length (firstn (lo_of g) dims) = lo_of g) by (rewrite firstn_length; lia).
  assert (Hsl : slice_of dims g <> []).
  { intros E. pose proof gen_slice_len as L. rewrite E in L. pose proof gen_n_pos. cbn in L. lia. }
  set (pre := firstn (lo_of g) dims) in *. set (post := skipn (hi_of g + 1) dims) in *. set (sl := slice_of dims g) in *.
  assert (Hpos' : forall d, In d (pre ++ sl ++ post)%list -> (0 < d)%nat) by (rewrite <- Es; exact Hpos).
  assert (Hts : forall t, In t (shift (lo_of g) (sortN (target_nats g))) -> (t < List.length sl)%nat).
  { unfold shift. intros t Ht. apply in_map_iff in Ht. destruct Ht as (q & <- & Hq). rewrite In_sortN in Hq. apply gen_ts_range in Hq.
    unfold sl. rewrite gen_slice_len. lia. }
  assert (Hcs : forall t, In t (shift (lo_of g) (control_nats g)) -> (t < List.length sl)%nat).
  { unfold shift. intros t Ht. apply in_map_iff in Ht. destruct Ht as (q & <- & Hq). apply gen_cs_range in Hq.
    unfold sl. rewrite gen_slice_len. lia. }
  pose proof (acts_lift pre sl post Hpos' (shift (lo_of g) (sortN (target_nats g))) (shift (lo_of g) (control_nats g)) (control_levels g) Hts Hcs (core g) B A HB) as HL.
  rewrite Hlo in HL. rewrite !unshift_shift in HL.
  - rewrite Es. apply HL. intros r c Hr Hc. eapply wrap_entry; [exact Hpos'|exact Hsl|symmetry; exact Hlo| |rewrite <- Es; symmetry; exact HW|exact Hr|exact Hc].
    unfold sl. rewrite gen_slice_len. unfold n. lia.
  - intros q Hq. apply gen_cs_range in Hq. lia.
  - intros q Hq. rewrite In_sortN in Hq. apply gen_ts_range in Hq. lia.
Qed.

(** when it returns *)
Lemma gen_returns ids :
  (forall t, target_nats g = [t] -> g_controls g <> None ->
     (t < n)%nat /\ (nth (t - lo_of g) (slice_of dims g) 0 <= nth t (slice_of dims g) 0)%nat) ->
  exists A, generate_matrix dims ids g = Ok A.
Proof.
  intros H. rewrite generate_unfold by apply gen_ts_ne. cbn zeta. fold n.
  assert (HB : exists B, apply_ids_ctrl (core g) (target_nats g) (slice_of dims g) (seq (lo_of g) n) (final_ctl g) = Ok B).
  { apply apply_complete; [apply gen_slice_len|apply gen_n_pos|apply gen_ts_nodup|apply gen_tn_ne|apply gen_ts_range|apply gen_ctl|].
    intros t Ht. unfold final_ctl. destruct (g_controls g) as [[cs lv]|] eqn:Ec; [right; apply H; [exact Ht|congruence]|].
    left. split; [reflexivity|]. unfold n. unfold lo_of, hi_of, lines_of, control_nats. rewrite Ec, Ht. cbn. lia. }
  destruct HB as (B & HB).
  assert (HB' : exists B', (match final_ctl g with
             | Some x => apply_ids_ctrl (core g) (target_nats g) (slice_of dims g) (seq (lo_of g) n) (Some x)
             | None => if Nat.ltb 0 ids then apply_ids_ctrl (core g) (target_nats g) (slice_of dims g) (seq (lo_of g) n) None else Ok (core g)
             end) = Ok B').
  { destruct (final_ctl g); [eauto|]. destruct (Nat.ltb 0 ids); eauto. }
  destruct HB' as (B' & ->). cbn [bindr]. destruct (Nat.leb 2 ids); [|eauto]. rewrite gen_wrap_ok. eauto.
Qed.
Lemma gen_lo0_returns ids : lo_of g = 0%nat -> exists A, generate_matrix dims ids g = Ok A.
Proof.
  intros H. apply gen_returns. intros t Ht _. assert (Hin : In t (target_nats g)) by (rewrite Ht; left; reflexivity).
  apply gen_ts_range in Hin. rewrite H in *. rewrite Nat.sub_0_r. lia.
Qed.
Lemma gen_uncontrolled_returns ids : g_controls g = None -> exists A, generate_matrix dims ids g = Ok A.
Proof. intros H. apply gen_returns. intros t _ Hc. congruence. Qed.
Lemma gen_index_error ids t : target_nats g = [t] -> g_controls g <> None -> (n <= t)%nat -> generate_matrix dims ids g = Err IndexError.
Proof.
  intros Ht Hc Hn. rewrite generate_unfold by apply gen_ts_ne. cbn zeta. fold n. unfold final_ctl.
  destruct (g_controls g) as [[cs lv]|]; [|congruence]. rewrite Ht.
  rewrite apply_index_error; [reflexivity|apply gen_slice_len|apply gen_n_pos|exact Hn].
Qed.
End Gen.
