(** Proofs about the runs of equal targets and about remove_z. *)
From Coq Require Import List ZArith Arith Lia Bool Reals Lra.
From Verif.Base Require Import Py PyFacts Cplx Matrix Radix.
From Verif.Circuit Require Import GateModel.
From Verif.Gates Require Import AnglesModel AnglesSpec AnglesProofs SingleModel SingleSpec SingleProofs.
From Verif.Gates Require Import FactoryModel FactorySpec FactoryMain.
From Verif.Lanes Require Import LanesSpec UnitaryProofs.
From Verif.Levels Require Import LevelsModel.
From Verif.Passes Require Import PhasesModel PhasesSpec PhasesProofs.
Import ListNotations.
Local Open Scope nat_scope.

Lemma eqb_lines_spec a b : eqb_lines a b = true <-> a = b.
Proof.
  unfold eqb_lines. revert b. induction a as [|x a IH]; intros [|y b]; cbn; try (split; [discriminate|discriminate]); try (split; reflexivity).
  specialize (IH b). rewrite andb_true_iff in *. rewrite andb_true_iff, Z.eqb_eq.
  split.
  - intros (H1 & H2 & H3). f_equal; [exact H2|]. apply IH. split; assumption.
  - intros H. injection H as -> ->. split; [|split; [reflexivity|]]; apply IH; reflexivity.
Qed.

Definition run_inv (pre : list (gate pay)) (cur : list nat) (lines : list Z) (acc : list (list nat)) : Prop :=
  (pre = [] /\ cur = [] /\ lines = [] /\ acc = []) \/
  (cur <> [] /\ lines <> [] /\ runs pre (acc ++ [cur]) /\ forall i g, In i cur -> nth_error pre i = Some g -> target_lines g = lines).

Lemma part_lt (pre : list (gate pay)) part iv i : concat part = seq 0 (List.length pre) -> In iv part -> In i iv -> i < List.length pre.
Proof. intros H H1 H2. assert (In i (concat part)) by (apply in_concat; eauto). rewrite H in H0. apply in_seq in H0. lia. Qed.
Lemma nth_old (pre : list (gate pay)) g i x : i < List.length pre -> nth_error (pre ++ [g]) i = Some x -> nth_error pre i = Some x.
Proof. intros H. now rewrite nth_error_app1. Qed.
Lemma snoc_inv {X} (a : list X) x p iv iv' q : a ++ [x] = p ++ iv :: iv' :: q ->
  (q = [] /\ iv' = x /\ a = p ++ [iv]) \/ (exists q', q = q' ++ [x] /\ a = p ++ iv :: iv' :: q').
Proof.
  intros H. destruct q as [|y q _] using rev_ind.
  - left. replace (p ++ [iv; iv']) with ((p ++ [iv]) ++ [iv']) in H by (rewrite <- app_assoc; reflexivity).
    apply app_inj_tail in H. destruct H as [-> ->]. auto.
  - right. replace (p ++ iv :: iv' :: q ++ [y]) with ((p ++ iv :: iv' :: q) ++ [y]) in H by (rewrite <- app_assoc; reflexivity).
    apply app_inj_tail in H. destruct H as [-> ->]. exists q. auto.
Qed.

Lemma run_step_same pre cur lines acc g : runs pre (acc ++ [cur]) -> cur <> [] ->
  (forall i x, In i cur -> nth_error pre i = Some x -> target_lines x = lines) -> target_lines g = lines ->
  runs (pre ++ [g]) (acc ++ [cur ++ [List.length pre]]).
Proof.
  intros [R1 R2 R3 R4] Ne HL Hg.
  assert (Lt : forall iv i, In iv (acc ++ [cur]) -> In i iv -> i < List.length pre) by (intros; eapply part_lt; eassumption).
  assert (Cur : forall i x, In i (cur ++ [List.length pre]) -> nth_error (pre ++ [g]) i = Some x -> target_lines x = lines).
  { intros i x Hi Hx. apply in_app_or in Hi. destruct Hi as [Hi|[<-|[]]].
    - apply (HL i x Hi). apply nth_old in Hx; [exact Hx|]. apply (Lt cur); [apply in_or_app; right; now left|exact Hi].
    - rewrite nth_error_app2, Nat.sub_diag in Hx by lia. cbn in Hx. injection Hx as <-. exact Hg. }
  constructor.
  - rewrite concat_app in *. cbn in *. rewrite app_nil_r in *. rewrite app_assoc, R1, app_length. cbn.
    rewrite Nat.add_1_r, seq_S. reflexivity.
  - intros iv Hi. apply in_app_or in Hi. destruct Hi as [Hi|[<-|[]]]; [apply R2, in_or_app; now left|]. destruct cur; discriminate.
  - intros iv i j gi gj Hi H1 H2 H3 H4. apply in_app_or in Hi. destruct Hi as [Hi|[<-|[]]].
    + assert (Ho : In iv (acc ++ [cur])) by (apply in_or_app; now left).
      apply (R3 iv i j); try assumption; (eapply nth_old; [|eassumption]); eapply Lt; eassumption.
    + rewrite (Cur i gi H1 H3), (Cur j gj H2 H4). reflexivity.
  - intros p iv iv' q i j gi gj E H1 H2 H3 H4. apply snoc_inv in E. destruct E as [(-> & -> & E)|(q' & -> & E)].
    + assert (Hiv : In iv (acc ++ [cur])) by (rewrite E; apply in_or_app; left; apply in_or_app; right; now left).
      assert (Eo : acc ++ [cur] = p ++ iv :: cur :: []) by (rewrite E, <- app_assoc; reflexivity).
      rewrite (Cur j gj H2 H4). destruct cur as [|j0 cur0] eqn:Ec; [contradiction|].
      assert (Hj0 : j0 < List.length pre) by (apply (Lt (j0 :: cur0)); [apply in_or_app; right; now left|now left]).
      destruct (nth_error pre j0) as [g0|] eqn:E0; [|apply nth_error_None in E0; lia].
      rewrite <- (HL j0 g0 (or_introl eq_refl) E0).
      apply (R4 p iv (j0 :: cur0) [] i j0 gi g0 Eo H1 (or_introl eq_refl)); [|exact E0].
      eapply nth_old; [|exact H3]. eapply Lt; eassumption.
    + assert (Eo : acc ++ [cur] = p ++ iv :: iv' :: (q' ++ [cur])) by (rewrite E, <- app_assoc; reflexivity).
      assert (Hiv : In iv (acc ++ [cur])) by (rewrite Eo; apply in_or_app; right; now left).
      assert (Hiv' : In iv' (acc ++ [cur])) by (rewrite Eo; apply in_or_app; right; right; now left).
      apply (R4 p iv iv' (q' ++ [cur]) i j gi gj Eo H1 H2); [exact (nth_old pre g i gi (Lt iv i Hiv H1) H3)|exact (nth_old pre g j gj (Lt iv' j Hiv' H2) H4)].
Qed.
Lemma run_step_diff pre cur lines acc g : runs pre (acc ++ [cur]) -> cur <> [] ->
  (forall i x, In i cur -> nth_error pre i = Some x -> target_lines x = lines) -> target_lines g <> lines ->
  runs (pre ++ [g]) ((acc ++ [cur]) ++ [[List.length pre]]).
Proof.
  intros [R1 R2 R3 R4] Ne HL Hg.
  assert (Lt : forall iv i, In iv (acc ++ [cur]) -> In i iv -> i < List.length pre) by (intros; eapply part_lt; eassumption).
  assert (New : forall x, nth_error (pre ++ [g]) (List.length pre) = Some x -> x = g).
  { intros x Hx. rewrite nth_error_app2, Nat.sub_diag in Hx by lia. cbn in Hx. congruence. }
  constructor.
  - rewrite concat_app, R1, app_length. cbn. rewrite Nat.add_1_r, seq_S. reflexivity.
  - intros iv Hi. apply in_app_or in Hi. destruct Hi as [Hi|[<-|[]]]; [now apply R2|discriminate].
  - intros iv i j gi gj Hi H1 H2 H3 H4. apply in_app_or in Hi. destruct Hi as [Hi|[<-|[]]].
    + apply (R3 iv i j); try assumption; (eapply nth_old; [|eassumption]); eapply Lt; eassumption.
    + destruct H1 as [<-|[]], H2 as [<-|[]]. congruence.
  - intros p iv iv' q i j gi gj E H1 H2 H3 H4. apply snoc_inv in E. destruct E as [(-> & -> & E)|(q' & -> & E)].
    + apply app_inj_tail in E. destruct E as [-> <-]. destruct H2 as [<-|[]]. apply New in H4. subst gj.
      intros F. apply Hg. rewrite <- F. apply (HL i gi H1). eapply nth_old; [|exact H3]. apply (Lt cur); [apply in_or_app; right; now left|exact H1].
    + assert (Hiv : In iv (acc ++ [cur])) by (rewrite E; apply in_or_app; right; now left).
      assert (Hiv' : In iv' (acc ++ [cur])) by (rewrite E; apply in_or_app; right; right; now left).
      apply (R4 p iv iv' q' i j gi gj E H1 H2); [exact (nth_old pre g i gi (Lt iv i Hiv H1) H3)|exact (nth_old pre g j gj (Lt iv' j Hiv' H2) H4)].
Qed.
Lemma run_first g : runs [g] [[0]].
Proof.
  constructor.
  - reflexivity.
  - intros iv [<-|[]]. discriminate.
  - intros iv i j gi gj [<-|[]] [<-|[]] [<-|[]]. cbn. congruence.
  - intros p iv iv' q i j gi gj E. destruct p as [|a [|b p]]; discriminate.
Qed.

Lemma intervals_spec l : forall pre cur lines acc, run_inv pre cur lines acc -> (forall g, In g l -> target_lines g <> []) ->
  runs (pre ++ l) (intervals_loop (List.length pre) l cur lines acc).
Proof.
  induction l as [|g l IH]; intros pre cur lines acc Inv NE.
  - rewrite app_nil_r. cbn. destruct Inv as [(-> & -> & -> & ->)|(Ne & _ & R & _)].
    + constructor; cbn; [reflexivity|intros ? []|intros ? ? ? ? ? []|]. intros p iv iv' q i j gi gj E. destruct p; discriminate.
    + destruct cur; [contradiction|exact R].
  - assert (NE' : forall x, In x l -> target_lines x <> []) by (intros; apply NE; now right).
    assert (Ng : target_lines g <> []) by (apply NE; now left).
    replace (pre ++ g :: l) with ((pre ++ [g]) ++ l) by (rewrite <- app_assoc; reflexivity).
    cbn [intervals_loop].
    assert (EL : S (List.length pre) = List.length (pre ++ [g])) by (rewrite app_length; cbn; lia).
    destruct Inv as [(-> & -> & -> & ->)|(Ne & NL & R & HL)].
    + cbn. apply (IH [g] [0] (target_lines g) []); [|exact NE']. right. split; [discriminate|]. split; [exact Ng|].
      split; [apply run_first|]. intros i x [<-|[]] Hx. cbn in Hx. congruence.
    + destruct lines as [|t0 lines0] eqn:EQ; [contradiction|]. rewrite <- EQ in *.
      replace (List.length lines =? 0) with false by (rewrite EQ; reflexivity). cbn [orb].
      destruct (eqb_lines (target_lines g) lines) eqn:Q.
      * apply eqb_lines_spec in Q. rewrite EL. apply IH; [|exact NE']. right. split; [destruct cur; discriminate|]. split; [exact Ng|].
        split; [eapply run_step_same; eassumption|].
        intros i x Hi Hx. apply in_app_or in Hi. destruct Hi as [Hi|[<-|[]]].
        -- rewrite Q. apply (HL i x Hi). eapply nth_old; [|exact Hx]. destruct R as [R1 _ _ _].
           eapply part_lt; [exact R1|apply in_or_app; right; now left|exact Hi].
        -- rewrite nth_error_app2, Nat.sub_diag in Hx by lia. cbn in Hx. congruence.
      * assert (Q' : target_lines g <> lines) by (intros F; apply eqb_lines_spec in F; congruence).
        rewrite EL. apply IH; [|exact NE']. right. split; [discriminate|]. split; [exact Ng|].
        split; [eapply run_step_diff; eassumption|].
        intros i x [<-|[]] Hx. rewrite nth_error_app2, Nat.sub_diag in Hx by lia. cbn in Hx. congruence.
Qed.
Lemma find_intervals_runs l : (forall g, In g l -> target_lines g <> []) -> runs l (find_intervals l).
Proof. intros H. unfold find_intervals. apply (intervals_spec l [] [] [] []); [left; auto|exact H]. Qed.

(** one run *)
Lemma one_run l T : l <> [] -> T <> [] -> (forall g, In g l -> target_lines g = T) -> find_intervals l = [seq 0 (List.length l)].
Proof.
  intros Ne NT H. assert (R : runs l (find_intervals l)) by (apply find_intervals_runs; intros g Hg; rewrite (H g Hg); exact NT).
  destruct R as [R1 R2 R3 R4]. destruct (find_intervals l) as [|iv [|iv' q]] eqn:E.
  - cbn in R1. destruct l; [contradiction|discriminate].
  - cbn in R1. rewrite app_nil_r in R1. now rewrite R1.
  - exfalso. destruct iv as [|i iv]; [apply (R2 []); [now left|reflexivity]|]. destruct iv' as [|j iv']; [apply (R2 []); [right; now left|reflexivity]|].
    assert (Hi : i < List.length l) by (eapply part_lt; [exact R1|now left|now left]).
    assert (Hj : j < List.length l) by (eapply part_lt; [exact R1|right; now left|now left]).
    destruct (nth_error l i) as [gi|] eqn:Ei; [|apply nth_error_None in Ei; lia].
    destruct (nth_error l j) as [gj|] eqn:Ej; [|apply nth_error_None in Ej; lia].
    apply (R4 [] (i :: iv) (j :: iv') q i j gi gj eq_refl (or_introl eq_refl) (or_introl eq_refl) Ei Ej).
    rewrite (H gi), (H gj); [reflexivity|eapply nth_error_In; exact Ej|eapply nth_error_In; exact Ei].
Qed.
Lemma last_seq n : last (seq 0 (S n)) 0 = n.
Proof. rewrite seq_S. apply last_last. Qed.
Lemma pyslice_all {A} (l : list A) : pyslice l 0 (Z.of_nat (List.length l)) = l.
Proof.
  unfold pyslice, slice_pos. cbn [Z.ltb Z.compare].
  replace (Z.to_nat (Z.min (Z.of_nat (List.length l)) (Z.max 0 0))) with 0 by lia.
  destruct (Z.ltb_spec (Z.of_nat (List.length l)) 0); [lia|].
  replace (Z.to_nat (Z.min (Z.of_nat (List.length l)) (Z.max 0 (Z.of_nat (List.length l))))) with (List.length l) by lia.
  cbn [skipn]. rewrite Nat.sub_0_r. apply firstn_all.
Qed.
Lemma pyslice_assign_all {A} (l : list A) : pyslice_assign l 0 (Z.of_nat (List.length l)) [] = [].
Proof.
  unfold pyslice_assign, slice_pos. cbn [Z.ltb Z.compare].
  replace (Z.to_nat (Z.min (Z.of_nat (List.length l)) (Z.max 0 0))) with 0 by lia.
  destruct (Z.ltb_spec (Z.of_nat (List.length l)) 0); [lia|].
  replace (Z.to_nat (Z.min (Z.of_nat (List.length l)) (Z.max 0 (Z.of_nat (List.length l))))) with (List.length l) by lia.
  cbn [firstn app]. apply skipn_all2. lia.
Qed.
Lemma remove_z_one_run num dims l T back : 1 < List.length l -> T <> [] -> (forall g, In g l -> target_lines g = T) ->
  remove_z num dims l back = (let? rz := propagate_z num dims l back in Ok (combined back rz)).
Proof.
  intros Hn NT H. unfold remove_z. rewrite (one_run l T) by (try assumption; intros ->; cbn in Hn; lia).
  cbn [remove_z_loop]. rewrite seq_length. replace (1 <? List.length l) with true by (symmetry; apply Nat.ltb_lt; exact Hn).
  destruct l as [|g l]; [cbn in Hn; lia|]. cbn [List.length hd seq].
  replace (last (0 :: seq 1 (List.length l)) 0%nat) with (List.length l) by (symmetry; apply (last_seq (List.length l))).
  replace (Z.of_nat (List.length l) + 1)%Z with (Z.of_nat (List.length (g :: l))) by (cbn; lia).
  change (Z.of_nat 0) with 0%Z. rewrite pyslice_all, pyslice_assign_all.
  destruct (propagate_z num dims (g :: l) back) as [[r z]|e]; reflexivity.
Qed.
Lemma remove_z_alternating num dims l back : (forall iv, In iv (find_intervals l) -> List.length iv = 1) -> remove_z num dims l back = Ok l.
Proof.
  intros H. unfold remove_z. revert H. generalize (find_intervals l) as ivs. intros ivs H.
  assert (K : forall new, remove_z_loop num dims l back ivs new = Ok new); [|apply K].
  induction ivs as [|iv ivs IH]; intros new; [reflexivity|].
  cbn [remove_z_loop]. rewrite (H iv (or_introl eq_refl)). cbn. apply IH. intros; apply H; now right.
Qed.

Section Main.
Variable dims : list nat.
Hypothesis pos : forall d, In d dims -> 0 < d.
Lemma lower_self_unitary l : (forall g, In g l -> fits dims (lower g)) -> same_unitary dims (as_circuit l) (as_circuit l).
Proof.
  intros H. apply same_of_run; try (intros o Ho; apply in_map_iff in Ho; destruct Ho as (g & <- & Hg); now apply H). apply meq_refl.
Qed.
Lemma line_target t g : line_gate dims t g -> target_lines g = [Z.of_nat t].
Proof. intros (_ & _ & H & _). unfold target_lines. now rewrite H. Qed.
Lemma remove_z_single_line num t l back : (forall g, In g l -> line_gate dims t g) ->
  exists l', remove_z num dims l back = Ok l' /\ same_unitary dims (as_circuit l) (as_circuit l').
Proof.
  intros G. destruct (Nat.lt_ge_cases 1 (List.length l)) as [Hn|Hn].
  - rewrite (remove_z_one_run num dims l [Z.of_nat t] back Hn) by (try discriminate; intros; now apply line_target, G).
    destruct (propagate_line dims pos num t l back) as (rots & zs & E & _ & _ & _ & _ & S); [intros ->; cbn in Hn; lia|exact G|].
    rewrite E. cbn [bindr]. eexists. split; [reflexivity|exact S].
  - exists l. split.
    + destruct l as [|g [|h l]]; [reflexivity| |cbn in Hn; lia].
      apply remove_z_alternating. rewrite (one_run [g] [Z.of_nat t]); [intros iv [<-|[]]; reflexivity|discriminate|discriminate|].
      intros x Hx. apply line_target, G, Hx.
    + apply lower_self_unitary. intros g Hg. destruct (line_gate_made dims t g (G g Hg)) as (M & _ & L & _).
      apply (made_fits dims (Z.of_nat t) (nth t dims 0)); [lia|exact M].
Qed.

(** what the pass returns on a line: rotations on one side, one phase gate per level on the other *)
Lemma remove_z_shape num t l back l' : 1 < List.length l -> (forall g, In g l -> line_gate dims t g) ->
  remove_z num dims l back = Ok l' -> exists rots zs, l' = (if back then zs ++ rots else rots ++ zs) /\
    Forall (fun g => is_R g = true) rots /\ List.length rots = List.length (filter is_R l) /\
    List.length zs = nth t dims 0 /\ (forall i g, nth_error zs i = Some g -> exists ph, p_kind (g_data g) = KVirtRz i ph).
Proof.
  intros Hn G. rewrite (remove_z_one_run num dims l [Z.of_nat t] back Hn) by (try discriminate; intros; now apply line_target, G).
  destruct (propagate_line dims pos num t l back) as (rots & zs & E & R & C & Lz & Z & S); [intros ->; cbn in Hn; lia|exact G|].
  rewrite E. cbn [bindr]. intros H. injection H as <-. exists rots, zs. split; [destruct back; reflexivity|].
  split; [apply Forall_forall; intros; now apply R|]. split; [exact C|]. split; [exact Lz|]. intros i g Hg. now apply (Z i g Hg).
Qed.
End Main.

(** *** the flags of the gates and the other classes are ignored *)
Definition bare (g : gate pay) : gate pay :=
  Gate (g_name g) (g_type g) (g_target g) None false (g_long g) (g_data g).
Lemma loop_bare num dims back qi d l : forall z rots,
  propagate_loop num dims back qi d (map bare l) z rots = propagate_loop num dims back qi d l z rots.
Proof.
  induction l as [|g l IH]; intros z rots; [reflexivity|]. cbn. destruct (p_kind (g_data g)); try apply IH.
  - destruct (angle z (lev_a r)) as [za|]; [|reflexivity]. destruct (angle z (lev_b r)) as [zb|]; [|reflexivity]. cbn [bindr].
    destruct (make_R _ _ _ _ _ _ _ _) as [g'|]; [|reflexivity]. cbn [bindr]. apply IH.
  - destruct (angle z lev) as [za|]; [|reflexivity]. cbn [bindr]. apply IH.
Qed.
Lemma propagate_bare num dims line back : propagate_z num dims (map bare line) back = propagate_z num dims line back.
Proof.
  unfold propagate_z. destruct line as [|g0 rest]; [reflexivity|]. cbn [map]. change (g_data (bare g0)) with (g_data g0).
  destruct (p_dims (g_data g0)) as [d|]; [|reflexivity]. change (g_target (bare g0)) with (g_target g0).
  change (bare g0 :: map bare rest) with (map bare (g0 :: rest)).
  replace (if back then rev (map bare (g0 :: rest)) else map bare (g0 :: rest)) with (map bare (if back then rev (g0 :: rest) else g0 :: rest)).
  - now rewrite loop_bare.
  - destruct back; [|reflexivity]. apply map_rev.
Qed.
Definition handled (g : gate pay) : bool := is_R g || is_VirtRz g.
Lemma loop_handled num dims back qi d l : forall z rots,
  propagate_loop num dims back qi d (filter handled l) z rots = propagate_loop num dims back qi d l z rots.
Proof.
  induction l as [|g l IH]; intros z rots; [reflexivity|]. cbn. unfold handled, is_R, is_VirtRz.
  destruct (p_kind (g_data g)) eqn:E; cbn; rewrite ?E; try apply IH.
  - destruct (angle z (lev_a r)) as [za|]; [|reflexivity]. destruct (angle z (lev_b r)) as [zb|]; [|reflexivity]. cbn [bindr].
    destruct (make_R _ _ _ _ _ _ _ _) as [g'|]; [|reflexivity]. cbn [bindr]. apply IH.
  - destruct (angle z lev) as [za|]; [|reflexivity]. cbn [bindr]. apply IH.
Qed.
Lemma propagate_handled num dims g0 line back : handled g0 = true ->
  propagate_z num dims (filter handled (g0 :: line)) back = propagate_z num dims (g0 :: line) back.
Proof.
  intros H. cbn [filter]. rewrite H. unfold propagate_z. destruct (p_dims (g_data g0)) as [d|]; [|reflexivity].
  replace (if back then rev (g0 :: filter handled line) else g0 :: filter handled line)
    with (filter handled (if back then rev (g0 :: line) else g0 :: line)).
  - now rewrite loop_handled.
  - destruct back; [rewrite filter_rev'|]; cbn [filter]; rewrite H; reflexivity.
Qed.
Lemma remove_z_neighbours num dims l back : (forall g, In g l -> target_lines g <> []) ->
  (forall i g h, nth_error l i = Some g -> nth_error l (S i) = Some h -> target_lines g <> target_lines h) ->
  remove_z num dims l back = Ok l.
Proof.
  intros NE H. apply remove_z_alternating. intros iv Hiv. destruct (find_intervals_runs l NE) as [R1 R2 R3 _].
  pose proof (R2 iv Hiv) as Ne. pose proof (R3 iv) as Eq. destruct iv as [|a [|b iv]]; [contradiction|reflexivity|]. exfalso.
  assert (La : a < List.length l) by (eapply part_lt; [exact R1|exact Hiv|now left]).
  assert (Lb : b < List.length l) by (eapply part_lt; [exact R1|exact Hiv|right; now left]).
  apply in_split in Hiv. destruct Hiv as (p & q & E).
  assert (Eb : b = S a).
  { rewrite E, concat_app in R1. cbn [concat app] in R1. set (k := List.length (concat p)).
    assert (Na : nth k (seq 0 (List.length l)) 0 = a) by (rewrite <- R1; unfold k; rewrite app_nth2, Nat.sub_diag by lia; reflexivity).
    assert (Nb : nth (S k) (seq 0 (List.length l)) 0 = b).
    { rewrite <- R1. unfold k. rewrite app_nth2 by lia. replace (S (List.length (concat p)) - List.length (concat p)) with 1 by lia. reflexivity. }
    assert (Lk : S k < List.length l).
    { rewrite <- (seq_length (List.length l) 0), <- R1, app_length. fold k. cbn. lia. }
    rewrite seq_nth in Na, Nb by lia. lia. }
  subst b. destruct (nth_error l a) as [g|] eqn:Ea; [|apply nth_error_None in Ea; lia].
  destruct (nth_error l (S a)) as [h|] eqn:Ebb; [|apply nth_error_None in Ebb; lia].
  apply (H a g h Ea Ebb). apply (Eq a (S a) g h); [rewrite E; apply in_or_app; right; now left|now left|right; now left|exact Ea|exact Ebb].
Qed.
