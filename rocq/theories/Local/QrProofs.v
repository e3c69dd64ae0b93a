(** The QR passes: totality, the operator they emit, stored phases (C27, C28, C75). *)
From Coq Require Import Reals Lra Lia List Arith ZArith Permutation.
From Verif.Base Require Import Py PyFacts Cplx Matrix Angle.
From Verif.Gates Require Import AnglesModel AnglesSpec AnglesProofs SingleModel SingleSpec SingleProofs.
From Verif.Levels Require Import LevelsModel LevelsSpec GraphProofs LevelsProofs RouteProofs PhaseProofs.
From Verif.Sim Require Import TnSpec.
From Verif.Local Require Import QrModel QrSpec QrMath QrCore PulseProofs QrMoved QrEmit.
Import ListNotations.
Local Open Scope string_scope.
Local Open Scope list_scope.
Local Open Scope nat_scope.

Lemma covers_length d g : routable d g -> covers d g -> List.length (nd g) = d.
Proof.
  intros RT CV. assert (P : Permutation (map fst (nd g)) (map Z.of_nat (seq 0 d))).
  { apply NoDup_Permutation.
    - apply (wf_nodes g (rt_wf d g RT)).
    - apply FinFun.Injective_map_NoDup; [intros x y; apply Nat2Z.inj|apply seq_NoDup].
    - intros n. split.
      + intros H. apply (rt_logical d g RT) in H. apply in_map_iff. exists (Z.to_nat n). split; [lia|apply in_seq; lia].
      + intros H. apply in_map_iff in H. destruct H as (m & <- & H). apply in_seq in H. apply CV. lia. }
  apply Permutation_length in P. rewrite !map_length, seq_length in P. exact P.
Qed.

(** Two graphs that differ at most in the stored phases. *)
Record same_but_phases (d : nat) (g g' : lgraph) : Prop := {
  sb_keys : map fst (nd g') = map fst (nd g);
  sb_adj : adj g' = adj g;
  sb_look : forall m k, k <> "phase_storage" -> alook (nd g') m k = alook (nd g) m k }.
Lemma sb_refl d g : same_but_phases d g g.
Proof. constructor; reflexivity. Qed.
Lemma sb_trans d g1 g2 g3 : same_but_phases d g1 g2 -> same_but_phases d g2 g3 -> same_but_phases d g1 g3.
Proof.
  intros [A B C] [A' B' C']. constructor; [congruence|congruence|]. intros m k N. rewrite C', C by exact N. reflexivity.
Qed.
Lemma sb_placed d g g' n p : well_formed g -> well_formed g' -> same_but_phases d g g' -> (placed g' n p <-> placed g n p).
Proof.
  intros W W' S. unfold placed. rewrite (has_attr_alook g' W'), (has_attr_alook g W), (sb_look d g g' S); [reflexivity|discriminate].
Qed.
Lemma sb_node d g g' n : same_but_phases d g g' -> (is_node g' n <-> is_node g n).
Proof. intros S. unfold is_node. rewrite (sb_keys d g g' S). reflexivity. Qed.
Lemma sb_coupled d g g' p q dat : well_formed g -> well_formed g' -> same_but_phases d g g' -> (coupled g' p q dat <-> coupled g p q dat).
Proof.
  intros W W' S. unfold coupled, joined. rewrite (sb_adj d g g' S).
  split; intros (a & b & J & A & B); exists a, b; (split; [exact J|]); rewrite ?(sb_placed d g g' _ _ W W' S) in *; auto.
Qed.
Lemma sb_covers d g g' : same_but_phases d g g' -> covers d g -> covers d g'.
Proof. intros S C n Hn. apply (sb_node d g g' _ S). apply C. exact Hn. Qed.
Lemma sb_native d g g' o : well_formed g -> well_formed g' -> same_but_phases d g g' -> native g' o -> native g o.
Proof. intros W W' S. destruct o; cbn; [|trivial]. intros (dat & C). exists dat. apply (sb_coupled d g g' _ _ _ W W' S). exact C. Qed.
Lemma sb_lpf d g g' n : routable d g -> routable d g' -> covers d g -> same_but_phases d g g' -> n < d -> lpf g' n = lpf g n.
Proof.
  intros RT RT' CV S Hn. assert (CV' := sb_covers d g g' S CV). assert (A := lpf_placed d g RT CV n Hn). assert (B := lpf_placed d g' RT' CV' n Hn).
  apply (sb_placed d g g' _ _ (rt_wf d g RT) (rt_wf d g' RT') S) in B.
  apply (has_attr_alook g (rt_wf d g RT)) in A, B. rewrite A in B. injection B as B. lia.
Qed.

(** The number stored at a node. *)
Definition stored (g : lgraph) (n : nat) : R :=
  match node_attr g (Z.of_nat n) "phase_storage" with Ok v => match num v with Ok x => x | Err _ => 0%R end | Err _ => 0%R end.
Lemma stored_ok d g n v : routable d g -> has_attr g (Z.of_nat n) "phase_storage" v ->
  node_attr g (Z.of_nat n) "phase_storage" = Ok v /\ num v = Ok (stored g n).
Proof.
  intros RT H. assert (E := node_attr_ok d g RT _ _ _ H). split; [exact E|]. unfold stored. rewrite E.
  destruct (rt_phases d g RT _ _ H) as (x & ->). reflexivity.
Qed.
Lemma pending_stored d g f n : routable d g -> covers d g -> n < d -> pending g f -> f (lpf g n) = stored g n.
Proof.
  intros RT CV Hn (P1 & P2). assert (A := lpf_placed d g RT CV n Hn). unfold stored.
  destruct (node_attr g (Z.of_nat n) "phase_storage") as [v|e] eqn:E.
  - assert (H : has_attr g (Z.of_nat n) "phase_storage" v).
    { apply (has_attr_alook g (rt_wf d g RT)). unfold node_attr, node_attrs in E. unfold alook.
      destruct (nget (nd g) (Z.of_nat n)) as [a|]; cbn in E; [|discriminate]. destruct (aget a "phase_storage"); cbn in E; [|discriminate].
      congruence. }
    destruct (rt_phases d g RT _ _ H) as (x & X). rewrite X. rewrite <- (P1 _ _ _ _ A H X). rewrite Nat2Z.id. reflexivity.
  - apply P2. intros m v Hm Hv. assert (X := proj2 (rt_placement d g RT) _ _ _ Hm A). subst m.
    rewrite (node_attr_ok d g RT _ _ _ Hv) in E. discriminate.
Qed.
Definition turned (g : lgraph) (n : nat) : R := new_mod (stored g n) (2 * PI).
Lemma cis_turned g n : cis (- turned g n) = cis (- stored g n).
Proof.
  assert (P : (0 < 2 * PI)%R) by (assert (X := PI_RGT_0); lra). destruct (new_mod_spec (stored g n) (2 * PI) P) as ((k & Hk) & _).
  apply cis_same_mod. exists (- k)%Z. unfold turned. rewrite Hk, opp_IZR. ring.
Qed.

(** *** Stored phases taken out *)
Section Flush.
  Variables (delta : R) (d : nat) (g : lgraph) (level : lgraph -> Z -> res (option aval)) (lv : nat -> option aval).
  Hypothesis RT : routable d g.
  Hypothesis CV : covers d g.
  Hypothesis LV : forall g' i, routable d g' -> covers d g' -> same_but_phases d g g' -> i < d -> level g' (Z.of_nat i) = Ok (lv i).

  Definition flushed (i : nat) : list qop :=
    if Rlt_dec delta (Rabs (turned g i)) then [OV (match lv i with Some a => virtrz_params d a (AFlt (turned g i)) | None => None end)] else [].

  Lemma flush_loop : (forall n, n < d -> exists v, has_attr g (Z.of_nat n) "phase_storage" v) -> forall k, k <= d ->
    exists g', foldr (flush_step delta level d) (seq 0 k) ([], [], g) =
        Ok (flat_map flushed (seq 0 k), map (fun i => (Z.of_nat i, turned g i)) (seq 0 k), g') /\
      routable d g' /\ same_but_phases d g g' /\
      forall m, alook (nd g') m "phase_storage" = if ((0 <=? m) && (m <? Z.of_nat k))%Z then Some (AInt 0) else alook (nd g) m "phase_storage".
  Proof.
    intros HP. induction k as [|k IH]; intros Hk.
    - exists g. split; [reflexivity|]. split; [exact RT|]. split; [apply sb_refl|]. intros m.
      destruct (Z.leb_spec 0 m); destruct (Z.ltb_spec m (Z.of_nat 0)); cbn [andb]; try reflexivity. lia.
    - destruct (IH ltac:(lia)) as (g1 & E & R1 & S1 & L1). rewrite seq_S, foldr_app, E. cbn [bindr foldr plus]. unfold flush_step.
      assert (CV1 := sb_covers d g g1 S1 CV).
      destruct (HP k ltac:(lia)) as (v & Hv).
      assert (Hv1 : has_attr g1 (Z.of_nat k) "phase_storage" v).
      { apply (has_attr_alook g1 (rt_wf d g1 R1)). rewrite L1. rewrite (proj2 (Z.ltb_ge (Z.of_nat k) (Z.of_nat k))), Bool.andb_false_r by lia.
        apply (has_attr_alook g (rt_wf d g RT)). exact Hv. }
      destruct (stored_ok d g k v RT Hv) as [_ N]. rewrite (node_attr_ok d g1 R1 _ _ _ Hv1). cbn [bindr]. rewrite N. cbn [bindr].
      change (new_mod (stored g k) (2 * PI)) with (turned g k).
      destruct (write_attr_ok d g1 (Z.of_nat k) (AInt 0) v 0%R R1 Hv1 eq_refl) as (g2 & EW & K2 & A2 & R2 & L2).
      assert (X : (if Rlt_dec delta (Rabs (turned g k)) then
                    let? l := level g1 (Z.of_nat k) in
                    Ok (flat_map flushed (seq 0 k) ++ [OV (match l with Some a => virtrz_params d a (AFlt (turned g k)) | None => None end)])
                  else Ok (flat_map flushed (seq 0 k))) = Ok (flat_map flushed (seq 0 k) ++ flushed k)).
      { assert (FK : flushed k = if Rlt_dec delta (Rabs (turned g k)) then [OV (match lv k with Some a => virtrz_params d a (AFlt (turned g k)) | None => None end)] else []) by reflexivity.
        rewrite FK. destruct (Rlt_dec delta (Rabs (turned g k))); [|rewrite app_nil_r; reflexivity].
        rewrite LV by (trivial; lia). reflexivity. }
      rewrite X. cbn [bindr]. rewrite EW. cbn [bindr]. exists g2. split; [rewrite flat_map_app, map_app; cbn; rewrite app_nil_r; reflexivity|].
      split; [exact R2|]. split.
      + apply (sb_trans d g g1 g2 S1). constructor; trivial. intros m k' N'. rewrite L2.
        rewrite (proj2 (String.eqb_neq k' "phase_storage") N'), Bool.andb_false_r. reflexivity.
      + intros m. rewrite L2, L1. rewrite String.eqb_refl, Bool.andb_true_r.
        destruct (Z.eqb_spec m (Z.of_nat k)) as [->|N'].
        * rewrite (proj2 (Z.leb_le 0 (Z.of_nat k))), (proj2 (Z.ltb_lt (Z.of_nat k) (Z.of_nat (S k)))) by lia. reflexivity.
        * destruct (Z.leb_spec 0 m); cbn [andb]; [|reflexivity].
          destruct (Z.ltb_spec m (Z.of_nat k)); destruct (Z.ltb_spec m (Z.of_nat (S k))); try reflexivity; lia.
  Qed.

  Lemma has_phases_ok g' : routable d g' -> exists b, has_phases g' = Ok b /\ (b = true <-> exists n v, has_attr g' n "phase_storage" v).
  Proof.
    intros R. unfold has_phases. destruct (fst_inode_ok d g' R) as (i & -> & Hi). cbn [bindr].
    destruct (node_attrs_ok d g' R i (has_node g' _ _ _ Hi)) as (A & -> & HA). cbn [bindr]. eexists. split; [reflexivity|].
    rewrite HA. split; [intros (v & Hv); eauto|]. intros (n & v & Hv). eapply (rt_uniform d g' R); [exact Hv|]. eapply has_node. exact Hi.
  Qed.

  Lemma flush_ok : exists ops0 rec g', flush delta level d false g = Ok (ops0, rec, g') /\
    routable d g' /\ same_but_phases d g g' /\ no_phases g' /\
    ((forall n v, ~ has_attr g n "phase_storage" v) /\ ops0 = [] /\ rec = [] /\ g' = g \/
     (forall n, n < d -> exists v, has_attr g (Z.of_nat n) "phase_storage" v) /\
       ops0 = flat_map flushed (seq 0 d) /\ rec = map (fun i => (Z.of_nat i, turned g i)) (seq 0 d) /\
       forall n, n < d -> has_attr g' (Z.of_nat n) "phase_storage" (AInt 0)).
  Proof.
    unfold flush. destruct (has_phases_ok g RT) as (b & -> & HB). cbn [bindr]. destruct b.
    - destruct (proj1 HB eq_refl) as (n0 & v0 & H0).
      assert (HP : forall n, n < d -> exists v, has_attr g (Z.of_nat n) "phase_storage" v).
      { intros n Hn. eapply (rt_uniform d g RT); [exact H0|]. apply CV. exact Hn. }
      destruct (flush_loop HP d (le_n d)) as (g' & E & R' & S' & L'). rewrite (covers_length d g RT CV). rewrite E.
      eexists _, _, g'. split; [reflexivity|]. split; [exact R'|]. split; [exact S'|].
      assert (Z' : forall n v, has_attr g' n "phase_storage" v -> v = AInt 0).
      { intros n v H. assert (Hn := rt_logical d g' R' n (has_node g' _ _ _ H)). apply (has_attr_alook g' (rt_wf d g' R')) in H. rewrite L' in H.
        rewrite (proj2 (Z.leb_le 0 n)), (proj2 (Z.ltb_lt n (Z.of_nat d))) in H by lia. cbn [andb] in H. congruence. }
      split; [intros n v x H X; rewrite (Z' n v H) in X; cbn in X; congruence|].
      right. split; [exact HP|]. split; [reflexivity|]. split; [reflexivity|]. intros n Hn. apply (has_attr_alook g' (rt_wf d g' R')). rewrite L'.
      rewrite (proj2 (Z.leb_le 0 (Z.of_nat n))), (proj2 (Z.ltb_lt (Z.of_nat n) (Z.of_nat d))) by lia. reflexivity.
    - assert (NP : forall n v, ~ has_attr g n "phase_storage" v).
      { intros n v H. assert (X : false = true) by (apply HB; eauto). discriminate. }
      exists [], [], g. split; [reflexivity|]. split; [exact RT|]. split; [apply sb_refl|].
      split; [intros n v x H; exfalso; exact (NP n v H)|]. left. auto.
  Qed.

  (** recover, after the phases were taken out. *)
  Lemma recover_loop g1 : routable d g1 -> same_but_phases d g g1 -> (forall n, n < d -> exists v, has_attr g1 (Z.of_nat n) "phase_storage" v) ->
    let rec := map (fun i => (Z.of_nat i, turned g i)) (seq 0 d) in
    forall k, k <= d -> exists g', foldr (fun g i => let? x := getk (nget rec (Z.of_nat i)) in write_attr g (Z.of_nat i) "phase_storage" (AFlt x)) (seq 0 k) g1 = Ok g' /\
      routable d g' /\ same_but_phases d g g' /\
      forall m, alook (nd g') m "phase_storage" = if ((0 <=? m) && (m <? Z.of_nat k))%Z then Some (AFlt (turned g (Z.to_nat m))) else alook (nd g1) m "phase_storage".
  Proof.
    intros R1 S1 H1 rec. induction k as [|k IH]; intros Hk.
    - exists g1. split; [reflexivity|]. split; [exact R1|]. split; [exact S1|]. intros m.
      destruct (Z.leb_spec 0 m); destruct (Z.ltb_spec m (Z.of_nat 0)); cbn [andb]; try reflexivity. lia.
    - destruct (IH ltac:(lia)) as (g2 & E & R2 & S2 & L2). rewrite seq_S, foldr_app, E. cbn [bindr foldr plus].
      assert (NG : nget rec (Z.of_nat k) = Some (turned g k)).
      { apply (dget_complete Z.eqb zeq).
        - unfold rec, dkeys. rewrite map_map. cbn. apply FinFun.Injective_map_NoDup; [intros x y; apply Nat2Z.inj|apply seq_NoDup].
        - unfold rec. apply in_map_iff. exists k. split; [reflexivity|]. apply in_seq. lia. }
      rewrite NG. cbn [getk bindr].
      destruct (H1 k ltac:(lia)) as (v & Hv).
      assert (Hv2 : has_attr g2 (Z.of_nat k) "phase_storage" v).
      { apply (has_attr_alook g2 (rt_wf d g2 R2)). rewrite L2. rewrite (proj2 (Z.ltb_ge (Z.of_nat k) (Z.of_nat k))), Bool.andb_false_r by lia.
        apply (has_attr_alook g1 (rt_wf d g1 R1)). exact Hv. }
      destruct (write_attr_ok d g2 (Z.of_nat k) (AFlt (turned g k)) v _ R2 Hv2 eq_refl) as (g3 & EW & K3 & A3 & R3 & L3).
      rewrite EW. cbn [bindr]. exists g3. split; [reflexivity|]. split; [exact R3|]. split.
      + apply (sb_trans d g g2 g3 S2). constructor; trivial. intros m k' N'. rewrite L3.
        rewrite (proj2 (String.eqb_neq k' "phase_storage") N'), Bool.andb_false_r. reflexivity.
      + intros m. rewrite L3, L2. rewrite String.eqb_refl, Bool.andb_true_r.
        destruct (Z.eqb_spec m (Z.of_nat k)) as [->|N'].
        * rewrite (proj2 (Z.leb_le 0 (Z.of_nat k))), (proj2 (Z.ltb_lt (Z.of_nat k) (Z.of_nat (S k)))), Nat2Z.id by lia. reflexivity.
        * destruct (Z.leb_spec 0 m); cbn [andb]; [|reflexivity].
          destruct (Z.ltb_spec m (Z.of_nat k)); destruct (Z.ltb_spec m (Z.of_nat (S k))); try reflexivity; lia.
  Qed.
End Flush.

Lemma turned_0 g n : stored g n = 0%R -> turned g n = 0%R.
Proof.
  intros E. unfold turned. rewrite E. assert (X := PI_RGT_0). apply new_mod_fix; lra.
Qed.
Lemma stored_none g n : (forall v, ~ has_attr g (Z.of_nat n) "phase_storage" v) -> well_formed g -> stored g n = 0%R.
Proof.
  intros H W. unfold stored. destruct (node_attr g (Z.of_nat n) "phase_storage") as [v|e] eqn:E; [|reflexivity]. exfalso. apply (H v).
  apply (has_attr_alook g W). unfold node_attr, node_attrs in E. unfold alook.
  destruct (nget (nd g) (Z.of_nat n)) as [a|]; cbn in E; [|discriminate]. destruct (aget a "phase_storage"); cbn in E; [|discriminate].
  congruence.
Qed.
Lemma flat_map_nil {A B} (f : A -> list B) l : (forall x, In x l -> f x = []) -> flat_map f l = [].
Proof. induction l as [|x l IH]; intros H; [reflexivity|]. cbn. rewrite (H x), IH; [reflexivity| |left; reflexivity]. intros y Hy. apply H. right. exact Hy. Qed.

Section Execute.
  Variables (eps delta : R) (d : nat) (g : lgraph) (level : lgraph -> Z -> res (option aval)) (lv : nat -> option aval).
  Variables (lp : nat -> nat) (good : qop -> Prop) (cap : nat).
  Variables (step : nat -> lgraph -> qstate -> nat * nat -> res qstate) (phase : lgraph -> nat -> mat -> list qop -> nat -> res (list qop)).
  Variables (z nsa : bool) (U : mat).
  Hypothesis RT : routable d g.
  Hypothesis CV : covers d g.
  Hypothesis LV : forall g' i, routable d g' -> covers d g' -> same_but_phases d g g' -> i < d -> level g' (Z.of_nat i) = Ok (lv i).
  Hypothesis Lin : forall n, n < d -> lp n < d.
  Hypothesis Inj : forall n m, n < d -> m < d -> lp n = lp m -> n = m.
  Hypothesis E0 : (0 <= eps)%R.
  Hypothesis D0 : (0 <= delta)%R.
  Hypothesis HU : unitary d U.
  Hypothesis HS : forall g1, routable d g1 -> covers d g1 -> same_but_phases d g g1 -> (z = true /\ g1 = g \/ no_phases g1) ->
    step_good d lp eps good cap (step d g1) /\ phase_good d lp delta (phase g1 d).
  Hypothesis GV : forall p, good (OV (Some p)).

  Lemma execute_ok : exists ops0 new X alg tot g', execute delta level step phase z nsa d U g = Ok (ops0 ++ new, alg, tot, g') /\
    Forall good new /\ List.length new <= List.length (visits d) * cap + d /\
    moved d lp X (ops_matrix d new) /\ unitary d X /\ close d (qr_error eps delta d) (mmul d X U) mid /\
    (z = true -> ops0 = []) /\ (z = false -> ops0 = flat_map (flushed delta d g lv) (seq 0 d)) /\
    routable d g' /\ same_but_phases d g g' /\ (z = true -> g' = g) /\
    (z = false -> forall n v, has_attr g n "phase_storage" v ->
       has_attr g' n "phase_storage" (if nsa then AFlt (turned g (Z.to_nat n)) else AInt 0)) /\
    (z = false -> nsa = false -> no_phases g').
  Proof.
    unfold execute. destruct z eqn:EZ.
    - unfold flush. cbn [bindr]. destruct (HS g RT CV (sb_refl d g) (or_introl (conj eq_refl eq_refl))) as [SG PG].
      destruct (emitted d lp eps delta good cap Lin Inj _ _ U [] E0 D0 HU SG PG GV) as (s & new & X & E1 & E2 & F & L & M & T & C).
      rewrite E1. cbn [bindr]. rewrite E2. cbn [bindr]. unfold recover. cbn [negb]. rewrite Bool.andb_false_r. cbn [bindr].
      exists [], new, X, (q_alg s), (q_total s), g. split; [reflexivity|]. split; [exact F|]. split; [exact L|]. split; [exact M|].
      split; [exact T|]. split; [exact C|]. split; [reflexivity|]. split; [discriminate|]. split; [exact RT|]. split; [apply sb_refl|].
      split; [reflexivity|]. split; discriminate.
    - destruct (flush_ok delta d g level lv RT CV LV) as (ops0 & rec & g1 & E & R1 & S1 & N1 & CASES). rewrite E. cbn [bindr].
      assert (CV1 := sb_covers d g g1 S1 CV).
      destruct (HS g1 R1 CV1 S1 (or_intror N1)) as [SG PG].
      destruct (emitted d lp eps delta good cap Lin Inj _ _ U ops0 E0 D0 HU SG PG GV) as (s & new & X & E1 & E2 & F & L & M & T & C).
      rewrite E1. cbn [bindr]. rewrite E2. cbn [bindr].
      assert (REC : exists g', recover false nsa rec g1 = Ok g' /\ routable d g' /\ same_but_phases d g g' /\ (nsa = false -> no_phases g') /\
         forall n v, has_attr g n "phase_storage" v -> has_attr g' n "phase_storage" (if nsa then AFlt (turned g (Z.to_nat n)) else AInt 0)).
      { unfold recover. cbn [negb]. rewrite Bool.andb_true_r. destruct CASES as [(NP & _ & _ & ->)|(HP & _ & -> & H1)].
        - exists g. split; [|split; [exact RT|split; [apply sb_refl|split; [intros _; exact N1|intros n v H; exfalso; exact (NP n v H)]]]].
          destruct nsa; [|reflexivity]. destruct (has_phases_ok d g RT) as (b & -> & HB). cbn [bindr]. destruct b; [|reflexivity].
          exfalso. destruct (proj1 HB eq_refl) as (n & v & H). exact (NP n v H).
        - destruct nsa.
          + destruct (has_phases_ok d g1 R1) as (b & -> & HB). cbn [bindr].
            assert (HB' : b = true).
            { apply HB. destruct (rt_initial d g RT) as (n & Hn). assert (B := rt_logical d g RT n (has_node g _ _ _ Hn)).
              exists (Z.of_nat (Z.to_nat n)), (AInt 0). apply H1. lia. }
            subst b. rewrite (covers_length d g1 R1 CV1).
            destruct (recover_loop d g g1 R1 S1 (fun n Hn => ex_intro _ _ (H1 n Hn)) d (le_n d)) as (g2 & -> & R2 & S2 & L2).
            exists g2. split; [reflexivity|]. split; [exact R2|]. split; [exact S2|]. split; [discriminate|]. intros n v H.
            assert (B := rt_logical d g RT n (has_node g _ _ _ H)). apply (has_attr_alook g2 (rt_wf d g2 R2)). rewrite L2.
            rewrite (proj2 (Z.leb_le 0 n)), (proj2 (Z.ltb_lt n (Z.of_nat d))) by lia. reflexivity.
          + exists g1. split; [reflexivity|]. split; [exact R1|]. split; [exact S1|]. split; [intros _; exact N1|]. intros n v H.
            assert (B := rt_logical d g RT n (has_node g _ _ _ H)). replace n with (Z.of_nat (Z.to_nat n)) by lia. apply H1. lia. }
      destruct REC as (g' & ER & R' & S' & H1' & H'). rewrite ER. cbn [bindr].
      exists ops0, new, X, (q_alg s), (q_total s), g'. split; [reflexivity|]. split; [exact F|]. split; [exact L|]. split; [exact M|].
      split; [exact T|]. split; [exact C|]. split; [discriminate|]. split; [|split; [exact R'|split; [exact S'|split; [discriminate|split; [intros _; exact H'|intros _; exact H1']]]]].
      intros _. destruct CASES as [(NP & -> & _ & _)|(_ & -> & _)]; [|reflexivity]. symmetry. apply flat_map_nil.
      intros n _. unfold flushed. rewrite turned_0 by (apply stored_none; [intros v; apply NP|apply (rt_wf d g RT)]).
      rewrite Rabs_R0. destruct (Rlt_dec delta 0); [lra|reflexivity].
  Qed.
End Execute.

(** A list of refused virtual rotations does nothing. *)
Lemma refused_matrix d l : (forall o, In o l -> o = OV None) -> meq d (ops_matrix d l) mid.
Proof.
  induction l as [|o l IH]; intros H; [apply meq_refl|]. replace (o :: l) with ([o] ++ l) by reflexivity.
  eapply meq_trans; [apply ops_app|]. eapply meq_trans; [apply mmul_ext; [apply IH; intros o' H'; apply H; right; exact H'|]|apply mmul_id_l].
  eapply meq_trans; [apply ops_one|]. rewrite (H o) by (left; reflexivity). cbn [op_matrix].
  eapply meq_trans; [apply virtrz_array_diag|]. intros i j Hi Hj. unfold mdiag, mid. rewrite Ropp_0, cis_0. destruct (Nat.eqb i j), (Nat.eqb i 0); reflexivity.
Qed.
Lemma close_ext d e A A' B B' : meq d A A' -> meq d B B' -> close d e A B -> close d e A' B'.
Proof. intros E1 E2 H i j Hi Hj. rewrite <- E1, <- E2 by assumption. apply H; assumption. Qed.
Lemma flushed_length delta d g lv k : List.length (flat_map (flushed delta d g lv) (seq 0 k)) <= k.
Proof.
  induction k as [|k IH]; [cbn; lia|]. rewrite seq_S, flat_map_app, app_length. cbn [flat_map plus]. rewrite app_nil_r.
  assert (List.length (flushed delta d g lv k) <= 1) by (unfold flushed; destruct (Rlt_dec delta (Rabs (turned g k))); cbn; lia). lia.
Qed.

Theorem log_execute_ok sp eps delta z nsa d U g : finds_shortest sp -> routable d g -> covers d g -> unitary d U -> (0 <= eps)%R -> (0 <= delta)%R ->
  exists ops alg tot g', log_execute sp eps delta z nsa d U g = Ok (ops, alg, tot, g') /\
    close d (qr_error eps delta d) (mmul d (ops_matrix d ops) U) mid /\ unitary d (ops_matrix d ops) /\
    (forall r, In (OR r) ops -> lev_b r = lev_a r + 1) /\ 2 * List.length ops <= d * (d - 1) + 4 * d /\
    (no_phases g -> 2 * List.length ops <= d * (d - 1) + 2 * d) /\
    routable d g' /\ same_but_phases d g g' /\
    (z = false -> nsa = false -> no_phases g').
Proof.
  intros SP RT CV HU E0 D0.
  destruct (execute_ok eps delta d g log_level (fun _ => None) (fun n => n) (fun o => match o with OR r => lev_b r = lev_a r + 1 | OV _ => True end) 1
    (log_step sp eps) (log_phase delta) z nsa U RT CV) as (ops0 & new & X & alg & tot & g' & E & F & L & M & T & C & Z1 & Z2 & R' & S' & Z3 & Z4 & Z5); trivial.
  - intros g1 i R1 C1 S1 Hi. unfold log_level. destruct (node_attrs_ok d g1 R1 (Z.of_nat i) (C1 i Hi)) as (A & -> & _). reflexivity.
  - intros g1 R1 C1 S1 _. split; [apply log_step_good; assumption|apply log_phase_good; assumption].
  - assert (O0 : forall o, In o ops0 -> o = OV None).
    { intros o H. destruct z; [rewrite Z1 in H by reflexivity; destruct H|]. rewrite Z2 in H by reflexivity.
      apply in_flat_map in H. destruct H as (i & _ & H). unfold flushed in H. destruct (Rlt_dec delta (Rabs (turned g i))); [|destruct H].
      destruct H as [<-|[]]. reflexivity. }
    assert (L0 : List.length ops0 <= d) by (destruct z; [rewrite Z1 by reflexivity; cbn; lia|rewrite Z2 by reflexivity; apply flushed_length]).
    assert (V := visits_length d).
    assert (MX : meq d (ops_matrix d (ops0 ++ new)) X).
    { eapply meq_trans; [apply ops_app|]. eapply meq_trans; [apply mmul_ext; [apply meq_refl|apply refused_matrix; exact O0]|].
      eapply meq_trans; [apply mmul_id_r|]. intros i j Hi Hj. apply M; assumption. }
    exists (ops0 ++ new), alg, tot, g'. split; [exact E|]. split; [|split; [|split; [|split; [|split; [|split; [exact R'|split; [exact S'|]]]]]]].
    + eapply close_ext; [apply mmul_ext; [apply meq_sym; exact MX|apply meq_refl]|apply meq_refl|exact C].
    + eapply unitary_ext; [apply meq_sym; exact MX|exact T].
    + intros r H. apply in_app_or in H. destruct H as [H|H]; [apply O0 in H; discriminate|]. rewrite Forall_forall in F. apply (F (OR r) H).
    + rewrite app_length. lia.
    + intros NP. replace ops0 with (@nil qop); [cbn; lia|]. destruct z; [symmetry; apply Z1; reflexivity|]. rewrite Z2 by reflexivity.
      symmetry. apply flat_map_nil. intros n _. unfold flushed. rewrite turned_0.
      * rewrite Rabs_R0. destruct (Rlt_dec delta 0); [lra|reflexivity].
      * unfold stored. destruct (node_attr g (Z.of_nat n) "phase_storage") as [v|e] eqn:EA; [|reflexivity].
        assert (H : has_attr g (Z.of_nat n) "phase_storage" v).
        { apply (has_attr_alook g (rt_wf d g RT)). unfold node_attr, node_attrs in EA. unfold alook.
          destruct (nget (nd g) (Z.of_nat n)) as [a|]; cbn in EA; [|discriminate]. destruct (aget a "phase_storage"); cbn in EA; [|discriminate].
          congruence. }
        destruct (num v) as [x|] eqn:EN; [|reflexivity]. eapply NP; eassumption.
    + exact Z5.
Qed.
