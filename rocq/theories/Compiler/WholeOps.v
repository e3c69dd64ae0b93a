(** Operators of gate lists and placements of a register (C93). *)
From Coq Require Import Reals List Arith ZArith Lia Lra Sorted Permutation.
From Verif.Base Require Import Py Cplx Matrix Radix Fiber Angle.
From Verif.Circuit Require Import GateModel.
From Verif.Gates Require Import TwoModel TwoSpec FactoryModel FactorySpec ActsOn.
From Verif.Sim Require Import TnModel TnSpec TnProofs.
From Verif.Noise Require Import ChannelProofs.
From Verif.Local Require Import QrSpec QrMath QrMoved.
From Verif.State Require Import Drop.
From Verif.Ent Require Import BlockModel BlockSpec PairMath.
From Verif.Compiler Require Import WholeModel WholeSpec WholeNorm.
Import ListNotations.
Local Open Scope nat_scope.

Section Ops.
  Variable dims : list nat.
  Notation N := (prodl dims).
  Notation sz ts := (prodl (sub_dims dims ts)).

  (** *** One matrix for a list of gates *)
  Definition opof (l : list (gate mat)) (A : mat) : Prop := forall psi phi, evolves dims psi l phi <-> veq N phi (mapply N A psi).
  Lemma veq_sym n (v w : vec) : veq n v w -> veq n w v.
  Proof. intros H k Hk. symmetry. apply H. exact Hk. Qed.
  Lemma veq_trans n (u v w : vec) : veq n u v -> veq n v w -> veq n u w.
  Proof. intros H H' k Hk. rewrite H by exact Hk. apply H'. exact Hk. Qed.
  Lemma op_nil : opof [] mid.
  Proof.
    intros psi phi. cbn [evolves]. split; intros H.
    - eapply veq_trans; [exact H|]. apply veq_sym, mapply_id.
    - eapply veq_trans; [exact H|]. apply mapply_id.
  Qed.
  Lemma op_one g A : well_placed dims g -> matrix_of dims g A -> opof [g] A.
  Proof.
    intros W M psi phi. cbn [evolves]. split.
    - intros (A' & M' & E). eapply veq_trans; [exact E|]. apply mapply_ext; [|intros k _; reflexivity]. apply (matrix_of_unique dims g); assumption.
    - intros E. exists A. auto.
  Qed.
  Lemma op_app a b A B : opof a A -> opof b B -> opof (a ++ b) (mmul N B A).
  Proof.
    intros HA HB psi phi. assert (G : evolves dims psi (a ++ b) phi <-> exists m, evolves dims psi a m /\ evolves dims m b phi).
    { clear HA HB. revert psi. induction a as [|g a IH]; intros psi; cbn [app evolves].
      - split; [intros H; exists psi; split; [intros k _; reflexivity|exact H]|]. intros (m & E & H). apply (evolves_veq dims b psi m phi); [apply veq_sym; exact E|exact H].
      - split; [intros (C & M & H); apply IH in H; destruct H as (m & H1 & H2); exists m; split; [exists C; auto|exact H2]|].
        intros (m & (C & M & H1) & H2). exists C. split; [exact M|]. apply IH. exists m. auto. }
    rewrite G. split.
    - intros (m & H1 & H2). apply HA in H1. apply HB in H2. eapply veq_trans; [exact H2|]. apply veq_sym. eapply veq_trans; [apply mapply_mmul|].
      apply mapply_ext; [apply meq_refl|]. apply veq_sym. exact H1.
    - intros H. exists (mapply N A psi). split; [apply HA; intros k _; reflexivity|]. apply HB. eapply veq_trans; [exact H|]. apply mapply_mmul.
  Qed.
  Lemma op_ext l A B : meq N A B -> opof l A -> opof l B.
  Proof.
    intros E H psi phi. rewrite (H psi phi). assert (X : veq N (mapply N A psi) (mapply N B psi)) by (apply mapply_ext; [exact E|intros k _; reflexivity]).
    split; intros Y; eapply veq_trans; [exact Y|exact X|exact Y|apply veq_sym; exact X].
  Qed.

  (** *** Embedding *)
  Definition emb (ts : list nat) (M : mat) : mat := fmat eqb_listN (masked dims ts) (sub_index dims ts) (fun _ => M).
  Lemma emb_acts ts M : lines_ok dims ts -> acts_on dims ts [] [] M (emb ts M).
  Proof.
    intros Hl. apply acts_on_fmat; [exact Hl|intros c []|]. intros r c Hr Hc. unfold emb, fmat, block. cbn [map].
    destruct (eqb_listN _ _); [|reflexivity]. destruct (list_eq_dec Z.eq_dec [] []) as [_|X]; [reflexivity|destruct (X eq_refl)].
  Qed.
  Lemma emb_mul ts M M' : lines_ok dims ts -> meq N (mmul N (emb ts M) (emb ts M')) (emb ts (mmul (sz ts) M M')).
  Proof.
    intros Hl. assert (O : off_targets dims ts []) by (intros c []). apply (acts_unique dims ts [] [] (mmul (sz ts) M M')); trivial;
      [apply acts_mul; trivial; apply emb_acts; exact Hl|apply emb_acts; exact Hl].
  Qed.
  Lemma emb_id ts : lines_ok dims ts -> meq N (emb ts mid) mid.
  Proof. intros Hl. assert (O : off_targets dims ts []) by (intros c []). apply (acts_unique dims ts [] [] mid); trivial; [apply emb_acts; exact Hl|apply acts_id; trivial]. Qed.
  Lemma emb_ext ts M M' : lines_ok dims ts -> meq (sz ts) M M' -> meq N (emb ts M) (emb ts M').
  Proof.
    intros Hl E. assert (O : off_targets dims ts []) by (intros c []). apply (acts_unique dims ts [] [] M'); trivial; [|apply emb_acts; exact Hl].
    eapply acts_ext; [exact Hl|exact O|exact E|apply meq_refl|apply emb_acts; exact Hl].
  Qed.
  Lemma emb_unitary ts M : lines_ok dims ts -> unitary (sz ts) M -> unitary N (emb ts M).
  Proof. intros Hl. assert (O : off_targets dims ts []) by (intros c []). apply (acts_unitary dims ts [] [] M); trivial. apply emb_acts. exact Hl. Qed.
  Lemma emb_approx ts M M' e : lines_ok dims ts -> (0 <= e)%R -> close (sz ts) e M M' -> approx N (INR (sz ts) * e) (emb ts M) (emb ts M').
  Proof. intros Hl He HC. eapply embed_approx; [exact Hl|exact He|exact HC|apply emb_acts; exact Hl|apply emb_acts; exact Hl]. Qed.
  Lemma emb_phase ts g M : lines_ok dims ts -> meq N (emb ts (with_phase g M)) (with_phase g (emb ts M)).
  Proof. intros Hl r c Hr Hc. unfold emb, with_phase, fmat. destruct (eqb_listN _ _); [reflexivity|ring]. Qed.
  Lemma op_list ts gs ms : lines_ok dims ts -> Forall2 (fun g M => opof [g] (emb ts M)) gs ms -> opof gs (emb ts (chain (sz ts) ms)).
  Proof.
    intros Hl H. induction H as [|g M gs ms Hg _ IH].
    - eapply op_ext; [apply meq_sym, emb_id; exact Hl|]. apply op_nil.
    - change (g :: gs) with ([g] ++ gs). eapply op_ext; [|apply op_app; [exact Hg|exact IH]].
      eapply meq_trans; [apply emb_mul; exact Hl|]. apply emb_ext; [exact Hl|]. unfold chain. cbn [fold_left].
      apply meq_sym. eapply meq_trans; [apply chain_from|]. apply mmul_ext; [apply meq_refl|apply mmul_id_r].
  Qed.

  (** *** The gates of the passes *)
  Lemma lines_one q : q < List.length dims -> lines_ok dims [q].
  Proof. intros H. split; [repeat constructor; intros []|]. intros t [<-|[]]. exact H. Qed.
  Definition pair_of (q0 q1 : nat) : list nat := if q0 <? q1 then [q0; q1] else [q1; q0].
  Lemma lines_pair q0 q1 : q0 < List.length dims -> q1 < List.length dims -> q0 <> q1 -> lines_ok dims (pair_of q0 q1).
  Proof.
    intros H0 H1 D. unfold pair_of. destruct (q0 <? q1); (split; [constructor; [intros [E|[]]; congruence|repeat constructor; intros []]|]);
      intros t [<-|[<-|[]]]; assumption.
  Qed.
  Lemma one_size q : sz [q] = nth q dims 0.
  Proof. unfold sub_dims. cbn. lia. Qed.
  Lemma one_index q k : sub_index dims [q] k = digit dims k q.
  Proof. unfold sub_index, sub_dims. cbn. lia. Qed.
  Lemma pair_size q0 q1 : sz (pair_of q0 q1) = nth q0 dims 0 * nth q1 dims 0.
  Proof. unfold pair_of. destruct (q0 <? q1); unfold sub_dims; cbn; lia. Qed.
  Lemma pair_sub q0 q1 k : sub_index dims (pair_of q0 q1) k = pair_index (q0 <? q1) (nth q0 dims 0) (nth q1 dims 0) (digit dims k q0) (digit dims k q1).
  Proof. unfold sub_index, sub_dims, pair_of, pair_index. destruct (q0 <? q1); cbn; lia. Qed.

  Lemma op_on_one q dag M : q < List.length dims -> opof [on_one q dag M] (emb [q] (if dag then madj M else M)).
  Proof.
    intros H. apply op_one.
    - unfold well_placed, target_lines. cbn. split; [discriminate|]. split; [repeat constructor; intros []|]. split; [|exact I]. intros t [<-|[]]. lia.
    - exists [q]. unfold target_nats, target_lines, control_nats, control_levels, core. cbn. rewrite Nat2Z.id. split; [apply Permutation_refl|]. split; [repeat constructor|].
      apply (emb_acts [q]). apply lines_one. exact H.
  Qed.
  Lemma op_on_two q0 q1 dag M : q0 < List.length dims -> q1 < List.length dims -> q0 <> q1 ->
    opof [on_two q0 q1 dag M] (emb (pair_of q0 q1) (if dag then madj M else M)).
  Proof.
    intros H0 H1 D. apply op_one.
    - unfold well_placed, target_lines. cbn. split; [discriminate|]. split; [constructor; [intros [E|[]]; lia|repeat constructor; intros []]|]. split; [|exact I]. intros t [<-|[<-|[]]]; lia.
    - exists (pair_of q0 q1). unfold target_nats, target_lines, control_nats, control_levels, core. cbn. rewrite !Nat2Z.id. split; [|split].
      + unfold pair_of. destruct (q0 <? q1); [apply Permutation_refl|apply perm_swap].
      + unfold pair_of. destruct (Nat.ltb_spec q0 q1); repeat constructor; lia.
      + apply emb_acts. apply lines_pair; assumption.
  Qed.
  Lemma op_on_many ts M : ts <> [] -> StronglySorted lt ts -> (forall t, In t ts -> t < List.length dims) ->
    opof [Gate "" MULTI (TList (map Z.of_nat ts)) None false false M] (emb ts M) /\ lines_ok dims ts.
  Proof.
    intros Ne S L. assert (ND : NoDup ts).
    { clear - S. induction S as [|a l S IH F]; constructor; trivial. intros Hin. rewrite Forall_forall in F. specialize (F a Hin). lia. }
    assert (LO : lines_ok dims ts) by (split; assumption). split; [|exact LO]. apply op_one.
    - unfold well_placed, target_lines. cbn. split; [destruct ts; [congruence|discriminate]|]. split; [|split; [|exact I]].
      + apply FinFun.Injective_map_NoDup; [|exact ND]. intros a b E. lia.
      + intros t Ht. apply in_map_iff in Ht. destruct Ht as (a & <- & Ha). specialize (L a Ha). lia.
    - exists ts. unfold target_nats, target_lines, control_nats, control_levels, core. cbn. rewrite map_map.
      rewrite (map_ext _ (fun x => x)) by (intros; apply Nat2Z.id). rewrite map_id. split; [apply Permutation_refl|]. split; [exact S|apply emb_acts; exact LO].
  Qed.
  (* a matrix on one of two lines *)
  Lemma widen_first q0 q1 M : q0 < List.length dims -> q1 < List.length dims -> q0 < q1 ->
    meq N (emb [q0] M) (emb [q0; q1] (mkron (nth q1 dims 0) M mid)).
  Proof.
    intros H0 H1 L. assert (P : pair_of q0 q1 = [q0; q1]) by (unfold pair_of; rewrite (proj2 (Nat.ltb_lt _ _) L); reflexivity).
    assert (L2 : lines_ok dims [q0; q1]) by (rewrite <- P; apply lines_pair; lia). assert (L1 := lines_one q0 H0).
    apply (acts_unique dims [q0] [] [] M); [exact L1|intros c []|apply emb_acts; exact L1|]. assert (E := emb_acts [q0; q1] (mkron (nth q1 dims 0) M mid) L2).
    assert (SI : forall k, sub_index dims [q0; q1] k = digit dims k q0 * nth q1 dims 0 + digit dims k q1) by (intros k; rewrite <- P, pair_sub; unfold pair_index; rewrite (proj2 (Nat.ltb_lt _ _) L); reflexivity).
    assert (DV : forall k, k < N -> (digit dims k q0 * nth q1 dims 0 + digit dims k q1) / nth q1 dims 0 = digit dims k q0 /\ (digit dims k q0 * nth q1 dims 0 + digit dims k q1) mod nth q1 dims 0 = digit dims k q1).
    { intros k Hk. assert (X := digit_lt dims k q1 Hk H1). split; [symmetry; apply (Nat.div_unique _ _ _ (digit dims k q1)); lia|symmetry; apply (Nat.mod_unique _ _ (digit dims k q0)); lia]. }
    split; intros r c Hr Hc Ha.
    - intros _. assert (Ha2 : agree_off dims [q0; q1] r c) by (intros i Hi Hn; apply Ha; [exact Hi|intros [->|[]]; apply Hn; left; reflexivity]).
      rewrite (ao_active _ _ _ _ _ _ E r c Hr Hc Ha2 eq_refl). rewrite !SI, !one_index. unfold mkron. destruct (DV r Hr) as [-> ->], (DV c Hc) as [-> ->].
      rewrite (Ha q1 H1) by (intros [X|[]]; lia). unfold mid. rewrite Nat.eqb_refl. ring.
    - intros X. destruct X. reflexivity.
    - destruct (agree_dec dims [q0; q1] r c) as [Ha2|Ha2]; [|apply (ao_off _ _ _ _ _ _ E r c Hr Hc Ha2)].
      rewrite (ao_active _ _ _ _ _ _ E r c Hr Hc Ha2 eq_refl). rewrite !SI. unfold mkron. destruct (DV r Hr) as [-> ->], (DV c Hc) as [-> ->].
      unfold mid. rewrite (proj2 (Nat.eqb_neq _ _)); [ring|]. intros X. apply Ha. intros i Hi Hn. destruct (Nat.eq_dec i q1) as [->|]; [exact X|].
      apply Ha2; [exact Hi|]. intros [->|[->|[]]]; [apply Hn; left; reflexivity|congruence].
  Qed.
  Lemma widen_second q0 q1 M : q0 < List.length dims -> q1 < List.length dims -> q0 < q1 ->
    meq N (emb [q1] M) (emb [q0; q1] (mkron (nth q1 dims 0) mid M)).
  Proof.
    intros H0 H1 L. assert (P : pair_of q0 q1 = [q0; q1]) by (unfold pair_of; rewrite (proj2 (Nat.ltb_lt _ _) L); reflexivity).
    assert (L2 : lines_ok dims [q0; q1]) by (rewrite <- P; apply lines_pair; lia). assert (L1 := lines_one q1 H1).
    apply (acts_unique dims [q1] [] [] M); [exact L1|intros c []|apply emb_acts; exact L1|]. assert (E := emb_acts [q0; q1] (mkron (nth q1 dims 0) mid M) L2).
    assert (SI : forall k, sub_index dims [q0; q1] k = digit dims k q0 * nth q1 dims 0 + digit dims k q1) by (intros k; rewrite <- P, pair_sub; unfold pair_index; rewrite (proj2 (Nat.ltb_lt _ _) L); reflexivity).
    assert (DV : forall k, k < N -> (digit dims k q0 * nth q1 dims 0 + digit dims k q1) / nth q1 dims 0 = digit dims k q0 /\ (digit dims k q0 * nth q1 dims 0 + digit dims k q1) mod nth q1 dims 0 = digit dims k q1).
    { intros k Hk. assert (X := digit_lt dims k q1 Hk H1). split; [symmetry; apply (Nat.div_unique _ _ _ (digit dims k q1)); lia|symmetry; apply (Nat.mod_unique _ _ (digit dims k q0)); lia]. }
    split; intros r c Hr Hc Ha.
    - intros _. assert (Ha2 : agree_off dims [q0; q1] r c) by (intros i Hi Hn; apply Ha; [exact Hi|intros [->|[]]; apply Hn; right; left; reflexivity]).
      rewrite (ao_active _ _ _ _ _ _ E r c Hr Hc Ha2 eq_refl). rewrite !SI, !one_index. unfold mkron. destruct (DV r Hr) as [-> ->], (DV c Hc) as [-> ->].
      rewrite (Ha q0 H0) by (intros [X|[]]; lia). unfold mid. rewrite Nat.eqb_refl. ring.
    - intros X. destruct X. reflexivity.
    - destruct (agree_dec dims [q0; q1] r c) as [Ha2|Ha2]; [|apply (ao_off _ _ _ _ _ _ E r c Hr Hc Ha2)].
      rewrite (ao_active _ _ _ _ _ _ E r c Hr Hc Ha2 eq_refl). rewrite !SI. unfold mkron. destruct (DV r Hr) as [-> ->], (DV c Hc) as [-> ->].
      unfold mid. rewrite (proj2 (Nat.eqb_neq _ _)); [ring|]. intros X. apply Ha. intros i Hi Hn. destruct (Nat.eq_dec i q0) as [->|]; [exact X|].
      apply Ha2; [exact Hi|]. intros [->|[->|[]]]; [congruence|apply Hn; left; reflexivity].
  Qed.

  (** *** Placement *)
  Variable p : nat -> nat -> nat.
  Hypothesis Lin : forall i n, i < List.length dims -> n < nth i dims 0 -> p i n < nth i dims 0.
  Hypothesis Inj : forall i n m, i < List.length dims -> n < nth i dims 0 -> m < nth i dims 0 -> p i n = p i m -> n = m.
  Definition reg (k : nat) : nat := undigits dims (map (fun i => p i (digit dims k i)) (seq 0 (List.length dims))).
  Lemma reg_spec k : k < N -> reg k < N /\ forall i, i < List.length dims -> digit dims (reg k) i = p i (digit dims k i).
  Proof.
    intros Hk. assert (V : valid dims (map (fun i => p i (digit dims k i)) (seq 0 (List.length dims)))).
    { apply valid_nth; [rewrite map_length, seq_length; reflexivity|]. intros i Hi. rewrite nth_map_seq by exact Hi. apply Lin; [exact Hi|apply digit_lt; assumption]. }
    split; [apply undigits_lt; exact V|]. intros i Hi. unfold digit at 1, reg. rewrite digits_undigits by exact V. apply (nth_map_seq (fun i => p i (digit dims k i))). exact Hi.
  Qed.
  Lemma reg_lt k : k < N -> reg k < N. Proof. intros H. apply reg_spec. exact H. Qed.
  Lemma reg_digit k i : k < N -> i < List.length dims -> digit dims (reg k) i = p i (digit dims k i). Proof. intros H. apply reg_spec. exact H. Qed.
  Lemma reg_inj a b : a < N -> b < N -> reg a = reg b -> a = b.
  Proof.
    intros Ha Hb E. apply (digit_ext dims); trivial. intros i Hi. apply (Inj i); trivial; try (apply digit_lt; assumption). rewrite <- !reg_digit, E by assumption. reflexivity.
  Qed.
  Lemma placed_reg v w : placed_state dims p v w <-> forall r, r < N -> w (reg r) = v r.
  Proof.
    split; intros H.
    - intros r Hr. apply H; [exact Hr|apply reg_lt; exact Hr|]. intros i Hi. apply reg_digit; assumption.
    - intros r k Hr Hk D. rewrite <- H by exact Hr. f_equal. apply (digit_ext dims); trivial; [apply reg_lt; exact Hr|]. intros i Hi. rewrite reg_digit by assumption. apply D. exact Hi.
  Qed.
  Lemma placed_exists v : exists w, placed_state dims p v w.
  Proof. exists (fun k => v (unlp N reg k)). apply placed_reg. intros r Hr. rewrite (unlp_lp N reg reg_inj) by exact Hr. reflexivity. Qed.
  Lemma placed_mapply A B v w : moved N reg A B -> placed_state dims p v w -> placed_state dims p (mapply N A v) (mapply N B w).
  Proof.
    intros M P. apply placed_reg. rewrite placed_reg in P. intros r Hr. unfold mapply.
    rewrite <- (csum_bij N reg (unlp N reg) (fun k => Cmul (B (reg r) k) (w k))).
    - apply csum_ext. intros k Hk. rewrite M, P by assumption. reflexivity.
    - exact reg_lt.
    - intros k Hk. destruct (image N reg reg_lt reg_inj k Hk) as (n & Hn & <-). rewrite (unlp_lp N reg reg_inj) by assumption. auto.
    - apply (unlp_lp N reg reg_inj).
  Qed.
  Lemma placed_fun v w w' : placed_state dims p v w -> placed_state dims p v w' -> veq N w w'.
  Proof. intros H H' k Hk. rewrite placed_reg in H, H'. destruct (image N reg reg_lt reg_inj k Hk) as (n & Hn & <-). rewrite H, H' by exact Hn. reflexivity. Qed.
  Lemma placed_norm v w : placed_state dims p v w -> norm2 N w = norm2 N v.
  Proof.
    intros P. rewrite placed_reg in P. apply RtoC_inj. unfold norm2. rewrite !RtoC_rsum. rewrite <- (csum_bij N reg (unlp N reg) (fun k => RtoC (Cnorm2 (w k)))).
    - apply csum_ext. intros k Hk. rewrite P by exact Hk. reflexivity.
    - exact reg_lt.
    - intros k Hk. destruct (image N reg reg_lt reg_inj k Hk) as (n & Hn & <-). rewrite (unlp_lp N reg reg_inj) by assumption. auto.
    - apply (unlp_lp N reg reg_inj).
  Qed.
  Lemma moved_emb ts U V : lines_ok dims ts ->
    (forall r c, r < N -> c < N -> V (sub_index dims ts (reg r)) (sub_index dims ts (reg c)) = U (sub_index dims ts r) (sub_index dims ts c)) ->
    moved N reg (emb ts U) (emb ts V).
  Proof.
    intros Hl H r c Hr Hc. assert (X : agree_off dims ts (reg r) (reg c) <-> agree_off dims ts r c).
    { split; intros Ha i Hi Hn; specialize (Ha i Hi Hn); rewrite ?reg_digit in * by assumption; [|congruence]. apply (Inj i); trivial; apply digit_lt; assumption. }
    assert (EU := emb_acts ts U Hl). assert (EV := emb_acts ts V Hl). destruct (agree_dec dims ts r c) as [Ha|Ha].
    - rewrite (ao_active _ _ _ _ _ _ EU r c Hr Hc Ha eq_refl), (ao_active _ _ _ _ _ _ EV _ _ (reg_lt r Hr) (reg_lt c Hc) (proj2 X Ha) eq_refl). apply H; assumption.
    - rewrite (ao_off _ _ _ _ _ _ EU r c Hr Hc Ha), (ao_off _ _ _ _ _ _ EV _ _ (reg_lt r Hr) (reg_lt c Hc)); [reflexivity|]. intros Y. apply Ha, X, Y.
  Qed.
  Lemma home_index ts k : k < N -> (forall t, In t ts -> t < List.length dims /\ at_home dims p t) -> sub_index dims ts (reg k) = sub_index dims ts k.
  Proof. intros Hk H. unfold sub_index. f_equal. apply map_ext_in. intros t Ht. destruct (H t Ht) as [Lt Hm]. rewrite reg_digit by assumption. apply Hm. apply digit_lt; assumption. Qed.
End Ops.
