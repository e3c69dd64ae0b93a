(** C51, C52, C86: density matrices, partial traces, mapped results and labels. *)
From Coq Require Import Ascii String Reals Lra Lia List Arith ZArith Permutation.
From Verif.Base Require Import Py Cplx Matrix Radix Text.
From Verif.Gates Require Import FactoryModel FactoryProofs.
From Verif.Visual Require Import VisModel VisSpec DensityProofs TraceProofs RemapProofs.
Import ListNotations.
Local Open Scope nat_scope.
Local Open Scope list_scope.

(** C51.  With two or more qudits of at most 10 levels, the matrix is diagonal and carries the fraction of each
    outcome; its trace is 1 exactly when all outcomes are indices of the register. *)
Theorem C51_density : forall results dims, 2 <= List.length dims -> Forall (fun d => d <= 10) dims -> results <> [] ->
  exists M, density_from_counts results dims = Ok M /\
    (forall r c, r < prodl dims -> c < prodl dims -> M r c = if Nat.eqb r c then fraction results r else 0%R) /\
    (trace (prodl dims) (fun r c => RtoC (M r c)) = C1 <-> Forall (fun z => (0 <= z < Z.of_nat (prodl dims))%Z) results).
Proof.
  intros results dims Hl F Hr. destruct (density_ok results dims Hl F Hr) as (M & E & HM). exists M. split; [exact E|]. split; [exact HM|].
  rewrite <- (density_unit results (prodl dims) Hr). unfold trace. rewrite (csum_ext _ _ (fun i => RtoC (fraction results i))); [reflexivity|].
  intros i Hi. rewrite HM by exact Hi. rewrite Nat.eqb_refl. reflexivity.
Qed.
Print Assumptions C51_density.
(** Every other register is refused, whatever the outcomes. *)
Theorem C51_density_refuted : forall results dims, results <> [] -> Forall (fun d => 1 <= d) dims ->
  (List.length dims = 1 -> exists e, density_from_counts results dims = Err e) /\
  (Exists (fun d => 10 < d) dims -> density_from_counts results dims = Err IndexError).
Proof.
  intros results dims Hr P. split; [|intros X; apply density_large; assumption]. intros L. destruct dims as [|d [|d' dims]]; try discriminate. inversion P; subst.
  destruct (Nat.le_gt_cases d 10) as [Hd|Hd]; [exists AttributeError; apply density_single; [lia|exact Hr]|]. exists IndexError. apply density_large; trivial. constructor. lia.
Qed.
Print Assumptions C51_density_refuted.
Theorem C51_empty : forall dims, dims <> [] -> Forall (fun d => 1 <= d) dims -> density_from_counts [] dims = Err ZeroDivisionError.
Proof. exact density_empty. Qed.
Print Assumptions C51_empty.
(** The partial trace is the textbook one over the qudits that are not kept, whatever the order of the list; it keeps
    the trace, and it keeps Hermitian matrices Hermitian. *)
Theorem C51_partial_trace : forall rho keep dims, NoDup keep -> (forall z, In z keep -> (0 <= z < Z.of_nat (List.length dims))%Z) ->
  let f := keeps keep (List.length dims) in
  exists r, partial_trace (prodl dims) rho keep dims = Ok (prodl (chosen f dims), r) /\
    traced_out dims f rho r /\
    trace (prodl (chosen f dims)) r = trace (prodl dims) rho /\
    (meq (prodl dims) (madj rho) rho -> meq (prodl (chosen f dims)) (madj r) r).
Proof.
  intros rho keep dims ND HB f. destruct (partial_trace_ok rho keep dims ND HB) as (r & E & H). exists r. fold f in E, H. split; [exact E|]. split; [exact H|].
  assert (Lf : List.length f = List.length dims) by (unfold f, keeps; rewrite map_length, seq_length; reflexivity).
  split; [apply traced_trace; assumption|apply traced_hermitian; assumption].
Qed.
Print Assumptions C51_partial_trace.
Theorem C51_partial_trace_rejects : forall rho keep dims, (forall d, In d dims -> 2 <= d) ->
  (forall z, In z keep -> (- Z.of_nat (List.length dims) <= z < Z.of_nat (List.length dims))%Z) ->
  ~ (NoDup keep /\ Forall (fun z => (0 <= z)%Z) keep) -> partial_trace (prodl dims) rho keep dims = Err ValueError.
Proof. exact partial_trace_rejects. Qed.
Print Assumptions C51_partial_trace_rejects.
Example C51_case : exists M, density_from_counts [0; 5; 5; 3]%Z [2; 3] = Ok M /\ M 5 5 = (1 / 2)%R /\ M 0 5 = 0%R /\
  trace 6 (fun r c => RtoC (M r c)) = C1 /\
  exists r, partial_trace 6 (fun r c => RtoC (M r c)) [1%Z] [2; 3] = Ok (3, r) /\ trace 3 r = C1 /\ r 2 2 = RtoC (1 / 2).
Proof.
  destruct (C51_density [0; 5; 5; 3]%Z [2; 3] ltac:(cbn; lia) ltac:(repeat constructor) ltac:(discriminate)) as (M & E & HM & HT). exists M. split; [exact E|]. cbn [prodl Nat.mul Nat.add] in HM, HT.
  assert (T : trace 6 (fun r c => RtoC (M r c)) = C1) by (apply HT; repeat constructor; lia).
  assert (FR : forall i k, count_occ Z.eq_dec [0; 5; 5; 3]%Z (Z.of_nat i) = k -> fraction [0; 5; 5; 3]%Z i = (INR k / 4)%R) by (intros i k <-; unfold fraction; cbn [List.length INR]; f_equal; lra).
  split; [rewrite HM by lia; rewrite Nat.eqb_refl, (FR 5 2) by reflexivity; cbn; lra|]. split; [rewrite HM by lia; reflexivity|]. split; [exact T|].
  destruct (C51_partial_trace (fun r c => RtoC (M r c)) [1%Z] [2; 3] ltac:(repeat constructor; cbn; tauto) ltac:(cbn; intros z [<-|[]]; lia)) as (r & Er & Hr & Ht & _).
  change (keeps [1%Z] (List.length [2; 3])) with [false; true] in *. cbn [chosen prodl Nat.mul Nat.add] in Er, Ht. exists r. split; [exact Er|]. split; [rewrite Ht; exact T|].
  assert (X := Hr [2] [2] ltac:(repeat constructor) ltac:(repeat constructor)). cbn [chosen map negb merged hd tl prodl undigits digits Nat.mul Nat.add csum] in X. rewrite X. cbn.
  rewrite !HM by lia. cbn [Nat.eqb]. rewrite (FR 2 0), (FR 5 2) by reflexivity. unfold RtoC, Cadd, C0. cbn. f_equal; lra.
Qed.

(** C52.  For mappings that order the levels of each qudit, the remapped vector carries the same entries in another
    order: entry x goes to the place of the mapped levels of x. *)
Theorem C52_permutation : forall inv, inverts inv -> forall dims ms v, good_mappings dims ms -> List.length v = prodl dims ->
  exists w, remap_result inv v dims (Some ms) = Ok w /\ on_physical dims ms v w /\ Permutation v w.
Proof.
  intros inv Hinv dims ms v G L. destruct (remap_permutes inv Hinv dims ms v G L) as (w & E & H). exists w. split; [exact E|]. split; [exact H|]. apply (physical_permutation dims ms); assumption.
Qed.
Print Assumptions C52_permutation.
Theorem C52_identity : forall inv dims v, remap_result inv v dims None = Ok v /\ remap_result inv v dims (Some []) = Ok v.
Proof. intros; split; reflexivity. Qed.
Print Assumptions C52_identity.
(** Results [w] on the mapped levels are brought back to the results [v] of the circuit exactly when every mapping is
    its own inverse: otherwise the mapping is applied a second time instead of being undone. *)
Theorem C52_direction_refuted : forall inv, inverts inv -> forall dims ms, good_mappings dims ms -> 0 < prodl dims ->
  ((forall v w, on_physical dims ms v w -> remap_result inv w dims (Some ms) = Ok v) <-> Forall self_inverse ms).
Proof. exact remap_restores. Qed.
Print Assumptions C52_direction_refuted.
(** The heights of the two histograms. *)
Theorem C52_plots : forall inv, inverts inv -> forall dims ms, good_mappings dims ms ->
  (forall outcomes, exists h w, plot_counts inv outcomes dims (Some ms) = Ok (state_labels dims, h) /\
     plot_counts inv outcomes dims None = Ok (state_labels dims, w) /\ on_physical dims ms w h /\
     forall i, i < prodl dims -> nth i w C0 = RtoC (INR (count_occ Z.eq_dec outcomes (Z.of_nat i)))) /\
  (forall v, List.length v = prodl dims -> exists h, plot_state inv v dims (Some ms) = Ok (state_labels dims, h) /\
     on_physical dims ms (map (fun z => RtoC (Cmod z)) v) h).
Proof.
  intros inv Hinv dims ms G.
  assert (LL : List.length (state_labels dims) = prodl dims) by (unfold state_labels; rewrite map_length; apply length_product).
  split.
  - intros outcomes. set (w := map (fun i => RtoC (INR (count outcomes i))) (seq 0 (prodl dims))).
    assert (Lw : List.length w = prodl dims) by (unfold w; rewrite map_length, seq_length; reflexivity).
    destruct (remap_permutes inv Hinv dims ms w G Lw) as (h & E & H). exists h, w. unfold plot_counts. rewrite LL. fold w. rewrite E. split; [reflexivity|]. split; [reflexivity|]. split; [exact H|].
    intros i Hi. unfold w. rewrite (nth_indep _ C0 (RtoC (INR (count outcomes 0)))) by (rewrite map_length, seq_length; exact Hi). rewrite (map_nth (fun i => RtoC (INR (count outcomes i)))), seq_nth by exact Hi. cbn [Nat.add].
    f_equal. f_equal. unfold count. clear. induction outcomes as [|z l IH]; [reflexivity|]. cbn [filter count_occ]. destruct (Z.eqb_spec (Z.of_nat i) z) as [E|N]; destruct (Z.eq_dec z (Z.of_nat i)) as [E'|N']; try congruence. cbn [List.length]. rewrite IH. reflexivity.
  - intros v L. destruct (remap_permutes inv Hinv dims ms (map (fun z => RtoC (Cmod z)) v) G ltac:(rewrite map_length; exact L)) as (h & E & H). exists h. unfold plot_state. rewrite E. split; [reflexivity|exact H].
Qed.
Print Assumptions C52_plots.
(** A cyclic mapping of three levels satisfies the hypotheses and is not its own inverse. *)
Example C52_case : exists inv, inverts inv /\ good_mappings [2; 3] [[1; 0]; [1; 2; 0]]%Z /\ 0 < prodl [2; 3] /\
  self_inverse [1; 0]%Z /\ ~ Forall self_inverse [[1; 0]; [1; 2; 0]]%Z /\
  exists v w, on_physical [2; 3] [[1; 0]; [1; 2; 0]]%Z v w /\ remap_result inv w [2; 3] (Some [[1; 0]; [1; 2; 0]]%Z) <> Ok v.
Proof.
  destruct inverts_exists as (inv & Hinv). exists inv. split; [exact Hinv|].
  assert (G : good_mappings [2; 3] [[1; 0]; [1; 2; 0]]%Z).
  { constructor; [apply perm_swap|]. constructor; [|constructor]. cbn. apply Permutation_sym. apply (perm_trans (l' := [1; 0; 2]%Z)); [apply perm_swap|]. constructor. apply perm_swap. }
  split; [exact G|]. split; [cbn; lia|]. split; [intros i Hi; cbn in Hi; destruct i as [|[|i]]; [reflexivity|reflexivity|lia]|].
  assert (N : ~ Forall self_inverse [[1; 0]; [1; 2; 0]]%Z) by (intros F; inversion F as [|? ? ? F2]; subst; inversion F2 as [|? ? F3 ?]; subst; specialize (F3 0 ltac:(cbn; lia)); discriminate). split; [exact N|].
  apply Classical_Prop.NNPP. intros X. apply N. apply (C52_direction_refuted inv Hinv [2; 3] _ G ltac:(cbn; lia)). intros v w H. apply Classical_Prop.NNPP. intros Y. apply X. exists v, w. split; assumption.
Qed.

(** C86.  With at most 10 levels per qudit the labels of the states are pairwise distinct and there is one for each
    state; label number k is made of the levels of state k. *)
Theorem C86_labels : forall dims, Forall (fun d => d <= 10) dims ->
  NoDup (state_labels dims) /\ List.length (state_labels dims) = prodl dims /\
  forall x, valid dims x -> nth (undigits dims x) (state_labels dims) [] = concat (map show_nat x).
Proof.
  intros dims F. destruct (labels_distinct dims F) as [A B]. split; [exact A|]. split; [exact B|]. intros x V. assert (H := undigits_lt _ _ V).
  unfold state_labels in *. rewrite map_length in B. change (@nil ascii) with ((fun item => concat (map show_nat item)) (@nil nat)). rewrite map_nth.
  rewrite nth_product by exact H. rewrite digits_undigits by exact V. reflexivity.
Qed.
Print Assumptions C86_labels.
(** With more levels two states may have the same label. *)
Theorem C86_labels_refuted : forall a b, 12 <= a -> 11 <= b ->
  nth (undigits [a; b] [1; 10]) (state_labels [a; b]) [] = nth (undigits [a; b] [11; 0]) (state_labels [a; b]) [] /\
  undigits [a; b] [1; 10] < undigits [a; b] [11; 0] < List.length (state_labels [a; b]).
Proof. exact labels_collide. Qed.
Print Assumptions C86_labels_refuted.
Example C86_case : nth 5 (state_labels [2; 3]) [] = tx "12"%string /\ nth 3 (state_labels [2; 3]) [] = tx "10"%string.
Proof. split; reflexivity. Qed.
