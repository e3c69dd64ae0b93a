(** Proofs for C47, C48, C71, C73 and C74. *)
From Coq Require Import List ZArith Arith Lia Sorted Permutation Reals Lra Bool.
From Verif Require Import Base.Py Base.PyFacts Base.Cplx Base.Matrix Base.Radix Base.Fiber Base.Expm.
From Verif Require Import Circuit.GateModel Gates.FactoryModel Gates.FactorySpec Gates.ActsOn Gates.FactoryProofs Gates.Embed Gates.FactoryMain.
From Verif Require Import Gates.AnglesModel Gates.SingleModel Gates.TwoModel Gates.TwoSpec Gates.TwoProofs Gates.EntProofs Sim.TnSpec Sim.TnProofs.
From Verif Require Import Variational.AnsatzModel Variational.AnsatzSpec.
Import ListNotations.
Local Open Scope nat_scope.

(** ** C47 *)
Lemma split_loop_spec {A} n m : 0 < n + m -> forall fuel (p : list A) k, List.length p <= fuel -> List.length p = k * (n + m) ->
  concat (split_loop fuel n m p) = p /\ blocks n m k (split_loop fuel n m p).
Proof.
  intros H. induction fuel as [|f IH]; intros p k F L.
  - destruct p; [|cbn in F; lia]. destruct k; [|cbn in L; lia]. split; reflexivity.
  - destruct p as [|x p']; [destruct k; [split; reflexivity|cbn in L; lia]|]. set (p := x :: p') in *. destruct k as [|k]; [cbn in L; lia|].
    change (split_loop (S f) n m p) with (firstn n p :: firstn m (skipn n p) :: split_loop f n m (skipn (n + m) p)).
    destruct (IH (skipn (n + m) p) k) as [I1 I2]; [rewrite skipn_length; unfold p in *; cbn [List.length] in *; lia|rewrite skipn_length; clearbody p; lia|].
    split.
    + cbn [concat]. rewrite I1. replace (skipn (n + m) p) with (skipn m (skipn n p)) by (rewrite skipn_skipn; f_equal; lia). rewrite (firstn_skipn m (skipn n p)). apply firstn_skipn.
    + cbn [blocks]. split; [|split; [|exact I2]]; rewrite firstn_length, ?skipn_length; clearbody p; lia.
Qed.
Lemma split_ok {A} (p : list A) d0 d1 bs : params_splitter p [d0; d1] = Ok bs ->
  concat bs = p /\ exists k, blocks (sud_params d0) (sud_params d1) k bs.
Proof.
  unfold params_splitter. fold (sud_params d0) (sud_params d1). destruct (Nat.eqb_spec (sud_params d0 + sud_params d1) 0) as [|N]; [discriminate|].
  destruct (Nat.eqb_spec (List.length p mod (sud_params d0 + sud_params d1)) 0) as [E|]; [|discriminate]. cbn [negb]. intros H. injection H as <-.
  destruct (split_loop_spec (sud_params d0) (sud_params d1) ltac:(lia) (List.length p) p (List.length p / (sud_params d0 + sud_params d1)) (Nat.le_refl _)) as [C B].
  { pose proof (Nat.div_mod (List.length p) (sud_params d0 + sud_params d1) ltac:(lia)). lia. }
  split; [exact C|eexists; exact B].
Qed.
Lemma split_accepts {A} (p : list A) d0 d1 k : 0 < sud_params d0 + sud_params d1 -> List.length p = k * (sud_params d0 + sud_params d1) ->
  exists bs, params_splitter p [d0; d1] = Ok bs /\ blocks (sud_params d0) (sud_params d1) k bs.
Proof.
  intros H L. unfold params_splitter. fold (sud_params d0) (sud_params d1). destruct (Nat.eqb_spec (sud_params d0 + sud_params d1) 0) as [|N]; [lia|].
  rewrite L, Nat.mod_mul by lia. cbn [Nat.eqb negb]. eexists. split; [reflexivity|]. apply split_loop_spec; lia.
Qed.
Lemma split_rejects {A} (p : list A) d0 d1 : 0 < sud_params d0 + sud_params d1 -> (forall k, List.length p <> k * (sud_params d0 + sud_params d1)) ->
  params_splitter p [d0; d1] = Err ValueError.
Proof.
  intros H L. unfold params_splitter. fold (sud_params d0) (sud_params d1). destruct (Nat.eqb_spec (sud_params d0 + sud_params d1) 0) as [|N]; [lia|].
  destruct (Nat.eqb_spec (List.length p mod (sud_params d0 + sud_params d1)) 0) as [E|]; [|reflexivity]. exfalso.
  apply (L (List.length p / (sud_params d0 + sud_params d1))). pose proof (Nat.div_mod (List.length p) (sud_params d0 + sud_params d1) ltac:(lia)). lia.
Qed.
Lemma split_other {A} (p : list A) dims : List.length dims <> 2 -> params_splitter p dims = Err ValueError.
Proof. destruct dims as [|a [|b [|c r]]]; cbn; intros H; try reflexivity. lia. Qed.

(** the bounds *)
Lemma set_at_app {A} (a : list A) x b y : set_at (a ++ x :: b) (List.length a) y = a ++ y :: b.
Proof. unfold set_at. rewrite firstn_app, Nat.sub_diag, firstn_all, skipn_app, Nat.sub_diag, skipn_all. cbn. now rewrite app_nil_r. Qed.
Lemma fold_set_at {A} (f : nat -> A) x k : forall done,
  fold_left (fun acc i => set_at acc i (f i)) (seq (List.length done) k) (done ++ repeat x k) = done ++ map f (seq (List.length done) k).
Proof.
  induction k as [|k IH]; intros done; [reflexivity|]. cbn [seq fold_left repeat map]. rewrite set_at_app.
  replace (done ++ f (List.length done) :: repeat x k) with ((done ++ [f (List.length done)]) ++ repeat x k) by (rewrite <- app_assoc; reflexivity).
  replace (S (List.length done)) with (List.length (done ++ [f (List.length done)])) by (rewrite app_length; cbn; lia). rewrite IH. rewrite <- app_assoc. reflexivity.
Qed.
Lemma pairs_flat d : 0 < d -> forall k, flat_map (fun m => map (fun n => (m, n)) (seq 0 d)) (seq 0 k) = map (fun i => (i / d, i mod d)) (seq 0 (k * d)).
Proof.
  intros H. induction k as [|k IH]; [reflexivity|]. rewrite seq_S, flat_map_app, IH. cbn [flat_map]. rewrite app_nil_r.
  replace (S k * d) with (k * d + d) by lia. rewrite seq_app, map_app. f_equal. cbn [Nat.add].
  assert (Q : forall j o, o + j <= d -> map (fun n => (k, n)) (seq o j) = map (fun i => (i / d, i mod d)) (seq (k * d + o) j)).
  { induction j as [|j IHj]; intros o L; [reflexivity|]. cbn [seq map]. f_equal.
    - rewrite Nat.div_add_l, Nat.div_small by lia. rewrite (Nat.add_comm (k * d)), Nat.mod_add, Nat.mod_small by lia. f_equal. lia.
    - rewrite IHj by lia. do 3 f_equal. lia. }
  rewrite (Q d 0) by lia. do 2 f_equal. lia.
Qed.
Definition kind d (i : nat) : R * R := if i / d =? i mod d then bound_3 else if i mod d <? i / d then bound_1 else bound_2.
Lemma removelast_map_seq {A} (f : nat -> A) n : removelast (map f (seq 0 n)) = map f (seq 0 (n - 1)).
Proof. destruct n as [|n]; [reflexivity|]. rewrite seq_S, map_app. cbn [map]. rewrite removelast_last. cbn. now rewrite Nat.sub_0_r. Qed.
Lemma bounds_closed d : 0 < d -> bounds_assigner bound_1 bound_2 bound_3 d = map (kind d) (seq 0 (sud_params d)).
Proof.
  intros H. unfold bounds_assigner, sud_params. rewrite pairs_flat by exact H.
  assert (Q : forall is acc, fold_left (fun (acc : list (R * R)) mn => let '(m, n) := mn in
      set_at acc (reindex m n d) (if m =? n then bound_3 else if n <? m then bound_1 else bound_2)) (map (fun i => (i / d, i mod d)) is) acc =
      fold_left (fun acc i => set_at acc i (kind d i)) is acc).
  { induction is as [|i is IH]; intros acc; [reflexivity|]. cbn [map fold_left]. rewrite IH. f_equal. unfold kind.
    f_equal. unfold reindex. pose proof (Nat.div_mod i d ltac:(lia)). lia. }
  rewrite Q. pose proof (fold_set_at (kind d) (0%R, 0%R) (d * d) []) as E. cbn [List.length app] in E. rewrite E. apply removelast_map_seq.
Qed.
Lemma nth_concat_repeat {A} (b : list A) x : forall k i j, i < k -> j < List.length b -> nth (i * List.length b + j) (concat (repeat b k)) x = nth j b x.
Proof.
  induction k as [|k IH]; intros i j Hi Hj; [lia|]. cbn [repeat concat]. destruct i as [|i].
  - cbn [Nat.mul Nat.add]. apply app_nth1. exact Hj.
  - rewrite app_nth2 by lia. replace (S i * List.length b + j - List.length b) with (i * List.length b + j) by lia. apply IH; lia.
Qed.
Lemma bounds_block_length d0 d1 : 0 < d0 -> 0 < d1 ->
  List.length (bounds_assigner bound_1 bound_2 bound_3 d0 ++ bounds_assigner bound_1 bound_2 bound_3 d1) = sud_params d0 + sud_params d1.
Proof. intros. rewrite app_length, !bounds_closed, !map_length, !seq_length by assumption. reflexivity. Qed.
Lemma bounds_length d0 d1 layers : 0 < d0 -> 0 < d1 -> List.length (return_bounds d0 d1 layers) = (layers + 2) * (sud_params d0 + sud_params d1).
Proof.
  intros H0 H1. unfold return_bounds. rewrite <- (bounds_block_length d0 d1 H0 H1). generalize (bounds_assigner bound_1 bound_2 bound_3 d0 ++ bounds_assigner bound_1 bound_2 bound_3 d1).
  intros b. replace (layers + 1 + 1) with (layers + 2) by lia. induction (layers + 2) as [|k IH]; [reflexivity|]. cbn [repeat concat]. rewrite app_length, IH. lia.
Qed.
Lemma kind_rc d r c : c < d -> kind d (r * d + c) = if r =? c then (0%R, (2 * PI)%R) else if c <? r then (0%R, PI) else (0%R, (PI / 2)%R).
Proof. intros H. unfold kind. rewrite Nat.div_add_l, Nat.div_small, Nat.add_0_r by lia. rewrite Nat.add_comm, Nat.mod_add, Nat.mod_small by lia. reflexivity. Qed.
Lemma bounds_entry0 d0 d1 layers k r c : 0 < d0 -> 0 < d1 -> k < layers + 2 -> c < d0 -> r * d0 + c < sud_params d0 ->
  nth (k * (sud_params d0 + sud_params d1) + (r * d0 + c)) (return_bounds d0 d1 layers) (0%R, 0%R) = interval r c.
Proof.
  intros H0 H1 Hk Hc Hr. unfold return_bounds. replace (layers + 1 + 1) with (layers + 2) by lia. rewrite <- (bounds_block_length d0 d1 H0 H1).
  rewrite nth_concat_repeat; [|exact Hk|rewrite bounds_block_length by assumption; lia]. rewrite app_nth1 by (rewrite bounds_closed, map_length, seq_length by assumption; exact Hr).
  rewrite bounds_closed by exact H0. rewrite nth_map_seq by exact Hr. apply kind_rc, Hc.
Qed.
Lemma bounds_entry1 d0 d1 layers k r c : 0 < d0 -> 0 < d1 -> k < layers + 2 -> c < d1 -> r * d1 + c < sud_params d1 ->
  nth (k * (sud_params d0 + sud_params d1) + sud_params d0 + (r * d1 + c)) (return_bounds d0 d1 layers) (0%R, 0%R) = interval r c.
Proof.
  intros H0 H1 Hk Hc Hr. unfold return_bounds. replace (layers + 1 + 1) with (layers + 2) by lia. rewrite <- Nat.add_assoc. rewrite <- (bounds_block_length d0 d1 H0 H1).
  rewrite nth_concat_repeat; [|exact Hk|rewrite bounds_block_length by assumption; lia]. rewrite app_nth2 by (rewrite bounds_closed, map_length, seq_length by assumption; lia).
  replace (sud_params d0 + (r * d1 + c) - List.length (bounds_assigner bound_1 bound_2 bound_3 d0)) with (r * d1 + c) by (rewrite bounds_closed, map_length, seq_length by assumption; lia).
  rewrite bounds_closed by exact H1. rewrite nth_map_seq by exact Hr. apply kind_rc, Hc.
Qed.
