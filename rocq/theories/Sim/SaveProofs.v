(** Proofs about SaveModel. *)
From Verif.Base Require Import Py PyFacts.
From Verif.Sim Require Import SaveModel SaveSpec.
Local Open Scope string_scope.
Local Open Scope list_scope.

Section Facts.
Context {V S : Type}.
Variables (join : string -> string -> string) (user : string) (fit : V -> V -> res V) (as_int : S -> res Z) (can_open : string -> bool).
Notation states := (save_full_states join user fit can_open).
Notation shots := (save_shots join as_int can_open).
Notation after := (history join user fit as_int can_open).

Notation target := (@SaveSpec.target V S join user).

Lemma write_same (fs : files V) p c : write fs p c p = Some c.
Proof. unfold write. rewrite String.eqb_refl. reflexivity. Qed.
Lemma write_other (fs : files V) p c q : q <> p -> write fs p c q = fs q.
Proof. intros H. unfold write. destruct (String.eqb_spec q p); [contradiction|reflexivity]. Qed.
Lemma step_other fs c q : target c <> q -> step join user fit as_int can_open fs c q = fs q.
Proof.
  intros H. apply not_eq_sym in H. destruct c as [names [|v vs] path name|l path name]; cbn [step target] in *.
  - reflexivity.
  - unfold save_full_states, states_path. destruct (can_open _); [|reflexivity]. destruct (mapr _ _); cbn [snd]; apply write_other, H.
  - unfold save_shots. destruct (can_open _); [|reflexivity]. destruct (mapr _ _); cbn [snd]; apply write_other, H.
Qed.
Lemma after_other h : forall fs q, (forall c, In c h -> target c <> q) -> after fs h q = fs q.
Proof.
  unfold history. induction h as [|c h IH]; intros fs q H; cbn; [reflexivity|]. rewrite IH by (intros x Hx; apply H; right; exact Hx).
  apply step_other, H. left. reflexivity.
Qed.
Lemma mapr_all {A B} (f : A -> res B) l ws : Forall2 (fun x w => f x = Ok w) l ws -> mapr f l = Ok ws.
Proof. induction 1 as [|x w l ws H _ IH]; cbn; [reflexivity|]. rewrite H, IH. reflexivity. Qed.
Lemma mapr_some_err {A B} (f : A -> res B) l x e : In x l -> f x = Err e -> exists e', mapr f l = Err e'.
Proof.
  induction l as [|y l IH]; cbn; [tauto|]. intros [<-|H] E.
  - rewrite E. cbn. eauto.
  - destruct (f y); cbn; [|eauto]. destruct (IH H E) as [e' ->]. cbn. eauto.
Qed.
Lemma states_kept (shape : V -> nat) names v0 vs path name fs h : (forall v w, shape w = shape v -> fit v w = Ok w) ->
  (forall v, In v vs -> shape v = shape v0) -> can_open (target (SaveStates names (v0 :: vs) path name)) = true ->
  (forall c, In c h -> target c <> target (SaveStates names (v0 :: vs) path name)) ->
  exists fs1, states names (v0 :: vs) path name fs = (Ok tt, fs1) /\
    after fs1 h (target (SaveStates names (v0 :: vs) path name)) = Some (StateRows (combine (map names (seq 0 (List.length (v0 :: vs)))) (v0 :: vs))).
Proof.
  intros F E O H. cbn [target] in *. unfold save_full_states, states_path. rewrite O.
  rewrite (mapr_all (fit v0) (v0 :: vs) (v0 :: vs)).
  - eexists. split; [reflexivity|]. rewrite after_other by exact H. apply write_same.
  - constructor; [apply F; reflexivity|]. clear -F E. induction vs as [|v vs IH]; constructor; [apply F, E; left; reflexivity|apply IH; intros w Hw; apply E; right; exact Hw].
Qed.
Lemma shots_kept l zs path name fs h : Forall2 (fun s z => as_int s = Ok z) l zs -> can_open (join path name) = true ->
  (forall c, In c h -> target c <> join path name) ->
  exists fs1 rows, shots l path name fs = (Ok tt, fs1) /\ after fs1 h (join path name) = Some (ShotRows rows) /\
    List.length rows = List.length l /\ forall i z, nth_error zs i = Some z -> nth_error rows i = Some (Z.of_nat i, z).
Proof.
  intros F O H. unfold save_shots. rewrite O, (mapr_all as_int l zs F). assert (L : List.length l = List.length zs) by (clear -F; induction F; cbn; congruence). eexists. eexists.
  split; [reflexivity|]. split; [rewrite after_other by exact H; apply write_same|]. rewrite combine_length, map_length, seq_length, <- L.
  split; [lia|]. clear -L. rewrite L. clear. intros i z H. change i with (0 + i) at 2. generalize 0 as k. revert i H.
  induction zs as [|y zs IH]; intros [|i] H k; cbn in *; try discriminate.
  - injection H as ->. rewrite Nat.add_0_r. reflexivity.
  - rewrite (IH i H (Datatypes.S k)). do 3 f_equal. lia.
Qed.
Lemma rejected names vs path name l d n fs :
  (vs = [] -> states names vs path name fs = (Err IndexError, fs)) /\
  (vs <> [] -> can_open (target (SaveStates names vs path name)) = false -> states names vs path name fs = (Err FileNotFoundError, fs)) /\
  (can_open (join d n) = false -> shots l d n fs = (Err FileNotFoundError, fs)).
Proof.
  split; [intros ->; reflexivity|]. split.
  - intros H O. cbn [target] in O. unfold save_full_states, states_path. destruct vs; [congruence|]. rewrite O. reflexivity.
  - intros O. unfold save_shots. rewrite O. reflexivity.
Qed.
Lemma lost names v0 vs v e path name (fs : files V) : In v (v0 :: vs) -> fit v0 v = Err e -> can_open (target (SaveStates names (v0 :: vs) path name)) = true ->
  exists e' fs1, states names (v0 :: vs) path name fs = (Err e', fs1) /\ fs1 (target (SaveStates names (v0 :: vs) path name)) = Some Empty.
Proof.
  intros I E O. cbn [target] in *. unfold save_full_states, states_path. rewrite O. destruct (mapr_some_err (fit v0) _ _ _ I E) as [e' ->].
  eexists. eexists. split; [reflexivity|]. apply write_same.
Qed.
Lemma lost_shots l s e path name (fs : files V) : In s l -> as_int s = Err e -> can_open (join path name) = true ->
  exists e' fs1, shots l path name fs = (Err e', fs1) /\ fs1 (join path name) = Some Empty.
Proof.
  intros I E O. unfold save_shots. rewrite O. destruct (mapr_some_err as_int _ _ _ I E) as [e' ->].
  eexists. eexists. split; [reflexivity|]. apply write_same.
Qed.
End Facts.
