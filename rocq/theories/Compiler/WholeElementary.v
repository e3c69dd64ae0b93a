(** Compiled circuits consist of elementary gates. *)
From Coq Require Import Reals List Arith ZArith Lia.
From Verif.Base Require Import Py PyFacts Cplx Matrix.
From Verif.Circuit Require Import CircuitModel GateModel.
From Verif.Compiler Require Import DispatchModel WholeModel WholeSpec ElementarySpec.
Import ListNotations.
Local Open Scope nat_scope.

Lemma made_elementary g : made g -> elementary g.
Proof. intros H. split; [exact H|]. destruct g as [| | |q d [o b]|q0 q1 dc dt e|]; try contradiction H; try destruct e; cbn; auto. Qed.

Section W.
Variable sp : LevelsModel.lgraph -> Z -> Z -> res (list Z).
Variable round6 : R -> R.
Variable det : nat -> (nat -> nat -> R) -> R.
Variable solve : nat -> (nat -> nat -> R) -> (nat -> R) -> res (list R).
Variable fuel : nat.
Notation pass := (the_pass sp round6 det solve fuel).

Lemma pass_made c f gs g gs' l : pass c f gs g = (gs', Ok l) -> Forall made l.
Proof.
  unfold the_pass. destruct (pass_result sp round6 det solve fuel c f gs g) as [[l0 g0]|] eqn:E; [|discriminate]. intros [= <- <-]. apply Forall_forall. intros h Hh. revert E.
  unfold pass_result.
  assert (R : forall q d l0, Forall made (map (CRot q d) l0)). { intros q d l1. apply Forall_forall. intros x Hx. apply in_map_iff in Hx as (y & <- & _). exact I. }
  assert (K : Forall made l0 -> made h). { rewrite Forall_forall. intros H. exact (H _ Hh). }
  intros E. apply K. clear K Hh. revert E.
  destruct c; try discriminate; 
  match goal with |- context [single] => destruct (single g) as [[[q d] U]|] | |- _ => destruct (double g) as [t|] end; cbn [bindr]; try discriminate;
  repeat match goal with |- context [bindr ?e _] => destruct e; cbn [bindr]; try (intros; discriminate) end; intros [= E _]; subst l0; try apply R;
  try (apply Forall_forall; intros x Hx; apply in_map_iff in Hx as (y & <- & _); exact I).
  apply Forall_forall. intros x Hx. apply in_flat_map in Hx as (y & _ & Hy).
  destruct y; cbn in Hy; [destruct Hy as [<-|[]]; exact I|destruct Hy as [<-|[]]; exact I|contradiction].
Qed.

Lemma O0_dict : exists d, choose [] ["PhyLocQRPass"%string; "PhyEntQRCEXPass"%string] = Ok d /\ dget gtype_eqb d SINGLE = Some PhyLocQR /\ dget gtype_eqb d TWO = Some PhyEntQRCEX /\ dget gtype_eqb d MULTI = None.
Proof. eexists. repeat split; reflexivity. Qed.

Lemma rewrite_all_made d (Hs : dget gtype_eqb d SINGLE = Some PhyLocQR) (Ht : dget gtype_eqb d TWO = Some PhyEntQRCEX) (Hm : dget gtype_eqb d MULTI = None) :
  forall l gs new gs' l', rewrite_all type_of pass d gs l new = (gs', Ok l') ->
  forall h, In h l' -> In h new \/ made h \/ (In h l /\ type_of h = MULTI).
Proof.
  induction l as [|g l IH]; intros gs new gs' l' E h Hh; cbn [rewrite_all] in E.
  - injection E as E1 E2. subst. auto.
  - destruct (type_of g) eqn:T; rewrite ?Hs, ?Ht, ?Hm in E; cbn [transpile_gate] in E;
    try (match type of E with context [pass ?c false gs g] => destruct (pass c false gs g) as [g1 [l1|]] eqn:E1; [|discriminate] end;
      destruct (IH _ _ _ _ E h Hh) as [K|[K|[K1 K2]]]; [apply in_app_or in K as [K|K]; [auto|right; left; apply pass_made in E1; rewrite Forall_forall in E1; exact (E1 _ K)]|auto|right; right; split; [right; exact K1|exact K2]]).
    destruct (IH _ _ _ _ E h Hh) as [K|[K|[K1 K2]]]; [apply in_app_or in K as [K|[<-|[]]]; [auto|right; right; split; [left; reflexivity|exact T]]|auto|right; right; split; [right; exact K1|exact K2]].
Qed.

Lemma O0_made gs c gs' out : whole_O0 sp round6 det solve fuel gs c = (gs', Ok out) ->
  forall h, In h (instructions out) -> elementary h \/ (In h (instructions c) /\ type_of h = MULTI).
Proof.
  unfold whole_O0, compile_O0, compile. destruct O0_dict as (d & -> & Hs & Ht & Hm).
  destruct (rewrite_all _ _ d gs (instructions c) []) as [g1 [l'|]] eqn:E; [|discriminate].
  destruct (mappings_of level_maps g1 c) as [ms|] eqn:Em; cbn [bindr]; [|discriminate]. intros [= <- <-] h Hh. cbn in Hh.
  destruct (rewrite_all_made d Hs Ht Hm _ _ _ _ _ E h Hh) as [[]|[K|K]]; [left; apply made_elementary; exact K|right; exact K].
Qed.

Lemma rewrite_split_made (f : bool) : forall l gs new gs' l', rewrite_split type_of pass (fun _ => Ok (PhyLocQR, f)) gs l new = (gs', Ok l') ->
  Forall made new -> Forall made l'.
Proof.
  induction l as [|g l IH]; intros gs new gs' l' E Hn; cbn [rewrite_split] in E.
  - injection E as E1 E2. subst. auto.
  - destruct (type_of g) eqn:T; cbn [transpile_gate] in E;
    match type of E with context [pass ?c ?f gs g] => destruct (pass c f gs g) as [g1 [l1|]] eqn:E1; [|discriminate] end;
      apply (IH _ _ _ _ E); apply Forall_app; (split; [exact Hn|exact (pass_made _ _ _ _ _ _ E1)]).
Qed.
Lemma O1_made gs c gs' out : whole_O1 sp round6 det solve fuel gs c = (gs', Ok out) -> forall h, In h (instructions out) -> elementary h.
Proof.
  unfold whole_O1, compile_O1. destruct (resynthesised (dimensions c) (instructions c)) as [l|]; [|discriminate].
  destruct (mappings_of level_maps gs c) as [ms|]; [|discriminate]. unfold finish.
  destruct (rewrite_split _ _ _ gs _ []) as [g1 [l'|]] eqn:E; cbn [finish]; [|try destruct (mappings_of _ _ _); discriminate].
  intros H h Hh. apply made_elementary. pose proof (rewrite_split_made _ _ _ _ _ _ E (Forall_nil _)) as K. rewrite Forall_forall in K. apply K.
  revert H. match goal with |- context [bindr ?e _] => destruct e; cbn [bindr]; [|discriminate] end. intros H. injection H as _ H. subst out. exact Hh.
Qed.
Lemma rewrite_split_made2 nl : forall l gs new gs' l',
  rewrite_split (fun o => type_of (snd o)) (object_pass sp round6 det solve fuel) (fun g => let? f := nl g in Ok (PhyLocAda, f)) gs l new = (gs', Ok l') ->
  Forall (fun o => made (snd o)) new -> Forall (fun o => made (snd o)) l'.
Proof.
  induction l as [|g l IH]; intros gs new gs' l' E Hn; cbn [rewrite_split] in E.
  - injection E as E1 E2. subst. auto.
  - assert (P : forall c f g1 l1, object_pass sp round6 det solve fuel c f gs g = (g1, Ok l1) -> Forall (fun o => made (snd o)) l1).
    { intros c f g1 l1. unfold object_pass. destruct (pass c f gs (snd g)) as [g2 [l2|]] eqn:E2; cbn [bindr]; [|discriminate]. intros [= <- <-].
      apply pass_made in E2. rewrite Forall_map. exact E2. }
    destruct (type_of (snd g)) eqn:T; cbn [transpile_gate] in E; try (destruct (nl g) as [f|]; cbn [bindr] in E; [|discriminate]);
    cbn [transpile_gate] in E; match type of E with context [object_pass sp round6 det solve fuel ?c ?f gs g] => destruct (object_pass sp round6 det solve fuel c f gs g) as [g1 [l1|]] eqn:E1; [|discriminate] end;
      apply (IH _ _ _ _ E); apply Forall_app; (split; [exact Hn|exact (P _ _ _ _ E1)]).
Qed.
Lemma O2_made gs c gs' out : whole_O2 sp round6 det solve fuel gs c = (gs', Ok out) -> forall h, In h (instructions out) -> elementary h.
Proof.
  unfold whole_O2, compile_O2. destruct (lookahead (instructions c)) as [nl|]; [|discriminate].
  destruct (rewrite_split _ _ _ gs _ []) as [g1 [l'|]] eqn:E; cbn [finish]; [|discriminate].
  intros H h Hh. apply made_elementary. pose proof (rewrite_split_made2 _ _ _ _ _ _ E (Forall_nil _)) as K. rewrite Forall_forall in K.
  revert H. repeat match goal with |- context [bindr ?e _] => destruct e eqn:?; cbn [bindr]; [|discriminate] end. intros [= _ <-]. cbn in Hh.
  match goal with H : bindr ?e _ = Ok _ |- _ => destruct e; cbn [bindr] in H; [|discriminate]; injection H as <- end. cbn in Hh. apply in_map_iff in Hh as (o & <- & Ho). exact (K _ Ho).
Qed.
End W.

