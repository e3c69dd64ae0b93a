(** The depth-first search, for any way to make children. *)
From Coq Require Import Reals Lra Lia List Arith ZArith.
From Verif.Base Require Import Py PyFacts Cplx Matrix Angle.
From Verif.Variational Require EmitProofs.
From Verif.Local Require Import QrModel TreeModel TreeSpec TreeProofs AdaModel AdaSpec.
Import ListNotations.
Local Open Scope list_scope.
Local Open Scope nat_scope.

Lemma near_diagonal_spec near d u : near_diagonal near d u = true <->
  (exists i, i < d /\ (near < Cmod (u i i))%R) /\ diagonal_within near d u.
Proof.
  unfold near_diagonal. rewrite Bool.andb_true_iff, Bool.negb_true_iff. split.
  - intros [H1 H2]. split.
    + apply existsb_exists in H1. destruct H1 as (i & Hi & H1). apply in_seq in Hi. exists i. split; [lia|]. destruct (Rlt_dec near (Cmod (u i i))); [assumption|discriminate].
    + intros i j Hi Hj N. apply Rnot_lt_le. intros L. assert (T : existsb (fun ij => negb (Nat.eqb (fst ij) (snd ij)) && (if Rlt_dec near (Cmod (u (fst ij) (snd ij))) then true else false)) (list_prod (seq 0 d) (seq 0 d)) = true).
      { apply existsb_exists. exists (i, j). split; [apply in_prod; apply in_seq; lia|]. cbn [fst snd].
        apply Bool.andb_true_iff. split; [apply Bool.negb_true_iff, Nat.eqb_neq; exact N|]. destruct (Rlt_dec near (Cmod (u i j))); [reflexivity|contradiction]. }
      congruence.
  - intros [(i & Hi & L) D]. split.
    + apply existsb_exists. exists i. split; [apply in_seq; lia|]. destruct (Rlt_dec near (Cmod (u i i))); [reflexivity|contradiction].
    + apply Bool.not_true_is_false. intros H. apply existsb_exists in H. destruct H as ((a, b) & Hab & H). apply in_prod_iff in Hab. destruct Hab as [Ha Hb].
      apply in_seq in Ha, Hb. cbn [fst snd] in H. apply Bool.andb_true_iff in H. destruct H as [N H]. apply Bool.negb_true_iff, Nat.eqb_neq in N.
      destruct (Rlt_dec near (Cmod (u a b))) as [L'|]; [|discriminate]. assert (X := D a b ltac:(lia) ltac:(lia) N). lra.
Qed.

Lemma triples_spec d c r r2 : In (c, r, r2) (triples d) <-> c <= r < r2 /\ r2 < d.
Proof.
  unfold triples. rewrite in_flat_map. split.
  - intros (c' & Hc & H). apply in_flat_map in H. destruct H as (r' & Hr & H). apply in_map_iff in H. destruct H as (r2' & [= <- <- <-] & H2).
    apply in_seq in Hc, Hr, H2. lia.
  - intros H. exists c. split; [apply in_seq; lia|]. apply in_flat_map. exists r. split; [apply in_seq; lia|]. apply in_map. apply in_seq. lia.
Qed.

Section Generic.
  Variables (near : R) (kid : snode -> nat * nat * nat -> res (option snode)) (d : nat).

  Lemma kids_spec a : forall l ks, kids kid a l = Ok ks -> forall b, In b ks <-> exists t, In t l /\ kid a t = Ok (Some b).
  Proof.
    induction l as [|t l IH]; intros ks E b; cbn [kids] in E.
    - injection E as <-. split; [intros []|intros (t & [] & _)].
    - apply EmitProofs.bindr_Ok in E. destruct E as (o & Eo & E). apply EmitProofs.bindr_Ok in E. destruct E as (rest & Er & E).
      specialize (IH rest Er b). injection E as <-. destruct o as [b0|].
      + split.
        * intros [<-|H]; [exists t; split; [left; reflexivity|exact Eo]|]. apply IH in H. destruct H as (t' & H & E'). exists t'. split; [right; exact H|exact E'].
        * intros (t' & [<-|H] & E'); [left; congruence|]. right. apply IH. eauto.
      + rewrite IH. split; intros (t' & H & E'); [exists t'; split; [right; exact H|exact E']|]. destruct H as [<-|H]; [congruence|eauto].
  Qed.
  Lemma kids_total a l : (forall t, In t l -> exists o, kid a t = Ok o) -> exists ks, kids kid a l = Ok ks.
  Proof.
    induction l as [|t l IH]; intros H; [exists []; reflexivity|]. cbn [kids]. destruct (H t (or_introl eq_refl)) as (o & ->). cbn [bindr].
    destruct IH as (ks & ->); [intros t' Ht; apply H; right; exact Ht|]. cbn [bindr]. eauto.
  Qed.
  Lemma numbered_snd c l : map snd (numbered c l) = l.
  Proof.
    unfold numbered. assert (G : forall (ks : list Z), List.length ks = List.length l -> map snd (combine ks l) = l).
    { induction l as [|x l IH]; intros [|k ks] H; try discriminate; [reflexivity|]. cbn. f_equal. apply IH. injection H. auto. }
    apply G. rewrite map_length, seq_length. reflexivity.
  Qed.

  Definition visit (n : nat) : list (Z * snode) -> Z -> res (list (ntree snode) * Z * bool) :=
    fix visit (l : list (Z * snode)) (counter : Z) : res (list (ntree snode) * Z * bool) :=
      match l with
      | [] => Ok ([], counter, false)
      | kb :: r =>
          let? x := dfs near kid d n (fst kb) (snd kb) counter in
          if (snd x : bool) then Ok (fst (fst x) :: map (fun kb => new_node (fst kb) (snd kb)) r, snd (fst x), true)
          else let? y := visit r (snd (fst x)) in Ok (fst (fst x) :: fst (fst y), snd (fst y), snd y)
      end.
  Lemma dfs_unfold n key a counter : dfs near kid d (S n) key a counter =
    if near_diagonal near d (s_u a) then Ok (NT key true a [], counter, true) else
    let? l := kids kid a (triples d) in
    let? x := visit n (numbered counter l) (counter + Z.of_nat (List.length l))%Z in
    Ok (NT key false a (fst (fst x)), snd (fst x), snd x).
  Proof. reflexivity. Qed.

  Record good_tree (a : snode) (t : ntree snode) (f : bool) : Prop := {
    gt_data : t_data t = a;
    gt_leaves : leaves_only t;
    gt_chain : forall p b, leads t p b -> chain kid d a p;
    gt_near : forall p, leads t p true -> near_diagonal near d (s_u (last p a)) = true;
    gt_found : f = true -> exists p, leads t p true;
    gt_lost : f = false -> (forall p, ~ leads t p true) /\ forall p, chain kid d a p -> near_diagonal near d (s_u (last p a)) = false }.

  Lemma chain_last a p x : chain kid d a p -> last p x = last p a.
  Proof. intros H. destruct H as [a|a b p C H]; [reflexivity|]. destruct p as [|y p]; [inversion H|]. cbn [last]. revert y H. intros y H.
    assert (G : forall (q : list snode) z u v, last (z :: q) u = last (z :: q) v) by (induction q as [|w q IH]; intros; [reflexivity|cbn; apply (IH w)]). apply G. Qed.

  Lemma leads_head (t : ntree snode) p b : leads t p b -> exists q, p = t_data t :: q.
  Proof. intros H. destruct H; [exists []; reflexivity|eexists; reflexivity]. Qed.
  Lemma last_any (q : list snode) z u v : last (z :: q) u = last (z :: q) v.
  Proof. revert z. induction q as [|w q IH]; intros z; [reflexivity|]. cbn. apply (IH w). Qed.

  Lemma visit_ok n : (forall key a counter t c f, dfs near kid d n key a counter = Ok (t, c, f) -> good_tree a t f) ->
    forall l counter ts c f, visit n l counter = Ok (ts, c, f) ->
      map (@t_data snode) ts = map snd l /\ Forall (fun t => exists f', good_tree (t_data t) t f' \/ (exists k, t = new_node k (t_data t))) ts /\
      (f = true -> exists t p, In t ts /\ leads t p true) /\
      (f = false -> Forall (fun t => good_tree (t_data t) t false) ts).
  Proof.
    intros IH. induction l as [|(k, b) l IHl]; intros counter ts c f E; cbn [visit] in E.
    - injection E as <- <- <-. split; [reflexivity|]. split; [constructor|]. split; [discriminate|]. intros _. constructor.
    - apply EmitProofs.bindr_Ok in E. destruct E as (((t, c1), f1) & E1 & E). cbn [fst snd] in *. assert (G := IH _ _ _ _ _ _ E1).
      assert (TD := gt_data _ _ _ G). destruct f1.
      + injection E as <- <- <-. split; [cbn [map]; rewrite TD, map_map; cbn; f_equal; apply map_ext; intros; reflexivity|]. split; [|split].
        * constructor; [exists true; left; rewrite TD; exact G|]. apply Forall_forall. intros x Hx. apply in_map_iff in Hx. destruct Hx as (kb & <- & _).
          exists false. right. exists (fst kb). reflexivity.
        * intros _. destruct (gt_found _ _ _ G eq_refl) as (p & Hp). exists t, p. split; [left; reflexivity|exact Hp].
        * discriminate.
      + apply EmitProofs.bindr_Ok in E. destruct E as (((ts', c'), f') & E2 & E). cbn [fst snd] in E. injection E as <- <- <-.
        destruct (IHl _ _ _ _ E2) as (A & B & C & D). split; [cbn [map]; rewrite TD, A; reflexivity|]. split; [constructor; [exists false; left; rewrite TD; exact G|exact B]|].
        split.
        * intros Hf. destruct (C Hf) as (t' & p & H & L). exists t', p. split; [right; exact H|exact L].
        * intros Hf. constructor; [rewrite TD; exact G|apply D; exact Hf].
  Qed.

  Theorem dfs_ok : forall fuel key a counter t c f, dfs near kid d fuel key a counter = Ok (t, c, f) -> good_tree a t f.
  Proof.
    induction fuel as [|n IH]; intros key a counter t c f E; [discriminate|]. rewrite dfs_unfold in E.
    destruct (near_diagonal near d (s_u a)) eqn:N.
    - injection E as <- <- <-. constructor; trivial.
      + intros t' m U H. inversion U as [|? ? ? ? x ? ? Hx]; subst; [exfalso; apply H; reflexivity|destruct Hx].
      + intros p b H. inversion H as [|? ? ? ? x ? ? Hx]; subst; [constructor|destruct Hx].
      + intros p H. inversion H as [|? ? ? ? x ? ? Hx]; subst; [exact N|destruct Hx].
      + intros _. exists [a]. constructor.
      + discriminate.
    - apply EmitProofs.bindr_Ok in E. destruct E as (l & El & E). apply EmitProofs.bindr_Ok in E. destruct E as (((ts, c1), f1) & Ev & E).
      cbn [fst snd] in E. injection E as <- <- <-. assert (KS := kids_spec a (triples d) l El).
      destruct (visit_ok n IH _ _ _ _ _ Ev) as (A & B & C & D). rewrite numbered_snd in A. rewrite Forall_forall in B.
      assert (CH : forall t, In t ts -> child kid d a (t_data t)).
      { intros t Ht. apply KS. rewrite <- A. apply in_map. exact Ht. }
      constructor; trivial.
      + intros t' m U H. inversion U as [|? ? ? ? x ? ? Hx Ux]; subst; [reflexivity|]. destruct (B x Hx) as (f' & [G|(k & Ex)]).
        * apply (gt_leaves _ _ _ G t' _ Ux H).
        * destruct x as [kx fx ax cx]. unfold new_node in Ex. injection Ex as -> -> ->. inversion Ux as [|? ? ? ? y ? ? Hy]; subst; [exfalso; apply H; reflexivity|destruct Hy].
      + intros p b H. inversion H as [|? ? ? ? x q ? Hx Hq]; subst; [constructor|]. apply (chain_cons kid d a (t_data x) q (CH x Hx)).
        destruct (B x Hx) as (f' & [G|(k & Ex)]); [apply (gt_chain _ _ _ G q b Hq)|]. destruct x as [kx fx ax cx]. unfold new_node in Ex. injection Ex as -> -> ->. inversion Hq as [|? ? ? ? y ? ? Hy]; subst; [constructor|destruct Hy].
      + intros p H. inversion H as [|? ? ? ? x q ? Hx Hq]; subst. destruct (B x Hx) as (f' & [G|(k & Ex)]).
        * assert (Y := gt_near _ _ _ G q Hq). destruct (leads_head _ _ _ Hq) as (q' & ->). rewrite (last_any q' (t_data x) (t_data x) a) in Y. exact Y.
        * destruct x as [kx fx ax cx]. unfold new_node in Ex. injection Ex as -> -> ->. inversion Hq as [|? ? ? ? y ? ? Hy]; subst. destruct Hy.
      + intros Hf. destruct (C Hf) as (t & p & Ht & Hp). exists (a :: p). econstructor; eassumption.
      + intros Hf. specialize (D Hf). rewrite Forall_forall in D. split.
        * intros p H. inversion H as [|? ? ? ? x q ? Hx Hq]; subst. apply (proj1 (gt_lost _ _ _ (D x Hx) eq_refl) q Hq).
        * intros p H. inversion H as [|? b q Hb Hq]; subst; [exact N|]. destruct Hb as (tr & H1 & H2). assert (Hb : In b (map (@t_data snode) ts)) by (apply KS; eauto).
          apply in_map_iff in Hb. destruct Hb as (x & <- & Hx).
          assert (Y := proj2 (gt_lost _ _ _ (D x Hx) eq_refl) q Hq).
          destruct q as [|z q]; [inversion Hq|]. rewrite (last_any q z (t_data x) a) in Y. exact Y.
  Qed.

  (** The retrieval after the search. *)
  Theorem search_ok fuel U g limit p best fg : search_for near kid d fuel U g limit = Ok (p, best, fg) ->
    let a := root U g limit in
    match best with
    | Some (c, dc) => chain kid d a p /\ let x := last p a in near_diagonal near d (s_u x) = true /\ c = s_cost x /\ dc = s_dcost x /\ fg = s_graph x
    | None => p = [] /\ fg = Some g /\ forall q, chain kid d a q -> near_diagonal near d (s_u (last q a)) = false
    end.
  Proof.
    unfold search_for. intros E. apply EmitProofs.bindr_Ok in E. destruct E as (((t, c), f) & Ed & E). cbn [fst snd] in E.
    assert (G := dfs_ok _ _ _ _ _ _ _ Ed). destruct f.
    - destruct (retrieve_ok s_cost s_dcost s_graph t (gt_leaves _ _ _ G) (gt_found _ _ _ G eq_refl)) as (q & x & Er & L & LX & _).
      rewrite Er in E. injection E as <- <- <-. split; [apply (gt_chain _ _ _ G q true L)|]. cbv zeta.
      assert (X : last q (root U g limit) = x). { destruct (leads_head _ _ _ L) as (q' & ->). rewrite <- LX. apply last_any. }
      assert (Y := gt_near _ _ _ G q L). rewrite X in *. auto.
    - destruct (gt_lost _ _ _ G eq_refl) as [N1 N2]. rewrite (retrieve_none s_cost s_dcost s_graph t (gt_leaves _ _ _ G) N1) in E.
      injection E as <- <- <-. rewrite (gt_data _ _ _ G). auto.
  Qed.

  (** The search ends: every step costs at least [step], and no node is over the limit. *)
  Section Ends.
    Variables (good : snode -> Prop) (step bound : R).
    Hypothesis Gtotal : forall a t, good a -> In t (triples d) -> exists o, kid a t = Ok o.
    Hypothesis Gnext : forall a b, good a -> child kid d a b -> good b /\ (s_dcost a + step <= s_dcost b)%R.
    Hypothesis Gbound : forall a, good a -> (s_dcost a <= bound)%R.
    Lemma dfs_ends : forall fuel key a counter, good a -> (bound - s_dcost a < INR fuel * step)%R ->
      exists x, dfs near kid d fuel key a counter = Ok x.
    Proof.
      induction fuel as [|n IH]; intros key a counter Ga H; [assert (B := Gbound a Ga); cbn in H; lra|]. rewrite dfs_unfold.
      destruct (near_diagonal near d (s_u a)); [eauto|].
      destruct (kids_total a (triples d) (fun t => Gtotal a t Ga)) as (l & El). rewrite El. cbn [bindr].
      assert (V : forall l' counter, (forall b, In b (map snd l') -> child kid d a b) -> exists x, visit n l' counter = Ok x).
      { induction l' as [|(k, b) l' IHl]; intros c0 Hl; [eexists; reflexivity|]. cbn [visit fst snd].
        destruct (Gnext a b Ga (Hl b (or_introl eq_refl))) as [Gb Sb].
        destruct (IH k b c0 Gb) as (((t, c1), f1) & ->); [rewrite S_INR in H; lra|]. cbn [bindr fst snd]. destruct f1; [eauto|].
        destruct (IHl c1) as (y & E); [intros b' Hb'; apply Hl; right; exact Hb'|]. cbn [visit] in E. unfold visit in E. unfold visit. rewrite E. cbn [bindr]. eauto. }
      destruct (V (numbered counter l) (counter + Z.of_nat (List.length l))%Z) as (x & ->); [|cbn [bindr]; eauto].
      intros b Hb. rewrite numbered_snd in Hb. apply (kids_spec a (triples d) l El b). exact Hb.
    Qed.
    Theorem search_ends fuel U g limit : good (root U g limit) -> (bound < INR fuel * step)%R ->
      exists x, search_for near kid d fuel U g limit = Ok x.
    Proof.
      intros G H. unfold search_for. destruct (dfs_ends fuel 0%Z (root U g limit) 0%Z G) as (((t, c), f) & E); [cbn [s_dcost root]; lra|]. rewrite E. cbn [bindr fst snd].
      assert (GT := dfs_ok _ _ _ _ _ _ _ E). destruct f.
      - destruct (retrieve_ok s_cost s_dcost s_graph t (gt_leaves _ _ _ GT) (gt_found _ _ _ GT eq_refl)) as (q & x & Er & _). eauto.
      - rewrite (retrieve_none s_cost s_dcost s_graph t (gt_leaves _ _ _ GT) (proj1 (gt_lost _ _ _ GT eq_refl))). eauto.
    Qed.
  End Ends.
End Generic.
