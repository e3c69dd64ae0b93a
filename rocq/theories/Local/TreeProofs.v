(** Proofs about the search tree. *)
From Coq Require Import Reals Lra Lia List Arith ZArith Permutation.
From Verif.Base Require Import Py PyFacts.
From Verif.Local Require Import TreeModel TreeSpec.
From Verif.Variational Require EmitProofs.
Import ListNotations.
Local Open Scope list_scope.
Local Open Scope nat_scope.

Section Proofs.
  Context {A G : Type}.
  Variables (cost dcost : A -> R) (graph : A -> G).

  Lemma ntree_rect' (P : ntree A -> Prop) : (forall k f a ch, Forall P ch -> P (NT k f a ch)) -> forall t, P t.
  Proof.
    intros H. fix IH 1. intros [k f a ch]. apply H. induction ch as [|c ch IHc]; constructor; [apply IH|exact IHc].
  Qed.

  (** *** Finding and changing a node *)
  Lemma find_unfold k f a ch key : find_node (NT k f a ch) key =
    if (k =? key)%Z then Some (NT k f a ch) else
    fold_right (fun (c : ntree A) o => match find_node c key with Some x => Some x | None => o end) None ch.
  Proof.
    cbn [find_node]. destruct (k =? key)%Z; [reflexivity|]. induction ch as [|c r IH]; [reflexivity|]. cbn [fold_right]. rewrite IH. reflexivity.
  Qed.
  Lemma find_some (t : ntree A) : forall key t', find_node t key = Some t' -> t_key t' = key /\ exists n, under t t' n.
  Proof.
    induction t as [k f a ch IH] using ntree_rect'. intros key t'. rewrite find_unfold. destruct (Z.eqb_spec k key) as [->|N].
    - intros [= <-]. split; [reflexivity|]. exists 0. constructor.
    - intros H. assert (E : exists c, In c ch /\ find_node c key = Some t').
      { clear IH. induction ch as [|c r IHr]; [discriminate|]. cbn [fold_right] in H. destruct (find_node c key) as [x|] eqn:E.
        - injection H as <-. exists c. split; [left; reflexivity|exact E].
        - destruct (IHr H) as (c' & I & E'). exists c'. split; [right; exact I|exact E']. }
      destruct E as (c & Hc & E). rewrite Forall_forall in IH. destruct (IH c Hc key t' E) as (K & n & U). split; [exact K|].
      exists (S n). econstructor; eassumption.
  Qed.
  Lemma find_none (t : ntree A) : forall key, find_node t key = None <-> ~ In key (map fst (entries t)).
  Proof.
    induction t as [k f a ch IH] using ntree_rect'. intros key. rewrite find_unfold. cbn [entries map fst In]. destruct (Z.eqb_spec k key) as [->|N].
    - split; [discriminate|]. intros H. exfalso. apply H. left. reflexivity.
    - assert (E : fold_right (fun (c : ntree A) o => match find_node c key with Some x => Some x | None => o end) None ch = None <-> forall c, In c ch -> find_node c key = None).
      { clear IH. induction ch as [|c r IHr]; cbn [fold_right]; [split; [intros _ c []|reflexivity]|]. split.
        - intros H c' [<-|Hc]; destruct (find_node c key) eqn:E; try discriminate; [reflexivity|]. apply IHr; assumption.
        - intros H. rewrite (H c (or_introl eq_refl)). apply IHr. intros c' Hc. apply H. right. exact Hc. }
      rewrite E. split.
      + intros H [<-|Hk]; [auto|]. apply in_map_iff in Hk. destruct Hk as (e & <- & He). apply in_flat_map in He. destruct He as (c & Hc & He).
        rewrite Forall_forall in IH. apply (IH c Hc (fst e)); [apply H; exact Hc|apply in_map; exact He].
      + intros H c Hc. rewrite Forall_forall in IH. apply (IH c Hc). intros Hk. apply H. right. apply in_map_iff in Hk. destruct Hk as (e & <- & He).
        apply in_map, in_flat_map. exists c. auto.
  Qed.

  Definition update_list (key : Z) (h : ntree A -> ntree A) : list (ntree A) -> option (list (ntree A)) :=
    fix go l := match l with
                | [] => None
                | c :: r => match update_node c key h with
                            | Some c' => Some (c' :: r)
                            | None => match go r with Some r' => Some (c :: r') | None => None end
                            end
                end.
  Lemma update_unfold k f a ch key h : update_node (NT k f a ch) key h =
    if (k =? key)%Z then Some (h (NT k f a ch)) else match update_list key h ch with Some ch' => Some (NT k f a ch') | None => None end.
  Proof. reflexivity. Qed.

  Definition extended (k : Z) (a : A) (t t' : ntree A) : Prop :=
    size_refresh t' = S (size_refresh t) /\ (forall e, In e (entries t') <-> In e (entries t) \/ e = (k, a)).
  Lemma size_entries (t : ntree A) : List.length (entries t) = S (size_refresh t).
  Proof.
    induction t as [k f a ch IH] using ntree_rect'. cbn [entries size_refresh List.length]. f_equal.
    induction IH as [|c r Hc Hr IHr]; [reflexivity|]. cbn [flat_map map list_sum fold_right]. rewrite app_length, Hc, IHr.
    unfold list_sum. cbn [fold_right List.length]. lia.
  Qed.
  Lemma update_ok k a (t : ntree A) : forall key, 
    match update_node t key (fun n => node_add n k a) with
    | None => find_node t key = None
    | Some t' => find_node t key <> None /\ Permutation (entries t') ((k, a) :: entries t)
    end.
  Proof.
    induction t as [k0 f0 a0 ch IH] using ntree_rect'. intros key. rewrite update_unfold, find_unfold. destruct (Z.eqb_spec k0 key) as [->|N].
    - split; [discriminate|]. cbn [node_add entries]. rewrite flat_map_app. cbn [flat_map entries new_node app].
      eapply Permutation_trans; [apply perm_skip, Permutation_sym, Permutation_cons_append|]. apply perm_swap.
    - assert (E : match update_list key (fun n => node_add n k a) ch with
        | None => fold_right (fun (c : ntree A) o => match find_node c key with Some x => Some x | None => o end) None ch = None
        | Some ch' => fold_right (fun (c : ntree A) o => match find_node c key with Some x => Some x | None => o end) None ch <> None /\
            Permutation (flat_map entries ch') ((k, a) :: flat_map entries ch)
        end).
      { induction IH as [|c r Hc Hr IHr]; [reflexivity|]. cbn [update_list fold_right]. fold (update_list key (fun n => node_add n k a)).
        specialize (Hc key). destruct (update_node c key (fun n => node_add n k a)) as [c'|].
        - destruct Hc as [F P]. destruct (find_node c key); [|congruence]. split; [discriminate|]. cbn [flat_map].
          change ((k, a) :: entries c ++ flat_map entries r) with (((k, a) :: entries c) ++ flat_map entries r). apply Permutation_app_tail. exact P.
        - rewrite Hc. destruct (update_list key (fun n => node_add n k a) r) as [r'|]; [|exact IHr]. destruct IHr as [F P].
          split; [exact F|]. cbn [flat_map]. eapply Permutation_trans; [apply Permutation_app_head; exact P|]. apply Permutation_sym, Permutation_middle. }
      destruct (update_list key (fun n => node_add n k a) ch) as [ch'|]; [|exact E]. destruct E as [F P]. split; [exact F|]. cbn [entries].
      eapply Permutation_trans; [apply perm_skip; exact P|]. apply perm_swap.
  Qed.

  (** *** Histories *)
  Definition holds (t : @nary A) (l : list (Z * A)) : Prop :=
    match tr_root t with None => l = [] | Some r => Permutation (entries r) l end.
  Lemma add_holds t l k a p : holds t l ->
    match p with
    | None => exists t', tree_add t k a p = Ok t' /\ holds t' [(k, a)]
    | Some q => if in_dec Z.eq_dec q (map fst l) then exists t', tree_add t k a p = Ok t' /\ holds t' (l ++ [(k, a)])
                else tree_add t k a p = Err (if l then AttributeError else NodeNotFoundError)
    end.
  Proof.
    intros H. destruct p as [q|]; cbn [tree_add].
    - unfold holds in H. destruct (tr_root t) as [r|]; [|subst l; destruct (in_dec Z.eq_dec q (map fst [])) as [[]|]; reflexivity].
      assert (U := update_ok k a r q). destruct (in_dec Z.eq_dec q (map fst l)) as [Y|N].
      + destruct (update_node r q (fun n => node_add n k a)) as [r'|].
        * eexists. split; [reflexivity|]. destruct U as [_ P]. unfold holds. cbn [tr_root]. eapply Permutation_trans; [exact P|].
          eapply Permutation_trans; [apply perm_skip; exact H|]. apply Permutation_cons_append.
        * exfalso. apply find_none in U. apply U. apply (Permutation_in _ (Permutation_map fst (Permutation_sym H))). exact Y.
      + destruct (update_node r q (fun n => node_add n k a)) as [r'|].
        * exfalso. destruct U as [F _]. apply F, find_none. intros X. apply N. apply (Permutation_in _ (Permutation_map fst H)). exact X.
        * destruct l; [|reflexivity]. apply Permutation_sym, Permutation_nil in H. destruct r; discriminate.
    - eexists. split; [reflexivity|]. unfold holds. cbn. apply Permutation_refl.
  Qed.
  Lemma run_holds : forall (cs : list (call A)) t l t', holds t l -> run_calls t cs = Ok t' -> holds t' (added l cs).
  Proof.
    induction cs as [|c cs IH]; intros t l t' H E; cbn [run_calls added] in *; [injection E as <-; exact H|].
    apply EmitProofs.bindr_Ok in E. destruct E as (t1 & E1 & E). destruct c as [k a p|]; cbn [run_call] in E1.
    - assert (X := add_holds t l k a p H). destruct p as [q|].
      + destruct (in_dec Z.eq_dec q (map fst l)); [|rewrite X in E1; discriminate]. destruct X as (t2 & E2 & H2).
        assert (t2 = t1) by congruence. subst. apply (IH t1 _ t' H2 E).
      + destruct X as (t2 & E2 & H2). assert (t2 = t1) by congruence. subst. apply (IH t1 _ t' H2 E).
    - apply EmitProofs.bindr_Ok in E1. destruct E1 as (x & E1 & E2). injection E2 as <-. unfold total_size in E1. unfold holds in H.
      destruct (tr_root t) as [r|] eqn:R; [|discriminate]. injection E1 as <-. refine (IH _ l t' _ E). unfold holds. cbn. exact H.
  Qed.
  Theorem total_size_ok (cs : list (call A)) t : run_calls new_tree cs = Ok t ->
    match added [] cs with
    | [] => total_size t = Err AttributeError
    | l => exists t', total_size t = Ok (List.length l, t')
    end.
  Proof.
    intros E. assert (H := run_holds cs new_tree [] t eq_refl E). unfold holds in H. unfold total_size.
    destruct (tr_root t) as [r|]; [|rewrite H; reflexivity].
    assert (L := Permutation_length H). rewrite size_entries in L. destruct (added [] cs) as [|e l]; [discriminate|].
    eexists. rewrite <- L. f_equal. f_equal. lia.
  Qed.
  Theorem add_ok (cs : list (call A)) t k a p : run_calls new_tree cs = Ok t ->
    (is_ok (tree_add t k a p) = true <-> match p with None => True | Some q => In q (map fst (added [] cs)) end).
  Proof.
    intros E. assert (H := run_holds cs new_tree [] t eq_refl E). assert (X := add_holds t _ k a p H). destruct p as [q|].
    - destruct (in_dec Z.eq_dec q (map fst (added [] cs))) as [Y|N].
      + destruct X as (t' & -> & _). cbn. tauto.
      + rewrite X. cbn. split; [discriminate|contradiction].
    - destruct X as (t' & -> & _). cbn. tauto.
  Qed.

  (** *** Depth *)
  Lemma list_max_in l x : In x l -> x <= list_max l.
  Proof. intros H. apply (proj1 (Forall_forall _ _) (proj1 (list_max_le l (list_max l)) (le_n _))). exact H. Qed.
  Lemma list_max_attained l : l <> [] -> In (list_max l) l.
  Proof.
    induction l as [|x l IH]; [congruence|]. intros _. cbn [list_max fold_right]. fold (list_max l). destruct l as [|y l]; [left; cbn; lia|].
    destruct (Nat.max_spec x (list_max (y :: l))) as [[_ ->]|[_ ->]]; [right; apply IH; discriminate|left; reflexivity].
  Qed.
  Lemma max_depth_unfold k f a ch : max_depth (@NT A k f a ch) = match ch with [] => 0 | _ => 1 + list_max (map max_depth ch) end.
  Proof. destruct ch; reflexivity. Qed.
  Lemma max_depth_ok (t : ntree A) : (forall t' n, under t t' n -> n <= max_depth t) /\ (exists t', under t t' (max_depth t)).
  Proof.
    induction t as [k f a ch IH] using ntree_rect'. rewrite max_depth_unfold. rewrite Forall_forall in IH. split.
    - intros t' n U. inversion U as [|? ? ? ? c ? m Hc Uc]; subst; [lia|]. destruct (IH c Hc) as [B _]. assert (X := B t' m Uc).
      destruct ch as [|c0 ch]; [destruct Hc|]. assert (Y := list_max_in (map max_depth (c0 :: ch)) (max_depth c) (in_map _ _ _ Hc)). lia.
    - destruct ch as [|c0 ch]; [exists (NT k f a []); constructor|].
      assert (M := list_max_attained (map max_depth (c0 :: ch)) ltac:(discriminate)). apply in_map_iff in M. destruct M as (c & Ec & Hc).
      destruct (IH c Hc) as [_ (t' & U)]. exists t'. rewrite <- Ec. apply (under_child k f a (c0 :: ch) c t' (max_depth c) Hc U).
  Qed.
  Theorem depth_ok (t : @nary A) (r : ntree A) key : tr_root t = Some r -> 
    match depth t key with
    | Ok n => exists t0 m, under r t0 m /\ t_key t0 = key /\ (forall t' i, under t0 t' i -> i <= n) /\ (exists t', under t0 t' n)
    | Err e => e = NodeNotFoundError /\ ~ In key (map fst (entries r))
    end.
  Proof.
    intros R. unfold depth. rewrite R. destruct (find_node r key) as [t0|] eqn:E.
    - destruct (find_some r key t0 E) as (K & m & U). destruct (max_depth_ok t0) as [B D]. exists t0, m. auto.
    - split; [reflexivity|]. apply find_none. exact E.
  Qed.

  (** *** Retrieval *)
  Lemma fc_unfold k f a ch : found_checker (@NT A k f a ch) = NT k (f || existsb t_fin (map found_checker ch)) a (map found_checker ch).
  Proof. destruct ch; cbn; [rewrite Bool.orb_false_r; reflexivity|reflexivity]. Qed.
  Lemma fc_data t : t_data (@found_checker A t) = t_data t.
  Proof. destruct t as [k f a ch]. rewrite fc_unfold. reflexivity. Qed.
  Lemma leaves_only_child k f a ch c : leaves_only (@NT A k f a ch) -> In c ch -> leaves_only c.
  Proof. intros L Hc t' n U. apply (L t' (S n)). econstructor; eassumption. Qed.
  Lemma fc_leads (t : ntree A) : forall p b, leads (found_checker t) p b <-> leads t p b.
  Proof.
    induction t as [k f a ch IH] using ntree_rect'. intros p b. rewrite fc_unfold. rewrite Forall_forall in IH. split; intros H.
    - inversion H as [? ? ? E|? ? ? ? c ? ? Hc Hl]; subst.
      + destruct ch as [|c ch]; [|discriminate]. cbn. rewrite Bool.orb_false_r. constructor.
      + apply in_map_iff in Hc. destruct Hc as (c0 & <- & Hc). econstructor; [exact Hc|]. apply (IH c0 Hc). exact Hl.
    - inversion H as [? ? ? E|? ? ? ? c ? ? Hc Hl]; subst.
      + cbn. rewrite Bool.orb_false_r. constructor.
      + econstructor; [apply in_map; exact Hc|]. apply (IH c Hc). exact Hl.
  Qed.
  Lemma fc_fin (t : ntree A) : leaves_only t -> (t_fin (found_checker t) = true <-> exists p, leads t p true).
  Proof.
    induction t as [k f a ch IH] using ntree_rect'. intros L. rewrite fc_unfold. cbn [t_fin]. rewrite Forall_forall in IH.
    destruct ch as [|c0 ch].
    - cbn. rewrite Bool.orb_false_r. split; [intros ->; exists [a]; constructor|]. intros (p & H). inversion H as [|? ? ? ? c ? ? Hc _]; subst; [reflexivity|destruct Hc].
    - assert (F : f = false) by (apply (L _ 0 (under_self _)); discriminate). subst f. cbn [orb]. rewrite existsb_exists. split.
      + intros (x & Hx & Fx). apply in_map_iff in Hx. destruct Hx as (c & <- & Hc). apply (IH c Hc (leaves_only_child _ _ _ _ _ L Hc)) in Fx.
        destruct Fx as (p & Hp). exists (a :: p). econstructor; eassumption.
      + intros (p & H). inversion H as [|? ? ? ? c q ? Hc Hl]; subst. exists (found_checker c). split; [apply in_map; exact Hc|].
        apply (IH c Hc (leaves_only_child _ _ _ _ _ L Hc)). exists q. exact Hl.
  Qed.

  Definition mins (l : list (ntree A)) : res (list (list A * (R * R) * G)) :=
    (fix go l := match l with
                 | [] => Ok []
                 | c :: r => if t_fin c then let? y := min_cost_decomp cost dcost graph c in let? ys := go r in Ok (y :: ys) else go r
                 end) l.
  Lemma min_unfold k f a ch : ch <> [] -> min_cost_decomp cost dcost graph (NT k f a ch) =
    let? l := mins ch in let? m := first_min l in Ok (a :: fst (fst m), snd (fst m), snd m).
  Proof. destruct ch; [congruence|reflexivity]. Qed.

  (** The answer m is the cheapest path of t to a finished node. *)
  Definition cheapest (t : ntree A) (m : list A * (R * R) * G) : Prop :=
    exists x, leads t (fst (fst m)) true /\ last (fst (fst m)) x = x /\ snd (fst m) = (cost x, dcost x) /\ snd m = graph x /\
      (forall q y, leads t q true -> last q y = y -> (cost x <= cost y)%R).
  Lemma leads_last (t : ntree A) p b : leads t p b -> exists x, forall y, last p y = x.
  Proof.
    intros H. induction H as [k f a|k f a ch c p b Hc Hp (x & IH)]; [exists a; reflexivity|].
    exists x. intros y. destruct p as [|z p]; [inversion Hp|]. cbn. apply (IH y).
  Qed.
  Lemma last_cons (p : list A) b t a y : leads t p b -> last (a :: p) y = last p y.
  Proof. intros H. destruct p; [inversion H|reflexivity]. Qed.

  Lemma first_min_ok (l : list (list A * (R * R) * G)) : l <> [] -> exists m, first_min l = Ok m /\ In m l /\
    forall x, In x l -> (fst (snd (fst m)) <= fst (snd (fst x)))%R.
  Proof.
    destruct l as [|x l]; [congruence|]. intros _. cbn [first_min]. eexists. split; [reflexivity|]. revert x. induction l as [|y l IH]; intros x.
    - cbn. split; [auto|]. intros z [<-|[]]. apply Rle_refl.
    - cbn [fold_left]. set (m := if Rlt_dec (fst (snd (fst y))) (fst (snd (fst x))) then y else x).
      assert (Mx : (fst (snd (fst m)) <= fst (snd (fst x)) /\ fst (snd (fst m)) <= fst (snd (fst y)))%R) by (unfold m; destruct (Rlt_dec _ _); lra).
      assert (Mi : m = y \/ m = x) by (unfold m; destruct (Rlt_dec _ _); auto).
      destruct (IH m) as [I B]. split.
      + destruct I as [I|I]; [|right; right; exact I]. rewrite <- I. destruct Mi as [-> | ->]; [right; left|left]; reflexivity.
      + assert (Bm := B m (or_introl eq_refl)). intros z [<-|[<-|Hz]]; [lra|lra|]. apply B. right. exact Hz.
  Qed.

  (** On a tree where the flag of a node says whether a finished leaf is below. *)
  Definition flagged (t : ntree A) : Prop := forall t' n, under t t' n -> (t_fin t' = true <-> exists p, leads t' p true).
  Lemma flagged_child k f a ch c : flagged (NT k f a ch) -> In c ch -> flagged c.
  Proof. intros L Hc t' n U. apply (L t' (S n)). econstructor; eassumption. Qed.
  Lemma min_cost_ok (t : ntree A) : flagged t -> t_fin t = true -> exists m, min_cost_decomp cost dcost graph t = Ok m /\ cheapest t m.
  Proof.
    induction t as [k f a ch IH] using ntree_rect'. intros FL F. rewrite Forall_forall in IH.
    destruct ch as [|c0 ch0].
    - eexists. split; [reflexivity|]. exists a. cbn [fst snd]. cbn [t_fin] in F. subst f. split; [constructor|]. split; [reflexivity|]. split; [reflexivity|].
      split; [reflexivity|]. intros q y H Hy. inversion H as [|? ? ? ? c ? ? Hc _]; subst; [cbn in Hy; subst; lra|destruct Hc].
    - set (ch := c0 :: ch0) in *. rewrite min_unfold by discriminate.
      assert (MN : exists l, mins ch = Ok l /\ (forall c, In c ch -> t_fin c = true -> exists m, In m l /\ cheapest c m) /\
                     (forall m, In m l -> exists c, In c ch /\ cheapest c m)).
      { assert (G1 : forall c, In c ch -> t_fin c = true -> exists m, min_cost_decomp cost dcost graph c = Ok m /\ cheapest c m).
        { intros c Hc Fc. apply (IH c Hc (flagged_child _ _ _ _ _ FL Hc) Fc). }
        clear IH FL F. induction ch as [|c r IHr]; [exists []; split; [reflexivity|]; split; [intros c []|intros m []]|].
        destruct IHr as (l & E & L1 & L2); [intros c' Hc'; apply G1; right; exact Hc'|]. cbn [mins].
        destruct (t_fin c) eqn:Fc.
        - destruct (G1 c (or_introl eq_refl) Fc) as (m & Em & Cm). rewrite Em. cbn [bindr]. unfold mins in E. rewrite E. cbn [bindr].
          exists (m :: l). split; [reflexivity|]. split.
          + intros c' [<-|Hc'] F'; [exists m; split; [left; reflexivity|exact Cm]|]. destruct (L1 c' Hc' F') as (m' & I & C). exists m'. split; [right; exact I|exact C].
          + intros m' [<-|H]; [exists c; split; [left; reflexivity|exact Cm]|]. destruct (L2 m' H) as (c' & I & C). exists c'. split; [right; exact I|exact C].
        - exists l. split; [exact E|]. split.
          + intros c' [<-|Hc'] F'; [congruence|]. apply L1; assumption.
          + intros m' H. destruct (L2 m' H) as (c' & I & C). exists c'. split; [right; exact I|exact C]. }
      destruct MN as (l & -> & L1 & L2). cbn [bindr].
      destruct (proj1 (FL _ 0 (under_self _)) F) as (p & Hp). inversion Hp as [|? ? ? ? c q ? Hc Hq]; subst.
      assert (Fc : t_fin c = true) by (apply (FL c 1 (under_child _ _ _ _ _ _ _ Hc (under_self _))); exists q; exact Hq).
      destruct (L1 c Hc Fc) as (m0 & I0 & _).
      destruct (first_min_ok l) as (m & -> & Im & Bm); [intros ->; destruct I0|]. cbn [bindr]. eexists. split; [reflexivity|].
      destruct (L2 m Im) as (c1 & Hc1 & x & P & LX & EC & EG & B). exists x. cbn [fst snd]. split; [econstructor; eassumption|].
      split; [rewrite (last_cons _ _ _ _ _ P); exact LX|]. split; [exact EC|]. split; [exact EG|].
      intros q' y Hq' Hy. inversion Hq' as [|? ? ? ? c2 q2 ? Hc2 Hq2]; subst. rewrite (last_cons _ _ _ _ _ Hq2) in Hy.
      assert (F2 : t_fin c2 = true) by (apply (FL c2 1 (under_child _ _ _ _ _ _ _ Hc2 (under_self _))); exists q2; exact Hq2).
      destruct (L1 c2 Hc2 F2) as (m2 & I2 & x2 & P2 & LX2 & EC2 & _ & B2). assert (X := Bm m2 I2). rewrite EC, EC2 in X. cbn in X.
      assert (Y := B2 q2 y Hq2 Hy). lra.
  Qed.
  Lemma fc_flagged (t : ntree A) : leaves_only t -> flagged (found_checker t).
  Proof.
    induction t as [k f a ch IH] using ntree_rect'. intros L. rewrite Forall_forall in IH. intros t' n U. rewrite fc_unfold in U. inversion U as [? E|? ? ? ? c ? m Hc Uc E]; subst.
    - rewrite <- fc_unfold. rewrite fc_fin by exact L. split; intros (p & H); exists p; apply fc_leads; exact H.
    - apply in_map_iff in Hc. destruct Hc as (c1 & <- & Hc).
      apply (IH c1 Hc (leaves_only_child _ _ _ _ _ L Hc) t' m Uc).
  Qed.

  (** What is retrieved from a search. *)
  Theorem retrieve_ok (t : ntree A) : leaves_only t ->
    (exists p, leads t p true) ->
    exists p x, retrieve_decomposition cost dcost graph t = Ok (p, Some (cost x, dcost x), graph x) /\ leads t p true /\ last p x = x /\
      (forall q y, leads t q true -> last q y = y -> (cost x <= cost y)%R).
  Proof.
    intros L EX. unfold retrieve_decomposition. assert (F := proj2 (fc_fin t L) EX). rewrite F.
    destruct (min_cost_ok (found_checker t) (fc_flagged t L) F) as (m & -> & x & P & LX & EC & EG & B). cbn [bindr].
    exists (fst (fst m)), x. rewrite EC, EG. split; [reflexivity|]. split; [apply fc_leads; exact P|]. split; [exact LX|].
    intros q y Hq. apply B. apply fc_leads. exact Hq.
  Qed.
  Theorem retrieve_none (t : ntree A) : leaves_only t -> (forall p, ~ leads t p true) ->
    retrieve_decomposition cost dcost graph t = Ok ([], None, graph (t_data t)).
  Proof.
    intros L N. unfold retrieve_decomposition. destruct (t_fin (found_checker t)) eqn:F; [|reflexivity].
    apply (fc_fin t L) in F. destruct F as (p & H). destruct (N p H).
  Qed.
End Proofs.

(** After total_size a tree that has only its root calls itself empty. *)
Theorem empty_wrong (k : Z) (a : nat) : exists t n t', run_calls new_tree [CAdd k a None] = Ok t /\ is_empty t = false /\
  total_size t = Ok (n, t') /\ n = 1 /\ is_empty t' = true.
Proof. eexists _, _, _. split; [reflexivity|]. split; [reflexivity|]. split; [reflexivity|]. split; reflexivity. Qed.
(** A finished node with children, none of them finished: nothing is retrieved. *)
Theorem finished_inner_wrong : exists t : ntree R, t_fin t = true /\
  retrieve_decomposition (fun x => x) (fun x => x) (fun _ => tt) t = Err ValueError.
Proof. exists (NT 0 true 0%R [NT 1 false 0%R []]). split; reflexivity. Qed.
