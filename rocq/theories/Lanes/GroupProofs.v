(** Groups of consecutive local gates, the index on them, and replacing a part of a lane. *)
From Coq Require Import List ZArith Arith Bool Lia Sorted Permutation.
From Verif Require Import Base.Py Base.PyFacts.
From Verif Require Import Circuit.GateModel Circuit.GateProofs Lanes.LanesModel Lanes.LanesSpec Lanes.ExtractProofs Lanes.LanesProofs.
Import ListNotations.
Local Open Scope nat_scope.

Section G.
Context {A : Type}.
Implicit Types (x y : entry A) (es : list (entry A)) (l : list (obj A)) (v : list (Z * list (list (entry A)))).

(** the runs of a line, from the right *)
Fixpoint runs (es : list (entry A)) : list (list (entry A)) :=
  match es with
  | [] => []
  | x :: r => if e_single x then
                match runs r with
                | (y :: g) :: gs => if e_single y then (x :: y :: g) :: gs else [x] :: (y :: g) :: gs
                | o => [x] :: o
                end
              else [x] :: runs r
  end.
Definition singles (g : list (entry A)) : Prop := forall x, In x g -> e_single x = true.
Lemma runs_concat es : concat (runs es) = es.
Proof.
  induction es as [|x r IH]; [reflexivity|]. cbn. destruct (e_single x); [|cbn; now rewrite IH].
  destruct (runs r) as [|[|y g] gs] eqn:E; cbn in *; [now rewrite <- IH|now rewrite IH|].
  destruct (e_single y); cbn; now rewrite IH.
Qed.
Lemma runs_kind es : forall g, In g (runs es) -> g <> [] /\ (singles g \/ exists x, g = [x] /\ e_single x = false).
Proof.
  induction es as [|x r IH]; cbn; [easy|]. destruct (e_single x) eqn:Ex.
  - destruct (runs r) as [|[|y g0] gs] eqn:E.
    + intros g [<-|[]]. split; [easy|]. left. intros z [<-|[]]. exact Ex.
    + intros g [<-|Hg]; [|now apply IH]. split; [easy|]. left. intros z [<-|[]]. exact Ex.
    + destruct (e_single y) eqn:Ey; intros g [<-|Hg].
      * split; [easy|]. left. destruct (IH _ (or_introl eq_refl)) as [_ [H|[z [H Ez]]]].
        -- intros z [<-|Hz]; [exact Ex|now apply H].
        -- injection H as -> ->. congruence.
      * apply IH. now right.
      * split; [easy|]. left. intros z [<-|[]]. exact Ex.
      * now apply IH.
  - intros g [<-|Hg]; [|now apply IH]. split; [easy|]. right. now exists x.
Qed.
Lemma runs_maximal es : forall p g1 g2 q, runs es = p ++ g1 :: g2 :: q -> singles g1 -> singles g2 -> False.
Proof.
  induction es as [|x r IH]; cbn; intros p g1 g2 q E S1 S2; [now destruct p|].
  destruct (e_single x) eqn:Ex.
  - destruct (runs r) as [|[|y g0] gs] eqn:Er.
    + destruct p as [|? [|? ?]]; discriminate.
    + pose proof (runs_kind r []) as K. rewrite Er in K. destruct (K (or_introl eq_refl)). congruence.
    + destruct (e_single y) eqn:Ey.
      * destruct p as [|? p]; cbn in E; injection E as E0 E1.
        -- subst. apply (IH [] (y :: g0) g2 q); [reflexivity| |exact S2]. intros z Hz. apply S1. now right.
        -- apply (IH ((y :: g0) :: p) g1 g2 q); [cbn; now rewrite E1|exact S1|exact S2].
      * destruct p as [|? p]; cbn in E; injection E as E0 E1.
        -- subst. rewrite (S2 y) in Ey by now left. discriminate.
        -- apply (IH p g1 g2 q); [exact E1|exact S1|exact S2].
  - destruct p as [|? p]; cbn in E; injection E as E0 E1.
    + subst. rewrite (S1 x) in Ex by now left. discriminate.
    + apply (IH p g1 g2 q); assumption.
Qed.

(** ** The left-to-right construction *)
Definition gstep (gs : list (list (entry A))) (x : entry A) : list (list (entry A)) :=
  if e_single x then match gs with [] => [[x]] | _ => append_last gs x end else gs ++ [[x]; []].
Lemma append_last_app {V} (gs : list (list V)) g (x : V) : append_last (gs ++ [g]) x = gs ++ [g ++ [x]].
Proof.
  induction gs as [|h gs IH]; [reflexivity|]. cbn [app append_last]. rewrite IH.
  destruct gs as [|h' gs']; reflexivity.
Qed.
Lemma runs_singles g x es : singles g -> e_single x = false -> runs (g ++ x :: es) = filter nonempty [g] ++ [x] :: runs es.
Proof.
  induction g as [|y g IH]; intros S E; [cbn; now rewrite E|].
  cbn [app runs]. rewrite (S y) by now left. rewrite IH; [|intros z Hz; apply S; now right|exact E].
  destruct g as [|z g]; cbn; [now rewrite E|]. rewrite (S z) by (right; now left). reflexivity.
Qed.
Lemma runs_all_singles g : singles g -> runs g = filter nonempty [g].
Proof.
  induction g as [|y g IH]; intros S; [reflexivity|]. cbn [runs]. rewrite (S y) by now left.
  rewrite IH by (intros z Hz; apply S; now right). destruct g as [|z g]; cbn; [reflexivity|]. now rewrite (S z) by (right; now left).
Qed.
Lemma gstep_runs es : forall gs g, singles g ->
  filter nonempty (fold_left gstep es (gs ++ [g])) = filter nonempty gs ++ runs (g ++ es).
Proof.
  induction es as [|x es IH]; intros gs g S; cbn [fold_left].
  - rewrite app_nil_r, filter_app, runs_all_singles by exact S. reflexivity.
  - unfold gstep at 2. destruct (e_single x) eqn:E.
    + assert (N : match gs ++ [g] with [] => [[x]] | _ :: _ => append_last (gs ++ [g]) x end = gs ++ [g ++ [x]]).
      { rewrite <- append_last_app. destruct (gs ++ [g]) eqn:E'; [destruct gs; discriminate|reflexivity]. }
      rewrite N, IH.
      * now rewrite <- app_assoc.
      * intros z Hz. apply in_app_or in Hz as [Hz|[<-|[]]]; [now apply S|exact E].
    + replace ((gs ++ [g]) ++ [[x]; []]) with ((gs ++ [g; [x]]) ++ [[]]) by (rewrite <- !app_assoc; reflexivity).
      rewrite IH by easy. rewrite runs_singles by assumption. rewrite filter_app. cbn [app].
      rewrite <- app_assoc. f_equal. cbn. destruct (nonempty g); reflexivity.
Qed.
Lemma gstep_runs0 es : filter nonempty (fold_left gstep es []) = runs es.
Proof.
  destruct es as [|x es]; [reflexivity|]. cbn [fold_left]. unfold gstep at 2. destruct (e_single x) eqn:E.
  - apply (gstep_runs es [] [x]). intros z [<-|[]]. exact E.
  - change ([] ++ [[x]; []]) with ([[x]] ++ [@nil (entry A)]). rewrite gstep_runs by easy. cbn. now rewrite E.
Qed.

Lemma group_step_of v x t t' : groups_of (group_step v x t) t' = if Z.eqb t' t then gstep (groups_of v t') x else groups_of v t'.
Proof.
  unfold group_step, gstep, groups_of. destruct (e_single x).
  - destruct (match dget Z.eqb v t with Some l => l | None => [] end) as [|g gs] eqn:E; rewrite lane_dset;
      (destruct (Z.eqb_spec t' t) as [->|N]; [now rewrite E|reflexivity]).
  - rewrite lane_dset. destruct (Z.eqb_spec t' t) as [->|N]; reflexivity.
Qed.
Lemma group_step_fold ts v x t : NoDup ts ->
  groups_of (fold_left (fun d t => group_step d x t) ts v) t = if existsb (Z.eqb t) ts then gstep (groups_of v t) x else groups_of v t.
Proof.
  revert v. induction ts as [|u ts IH]; intros v N; cbn [fold_left existsb]; [reflexivity|].
  inversion N; subst. rewrite IH by assumption. rewrite group_step_of. destruct (Z.eqb_spec t u) as [->|Ne]; cbn; [|reflexivity].
  assert (existsb (Z.eqb u) ts = false) as ->; [|reflexivity].
  apply not_true_iff_false. rewrite existsb_exists. intros [w [Hw E]]. apply Z.eqb_eq in E. now subst.
Qed.
Lemma group_step_keys v x t t' : In t' (map fst (group_step v x t)) <-> t' = t \/ In t' (map fst v).
Proof.
  unfold group_step. destruct (e_single x); [destruct (groups_of v t)|]; apply dset_key_incl.
Qed.
Lemma group_fold_keys ts v x t : In t (map fst (fold_left (fun d t => group_step d x t) ts v)) <-> In t (map fst v) \/ In t ts.
Proof.
  revert v. induction ts as [|u ts IH]; intros v; cbn; [tauto|]. rewrite IH, group_step_keys. intuition congruence.
Qed.
Lemma group_step_nodup v x t : NoDup (map fst v) -> NoDup (map fst (group_step v x t)).
Proof.
  intros H. unfold group_step. destruct (e_single x); [destruct (groups_of v t)|]; apply dset_NoDup; auto; apply Z.eqb_eq.
Qed.
Lemma group_fold_nodup ts v x : NoDup (map fst v) -> NoDup (map fst (fold_left (fun d t => group_step d x t) ts v)).
Proof. revert v. induction ts as [|t ts IH]; intros v H; [exact H|]. cbn. apply IH. now apply group_step_nodup. Qed.
Lemma group_loop_spec es : (forall x, In x es -> plain (e_gate x)) -> forall v v', group_loop v es = Ok v' -> NoDup (map fst v) ->
  NoDup (map fst v') /\
  (forall t, groups_of v' t = fold_left gstep (filter (onb t) es) (groups_of v t)) /\
  (forall t, In t (map fst v') <-> In t (map fst v) \/ exists x, In x es /\ onb t x = true).
Proof.
  induction es as [|x es IH]; intros P v v' E N.
  - injection E as <-. split; [exact N|]. split; [reflexivity|]. intros t. split; [tauto|]. intros [H|[? [[] _]]]. exact H.
  - cbn [group_loop] in E. rewrite plain_filed in E by (apply P; now left). cbn [bindr] in E.
    apply IH in E; [|intros; apply P; now right|now apply group_fold_nodup]. destruct E as [N' [G Kk]].
    pose proof (plain_nodup _ (P x (or_introl eq_refl))) as [Nx _].
    split; [exact N'|]. split.
    + intros t. rewrite G, group_step_fold by exact Nx. cbn [filter]. unfold onb at 2, on_line. fold (e_gate x).
      destruct (existsb _ _); reflexivity.
    + intros t. rewrite Kk, group_fold_keys. split.
      * intros [[H|H]|[y [Hy Oy]]]; [now left|right; exists x; split; [now left|now apply onb_in]|right; exists y; split; [now right|exact Oy]].
      * intros [H|[y [[<-|Hy] Oy]]]; [tauto|left; right; now apply onb_in|right; now exists y].
Qed.
Lemma dget_map {V W : Type} (f : V -> W) (d : list (Z * V)) t : dget Z.eqb (map (fun kv => (fst kv, f (snd kv))) d) t = option_map f (dget Z.eqb d t).
Proof. induction d as [|[k w] d IH]; [reflexivity|]. cbn. destruct (Z.eqb t k); [reflexivity|exact IH]. Qed.
Lemma dget_some {V} (d : list (Z * V)) t : In t (map fst d) <-> exists w, dget Z.eqb d t = Some w.
Proof.
  destruct (dget Z.eqb d t) as [w|] eqn:E.
  - split; [now exists w|]. intros _. apply dget_In in E; [|apply Z.eqb_eq]. now apply (in_map fst) in E.
  - apply dget_None in E; [|apply Z.eqb_eq]. split; [contradiction|]. intros [w H]. discriminate.
Qed.
Lemma consecutive_spec es v : (forall x, In x es -> plain (e_gate x)) -> consecutive es = Ok v ->
  NoDup (map fst v) /\
  (forall t gs, dget Z.eqb v t = Some gs -> gs = runs (filter (onb t) es)) /\
  (forall t, In t (map fst v) <-> exists x, In x es /\ onb t x = true).
Proof.
  intros P E. unfold consecutive in E. destruct (group_loop [] es) as [v0|] eqn:E0; [|discriminate]. injection E as <-.
  apply group_loop_spec in E0; [|exact P|constructor]. destruct E0 as [N [G Kk]]. rewrite map_map. cbn [fst].
  split; [exact N|]. split.
  - intros t gs. rewrite dget_map. destruct (dget Z.eqb v0 t) as [w|] eqn:Ew; [|discriminate]. cbn. intros [= <-].
    rewrite <- gstep_runs0. specialize (G t). unfold groups_of in G. rewrite Ew in G. cbn in G. now rewrite G.
  - intros t. rewrite Kk. cbn. tauto.
Qed.

(** as groups of gate objects *)
Lemma runs_grouping es : grouping (map snd es) (map (map snd) (runs es)).
Proof.
  constructor.
  - rewrite <- concat_map. now rewrite runs_concat.
  - intros g Hg. apply in_map_iff in Hg as [h [<- Hh]]. apply runs_kind in Hh as [Hh _]. destruct h; [easy|discriminate].
  - intros g Hg. apply in_map_iff in Hg as [h [<- Hh]]. apply runs_kind in Hh as [_ [Hh|[x [-> Hx]]]].
    + left. intros o Ho. apply in_map_iff in Ho as [x [<- Hx]]. exact (Hh x Hx).
    + right. exists (snd x). split; [reflexivity|exact Hx].
  - intros p g1 g2 q E [S1 S2]. apply map_eq_app in E as [p' [r [E [<- E2]]]].
    destruct r as [|h1 [|h2 q']]; try discriminate. cbn in E2. injection E2 as <- <- <-.
    apply (runs_maximal es p' h1 h2 q' E).
    + intros x Hx. apply (S1 (snd x)). now apply in_map.
    + intros x Hx. apply (S2 (snd x)). now apply in_map.
Qed.
Lemma groups_partition l : (forall o, In o l -> plain (snd o)) -> exists x : lanes A, new_lanes l = Ok x /\
  forall t, match dget Z.eqb (l_view x) t with
            | Some gs => line_ops t l <> [] /\ grouping (line_ops t l) (map (map snd) gs)
            | None => line_ops t l = []
            end.
Proof.
  intros P. destruct (new_lanes_ok l P) as [x [E [_ [_ [C _]]]]]. exists x. split; [exact E|]. intros t.
  destruct (consecutive_spec _ _ (plain_all l P) C) as [N [G Kk]].
  assert (Li : line_ops t l = map snd (filter (onb t) (pre_process_ops l))).
  { rewrite <- line_ops_snd. unfold pre_process_ops. now rewrite number_snd. }
  destruct (dget Z.eqb (l_view x) t) as [gs|] eqn:Eg.
  - rewrite Li, (G t gs Eg). split; [|apply runs_grouping].
    assert (In t (map fst (l_view x))) by (apply dget_some; now exists gs). apply Kk in H as [y [Hy Oy]].
    intros F. apply map_eq_nil in F. pose proof (filter_nil_inv _ _ F y Hy). congruence.
  - rewrite Li. replace (filter (onb t) (pre_process_ops l)) with (@nil (entry A)); [reflexivity|]. symmetry. apply filter_none.
    intros y Hy. apply not_true_iff_false. intros Oy. assert (In t (map fst (l_view x))) by (apply Kk; now exists y).
    apply dget_some in H as [gs H]. congruence.
Qed.

Lemma lane_read l : (forall o, In o l -> plain (snd o)) -> exists x : lanes A, new_lanes l = Ok x /\
  forall t, (line_ops t l <> [] -> extract_lane (l_dict x) t = Ok (line_ops t l)) /\ (line_ops t l = [] -> extract_lane (l_dict x) t = Err KeyError).
Proof.
  intros P. destruct (new_lanes_ok l P) as [x [E [_ [_ [_ [_ [_ [L Kk]]]]]]]]. exists x. split; [exact E|]. intros t.
  assert (Li : line_ops t l = map snd (lane (l_dict x) t)).
  { rewrite L, <- line_ops_snd. unfold pre_process_ops. now rewrite number_snd. }
  assert (Kt : line_ops t l <> [] <-> In t (map fst (l_dict x))).
  { rewrite Kk. unfold line_ops. split.
    - intros H. destruct (filter (on_line t) l) as [|o r] eqn:F; [contradiction|]. exists o. assert (Hi : In o (filter (on_line t) l)) by (rewrite F; now left). now apply filter_In in Hi.
    - intros [o [Hi Ho]] F. assert (Hf : In o (filter (on_line t) l)) by (apply filter_In; split; assumption). rewrite F in Hf. destruct Hf. }
  unfold extract_lane, lane in *. destruct (dget Z.eqb (l_dict x) t) as [w|] eqn:D.
  - assert (H : line_ops t l <> []) by (apply Kt, dget_some; now exists w). split; [intros _; now rewrite Li|contradiction].
  - split; [|reflexivity]. intros H. apply Kt, dget_some in H as [w H]. congruence.
Qed.

(** ** The index *)
Definition located (n : nat) (p : Z * nat * nat) v : Prop :=
  exists gs g x, In (fst (fst p), gs) v /\ nth_error gs (snd (fst p)) = Some g /\ nth_error g (snd p) = Some x /\ e_id x = n.
Lemma dget_dset_nat (f : lookup) (k k2 : nat) w : dget Nat.eqb (dset Nat.eqb f k w) k2 = if Nat.eqb k2 k then Some w else dget Nat.eqb f k2.
Proof.
  destruct (Nat.eqb_spec k2 k) as [->|N]; [apply dget_dset_same; apply Nat.eqb_eq|apply dget_dset_other; [apply Nat.eqb_eq|exact N]].
Qed.
Lemma index_group_spec g : forall (f : lookup) t gn k n,
  match dget Nat.eqb (index_group f t gn k g) n with
  | Some p => dget Nat.eqb f n = Some p \/ (exists i x, p = (t, gn, k + i) /\ nth_error g i = Some x /\ e_id (A:=A) x = n)
  | None => dget Nat.eqb f n = None /\ forall x, In x g -> e_id x <> n
  end.
Proof.
  induction g as [|x g IH]; intros f t gn k n; cbn [index_group].
  - destruct (dget Nat.eqb f n); [now left|]. split; [reflexivity|easy].
  - specialize (IH (dset Nat.eqb f (e_id x) (t, gn, k)) t gn (S k) n).
    destruct (dget Nat.eqb (index_group _ t gn (S k) g) n) as [p|].
    + destruct IH as [IH|[i [y [-> [H1 H2]]]]].
      * rewrite dget_dset_nat in IH. destruct (Nat.eqb_spec n (e_id x)) as [->|N]; [|now left].
        injection IH as <-. right. exists 0, x. rewrite Nat.add_0_r. auto.
      * right. exists (S i), y. split; [f_equal; lia|]. split; [exact H1|exact H2].
    + destruct IH as [IH1 IH2]. rewrite dget_dset_nat in IH1. destruct (Nat.eqb_spec n (e_id x)) as [En|N]; [discriminate|].
      split; [exact IH1|]. intros y [<-|Hy]; [congruence|now apply IH2].
Qed.
Lemma index_groups_spec gs : forall (f : lookup) t gn n,
  match dget Nat.eqb (index_groups f t gn gs) n with
  | Some p => dget Nat.eqb f n = Some p \/ (exists j i g x, p = (t, gn + j, i) /\ nth_error gs j = Some g /\ nth_error g i = Some x /\ e_id (A:=A) x = n)
  | None => dget Nat.eqb f n = None /\ forall g x, In g gs -> In x g -> e_id x <> n
  end.
Proof.
  induction gs as [|g gs IH]; intros f t gn n; cbn [index_groups].
  - destruct (dget Nat.eqb f n); [now left|]. split; [reflexivity|easy].
  - specialize (IH (index_group f t gn 0 g) t (S gn) n).
    pose proof (index_group_spec g f t gn 0 n) as G.
    destruct (dget Nat.eqb (index_groups _ t (S gn) gs) n) as [p|].
    + destruct IH as [IH|[j [i [h [y [-> [H1 [H2 H3]]]]]]]].
      * rewrite IH in G. destruct G as [G|[i [y [-> [H1 H2]]]]]; [now left|]. right. exists 0, i, g, y. rewrite Nat.add_0_r. auto.
      * right. exists (S j), i, h, y. split; [now replace (gn + S j) with (S gn + j) by lia|]. auto.
    + destruct IH as [IH1 IH2]. rewrite IH1 in G. destruct G as [G1 G2]. split; [exact G1|].
      intros h y [<-|Hh]; [apply G2|now apply IH2].
Qed.
Lemma build_index_spec v : forall (f : lookup) n,
  match dget Nat.eqb (build_index f v) n with
  | Some p => dget Nat.eqb f n = Some p \/ located n p v
  | None => dget Nat.eqb f n = None /\ forall t gs g x, In (t, gs) v -> In g gs -> In x g -> e_id x <> n
  end.
Proof.
  induction v as [|[t gs] v IH]; intros f n; cbn.
  - destruct (dget Nat.eqb f n); [now left|]. split; [reflexivity|easy].
  - specialize (IH (index_groups f t 0 gs) n). pose proof (index_groups_spec gs f t 0 n) as G.
    unfold build_index in *. cbn in *.
    match type of IH with match ?X with _ => _ end => destruct X as [p|] end.
    + destruct IH as [IH|[gs' [g [x [H1 H2]]]]].
      * rewrite IH in G. destruct G as [G|[j [i [g [x [-> [H1 [H2 H3]]]]]]]]; [now left|]. right.
        exists gs, g, x. cbn. auto.
      * right. exists gs', g, x. cbn. auto.
    + destruct IH as [IH1 IH2]. rewrite IH1 in G. destruct G as [G1 G2]. split; [exact G1|].
      intros t' gs' g x [[= <- <-]|H]; [now apply G2|now apply (IH2 t' gs')].
Qed.

Lemma nth_split' {T} (l : list T) n (x : T) : nth_error l n = Some x -> exists p q, l = p ++ x :: q /\ List.length p = n.
Proof. intros H. apply nth_error_split in H as [p [q H]]. exists p, q. exact H. Qed.
Lemma split_unique (p1 q1 p2 q2 : list (obj A)) o : NoDup (map fst (p1 ++ o :: q1)) -> p1 ++ o :: q1 = p2 ++ o :: q2 -> p1 = p2 /\ q1 = q2.
Proof.
  intros N. revert p2. induction p1 as [|a p1 IH]; intros p2 E.
  - destruct p2 as [|b p2]; cbn in E; [now injection E as ->|]. injection E as <- E. exfalso.
    cbn in N. inversion N; subst. apply H1. rewrite map_app. apply in_or_app. right. now left.
  - destruct p2 as [|b p2]; cbn in E; injection E as E0 E.
    + subst. exfalso. cbn in N. inversion N; subst. apply H1. rewrite map_app. apply in_or_app. right. now left.
    + subst b. cbn in N. inversion N; subst. destruct (IH H2 p2 E) as [-> ->]. auto.
Qed.

Lemma located_line l (x : lanes A) (P : forall o, In o l -> plain (snd o)) : NoDup (map fst l) -> new_lanes l = Ok x ->
  forall o, In o l -> exists t gn k gs g e, dget Nat.eqb (l_fast x) (fst o) = Some (t, gn, k) /\
    dget Z.eqb (l_view x) t = Some gs /\ nth_error gs gn = Some g /\ nth_error g k = Some e /\ snd e = o /\ on_line t o = true /\
    gs = runs (filter (onb t) (pre_process_ops l)).
Proof.
  intros N E o Ho. destruct (new_lanes_ok l P) as [x' [E' [_ [_ [C [F _]]]]]]. rewrite E in E'. injection E' as <-.
  destruct (consecutive_spec _ _ (plain_all l P) C) as [Nk [G Kk]].
  assert (Hin : exists e, In e (pre_process_ops l) /\ snd e = o).
  { rewrite <- (number_snd 0 l) in Ho. apply in_map_iff in Ho as [e [<- He]]. now exists e. }
  destruct Hin as [e0 [He0 Ee0]].
  pose proof (build_index_spec (l_view x) [] (fst o)) as B. rewrite <- F in B.
  destruct (dget Nat.eqb (l_fast x) (fst o)) as [[[t gn] k]|].
  - destruct B as [B|[gs [g [e [H1 [H2 [H3 H4]]]]]]]; [discriminate|]. cbn in H1, H2, H3.
    exists t, gn, k, gs, g, e. apply (dget_complete Z.eqb Z.eqb_eq) in H1; [|exact Nk].
    pose proof (G t gs H1) as Egs.
    assert (He : In e (filter (onb t) (pre_process_ops l))).
    { rewrite <- runs_concat, <- Egs. apply in_concat. exists g. split; eapply nth_error_In; eauto. }
    apply filter_In in He as [He Ot].
    assert (snd e = o).
    { assert (e = e0); [|now subst]. apply (NoDup_map_inj (e_id (A:=A)) (pre_process_ops l)); [unfold pre_process_ops; now rewrite ids_snd, number_snd|exact He|exact He0|].
      unfold e_id in *. now rewrite H4, Ee0. }
    subst o. repeat split; auto. now rewrite <- H.
  - exfalso. destruct B as [_ B]. destruct (plain_nodup _ (P o Ho)) as [_ Nt].
    destruct (target_lines (snd o)) as [|t ts] eqn:Et; [easy|].
    assert (Ot : onb t e0 = true) by (apply onb_in; unfold e_gate; rewrite Ee0, Et; now left).
    assert (Hk : In t (map fst (l_view x))) by (apply Kk; now exists e0). apply dget_some in Hk as [gs Hk].
    pose proof (G t gs Hk) as Egs.
    assert (He : In e0 (concat gs)) by (rewrite Egs, runs_concat; apply filter_In; auto).
    apply in_concat in He as [g [Hg He]]. apply (B t gs g e0); auto; [exact (dget_In Z.eqb Z.eqb_eq _ _ _ Hk)|].
    unfold e_id. now rewrite Ee0.
Qed.

Lemma line_nodup t l : NoDup (map fst l) -> NoDup (map fst (line_ops t l)).
Proof. apply NoDup_map_filter. Qed.

Lemma next_local_single l (x : lanes A) : (forall o, In o l -> plain (snd o)) -> NoDup (map fst l) -> new_lanes l = Ok x ->
  forall o t, In o l -> local o = true -> on_line t o = true ->
  exists b, next_is_local x (fst o) = Ok b /\ (b = true <-> exists o', next_on t l o o' /\ local o' = true).
Proof.
  intros P N E o t Ho Lo Ot.
  destruct (located_line l x P N E o Ho) as [u [gn [k [gs [g [e [F [V [H1 [H2 [Ee [Ou Egs]]]]]]]]]]]].
  assert (u = t).
  { destruct (plain_single_line _ (P o Ho) Lo) as [w Ew]. apply on_line_in in Ot, Ou. rewrite Ew in *. destruct Ot as [<-|[]], Ou as [<-|[]]. reflexivity. }
  subst u. unfold next_is_local. rewrite F, V, H1. eexists. split; [reflexivity|].
  assert (Li : line_ops t l = map snd (concat gs)).
  { rewrite Egs, runs_concat, <- line_ops_snd. unfold pre_process_ops. now rewrite number_snd. }
  apply nth_split' in H1 as [gp [gq [E1 _]]]. apply nth_split' in H2 as [p [q [E2 Lp]]].
  assert (Kg : singles g).
  { assert (In g gs) by (rewrite E1; apply in_or_app; right; now left). rewrite Egs in H. apply runs_kind in H as [_ [H|[z [-> Hz]]]]; [exact H|].
    exfalso. destruct p as [|? [|? ?]]; try discriminate. cbn in E2. injection E2 as -> _. unfold e_single, e_gate in Hz. rewrite Ee in Hz. unfold local in Lo. congruence. }
  assert (Li2 : line_ops t l = map snd (concat gp ++ p) ++ o :: map snd (q ++ concat gq)).
  { rewrite Li, E1, E2, concat_app. cbn. repeat (rewrite map_app; cbn). rewrite Ee, <- !app_assoc. reflexivity. }
  pose proof (line_nodup t l N) as Nl. rewrite Li2 in Nl.
  rewrite negb_true_iff, Z.eqb_neq. rewrite E2, app_length. cbn [List.length]. split.
  - intros H. destruct q as [|e' q]; [cbn in H; lia|]. exists (snd e'). split.
    + exists (map snd (concat gp ++ p)), (map snd (q ++ concat gq)). exact Li2.
    + apply (Kg e'). rewrite E2. apply in_or_app. right. right. now left.
  - intros [o' [[p' [q' Eo]] Lo']] H. destruct q as [|e' q]; [|cbn in H; lia].
    rewrite Li2 in Eo. apply split_unique in Eo; [|exact Nl]. destruct Eo as [_ Eo]. cbn in Eo.
    destruct gq as [|g2 gq]; [discriminate|].
    assert (Hg2 : In g2 gs) by (rewrite E1; apply in_or_app; right; right; now left). rewrite Egs in Hg2.
    apply runs_kind in Hg2 as [Ng2 [S2|[z [-> Hz]]]].
    + rewrite Egs in E1. exact (runs_maximal _ _ _ _ _ E1 Kg S2).
    + cbn in Eo. injection Eo as <- _. unfold local, e_single, e_gate in *. congruence.
Qed.
Lemma next_local_ent l (x : lanes A) : (forall o, In o l -> plain (snd o)) -> NoDup (map fst l) -> new_lanes l = Ok x ->
  forall o, In o l -> local o = false -> next_is_local x (fst o) = Ok false.
Proof.
  intros P N E o Ho Lo.
  destruct (located_line l x P N E o Ho) as [u [gn [k [gs [g [e [F [V [H1 [H2 [Ee [Ou Egs]]]]]]]]]]]].
  unfold next_is_local. rewrite F, V, H1. f_equal.
  assert (In g gs) by (eapply nth_error_In; eauto). rewrite Egs in H. apply runs_kind in H as [_ [H|[z [-> Hz]]]].
  - exfalso. assert (In e g) by (eapply nth_error_In; eauto). apply H in H0. unfold local, e_single, e_gate in *. congruence.
  - destruct k as [|[|k]]; [reflexivity|discriminate..].
Qed.
Lemma next_unknown l (x : lanes A) : (forall o, In o l -> plain (snd o)) -> new_lanes l = Ok x -> forall n, ~ In n (map fst l) -> next_is_local x n = Err KeyError.
Proof.
  intros P E n H. destruct (new_lanes_ok l P) as [x' [E' [_ [_ [C [F _]]]]]]. rewrite E in E'. injection E' as <-.
  destruct (consecutive_spec _ _ (plain_all l P) C) as [Nk [G Kk]].
  pose proof (build_index_spec (l_view x) [] n) as B. rewrite <- F in B. unfold next_is_local.
  destruct (dget Nat.eqb (l_fast x) n) as [p|]; [|reflexivity]. exfalso.
  destruct B as [B|[gs [g [e [H1 [H2 [H3 H4]]]]]]]; [discriminate|]. apply H. rewrite <- (number_snd 0 l), map_map. apply in_map_iff.
  exists e. split; [exact H4|]. apply (dget_complete Z.eqb Z.eqb_eq) in H1; [|exact Nk]. apply G in H1.
  assert (In e (concat gs)) by (apply in_concat; exists g; split; eapply nth_error_In; eauto).
  rewrite H1, runs_concat in H0. now apply filter_In in H0.
Qed.

(** ** Replacing a part of a lane *)
Lemma remove_first_app x (p q : list (entry A)) : NoDup (map (e_id (A:=A)) (p ++ x :: q)) -> remove_first x (p ++ x :: q) = p ++ q.
Proof.
  induction p as [|y p IH]; cbn; intros N; inversion N; subst.
  - unfold same_entry. now rewrite !Nat.eqb_refl.
  - unfold same_entry. destruct (Nat.eqb_spec (e_id x) (e_id y)) as [E|E].
    + exfalso. apply H1. rewrite map_app, <- E. apply in_or_app. right. now left.
    + rewrite andb_false_r. f_equal. now apply IH.
Qed.
Lemma remove_range (p m q : list (entry A)) : NoDup (map (e_id (A:=A)) (p ++ m ++ q)) ->
  fold_left (fun es x => remove_first x es) m (p ++ m ++ q) = p ++ q.
Proof.
  induction m as [|x m IH]; intros N; [reflexivity|]. cbn [fold_left app].
  rewrite (remove_first_app x p (m ++ q)) by exact N. apply IH. rewrite map_app in *. cbn in N. now apply NoDup_remove_1 in N.
Qed.
Lemma skipn_add {T} a b (w : list T) : skipn a (skipn b w) = skipn (a + b) w.
Proof.
  revert w. induction b as [|b IH]; intros w; [now rewrite Nat.add_0_r|]. rewrite Nat.add_succ_r. destruct w; [now rewrite !skipn_nil|]. cbn. apply IH.
Qed.
Lemma replace_spec d t first last (new : obj A) (e : entry A) :
  NoDup (map (e_id (A:=A)) (lane d t)) -> first <= last -> nth_error (lane d t) first = Some e ->
  exists d', replace_gates d t first last new = Ok d' /\
    lane d' t = firstn first (lane d t) ++ (fst e, new) :: skipn (S last) (lane d t) /\
    (forall t', t' <> t -> lane d' t' = lane d t') /\ map fst d' = map fst d.
Proof.
  intros N Hle Hn. unfold replace_gates, lane in *. destruct (dget Z.eqb d t) as [w|] eqn:E; [|destruct first; discriminate].
  rewrite Hn. destruct e as [ke oe]. eexists. split; [reflexivity|]. rewrite lane_dset, Z.eqb_refl. split; [|split].
  - assert (Hlt : first < List.length w) by (apply nth_error_Some; congruence).
    set (m := firstn (Nat.min (last + 1) (List.length w) - first) (skipn first w)).
    assert (Sp : w = firstn first w ++ m ++ skipn (S last) w).
    { rewrite <- (firstn_skipn first w) at 1. f_equal. unfold m.
      rewrite <- (firstn_skipn (Nat.min (last + 1) (List.length w) - first) (skipn first w)) at 1. f_equal.
      rewrite skipn_add. destruct (Nat.le_gt_cases (last + 1) (List.length w)).
      - f_equal. lia.
      - rewrite !skipn_all2 by lia. reflexivity. }
    clearbody m. assert (Hf : List.length (firstn first w) = first) by (rewrite firstn_length; lia).
    set (p := firstn first w) in *. set (q := skipn (S last) w) in *. clearbody p q.
    rewrite Sp. rewrite Sp in N. rewrite remove_range by exact N. unfold insert_at.
    rewrite <- Hf. rewrite firstn_app, Nat.sub_diag, firstn_all, firstn_O, app_nil_r.
    rewrite skipn_app, Nat.sub_diag, skipn_all. reflexivity.
  - intros t' Ht. rewrite lane_dset. destruct (Z.eqb_spec t' t); [congruence|reflexivity].
  - apply (dkeys_dset_present (V:=list (entry A)) Z.eqb Z.eqb_eq). apply dget_some. now exists w.
Qed.
End G.
