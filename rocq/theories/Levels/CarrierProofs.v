(** Proofs about CarrierModel. *)
From Verif.Base Require Import Py PyFacts.
From Verif.Levels Require Import LevelsModel LevelsSpec GraphProofs LevelsProofs PhaseProofs CarrierModel.
Local Open Scope string_scope.
Local Open Scope list_scope.

(** the edge between two levels, in terms of the physical levels they sit on *)
Lemma edge_of_places g a b p q d : well_formed g -> placement_ok g -> placed g a p -> placed g b q ->
  (coupled g p q d <-> edge_data g a b = Some d).
Proof.
  intros W [_ U] Pa Pb. rewrite <- (joined_data g W). split.
  - intros (a' & b' & J & Pa' & Pb'). rewrite (U a a' p Pa Pa'), (U b b' q Pb Pb'). exact J.
  - intros J. exists a, b. auto.
Qed.
Lemma carrier_after_swaps l g g' a b p q : well_formed g -> uniform g -> placement_ok g ->
  (forall a b, In (a, b) l -> is_node g a /\ is_node g b) -> swap_all g l = Ok g' -> placed g' a p -> placed g' b q ->
  (forall d c, coupled g p q d -> In ("carrier", c) d -> NoDup (map fst d) -> edge_to_carrier [g'] a b 0 = Ok c) /\
  ((forall d, ~ coupled g p q d) -> edge_to_carrier [g'] a b 0 = Err TypeError).
Proof.
  intros W U P N E Pa Pb. destruct (swap_all_spec l g W U P N) as (g2 & E2 & W' & U' & P' & _ & C & _). rewrite E in E2. injection E2 as <-.
  unfold edge_to_carrier. cbn [nth_error]. split.
  - intros d c H K Nd. apply C in H. apply (edge_of_places g' a b p q d W' P' Pa Pb) in H. rewrite H.
    assert (A : aget d "carrier" = Some c) by (apply (dget_complete String.eqb String.eqb_eq); assumption). rewrite A. reflexivity.
  - intros H. destruct (edge_data g' a b) as [d|] eqn:D; [|reflexivity]. exfalso. apply (H d). apply C.
    apply (edge_of_places g' a b p q d W' P' Pa Pb). exact D.
Qed.
Lemma innsbruck_coupled p q d : coupled innsbruck p q d <->
  (((p = 0 /\ q = 1) \/ (p = 1 /\ q = 0)) /\ d = [("delta_m", AInt 0); ("sensitivity", AInt 3); ("carrier", AInt 0)] \/
   ((p = 1 /\ q = 2) \/ (p = 2 /\ q = 1)) /\ d = [("delta_m", AInt 0); ("sensitivity", AInt 4); ("carrier", AInt 1)])%Z.
Proof.
  assert (K : ((forall n p, placed innsbruck n p <-> In (n, p) (combine [0; 1; 2] [0; 1; 2])) /\
    (forall u v d, joined innsbruck u v d <-> In (u, v, d) [link 0 1 3 [("carrier", AInt 0)]; link 1 2 4 [("carrier", AInt 1)]] \/
       In (v, u, d) [link 0 1 3 [("carrier", AInt 0)]; link 1 2 4 [("carrier", AInt 1)]]))%Z).
  { unfold innsbruck. match goal with |- context [new_graph ?e ?n ?p (Some ?i) ?q ?o] => destruct (new_graph_spec e n p i q o) as (_ & _ & _ & Pl & Jo & _);
      [apply nodup_check; vm_compute; reflexivity|discriminate|reflexivity|apply good_edgesb_ok; vm_compute; reflexivity|] end. split; [exact Pl|exact Jo]. }
  destruct K as [Pl Jo]. unfold coupled.
  assert (Id : forall n p, placed innsbruck n p -> n = p).
  { intros n p' H. apply Pl in H. cbn in H. repeat destruct H as [H|H]; try (injection H as <- <-; reflexivity). destruct H. }
  split.
  - intros (a & b & J & Pa & Pb). apply Id in Pa, Pb. subst p q. apply Jo in J. unfold link in J. cbn in J.
    destruct J as [[J|[J|[]]]|[J|[J|[]]]]; injection J as <- <- <-; tauto.
  - intros H. exists p, q. split; [apply Jo; unfold link; cbn; destruct H as [[[[-> ->]|[-> ->]] ->]|[[[-> ->]|[-> ->]] ->]]; auto 10|].
    split; apply Pl; cbn; destruct H as [[[[-> ->]|[-> ->]] ->]|[[[-> ->]|[-> ->]] ->]]; auto 10.
Qed.
Lemma innsbruck_carrier l g' a b p q : (forall a b, In (a, b) l -> is_node innsbruck a /\ is_node innsbruck b) -> swap_all innsbruck l = Ok g' ->
  placed g' a p -> placed g' b q ->
  edge_to_carrier [g'] a b 0 = if Z.eqb (Z.abs (p - q)) 1 then Ok (AInt (Z.min p q)) else Err TypeError.
Proof.
  intros N E Pa Pb. destruct innsbruck_routable as [W U P _ _ Ph _ _ _].
  destruct (swap_all_spec l innsbruck W U P N) as (g2 & E2 & _ & _ & _ & _ & _ & Oc). rewrite E in E2. injection E2 as <-.
  assert (Rp : (0 <= p < 3)%Z). { destruct (proj2 (Oc p) (ex_intro _ a Pa)) as [n H]. exact (Ph n p H). }
  assert (Rq : (0 <= q < 3)%Z). { destruct (proj2 (Oc q) (ex_intro _ b Pb)) as [n H]. exact (Ph n q H). }
  destruct (carrier_after_swaps l innsbruck g' a b p q W U P N E Pa Pb) as [A B].
  destruct (Z.eqb_spec (Z.abs (p - q)) 1) as [D|D].
  - assert (Q : (((p = 0 /\ q = 1) \/ (p = 1 /\ q = 0)) \/ ((p = 1 /\ q = 2) \/ (p = 2 /\ q = 1)))%Z) by lia. destruct Q as [Q|Q].
    + rewrite (A [("delta_m", AInt 0%Z); ("sensitivity", AInt 3%Z); ("carrier", AInt 0%Z)] (AInt 0%Z)); [do 2 f_equal; lia|apply innsbruck_coupled; left; auto|cbn; auto|cbn; repeat constructor; cbn; intuition discriminate].
    + rewrite (A [("delta_m", AInt 0%Z); ("sensitivity", AInt 4%Z); ("carrier", AInt 1%Z)] (AInt 1%Z)); [do 2 f_equal; lia|apply innsbruck_coupled; right; auto|cbn; auto|cbn; repeat constructor; cbn; intuition discriminate].
  - apply B. intros d H. apply innsbruck_coupled in H. lia.
Qed.
(** the machine with its two graphs, each with its own history of swaps *)
Lemma innsbruck_machine l0 l1 g0 g1 k g a b p q : (forall a b, In (a, b) (l0 ++ l1) -> is_node innsbruck a /\ is_node innsbruck b) ->
  swap_all innsbruck l0 = Ok g0 -> swap_all innsbruck l1 = Ok g1 -> nth_error [g0; g1] k = Some g -> placed g a p -> placed g b q ->
  edge_to_carrier [g0; g1] a b k = if Z.eqb (Z.abs (p - q)) 1 then Ok (AInt (Z.min p q)) else Err TypeError.
Proof.
  intros N E0 E1 G Pa Pb. transitivity (edge_to_carrier [g] a b 0); [unfold edge_to_carrier; rewrite G; reflexivity|].
  destruct k as [|[|k]]; cbn in G; [| |destruct k; discriminate]; injection G as <-.
  - apply (innsbruck_carrier l0); try assumption. intros x y H. apply N, in_app_iff. left. exact H.
  - apply (innsbruck_carrier l1); try assumption. intros x y H. apply N, in_app_iff. right. exact H.
Qed.
Lemma no_such_level graphs k g a b : nth_error graphs k = Some g -> well_formed g -> ~ is_node g a \/ ~ is_node g b ->
  edge_to_carrier graphs a b k = Err TypeError.
Proof.
  intros G W H. unfold edge_to_carrier. rewrite G. destruct (edge_data g a b) as [d|] eqn:D; [|reflexivity]. exfalso.
  apply (joined_data g W) in D. destruct H as [H|H]; apply H; [apply (wf_ends g W b a d), (wf_sym g W), D|apply (wf_ends g W a b d), D].
Qed.
Lemma no_such_graph g0 g1 k a b : 2 <= k -> edge_to_carrier [g0; g1] a b k = Err IndexError.
Proof. intros H. unfold edge_to_carrier. destruct k as [|[|k]]; [lia|lia|]. cbn. destruct k; reflexivity. Qed.
Lemma innsbruck_start : exists g0 g1, innsbruck_graphs = [g0; g1] /\
  (forall n p, placed g0 n p <-> n = p /\ (0 <= n < 3)%Z) /\ (forall n p, placed g1 n p <-> n = p /\ (0 <= n < 3)%Z).
Proof.
  assert (H : forall n p, placed innsbruck n p <-> n = p /\ (0 <= n < 3)%Z).
  { intros n p. transitivity (In (n, p) (combine [0; 1; 2] [0; 1; 2])%Z).
    - unfold innsbruck. match goal with |- context [new_graph ?e ?n ?p (Some ?i) ?q ?o] => destruct (new_graph_spec e n p i q o) as (_ & _ & _ & Pl & _);
        [apply nodup_check; vm_compute; reflexivity|discriminate|reflexivity|apply good_edgesb_ok; vm_compute; reflexivity|] end. apply Pl.
    - cbn. split.
      + intros [H|[H|[H|[]]]]; injection H as <- <-; lia.
      + intros [<- H]. assert (C : (n = 0 \/ n = 1 \/ n = 2)%Z) by lia. destruct C as [->|[->| ->]]; auto. }
  exists innsbruck, innsbruck. auto.
Qed.
Lemma after_one_swap : exists g, swap_all innsbruck [(1, 2)]%Z = Ok g /\ placed g 2%Z 1%Z /\ placed g 1%Z 2%Z /\
  edge_to_carrier [g; innsbruck] 0 1 0 = Err TypeError /\ edge_to_carrier [g; innsbruck] 0 2 0 = Ok (AInt 0%Z) /\
  edge_to_carrier [g; innsbruck] 2 1 0 = Ok (AInt 1%Z) /\ edge_to_carrier [g; innsbruck] 0 1 1 = Ok (AInt 0%Z).
Proof.
  eexists. split; [vm_compute; reflexivity|].
  split; [unfold placed, has_attr; eexists; split; [cbn; auto|cbn; auto 10]|].
  split; [unfold placed, has_attr; eexists; split; [cbn; auto|cbn; auto 10]|].
  repeat split; vm_compute; reflexivity.
Qed.
