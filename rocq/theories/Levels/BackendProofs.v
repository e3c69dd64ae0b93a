(** The graphs of the backends: which levels are linked. *)
From Coq Require Import Reals Permutation Lra.
From Verif.Base Require Import Py PyFacts Cplx Matrix.
From Verif.Gates Require Import AnglesModel AnglesProofs SingleModel SingleSpec.
From Verif.Levels Require Import LevelsModel LevelsSpec GraphProofs LevelsProofs RouteProofs PhaseProofs.
Local Open Scope string_scope.
Local Open Scope list_scope.
Local Open Scope nat_scope.

(** the levels of the graphs of the backends that are linked *)
Lemma new_graph_linked edges nodes phys init : NoDup nodes -> nodes <> [] -> List.length phys = List.length nodes -> good_edges nodes edges ->
  forall u v, linked (new_graph edges nodes phys (Some init) None None) u v <-> In (u, v) (map fst edges) \/ In (v, u) (map fst edges).
Proof.
  intros A B C D u v. destruct (new_graph_spec edges nodes phys init None None A B C D) as (_ & _ & _ & _ & J & _). unfold linked. split.
  - intros [d H]. apply J in H. destruct H as [H|H]; [left|right]; apply (in_map fst) in H; exact H.
  - intros [H|H]; apply in_map_iff in H; destruct H as ([[a b] d] & E & H); cbn in E; injection E as -> ->; exists d; apply J; auto.
Qed.
Lemma backends_linked :
  (forall u v, linked traps_three u v <-> (u = 0 /\ (v = 1 \/ v = 2)) \/ (v = 0 /\ (u = 1 \/ u = 2)))%Z /\
  (forall u v, linked traps_six u v <-> ((u = 0 \/ u = 1) /\ 2 <= v <= 5) \/ ((v = 0 \/ v = 1) /\ 2 <= u <= 5))%Z /\
  (forall u v, linked innsbruck u v <-> (0 <= u <= 2 /\ 0 <= v <= 2 /\ Z.abs (u - v) = 1))%Z.
Proof.
  assert (In2 : forall (x : Z * Z) l, existsb (fun y => (fst y =? fst x)%Z && (snd y =? snd x)%Z)%bool l = true -> In x l).
  { intros [a b] l H. apply existsb_exists in H. destruct H as ([c d] & I & E). cbn in E. apply andb_prop in E. destruct E as [E1 E2]. apply Z.eqb_eq in E1, E2. subst. exact I. }
  split; [|split]; intros u v; [unfold traps_three|unfold traps_six|unfold innsbruck];
    (rewrite new_graph_linked; [|apply nodup_check; vm_compute; reflexivity|discriminate|reflexivity|apply good_edgesb_ok; vm_compute; reflexivity]);
    (split; [intros [H|H]; cbn [map fst link In] in H; repeat (destruct H as [H|H]; [injection H as <- <-; lia|]); destruct H|]); intros H.
  - assert (C : (u = 0 /\ v = 1 \/ u = 0 /\ v = 2 \/ v = 0 /\ u = 1 \/ v = 0 /\ u = 2)%Z) by lia.
    destruct C as [[-> ->]|[[-> ->]|[[-> ->]|[-> ->]]]]; (left; apply In2; vm_compute; reflexivity) || (right; apply In2; vm_compute; reflexivity).
  - assert (C : forall a b, ((a = 0 \/ a = 1) /\ 2 <= b <= 5)%Z -> In (a, b) (map fst [link 2 0 3 []; link 3 0 3 []; link 4 0 4 []; link 5 0 4 []; link 1 2 4 []; link 1 3 3 []; link 1 4 3 []; link 1 5 3 []]%Z) \/
      In (b, a) (map fst [link 2 0 3 []; link 3 0 3 []; link 4 0 4 []; link 5 0 4 []; link 1 2 4 []; link 1 3 3 []; link 1 4 3 []; link 1 5 3 []]%Z)).
    { intros a b [Ha Hb]. assert (Cb : (b = 2 \/ b = 3 \/ b = 4 \/ b = 5)%Z) by lia.
      destruct Ha as [-> | ->]; destruct Cb as [-> |[-> |[-> | ->]]]; (left; apply In2; vm_compute; reflexivity) || (right; apply In2; vm_compute; reflexivity). }
    destruct H as [H|H]; apply C in H; tauto.
  - assert (C : (u = 0 /\ v = 1 \/ u = 1 /\ v = 2 \/ u = 1 /\ v = 0 \/ u = 2 /\ v = 1)%Z) by lia.
    destruct C as [[-> ->]|[[-> ->]|[[-> ->]|[-> ->]]]]; (left; apply In2; vm_compute; reflexivity) || (right; apply In2; vm_compute; reflexivity).
Qed.
