(** Vocabulary for distances and costs on a level graph. *)
From Coq Require Import Reals.
From Verif.Base Require Import Py.
From Verif.Gates Require Import AnglesModel SingleModel.
From Verif.Levels Require Import LevelsModel LevelsSpec.
Local Open Scope string_scope.
Local Open Scope list_scope.
Local Open Scope nat_scope.

(** The smallest number of edges on a walk from s to t is k. *)
Definition edges_apart (g : lgraph) (s t : Z) (k : nat) : Prop :=
  (exists p, walk g p s t /\ List.length p = S k) /\ forall q, walk g q s t -> S k <= List.length q.
(** n is the first node, in node order, of level kind "i". *)
Definition first_initial (g : lgraph) (n : Z) : Prop :=
  exists p a q, nd g = p ++ (n, a) :: q /\ In ("level", AStr "i") a /\ forall m b, In (m, b) p -> ~ In ("level", AStr "i") b.
(** the same for any kind *)
Definition first_of_kind (g : lgraph) (s : string) (n : Z) : Prop :=
  exists p a q, nd g = p ++ (n, a) :: q /\ In ("level", AStr s) a /\ forall m b, In (m, b) p -> ~ In ("level", AStr s) b.
Definition kinds_given (g : lgraph) : Prop := forall n a, In (n, a) (nd g) -> exists v, In ("level", v) a.
Definition reachable_level (g : lgraph) (n : Z) : Prop := has_attr g n "level" (AStr "r").
(** The edge between a and b has sensitivity x. *)
Definition sensitivity (g : lgraph) (a b : Z) (x : R) : Prop :=
  exists d v, joined g a b d /\ In ("sensitivity", v) d /\ num v = Ok x.
Definition total (l : list R) : R := fold_right Rplus 0%R l.
