(** The carrier of a transition of the Innsbruck machine (C114).  The vocabulary (placed, is_node, swap_all) is in LevelsSpec.v. *)
From Verif.Base Require Import Py PyFacts.
From Verif.Levels Require Import LevelsModel LevelsSpec LevelsProofs PhaseProofs CarrierModel CarrierProofs.
Local Open Scope string_scope.
Local Open Scope list_scope.

(** ** C114: the carrier is that of the physical levels a pair of logical levels sits on *)

(** Whatever levels were exchanged before in the two graphs of the machine: for two logical levels the machine names the
    carrier of the transition between the physical levels they sit on, 0 between 0 and 1 and 1 between 1 and 2, and raises
    TypeError when there is no such transition. *)
Theorem C114_carrier : forall l0 l1 g0 g1 k g a b p q, (forall a b, In (a, b) (l0 ++ l1) -> is_node innsbruck a /\ is_node innsbruck b) ->
  swap_all innsbruck l0 = Ok g0 -> swap_all innsbruck l1 = Ok g1 -> nth_error [g0; g1] k = Some g -> placed g a p -> placed g b q ->
  edge_to_carrier [g0; g1] a b k = if Z.eqb (Z.abs (p - q)) 1 then Ok (AInt (Z.min p q)) else Err TypeError.
Proof. exact innsbruck_machine. Qed.
Print Assumptions C114_carrier.

(** The machine starts with two graphs in which every level 0, 1, 2 sits on the physical level of the same number. *)
Theorem C114_initial : exists g0 g1, innsbruck_graphs = [g0; g1] /\
  (forall n p, placed g0 n p <-> n = p /\ (0 <= n < 3)%Z) /\ (forall n p, placed g1 n p <-> n = p /\ (0 <= n < 3)%Z).
Proof. exact innsbruck_start. Qed.
Print Assumptions C114_initial.

(** A number that is no level raises TypeError, a line the machine does not have IndexError. *)
Theorem C114_no_level : forall graphs k g a b, nth_error graphs k = Some g -> well_formed g -> ~ is_node g a \/ ~ is_node g b ->
  edge_to_carrier graphs a b k = Err TypeError.
Proof. exact no_such_level. Qed.
Print Assumptions C114_no_level.
Theorem C114_no_graph : forall g0 g1 k a b, 2 <= k -> edge_to_carrier [g0; g1] a b k = Err IndexError.
Proof. exact no_such_graph. Qed.
Print Assumptions C114_no_graph.

(** Read with physical levels the answer is wrong once levels were exchanged: after an exchange of 1 and 2 on the first line
    the transition between the physical levels 0 and 1 exists, but asking for (0, 1) raises, and (0, 2) names carrier 0; the
    second line is not affected. *)
Example C114_case : exists g, swap_all innsbruck [(1, 2)]%Z = Ok g /\ placed g 2%Z 1%Z /\ placed g 1%Z 2%Z /\
  edge_to_carrier [g; innsbruck] 0 1 0 = Err TypeError /\ edge_to_carrier [g; innsbruck] 0 2 0 = Ok (AInt 0%Z) /\
  edge_to_carrier [g; innsbruck] 2 1 0 = Ok (AInt 1%Z) /\ edge_to_carrier [g; innsbruck] 0 1 1 = Ok (AInt 0%Z).
Proof. exact after_one_swap. Qed.
