(** Properties of the ansatz of the variational compiler and of the circuits emitted for it (C47, C48, C71), of
    the sparsifier (C73) and of the helpers that extend a gate to a register (C74).  The vocabulary is in
    AnsatzSpec.v ([implements], [same_up_to_phase], [rotation_of], [blocks]) and FactorySpec.v ([acts_on]).
    [create_instance a cdims p d0 d1] is the list of gates emitted for the parameters [p] on a circuit with
    dimensions [cdims]; [ansatz_matrix a p d0 d1] is the matrix whose distance to the target is minimised. *)
From Coq Require Import List ZArith Arith Lia Permutation Reals Lra String.
From Verif Require Import Base.Py Base.Cplx Base.Matrix Base.Radix Base.Expm.
From Verif Require Import Circuit.GateModel Gates.FactorySpec Gates.FactoryModel Sim.TnSpec.
From Verif Require Import Variational.AnsatzModel Variational.AnsatzSpec Variational.AnsatzProofs Variational.SudProofs Variational.EmitProofs Variational.EmitCases Variational.AnsatzUnitary.
Import ListNotations.
Local Open Scope list_scope.
Local Open Scope nat_scope.

(** ** C47: splitting the parameters *)

(** The blocks are consecutive pieces of the input, alternately of the lengths of the two qudits. *)
Theorem C47_split_without_loss : forall (A : Type) (p : list A) d0 d1 bs, params_splitter p [d0; d1] = Ok bs ->
  concat bs = p /\ exists k, blocks (sud_params d0) (sud_params d1) k bs.
Proof. exact (@split_ok). Qed.
Print Assumptions C47_split_without_loss.
Theorem C47_split_accepts : forall (A : Type) (p : list A) d0 d1 k, 0 < sud_params d0 + sud_params d1 ->
  List.length p = k * (sud_params d0 + sud_params d1) ->
  exists bs, params_splitter p [d0; d1] = Ok bs /\ blocks (sud_params d0) (sud_params d1) k bs.
Proof. exact (@split_accepts). Qed.
Print Assumptions C47_split_accepts.
Theorem C47_split_rejects : forall (A : Type) (p : list A) d0 d1, 0 < sud_params d0 + sud_params d1 ->
  (forall k, List.length p <> k * (sud_params d0 + sud_params d1)) -> params_splitter p [d0; d1] = Err ValueError.
Proof. exact (@split_rejects). Qed.
Print Assumptions C47_split_rejects.
Theorem C47_split_two_qudits_only : forall (A : Type) (p : list A) dims, List.length dims <> 2 -> params_splitter p dims = Err ValueError.
Proof. exact (@split_other). Qed.
Print Assumptions C47_split_two_qudits_only.

(** The bounds: one interval for each parameter of [layers + 2] blocks pairs, decided by its place. *)
Theorem C47_bounds_length : forall d0 d1 layers, 0 < d0 -> 0 < d1 ->
  List.length (return_bounds d0 d1 layers) = (layers + 2) * (sud_params d0 + sud_params d1).
Proof. exact bounds_length. Qed.
Print Assumptions C47_bounds_length.
Theorem C47_bounds_first_qudit : forall d0 d1 layers k r c, 0 < d0 -> 0 < d1 -> k < layers + 2 -> c < d0 -> r * d0 + c < sud_params d0 ->
  nth (k * (sud_params d0 + sud_params d1) + (r * d0 + c)) (return_bounds d0 d1 layers) (0%R, 0%R) = interval r c.
Proof. exact bounds_entry0. Qed.
Print Assumptions C47_bounds_first_qudit.
Theorem C47_bounds_second_qudit : forall d0 d1 layers k r c, 0 < d0 -> 0 < d1 -> k < layers + 2 -> c < d1 -> r * d1 + c < sud_params d1 ->
  nth (k * (sud_params d0 + sud_params d1) + sud_params d0 + (r * d1 + c)) (return_bounds d0 d1 layers) (0%R, 0%R) = interval r c.
Proof. exact bounds_entry1. Qed.
Print Assumptions C47_bounds_second_qudit.
(** The bounds fit the splitter. *)
Theorem C47_bounds_fit : forall d0 d1 layers, 2 <= d0 -> 2 <= d1 ->
  exists bs, params_splitter (return_bounds d0 d1 layers) [d0; d1] = Ok bs /\ blocks (sud_params d0) (sud_params d1) (layers + 2) bs.
Proof. exact bounds_split. Qed.
Print Assumptions C47_bounds_fit.

Example C47_case : params_splitter [1; 2; 3; 4; 5; 6; 7; 8; 9; 10; 11] [2; 3] = Ok [[1; 2; 3]; [4; 5; 6; 7; 8; 9; 10; 11]] /\
  params_splitter [1; 2; 3; 4] [2; 3] = Err ValueError /\ List.length (return_bounds 2 3 1) = 33.
Proof. split; [reflexivity|]. split; [reflexivity|]. rewrite bounds_length by lia. reflexivity. Qed.

(** ** C71: the local rotations *)

Theorem C71_closed_form : forall expm, exact_expm expm -> forall p d, sud_params d <= List.length p ->
  exists u, generic_sud expm p d = Ok u /\ meq d u (rotation_of p d).
Proof. exact sud_closed. Qed.
Print Assumptions C71_closed_form.
Theorem C71_unitary : forall expm, exact_expm expm -> forall p d u, sud_params d <= List.length p ->
  generic_sud expm p d = Ok u -> unitary d u.
Proof. exact sud_unitary. Qed.
Print Assumptions C71_unitary.
Theorem C71_too_few : forall expm p d, List.length p < sud_params d -> exists e, generic_sud expm p d = Err e.
Proof. exact sud_short. Qed.
Print Assumptions C71_too_few.
(** The whole ansatz is unitary. *)
Theorem C71_ansatz_unitary : forall expm, exact_expm expm -> forall d0 d1, 2 <= d0 -> 2 <= d1 -> forall a p U,
  match a with CU (Some g) => unitary (d0 * d1) (g_data g) | _ => True end ->
  ansatz_matrix expm a p d0 d1 = Ok U -> unitary (d0 * d1) U.
Proof. exact ansatz_unitary. Qed.
Print Assumptions C71_ansatz_unitary.

Example C71_case : exists expm, exact_expm expm.
Proof. exact exact_expm_exists. Qed.
Example C71_case_rotation : rotation_of [1%R; 2%R; 3%R] 2 = mmul 2 (phase_pair 0 1 1) (mmul 2 (phase_pair 0 1 3) (mmul 2 (real_rotation 0 1 2) mid)).
Proof. reflexivity. Qed.

(** ** C48: the emitted circuit and the optimised matrix *)

(** Read backwards, the emitted gates are the optimised matrix on lines 0 and 1. *)
Theorem C48_reversed_order : forall d0 d1 rest, 0 < d0 -> 0 < d1 -> (forall x, In x rest -> 0 < x) ->
  forall expm a p gs, proper_primitive a -> create_instance expm a (d0 :: d1 :: rest) p d0 d1 = Ok gs ->
  exists U A, ansatz_matrix expm a p d0 d1 = Ok U /\ implements (d0 :: d1 :: rest) (rev gs) A /\ acts_on (d0 :: d1 :: rest) [0; 1] [] [] U A.
Proof. exact instance_matrix. Qed.
Print Assumptions C48_reversed_order.
(** For a gate on lines 0 and 1: its ansatz has the dimensions of these lines, in this order. *)
Theorem C48_reversed_order_of_gate : forall d0 d1 rest, 0 < d0 -> 0 < d1 -> (forall x, In x rest -> 0 < x) ->
  forall expm a target p gs, proper_primitive a -> g_controls target = None -> g_target target = TList [0; 1]%Z ->
  variational_instructions expm a (d0 :: d1 :: rest) target p = Ok gs ->
  exists U A, ansatz_matrix expm a p d0 d1 = Ok U /\ implements (d0 :: d1 :: rest) (rev gs) A /\ acts_on (d0 :: d1 :: rest) [0; 1] [] [] U A.
Proof.
  intros d0 d1 rest H0 H1 Hr expm a target p gs PP C T E. apply (instance_matrix d0 d1 rest H0 H1 Hr expm a p gs PP). revert E.
  assert (L : reference_lines target = Ok [0; 1]%Z) by (destruct target; cbn in C, T; subst; reflexivity).
  assert (P : mapr (pyindex (d0 :: d1 :: rest)) [0; 1]%Z = Ok [d0; d1]).
  { unfold mapr, pyindex. cbn [Z.ltb Z.compare].
    assert (B0 : (0 <? Z.of_nat (List.length (d0 :: d1 :: rest)))%Z = true) by (apply Z.ltb_lt; cbn [List.length]; lia).
    assert (B1 : (1 <? Z.of_nat (List.length (d0 :: d1 :: rest)))%Z = true) by (apply Z.ltb_lt; cbn [List.length]; lia).
    rewrite B0, B1. reflexivity. }
  unfold variational_instructions. rewrite L. cbn [bindr]. rewrite P. cbn [bindr]. intros E. exact E.
Qed.
Print Assumptions C48_reversed_order_of_gate.
(** The code emits them forwards, which is another unitary. *)
Theorem C48_order_refuted : forall expm, exact_expm expm -> exists p gs U A,
  create_instance expm LS [2; 2] p 2 2 = Ok gs /\ ansatz_matrix expm LS p 2 2 = Ok U /\
  implements [2; 2] gs A /\ ~ same_up_to_phase 4 A U.
Proof. exact order_refuted. Qed.
Print Assumptions C48_order_refuted.
(** A custom primitive with its dagger flag set is emitted as its inverse, but optimised as itself. *)
Theorem C48_dagger_refuted : forall expm, exact_expm expm -> exists g p gs U A,
  g_controls g = None /\ target_nats g = [0; 1] /\ unitary 4 (g_data g) /\
  create_instance expm (CU (Some g)) [2; 2] p 2 2 = Ok gs /\ ansatz_matrix expm (CU (Some g)) p 2 2 = Ok U /\
  implements [2; 2] (rev gs) A /\ ~ same_up_to_phase 4 A U.
Proof. exact dagger_refuted. Qed.
Print Assumptions C48_dagger_refuted.
(** The circuit for a gate on other lines still acts on lines 0 and 1: no parameters can make it right. *)
Theorem C48_lines_refuted : forall expm a, match a with CU _ => False | _ => True end ->
  forall p gs A T, variational_instructions expm a [2; 2; 2] (x_pair 1 2) p = Ok gs -> implements [2; 2; 2] gs A ->
  matrix_of [2; 2; 2] (x_pair 1 2) T -> ~ same_up_to_phase 8 A T.
Proof. exact lines_refuted. Qed.
Print Assumptions C48_lines_refuted.
Theorem C48_lines_accepted : forall expm a, exact_expm expm -> match a with CU _ => False | _ => True end ->
  exists p gs, variational_instructions expm a [2; 2; 2] (x_pair 1 2) p = Ok gs /\ gs <> [].
Proof. intros expm a EX HA. exists still. exact (lines_accepted expm a EX HA). Qed.
Print Assumptions C48_lines_accepted.

Example C48_case : proper_primitive LS /\ proper_primitive (CU (Some (quarter_gate false))).
Proof. repeat split. apply Permutation_refl. Qed.
Example C48_case_emits : forall expm, exact_expm expm -> exists gs, create_instance expm LS [2; 2] turn 2 2 = Ok gs /\ List.length gs = 5.
Proof. exact turn_emitted. Qed.

(** ** C73: the sparsifier *)

Theorem C73_reversed_order : forall d0 d1 rest, 0 < d0 -> 0 < d1 -> (forall x, In x rest -> 0 < x) ->
  forall expm g p gs, g_controls g = None -> Permutation (target_nats g) [0; 1] ->
  instantiate_rotations expm (d0 :: d1 :: rest) g p d0 d1 = Ok gs ->
  exists U A, apply_rotations expm (core g) p d0 d1 = Ok U /\ implements (d0 :: d1 :: rest) (rev gs) A /\ acts_on (d0 :: d1 :: rest) [0; 1] [] [] U A.
Proof. exact rotations_matrix. Qed.
Print Assumptions C73_reversed_order.
Theorem C73_order_refuted : forall expm, exact_expm expm -> exists g p gs U A,
  g_controls g = None /\ target_nats g = [0; 1] /\ unitary 4 (g_data g) /\
  instantiate_rotations expm [2; 2] g p 2 2 = Ok gs /\ apply_rotations expm (core g) p 2 2 = Ok U /\
  implements [2; 2] gs A /\ ~ same_up_to_phase 4 A U.
Proof. exact sparsify_order_refuted. Qed.
Print Assumptions C73_order_refuted.

(** ** C74: extending a gate to a register *)

Theorem C74_expand : forall dims t d M E, (forall x, In x dims -> 0 < x) -> t < List.length dims -> d = nth t dims 0 ->
  gate_expand (d, M) (List.length dims) t dims = Ok E -> fst E = prodl dims /\ acts_on dims [t] [] [] M (snd E).
Proof. exact expand_acts. Qed.
Print Assumptions C74_expand.
Theorem C74_expand_returns : forall dims t d M, (forall x, In x dims -> 0 < x) -> t < List.length dims -> d = nth t dims 0 ->
  exists E, gate_expand (d, M) (List.length dims) t dims = Ok E.
Proof. exact expand_returns. Qed.
Print Assumptions C74_expand_returns.
Theorem C74_expand_rejects : forall g size t dims, size <= t \/ size = 0 -> gate_expand g size t dims = Err ValueError.
Proof. exact expand_rejects. Qed.
Print Assumptions C74_expand_rejects.
(** One line of a register of qubits. *)
Theorem C74_one_line : forall n t M, t < n ->
  exists A, apply_gate_to_tlines (2, M) n (Some [t]) None = Ok A /\ acts_on (repeat 2 n) [t] [] [] M A.
Proof. exact one_line. Qed.
Print Assumptions C74_one_line.
(** The code adds the extended gates instead of multiplying them: a flip of both qubits is not unitary. *)
Theorem C74_all_lines_refuted : exists M A, unitary 2 M /\ apply_gate_to_tlines (2, M) 2 None None = Ok A /\ ~ unitary 4 A.
Proof. destruct all_lines_refuted as (A & H & N). exists x2, A. split; [exact x2_unitary|]. split; [exact H|exact N]. Qed.
Print Assumptions C74_all_lines_refuted.
(** Registers whose size is not a power of two are rejected, whatever the lines. *)
Theorem C74_other_dims_refuted : forall dims t ts d M, (forall x, In x dims -> 0 < x) -> t < List.length dims -> d = nth t dims 0 ->
  prodl dims <> 2 ^ List.length dims -> prodl dims <> 1 ->
  apply_gate_to_tlines (d, M) (List.length dims) (Some (t :: ts)) (Some dims) = Err ValueError.
Proof. exact other_dims. Qed.
Print Assumptions C74_other_dims_refuted.

Example C74_case : forall M, exists E, gate_expand (3, M) 3 1 [2; 3; 2] = Ok E.
Proof. intros M. apply (expand_returns [2; 3; 2] 1 3 M); [intros x [<-|[<-|[<-|[]]]]; lia|cbn; lia|reflexivity]. Qed.
Example C74_case_qutrits : prodl [3; 3] <> 2 ^ 2 /\ prodl [3; 3] <> 1.
Proof. split; discriminate. Qed.
