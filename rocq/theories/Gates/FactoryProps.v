(** Properties of gate matrices inside a register (C06, C16, C17, C18).
    [generate_matrix dims ids g] is [g.to_matrix(ids)] in a circuit with dimension list [dims];
    [ids] is 0, 1 or 2 (IdentityGate.NO, ..., ALL).  The vocabulary is in FactorySpec.v. *)
From Coq Require Import List ZArith Arith Sorted Permutation Lia.
From Verif Require Import Base.Py Base.Cplx Base.Matrix Base.Radix.
From Verif Require Import Circuit.GateModel Gates.SingleModel Gates.FactoryModel Gates.FactorySpec Gates.Embed Gates.FactoryMain.

(** ** C16: indexing of basis states *)

(** The k-th enumerated combination is the state whose mixed radix value is k, and the
    enumeration has exactly as many entries as there are states. *)
Theorem C16_kth_state_has_value_k :
  forall dims, List.length (product_ranges dims) = prodl dims /\
  forall k, (k < prodl dims)%nat ->
    valid dims (nth k (product_ranges dims) []) /\ undigits dims (nth k (product_ranges dims) []) = k.
Proof. exact product_values. Qed.
Print Assumptions C16_kth_state_has_value_k.

(** Every state occurs exactly once, at its value. *)
Theorem C16_every_state_once :
  forall dims xs, valid dims xs ->
    (undigits dims xs < prodl dims)%nat /\
    forall k, (k < prodl dims)%nat -> (nth k (product_ranges dims) [] = xs <-> k = undigits dims xs).
Proof. exact product_once. Qed.
Print Assumptions C16_every_state_once.

(** from_dirac_to_basis returns the basis vector at the same index. *)
Theorem C16_dirac_to_basis_index :
  forall dims xs, valid dims xs -> xs <> [] ->
    exists v, from_dirac_to_basis xs dims = Ok v /\ is_ket (prodl dims) (undigits dims xs) v.
Proof. exact dirac_spec. Qed.
Print Assumptions C16_dirac_to_basis_index.

(** Out of range levels are rejected. *)
Theorem C16_dirac_rejects_bad_levels :
  forall dims xs, List.length xs = List.length dims -> xs <> [] -> ~ valid dims xs ->
    from_dirac_to_basis xs dims = Err IndexError.
Proof. exact dirac_reject. Qed.
Print Assumptions C16_dirac_rejects_bad_levels.

(** The two-qudit splitting inverts lev = q0 * dim + q1. *)
Theorem C16_q0_q1 :
  forall lev dim, (0 < dim)%nat ->
    let '(q0, q1) := calculate_q0_q1 lev dim in lev = (q0 * dim + q1)%nat /\ (q1 < dim)%nat.
Proof. exact q0q1_spec. Qed.
Print Assumptions C16_q0_q1.

Example C16_case : valid [2;3;2]%nat [1;2;0]%nat /\ undigits [2;3;2]%nat [1;2;0]%nat = 10%nat /\
  nth 10 (product_ranges [2;3;2]%nat) [] = [1;2;0]%nat /\
  from_dirac_to_basis [1;2;0]%nat [2;3;2]%nat = Ok [0;0;0;0;0;0;0;0;0;0;1;0]%nat.
Proof. repeat split. repeat constructor. Qed.

(** ** C17: embedding without controls *)

(** Asking for the matrix of a properly placed gate without controls never fails, and with full
    identities it changes only the target digits, on which it acts by the gate's matrix
    (digits of the targets taken in line order). *)
Theorem C17_uncontrolled_returns :
  forall dims g, well_placed dims g -> forall ids, g_controls g = None -> exists A, generate_matrix dims ids g = Ok A.
Proof. exact gen_uncontrolled_returns. Qed.
Print Assumptions C17_uncontrolled_returns.

Theorem C17_acts_on_targets_only :
  forall dims ids g A ts, (forall d, In d dims -> (0 < d)%nat) -> well_placed dims g -> (2 <= ids)%nat ->
  g_controls g = None -> Permutation ts (target_nats g) -> StronglySorted lt ts ->
  generate_matrix dims ids g = Ok A -> acts_on dims ts [] [] (core g) A.
Proof. exact gen_acts_free. Qed.
Print Assumptions C17_acts_on_targets_only.

(** On a single line it is I (x) M (x) I. *)
Theorem C17_single_is_kron :
  forall pre d post ids g, (forall x, In x (pre ++ d :: post)%list -> (0 < x)%nat) ->
  g_target g = TInt (Z.of_nat (List.length pre)) -> g_controls g = None -> (2 <= ids)%nat ->
  exists A, generate_matrix (pre ++ d :: post) ids g = Ok A /\
    meq (prodl (pre ++ d :: post)) A (mkron (prodl post) (mkron d mid (core g)) mid).
Proof. exact gen_kron. Qed.
Print Assumptions C17_single_is_kron.

(** Gates on different lines commute (controls of one may overlap controls of the other). *)
Theorem C17_disjoint_commute :
  forall dims ids g1 g2 A1 A2, (forall d, In d dims -> (0 < d)%nat) -> well_placed dims g1 -> well_placed dims g2 -> (2 <= ids)%nat ->
  generate_matrix dims ids g1 = Ok A1 -> generate_matrix dims ids g2 = Ok A2 ->
  (forall t, In t (target_nats g1) -> ~ In t (target_nats g2 ++ control_nats g2)%list) ->
  (forall t, In t (target_nats g2) -> ~ In t (control_nats g1)) ->
  meq (prodl dims) (mmul (prodl dims) A1 A2) (mmul (prodl dims) A2 A1).
Proof. exact gen_commute. Qed.
Print Assumptions C17_disjoint_commute.

(** Gates on the same lines multiply. *)
Theorem C17_same_lines_multiply :
  forall dims ids g1 g2 g3 A1 A2 A3, (forall d, In d dims -> (0 < d)%nat) ->
  well_placed dims g1 -> well_placed dims g2 -> well_placed dims g3 -> (2 <= ids)%nat ->
  target_lines g2 = target_lines g1 -> target_lines g3 = target_lines g1 ->
  g_controls g2 = g_controls g1 -> g_controls g3 = g_controls g1 ->
  meq (prodl (sub_dims dims (target_nats g1))) (core g3) (mmul (prodl (sub_dims dims (target_nats g1))) (core g1) (core g2)) ->
  generate_matrix dims ids g1 = Ok A1 -> generate_matrix dims ids g2 = Ok A2 -> generate_matrix dims ids g3 = Ok A3 ->
  meq (prodl dims) A3 (mmul (prodl dims) A1 A2).
Proof. exact gen_multiply. Qed.
Print Assumptions C17_same_lines_multiply.

(** Unitarity is preserved. *)
Theorem C17_unitary :
  forall dims ids g A, (forall d, In d dims -> (0 < d)%nat) -> well_placed dims g -> (2 <= ids)%nat ->
  generate_matrix dims ids g = Ok A -> unitary (prodl (sub_dims dims (target_nats g))) (g_data g) -> unitary (prodl dims) A.
Proof. exact gen_unitary'. Qed.
Print Assumptions C17_unitary.

(** With identities only between the lowest and highest line (ids = 1) the same holds on that
    slice of the register. *)
Theorem C17_slice_form :
  forall dims g A lo k ts, well_placed dims g ->
  (forall q, In q (control_nats g ++ target_nats g)%list -> (lo <= q <= lo + k)%nat) ->
  In lo (control_nats g ++ target_nats g)%list -> In (lo + k)%nat (control_nats g ++ target_nats g)%list ->
  Permutation (map (fun q => (lo + q)%nat) ts) (target_nats g) -> StronglySorted lt ts ->
  generate_matrix dims 1 g = Ok A ->
  acts_on (firstn (k + 1) (skipn lo dims)) ts (map (fun q => (q - lo)%nat) (control_nats g)) (control_levels g) (core g) A.
Proof. exact gen_slice. Qed.
Print Assumptions C17_slice_form.

(** A two-qudit gate on lines 3 and 1 of a five qudit register: the hypotheses hold, the sorted
    target list is [1;3], and index 5 = |0,1,1,...> style digits are as expected. *)
Example C17_case :
  let g := Gate "CSum" TWO (TList [3%Z; 1%Z]) None false false (x_array 6) in
  well_placed [2;3;2;2;3]%nat g /\ Permutation [1;3]%nat (target_nats g) /\ StronglySorted lt [1;3]%nat /\
  sub_dims [2;3;2;2;3]%nat [1;3]%nat = [3;2]%nat /\ digits [2;3;2;2;3]%nat 47 = [1;0;1;1;2]%nat /\
  sub_index [2;3;2;2;3]%nat [1;3]%nat 47 = 1%nat.
Proof.
  cbn zeta. split.
  - split; [discriminate|]. split; [repeat constructor; cbn; intros H; intuition discriminate|]. split; [|exact I].
    intros t [<-|[<-|[]]]; cbn; lia.
  - split; [apply perm_swap|]. split; [repeat constructor|]. repeat split.
Qed.

(** ** C18: controls *)

(** Whatever matrix is returned for a controlled gate is the right one: the gate's matrix on the
    target digits when every control digit equals its level, the identity otherwise. *)
Theorem C18_controlled_matrix_right :
  forall dims ids g A ts, (forall d, In d dims -> (0 < d)%nat) -> well_placed dims g -> (2 <= ids)%nat ->
  Permutation ts (target_nats g) -> StronglySorted lt ts -> generate_matrix dims ids g = Ok A ->
  acts_on dims ts (control_nats g) (control_levels g) (core g) A.
Proof. exact gen_acts. Qed.
Print Assumptions C18_controlled_matrix_right.

(** acts_on determines the matrix, so the previous theorem leaves no freedom. *)
Theorem C18_acts_on_determines :
  forall dims ts cs lv M A B, NoDup ts -> (forall t, In t ts -> (t < List.length dims)%nat) ->
  (forall c, In c cs -> (c < List.length dims)%nat /\ ~ In c ts) ->
  acts_on dims ts cs lv M A -> acts_on dims ts cs lv M B -> meq (prodl dims) A B.
Proof. exact acts_determined. Qed.
Print Assumptions C18_acts_on_determines.

Theorem C18_unitary :
  forall dims ids g A, (forall d, In d dims -> (0 < d)%nat) -> well_placed dims g -> (2 <= ids)%nat ->
  generate_matrix dims ids g = Ok A -> unitary (prodl (sub_dims dims (target_nats g))) (g_data g) -> unitary (prodl dims) A.
Proof. exact gen_unitary'. Qed.
Print Assumptions C18_unitary.

(** A matrix is returned whenever the gate uses line 0. *)
Theorem C18_returns_from_line_0 :
  forall dims g, well_placed dims g -> forall ids, In 0%nat (control_nats g ++ target_nats g)%list ->
  exists A, generate_matrix dims ids g = Ok A.
Proof. exact gen_line0_returns. Qed.
Print Assumptions C18_returns_from_line_0.

(** Away from line 0 the pinned code raises: it reads the dimension of the target at its absolute
    line number inside the slice. *)
Theorem C18_raises_away_from_line_0_refuted :
  exists dims (g : gate mat), well_placed dims g /\ (forall d, In d dims -> (0 < d)%nat) /\
  generate_matrix dims 2 g = Err IndexError.
Proof. exact ctrl_index_witness. Qed.
Print Assumptions C18_raises_away_from_line_0_refuted.
Theorem C18_key_error_refuted :
  exists dims (g : gate mat), well_placed dims g /\ (forall d, In d dims -> (0 < d)%nat) /\
  generate_matrix dims 2 g = Err KeyError.
Proof. exact ctrl_key_witness. Qed.
Print Assumptions C18_key_error_refuted.

Example C18_case :
  let g := Gate "X" MULTI (TInt 1) (Some ([0%Z; 3%Z], [2%Z; 1%Z])) true false (x_array 2) in
  well_placed [3;2;2;2]%nat g /\ In 0%nat (control_nats g ++ target_nats g)%list /\
  controls_on [3;2;2;2]%nat (control_nats g) (control_levels g) 19 /\ ~ controls_on [3;2;2;2]%nat (control_nats g) (control_levels g) 18.
Proof.
  cbn zeta. split.
  - split; [discriminate|]. split; [repeat constructor; intros []|]. split; [intros t [<-|[]]; cbn; lia|].
    split; [discriminate|]. intros c [<-|[<-|[]]]; (split; [cbn; lia|]); intros [H|[]]; discriminate.
  - split; [left; reflexivity|]. split; [reflexivity|]. unfold controls_on. cbn. discriminate.
Qed.

(** ** C06: dagger *)

(** dag() turns the matrix into its conjugate transpose; it fails exactly when the gate itself
    fails, with the same exception. *)
Theorem C06_dag_is_adjoint :
  forall dims ids g, (forall d, In d dims -> (0 < d)%nat) -> well_placed dims g -> (2 <= ids)%nat -> g_dagger g = false ->
  match generate_matrix dims ids g with
  | Ok A => exists A', generate_matrix dims ids (dag g) = Ok A' /\ meq (prodl dims) A' (madj A)
  | Err e => generate_matrix dims ids (dag g) = Err e
  end.
Proof. exact dag_matrix. Qed.
Print Assumptions C06_dag_is_adjoint.

Theorem C06_dag_is_adjoint_bare :
  forall dims g, well_placed dims g -> g_controls g = None -> g_dagger g = false ->
  exists A A', generate_matrix dims 0 g = Ok A /\ generate_matrix dims 0 (dag g) = Ok A' /\ A' = madj A.
Proof. exact dag_matrix_bare. Qed.
Print Assumptions C06_dag_is_adjoint_bare.

(** A unitary gate followed by its dag, in either order, is the identity. *)
Theorem C06_dag_undoes :
  forall dims ids g A A', (forall d, In d dims -> (0 < d)%nat) -> well_placed dims g -> (2 <= ids)%nat -> g_dagger g = false ->
  unitary (prodl (sub_dims dims (target_nats g))) (g_data g) ->
  generate_matrix dims ids g = Ok A -> generate_matrix dims ids (dag g) = Ok A' ->
  meq (prodl dims) (mmul (prodl dims) A' A) mid /\ meq (prodl dims) (mmul (prodl dims) A A') mid.
Proof. exact dag_inverse. Qed.
Print Assumptions C06_dag_undoes.

(** Any positive number of dag() calls gives the matrix of one dag() call ... *)
Theorem C06_repeated_dag_is_one_dag :
  forall dims ids g k, generate_matrix dims ids (Nat.iter (S k) dag g) = generate_matrix dims ids (dag g).
Proof. exact dag_iter_S. Qed.
Print Assumptions C06_repeated_dag_is_one_dag.

(** ... so two calls do not give back the original gate. *)
Theorem C06_dag_twice_is_original_refuted :
  exists (dims : list nat) (g : gate mat) A B,
  well_placed dims g /\ (forall d, In d dims -> (0 < d)%nat) /\ g_dagger g = false /\
  generate_matrix dims 2 g = Ok A /\ generate_matrix dims 2 (dag (dag g)) = Ok B /\ ~ meq (prodl dims) B A.
Proof. exact dag_twice_witness. Qed.
Print Assumptions C06_dag_twice_is_original_refuted.
