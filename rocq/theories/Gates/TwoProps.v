(** Properties of the two-qudit gates (C11, C14, C53, C54). *)
From Coq Require Import List ZArith Arith Reals Lia Lra.
From Verif Require Import Base.Py Base.Cplx Base.Matrix Base.Radix.
From Verif Require Import Circuit.GateModel Gates.FactoryModel Gates.FactorySpec Gates.SingleModel Gates.SingleSpec.
From Verif Require Import Gates.TwoModel Gates.TwoSpec Gates.TwoProofs Gates.EntProofs.
Open Scope R_scope.
Open Scope C_scope.

(** ** C11: CSum *)

(** |i,j> goes to |i, i+j mod dt>, for both line orders. *)
Theorem C11_csum_entries :
  forall dims c t i' j' i j, let dc := nth c dims 0%nat in let dt := nth t dims 0%nat in let lt := Nat.ltb c t in
  (i' < dc)%nat -> (j' < dt)%nat -> (i < dc)%nat -> (j < dt)%nat ->
  csum_array dims c t (pair_index lt dc dt i' j') (pair_index lt dc dt i j) =
  if (Nat.eqb i' i && Nat.eqb j' ((i + j) mod dt))%bool then C1 else C0.
Proof. exact csum_entries. Qed.
Print Assumptions C11_csum_entries.

Theorem C11_csum_unitary :
  forall dims c t, (0 < nth c dims 0)%nat -> (0 < nth t dims 0)%nat ->
  unitary (nth c dims 0 * nth t dims 0)%nat (csum_array dims c t).
Proof. exact csum_unitary. Qed.
Print Assumptions C11_csum_unitary.

(** In a whole register: entry (r,k) of csum([c,t]).to_matrix() is 1 exactly when r is k with the
    target digit replaced by (control digit + target digit) mod dt, else 0. *)
Theorem C11_csum_in_register :
  forall dims c t ids g A, (forall d, In d dims -> (0 < d)%nat) -> (c < List.length dims)%nat -> (t < List.length dims)%nat -> c <> t ->
  g_target g = TList [Z.of_nat c; Z.of_nat t] -> g_controls g = None -> g_dagger g = false -> g_data g = csum_array dims c t ->
  (2 <= ids)%nat -> generate_matrix dims ids g = Ok A ->
  forall r k, (r < prodl dims)%nat -> (k < prodl dims)%nat ->
  (A r k = C1 /\ agree_off dims [t] r k /\ digit dims r t = ((digit dims k c + digit dims k t) mod nth t dims 0)%nat) \/
  (A r k = C0 /\ ~ (agree_off dims [t] r k /\ digit dims r t = ((digit dims k c + digit dims k t) mod nth t dims 0)%nat)).
Proof. exact csum_register. Qed.
Print Assumptions C11_csum_in_register.

Example C11_case : csum_array [2;3;4]%nat 2 1 (pair_index false 4 3 2 1) (pair_index false 4 3 2 2) = C1.
Proof. exact (csum_entries [2;3;4]%nat 2 1 2 1 2 2 ltac:(cbn; lia) ltac:(cbn; lia) ltac:(cbn; lia) ltac:(cbn; lia)). Qed.

(** ** C14: CEx *)

(** In a whole register CEx is the rotation by pi about the axis phi on levels a, b of the target
    line, controlled by the control line being at the control level. *)
Theorem C14_cex_in_register :
  forall dims c t ids p x g A, (forall d, In d dims -> (0 < d)%nat) -> (c < List.length dims)%nat -> (t < List.length dims)%nat -> c <> t ->
  cex_new p = Ok x -> (cx_b x < nth t dims 0)%nat ->
  g_target g = TList [Z.of_nat c; Z.of_nat t] -> g_controls g = None -> g_dagger g = false ->
  cex_array (nth c dims 0%nat) (nth t dims 0%nat) (Nat.ltb c t) x = Ok (g_data g) ->
  (2 <= ids)%nat -> generate_matrix dims ids g = Ok A ->
  acts_on dims [t] [c] [cx_ctrl x] (rotation (cx_a x) (cx_b x) PI (cx_phi x)) A.
Proof. exact cex_register. Qed.
Print Assumptions C14_cex_in_register.

(** The rotation by pi exchanges the two levels with phases -i e^{i phi}, -i e^{-i phi}. *)
Theorem C14_rotation_exchanges :
  forall a b phi, a <> b ->
  rotation a b PI phi a a = C0 /\ rotation a b PI phi b b = C0 /\
  rotation a b PI phi b a = - (Ci * cis phi) /\ rotation a b PI phi a b = - (Ci * cis (- phi)).
Proof. exact rotation_pi_entries. Qed.
Print Assumptions C14_rotation_exchanges.

Theorem C14_cex_unitary :
  forall dc dt lt g M, (0 < dc)%nat -> (cx_a g < cx_b g < dt)%nat -> cex_array dc dt lt g = Ok M -> unitary (dc * dt) M.
Proof. exact cex_unitary. Qed.
Print Assumptions C14_cex_unitary.

(** Which parameter lists are accepted, and what is stored. *)
Theorem C14_parameters_accepted :
  forall a b c f, (0 <= a < b)%Z -> (0 <= f <= 2 * PI)%R ->
  cex_new (PList [PInt a; PInt b; PInt c; PFloat f]) = Ok (Cex (Z.to_nat a) (Z.to_nat b) c f).
Proof. exact cex_new_accepts. Qed.
Print Assumptions C14_parameters_accepted.
Theorem C14_parameters_checked :
  forall p g, cex_new p = Ok g -> (cx_a g < cx_b g)%nat /\ (0 <= cx_phi g <= 2 * PI)%R.
Proof. exact cex_new_spec. Qed.
Print Assumptions C14_parameters_checked.

(** The array exists when the levels fit the target; levels beyond the target's dimension are not
    rejected by the constructor, only by the later matrix construction. *)
Theorem C14_array_returns :
  forall dc dt lt g, (cx_b g < dt)%nat -> exists M, cex_array dc dt lt g = Ok M.
Proof. exact cex_returns. Qed.
Print Assumptions C14_array_returns.
Theorem C14_bad_level_raises_late :
  forall dc dt lt g, (0 <= cx_ctrl g < Z.of_nat dc)%Z -> (dt <= cx_b g)%nat -> cex_array dc dt lt g = Err IndexError.
Proof. exact cex_raises. Qed.
Print Assumptions C14_bad_level_raises_late.

Example C14_case : exists x M, cex_new (PList [PInt 0; PInt 2; PInt 1; PFloat 0]) = Ok x /\ (cx_b x < 3)%nat /\
  cex_array 2 3 true x = Ok M /\ unitary (2 * 3) M.
Proof. exact cex_case. Qed.

(** ** C53: light shift gate *)

(** The angle of a light shift or Molmer-Sorensen gate: the first entry of the list, a number between 0 and 2 pi. *)
Theorem C53_angle_accepted : forall l t, angle_new l = Ok t <->
  ((exists r, l = PFloat t :: r) \/ (exists z r, l = PInt z :: r /\ t = IZR z)) /\ (0 <= t <= 2 * PI)%R.
Proof. exact angle_iff. Qed.
Print Assumptions C53_angle_accepted.

(** Phase e^{-i theta} on |i,i>, nothing elsewhere.  [ls_array d0 d1 theta E] says that E is the
    value of the matrix exponential the code computes; it exists and is unitary. *)
Theorem C53_ls_entries :
  forall d0 d1 theta E i' j' i j, ls_array d0 d1 theta E -> (i' < d0)%nat -> (j' < d1)%nat -> (i < d0)%nat -> (j < d1)%nat ->
  E (i' * d1 + j')%nat (i * d1 + j)%nat = if (Nat.eqb i' i && Nat.eqb j' j)%bool then ls_phase i j theta else C0.
Proof. exact ls_entries. Qed.
Print Assumptions C53_ls_entries.
Theorem C53_ls_exists : forall d0 d1 theta, (0 < d1)%nat -> exists E, ls_array d0 d1 theta E.
Proof. exact ls_exists. Qed.
Print Assumptions C53_ls_exists.
Theorem C53_ls_unitary : forall d0 d1 theta E, (0 < d1)%nat -> ls_array d0 d1 theta E -> unitary (d0 * d1) E.
Proof. exact ls_unitary. Qed.
Print Assumptions C53_ls_unitary.

(** In a register, when the targets are given in increasing line order or have equal dimension. *)
Theorem C53_ls_in_register :
  forall dims c t ids g theta A, (forall d, In d dims -> (0 < d)%nat) -> (c < List.length dims)%nat -> (t < List.length dims)%nat -> c <> t ->
  (c < t)%nat \/ nth c dims 0%nat = nth t dims 0%nat ->
  g_target g = TList [Z.of_nat c; Z.of_nat t] -> g_controls g = None -> g_dagger g = false ->
  ls_array (nth c dims 0%nat) (nth t dims 0%nat) theta (g_data g) ->
  (2 <= ids)%nat -> generate_matrix dims ids g = Ok A ->
  meq (prodl dims) A (mdiag (fun k => ls_phase (digit dims k c) (digit dims k t) theta)).
Proof. exact ls_register. Qed.
Print Assumptions C53_ls_in_register.

(** Otherwise the phase lands on other states: the array is built in target order and embedded in
    line order. *)
Theorem C53_ls_decreasing_targets_refuted :
  exists dims c t theta (g : gate mat) A,
  (forall d, In d dims -> (0 < d)%nat) /\ (c < List.length dims)%nat /\ (t < List.length dims)%nat /\ c <> t /\
  g_target g = TList [Z.of_nat c; Z.of_nat t] /\ g_controls g = None /\ g_dagger g = false /\
  ls_array (nth c dims 0%nat) (nth t dims 0%nat) theta (g_data g) /\ (0 <= theta <= 2 * PI)%R /\
  generate_matrix dims 2 g = Ok A /\
  ~ meq (prodl dims) A (mdiag (fun k => ls_phase (digit dims k c) (digit dims k t) theta)).
Proof. exact ls_order_witness. Qed.
Print Assumptions C53_ls_decreasing_targets_refuted.

(** ** C54: Molmer-Sorensen gate *)
Theorem C54_ms_entries :
  forall d0 d1, (2 <= d0)%nat -> (2 <= d1)%nat -> forall theta E i' j' i j,
  ms_array d0 d1 theta E -> (i' < d0)%nat -> (j' < d1)%nat -> (i < d0)%nat -> (j < d1)%nat ->
  E (i' * d1 + j')%nat (i * d1 + j)%nat = ms_entry theta i' j' i j.
Proof. exact ms_entries. Qed.
Print Assumptions C54_ms_entries.
Theorem C54_ms_exists : forall d0 d1, (2 <= d0)%nat -> (2 <= d1)%nat -> forall theta, exists E, ms_array d0 d1 theta E.
Proof. exact ms_exists. Qed.
Print Assumptions C54_ms_exists.
Theorem C54_ms_unitary : forall d0 d1, (2 <= d0)%nat -> (2 <= d1)%nat -> forall theta E, ms_array d0 d1 theta E -> unitary (d0 * d1) E.
Proof. exact ms_unitary. Qed.
Print Assumptions C54_ms_unitary.
Theorem C54_ms_in_register :
  forall dims c t ids g theta A, (forall d, In d dims -> (0 < d)%nat) -> (c < List.length dims)%nat -> (t < List.length dims)%nat -> c <> t ->
  (2 <= nth c dims 0)%nat -> (2 <= nth t dims 0)%nat ->
  (c < t)%nat \/ nth c dims 0%nat = nth t dims 0%nat ->
  g_target g = TList [Z.of_nat c; Z.of_nat t] -> g_controls g = None -> g_dagger g = false ->
  ms_array (nth c dims 0%nat) (nth t dims 0%nat) theta (g_data g) ->
  (2 <= ids)%nat -> generate_matrix dims ids g = Ok A ->
  forall r k, (r < prodl dims)%nat -> (k < prodl dims)%nat ->
  (agree_off dims [c; t] r k -> A r k = ms_entry theta (digit dims r c) (digit dims r t) (digit dims k c) (digit dims k t)) /\
  (~ agree_off dims [c; t] r k -> A r k = C0).
Proof. exact ms_register. Qed.
Print Assumptions C54_ms_in_register.
