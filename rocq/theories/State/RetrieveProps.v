(** C37: the predefined states.  C81: the test of normalisation. *)
From Coq Require Import Reals List Arith Lia Lra String.
From Verif.Base Require Import Py Cplx Matrix Radix.
From Verif.Circuit Require Import GateModel.
From Verif.Sim Require Import TnSpec.
From Verif.Local Require QrMath.
From Verif.State Require Import DdModel DdSpec PrepModel PrepSpec PrepOk RetrieveModel RetrieveSpec RetrieveProofs.
Import ListNotations.
Local Open Scope nat_scope.

(** The combinations are the digits of 0, 1, ..., in the order of the amplitudes. *)
Theorem C37_combinations dims : List.length (generate_all_combinations dims) = prodl dims /\ forall k, k < prodl dims -> nth k (generate_all_combinations dims) [] = digits dims k.
Proof.
  split; [apply combinations_length|]. intros k Hk. rewrite combinations. pose proof (nth_digits_error dims k) as E. apply Nat.ltb_lt in Hk. rewrite Hk in E. apply nth_error_nth with (d := []) in E. exact E.
Qed.
Print Assumptions C37_combinations.

(** The entries are the documented basis states, each once. *)
Theorem C37_ghz_entries dims : dims <> [] -> exists l, generate_ghz_entries dims = Ok l /\ NoDup l /\ forall e, In e l <-> ghz_basis dims e.
Proof. exact (ghz_entries dims). Qed.
Print Assumptions C37_ghz_entries.
Theorem C37_w_entries dims : NoDup (generate_qudit_w_entries dims) /\ forall e, In e (generate_qudit_w_entries dims) <-> w_basis dims e.
Proof. exact (conj (w_nodup dims) (w_entries dims)). Qed.
Print Assumptions C37_w_entries.
Theorem C37_embedded_entries dims : NoDup (generate_embedded_w_entries dims) /\ forall e, In e (generate_embedded_w_entries dims) <-> embedded_basis dims e.
Proof. exact (conj (embedded_nodup dims) (embedded_entries dims)). Qed.
Print Assumptions C37_embedded_entries.

(** The vectors are uniform on these basis states and have norm 1. *)
Theorem C37_ghz dims : dims <> [] -> (forall d, In d dims -> 0 < d) -> exists v, generate_uniform_state dims "ghz" = Ok v /\ uniform_on dims (ghz_basis dims) v /\ norm2 (prodl dims) (vec_of v) = 1%R.
Proof. exact (ghz_state dims). Qed.
Print Assumptions C37_ghz.
Theorem C37_w dims : (forall d, In d dims -> 0 < d) -> (exists d, In d dims /\ 1 < d) -> exists v, generate_uniform_state dims "qudit-w-state" = Ok v /\ uniform_on dims (w_basis dims) v /\ norm2 (prodl dims) (vec_of v) = 1%R.
Proof. exact (w_state dims). Qed.
Print Assumptions C37_w.
Theorem C37_embedded dims : dims <> [] -> (forall d, In d dims -> 1 < d) -> exists v, generate_uniform_state dims "embedded-w-state" = Ok v /\ uniform_on dims (embedded_basis dims) v /\ norm2 (prodl dims) (vec_of v) = 1%R.
Proof. exact (embedded_state dims). Qed.
Print Assumptions C37_embedded.
(** Without a second level there is no W state, and other names are rejected. *)
Theorem C37_w_none dims : (forall d, In d dims -> d <= 1) -> generate_uniform_state dims "qudit-w-state" = Err ZeroDivisionError.
Proof. exact (w_error dims). Qed.
Print Assumptions C37_w_none.
Theorem C37_other_names dims name : name <> "qudit-w-state"%string -> name <> "embedded-w-state"%string -> name <> "ghz"%string -> generate_uniform_state dims name = Err ValueError.
Proof. exact (wrong_name dims name). Qed.
Print Assumptions C37_other_names.
(** The norm fails for the embedded W state of a register with a qudit of dimension 1. *)
Theorem C37_embedded_refuted dims : (forall d, In d dims -> 0 < d) -> In 1 dims -> exists v, generate_uniform_state dims "embedded-w-state" = Ok v /\ (norm2 (prodl dims) (vec_of v) < 1)%R.
Proof. exact (embedded_defect dims). Qed.
Print Assumptions C37_embedded_refuted.

(** A random state has norm 1 unless all samples are 0. *)
Theorem C37_random re im dims : dims <> [] -> (exists k, k < prodl dims /\ (re k <> 0 \/ im k <> 0)%R) ->
  exists v, generate_random_quantum_state re im dims = Ok v /\ List.length v = prodl dims /\ norm2 (prodl dims) (vec_of v) = 1%R.
Proof. exact (random_ok re im dims). Qed.
Print Assumptions C37_random.

(** State preparation is right for the predefined states (see C36), with no assumption on the merging. *)
Theorem C37_prepared hash eps tol dims name v t gs : (forall d, In d dims -> 1 < d) -> dims <> [] -> (0 <= eps)%R ->
  generate_uniform_state dims name = Ok v -> state_tree tol dims v false = Ok t -> no_clash hash t -> compile_state hash eps tol dims v false = Ok gs ->
  prepares (INR (full_nodes dims) * (eps / 2)) dims gs (vec_of v).
Proof.
  intros P NE E G T NC CS. assert (P0 : forall d, In d dims -> 0 < d) by (intros d Hd; specialize (P d Hd); lia).
  assert (X : List.length v = prodl dims /\ first_branch_used dims v /\ norm2 (prodl dims) (vec_of v) = 1%R).
  { destruct (string_dec name "qudit-w-state") as [->|N1].
    { destruct (w_state dims P0) as (v' & G' & U & N); [destruct dims as [|d r]; [contradiction|exists d; split; [left; reflexivity|apply P; left; reflexivity]]|].
      rewrite G in G'. injection G' as <-. split; [apply U|]. split; [apply w_used; assumption|exact N]. }
    destruct (string_dec name "embedded-w-state") as [->|N2].
    { destruct (embedded_state dims NE P) as (v' & G' & U & N). rewrite G in G'. injection G' as <-. split; [apply U|]. split; [apply embedded_used; assumption|exact N]. }
    destruct (string_dec name "ghz") as [->|N3].
    { destruct (ghz_state dims NE P0) as (v' & G' & U & N). rewrite G in G'. injection G' as <-. split; [apply U|]. split; [apply ghz_used; assumption|exact N]. }
    rewrite (wrong_name dims name N1 N2 N3) in G. discriminate. }
  destruct X as (L & F & N). pose proof (support_enough tol dims v t P0 L F T) as M.
  destruct (prepare_exact hash eps tol dims v t gs P NE L ltac:(rewrite N; lra) E T NC M CS) as (phi & EV & D). exists phi. split; [exact EV|].
  revert D. unfold distance, norm2. rewrite (Local.QrMath.rsum_ext (prodl dims) (fun k => Cnorm2 (Csub (phi k) (unit_of (prodl dims) (vec_of v) k))) (fun k => Cnorm2 (Csub (phi k) (vec_of v k)))); [exact (fun H => H)|].
  intros k _. rewrite (unit_same _ _ N). reflexivity.
Qed.
Print Assumptions C37_prepared.

Example C37_case : generate_ghz_entries [2; 3; 4] = Ok [[0; 0; 0]; [1; 1; 1]] /\ generate_qudit_w_entries [2; 3] = [[1; 0]; [0; 1]; [0; 2]] /\ generate_embedded_w_entries [2; 3] = [[1; 0]; [0; 1]] /\
  generate_all_combinations [2; 3] = [[0; 0]; [0; 1]; [0; 2]; [1; 0]; [1; 1]; [1; 2]] /\ find_entries_indices (generate_all_combinations [2; 3]) [[1; 0]; [0; 1]; [0; 2]] = Ok [1; 2; 3].
Proof. repeat split; reflexivity. Qed.

(** The test accepts a vector exactly if its squared norm is within 1.1e-5 of 1. *)
Theorem C81_accepts state : verify_normalized_state state = true <-> (Rabs (norm2 (List.length state) (vec_of state) - 1) <= 11 / 1000000)%R.
Proof. exact (verify_iff state). Qed.
Print Assumptions C81_accepts.
(** The tolerance of 1e-6 that the function declares is not kept: for every squared norm between there is a vector that is accepted. *)
Theorem C81_refuted n e : (1 / 1000000 < e <= 11 / 1000000)%R -> 0 < n ->
  exists state, List.length state = n /\ norm2 n (vec_of state) = (1 + e)%R /\ verify_normalized_state state = true.
Proof.
  intros He Hn. destruct n as [|n]; [lia|]. set (state := RtoC (sqrt (1 + e)) :: repeat C0 n).
  assert (L : List.length state = Datatypes.S n) by (unfold state; cbn; rewrite repeat_length; reflexivity).
  assert (N : norm2 (Datatypes.S n) (vec_of state) = (1 + e)%R).
  { unfold norm2. rewrite (Local.QrMath.rsum_single _ _ 0); [|lia|].
    - unfold vec_of, state, Cnorm2, RtoC. cbn. rewrite sqrt_sqrt by lra. ring.
    - intros i _ Ni. unfold vec_of, state. destruct i as [|i]; [contradiction|]. cbn [nth]. replace (nth i (repeat C0 n) C0) with C0; [unfold Cnorm2, C0; cbn; ring|].
      clear. revert i. induction n as [|n IH]; intros [|i]; cbn; try reflexivity. apply IH. }
  exists state. split; [exact L|]. split; [exact N|]. apply verify_iff. rewrite L, N. replace (1 + e - 1)%R with e by ring. rewrite Rabs_pos_eq by lra. lra.
Qed.
Print Assumptions C81_refuted.
