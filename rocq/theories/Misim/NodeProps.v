(** Properties of the memory of the decision diagram simulator (C99, C100).  The vocabulary is in NodeSpec.v, MisimSpec.v,
    DdSpec.v and Sim/TnSpec.v. *)
From Coq Require Import String ZArith Arith Lia Reals Lra Bool List.
From Verif Require Import Base.Cplx Base.Matrix Base.Radix Gates.AnglesModel Gates.SingleModel Gates.FactorySpec Sim.TnModel Sim.TnSpec.
From Verif Require Import Misim.DdModel Misim.DdSpec Misim.DdProofs Misim.DdGateProofs Misim.MisimModel Misim.MisimSpec Local.QrMath Misim.MisimProofs Misim.MisimNoiseProofs Misim.MisimProps Misim.NodeModel Misim.NodeSpec Misim.NodeProofs.
Import ListNotations.
Local Open Scope nat_scope.

(** ** C99: sharing nodes and remembering results does not change what is computed *)

(** For every register, circuit, noise and choice of the random numbers, and for every choice of the hash functions: the
    simulation returns what it returns when nothing is shared and nothing is remembered, exceptions included. *)
Theorem C99_recomputed : forall dims uhash ahash mhash chash nm draw is, register dims ->
  misim_m 0 dims uhash ahash mhash chash nm draw is = misim 0 node_eqb dims nm draw is.
Proof. intros dims uhash ahash mhash chash nm draw is [_ P]. apply misim_same. exact P. Qed.
Print Assumptions C99_recomputed.
(** So the state of the circuit comes out of the memory ... *)
Theorem C99_simulates : forall dims uhash ahash mhash chash gs is draw, register dims -> Forall2 (reads dims) gs is -> Forall (in_scope dims) is ->
  exists v, misim_m 0 dims uhash ahash mhash chash [] draw is = Done v /\ evolves dims (ket 0) gs v.
Proof.
  intros dims uhash ahash mhash chash gs is draw R H1 H2. rewrite C99_recomputed by exact R. apply C50_simulates; [exact R| |exact H1|exact H2].
  intros x y. apply node_eqb_spec.
Qed.
Print Assumptions C99_simulates.
(** ... and where the tables put things has no influence. *)
Theorem C99_hashes : forall dims uhash ahash mhash chash uhash' ahash' mhash' chash' nm draw is, register dims ->
  misim_m 0 dims uhash ahash mhash chash nm draw is = misim_m 0 dims uhash' ahash' mhash' chash' nm draw is.
Proof. intros. rewrite !C99_recomputed by assumption. reflexivity. Qed.
Print Assumptions C99_hashes.

(** ** C100: the memory stays consistent *)

(** In every state of the memory a circuit leads to: no two nodes of a unique table have the same register and the same
    edges ... *)
Theorem C100_shared : forall dims uhash ahash mhash chash psi s m a b, register dims -> reached dims uhash ahash mhash chash psi s ->
  in_table (heaps s m) a -> in_table (heaps s m) b -> cell (heaps s m) a = cell (heaps s m) b -> a = b.
Proof.
  intros dims uhash ahash mhash chash psi s m a b [_ P] R. destruct (reached_good dims P _ _ _ _ psi s R) as [G _]. apply (hg_unique _ _ _ _ (sg_heap _ _ _ G m)).
Qed.
Print Assumptions C100_shared.
(** ... so pointers are equal exactly if the diagrams behind them are ... *)
Theorem C100_pointers : forall dims uhash ahash mhash chash psi s m r q x y, register dims -> reached dims uhash ahash mhash chash psi s ->
  den (heaps s m) r x -> den (heaps s m) q y -> (r = q <-> x = y).
Proof.
  intros dims uhash ahash mhash chash psi s m r q x y [_ P] R Dx Dy. destruct (reached_good dims P _ _ _ _ psi s R) as [G _]. split.
  - intros ->. eapply den_fun; eassumption.
  - intros ->. eapply (den_inj _ (hg_unique _ _ _ _ (sg_heap _ _ _ G m))); eassumption.
Qed.
Print Assumptions C100_pointers.
(** ... every edge of a node leads to the terminal or to a node of the table one register below, and the state is a diagram of
    such nodes ... *)
Theorem C100_no_dangling : forall dims uhash ahash mhash chash psi s, register dims -> reached dims uhash ahash mhash chash psi s ->
  (exists f, dene (heaps s false) psi f) /\
  forall m a e, in_table (heaps s m) a -> In e (snd (cell (heaps s m) a)) ->
    snd e = None \/ exists b, snd e = Some b /\ in_table (heaps s m) b /\ S (fst (cell (heaps s m) b)) = fst (cell (heaps s m) a).
Proof.
  intros dims uhash ahash mhash chash psi s [_ P] R. destruct (reached_good dims P _ _ _ _ psi s R) as [G D]. split; [exact D|]. intros m a e. eapply good_children; eassumption.
Qed.
Print Assumptions C100_no_dangling.
(** ... the node that is handed out next is not in use ... *)
Theorem C100_handed_out : forall dims uhash ahash mhash chash psi s m, register dims -> reached dims uhash ahash mhash chash psi s ->
  ~ in_table (heaps s m) (fst (get_node (heaps s m))) /\ NoDup (avail (heaps s m)) /\ forall a, In a (avail (heaps s m)) -> ~ in_table (heaps s m) a.
Proof.
  intros dims uhash ahash mhash chash psi s m [_ P] R. destruct (reached_good dims P _ _ _ _ psi s R) as [G D]. pose proof (sg_heap _ _ _ G m) as Gh.
  destruct (get_node (heaps s m)) as [a h1] eqn:E. split; [exact (proj1 (get_node_ok dims uhash m _ _ _ Gh E))|]. split; [apply (hg_nodup _ _ _ _ Gh)|]. intros b Ib. exact (proj2 (hg_avail _ _ _ _ Gh b Ib)).
Qed.
Print Assumptions C100_handed_out.
(** ... and a node marked as identity is the identity matrix. *)
Theorem C100_identity_flag : forall dims uhash ahash mhash chash psi s a, register dims -> reached dims uhash ahash mhash chash psi s ->
  in_table (heaps s true) a -> idn (heaps s true) a = true ->
  exists n, den (heaps s true) (Some a) n /\ let ds := sizes_below dims (S (fst (cell (heaps s true) a))) in
    forall p q, valid ds p -> valid ds q -> val n (entry true ds p q) = delta p q.
Proof.
  intros dims uhash ahash mhash chash psi s a [_ P] R Ta I. destruct (reached_good dims P _ _ _ _ psi s R) as [G _]. destruct (good_den _ _ _ true a G Ta) as [n D]. exists n. split; [exact D|]. intros ds p q.
  apply is_ident_ok. rewrite <- I. symmetry. eapply good_flag; eassumption.
Qed.
Print Assumptions C100_identity_flag.

(** a node marked as symmetric is a symmetric matrix *)
Theorem C100_symmetric_flag : forall dims uhash ahash mhash chash psi s a, register dims -> reached dims uhash ahash mhash chash psi s ->
  in_table (heaps s true) a -> sym (heaps s true) a = true ->
  exists n, den (heaps s true) (Some a) n /\ let ds := sizes_below dims (S (fst (cell (heaps s true) a))) in
    forall p q, valid ds p -> valid ds q -> val n (entry true ds p q) = val n (entry true ds q p).
Proof.
  intros dims uhash ahash mhash chash psi s a [_ P] R Ta I. destruct (reached_good dims P _ _ _ _ psi s R) as [G _]. destruct (good_den _ _ _ true a G Ta) as [n D]. exists n. split; [exact D|].
  intros ds p q. eapply good_mirror; eassumption.
Qed.
Print Assumptions C100_symmetric_flag.

(** Every circuit in the scope of the binding leads to such a state, and its state vector is behind a node of the table. *)
Theorem C100_reached : forall dims uhash ahash mhash chash gs is, register dims -> Forall2 (reads dims) gs is -> Forall (in_scope dims) is ->
  exists psi s a, reached dims uhash ahash mhash chash psi s /\ snd psi = Some a /\ in_table (heaps s false) a.
Proof.
  intros dims uhash ahash mhash chash gs is R H1 H2. destruct (C99_simulates dims uhash ahash mhash chash gs is (fun _ => 0%R) R H1 H2) as (v & E & _).
  assert (U : norm2 (prodl dims) v = 1%R).
  { rewrite C99_recomputed in E by exact R. eapply C50_normalised; [exact R| |exact H1|exact H2|exact E]. intros x y. apply node_eqb_spec. }
  unfold misim_m in E. cbn [physical existsb] in E. rewrite generate_quiet in E by reflexivity. cbn [cbind] in E.
  pose proof (circuit_root dims (proj2 R) uhash ahash mhash chash is) as K. unfold ddsimulator_m in E, K.
  destruct (circuit_m 0 dims uhash ahash mhash chash is init_store) as [[psi s]|x] eqn:Q; [|discriminate]. destruct (K psi s eq_refl (proj1 R)) as [(a & Ea & Ta)|(w & Ew & Z)].
  - exists psi, s, a. split; [exists is; exact Q|split; assumption].
  - exfalso. injection Ew as Ew. cbn [cbind] in E. injection E as <-. unfold norm2 in U. rewrite rsum_0 in U; [lra|]. intros k _. unfold reverse_axes. rewrite Ew, Z. unfold Cnorm2, C0. cbn. ring.
Qed.
Print Assumptions C100_reached.

(** Violation, outside of what circuits of the binding reach: if a new matrix has an edge off the diagonal to a node that is not
    symmetric, the diagonal is symmetric and the edges before that one are mirrored, checking it throws std::out_of_range, because
    the transposed matrix is written behind the end of an empty vector. *)
Theorem C100_transpose_refuted : forall tol dims h a p, let d := nth (fst (cell h a)) dims 0 in let es := snd (cell h a) in let sym' r := symmetric (set_flags h a false false) r in
  (forall i, i < d -> sym' (snd (at_a es (i * d + i))) = true) ->
  p < d * d -> p / d <> p mod d -> sym' (snd (at_a es p)) = false ->
  (forall q, q < p -> q / d <> q mod d -> sym' (snd (at_a es q)) = true -> edge_eqb tol (at_a es q) (at_a es (q mod d * d + q / d)) = true) ->
  check_special tol dims h a = None.
Proof.
  intros tol dims h a p d es sym' D Hp N Sy H. unfold check_special. fold d es.
  replace (forallb (fun i => symmetric (set_flags h a false false) (snd (at_a es (i * d + i)))) (seq 0 d)) with true by (symmetry; apply forallb_forall; intros i Hi; apply in_seq in Hi; apply D; lia).
  replace (d * d) with (p + S (d * d - S p)) by lia. rewrite seq_app. cbn [seq plus]. rewrite (mirrored_throws tol _ d es p _ N Sy); [reflexivity|]. intros q Hq. apply in_seq in Hq. apply H. lia.
Qed.
Print Assumptions C100_transpose_refuted.

(** ** cases *)
Example C99_case : exists gs is, length is = 3 /\ register [3; 2] /\ Forall2 (reads [3; 2]) gs is /\ Forall (in_scope [3; 2]) is.
Proof. destruct C50_case as (g2 & R & F & S & _). eexists; eexists. split; [|split; [exact R|split; [exact F|exact S]]]. reflexivity. Qed.
(** with hash functions that put everything into one place *)
Example C100_case : exists psi s a, reached [3; 2] (fun _ _ => 0) (fun _ _ _ => 0) (fun _ _ _ => 0) (fun _ => 0) psi s /\ snd psi = Some a /\ in_table (heaps s false) a.
Proof. destruct C99_case as (gs & is & _ & R & F & S). eapply C100_reached; eassumption. Qed.
(** a matrix over two qubits with a node off the diagonal that is not symmetric *)
Example C100_case_transpose : let h := H (fun a => if Nat.eqb a 0 then (1, [zero_a; (C1, Some 1); zero_a; zero_a]) else (0, [])) (fun _ => false) (fun _ => false) (fun _ _ => []) [] 2 in
  check_special 0 [2; 2] h 0 = None.
Proof.
  apply (C100_transpose_refuted 0 [2; 2] _ 0 1); cbn [cell fst snd nth Nat.eqb].
  - intros [|[|i]] Hi; [reflexivity|reflexivity|lia].
  - lia.
  - cbn. lia.
  - reflexivity.
  - intros [|q] Hq N; [contradiction N; reflexivity|lia].
Qed.
