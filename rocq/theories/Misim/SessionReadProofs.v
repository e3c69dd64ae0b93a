(** Sessions: inner products, amplitudes and matrices. *)
From Coq Require Import List Arith Lia Reals Lra Bool Sorted.
From Verif Require Import Base.Cplx Base.Matrix Base.Radix Sim.TnModel Misim.DdModel Misim.DdSpec Misim.DdProofs Misim.DdGateProofs
  Misim.MisimModel Misim.NodeModel Misim.NodeSpec Misim.NodeShapeProofs Misim.NodeProofs Misim.ControlsProofs Misim.CanonProofs
  Misim.SessionModel Misim.SessionSpec Misim.SessionProofs.
Import ListNotations.
Local Open Scope nat_scope.

Lemma Forall2_len {A B} (R : A -> B -> Prop) l l' : Forall2 R l l' -> length l = length l'.
Proof. induction 1; cbn; congruence. Qed.

Section Read.
Variable dims : list nat.
Hypothesis pos : forall d, In d dims -> 0 < d.
Variable uhash : bool -> list aedge -> nat.
Variable ahash : bool -> aedge -> aedge -> nat.
Variable mhash : bool -> ref -> ref -> nat.
Variable ihash : ref -> ref -> nat.
Notation sizes := (sizes_below dims).
Notation sgood := (sgood dims uhash).
Notation stands := (stands dims).

(** the node behind a pointer *)
Lemma nf_ref h r n v : den h r n -> nf (sizes (S v)) n -> v < length dims ->
  exists a es, r = Some a /\ n = Node v es /\ length es = nth v dims 0 /\ (forall i, i < nth v dims 0 -> nfe (sizes v) (edge_at es i)) /\ Forall2 (dene h) (snd (cell h a)) es /\ fst (cell h a) = v.
Proof.
  intros D O Hv. destruct (ok_ref dims false 0 h r n v D (nf_okn 0 _ _ O) Hv) as (a & es & Er & En & Ol & F & Ef). exists a, es. rewrite En in O. rewrite sizes_S in O by exact Hv.
  apply nf_cons in O. destruct O as (_ & L & _ & O). auto 8.
Qed.
Lemma dene_node h e f ds : dene h e f -> nfe ds f -> fst e <> C0 -> den h (snd e) (snd f) /\ nf ds (snd f).
Proof. intros [A B] N Z. split; [exact B|]. apply nfe_node; [exact N|]. rewrite <- A. exact Z. Qed.

(** ** inner products *)
Definition ip_good (h : heap) (a b : ref) (c : C) : Prop := exists n x y, n <= length dims /\ den h a x /\ den h b y /\ nf (sizes n) x /\ nf (sizes n) y /\
  c = psum (sizes n) (fun p => Cmul (val x p) (Cconj (val y p))).
Definition table_good (h : heap) (T : ip_table) : Prop := forall k a b c, T k = Some (a, b, c) -> ip_good h a b c.
Lemma nf_length ds ds' n : nf ds n -> nf ds' n -> length ds = length ds'.
Proof. destruct ds as [|d r], ds' as [|d' r'], n as [|v es]; cbn; try tauto. intros (-> & _) (E & _). lia. Qed.
Lemma lookup_ok h T n x y a b c : table_good h T -> ip_lookup ihash T a b = Some c -> n <= length dims -> den h a x -> den h b y -> nf (sizes n) x -> nf (sizes n) y ->
  c = psum (sizes n) (fun p => Cmul (val x p) (Cconj (val y p))).
Proof.
  intros G L Hn Da Db Nx Ny. unfold ip_lookup in L. destruct (T (ihash a b)) as [[[a' b'] c']|] eqn:E; [|discriminate].
  destruct (ref_eqb a' a && ref_eqb b' b) eqn:Q; [|discriminate]. injection L as ->. apply andb_true_iff in Q. destruct Q as [Q1 Q2]. apply ref_eqb_spec in Q1, Q2. subst a' b'.
  destruct (G _ _ _ _ E) as (n' & x' & y' & Hn' & Da' & Db' & Nx' & Ny' & ->). rewrite (den_fun h x' x a Da' Da), (den_fun h y' y b Db' Db) in *.
  pose proof (nf_length _ _ _ Nx Nx') as L. rewrite !sizes_length in L by assumption. subst n'. reflexivity.
Qed.
Lemma conj_nfe ds e : nfe ds e -> nfe ds (Cconj (fst e), snd e).
Proof.
  intros [->|[N O]]; [left; unfold zero_edge, Cconj, C0; cbn; rewrite Ropp_0; reflexivity|right]. split; [|exact O]. cbn [fst]. intros Z. apply N. rewrite <- (Cconj_inv (fst e)), Z.
  unfold Cconj, C0. cbn. rewrite Ropp_0. reflexivity.
Qed.
Lemma ip_zero n fx fy : fst fx = C0 \/ fst fy = C0 -> psum (sizes n) (fun p => Cmul (Cmul (ev fx p) (fst fy)) (Cconj (val (snd fy) p))) = C0.
Proof. intros H. rewrite (psum_ext _ _ (fun _ => C0)); [apply psum_0|]. intros p _. unfold ev. destruct H as [-> | ->]; ring. Qed.
Lemma inner_rec_ok h : forall n T x y fx fy, n <= length dims -> table_good h T -> dene h x fx -> dene h y fy -> nfe (sizes n) fx -> nfe (sizes n) fy ->
  table_good h (snd (inner_rec 0 dims ihash h n x y T)) /\
  fst (inner_rec 0 dims ihash h n x y T) = psum (sizes n) (fun p => Cmul (Cmul (ev fx p) (fst fy)) (Cconj (val (snd fy) p))).
Proof.
  induction n as [|n IH]; intros T x y fx fy Hn G Dx Dy Nx Ny; cbn [inner_rec].
  - destruct (near_zero 0 (fst x) || near_zero 0 (fst y)) eqn:Z.
    + split; [exact G|]. cbn [fst]. symmetry. apply ip_zero. rewrite <- (proj1 Dx), <- (proj1 Dy). apply orb_true_iff in Z. destruct Z as [Z|Z]; apply near_zero_spec in Z; auto.
    + split; [exact G|]. apply orb_false_iff in Z. destruct Z as [Zx Zy]. apply near_zero_false in Zx, Zy.
      destruct (dene_node _ _ _ _ Dx Nx Zx) as [_ Ox]. destruct (dene_node _ _ _ _ Dy Ny Zy) as [_ Oy]. cbn [sizes_below firstn rev psum fst].
      unfold ev. rewrite (proj1 Dx), (proj1 Dy). cbn [val]. rewrite Cconj_C1. ring.
  - destruct (near_zero 0 (fst x) || near_zero 0 (fst y)) eqn:Z.
    + split; [exact G|]. cbn [fst]. symmetry. apply ip_zero. rewrite <- (proj1 Dx), <- (proj1 Dy). apply orb_true_iff in Z. destruct Z as [Z|Z]; apply near_zero_spec in Z; auto.
    + apply orb_false_iff in Z. destruct Z as [Zx Zy]. apply near_zero_false in Zx, Zy.
      destruct (dene_node _ _ _ _ Dx Nx Zx) as [Rx Ox]. destruct (dene_node _ _ _ _ Dy Ny Zy) as [Ry Oy].
      assert (Val : forall c, c = psum (sizes (S n)) (fun p => Cmul (val (snd fx) p) (Cconj (val (snd fy) p))) ->
        Cmul (Cmul c (fst x)) (fst y) = psum (sizes (S n)) (fun p => Cmul (Cmul (ev fx p) (fst fy)) (Cconj (val (snd fy) p)))).
      { intros c ->. rewrite (psum_ext _ (fun p => Cmul (Cmul (ev fx p) (fst fy)) (Cconj (val (snd fy) p))) (fun p => Cmul (Cmul (fst x) (fst y)) (Cmul (val (snd fx) p) (Cconj (val (snd fy) p))))).
        - rewrite psum_mul_l. ring.
        - intros p _. unfold ev. rewrite (proj1 Dx), (proj1 Dy). ring. }
      destruct (ip_lookup ihash T (snd x) (snd y)) as [c|] eqn:L; cbn [fst snd].
      * split; [exact G|]. apply Val. apply (lookup_ok h T (S n) _ _ _ _ _ G L Hn Rx Ry Ox Oy).
      * destruct (nf_ref h _ _ n Rx Ox ltac:(lia)) as (a & es & Ea & En & Le & Ne & Fe & Va). destruct (nf_ref h _ _ n Ry Oy ltac:(lia)) as (b & gs & Eb & En' & Lg & Ng & Fg & Vb).
        set (step := fun (acc : C * ip_table) i => _). set (term := fun i => psum (sizes n) (fun p => Cmul (ev (edge_at es i) p) (Cconj (ev (edge_at gs i) p)))).
        assert (K : forall k, k <= nth n dims 0 -> table_good h (snd (fold_left step (seq 0 k) (C0, T))) /\ fst (fold_left step (seq 0 k) (C0, T)) = csum k term).
        { induction k as [|k IHk]; intros Hk; [split; [exact G|reflexivity]|]. rewrite seq_S, fold_left_app. cbn [fold_left plus]. destruct (IHk ltac:(lia)) as [Gk Vk].
          set (acc := fold_left step (seq 0 k) (C0, T)) in *. unfold step.
          destruct (IH (snd acc) (ip_edge h n k (snd x)) (ip_edge_conj h n k (snd y)) (edge_at es k) (Cconj (fst (edge_at gs k)), snd (edge_at gs k))) as [Gn Vn].
          - lia.
          - exact Gk.
          - rewrite Ea. unfold ip_edge. rewrite Va, Nat.eqb_refl. apply denes_at. exact Fe.
          - rewrite Eb. unfold ip_edge_conj. rewrite Vb, Nat.eqb_refl. destruct (denes_at h _ _ k Fg) as [W D]. split; [cbn [fst]; rewrite W; reflexivity|exact D].
          - apply Ne. lia.
          - apply conj_nfe. apply Ng. lia.
          - destruct (inner_rec 0 dims ihash h n (ip_edge h n k (snd x)) (ip_edge_conj h n k (snd y)) (snd acc)) as [cv T'] eqn:E. cbn [fst snd] in *. split; [exact Gn|].
            cbn [csum]. rewrite Vk, Vn. f_equal. apply psum_ext. intros p _. unfold ev. rewrite Cconj_mul. ring. }
        destruct (K (nth n dims 0) (le_n _)) as [Gf Vf]. destruct (fold_left step (seq 0 (nth n dims 0)) (C0, T)) as [sum T'] eqn:E. cbn [fst snd] in *.
        assert (Sum : sum = psum (sizes (S n)) (fun p => Cmul (val (snd fx) p) (Cconj (val (snd fy) p)))).
        { rewrite Vf, sizes_S by lia. cbn [psum]. apply csum_ext. intros i Hi. apply psum_ext. intros p _. rewrite En, En'. reflexivity. }
        split; [|apply Val; exact Sum]. intros k a' b' c' Hk. unfold ip_insert, upd in Hk. destruct (Nat.eqb k (ihash (snd x) (snd y))); [|apply (Gf k); exact Hk].
        injection Hk as <- <- <-. exists (S n), (snd fx), (snd fy). auto 8.
Qed.
Lemma height_ok h e f : dene h e f -> nfe (rev dims) f -> fst e <> C0 -> height h (snd e) = length dims.
Proof.
  intros D N Z. destruct (dene_node _ _ _ _ D N Z) as [R O]. rewrite <- sizes_all in O. destruct (length dims) as [|n] eqn:L.
  - cbn in O. destruct (snd f); [|destruct O]. inversion R. reflexivity.
  - destruct (nf_ref h _ _ n R O ltac:(lia)) as (a & es & Ea & _ & _ & _ & _ & Va). rewrite Ea. cbn. rewrite Va. reflexivity.
Qed.
(** the inner product that is computed: the weight of the second state is not conjugated *)
Lemma inner_ok h x y fx fy T : table_good h T -> dene h x fx -> dene h y fy -> nfe (rev dims) fx -> nfe (rev dims) fy ->
  table_good h (snd (inner 0 dims ihash h x y T)) /\
  fst (inner 0 dims ihash h x y T) = psum (rev dims) (fun p => Cmul (Cmul (ev fx p) (fst fy)) (Cconj (val (snd fy) p))).
Proof.
  intros G Dx Dy Nx Ny. unfold inner. destruct (near_zero 0 (fst x) || near_zero 0 (fst y)) eqn:Z.
  - split; [exact G|]. cbn [fst]. rewrite <- sizes_all. symmetry. apply ip_zero. rewrite <- (proj1 Dx), <- (proj1 Dy). apply orb_true_iff in Z. destruct Z as [Z|Z]; apply near_zero_spec in Z; auto.
  - apply orb_false_iff in Z. destruct Z as [Zx Zy]. apply near_zero_false in Zx, Zy. rewrite (height_ok h x fx Dx Nx Zx), (height_ok h y fy Dy Ny Zy), Nat.max_id. rewrite <- sizes_all in *.
    apply inner_rec_ok; auto.
Qed.
Lemma inner_stands s x y sx sy T : table_good (heaps s false) T -> stands s x sx -> stands s y sy ->
  table_good (heaps s false) (snd (inner 0 dims ihash (heaps s false) x y T)) /\
  Cmul (fst (inner 0 dims ihash (heaps s false) x y T)) (Cconj (fst y)) = Cmul (overlap dims sx sy) (fst y).
Proof.
  intros G (fx & Dx & Nx & Vx) (fy & Dy & Ny & Vy). destruct (inner_ok (heaps s false) x y fx fy T G Dx Dy Nx Ny) as [G' V]. split; [exact G'|]. rewrite V.
  unfold overlap. rewrite psum_rev. match goal with |- Cmul ?a ?b = Cmul ?c ?d => transitivity (Cmul b a); [ring|]; transitivity (Cmul d c); [|ring] end. rewrite <- !psum_mul_l. apply psum_ext. intros p Hp.
  rewrite Vx by exact Hp. rewrite <- (Vy p Hp). unfold ev. rewrite Cconj_mul, (proj1 Dy). ring.
Qed.
Lemma inner_zero s x y sx T : stands s x sx -> fst y = C0 -> fst (inner 0 dims ihash (heaps s false) x y T) = C0.
Proof. intros _ Z. unfold inner. rewrite (proj2 (near_zero_spec (fst y)) Z), orb_true_r. reflexivity. Qed.
Lemma overlap_zero s y sx sy : stands s y sy -> fst y = C0 -> overlap dims sx sy = C0.
Proof.
  intros (fy & Dy & _ & Vy) Z. unfold overlap. rewrite (psum_ext _ _ (fun _ => C0)); [apply psum_0|]. intros p Hp. rewrite <- (Vy p Hp), ev_weight_0 by (rewrite <- (proj1 Dy); exact Z).
  replace (Cconj C0) with C0 by (unfold Cconj, C0; cbn; rewrite Ropp_0; reflexivity). ring.
Qed.
Lemma inner_norm s x y sx sy T : table_good (heaps s false) T -> stands s x sx -> stands s y sy ->
  Cnorm2 (fst (inner 0 dims ihash (heaps s false) x y T)) = Cnorm2 (overlap dims sx sy).
Proof.
  intros G Sx Sy. destruct (is_zero (fst y)) eqn:Z.
  - apply is_zero_spec in Z. rewrite (inner_zero s x y sx T Sx Z), (overlap_zero s y sx sy Sy Z). reflexivity.
  - apply is_zero_false in Z. destruct (inner_stands s x y sx sy T G Sx Sy) as [_ V]. apply (f_equal Cnorm2) in V. rewrite !Cnorm2_mul in V.
    replace (Cnorm2 (Cconj (fst y))) with (Cnorm2 (fst y)) in V by (unfold Cnorm2, Cconj; cbn; ring).
    apply (Rmult_eq_reg_r (Cnorm2 (fst y))); [exact V|]. intros Q. apply Z, Cnorm2_0, Q.
Qed.

(** ** amplitudes *)
Lemma rev_firstn_S (l : list nat) v : v < length l -> rev (firstn (S v) l) = nth v l 0 :: rev (firstn v l).
Proof. revert v. induction l as [|x r IH]; intros [|v] Hn; cbn in *; try lia; [reflexivity|]. rewrite IH by lia. reflexivity. Qed.
Lemma by_string_ok h levels : valid dims levels -> forall n e f amp, n <= length dims -> dene h e f -> nfe (sizes n) f ->
  by_string h n e amp (map (fun l => 48 + l) levels) = Done (Cmul amp (ev f (rev (firstn n levels)))).
Proof.
  intros HL. pose proof (valid_length _ _ HL) as LL.
  assert (Zero : forall n e amp, e = zero_a -> by_string h n e amp (map (fun l => 48 + l) levels) = Done C0).
  { intros n e amp ->. destruct n; cbn; f_equal; ring. }
  induction n as [|n IH]; intros e f amp Hn D N.
  - destruct N as [->|[Z O]].
    + destruct D as [W D]. cbn in W, D. inversion D as [Er|]. destruct e as [w r]. cbn in W, Er. subst. rewrite Zero by reflexivity. f_equal. unfold ev. cbn. ring.
    + destruct D as [W D]. cbn in O. destruct (snd f) eqn:Ef; [|destruct O]. inversion D as [Er|]. cbn [by_string]. rewrite <- Er. f_equal. unfold ev. rewrite Ef, W. cbn. ring.
  - destruct N as [->|[Z O]].
    + destruct D as [W D]. cbn in W, D. inversion D as [Er|]. destruct e as [w r]. cbn in W, Er. subst. rewrite Zero by reflexivity. f_equal. unfold ev. cbn [fst zero_edge]. ring.
    + destruct D as [W D]. destruct (nf_ref h _ _ n D O ltac:(lia)) as (a & es & Ea & En & Le & Ne & Fe & Va). cbn [by_string]. rewrite Ea, Va.
      rewrite nth_error_map, (nth_error_nth' levels 0) by lia. cbn [option_map].
      assert (Hl : nth n levels 0 < nth n dims 0). { clear -HL Hn LL. assert (Hn' : n < length levels) by lia. clear Hn LL. revert n Hn'. induction HL as [|x d xs ds Hx H IH]; intros [|v] Hn; cbn in *; try lia. apply IH. lia. }
      replace (48 + nth n levels 0 <? 48) with false by (symmetry; apply Nat.ltb_ge; lia). replace (48 + nth n levels 0 - 48) with (nth n levels 0) by lia.
      assert (Lc : length (snd (cell h a)) = nth n dims 0) by (rewrite (Forall2_len _ _ _ Fe); exact Le).
      rewrite (nth_error_nth' (snd (cell h a)) zero_a) by lia. change (nth (nth n levels 0) (snd (cell h a)) zero_a) with (at_a (snd (cell h a)) (nth n levels 0)).
      rewrite (IH _ (edge_at es (nth n levels 0)) _ ltac:(lia) (denes_at h _ _ _ Fe) (Ne _ Hl)). f_equal. rewrite rev_firstn_S by lia.
      rewrite (surjective_pairing f), En, ev_node. cbn [fst]. rewrite W. ring.
Qed.
Lemma by_levels_ok h : forall n e f amp p, n <= length dims -> dene h e f -> nfe (sizes n) f -> valid (sizes n) p -> by_levels 0 h e amp p = Done (Cmul (ev f p) amp).
Proof.
  assert (Zero : forall e amp p, e = zero_a -> by_levels 0 h e amp p = Done C0).
  { intros e amp p ->. destruct p; cbn; f_equal; ring. }
  induction n as [|n IH]; intros e f amp p Hn D N Hp.
  - inversion Hp; subst. destruct N as [->|[Z O]].
    + destruct D as [W D]. cbn in W, D. inversion D as [Er|]. destruct e as [w r]. cbn in W, Er. subst. rewrite Zero by reflexivity. f_equal. unfold ev. cbn. ring.
    + destruct D as [W D]. cbn in O. destruct (snd f) eqn:Ef; [|destruct O]. inversion D as [Er|]. cbn [by_levels]. rewrite <- Er. f_equal. unfold ev. rewrite Ef, W. cbn. ring.
  - destruct N as [->|[Z O]].
    + destruct D as [W D]. cbn in W, D. inversion D as [Er|]. destruct e as [w r]. cbn in W, Er. subst. rewrite Zero by reflexivity. f_equal. unfold ev. cbn [fst zero_edge]. ring.
    + destruct D as [W D]. destruct (nf_ref h _ _ n D O ltac:(lia)) as (a & es & Ea & En & Le & Ne & Fe & Va). rewrite sizes_S in Hp by lia. destruct p as [|i p]; [inversion Hp|]. apply valid_cons in Hp. destruct Hp as [Hi Hp].
      cbn [by_levels]. rewrite Ea.
      assert (Lc : length (snd (cell h a)) = nth n dims 0) by (rewrite (Forall2_len _ _ _ Fe); exact Le).
      rewrite (nth_error_nth' (snd (cell h a)) zero_a) by lia. change (nth i (snd (cell h a)) zero_a) with (at_a (snd (cell h a)) i).
      pose proof (denes_at h _ _ i Fe) as Di. rewrite (surjective_pairing f), En, ev_node. cbn [fst]. destruct (near_zero 0 (fst (at_a (snd (cell h a)) i))) eqn:Zi.
      * apply near_zero_spec in Zi. f_equal. rewrite (ev_weight_0 (edge_at es i)) by (rewrite <- (proj1 Di); exact Zi). ring.
      * rewrite (IH _ (edge_at es i) _ p ltac:(lia) Di (Ne i Hi) Hp). f_equal. rewrite W. ring.
Qed.
Lemma repr_digits : forall ds p, valid ds p -> repr_of_index ds (prodl ds) (undigits ds p) = p.
Proof.
  intros ds p H. induction H as [|x d xs ds Hx H IH]; [reflexivity|]. cbn [repr_of_index prodl undigits]. pose proof (undigits_lt _ _ H) as U.
  replace (d * prodl ds / d) with (prodl ds) by (rewrite Nat.mul_comm, Nat.div_mul; lia).
  rewrite Nat.div_add_l, Nat.div_small, Nat.add_0_r by lia. rewrite Nat.add_comm, Nat.mod_add, Nat.mod_small by lia. f_equal. exact IH.
Qed.
Lemma prodl_rev ds : prodl (rev ds) = prodl ds.
Proof. induction ds as [|d r IH]; [reflexivity|]. cbn [rev prodl]. rewrite prodl_app, IH. cbn [prodl]. lia. Qed.

(** ** matrices *)
Lemma read_matrix_ok s t : forall n e f amp i (v : vec), n <= length dims -> dene (heaps s true) e f -> oke true t (sizes n) f ->
  let ss := arity true (sizes n) in
  (forall k, (k < i \/ i + prodl ss <= k) -> read_matrix s n e amp i (i + prodl ss) v k = v k) /\
  ((forall k, i <= k < i + prodl ss -> v k = C0) -> forall p, valid ss p -> read_matrix s n e amp i (i + prodl ss) v (i + undigits ss p) = Cmul (ev f p) amp).
Proof.
  assert (Pos : forall n, n <= length dims -> 0 < prodl (arity true (sizes n))).
  { intros n Hn. apply prodl_pos. intros d Hd. unfold arity in Hd. apply in_map_iff in Hd. destruct Hd as (d' & <- & Hd). pose proof (sizes_pos dims n pos d' Hd). cbn. nia. }
  assert (Zero : forall n e amp i next (v : vec), e = zero_a -> forall k, read_matrix s n e amp i next v k = if Nat.eqb k i then C0 else v k).
  { intros n e amp i next v -> k. destruct n; cbn; unfold update; destruct (Nat.eqb k i); try reflexivity; ring. }
  induction n as [|n IH]; intros e f amp i v Hn D O ss.
  - cbn [sizes_below firstn rev arity map] in ss. subst ss. cbn [prodl]. destruct O as [->|[Z O]].
    + destruct D as [W D]. cbn in W, D. inversion D as [Er|]. destruct e as [w r]. cbn in W, Er. subst. split.
      * intros k Hk. rewrite Zero by reflexivity. destruct (Nat.eqb_spec k i); [lia|reflexivity].
      * intros _ p Hp. inversion Hp; subst. cbn [undigits]. rewrite Nat.add_0_r, Zero, Nat.eqb_refl by reflexivity. unfold ev. cbn. ring.
    + destruct D as [W D]. cbn in O. destruct (snd f) eqn:Ef; [|destruct O]. inversion D as [Er|]. cbn [read_matrix]. unfold update. split.
      * intros k Hk. destruct (Nat.eqb_spec k i); [lia|reflexivity].
      * intros _ p Hp. inversion Hp; subst. cbn [undigits]. rewrite Nat.add_0_r, Nat.eqb_refl. unfold ev. rewrite Ef, W. cbn. ring.
  - destruct O as [->|[Z O]].
    + destruct D as [W D]. cbn in W, D. inversion D as [Er|]. destruct e as [w r]. cbn in W, Er. subst. pose proof (Pos (S n) Hn) as Ps. fold ss in Ps. split.
      * intros k Hk. rewrite Zero by reflexivity. destruct (Nat.eqb_spec k i); [lia|reflexivity].
      * intros V0 p Hp. rewrite Zero by reflexivity. rewrite ev_weight_0 by reflexivity. pose proof (undigits_lt _ _ Hp) as U. replace (Cmul C0 amp) with C0 by ring.
        destruct (Nat.eqb_spec (i + undigits ss p) i); [reflexivity|]. apply V0. lia.
    + destruct D as [W D]. destruct (ok_ref dims true t _ _ _ n D O ltac:(lia)) as (a & es & Ea & En & Ol & Fe & Va).
      assert (Es : ss = nth n dims 0 * nth n dims 0 :: arity true (sizes n)) by (unfold ss; rewrite sizes_S by lia; reflexivity). pose proof (Pos n ltac:(lia)) as Pr.
      clearbody ss. subst ss. set (r := arity true (sizes n)) in *. set (d := nth n dims 0 * nth n dims 0).
      assert (Pn : 0 < nth n dims 0) by (apply pos, nth_In; lia). assert (Pd : 0 < d) by (unfold d; nia).
      assert (Le : length (snd (cell (heaps s true) a)) = d). { rewrite (Forall2_len _ _ _ Fe). destruct Ol as [L _]. exact L. }
      cbn [read_matrix]. rewrite Ea. unfold edges. rewrite Le. cbn [prodl].
      replace ((i + d * prodl r - i) / d) with (prodl r) by (replace (i + d * prodl r - i) with (prodl r * d) by lia; rewrite Nat.div_mul; lia).
      set (step := fun (v : vec) k => _). set (w' := Cmul (fst e) amp).
      assert (K : forall m, m <= d ->
        (forall k, (k < i \/ i + m * prodl r <= k) -> fold_left step (seq 0 m) v k = v k) /\
        ((forall k, i <= k < i + d * prodl r -> v k = C0) -> forall j p, j < m -> valid r p ->
           fold_left step (seq 0 m) v (i + (j * prodl r + undigits r p)) = Cmul (ev (edge_at es j) p) w')).
      { induction m as [|m IHm]; intros Hm.
        - cbn. split; [reflexivity|]. intros _ j p Hj. lia.
        - rewrite seq_S, fold_left_app. cbn [fold_left plus]. destruct (IHm ltac:(lia)) as [F V]. set (v1 := fold_left step (seq 0 m) v) in *. unfold step.
          assert (Oc : oke true t (sizes n) (edge_at es m)) by (apply (okl_edge true t _ _ es m Ol); exact Hm).
          destruct (IH (at_a (snd (cell (heaps s true) a)) m) (edge_at es m) w' (i + m * prodl r) v1 ltac:(lia) (denes_at _ _ _ m Fe) Oc) as [G Q]. fold r in G, Q.
          replace (i + (m + 1) * prodl r) with (i + m * prodl r + prodl r) by lia. fold w'. split.
          + intros k Hk. rewrite G by nia. apply F. nia.
          + intros V0 j p Hj Hp. pose proof (undigits_lt _ _ Hp) as U. destruct (Nat.eq_dec j m) as [->|N].
            * rewrite Nat.add_assoc. apply Q; [|exact Hp]. intros k Hk. rewrite F by lia. apply V0. nia.
            * rewrite G by nia. apply V; [exact V0|lia|exact Hp]. }
      destruct (K d (le_n d)) as [F V]. split; [exact F|]. intros V0 p Hp. inversion Hp as [|j d' p' ds' Hj Hp' E1 E2]; subst d' ds' p. cbn [undigits].
      rewrite V by assumption. rewrite (surjective_pairing f), En, ev_node. unfold w'. cbn [fst]. rewrite W. ring.
Qed.
Lemma entry_valid : forall ds p q, valid ds p -> valid ds q -> valid (arity true ds) (entry true ds p q).
Proof.
  intros ds p q H. revert q. induction H as [|x d xs ds Hx H IH]; intros q Hq; inversion Hq as [|y d' ys ds' Hy Hq' E1 E2]; subst; [constructor|]. cbn [entry arity map cols].
  constructor; [nia|apply IH; exact Hq'].
Qed.
Lemma vectorized_ok s e f t : dene (heaps s true) e f -> oke true t (rev dims) f -> forall p q, valid dims p -> valid dims q ->
  vectorized dims s e (undigits (rev (map (fun d => d * d) dims)) (entry true (rev dims) (rev p) (rev q))) = ev f (entry true (rev dims) (rev p) (rev q)).
Proof.
  intros D O p q Hp Hq. unfold vectorized. rewrite fold_mul. rewrite <- sizes_all in O. destruct (read_matrix_ok s t (length dims) e f C1 0 (fun _ => C0) (le_n _) D O) as [_ V].
  rewrite sizes_all in V. assert (E : rev (map (fun d => d * d) dims) = arity true (rev dims)) by (unfold arity; rewrite map_rev; reflexivity). rewrite E. cbn [plus] in V.
  replace (1 * prodl (map (fun d => d * d) dims)) with (prodl (arity true (rev dims))) by (rewrite <- E, prodl_rev; lia).
  rewrite V; [ring|reflexivity|]. apply entry_valid; apply valid_rev; assumption.
Qed.
End Read.
