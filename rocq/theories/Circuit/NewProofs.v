(** Proofs about NewModel. *)
From Verif.Base Require Import Py PyFacts.
From Verif.Circuit Require Import CircuitModel CircuitSpec CircuitProofs ClassicProofs NewModel.

Lemma register_circuit : forall (G : Type) q, List.length (q_dims q) = q_size q -> q_local q = [] ->
  exists c, new_circuit (G := G) (ARegister q) = (c, None) /\ num_qudits c = q_size q /\ dimensions c = q_dims q /\ instructions c = [] /\ number_gates c = 0%Z /\
    forall label i d, lookup (sitemap c) label i = Some d <-> label = q_label q /\ exists k, d = (i, k) /\ nth_error (q_dims q) i = Some k.
Proof.
  intros G q L Lo. pose proof (append_inv (G := G) empty_circuit [] q reg_inv_empty (fun F => F) L Lo) as [I E].
  exists (fst (append empty_circuit q)). unfold new_circuit, circuit_of_reg. split; [rewrite (surjective_pairing (append _ _)), E; reflexivity|].
  unfold append at 1 2 3 4. destruct (append_loop _ _ _ _ _ _ _ _) as [[[l s] v] e]. cbn [fst num_qudits dimensions instructions number_gates empty_circuit app].
  split; [reflexivity|]. split; [reflexivity|]. split; [reflexivity|]. split; [reflexivity|].
  intros label i [m d]. rewrite (reg_inv_lookup _ _ label i m d I). unfold addressed. cbn [app]. split.
  - intros ([|k] & dd & N & Nd & ->); [|destruct k; discriminate]. cbn in N. injection N as <- <-. split; [reflexivity|]. exists d. split; [reflexivity|exact Nd].
  - intros (-> & k & [= -> ->] & Nd). exists 0, (q_dims q). auto.
Qed.

Lemma local_at_nat local i : local_at local (Z.of_nat i) = match dget Nat.eqb local i with Some n => Ok n | None => Err KeyError end.
Proof. unfold local_at. rewrite (proj2 (Z.ltb_ge _ _)) by lia. rewrite Nat2Z.id. reflexivity. Qed.
Lemma zrange_nat a b : zrange (Z.of_nat a) (Z.of_nat b) = map Z.of_nat (seq a (b - a)).
Proof.
  unfold zrange. replace (Z.to_nat (Z.of_nat b - Z.of_nat a)) with (b - a) by lia. generalize (b - a) as n. clear b. intros n.
  assert (H : forall s, map (fun k => (Z.of_nat a + Z.of_nat k)%Z) (seq s n) = map Z.of_nat (seq (a + s) n)).
  { induction n as [|n IH]; intros s; [reflexivity|]. cbn [seq map]. rewrite IH. f_equal; [lia|]. repeat f_equal. lia. }
  rewrite H. repeat f_equal. lia.
Qed.
Lemma mapr_ok {X Y} (f : X -> res Y) l (P : X -> Y -> Prop) : (forall x, In x l -> exists y, f x = Ok y /\ P x y) ->
  exists ys, mapr f l = Ok ys /\ Forall2 P l ys.
Proof.
  induction l as [|x l IH]; intros H; [exists []; split; [reflexivity|constructor]|]. destruct (H x) as (y & E & K); [now left|].
  destruct IH as (ys & E' & K'); [intros; apply H; now right|]. exists (y :: ys). cbn. rewrite E. cbn. rewrite E'. split; [reflexivity|now constructor].
Qed.
Lemma mapr_key_error {X Y} (f : X -> res Y) l x : In x l -> f x = Err KeyError -> (forall y, In y l -> f y = Err KeyError \/ exists v, f y = Ok v) ->
  mapr f l = Err KeyError.
Proof.
  induction l as [|a l IH]; intros Hx E A; [destruct Hx|]. cbn. destruct (A a) as [Ea|[v Ea]]; [now left|rewrite Ea; reflexivity|rewrite Ea; cbn].
  destruct Hx as [->|Hx]; [congruence|]. rewrite (IH Hx E) by (intros; apply A; now right). reflexivity.
Qed.
Lemma local_at_known local i : local_at local i = Err KeyError \/ exists v, local_at local i = Ok v.
Proof. unfold local_at. destruct (i <? 0)%Z; [now left|]. destruct (dget _ _ _); [right; eexists; reflexivity|now left]. Qed.

Lemma slice_lines local a b step (P : nat -> nat -> Prop) :
  (forall i, a <= i < b -> exists n, dget Nat.eqb local i = Some n /\ P i n) -> a <= b ->
  exists ls, local_slice local (Some (Z.of_nat a)) (Some (Z.of_nat b)) step = Ok ls /\ Forall2 P (seq a (b - a)) ls.
Proof.
  intros H L. cbn. rewrite zrange_nat. destruct (mapr_ok (local_at local) (map Z.of_nat (seq a (b - a))) (fun z n => P (Z.to_nat z) n)) as (ls & E & F).
  - intros z Hz. apply in_map_iff in Hz as (i & <- & Hi). apply in_seq in Hi. destruct (H i) as (n & Hn & Pn); [lia|]. exists n. rewrite local_at_nat, Hn. rewrite Nat2Z.id. auto.
  - exists ls. split; [exact E|]. clear E H. revert ls F. induction (seq a (b - a)) as [|i r IH]; intros ls F; inversion F; subst; constructor; [rewrite <- (Nat2Z.id i); assumption|now apply IH].
Qed.
Lemma slice_beyond local a b step i : (a <= i < b)%Z -> local_at local i = Err KeyError -> local_slice local (Some a) (Some b) step = Err KeyError.
Proof.
  intros H E. cbn. apply (mapr_key_error _ _ i); [|exact E|intros; apply local_at_known]. unfold zrange. apply in_map_iff. exists (Z.to_nat (i - a)). split; [lia|]. apply in_seq. lia.
Qed.

Section Registers.
Context {G : Type}.
Variable ops : list (op G).
Hypothesis LA : legal_appends [] ops.
Lemma qreg_local q : In q (quantum_registers (run empty_circuit ops)) ->
  exists f, q_local q = map (fun j => (j, f j)) (seq 0 (List.length (q_dims q))).
Proof.
  intros Hq. pose proof (run_reg_inv ops _ _ reg_inv_empty LA) as Hi. apply In_nth_error in Hq. destruct Hq as (k & Hk). eexists. exact (ri_local _ _ Hi k q Hk).
Qed.
Lemma dget_beyond (f : nat -> nat) n m : n <= m -> dget Nat.eqb (map (fun j => (j, f j)) (seq 0 n)) m = None.
Proof.
  intros H. destruct (dget Nat.eqb _ m) as [v|] eqn:E; [|reflexivity]. exfalso. apply (dget_In Nat.eqb Nat.eqb_eq) in E.
  apply in_map_iff in E as (j & Ej & Hj). injection Ej as <- _. apply in_seq in Hj. lia.
Qed.
Lemma register_slice q a b step : In q (quantum_registers (run empty_circuit ops)) -> a <= b <= List.length (q_dims q) ->
  exists ls, qreg_slice q (Some (Z.of_nat a)) (Some (Z.of_nat b)) step = Ok ls /\
    Forall2 (fun i n => exists d, lookup (sitemap (run empty_circuit ops)) (q_label q) i = Some (n, d)) (seq a (b - a)) ls.
Proof.
  intros Hq H. apply slice_lines; [|lia]. intros i Hi. destruct (C01_getitem_lemma G ops LA q i Hq ltac:(lia)) as (n & d & E & L).
  unfold qreg_getitem in E. destruct (dget Nat.eqb (q_local q) i) as [v|]; [|discriminate]. injection E as ->. exists n. split; [reflexivity|]. exists d. exact L.
Qed.
Lemma register_slice_beyond q a b step : In q (quantum_registers (run empty_circuit ops)) -> (a < b)%Z -> (a < 0 \/ Z.of_nat (List.length (q_dims q)) < b)%Z ->
  qreg_slice q (Some a) (Some b) step = Err KeyError.
Proof.
  intros Hq L H. destruct (qreg_local q Hq) as [f Ef]. destruct (Z.ltb_spec a 0) as [N|N].
  - apply (slice_beyond _ a b step a); [lia|]. unfold local_at. rewrite (proj2 (Z.ltb_lt _ _) N). reflexivity.
  - apply (slice_beyond _ a b step (b - 1)); [lia|]. unfold local_at. rewrite (proj2 (Z.ltb_ge _ _)) by lia. rewrite Ef, dget_beyond by lia. reflexivity.
Qed.
End Registers.
Lemma slice_empty local a b step : (b <= a)%Z -> local_slice local (Some a) (Some b) step = Ok [].
Proof. intros H. cbn. unfold zrange. replace (Z.to_nat (b - a)) with 0 by lia. reflexivity. Qed.
Lemma classic_slice {G} (ops : list (op G)) r a b step : (forall i, i < c_size r -> exists n, creg_getitem r i = Ok n /\
    lookup (classic_site_map (run empty_circuit ops)) (c_label r) i = Some n) -> a <= b <= c_size r ->
  exists ls, creg_slice r (Some (Z.of_nat a)) (Some (Z.of_nat b)) step = Ok ls /\
    Forall2 (fun i n => lookup (classic_site_map (run empty_circuit ops)) (c_label r) i = Some n) (seq a (b - a)) ls.
Proof.
  intros C H. apply slice_lines; [|lia]. intros i Hi. destruct (C i ltac:(lia)) as (n & E & L).
  unfold creg_getitem in E. destruct (dget Nat.eqb (c_local r) i) as [v|]; [|discriminate]. injection E as ->. exists n. auto.
Qed.
