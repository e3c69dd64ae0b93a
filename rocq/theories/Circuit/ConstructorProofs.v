(** What the constructors of circuits and gates keep of their arguments. *)
From Verif.Base Require Import Py PyFacts.
From Verif.Circuit Require Import CircuitModel CircuitSpec CircuitProofs GateModel GateSpec GateProofs.
Lemma constructor_lemma : forall (G : Type) n dims, (forall ds, dims = Some ds -> List.length ds = n) ->
  let ds := match dims with Some ds => ds | None => repeat 2 n end in
  exists c, circuit_of_dims (G := G) n dims = (c, None) /\ num_qudits c = n /\ dimensions c = ds /\ instructions c = [] /\ number_gates c = 0%Z /\
    forall i d, lookup (sitemap c) "q" i = Some d <-> exists k, d = (i, k) /\ nth_error ds i = Some k.
Proof.
  intros G n dims L ds. assert (Ls : List.length ds = n) by (unfold ds; destruct dims as [l|]; [apply L; reflexivity|apply repeat_length]).
  pose proof (append_inv (G := G) empty_circuit [] (new_qreg "q" n (Some ds)) reg_inv_empty (fun F => F) Ls eq_refl) as [I E].
  assert (Q : circuit_of_dims (G := G) n dims = append empty_circuit (new_qreg "q" n (Some ds))) by reflexivity.
  exists (fst (append empty_circuit (new_qreg "q" n (Some ds)))). rewrite Q. split; [rewrite (surjective_pairing (append _ _)), E; reflexivity|].
  unfold append at 1 2 3 4. destruct (append_loop _ _ _ _ _ _ _ _) as [[[l s] v] e]. cbn [fst num_qudits dimensions instructions number_gates empty_circuit q_size q_dims new_qreg app].
  split; [reflexivity|]. split; [reflexivity|]. split; [reflexivity|]. split; [reflexivity|].
  intros i [m d]. rewrite (reg_inv_lookup _ _ "q" i m d I). unfold addressed. cbn [app q_label q_dims new_qreg]. split.
  - intros ([|k] & dd & N & Nd & ->); [|destruct k; discriminate]. cbn in N. injection N as <-. exists d. split; [reflexivity|exact Nd].
  - intros (k & [= -> ->] & Nd). exists 0, ds. auto.
Qed.
Lemma gate_controls {A} num dims name t tg i s (data : A) g : i <> [] -> s <> [] -> new_gate num dims name t tg (Some (i, s)) data = Ok g ->
  g_controls g = Some (i, s) /\ g_target g = tg /\ g_data g = data /\ g_dagger g = false /\ t = SINGLE /\
  forall k, In k i -> (k < Z.of_nat num)%Z /\ ~ In k (target_lines g).
Proof.
  intros Ni Ns. unfold new_gate. destruct (control num dims (Gate name t tg None false false data) i s) as [g1 e1] eqn:E. destruct e1 as [e|]; [discriminate|].
  destruct (check_long_range g1) as [b|] eqn:Cl; cbn; [|discriminate]. intros H. injection H as <-. revert E. unfold control.
  destruct i as [|i0 ir]; [congruence|]. destruct s as [|s0 sr]; [congruence|]. cbn [List.length Nat.eqb orb].
  destruct (negb (is_single _)) eqn:Si; [discriminate|]. destruct (_ || _)%bool eqn:Or; [discriminate|]. destruct (existsb _ _) eqn:Ex in |- *; [discriminate|].
  destruct (levels_beyond _ _ _) as [[]|]; try discriminate. intros E. injection E as <-. cbn. split; [reflexivity|]. split; [reflexivity|]. split; [reflexivity|]. split; [reflexivity|].
  split; [destruct t; cbn in Si; congruence|]. apply Bool.orb_false_iff in Or. destruct Or as [_ Or]. intros k Hk.
  assert (A1 : (Z.of_nat num <=? k)%Z = false). { destruct (Z.of_nat num <=? k)%Z eqn:Q; [|reflexivity]. rewrite (proj2 (existsb_exists _ _)) in Or; [discriminate|]. exists k. auto. }
  split; [lia|]. intros Hin. rewrite (proj2 (existsb_exists _ _)) in Ex; [discriminate|]. exists k. split; [exact Hk|]. apply existsb_exists. exists k. split; [exact Hin|apply Z.eqb_refl].
Qed.
