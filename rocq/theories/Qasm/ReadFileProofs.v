(** Reading a line that names the file of an array. *)
From Verif Require Import Base.Py Base.Text Circuit.CircuitModel Circuit.GateModel Gates.SingleModel.
From Verif Require Import Qasm.QasmModel Qasm.QasmSpec Qasm.LineProofs Qasm.GateLineProofs.
Local Open Scope nat_scope.

Lemma contains_suffix p u : containsb p (u ++ p) = true.
Proof.
  assert (P : prefixb p p = true). { induction p as [|a p IH]; cbn; [reflexivity|]. rewrite Ascii.eqb_refl. exact IH. }
  induction u as [|a u IH]; cbn [app].
  - destruct p; cbn [containsb]; rewrite P; reflexivity.
  - cbn [containsb]. rewrite IH. apply orb_true_r.
Qed.
Lemma lookups_mapr sm l : lookups sm l = mapr (fun y => QasmModel.lookup sm (fst y) (snd y)) l.
Proof. induction l as [|x l IH]; cbn; [reflexivity|]. rewrite IH. reflexivity. Qed.
Lemma read_array {Arr} eval load (s : @pstate Arr) tag u x l : In tag ["cuone"; "cutwo"; "cumulti"]%string -> p_comment s = false ->
  (forall a, In a u -> a <> ")"%char) -> word (tx (fst x)) -> (forall y, In y l -> word (tx (fst y))) ->
  parse_line eval load s (tx tag ++ tx " (" ++ (u ++ tx ".npy") ++ tx ") " ++
      join (tx ", ") (map (fun y => tx (fst y) ++ tx "[" ++ show_nat (snd y) ++ tx "]") (x :: l)) ++ tx ";") =
  (let? a := load (u ++ tx ".npy") in let? qs := mapr (fun y => QasmModel.lookup (p_sitemap s) (fst y) (snd y)) (x :: l) in
   Ok (PState (p_sitemap s) (p_classic s) (p_gates s ++ [Instr tag (AArray a) qs None]) false)).
Proof.
  intros T C U W Ws. change (fun y : string * nat => tx (fst y) ++ tx "[" ++ show_nat (snd y) ++ tx "]") with dit. rewrite join_targets.
  transitivity (parse_line eval load s (gate_text (tx tag) [u ++ tx ".npy"] x l)).
  { f_equal. unfold gate_text, ptext. cbn [join]. change (tx " (") with (tx " " ++ tx "("). rewrite <- !app_assoc. reflexivity. }
  rewrite parse_gate_line; [|unfold tags; cbn in T |- *; tauto|exact C| |exact W|exact Ws].
  - rewrite <- lookups_mapr. unfold params_text, parse_params. cbn [join]. destruct (u ++ tx ".npy") as [|c t] eqn:E; [destruct u; discriminate|]. rewrite <- E, contains_suffix.
    destruct (load (u ++ tx ".npy")); reflexivity.
  - cbn [join]. intros a H. apply in_app_iff in H. unfold not_paren. destruct H as [H|H].
    + destruct (Ascii.eqb_spec a ")"); [|reflexivity]. exfalso. exact (U a H e).
    + cbn in H. decompose [or] H; subst; try reflexivity. contradiction.
Qed.
