(** C63: the random gates realise the documented channels. *)
From Coq Require Import Reals Lra.
From Verif.Base Require Import Py Cplx Matrix.
From Verif.Noise Require Import NoiseModel InsertModel InsertSpec InsertProofs ChannelSpec ChannelProofs.
Local Open Scope list_scope.

(** Mathematical noise: the mixture of the gates inserted for the d^2 outcomes of the generator, with the
    probabilities given to it, is the depolarizing channel with the probability of the noise. *)
Theorem C63_depolarizing : forall dims q d n outs rho, pyindex dims q = Ok d -> (0 < d)%nat ->
  (forall o, (o < d * d)%nat -> exists k', math_dit (fun _ _ => o) dims n q 0%nat = Ok (outs o, k')) ->
  meq d (mixture d (d * d) (math_probs (p_depol n) d) outs rho) (depolarized d (p_depol n) rho).
Proof. exact math_channel. Qed.
Print Assumptions C63_depolarizing.

(** Physical noise in the span of two levels: the qubit depolarizing channel on these levels. *)
Theorem C63_subspace : forall d q a b n outs rho, (0 <= a < Z.of_nat d)%Z -> (0 <= b < Z.of_nat d)%Z -> a <> b ->
  (forall o, (o < 4)%nat -> exists k', sub_pair (fun _ _ => o) d q ((a, b), n) 0%nat = Ok (outs o, k')) ->
  supported_on d (Z.to_nat a) (Z.to_nat b) rho ->
  meq d (mixture d 4 (sub_probs (p_depol n)) outs rho) (depolarized_pair (Z.to_nat a) (Z.to_nat b) (p_depol n) rho).
Proof. exact sub_channel. Qed.
Print Assumptions C63_subspace.

(** Physical dephasing of one level outside the pair. *)
Theorem C63_dephasing : forall d q l n outs rho, (0 <= l < Z.of_nat d)%Z ->
  (forall o, (o < 2)%nat -> exists k', dephase_level (fun _ _ => o) q n l 0%nat = Ok (outs o, k')) ->
  meq d (mixture d 2 [p_deph n; (1 - p_deph n)%R] outs rho) (dephased (Z.to_nat l) (p_deph n) rho).
Proof. exact dephase_channel. Qed.
Print Assumptions C63_dephasing.

(** The outcomes exist for every probability. *)
Local Open Scope nat_scope.
Example C63_case : forall o, exists out k', math_dit (fun _ _ => o) [3; 2] (Noise (1 / 2) 0) 0%Z 0 = Ok (out, k').
Proof. intros o. apply math_total; [unfold probability; cbn; lra|]. exists 3. split; [reflexivity|repeat constructor]. Qed.
Example C63_case_pair : forall o, exists out k', sub_pair (fun _ _ => o) 3 0%Z ((0, 2)%Z, Noise (1 / 2) 0) 0 = Ok (out, k').
Proof.
  intros o. cbn [sub_pair in_levels]. cbn -[choice bind]. apply bind_total. exists o, 1. split; [apply choice_total; intros p [<-|H]; [lra|apply repeat_spec in H; subst; lra]|].
  destruct o as [|[|[|[|o]]]]; eexists _, _; reflexivity.
Qed.
