(** The whole ansatz is unitary (C71); an error of zero means that the target was reached (C72). *)
From Coq Require Import List ZArith Arith Lia Permutation Reals Lra String.
From Verif Require Import Base.Py Base.PyFacts Base.Cplx Base.Matrix Base.Radix Base.Expm.
From Verif Require Import Circuit.GateModel Gates.FactorySpec Gates.FactoryModel Gates.ActsOn Gates.FactoryProofs Gates.TwoModel Gates.EntProofs Sim.TnSpec.
From Verif Require Import Variational.AnsatzModel Variational.AnsatzSpec Variational.AnsatzProofs Variational.SudProofs Variational.EmitProofs Variational.EmitCases.
From Verif Require Import Variational.FidelityModel Variational.FidelityProofs.
Import ListNotations.
Local Open Scope list_scope.
Local Open Scope nat_scope.

Lemma bounds_split d0 d1 layers : 2 <= d0 -> 2 <= d1 ->
  exists bs, params_splitter (return_bounds d0 d1 layers) [d0; d1] = Ok bs /\ blocks (sud_params d0) (sud_params d1) (layers + 2) bs.
Proof. intros H0 H1. apply split_accepts; [unfold sud_params; nia|]. apply bounds_length; lia. Qed.

Lemma turn_emitted expm : exact_expm expm -> exists gs, create_instance expm LS [2; 2] turn 2 2 = Ok gs /\ List.length gs = 5.
Proof.
  intros EX. destruct (sud_zero expm EX) as (sz & Ez & Mz). destruct (sud_turn expm EX) as (st & Et & Mt). destruct (ls_gate_ok 2 2 expm [2; 2]) as (u & G).
  exists [sg 0 st; sg 1 sz; u; sg 0 sz; sg 1 sz]. split; [|reflexivity].
  unfold create_instance. rewrite split_turn. cbn [bindr]. rewrite G. cbn [bindr]. apply four_emitted; assumption.
Qed.

Section Unitary.
Variable expm : nat -> mat -> mat.
Hypothesis EX : exact_expm expm.
Lemma sud_returned p d u : generic_sud expm p d = Ok u -> unitary d u.
Proof.
  intros H. destruct (le_lt_dec (sud_params d) (List.length p)) as [L|L]; [eapply sud_unitary; eassumption|].
  destruct (sud_short expm p d L) as (e & E). congruence.
Qed.
Variables d0 d1 : nat.
Hypothesis H0 : 2 <= d0.
Hypothesis H1 : 2 <= d1.
Let dims := [d0; d1].
Let N := prodl dims.
Lemma N_eq : N = d0 * d1. Proof. unfold N, dims. cbn. lia. Qed.
Lemma kron_unitary t d s E : pyindex dims (Z.of_nat t) = Ok d -> unitary d s -> gate_expand (d, s) 2 t dims = Ok E -> unitary N (snd E).
Proof.
  intros D U H. assert (Ht : t < 2 /\ d = nth t dims 0).
  { rewrite pyindex_nat in D. destruct t as [|[|t]]; cbn in D; try (injection D as <-; split; [lia|reflexivity]). destruct t; discriminate. }
  destruct Ht as [Ht Ed]. assert (PD : forall x, In x dims -> 0 < x) by (intros x [<-|[<-|[]]]; lia).
  destruct (expand_acts dims t d s E PD Ht Ed H) as [_ AO].
  eapply acts_unitary; [| |exact AO|].
  - split; [constructor; [intros []|constructor]|]. intros x [<-|[]]. exact Ht.
  - intros c [].
  - unfold sub_dims. cbn [map prodl]. rewrite <- Ed. replace (d * 1) with d by lia. exact U.
Qed.
Lemma loop_unitary u ps : (forall m, u = Ok m -> unitary N m) -> forall c acc U, unitary N acc -> ansatz_loop expm dims u ps c acc = Ok U -> unitary N U.
Proof.
  intros HU. induction ps as [|p ps IH]; intros c acc U HA H; cbn [ansatz_loop] in H; [injection H as <-; exact HA|].
  apply bindr_Ok in H. destruct H as ([c' acc'] & E1 & H). cbn [fst snd] in H. apply bindr_Ok in H. destruct H as (d & D & H). apply bindr_Ok in H. destruct H as (s & Es & H). apply bindr_Ok in H. destruct H as (e & Ee & H).
  assert (HA' : unitary N acc').
  { destruct (c =? 2); [|injection E1 as <- <-; exact HA]. apply bindr_Ok in E1. destruct E1 as (m & Em & E1). injection E1 as <- <-. apply unitary_mmul; [exact HA|apply HU, Em]. }
  eapply IH; [|exact H]. apply unitary_mmul; [exact HA'|]. eapply kron_unitary; [exact D| |exact Ee]. eapply sud_returned; exact Es.
Qed.
Lemma prepare_unitary u ps U : (forall m, u = Ok m -> unitary N m) -> prepare_ansatz expm u ps dims = Ok U -> unitary N U.
Proof.
  intros HU H. unfold prepare_ansatz in H. apply bindr_Ok in H. destruct H as (d & D & H). apply bindr_Ok in H. destruct H as (e & Ee & H).
  eapply loop_unitary; [exact HU| |exact H]. eapply (kron_unitary 0); [exact D|apply unitary_id|exact Ee].
Qed.
Lemma ansatz_unitary a p U : match a with CU (Some g) => unitary (d0 * d1) (g_data g) | _ => True end -> ansatz_matrix expm a p d0 d1 = Ok U -> unitary (d0 * d1) U.
Proof.
  intros HA H. rewrite <- N_eq. unfold ansatz_matrix in H. apply bindr_Ok in H. destruct H as (ps & _ & H). destruct a as [| |[g|]].
  - apply bindr_Ok in H. destruct H as (g & G & H). destruct (ms_gate_inv _ _ _ _ _ G) as (C & D & T & E). rewrite two_to_matrix in H by assumption. cbn [bindr] in H.
    eapply prepare_unitary; [|exact H]. intros m Q. injection Q as <-. rewrite N_eq, E. destruct (ms_exists d0 d1 H0 H1 (PI / 2)) as (M & HM).
    eapply unitary_ext; [apply meq_sym, EX, HM|]. apply (ms_unitary d0 d1 H0 H1 _ _ HM).
  - apply bindr_Ok in H. destruct H as (g & G & H). destruct (ls_gate_inv _ _ _ _ _ G) as (C & D & T & E). rewrite two_to_matrix in H by assumption. cbn [bindr] in H.
    eapply prepare_unitary; [|exact H]. intros m Q. injection Q as <-. rewrite N_eq, E. destruct (ls_exists d0 d1 (ls_theta [d0; d1]) ltac:(lia)) as (M & HM).
    eapply unitary_ext; [apply meq_sym, EX, HM|]. apply (ls_unitary d0 d1 _ _ ltac:(lia) HM).
  - eapply prepare_unitary; [|exact H]. intros m Q. injection Q as <-. rewrite N_eq. exact HA.
  - eapply prepare_unitary; [|exact H]. intros m Q. discriminate.
Qed.
(** error zero *)
Lemma reached a p gs T : proper_primitive a -> match a with CU (Some g) => unitary (d0 * d1) (g_data g) | _ => True end -> unitary (d0 * d1) T ->
  create_instance expm a [d0; d1] p d0 d1 = Ok gs ->
  exists U A, ansatz_matrix expm a p d0 d1 = Ok U /\ implements [d0; d1] (rev gs) A /\
    (objective (Arr (d0 * d1) (d0 * d1) U) (Arr (d0 * d1) (d0 * d1) T) = Ok 0%R <-> same_up_to_phase (d0 * d1) T A).
Proof.
  intros PP HA HT H. destruct (instance_matrix d0 d1 [] ltac:(lia) ltac:(lia) ltac:(intros x []) expm a p gs PP H) as (U & A & E & I & AO).
  exists U, A. split; [exact E|]. split; [exact I|]. rewrite objective_zero; [|nia|eapply ansatz_unitary; eassumption|exact HT].
  assert (Q : meq N A U).
  { assert (PD : forall x, In x [d0; d1] -> 0 < x) by (intros x [<-|[<-|[]]]; lia).
    eapply acts_unique; [| |exact AO|].
    - split; [repeat constructor; cbn; lia|]. intros x [<-|[<-|[]]]; cbn; lia.
    - intros c [].
    - apply (acts_full [d0; d1] U). }
  rewrite <- N_eq. split; intros (c & Hc & M); exists c; (split; [exact Hc|]); eapply meq_trans; try exact M; intros i j Hi Hj; unfold mscal; f_equal; [symmetry|]; apply Q; assumption.
Qed.
End Unitary.
