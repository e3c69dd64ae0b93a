(** Properties of the classical registers (C59). *)
From Verif Require Import Base.Py.
From Verif Require Import Circuit.CircuitModel Circuit.CircuitSpec Circuit.CircuitProofs.
From Verif Require Import Circuit.ClassicSpec Circuit.ClassicProofs.

(** After any history whose classical registers are new, bit i of register [label] is stored under
    position n iff it is the n-th declared classical bit. *)
Theorem C59_classic_layout : forall (G : Type) (ops : list (op G)), legal_classic [] ops ->
  forall label i n, lookup (classic_site_map (run empty_circuit ops)) label i = Some n <->
                    caddressed (cdeclared [] ops) label i n.
Proof. exact (fun G ops L label i n => cl_lookup _ _ label i n (cl_main ops L)). Qed.
Print Assumptions C59_classic_layout.

(** The inverse map sends each position back to its bit. *)
Theorem C59_classic_inverse : forall (G : Type) (ops : list (op G)), legal_classic [] ops ->
  forall label i n, lookup_inv (cl_inverse_sitemap (run empty_circuit ops)) n = Some (label, i) <->
                    lookup (classic_site_map (run empty_circuit ops)) label i = Some n.
Proof.
  exact (fun G ops L label i n => iff_trans (cl_lookup_inv _ _ label i n (cl_main ops L))
                                            (iff_sym (cl_lookup _ _ label i n (cl_main ops L)))).
Qed.
Print Assumptions C59_classic_inverse.

(** The number of classical bits is the total size of the declared registers, and the positions in use
    are exactly 0 .. num_cl - 1. *)
Theorem C59_classic_count : forall (G : Type) (ops : list (op G)), legal_classic [] ops ->
  num_cl (run empty_circuit ops) = list_sum (map snd (cdeclared [] ops)).
Proof. exact @cl_num. Qed.
Print Assumptions C59_classic_count.
Theorem C59_classic_positions_used : forall (G : Type) (ops : list (op G)), legal_classic [] ops ->
  forall n, n < num_cl (run empty_circuit ops) <->
            exists label i, lookup (classic_site_map (run empty_circuit ops)) label i = Some n.
Proof. exact @cl_all. Qed.
Print Assumptions C59_classic_positions_used.

(** register[i] is the position the circuit uses for (label, i). *)
Theorem C59_classic_register_indexing : forall (G : Type) (ops : list (op G)), legal_classic [] ops ->
  forall r i, In r (classic_registers (run empty_circuit ops)) -> i < c_size r ->
  exists n, creg_getitem r i = Ok n /\ lookup (classic_site_map (run empty_circuit ops)) (c_label r) i = Some n.
Proof. exact (fun G ops L r i => cl_getitem _ _ r i (cl_main ops L)). Qed.
Print Assumptions C59_classic_register_indexing.

(** Two registers of two and one bit with a quantum register in between. *)
Example C59_case :
  let ops := [OpAppendClassic (new_creg "a" 2); OpAppend (new_qreg "q" 2 None); OpAppendClassic (new_creg "b" 1)] in
  legal_classic (G:=nat) [] ops /\ num_cl (run empty_circuit ops) = 3 /\
  lookup (classic_site_map (run empty_circuit ops)) "b" 0 = Some 2.
Proof.
  cbn. repeat split; try reflexivity; intros H; try contradiction. destruct H as [H|[]]. discriminate.
Qed.
