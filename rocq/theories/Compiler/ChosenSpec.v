(** Vocabulary for compilation with a chosen list of passes (C106). *)
From Coq Require Import Reals List ZArith String.
From Verif.Base Require Import Py Cplx Matrix Radix.
From Verif.Circuit Require Import GateModel.
From Verif.Gates Require Import TwoModel FactorySpec.
From Verif.Levels Require Import LevelsModel LevelsSpec.
From Verif.Local Require Import QrModel QrSpec QrCore TreeModel AdaModel AdaSpec PhySpec.
From Verif.Ent Require Import BlockModel BlockSpec PassModel PassSpec.
From Verif.Compiler Require Import DispatchModel DispatchSpec WholeModel WholeSpec.
Import ListNotations.
Local Open Scope nat_scope.

Definition two_lines (dims : list nat) (q0 q1 : nat) : Prop := q0 < List.length dims /\ q1 < List.length dims /\ q0 <> q1.

(** [becomes dims p names g h e]: the passes chosen by the names (DispatchSpec.responsible, nobody) turn the gate g of the
    user into gates that do what h does, up to the error e.
    - A gate no pass is responsible for is left as it is: right if its levels are placed on themselves.
    - PhyLocQRPass and PhyLocAdaPass (given levels that are coupled and no tiny entries) take any unitary.
    - LogLocQRPass puts out the inverse of the gate.
    - LogEntQRCEXPass takes any gate on two qubits in increasing order, CEx with or without dagger included, if their
      levels are placed on themselves.
    - PhyEntQRCEXPass takes the gates of WholeSpec.implementable. *)
Inductive becomes (dims : list nat) (p : nat -> nat -> nat) (names : list string) : cgate -> cgate -> R -> Prop :=
| b_kept_one q U : nobody names SINGLE -> q < List.length dims -> unitary (nth q dims 0) U -> at_home dims p q ->
    becomes dims p names (CUser1 q (nth q dims 0) U) (CUser1 q (nth q dims 0) U) 0
| b_qr q U : responsible names SINGLE PhyLocQR -> q < List.length dims -> unitary (nth q dims 0) U ->
    becomes dims p names (CUser1 q (nth q dims 0) U) (CUser1 q (nth q dims 0) U)
      (INR (nth q dims 0) * (INR (nth q dims 0) * qr_error code_eps code_delta (nth q dims 0)))
| b_ada q U : responsible names SINGLE PhyLocAda -> q < List.length dims -> unitary (nth q dims 0) U ->
    adaptable_gate (CUser1 q (nth q dims 0) U) ->
    becomes dims p names (CUser1 q (nth q dims 0) U) (CUser1 q (nth q dims 0) U)
      (INR (nth q dims 0) * (INR (nth q dims 0) * ada_error code_near code_delta (nth q dims 0)))
| b_log_qr q U : responsible names SINGLE LogLocQR -> q < List.length dims -> unitary (nth q dims 0) U -> at_home dims p q ->
    becomes dims p names (CUser1 q (nth q dims 0) U) (CUser1 q (nth q dims 0) (madj U))
      (INR (nth q dims 0) * (INR (nth q dims 0) * qr_error code_eps code_delta (nth q dims 0)))
| b_kept_two q0 q1 op : nobody names TWO -> two_lines dims q0 q1 -> at_home dims p q0 -> at_home dims p q1 ->
    match op with TCex x dag => cex_fits (nth q0 dims 0) (nth q1 dims 0) x | TMat U => unitary (nth q0 dims 0 * nth q1 dims 0) U end ->
    becomes dims p names (CUser2 (Two q0 q1 (nth q0 dims 0) (nth q1 dims 0) op)) (CUser2 (Two q0 q1 (nth q0 dims 0) (nth q1 dims 0) op)) 0
| b_log_ent q0 q1 op : responsible names TWO LogEntQRCEX -> two_lines dims q0 q1 -> q0 < q1 -> nth q0 dims 0 = 2 -> nth q1 dims 0 = 2 ->
    at_home dims p q0 -> at_home dims p q1 ->
    match op with TCex x dag => cex_fits 2 2 x | TMat U => unitary 4 U end ->
    becomes dims p names (CUser2 (Two q0 q1 2 2 op)) (CUser2 (Two q0 q1 2 2 op)) (4 * (4 * ent_error code_eps code_delta 4))
| b_phy_ent t : responsible names TWO PhyEntQRCEX -> implementable dims p (CUser2 t) ->
    becomes dims p names (CUser2 t) (CUser2 t) (gate_error (CUser2 t))
| b_kept_many ts U : implementable dims p (CUserN ts U) -> becomes dims p names (CUserN ts U) (CUserN ts U) 0.

(** the same for a program *)
Inductive program_becomes (dims : list nat) (p : nat -> nat -> nat) (names : list string) : list cgate -> list cgate -> R -> Prop :=
| pb_nil : program_becomes dims p names [] [] 0
| pb_cons g h e l m f : becomes dims p names g h e -> program_becomes dims p names l m f -> program_becomes dims p names (g :: l) (h :: m) (e + f).
