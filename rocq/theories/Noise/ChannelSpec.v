(** The channels that the random insertion of gates realises on one qudit. *)
From Coq Require Import Reals.
From Verif.Base Require Import Py Cplx Matrix.
From Verif.Gates Require Import SingleModel.
From Verif.Noise Require Import NoiseModel InsertModel.
Local Open Scope list_scope.

(** The matrix of an inserted gate on a qudit of dimension d (noisez is a virtual rotation by pi). *)
Definition ins_matrix (d : nat) (i : inserted) : mat :=
  match i with
  | IX _ => x_array d
  | IZ _ => z_array d
  | INoiseX _ a b => noisex_array d (Z.to_nat a) (Z.to_nat b)
  | INoiseY _ a b => noisey_array d (Z.to_nat a) (Z.to_nat b)
  | INoiseZ _ l => virtrz_matrix d (PList [PInt l; PFloat PI])
  end.
(** K rho K^dagger *)
Definition conjugate (d : nat) (K rho : mat) : mat := mmul d (mmul d K rho) (madj K).
(** A density matrix after the gates of a list, in order. *)
Definition evolve (d : nat) (l : list inserted) (rho : mat) : mat := fold_left (fun r i => conjugate d (ins_matrix d i) r) l rho.
(** The mixture of n outcomes with probabilities ps. *)
Definition mixture (d n : nat) (ps : list R) (outs : nat -> list inserted) (rho : mat) : mat :=
  fun i j => csum n (fun o => Cmul (RtoC (nth o ps 0%R)) (evolve d (outs o) rho i j)).
Definition trace (d : nat) (rho : mat) : C := csum d (fun i => rho i i).
(** (1 - p) rho + p tr(rho) I/d *)
Definition depolarized (d : nat) (p : R) (rho : mat) : mat :=
  fun i j => Cadd (Cmul (RtoC (1 - p)) (rho i j)) (if Nat.eqb i j then Cmul (RtoC (p / INR d)) (trace d rho) else C0).
(** The same inside the span of two levels. *)
Definition depolarized_pair (a b : nat) (p : R) (rho : mat) : mat :=
  fun i j => Cadd (Cmul (RtoC (1 - p)) (rho i j))
    (if (Nat.eqb i j && (Nat.eqb i a || Nat.eqb i b))%bool then Cmul (RtoC (p / 2)) (Cadd (rho a a) (rho b b)) else C0).
Definition supported_on (d a b : nat) (rho : mat) : Prop :=
  forall i j, (i < d)%nat -> (j < d)%nat -> (i <> a /\ i <> b) \/ (j <> a /\ j <> b) -> rho i j = C0.
(** Coherences with level l shrink by 1 - 2 p. *)
Definition dephased (l : nat) (p : R) (rho : mat) : mat :=
  fun i j => if Bool.eqb (Nat.eqb i l) (Nat.eqb j l) then rho i j else Cmul (RtoC (1 - 2 * p)) (rho i j).
