(** Vocabulary for compilation from end to end (C93). *)
From Coq Require Import Reals List ZArith Sorted.
From Verif.Base Require Import Py Cplx Matrix Radix.
From Verif.Circuit Require Import GateModel.
From Verif.Gates Require Import TwoModel FactorySpec.
From Verif.Sim Require Import TnSpec.
From Verif.Levels Require Import LevelsModel LevelsSpec.
From Verif.Local Require Import QrModel QrSpec QrCore TreeModel AdaModel AdaSpec PhySpec.
From Verif.Ent Require Import BlockModel BlockSpec PassModel PassSpec.
From Verif.Compiler Require Import WholeModel.
Import ListNotations.
Local Open Scope nat_scope.

(** The device of a register: a connected energy level graph per qudit, on which logical level n of qudit i sits on
    physical level [p i n]; no phases are pending. *)
Definition device (dims : list nat) (gs : list lgraph) (p : nat -> nat -> nat) : Prop :=
  forall i, i < List.length dims -> exists g, nth_error gs i = Some g /\ laid_out (nth i dims 0) g (p i) /\ no_phases g.

(** [w] is the state [v] of the logical levels written on the physical levels: the amplitude of a basis state is found
    at the basis state with every digit replaced. *)
Definition placed_state (dims : list nat) (p : nat -> nat -> nat) (v w : vec) : Prop :=
  forall r k, r < prodl dims -> k < prodl dims ->
    (forall i, i < List.length dims -> digit dims k i = p i (digit dims r i)) -> w k = v r.

(** The user's gates for which compilation is right:
    - any unitary on one qudit;
    - a CEx without dagger flag on two qudits, in any order, with the target levels placed in their own order or
      sin phi = 0;
    - any unitary on two qubits in increasing order whose levels are placed on themselves;
    - any unitary on more qudits, which stays as it is, if their levels are placed on themselves. *)
Definition at_home (dims : list nat) (p : nat -> nat -> nat) (i : nat) : Prop := forall n, n < nth i dims 0 -> p i n = n.
Definition implementable (dims : list nat) (p : nat -> nat -> nat) (g : cgate) : Prop :=
  match g with
  | CUser1 q d U => q < List.length dims /\ d = nth q dims 0 /\ unitary d U
  | CUser2 (Two q0 q1 dc dt op) =>
      q0 < List.length dims /\ q1 < List.length dims /\ q0 <> q1 /\ dc = nth q0 dims 0 /\ dt = nth q1 dims 0 /\
      match op with
      | TCex x dag => dag = false /\ cex_fits dc dt x /\ (p q1 (cx_a x) < p q1 (cx_b x) \/ sin (cx_phi x) = 0%R)
      | TMat U => q0 < q1 /\ dc = 2 /\ dt = 2 /\ unitary 4 U /\ at_home dims p q0 /\ at_home dims p q1
      end
  | CUserN ts U => ts <> [] /\ StronglySorted lt ts /\ (forall t, In t ts -> t < List.length dims /\ at_home dims p t) /\
      unitary (prodl (sub_dims dims ts)) U
  | _ => False
  end.

(** The error of a compiled gate: rotations by less than the thresholds of the code are left out. *)
Definition gate_error (g : cgate) : R :=
  match g with
  | CUser1 _ d _ => (INR d * (INR d * qr_error code_eps code_delta d))%R
  | CUser2 (Two _ _ _ _ (TMat _)) => (4 * (4 * ent_error code_eps code_delta 4))%R
  | _ => 0%R
  end.
Definition total_error (l : list cgate) : R := fold_right (fun g e => (gate_error g + e)%R) 0%R l.

(** Two vectors differ by at most e in length. *)
Definition within (n : nat) (e : R) (v w : vec) : Prop := (sqrt (norm2 n (fun k => Csub (v k) (w k))) <= e)%R.

(** [new], run on the physical levels, does what [old] does on the logical ones, up to one phase and the error e on
    normalised states. *)
Definition implements (dims : list nat) (p : nat -> nat -> nat) (e : R) (new old : list (gate mat)) : Prop :=
  exists gamma, forall psi phi psi' phi' target, norm2 (prodl dims) psi = 1%R ->
    evolves dims psi old phi -> placed_state dims p psi psi' -> evolves dims psi' new phi' -> placed_state dims p phi target ->
    within (prodl dims) e phi' (fun k => (cis gamma * target k)%C).

(** Level O2.  Any two levels of a qudit are coupled. *)
Definition coupled_device (dims : list nat) (gs : list lgraph) : Prop :=
  forall i, i < List.length dims -> exists g, nth_error gs i = Some g /\ all_coupled (nth i dims 0) g.
(** Local gates that meet no tiny entries. *)
Definition adaptable_gate (g : cgate) : Prop :=
  match g with CUser1 _ d U => d <= 1000 /\ dust_free code_eps code_tiny d (visits d) U | _ => True end.
(** Between two local gates on a qudit there is a gate on it and another one. *)
Definition separated (l : list cgate) : Prop :=
  forall a q d U b d' U' r, l = a ++ CUser1 q d U :: b ++ CUser1 q d' U' :: r ->
  exists t, In (CUser2 t) b /\ (tw_q0 t = q \/ tw_q1 t = q).
Definition adaptive_error (g : cgate) : R :=
  match g with CUser1 _ d _ => (INR d * (INR d * ada_error code_near code_delta d))%R | _ => gate_error g end.
Definition total_adaptive (l : list cgate) : R := fold_right (fun g e => (adaptive_error g + e)%R) 0%R l.
