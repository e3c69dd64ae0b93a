(** What simulating a circuit on the decision diagram backend should do. *)
From Coq Require Import List ZArith Arith String Reals.
From Verif Require Import Base.Py Base.Cplx Base.Matrix Circuit.GateModel Gates.SingleModel Gates.TwoModel.
From Verif Require Import Misim.DdModel Misim.MisimModel.
Import ListNotations.
Local Open Scope nat_scope.
Local Open Scope string_scope.

(** The array of the gate object with this tag, these lines and these parameters on a register with the dimensions
    [dims] (Gates/SingleModel.v, Gates/TwoModel.v: the gate classes in Python). *)
Inductive array_of (dims : list nat) : string -> list nat -> params -> mat -> Prop :=
| A_x t p : array_of dims "x" [t] p (x_array (nth t dims 0))
| A_z t p : array_of dims "z" [t] p (z_array (nth t dims 0))
| A_h t p : array_of dims "h" [t] p (h_array (nth t dims 0))
| A_s t p : array_of dims "s" [t] p (s_array (nth t dims 0))
| A_r t p M : r_matrix (nth t dims 0) p = Ok M -> array_of dims "rxy" [t] p M
| A_rz t p M : rz_matrix (nth t dims 0) p = Ok M -> array_of dims "rz" [t] p M
| A_rh t p M : rh_matrix (nth t dims 0) p = Ok M -> array_of dims "rh" [t] p M
| A_virtrz t p : array_of dims "virtrz" [t] p (virtrz_matrix (nth t dims 0) p)
| A_cx c t p x M : cex_new p = Ok x -> cex_array (nth c dims 0) (nth t dims 0) (Nat.ltb c t) x = Ok M -> array_of dims "cx" [c; t] p M
| A_csum c t p : array_of dims "csum" [c; t] p (csum_array dims c t).

(** [i] is what the simulator reads of the gate object [g]. *)
Record reads (dims : list nat) (g : gate mat) (i : instr) : Prop := {
  rd_targets : target_lines g = map Z.of_nat (i_targets i);
  rd_inside : forall t, In t (i_targets i) -> t < List.length dims;
  rd_distinct : NoDup (i_targets i);
  rd_dims : i_dims i = map (fun t => nth t dims 0) (i_targets i);
  rd_dagger : g_dagger g = i_dag i;
  rd_controls : g_controls g = option_map (fun c => (map Z.of_nat (fst c), map Z.of_nat (snd c))) (i_controls i);
  rd_array : array_of dims (i_tag i) (i_targets i) (i_params i) (g_data g)
}.

(** The gates the simulator is made for: no controls; the (target) qudit has 2 to 7 levels; the two levels of a rotation
    ascend unless the qudit is a qubit; the level of a virtual Z and the levels of a controlled exchange exist. *)
Definition ascending (d : nat) (p : params) : Prop :=
  exists a b rest, p = PList (PInt a :: PInt b :: rest) /\ ((a < b)%Z \/ d = 2).
Definition in_scope (dims : list nat) (i : instr) : Prop :=
  let d := nth (last (i_targets i) 0) dims 0 in
  let dc := nth (hd 0 (i_targets i)) dims 0 in
  i_controls i = None /\ 2 <= d <= 7 /\
  (In (i_tag i) ["rxy"; "rz"; "rh"] -> ascending d (i_params i)) /\
  (i_tag i = "virtrz" -> exists a f, i_params i = PList [PInt a; PFloat f] /\ (0 <= a < Z.of_nat d)%Z) /\
  (i_tag i = "cx" -> exists a b l rest, i_params i = PList (PInt a :: PInt b :: PInt l :: rest) /\
                       (b < Z.of_nat d)%Z /\ (0 <= l < Z.of_nat dc)%Z).

(** Comparing node pointers: equal pointers are equal nodes. *)
Definition pointers (same : node -> node -> bool) : Prop := forall x y, same x y = true -> x = y.

(** ** noise *)

(** The lines a noise mode selects: the lines of a list; all lines the gate uses for "local" and "nonlocal"; all lines of
    the register; of a gate on two lines the first as the control, the second as the target. *)
Definition control_part (i : instr) : list nat := match i_controls i with Some (cs, _) => cs | None => [] end.
Inductive selects (dims : list nat) (i : instr) : mode -> nat -> Prop :=
| Se_lines l q : In q l -> selects dims i (Lines l) q
| Se_local q : In q (i_targets i) \/ In q (control_part i) -> selects dims i (Named "local") q
| Se_nonlocal q : In q (i_targets i) \/ In q (control_part i) -> selects dims i (Named "nonlocal") q
| Se_all q : q < List.length dims -> selects dims i (Named "all") q
| Se_control c t : i_targets i = [c; t] -> selects dims i (Named "control") c
| Se_target c t : i_targets i = [c; t] -> selects dims i (Named "target") t.

(** [e] is a flip ([x]) or a phase error on line [q] after the gate [i]: between the two levels the gate works on (for a
    virtual Z its level and the next one), of all levels for other gates. *)
Definition two_level_gate (i : instr) : Prop := In (i_tag i) ["rxy"; "rz"; "virtrz"].
Definition error_levels (i : instr) (d a b : nat) : Prop :=
  exists v0 rest, i_params i = PList (PInt (Z.of_nat v0) :: rest) /\
  (i_tag i = "virtrz" -> (v0 <> d - 1 -> a = v0 /\ b = v0 + 1) /\ (v0 = d - 1 -> a = d - 2 /\ b = d - 1)) /\
  (i_tag i <> "virtrz" -> a = v0 /\ exists rest', rest = PInt (Z.of_nat b) :: rest').
Record error_on (dims : list nat) (i : instr) (q : nat) (x : bool) (e : instr) : Prop := {
  er_targets : i_targets e = [q];
  er_dims : i_dims e = [nth q dims 0];
  er_dagger : i_dag e = false;
  er_controls : i_controls e = None;
  er_two_levels : two_level_gate i -> exists a b, error_levels i (nth q dims 0) a b /\
    let levels := [PInt (Z.of_nat a); PInt (Z.of_nat b)] in
    if x then i_tag e = "rxy" /\ i_params e = PList (levels ++ [PFloat PI; PFloat (PI / 2)])
    else i_tag e = "rz" /\ i_params e = PList (levels ++ [PFloat PI]);
  er_all_levels : ~ two_level_gate i -> i_tag e = (if x then "x" else "z") /\ i_params e = PNone
}.

(** An event with probability p happens if the random number u, uniform in [0,1), is in the last part of length p. *)
Definition happens (p u : R) : Prop := (1 - p <= u)%R.

(** The errors of one gate: for every mode in turn two random numbers, one for the flips and one for the phases; if they
    happen, one error on each line the mode selects. *)
Inductive errors_of (dims : list nat) (i : instr) (draw : nat -> R) : list (mode * option (R * R)) -> nat -> list instr -> nat -> Prop :=
| Eo_nil k : errors_of dims i draw [] k [] k
| Eo_mode m p ms k qs xs zs es k' :
    NoDup qs -> (forall q, In q qs <-> selects dims i m q) ->
    (happens (fst p) (draw k) -> Forall2 (fun q e => error_on dims i q true e) qs xs) -> (~ happens (fst p) (draw k) -> xs = []) ->
    (happens (snd p) (draw (k + 1)) -> Forall2 (fun q e => error_on dims i q false e) qs zs) -> (~ happens (snd p) (draw (k + 1)) -> zs = []) ->
    errors_of dims i draw ms (k + 2) es k' -> errors_of dims i draw ((m, Some p) :: ms) k ((xs ++ zs) ++ es) k'.
(** The noisy circuit: every gate, followed by its errors. *)
Inductive noisy (dims : list nat) (nm : noise_table) (draw : nat -> R) : list instr -> nat -> list instr -> Prop :=
| No_nil k : noisy dims nm draw [] k []
| No_gate i is k es k' out : errors_of dims i draw (find_tag nm (i_tag i)) k es k' -> noisy dims nm draw is k' out ->
    noisy dims nm draw (i :: is) k (i :: es ++ out).

(** The gates noise is made for: no controls, and the control and target modes only on gates with two lines; no line twice
    in a list of lines. *)
Definition plain (nm : noise_table) (i : instr) : Prop :=
  i_controls i = None /\ NoDup (i_targets i) /\ forall m o, In (m, o) (find_tag nm (i_tag i)) ->
    (m = Named "control" \/ m = Named "target" -> List.length (i_targets i) = 2) /\ (forall l, m = Lines l -> NoDup l).

(** The noise fits the gate: mathematical noise, on lines of the register with 2 to 7 levels, as many as the gate's line
    has if the gate works on two levels. *)
Definition fitting (dims : list nat) (nm : noise_table) (i : instr) : Prop :=
  forall m o, In (m, o) (find_tag nm (i_tag i)) ->
    (exists p, o = Some p) /\
    forall q, selects dims i m q -> q < List.length dims /\ 2 <= nth q dims 0 <= 7 /\
      (two_level_gate i -> nth q dims 0 = nth (last (i_targets i) 0) dims 0).
