(** C102 - C105: programs that use the decision diagram package directly. *)
From Coq Require Import List Arith Lia Reals Lra Bool Sorted.
From Verif Require Import Base.Cplx Base.Matrix Base.Radix Sim.TnModel Misim.DdModel Misim.DdSpec Misim.DdProofs Misim.DdGateProofs
  Misim.MisimModel Misim.NodeModel Misim.NodeSpec Misim.NodeShapeProofs Misim.NodeProofs Misim.CanonProofs
  Misim.SessionModel Misim.SessionSpec Misim.SessionProofs Misim.SessionReadProofs Misim.SessionCountProofs Misim.SessionRunProofs Misim.SessionMoreProofs.
Import ListNotations.
Local Open Scope nat_scope.

Section Props.
Variable dims : list nat.
Hypothesis pos : forall d, In d dims -> 0 < d.
Variable uhash : bool -> list aedge -> nat.
Variable ahash : bool -> aedge -> aedge -> nat.
Variable mhash : bool -> ref -> ref -> nat.
Variable ihash : ref -> ref -> nat.
Notation reached := (reached_session dims uhash ahash mhash ihash).
Notation step := (step 0 dims uhash ahash mhash ihash).
Notation run := (run 0 dims uhash ahash mhash ihash).

(** ** C102: every program used as it is meant runs to its end, whatever is shared and cached on the way, and everything it
    reads is what it means *)
Theorem C102_program os : used_right dims 0 os -> exists rs z, run start os = Done (rs, z) /\ all_right dims [] os rs.
Proof. intros U. destruct (run_ok dims pos uhash ahash mhash ihash os [] start (holds_start dims uhash) U) as (rs & z & E & R & _). exists rs, z. auto. Qed.
(** one more operation, from every session a program leads to *)
Theorem C102_step xs z o : reached xs z -> fits dims (length xs) o -> no_entry o ->
  exists r z', step z o = Done (r, z') /\ right dims xs o r /\ reached (after dims xs o) z'.
Proof.
  intros H F N. pose proof (reached_holds dims pos uhash ahash mhash ihash xs z H) as Hh. destruct (step_ok dims pos uhash ahash mhash ihash xs z o Hh F N) as (r & z' & E & R & _).
  exists r, z'. split; [exact E|]. split; [exact R|]. destruct H as (os & rs & U & Q & ->). exists (os ++ [o]), (rs ++ [r]).
  assert (A : forall os n, used_right dims n os -> forall xs, length xs = n -> fits dims (length (meaning dims xs os)) o -> used_right dims n (os ++ [o])).
  { clear -N. induction os as [|o' os IH]; intros n U xs L F; cbn in *; [subst n; auto|]. destruct U as (F' & N' & U). split; [exact F'|]. split; [exact N'|]. apply (IH _ U (after dims xs o')); [|exact F].
    rewrite after_length, L. reflexivity. }
  split; [apply (A os 0 U [] eq_refl F)|]. split.
  - clear -Q E. revert rs Q. generalize start. induction os as [|o' os IH]; intros z0 rs Q; cbn [SessionModel.run app] in *.
    + injection Q as <- <-. rewrite E. reflexivity.
    + destruct (step z0 o') as [[r0 z1]|x]; [|discriminate]. cbn [cbind fst snd] in *. destruct (run z1 os) as [[rs1 z2]|x] eqn:Q1; [|discriminate]. cbn [cbind fst snd] in Q. injection Q as <- <-.
      rewrite (IH z1 rs1 Q1). reflexivity.
  - generalize (@nil state). clear. induction os as [|o' os IH]; intros xs; cbn; [reflexivity|apply IH].
Qed.
(** makeBasisState refuses levels that are missing or too large, in every session *)
Theorem C102_basis_refused z levels : (exists v, v < length dims /\ (nth_error levels v = None \/ nth v dims 0 <= nth v levels 0)) ->
  step z (Basis levels) = Throw OutOfRange.
Proof.
  intros (v & Hv & B). cbn [SessionModel.step]. unfold keep, basis_m. rewrite (basis_refused dims uhash levels (length dims) 0 one_a (mem z)); [reflexivity|]. exists v. split; [lia|exact B].
Qed.

(** ** C103: innerProduct(x, y) is the sum of x conj(y), turned by twice the phase of an amplitude of y *)
Theorem C103_inner xs z j k : reached xs z -> j < length xs -> k < length xs -> exists c z', step z (Inner j k) = Done (Number c, z') /\
  ((exists p, valid dims p /\ at_state xs k p <> C0 /\ Cmul c (Cconj (at_state xs k p)) = Cmul (overlap dims (at_state xs j) (at_state xs k)) (at_state xs k p)) \/
   ((forall p, valid dims p -> at_state xs k p = C0) /\ c = C0)).
Proof. intros H. apply (inner_phase dims uhash ahash mhash ihash), (reached_holds dims pos uhash ahash mhash ihash), H. Qed.
(** so it is that sum if the amplitudes of y are real *)
Theorem C103_inner_real xs z j k : reached xs z -> j < length xs -> k < length xs -> (forall p, valid dims p -> snd (at_state xs k p) = 0%R) ->
  exists z', step z (Inner j k) = Done (Number (overlap dims (at_state xs j) (at_state xs k)), z').
Proof.
  intros H Hj Hk Re. destruct (C103_inner xs z j k H Hj Hk) as (c & z' & E & [(p & Hp & N & V)|[Z ->]]).
  - exists z'. rewrite E. do 3 f_equal. assert (Q : Cconj (at_state xs k p) = at_state xs k p) by (unfold Cconj; rewrite (Re p Hp), Ropp_0, <- (Re p Hp); destruct (at_state xs k p); reflexivity).
    rewrite Q in V. apply (Cmul_cancel (at_state xs k p)); [exact N|]. transitivity (Cmul c (at_state xs k p)); [ring|]. rewrite V. ring.
  - exists z'. rewrite E. do 3 f_equal. unfold overlap. symmetry. rewrite (psum_ext _ _ (fun _ => C0)); [apply psum_0|]. intros p Hp. rewrite (Z p Hp), Cconj_C0. ring.
Qed.
(** the fidelity is its modulus squared, always *)
Theorem C103_fidelity xs z j k : reached xs z -> j < length xs -> k < length xs ->
  exists z', step z (Fidelity j k) = Done (Real (Cnorm2 (overlap dims (at_state xs j) (at_state xs k))), z').
Proof.
  intros H Hj Hk. destruct (C102_step xs z (Fidelity j k) H (conj Hj Hk) Logic.I) as (r & z' & E & R & _). exists z'. rewrite E. destruct r; cbn in R; try contradiction. rewrite R. reflexivity.
Qed.

(** ** C104: equal states are equal edges, and the number of nodes is the number of states below *)
Theorem C104_equal xs z j k e e' : reached xs z -> j < length xs -> k < length xs -> nth_error (states z) j = Some e -> nth_error (states z) k = Some e' ->
  (e = e' <-> forall p, valid dims p -> at_state xs j p = at_state xs k p).
Proof. intros H. apply (same_edge dims uhash), (reached_holds dims pos uhash ahash mhash ihash), H. Qed.
Theorem C104_count xs z k : reached xs z -> k < length xs -> exists n, step z (Count k) = Done (Size n, z) /\ node_number dims (at_state xs k) n.
Proof.
  intros H Hk. destruct (C102_step xs z (Count k) H Hk Logic.I) as (r & z' & E & R & _). destruct r; cbn in R; try contradiction. exists n. split; [|exact R].
  rewrite E. cbn [SessionModel.step] in E. destruct (state_at z k); [|discriminate]. cbn [cbind] in E. injection E as _ <-. reflexivity.
Qed.
End Props.

(** however the states were made: two sessions, with their own hash functions, count the same for states that are the same up
    to a factor *)
Theorem C104_history dims uhash ahash mhash ihash uhash' ahash' mhash' ihash' xs z k xs' z' k' n n' : (forall d, In d dims -> 0 < d) ->
  reached_session dims uhash ahash mhash ihash xs z -> k < length xs -> reached_session dims uhash' ahash' mhash' ihash' xs' z' -> k' < length xs' ->
  proportional dims (at_state xs k) (at_state xs' k') ->
  step 0 dims uhash ahash mhash ihash z (Count k) = Done (Size n, z) -> step 0 dims uhash' ahash' mhash' ihash' z' (Count k') = Done (Size n', z') -> n = n'.
Proof.
  intros pos H Hk H' Hk' P E E'. destruct (C104_count dims pos uhash ahash mhash ihash xs z k H Hk) as (m & Q & N). destruct (C104_count dims pos uhash' ahash' mhash' ihash' xs' z' k' H' Hk') as (m' & Q' & N').
  rewrite E in Q. rewrite E' in Q'. injection Q as <-. injection Q' as <-. apply (number_same dims _ _ _ _ P N N').
Qed.

(** ** C105: matrices *)
Section Matrices.
Variable dims : list nat.
Hypothesis pos : forall d, In d dims -> 0 < d.
Variable uhash : bool -> list aedge -> nat.
Variable ahash : bool -> aedge -> aedge -> nat.
Variable mhash : bool -> ref -> ref -> nat.
Variable ihash : ref -> ref -> nat.
Notation reached := (reached_session dims uhash ahash mhash ihash).
Notation step := (step 0 dims uhash ahash mhash ihash).

(** getVectorizedMatrix lists the matrix of the gate *)
Theorem C105_matrix xs z d A c t : reached xs z -> gate_fits dims d c t -> exists v z', step z (Matrix d A c t) = Done (Numbers v, z') /\
  forall p q, valid dims p -> valid dims q -> v (undigits (rev (map (fun d => d * d) dims)) (entry true (rev dims) (rev p) (rev q))) = gate_entry A c t p q.
Proof.
  intros H F. destruct (C102_step dims pos uhash ahash mhash ihash xs z (Matrix d A c t) H F Logic.I) as (r & z' & E & R & _). destruct r; cbn in R; try contradiction. exists v, z'. auto.
Qed.
(** getValueByPath of a matrix is right in the first row *)
Theorem C105_entry_first_row xs z d A c t columns : reached xs z -> gate_fits dims d c t -> valid (rev dims) columns ->
  exists z', step z (Entry d A c t (repeat 0 (length dims)) columns) = Done (Number (gate_entry A c t (repeat 0 (length dims)) (rev columns)), z').
Proof.
  intros H F Hc. pose proof (reached_holds dims pos uhash ahash mhash ihash xs z H) as (G & _). destruct (gate_right dims pos uhash (mem z) d A c t G F) as (f & (e & s & E & G' & X & D) & O & W & V).
  cbn [SessionModel.step]. rewrite E. rewrite <- sizes_all in O. rewrite (by_entry_zero dims (heaps s true) t (length dims) e f C1 columns (le_n _) D O) by (rewrite sizes_all; exact Hc).
  cbn [cbind]. eexists. f_equal. f_equal. f_equal. rewrite sizes_all.
  assert (Rz : rev (repeat 0 (length dims)) = repeat 0 (length dims)).
  { clear. induction (length dims) as [|n IH]; [reflexivity|]. cbn [repeat rev]. rewrite IH. clear. induction n as [|n IH]; [reflexivity|]. cbn. rewrite IH. reflexivity. }
  assert (Vz : valid dims (repeat 0 (length dims))). { clear -pos. induction dims as [|d r IH]; [constructor|]. cbn. constructor; [apply pos; left; reflexivity|apply IH; intros; apply pos; right; assumption]. }
  rewrite <- (V (repeat 0 (length dims)) (rev columns) Vz) by (rewrite <- (rev_involutive dims); apply valid_rev; exact Hc). rewrite rev_involutive, Rz. ring.
Qed.
(** in every other row it fails or returns zero *)
Theorem C105_entry_other_rows xs z d A c t rows columns : reached xs z -> gate_fits dims d c t -> valid (rev dims) rows -> valid (rev dims) columns -> rows <> repeat 0 (length dims) ->
  step z (Entry d A c t rows columns) = Throw OutOfRange \/ exists z', step z (Entry d A c t rows columns) = Done (Number C0, z').
Proof.
  intros H F Hr Hc N. pose proof (reached_holds dims pos uhash ahash mhash ihash xs z H) as (G & _). destruct (gate_right dims pos uhash (mem z) d A c t G F) as (f & (e & s & E & G' & X & D) & O & W & V).
  cbn [SessionModel.step]. rewrite E. rewrite <- sizes_all in O, Hr, Hc. destruct (by_entry_other dims (heaps s true) t (length dims) e f C1 rows columns (le_n _) D O Hr Hc N) as [Q|Q]; rewrite Q; cbn [cbind]; [left; reflexivity|right; eexists; reflexivity].
Qed.
(** so reading the entries of a matrix does not work: below the top row it fails for every matrix that is not zero *)
Theorem C105_entry_refuted xs z d A c t i rows columns : reached xs z -> gate_fits dims d c t -> valid (rev dims) (i :: rows) -> valid (rev dims) columns -> 1 <= i ->
  (exists p q, valid dims p /\ valid dims q /\ gate_entry A c t p q <> C0) -> step z (Entry d A c t (i :: rows) columns) = Throw OutOfRange.
Proof.
  intros H F Hr Hc Hi (p & q & Hp & Hq & N). pose proof (reached_holds dims pos uhash ahash mhash ihash xs z H) as (G & _). destruct (gate_right dims pos uhash (mem z) d A c t G F) as (f & (e & s & E & G' & X & D) & O & W & V).
  cbn [SessionModel.step]. rewrite E. assert (L : length columns = length dims) by (rewrite (valid_length _ _ Hc); apply rev_length). pose proof F as (Ht & _).
  assert (Nw : fst f <> C0) by (intros Z; apply N; rewrite <- (V p q Hp Hq); apply ev_weight_0; exact Z). destruct (length dims) as [|n] eqn:En; [lia|].
  rewrite (by_entry_out dims (heaps s true) t n e f C1 i rows columns); [reflexivity|lia|exact D|rewrite <- En, sizes_all; exact O|exact Nw|exact Hi|]. intros ->. discriminate.
Qed.
End Matrices.

(** ** cases *)
(** a program over a qubit and a qutrit that makes an entangled state and reads it in every way *)
Definition flip : mat := fun i j => if Nat.eqb (i + j) 1 then C1 else C0.
Definition turn : mat := fun i j => if Nat.eqb i j then Ci else C0.
Definition case_program : list op :=
  [Zero; Apply 2 flip [] 0 0; Apply 3 flip [(0, 1)] 1 1; Sum 0 2; Basis [1; 2]; Inner 3 2; Fidelity 3 1; ByString 3 [49; 49]; ByLevels 3 [2; 1];
   Listed 3 4; Vector 3; Count 3; Matrix 3 flip [(0, 1)] 1].
Lemma case_dims d : In d [2; 3] -> 0 < d. Proof. intros [<-|[<-|[]]]; lia. Qed.
Lemma sorted_one (a : nat * nat) : StronglySorted (fun a b => fst a < fst b) [a]. Proof. constructor; constructor. Qed.
Example C102_case : used_right [2; 3] 0 case_program.
Proof.
  assert (F : gate_fits [2; 3] 3 [(0, 1)] 1). { split; [cbn; lia|]. split; [reflexivity|]. split; [apply sorted_one|]. intros r l [[= <- <-]|[]]. cbn. lia. }
  assert (V : forall i j, i < 2 -> j < 3 -> valid [2; 3] [i; j]) by (intros i j Hi Hj; constructor; [exact Hi|constructor; [exact Hj|constructor]]).
  refine (conj _ (conj Logic.I _)); [exact Logic.I|]. refine (conj _ (conj Logic.I _)); [split; [|lia]; split; [cbn; lia|]; split; [reflexivity|]; split; [constructor|intros r l []]|].
  refine (conj _ (conj Logic.I _)); [split; [exact F|lia]|]. refine (conj _ (conj Logic.I _)); [split; lia|]. refine (conj _ (conj Logic.I _)); [apply V; lia|].
  refine (conj _ (conj Logic.I _)); [split; lia|]. refine (conj _ (conj Logic.I _)); [split; lia|].
  refine (conj _ (conj Logic.I _)); [split; [lia|]; exists [1; 1]; split; [reflexivity|apply V; lia]|].
  refine (conj _ (conj Logic.I _)); [split; [lia|]; constructor; [lia|constructor; [lia|constructor]]|]. refine (conj _ (conj Logic.I _)); [split; [lia|cbn; lia]|].
  refine (conj _ (conj Logic.I _)); [red; lia|]. refine (conj _ (conj Logic.I _)); [red; lia|]. refine (conj _ (conj Logic.I _)); [exact F|]. exact Logic.I.
Qed.
(** the state it makes last but one is |00> + |11> *)
Example C102_case_state : let x := at_state (meaning [2; 3] [] case_program) 3 in x [0; 0] = C1 /\ x [1; 1] = C1 /\ x [0; 1] = C0 /\ x [1; 0] = C0 /\ x [1; 2] = C0.
Proof.
  cbv -[C C1 C0 Cadd Cmul]. split; [|split; [|split; [|split]]]; ring.
Qed.
Example C102_case_refused uhash ahash mhash ihash : step 0 [2; 3] uhash ahash mhash ihash start (Basis [1; 3]) = Throw OutOfRange /\ step 0 [2; 3] uhash ahash mhash ihash start (Basis [1]) = Throw OutOfRange.
Proof. split; apply C102_basis_refused; exists 1; (split; [cbn; lia|]); [right; cbn; lia|left; reflexivity]. Qed.

(** |0> and i|0> on a qubit *)
Definition turned : list op := [Zero; Apply 2 turn [] 0 0].
Lemma turned_reached uhash ahash mhash ihash : exists z, reached_session [2] uhash ahash mhash ihash [basis_state [0]; applied [2] turn [] 0 (basis_state [0])] z.
Proof.
  assert (P : forall d, In d [2] -> 0 < d) by (intros d [<-|[]]; lia).
  assert (U : used_right [2] 0 turned).
  { cbn [turned used_right fits no_entry]. split; [exact Logic.I|]. split; [exact Logic.I|]. split; [split; [|lia]; split; [cbn; lia|]; split; [reflexivity|]; split; [constructor|intros r l []]|]. split; exact Logic.I. }
  destruct (C102_program [2] P uhash ahash mhash ihash turned U) as (rs & z & E & _). exists z, turned, rs. split; [exact U|]. split; [exact E|reflexivity].
Qed.
(** innerProduct is not an inner product: the value for (|0>, i|0>) and the value for (i|0>, |0>) are both i, whereas they have
    to be conjugates of each other *)
Theorem C103_refuted uhash ahash mhash ihash : exists xs z z1 z2, reached_session [2] uhash ahash mhash ihash xs z /\
  step 0 [2] uhash ahash mhash ihash z (Inner 0 1) = Done (Number Ci, z1) /\ step 0 [2] uhash ahash mhash ihash z (Inner 1 0) = Done (Number Ci, z2) /\
  overlap [2] (at_state xs 0) (at_state xs 1) = Copp Ci /\ overlap [2] (at_state xs 1) (at_state xs 0) = Ci.
Proof.
  destruct (turned_reached uhash ahash mhash ihash) as [z H]. assert (P : forall d, In d [2] -> 0 < d) by (intros d [<-|[]]; lia).
  set (xs := [basis_state [0]; applied [2] turn [] 0 (basis_state [0])]) in *.
  assert (A0 : at_state xs 0 [0] = C1) by reflexivity. assert (A1 : at_state xs 0 [1] = C0) by reflexivity.
  assert (B0 : at_state xs 1 [0] = Ci) by (cbv -[C C1 C0 Cadd Cmul Ci]; ring). assert (B1 : at_state xs 1 [1] = C0) by (cbv -[C C1 C0 Cadd Cmul Ci]; ring).
  assert (O1 : overlap [2] (at_state xs 0) (at_state xs 1) = Copp Ci).
  { unfold overlap. cbn [psum csum]. rewrite A0, A1, B0, B1. unfold Cmul, Cconj, Cadd, Copp, Ci, C0, C1. cbn. f_equal; ring. }
  assert (O2 : overlap [2] (at_state xs 1) (at_state xs 0) = Ci).
  { unfold overlap. cbn [psum csum]. rewrite A0, A1, B0, B1. unfold Cmul, Cconj, Cadd, Copp, Ci, C0, C1. cbn. f_equal; ring. }
  assert (V : forall p, valid [2] p -> p = [0] \/ p = [1]).
  { intros p Hp. inversion Hp as [|i d p' ds Hi Hp' E1 E2]; subst. inversion Hp'; subst. destruct i as [|[|i]]; [auto|auto|lia]. }
  assert (L : length xs = 2) by reflexivity.
  destruct (C103_inner [2] P uhash ahash mhash ihash xs z 0 1 H ltac:(lia) ltac:(lia)) as (c & z1 & E1 & Q1).
  destruct (C103_inner_real [2] P uhash ahash mhash ihash xs z 1 0 H ltac:(lia) ltac:(lia)) as (z2 & E2). { intros p Hp. destruct (V p Hp) as [-> | ->]; [rewrite A0|rewrite A1]; reflexivity. }
  rewrite O2 in E2. exists xs, z, z1, z2. split; [exact H|]. split; [|auto]. rewrite E1. do 3 f_equal. destruct Q1 as [(p & Hp & N & Q)|[Z _]].
  - destruct (V p Hp) as [-> | ->]; [|rewrite B1 in N; congruence]. rewrite B0, O1 in Q. destruct c as [a b]. unfold Cmul, Cconj, Copp, Ci in *. cbn in Q. injection Q as Q1 Q2. f_equal; lra.
  - exfalso. specialize (Z [0]). rewrite B0 in Z. assert (Ci = C0) as Q by (apply Z; constructor; [lia|constructor]). unfold Ci, C0 in Q. injection Q as Q. lra.
Qed.

(** |00> + |11> has a node for the top qutrit, two for the qubit and the terminal node; a basis state has one for each register *)
Example C104_case : node_number [2; 3] (at_state (meaning [2; 3] [] case_program) 3) 4.
Proof.
  set (x := at_state (meaning [2; 3] [] case_program) 3).
  assert (V0 : x [0; 0] = C1) by (cbv -[C C1 C0 Cadd Cmul]; ring). assert (V1 : x [1; 1] = C1) by (cbv -[C C1 C0 Cadd Cmul]; ring).
  assert (Z01 : x [0; 1] = C0) by (cbv -[C C1 C0 Cadd Cmul]; ring). assert (Z02 : x [0; 2] = C0) by (cbv -[C C1 C0 Cadd Cmul]; ring). assert (Z12 : x [1; 2] = C0) by (cbv -[C C1 C0 Cadd Cmul]; ring).
  clearbody x.
  assert (One : C1 <> C0) by apply C1_neq_C0.
  exists [[]; [0]; [1]]. split; [reflexivity|]. split; [|split].
  - intros q [<-|[<-|[<-|[]]]].
    + split; [split; [cbn; lia|constructor]|]. exists [0; 0]. split; [repeat (constructor; [lia|]); constructor|]. unfold sub_state. cbn [app rev]. rewrite V0. exact One.
    + split; [split; [cbn; lia|repeat (constructor; [cbn; lia|]); constructor]|]. exists [0]. split; [repeat (constructor; [lia|]); constructor|]. unfold sub_state. cbn [app rev]. rewrite V0. exact One.
    + split; [split; [cbn; lia|repeat (constructor; [cbn; lia|]); constructor]|]. exists [1]. split; [repeat (constructor; [lia|]); constructor|]. unfold sub_state. cbn [app rev]. rewrite V1. exact One.
  - constructor; [constructor; [intros [L _]; discriminate|constructor; [intros [L _]; discriminate|constructor]]|]. constructor; [|constructor; constructor]. constructor; [|constructor]. intros [_ (c & Nc & H)]. specialize (H [0]).
    unfold sub_state in H. cbn [app rev] in H. rewrite V0, Z01 in H. apply One. rewrite H by (constructor; [lia|constructor]). ring.
  - intros q [L Vq] (p & Hp & N). cbn [length] in L. destruct q as [|j [|? q]]; [exists []|exists [j]|cbn in L; lia].
    + split; [left; reflexivity|]. split; [reflexivity|]. exists C1. split; [exact One|]. intros. ring.
    + cbn in Vq. inversion Vq as [|? ? ? ? Hj _ E1 E2]; subst. cbn [below length firstn Nat.sub] in Hp. inversion Hp as [|i d p' ds Hi Hp' E1 E2]; subst. inversion Hp'; subst. unfold sub_state in N. cbn [app rev] in N.
      assert (Hj' : j < 2). { destruct (Nat.lt_ge_cases j 2) as [Q|Q]; [exact Q|]. exfalso. apply N. destruct i as [|[|i]]; destruct j as [|[|[|j]]]; try lia; assumption. }
      split; [destruct j as [|[|j]]; [right; left; reflexivity|right; right; left; reflexivity|lia]|]. split; [reflexivity|]. exists C1. split; [exact One|]. intros. ring.
Qed.
(** getValueByPath of the flip of a qubit in row 1, column 0 fails, although the entry is 1 *)
Example C105_case uhash ahash mhash ihash : gate_entry flip [] 0 [1] [0] = C1 /\ step 0 [2] uhash ahash mhash ihash start (Entry 2 flip [] 0 [1] [0]) = Throw OutOfRange.
Proof.
  split; [reflexivity|]. apply (C105_entry_refuted [2]) with (xs := []).
  - intros d [<-|[]]; lia.
  - exists [], []. split; [exact Logic.I|]. split; reflexivity.
  - split; [cbn; lia|]. split; [reflexivity|]. split; [constructor|intros r l []].
  - constructor; [lia|constructor].
  - constructor; [lia|constructor].
  - lia.
  - exists [1], [0]. split; [constructor; [lia|constructor]|]. split; [constructor; [lia|constructor]|]. apply C1_neq_C0.
Qed.

Print Assumptions C102_program.
Print Assumptions C102_step.
Print Assumptions C102_basis_refused.
Print Assumptions C103_inner.
Print Assumptions C103_inner_real.
Print Assumptions C103_fidelity.
Print Assumptions C103_refuted.
Print Assumptions C104_equal.
Print Assumptions C104_count.
Print Assumptions C104_history.
Print Assumptions C105_matrix.
Print Assumptions C105_entry_first_row.
Print Assumptions C105_entry_other_rows.
Print Assumptions C105_entry_refuted.
