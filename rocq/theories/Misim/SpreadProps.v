(** C110: the functions that share one excitation among two, three or five registers. *)
From Coq Require Import List Arith Lia Reals Bool.
From Verif Require Import Base.Cplx Base.Matrix Base.Radix Misim.DdModel Misim.DdSpec Misim.MisimModel Misim.MisimSpec Misim.SessionSpec Misim.SpreadModel Misim.SpreadSpec
  Misim.SpreadProofs.
Import ListNotations.
Local Open Scope nat_scope.

(** Whatever the state of the other registers, however many there are and wherever the lines lie: the amplitude with the
    first line up is shared equally, the amplitude with all lines at rest stays, and nothing else appears. *)
Theorem C110_shares : forall dims same lines e,
  (forall d, In d dims -> 0 < d) -> pointers same -> lines_fit dims lines -> In (length lines) [2; 3; 5] ->
  ewf (rev dims) e -> unshared dims lines e ->
  exists e', spread 0 same dims lines e = Done e' /\ ewf (rev dims) e' /\ shared dims lines e e'.
Proof.
  intros dims same lines e P S (N & I & F & R) K W U. apply spread_ok; auto. replace (nth 0 lines 0) with (hd 0 lines); [exact F|]. destruct lines; reflexivity.
Qed.
Print Assumptions C110_shares.

(** The functions are not restricted to a first register of 2, 3 or 5 levels, but with any other number of levels the state is
    lost: every amplitude becomes zero. *)
Theorem C110_other_sizes_refuted : forall dims same lines e,
  (forall d, In d dims -> 0 < d) -> pointers same -> NoDup lines -> (forall l, In l lines -> l < length dims) ->
  (forall l, In l (tl lines) -> nth l dims 0 = length lines) -> In (length lines) [2; 3; 5] -> ewf (rev dims) e ->
  1 < nth (hd 0 lines) dims 0 -> ~ In (nth (hd 0 lines) dims 0) [2; 3; 5] ->
  exists e', spread 0 same dims lines e = Done e' /\ forall p, valid dims p -> amplitude e' p = C0.
Proof.
  intros dims same lines e P S N I R K W B X. assert (E : nth 0 lines 0 = hd 0 lines) by (destruct lines; reflexivity). rewrite <- E in B, X. apply lost; auto.
Qed.
Print Assumptions C110_other_sizes_refuted.

(** Fewer lines than the function shares among: an exception, whatever the state. *)
Theorem C110_too_few : forall dims same lines e,
  (length lines < 2 -> spread2 0 same dims lines e = Throw OutOfRange) /\
  (length lines < 3 -> forall e', spread3 0 same dims lines e <> Done e') /\
  (length lines < 5 -> forall e', spread5 0 same dims lines e <> Done e').
Proof. exact too_few. Qed.
Print Assumptions C110_too_few.

(** ** concrete cases *)
(** the state with register 1 at level 1 and register 2 either at level 0 or at level 3 *)
Definition no : edge := zero_edge.
Definition rest0 : edge := (C1, Node 0 [(C1, Term); no; no]).
Definition one1 : edge := (C1, Node 1 [no; rest0]).
Definition rest2 : edge := (C1, Node 2 [one1; no; no]).
Definition mixed : edge := (C1, Node 3 [(RtoC (3 / 5), snd rest2); no; no; (RtoC (4 / 5), snd rest2)]).
Ltac diagram := repeat match goal with |- _ /\ _ => split | |- Forall _ _ => constructor | |- _ \/ _ => first [left; reflexivity | right; cbn] | |- True => exact I | |- _ => reflexivity end.
Example C110_case : forall same, pointers same -> exists e', spread 0 same [3; 2; 3; 4] [1; 0; 2] mixed = Done e' /\
  amplitude e' [1; 0; 0; 3] = Cmul (RtoC (1 / sqrt 3)) (RtoC (4 / 5)) /\
  amplitude e' [0; 0; 1; 0] = Cmul (RtoC (1 / sqrt 3)) (RtoC (3 / 5)) /\ amplitude e' [1; 1; 0; 3] = C0.
Proof.
  intros same S.
  assert (W : ewf (rev [3; 2; 3; 4]) mixed).
  { right. cbn. diagram. }
  assert (F : lines_fit [3; 2; 3; 4] [1; 0; 2]).
  { split; [repeat constructor; cbn; intuition discriminate|]. split; [intros l H; cbn in *; intuition lia|]. split; [left; reflexivity|]. intros l [<-|[<-|[]]]; reflexivity. }
  assert (U : unshared [3; 2; 3; 4] [1; 0; 2] mixed).
  { intros p Hp A. inversion Hp as [|a da p1 d1 Ha H1]; subst. inversion H1 as [|b db p2 d2 Hb H2]; subst. inversion H2 as [|c dc p3 d3 Hc H3]; subst. inversion H3 as [|d dd p4 d4 Hd H4]; subst. inversion H4; subst.
    right. unfold amplitude in A. cbn [rev app] in A.
    assert (E : c = 0 /\ b = 1 /\ a = 0).
    { do 4 (destruct d as [|d]; [do 3 (destruct c as [|c]; [do 2 (destruct b as [|b]; [do 3 (destruct a as [|a]; [first [split; [reflexivity|split; reflexivity] | exfalso; apply A; unfold ev, mixed, rest2, one1, rest0, no, zero_edge; cbn [val nth fst snd]; ring]|]); lia|]); lia|]); lia|]); lia. }
    destruct E as (-> & -> & ->). split; [reflexivity|]. intros l [<-|[<-|[<-|[]]]] N; [contradiction|reflexivity|reflexivity]. }
  destruct (C110_shares [3; 2; 3; 4] same [1; 0; 2] mixed) as (e' & E & _ & H); [intros d [<-|[<-|[<-|[<-|[]]]]]; lia|exact S|exact F|cbn; tauto|exact W|exact U|].
  exists e'. split; [exact E|]. replace (sqrt 3) with (sqrt (INR (length [1; 0; 2]))) by (f_equal; cbn; ring).
  assert (V : forall a b c d, a < 3 -> b < 2 -> c < 3 -> d < 4 -> valid [3; 2; 3; 4] [a; b; c; d]) by (intros; do 4 (apply Forall2_cons; [assumption|]); apply Forall2_nil).
  split; [|split].
  - destruct (H [1; 0; 0; 3] ltac:(apply V; lia)) as (_ & O & _). rewrite (O 0) by first [right; left; reflexivity | split; [reflexivity|intros l [<-|[<-|[<-|[]]]] N; try reflexivity; contradiction]].
    f_equal. unfold amplitude, ev, mixed, rest2, one1, rest0, no, zero_edge. cbn [rev app hd change rested val nth fst snd]. ring.
  - destruct (H [0; 0; 1; 0] ltac:(apply V; lia)) as (_ & O & _). rewrite (O 2) by first [right; right; left; reflexivity | split; [reflexivity|intros l [<-|[<-|[<-|[]]]] N; try reflexivity; contradiction]].
    f_equal. unfold amplitude, ev, mixed, rest2, one1, rest0, no, zero_edge. cbn [rev app hd change rested val nth fst snd]. ring.
  - destruct (H [1; 1; 0; 3] ltac:(apply V; lia)) as (_ & _ & Z). apply Z.
    + intros X. specialize (X 0 ltac:(cbn; tauto)). discriminate X.
    + intros u [<-|[<-|[<-|[]]]] [X Y]; [specialize (Y 0 ltac:(cbn; tauto) ltac:(lia)); discriminate Y|specialize (Y 1 ltac:(cbn; tauto) ltac:(lia)); discriminate Y|discriminate X].
Qed.
(** a first register of four levels *)
Example C110_case_lost : forall same, pointers same -> exists e', spread 0 same [4; 2] [0; 1] (C1, Node 1 [(C1, Node 0 [no; (C1, Term); no; no]); no]) = Done e' /\
  amplitude e' [1; 0] = C0 /\ amplitude e' [0; 1] = C0.
Proof.
  intros same S. destruct (C110_other_sizes_refuted [4; 2] same [0; 1] (C1, Node 1 [(C1, Node 0 [no; (C1, Term); no; no]); no])) as (e' & E & Z).
  - intros d [<-|[<-|[]]]; lia.
  - exact S.
  - repeat constructor; cbn; intuition discriminate.
  - intros l [<-|[<-|[]]]; cbn; lia.
  - intros l [<-|[]]; reflexivity.
  - cbn. tauto.
  - right. cbn. diagram.
  - cbn. lia.
  - cbn. intuition discriminate.
  - exists e'. split; [exact E|]. split; apply Z; repeat constructor.
Qed.
