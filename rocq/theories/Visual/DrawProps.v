(** C87: the text drawing.  Specification: DrawSpec. *)
From Coq Require Import Reals Lra Lia List Arith ZArith.
From Verif.Base Require Import Py PyFacts Text TextFacts.
From Verif.Circuit Require Import GateModel.
From Verif.Visual Require Import DrawModel DrawSpec DrawProofs.
Import ListNotations.
Local Open Scope list_scope.
Local Open Scope nat_scope.

(** One row per qudit, from the first to the last, each with one sign per instruction in the order of the circuit. *)
Theorem C87_rows fmt n gates : Forall complete gates -> exists rows, List.length rows = n /\
  (forall line l, nth_error rows line = Some l -> Forall2 (sign_of fmt line) gates l) /\
  draw fmt n gates = (concat (map (fun l => row l ++ [nl]) rows), None).
Proof. intros F. exact (draw_from_rows fmt gates F n 0). Qed.
Print Assumptions C87_rows.
(** The signs can be read back: two circuits have the same drawing exactly if they have as many qudits and show the
    same signs on every line. *)
Theorem C87_readable fmt n gates n' gates' : number_format fmt -> Forall complete gates -> Forall complete gates' ->
  (draw fmt n gates = draw fmt n' gates' <->
   n = n' /\ forall line, line < n -> exists l, Forall2 (sign_of fmt line) gates l /\ Forall2 (sign_of fmt line) gates' l).
Proof. exact (draw_same fmt n gates n' gates'). Qed.
Print Assumptions C87_readable.
(** But gates on several qudits are drawn alike, on every line: the drawing does not show which lines they act on. *)
Theorem C87_lines_refuted fmt n before after g g' : g_type g <> SINGLE -> g_type g' <> SINGLE ->
  draw fmt n (before ++ g :: after) = draw fmt n (before ++ g' :: after).
Proof.
  intros N N'. apply nonlocal_same. assert (R : forall l, Forall2 (fun g g' : gate kind => g = g' \/ (not_local g /\ not_local g')) l l) by (induction l; constructor; auto).
  apply Forall2_app; [apply R|]. constructor; [right; split; assumption|apply R].
Qed.
Print Assumptions C87_lines_refuted.
(** A line a gate does not act on has the same sign as a line that a gate on several qudits acts on. *)
Theorem C87_idle_refuted fmt : exists g h line s, g_type g = SINGLE /\ ~ acts_on g line /\ g_type h = TWO /\ acts_on h line /\
  sign_of fmt line g s /\ sign_of fmt line h s.
Proof.
  exists (Gate "H2"%string SINGLE (TInt 0%Z) None false false KOther), (Gate "CSum"%string TWO (TList [0; 1]%Z) None false false KOther), 1, SNothing.
  split; [reflexivity|]. split; [intros [E|[]]; discriminate|]. split; [reflexivity|]. split; [right; left; reflexivity|].
  split; right; (split; [|reflexivity]); intros [A B]; discriminate.
Qed.
Print Assumptions C87_idle_refuted.
(** Neither does it show daggers. *)
Theorem C87_dagger_refuted fmt n before after g : 
  draw fmt n (before ++ g :: after) =
  draw fmt n (before ++ Gate (g_name g) (g_type g) (g_target g) (g_controls g) (negb (g_dagger g)) (g_long g) (g_data g) :: after).
Proof.
  apply dagger_same. assert (R : forall l, Forall2 (fun g g' : gate kind => g_type g = g_type g' /\ g_target g = g_target g' /\ g_data g = g_data g') l l) by (induction l; constructor; auto).
  apply Forall2_app; [apply R|]. constructor; [auto|apply R].
Qed.
Print Assumptions C87_dagger_refuted.
(** The two levels of a rotation are written without anything between them. *)
Theorem C87_levels_refuted fmt n theta phi :
  draw fmt n [Gate "R"%string SINGLE (TInt 0%Z) None false false (KR (Some (1, 234, theta, phi)))] =
  draw fmt n [Gate "R"%string SINGLE (TInt 0%Z) None false false (KR (Some (12, 34, theta, phi)))].
Proof.
  apply cell_same. intros line. unfold cell, is_here. cbn [g_type g_target g_data]. destruct (is_single SINGLE && (Z.of_nat line =? 0)%Z); [|reflexivity].
  reflexivity.
Qed.
Print Assumptions C87_levels_refuted.
(** A VirtRz whose parameters were refused (an integer angle, C13) ends the drawing of every circuit it is in. *)
Theorem C87_incomplete_refuted fmt n gates g line : In g gates -> g_type g = SINGLE -> g_target g = TInt (Z.of_nat line) -> line < n ->
  g_data g = KVirtRz None -> snd (draw fmt n gates) = Some AttributeError.
Proof. intros I T TG L D. apply (draw_stops fmt n gates g line); trivial. unfold complete. rewrite D. auto. Qed.
Print Assumptions C87_incomplete_refuted.
(** A circuit with five gates on two lines, drawn. *)
Definition two_places (x : R) : text := if Rle_dec x 0 then tx "0.00" else tx "3.14".
Example C87_case : number_format two_places /\
  Forall complete [Gate "R"%string SINGLE (TInt 0%Z) None false false (KR (Some (0, 1, PI, 0%R)));
    Gate "CSum"%string TWO (TList [0; 1]%Z) None false false KOther; Gate "H3"%string SINGLE (TInt 1%Z) None false false KOther] /\
  fst (draw two_places 2 [Gate "R"%string SINGLE (TInt 0%Z) None false false (KR (Some (0, 1, PI, 0%R)));
    Gate "CSum"%string TWO (TList [0; 1]%Z) None false false KOther; Gate "H3"%string SINGLE (TInt 1%Z) None false false KOther]) =
    tx "|0>-----[R01(3.14,0.00)]----MG----MG-----=||" ++ [nl] ++ tx "|0>-----MG----MG----G-----=||" ++ [nl].
Proof.
  split; [|split].
  - intros x. unfold two_places. destruct (Rle_dec x 0); repeat (apply allb_cons; split; [reflexivity|]); apply allb_nil.
  - repeat constructor.
  - unfold draw, draw_from, cells, cell, is_here. cbn [g_type g_target g_data is_single andb Z.eqb Z.of_nat Pos.of_succ_nat]. unfold two_places.
    destruct (Rle_dec PI 0) as [H|H]; [exfalso; assert (P := PI_RGT_0); lra|]. destruct (Rle_dec 0 0) as [H'|H']; [|exfalso; lra]. reflexivity.
Qed.
