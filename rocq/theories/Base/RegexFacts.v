(** Reasoning about the backtracking matcher: the path of first choices. *)
From Verif Require Import Base.Py Base.Text Base.TextFacts Base.Regex.

(** every continuation that succeeds after (s', c') makes [r] succeed from (s, c) with its result *)
Definition via (r : rx) (s : text) (c : caps) (s' : text) (c' : caps) : Prop :=
  forall X (k : text -> caps -> option X) x, k s' c' = Some x -> m r s c k = Some x.
Definition fails (r : rx) (s : text) (c : caps) : Prop :=
  forall X (k : text -> caps -> option X), m r s c k = None.

Lemma star_loop_ext X (ma : text -> caps -> (text -> caps -> option X) -> option X) :
  (forall s c k k', (forall s c, k s c = k' s c) -> ma s c k = ma s c k') ->
  forall f s c k k', (forall s c, k s c = k' s c) -> star_loop ma f s c k = star_loop ma f s c k'.
Proof.
  intros Hma f. induction f as [|f IH]; intros s c k k' Hk; cbn [star_loop]; [apply Hk|].
  rewrite (Hma s c _ (fun s' c' => if Nat.ltb (List.length s') (List.length s) then star_loop ma f s' c' k' else None)).
  - now rewrite Hk.
  - intros s' c'. destruct (Nat.ltb _ _); [now apply IH|reflexivity].
Qed.
Lemma m_ext X r : forall s c (k k' : text -> caps -> option X), (forall s c, k s c = k' s c) -> m r s c k = m r s c k'.
Proof.
  induction r as [p| |a IHa b IHb|a IHa b IHb|a IHa|n a IHa]; intros s c k k' H; cbn [m].
  - destruct s; [reflexivity|]. destruct (p a); [apply H|reflexivity].
  - apply H.
  - apply IHa. intros s' c'. now apply IHb.
  - now rewrite (IHa s c k k' H), (IHb s c k k' H).
  - now apply star_loop_ext.
  - apply IHa. intros s' c'. apply H.
Qed.
Lemma m_none X r : forall s c (k : text -> caps -> option X), (forall s c, k s c = None) -> m r s c k = None.
Proof.
  induction r as [p| |a IHa b IHb|a IHa b IHb|a IHa|n a IHa]; intros s c k H; cbn [m].
  - destruct s; [reflexivity|]. destruct (p a); [apply H|reflexivity].
  - apply H.
  - apply IHa. intros s' c'. now apply IHb.
  - now rewrite (IHa s c k H), (IHb s c k H).
  - generalize (List.length s) at 1. intros f. revert s c. induction f as [|f IH]; intros s c; cbn [star_loop]; [apply H|].
    rewrite IHa; [apply H|]. intros s' c'. destruct (Nat.ltb _ _); [apply IH|reflexivity].
  - apply IHa. intros s' c'. apply H.
Qed.
Lemma star_fuel X a : forall n s, List.length s <= n -> forall f c (k : text -> caps -> option X), List.length s <= f ->
  star_loop (m a) f s c k = star_loop (m a) (List.length s) s c k.
Proof.
  induction n as [|n IH]; intros s Hn f c k Hf.
  - destruct s; [|cbn in Hn; lia]. destruct f as [|f]; [reflexivity|]. cbn [star_loop List.length].
    rewrite m_none; [reflexivity|]. intros s' c'. destruct (Nat.ltb_spec (List.length s') 0); [lia|reflexivity].
  - destruct f as [|f].
    { destruct s; [reflexivity|cbn in Hf; lia]. }
    destruct s as [|x s].
    { cbn [star_loop List.length]. rewrite m_none; [reflexivity|]. intros s' c'. destruct (Nat.ltb_spec (List.length s') 0); [lia|reflexivity]. }
    cbn [star_loop List.length].
    rewrite (m_ext X a (x :: s) c _ (fun s' c' => if Nat.ltb (List.length s') (S (List.length s)) then star_loop (m a) (List.length s) s' c' k else None)); [reflexivity|].
    intros s' c'. destruct (Nat.ltb_spec (List.length s') (S (List.length s))) as [Hl|]; [|reflexivity].
    cbn [List.length] in Hn, Hf. rewrite (IH s') by lia. rewrite (IH s' ltac:(lia) (List.length s)) by lia. reflexivity.
Qed.

Lemma star_unfold X a s c (k : text -> caps -> option X) :
  m (Star a) s c k =
  match m a s c (fun s' c' => if Nat.ltb (List.length s') (List.length s) then m (Star a) s' c' k else None) with
  | Some x => Some x
  | None => k s c
  end.
Proof.
  cbn [m]. destruct s as [|x s].
  - cbn [List.length star_loop]. rewrite m_none; [reflexivity|]. intros s' c'. destruct (Nat.ltb_spec (List.length s') 0); [lia|reflexivity].
  - cbn [List.length star_loop].
    rewrite (m_ext X a (x :: s) c _ (fun s' c' => if Nat.ltb (List.length s') (S (List.length s)) then star_loop (m a) (List.length s') s' c' k else None)); [reflexivity|].
    intros s' c'. destruct (Nat.ltb_spec (List.length s') (S (List.length s))); [|reflexivity].
    apply (star_fuel X a (List.length s')); lia.
Qed.

Lemma m_chr X p a s c (k : text -> caps -> option X) : m (Chr p) (a :: s) c k = if p a then k s c else None.
Proof. reflexivity. Qed.
Lemma via_eps s c : via Eps s c s c.
Proof. intros X k x H. exact H. Qed.
Lemma via_chr p a s c : p a = true -> via (Chr p) (a :: s) c s c.
Proof. intros H X k x Hk. cbn [m]. now rewrite H. Qed.
Lemma via_ch a s c : via (Ch a) (a :: s) c s c.
Proof. apply via_chr. apply Ascii.eqb_refl. Qed.
Lemma via_seq a b s c s1 c1 s2 c2 : via a s c s1 c1 -> via b s1 c1 s2 c2 -> via (Seq a b) s c s2 c2.
Proof. intros Ha Hb X k x Hk. cbn [m]. apply Ha. now apply Hb. Qed.
Lemma via_alt_l a b s c s' c' : via a s c s' c' -> via (Alt a b) s c s' c'.
Proof. intros Ha X k x Hk. cbn [m]. now rewrite (Ha X k x Hk). Qed.
Lemma via_alt_r a b s c s' c' : fails a s c -> via b s c s' c' -> via (Alt a b) s c s' c'.
Proof. intros Ha Hb X k x Hk. cbn [m]. rewrite Ha. now apply Hb. Qed.
Lemma via_opt_some a s c s' c' : via a s c s' c' -> via (Opt a) s c s' c'.
Proof. apply via_alt_l. Qed.
Lemma via_opt_none a s c : fails a s c -> via (Opt a) s c s c.
Proof. intros H. apply via_alt_r; [exact H|apply via_eps]. Qed.
Lemma via_grp n a s c w s' c' : s = w ++ s' -> via a s c s' c' -> via (Grp n a) s c s' ((n, w) :: c').
Proof.
  intros E Ha X k x Hk. cbn [m]. apply Ha. unfold consumed. subst s. rewrite app_length.
  replace (List.length w + List.length s' - List.length s') with (List.length w) by lia.
  rewrite firstn_app, firstn_all, Nat.sub_diag. cbn [firstn]. rewrite app_nil_r. exact Hk.
Qed.
Lemma via_star_nil a s c : fails a s c -> via (Star a) s c s c.
Proof. intros H X k x Hk. rewrite star_unfold, H. exact Hk. Qed.
Lemma via_star_cons a s c s1 c1 s2 c2 : via a s c s1 c1 -> List.length s1 < List.length s ->
  via (Star a) s1 c1 s2 c2 -> via (Star a) s c s2 c2.
Proof.
  intros Ha Hl Hs X k x Hk. rewrite star_unfold. rewrite (Ha X _ x); [reflexivity|].
  destruct (Nat.ltb_spec (List.length s1) (List.length s)); [|lia]. now apply Hs.
Qed.
Lemma via_lits t s c : via (Lits t) (t ++ s) c s c.
Proof. induction t as [|a t IH]; cbn [Lits app]; [apply via_eps|]. eapply via_seq; [apply via_ch|exact IH]. Qed.
Lemma via_lit t s c : via (Lit t) (tx t ++ s) c s c.
Proof. apply via_lits. Qed.

Lemma fails_chr p s c : starts_not p s -> fails (Chr p) s c.
Proof. intros H X k. cbn [m]. destruct s; [reflexivity|]. cbn in H. now rewrite H. Qed.
Lemma fails_seq a b s c : fails a s c -> fails (Seq a b) s c.
Proof. intros H X k. cbn [m]. apply H. Qed.
Lemma fails_grp n a s c : fails a s c -> fails (Grp n a) s c.
Proof. intros H X k. cbn [m]. apply H. Qed.
Lemma fails_alt a b s c : fails a s c -> fails b s c -> fails (Alt a b) s c.
Proof. intros Ha Hb X k. cbn [m]. now rewrite Ha, Hb. Qed.

(** greedy repetition of a character class *)
Lemma via_class p w : forall s c, allb p w -> starts_not p s -> via (Star (Chr p)) (w ++ s) c s c.
Proof.
  induction w as [|a w IH]; intros s c Hw Hs; cbn [app].
  - apply via_star_nil. now apply fails_chr.
  - apply allb_cons in Hw as (Ha & Hw). eapply via_star_cons; [apply via_chr; exact Ha| |now apply IH]. rewrite app_length. cbn. rewrite app_length. lia.
Qed.
Lemma via_class1 p w s c : w <> [] -> allb p w -> starts_not p s -> via (Plus (Chr p)) (w ++ s) c s c.
Proof.
  intros Hne Hw Hs. destruct w as [|a w]; [congruence|]. apply allb_cons in Hw as (Ha & Hw).
  cbn [app]. eapply via_seq; [apply via_chr; exact Ha|now apply via_class].
Qed.

(** a class repetition followed by something that cannot start at any split point *)
Lemma fails_class_seq p b w : forall s c, allb p w -> starts_not p s ->
  (forall w1 w2, w = w1 ++ w2 -> fails b (w2 ++ s) c) -> fails (Seq (Star (Chr p)) b) (w ++ s) c.
Proof.
  intros s c Hw Hs Hb X k. change (m (Star (Chr p)) (w ++ s) c (fun s' c' => m b s' c' k) = None).
  revert Hw Hb. induction w as [|a w IH]; intros Hw Hb.
  - cbn [app]. rewrite star_unfold, (fails_chr p s c Hs). apply (Hb [] []); reflexivity.
  - apply allb_cons in Hw as (Ha & Hw). rewrite star_unfold. change ((a :: w) ++ s) with (a :: (w ++ s)). rewrite m_chr, Ha. cbn [List.length].
    destruct (Nat.ltb_spec (List.length (w ++ s)) (S (List.length (w ++ s)))); [|lia].
    rewrite IH; [|exact Hw|intros w1 w2 E; apply (Hb (a :: w1) w2); now rewrite E]. apply (Hb [] (a :: w)); reflexivity.
Qed.

Lemma re_match_via r s s' c : via r s [] s' c -> re_match r s = Some (s', c).
Proof. intros H. unfold re_match. now apply H. Qed.
Lemma re_match_fails r s : fails r s [] -> re_match r s = None.
Proof. intros H. apply H. Qed.
Lemma re_search_via r s s' c : via r s [] s' c -> re_search r s = Some (s', c).
Proof. intros H. destruct s; cbn [re_search]; now rewrite (re_match_via _ _ _ _ H). Qed.
