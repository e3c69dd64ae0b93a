(** The language of a regular expression, and the backtracking matcher is sound and complete for it:
    an expression matches at the start of a text iff some prefix of the text is in its language. *)
From Verif Require Import Base.Py Base.Text Base.Regex Base.RegexFacts.

Inductive lang : rx -> text -> Prop :=
| l_chr p a : p a = true -> lang (Chr p) [a]
| l_eps : lang Eps []
| l_seq a b u v : lang a u -> lang b v -> lang (Seq a b) (u ++ v)
| l_alt_l a b u : lang a u -> lang (Alt a b) u
| l_alt_r a b u : lang b u -> lang (Alt a b) u
| l_star_nil a : lang (Star a) []
| l_star_cons a u v : lang a u -> lang (Star a) v -> lang (Star a) (u ++ v)
| l_grp n a u : lang a u -> lang (Grp n a) u.

Lemma chr_inv p w : lang (Chr p) w -> exists a, w = [a] /\ p a = true.
Proof. inversion 1; eauto. Qed.
Lemma eps_inv w : lang Eps w -> w = [].
Proof. now inversion 1. Qed.
Lemma seq_inv a b w : lang (Seq a b) w -> exists u v, w = u ++ v /\ lang a u /\ lang b v.
Proof. inversion 1; eauto. Qed.
Lemma alt_inv a b w : lang (Alt a b) w -> lang a w \/ lang b w.
Proof. inversion 1; auto. Qed.
Lemma grp_inv n a w : lang (Grp n a) w -> lang a w.
Proof. now inversion 1. Qed.

Lemma m_sound X r : forall s c (k : text -> caps -> option X) x, m r s c k = Some x ->
  exists w s' c', s = w ++ s' /\ lang r w /\ k s' c' = Some x.
Proof.
  induction r as [p| |a IHa b IHb|a IHa b IHb|a IHa|n a IHa]; intros s c k x; cbn [m].
  - destruct s as [|h s]; [discriminate|]. destruct (p h) eqn:E; [|discriminate]. intros H. exists [h], s, c. split; [reflexivity|]. split; [now constructor|exact H].
  - intros H. exists [], s, c. split; [reflexivity|]. split; [constructor|exact H].
  - intros H. apply IHa in H as (u & s1 & c1 & -> & Hu & H). apply IHb in H as (v & s2 & c2 & -> & Hv & H).
    exists (u ++ v), s2, c2. rewrite app_assoc. split; [reflexivity|]. split; [now constructor|exact H].
  - destruct (m a s c k) as [y|] eqn:E; intros H.
    + injection H as ->. apply IHa in E as (u & s1 & c1 & -> & Hu & H). exists u, s1, c1. split; [reflexivity|]. split; [now constructor|exact H].
    + apply IHb in H as (u & s1 & c1 & -> & Hu & H). exists u, s1, c1. split; [reflexivity|]. split; [now apply l_alt_r|exact H].
  - generalize (List.length s) as f. intros f. revert s c. induction f as [|f IHf]; intros s c; cbn [star_loop].
    + intros H. exists [], s, c. split; [reflexivity|]. split; [constructor|exact H].
    + destruct (m a s c _) as [y|] eqn:E; intros H.
      * injection H as ->. apply IHa in E as (u & s1 & c1 & -> & Hu & H). destruct (Nat.ltb _ _); [|discriminate].
        apply IHf in H as (v & s2 & c2 & -> & Hv & H). exists (u ++ v), s2, c2. rewrite app_assoc. split; [reflexivity|]. split; [now constructor|exact H].
      * exists [], s, c. split; [reflexivity|]. split; [constructor|exact H].
  - intros H. apply IHa in H as (u & s1 & c1 & -> & Hu & H). exists u, s1, ((n, consumed (u ++ s1) s1) :: c1). split; [reflexivity|]. split; [now constructor|exact H].
Qed.

Lemma star_pieces a w : lang (Star a) w -> w = [] \/ exists u v, w = u ++ v /\ u <> [] /\ lang a u /\ lang (Star a) v.
Proof.
  intros H. remember (Star a) as r eqn:Er. revert Er. induction H as [| | | | | |a' u v Hu _ Hv IH|]; intros Er; try discriminate; [now left|].
  injection Er as ->. destruct u as [|h u]; [cbn; apply IH; reflexivity|]. right. exists (h :: u), v. split; [reflexivity|]. split; [discriminate|]. split; assumption.
Qed.
Lemma m_complete X r : forall w, lang r w -> forall s s' c (k : text -> caps -> option X), s = w ++ s' -> (forall c', k s' c' <> None) -> m r s c k <> None.
Proof.
  induction r as [p| |a IHa b IHb|a IHa b IHb|a IHa|n a IHa]; intros w Hw s s' c k -> Hk; cbn [m].
  - apply chr_inv in Hw as (h & -> & Hp). cbn [app]. rewrite Hp. apply Hk.
  - apply eps_inv in Hw as ->. apply Hk.
  - apply seq_inv in Hw as (u & v & -> & H1 & H3). rewrite <- app_assoc. apply (IHa u H1 _ (v ++ s')); [reflexivity|]. intros c'. apply (IHb v H3 _ s'); auto.
  - destruct (m a (w ++ s') c k) eqn:E; [discriminate|]. apply alt_inv in Hw as [H1|H1].
    + exfalso. now apply (IHa w H1 (w ++ s') s' c k).
    + now apply (IHb w H1 _ s').
  - assert (G : forall f w c, lang (Star a) w -> List.length (w ++ s') <= f -> star_loop (m a) f (w ++ s') c k <> None).
    { clear w Hw c. induction f as [|f IHf]; intros w c Hw Hl; cbn [star_loop].
      - destruct w as [|h w]; [cbn; apply Hk|cbn in Hl; lia].
      - destruct (star_pieces a w Hw) as [->|(u & v & -> & Hu & Hau & Hv)].
        + destruct (m a _ _ _); [discriminate|]. apply Hk.
        + destruct (m a ((u ++ v) ++ s') c _) eqn:E; [discriminate|]. exfalso. revert E. apply (IHa u Hau _ (v ++ s')); [symmetry; apply app_assoc|].
          intros c'. destruct u as [|h u]; [congruence|]. cbn [app List.length] in Hl |- *. rewrite !app_length in Hl.
          destruct (Nat.ltb_spec (List.length (v ++ s')) (S (List.length ((u ++ v) ++ s')))) as [_|Hge]; [|rewrite !app_length in Hge; lia].
          apply IHf; [exact Hv|]. rewrite app_length. lia. }
    apply G; [exact Hw|lia].
  - apply grp_inv in Hw. apply (IHa w Hw _ s'); [reflexivity|]. intros c'. apply Hk.
Qed.

Lemma re_match_lang r s : re_match r s <> None <-> exists w s', s = w ++ s' /\ lang r w.
Proof.
  unfold re_match. split.
  - destruct (m r s [] _) as [x|] eqn:E; [|congruence]. intros _. apply m_sound in E as (w & s' & c' & H & Hw & _). eauto.
  - intros (w & s' & -> & Hw). apply (m_complete _ r w Hw _ s'); [reflexivity|]. intros c'. discriminate.
Qed.
Lemma matches_lang r s : matches r s = true <-> exists w s', s = w ++ s' /\ lang r w.
Proof. rewrite <- re_match_lang. unfold matches. destruct (re_match r s); split; congruence. Qed.
Lemma re_search_lang r s : re_search r s <> None <-> exists pre w post, s = pre ++ w ++ post /\ lang r w.
Proof.
  split.
  - induction s as [|a s IH]; cbn [re_search]; destruct (re_match r _) as [x|] eqn:E; intros H.
    + assert (E' : re_match r [] <> None) by congruence. apply re_match_lang in E' as (w & s' & H1 & H2). exists [], w, s'. auto.
    + congruence.
    + assert (E' : re_match r (a :: s) <> None) by congruence. apply re_match_lang in E' as (w & s' & H1 & H2). exists [], w, s'. auto.
    + destruct (IH H) as (pre & w & post & -> & Hw). exists (a :: pre), w, post. auto.
  - intros (pre & w & post & -> & Hw). induction pre as [|a pre IH]; cbn [app re_search].
    + assert (E : re_match r (w ++ post) <> None) by (apply re_match_lang; eauto). destruct (w ++ post); cbn [re_search]; destruct (re_match r _); congruence.
    + destruct (re_match r _); [discriminate|exact IH].
Qed.

Lemma lang_lits t w : lang (Lits t) w <-> w = t.
Proof.
  revert w. induction t as [|a t IH]; intros w; cbn [Lits].
  - split; [apply eps_inv|intros ->; constructor].
  - split.
    + intros H. apply seq_inv in H as (u & v & -> & H1 & H2). apply IH in H2 as ->. apply chr_inv in H1 as (b & -> & Hb). apply Ascii.eqb_eq in Hb as ->. reflexivity.
    + intros ->. change (a :: t) with ([a] ++ t). constructor; [constructor; apply Ascii.eqb_refl|now apply IH].
Qed.
