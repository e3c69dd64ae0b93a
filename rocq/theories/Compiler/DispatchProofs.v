From Coq Require Import List Lia Permutation.
From Verif.Base Require Import Py PyFacts.
From Verif.Circuit Require Import CircuitModel GateModel.
From Verif.Base Require Import Cplx Matrix.
From Verif.Lanes Require Import LanesModel LanesSpec LanesProofs.
From Verif.Compiler Require Import DispatchModel DispatchSpec.
Local Open Scope list_scope.
Local Open Scope nat_scope.

Lemma gteq : forall a b, gtype_eqb a b = true <-> a = b.
Proof. destruct a, b; cbn; split; congruence. Qed.

Lemma named_iff : forall n c, dget String.eqb passes_enabled n = Some c <-> named n c.
Proof.
  intros n c. split.
  - cbn. repeat (match goal with |- context [String.eqb n ?s] => destruct (String.eqb_spec n s) as [->|] end; [intros E; injection E as <-; constructor|]).
    discriminate.
  - intros H. destruct H; reflexivity.
Qed.
Lemma named_fun : forall n c d, named n c -> named n d -> c = d.
Proof. intros n c d H K. apply named_iff in H, K. congruence. Qed.

Definition slot (c : cls) : option gtype :=
  if contains "Loc" (str_cls c) then Some SINGLE else if contains "Ent" (str_cls c) then Some TWO
  else if contains "Multi" (str_cls c) then Some MULTI else None.
Lemma slot_made : forall c t, slot c = Some t <-> made_for c t.
Proof. destruct c; intros t; cbv [slot]; vm_compute contains; cbn; intuition congruence. Qed.
Definition put (d : list (gtype * cls)) (c : cls) := match slot c with Some t => dset gtype_eqb d t c | None => d end.
Lemma choose_put : forall d n r c, named n c -> choose d (n :: r) = choose (put d c) r.
Proof.
  intros d n r c H. apply named_iff in H. cbn [choose]. rewrite H. unfold put, slot.
  destruct (contains "Loc" _); [reflexivity|]. destruct (contains "Ent" _); [reflexivity|].
  destruct (contains "Multi" _); reflexivity.
Qed.
Lemma put_same : forall d c t, made_for c t -> dget gtype_eqb (put d c) t = Some c.
Proof. intros d c t H. apply slot_made in H. unfold put. rewrite H. apply dget_dset_same. exact gteq. Qed.
Lemma put_other : forall d c t, ~ made_for c t -> dget gtype_eqb (put d c) t = dget gtype_eqb d t.
Proof.
  intros d c t H. rewrite <- slot_made in H. unfold put. destruct (slot c) as [u|]; [|reflexivity].
  apply dget_dset_other; [exact gteq|]. congruence.
Qed.
Lemma made_dec : forall c t, made_for c t \/ ~ made_for c t.
Proof. intros c t. rewrite <- slot_made. destruct (slot c) as [u|]; [|right; congruence]. destruct u, t; (left; reflexivity) || (right; congruence). Qed.

Lemma choose_known : forall names d, (exists d', choose d names = Ok d') <-> forall n, In n names -> exists c, named n c.
Proof.
  induction names as [|n r IH]; intros d.
  - split; [easy|]. intros _. exists d. reflexivity.
  - split.
    + intros [d' H] m [<-|I].
      * cbn [choose] in H. destruct (dget String.eqb passes_enabled n) as [c|] eqn:E; [|discriminate].
        exists c. apply named_iff. exact E.
      * cbn [choose] in H. destruct (dget String.eqb passes_enabled n) as [c|] eqn:E; [|discriminate].
        apply named_iff in E. eapply (proj1 (IH _)); [|exact I]. exists d'. exact H.
    + intros H. destruct (H n (or_introl eq_refl)) as [c C]. rewrite (choose_put _ _ _ _ C).
      apply IH. intros m I. apply H. right. exact I.
Qed.
Lemma choose_err : forall names d e, choose d names = Err e -> e = KeyError.
Proof.
  induction names as [|n r IH]; intros d e H; cbn [choose] in H; [discriminate|].
  destruct (dget String.eqb passes_enabled n); [|congruence]. exact (IH _ _ H).
Qed.

Lemma choose_get : forall names d d', choose d names = Ok d' -> forall t c,
  dget gtype_eqb d' t = Some c <-> responsible names t c \/ (nobody names t /\ dget gtype_eqb d t = Some c).
Proof.
  induction names as [|n r IH]; intros d d' H t c.
  - injection H as <-. split.
    + intros K. right. split; [intros m e []|exact K].
    + intros [(bf & n & af & E & _)|[_ K]]; [destruct bf; discriminate|exact K].
  - pose proof (proj1 (choose_known (n :: r) d) (ex_intro _ d' H)) as KN.
    destruct (KN n (or_introl eq_refl)) as [e E]. rewrite (choose_put _ _ _ _ E) in H.
    specialize (IH _ _ H t c). rewrite IH. split.
    + intros [(bf & m & af & Q & R & M & A)|[N K]].
      * left. exists (n :: bf), m, af. rewrite Q. repeat split; assumption.
      * destruct (made_dec e t) as [M|M].
        -- rewrite (put_same _ _ _ M) in K. injection K as <-. left. exists [], n, r. repeat split; assumption.
        -- rewrite (put_other _ _ _ M) in K. right. split; [|exact K].
           intros m x [<-|I] X; [rewrite (named_fun _ _ _ X E); exact M|exact (N m x I X)].
    + intros [(bf & m & af & Q & R & M & A)|[N K]].
      * destruct bf as [|y bf]; cbn in Q; injection Q as <- ->.
        -- right. split; [exact A|]. rewrite (named_fun _ _ _ E R). apply put_same. exact M.
        -- left. exists bf, m, af. repeat split; assumption.
      * right. split; [intros m x I X; exact (N m x (or_intror I) X)|]. rewrite put_other; [exact K|].
        apply (N n e (or_introl eq_refl) E).
Qed.
Lemma choose_some : forall names d, choose [] names = Ok d -> forall t c, dget gtype_eqb d t = Some c <-> responsible names t c.
Proof. intros names d H t c. rewrite (choose_get _ _ _ H). cbn. intuition congruence. Qed.
Lemma responsible_not_nobody : forall names t c, responsible names t c -> ~ nobody names t.
Proof. intros names t c (b & n & a & -> & N & M & _) K. apply (K n c); [apply in_elt|exact N|exact M]. Qed.
Lemma choose_none : forall names d, choose [] names = Ok d -> forall t, dget gtype_eqb d t = None <-> nobody names t.
Proof.
  intros names d H t. split.
  - intros K. pose proof (proj1 (choose_known names []) (ex_intro _ d H)) as KN.
    assert (X : forall l pre, names = pre ++ l -> (forall c, ~ responsible names t c) -> nobody l t).
    { induction l as [|n r IH]; intros pre Q NR m x I; [destruct I|].
      assert (NB : nobody r t). { apply (IH (pre ++ [n])); [rewrite <- app_assoc; exact Q|exact NR]. }
      destruct I as [<-|I]; [|exact (NB m x I)].
      intros N M. apply (NR x). exists pre, n, r. repeat split; assumption. }
    apply (X names []); [reflexivity|]. intros c C. apply (choose_some _ _ H) in C. congruence.
  - intros N. destruct (dget gtype_eqb d t) as [c|] eqn:E; [|reflexivity].
    apply (choose_some _ _ H) in E. destruct (responsible_not_nobody _ _ _ E N).
Qed.
Lemma responsible_fun : forall names t c d, (forall n, In n names -> exists x, named n x) -> responsible names t c -> responsible names t d -> c = d.
Proof.
  intros names t c d KN H K. destruct (proj2 (choose_known names []) KN) as [dd D].
  apply (choose_some _ _ D) in H, K. congruence.
Qed.

Section P.
Context {G B : Type}.
Variable gate_type : G -> gtype.
Variable lpmaps : B -> list (list nat).
Variable run_pass : cls -> bool -> B -> G -> B * res (list G).
Notation pass := (transpile_gate run_pass).
Notation compiledN names := (compiled gate_type pass (responsible names) (nobody names)).

Lemma rewrite_spec : forall names d, choose [] names = Ok d -> forall l b new b' out,
  rewrite_all gate_type run_pass d b l new = (b', Ok out) <-> exists o, out = new ++ o /\ compiledN names b l b' o.
Proof.
  intros names d D. induction l as [|g r IH]; intros b new b' out; cbn [rewrite_all].
  - split.
    + intros E. injection E as <- <-. exists []. rewrite app_nil_r. split; [reflexivity|constructor].
    + intros (o & -> & H). inversion H; subst. rewrite app_nil_r. reflexivity.
  - destruct (dget gtype_eqb d (gate_type g)) as [c|] eqn:E.
    + pose proof E as E'. apply (choose_some _ _ D) in E'.
      split.
      * destruct (pass c false b g) as [b1 [gs|e]] eqn:T; [|discriminate]. rewrite IH. intros (o & -> & H). exists (gs ++ o). rewrite app_assoc. split; [reflexivity|].
        eapply compiled_replace; eassumption.
      * intros (o & -> & H). inversion H; subst.
        -- destruct (responsible_not_nobody _ _ _ E' H3).
        -- apply (choose_some _ _ D) in H2. rewrite E in H2. injection H2 as <-. rewrite H4. apply IH.
           eexists; split; [|eassumption]; rewrite app_assoc; reflexivity.
    + pose proof E as E'. apply (choose_none _ _ D) in E'. rewrite IH. split.
      * intros (o & -> & H). exists (g :: o). rewrite <- app_assoc. split; [reflexivity|]. constructor; assumption.
      * intros (o & -> & H). inversion H; subst.
        -- eexists; split; [|eassumption]; rewrite <- app_assoc; reflexivity.
        -- destruct (responsible_not_nobody _ _ _ H2 E').
Qed.

Lemma mapping_spec : forall num dims graphs i, num <= List.length dims ->
  exists ms, mapping_loop num dims i graphs = Ok ms /\ List.length ms = Nat.min (num - i) (List.length graphs) /\
  forall k m d, nth_error ms k = Some m -> nth_error dims (i + k) = Some d ->
    exists full, nth_error graphs k = Some full /\ m = filter (fun p => p <? d) full.
Proof.
  intros num dims. induction graphs as [|m r IH]; intros i L; cbn [mapping_loop].
  - exists []. split; [reflexivity|]. split; [cbn; lia|]. intros [|k]; discriminate.
  - destruct (Nat.ltb_spec i num) as [I|I].
    + destruct (nth_error dims i) as [d|] eqn:D; [|apply nth_error_None in D; lia].
      assert (PI : pyindex dims (Z.of_nat i) = Ok d).
      { unfold pyindex. replace (Z.ltb (Z.of_nat i) 0) with false by (symmetry; apply Z.ltb_ge; lia).
        replace (0 <=? Z.of_nat i)%Z with true by (symmetry; apply Z.leb_le; lia).
        replace (Z.of_nat i <? Z.of_nat (List.length dims))%Z with true by (symmetry; apply Z.ltb_lt; lia).
        cbn [andb]. rewrite Nat2Z.id, D. reflexivity. }
      rewrite PI. cbn [bindr]. destruct (IH (S i) L) as (ms & E & LE & Q). rewrite E. cbn [bindr].
      exists (filter (fun lev => lev <? d) m :: ms). split; [reflexivity|]. split; [cbn [List.length]; lia|].
      intros [|k] mm dd K1 K2.
      * cbn in K1. injection K1 as <-. rewrite Nat.add_0_r, D in K2. injection K2 as <-. exists m. split; reflexivity.
      * cbn in K1. rewrite <- plus_n_Sm in K2. exact (Q k mm dd K1 K2).
    + destruct (IH (S i) L) as (ms & E & LE & Q). exists ms. split; [exact E|].
      assert (L0 : List.length ms = 0) by (rewrite LE; replace (num - S i) with 0 by lia; reflexivity).
      split; [rewrite L0; replace (num - i) with 0 by lia; reflexivity|].
      destruct ms; [|discriminate]. intros [|k]; discriminate.
Qed.
Lemma mappings_for : forall b (c : circuit G), num_qudits c <= List.length (dimensions c) ->
  exists ms, mappings_of lpmaps b c = Ok ms /\ mapping_for c (lpmaps b) ms.
Proof.
  intros b c L. destruct (mapping_spec (num_qudits c) (dimensions c) (lpmaps b) 0 L) as (ms & E & LE & Q).
  exists ms. split; [exact E|]. split; [rewrite Nat.sub_0_r in LE; exact LE|]. exact Q.
Qed.

Lemma set_same : forall (c : circuit G) ms l, same_registers (set_instructions (set_mapping c ms) l) c.
Proof. intros. repeat split. Qed.

Lemma compile_ok : forall b c names b' c', num_qudits c <= List.length (dimensions c) ->
  compile gate_type lpmaps run_pass b c names = (b', Ok c') ->
  (forall n, In n names -> exists k, named n k) /\ compiledN names b (instructions c) b' (instructions c') /\
  number_gates c' = Z.of_nat (List.length (instructions c')) /\ same_registers c' c /\
  exists ms, mappings c' = Some ms /\ mapping_for c (lpmaps b') ms.
Proof.
  intros b c names b' c' L H. unfold compile in H. destruct (choose [] names) as [d|] eqn:D; [|discriminate].
  destruct (rewrite_all gate_type run_pass d b (instructions c) []) as [b1 [new|]] eqn:R; [|discriminate].
  destruct (mappings_for b1 c L) as (ms & M & MF). rewrite M in H. cbn [bindr] in H. injection H as <- <-.
  apply (rewrite_spec _ _ D) in R. destruct R as (o & E & C). cbn in E. subst o.
  split; [apply (choose_known names []); eauto|]. split; [exact C|]. split; [reflexivity|]. split; [apply set_same|].
  exists ms. split; [reflexivity|exact MF].
Qed.
Lemma compile_returns : forall b c names b' out, num_qudits c <= List.length (dimensions c) ->
  (forall n, In n names -> exists k, named n k) -> compiledN names b (instructions c) b' out ->
  exists c', compile gate_type lpmaps run_pass b c names = (b', Ok c') /\ instructions c' = out.
Proof.
  intros b c names b' out L KN C. destruct (proj2 (choose_known names []) KN) as [d D].
  unfold compile. rewrite D.
  assert (R : rewrite_all gate_type run_pass d b (instructions c) [] = (b', Ok out)).
  { apply (rewrite_spec _ _ D). exists out. split; [reflexivity|exact C]. }
  rewrite R. destruct (mappings_for b' c L) as (ms & M & MF). rewrite M. cbn [bindr]. eexists. split; reflexivity.
Qed.
Lemma compile_unknown : forall b c names n, In n names -> (forall k, ~ named n k) ->
  compile gate_type lpmaps run_pass b c names = (b, Err KeyError).
Proof.
  intros b c names n I N. unfold compile. destruct (choose [] names) as [d|e] eqn:D.
  - destruct (proj1 (choose_known names []) (ex_intro _ d D) n I) as [k K]. destruct (N k K).
  - rewrite (choose_err _ _ _ D). reflexivity.
Qed.

(** Names that make no difference. *)
Lemma choose_app : forall a d r, choose d (a ++ r) = let? d' := choose d a in choose d' r.
Proof. induction a as [|n a IH]; intros d r; [reflexivity|]. rewrite <- app_comm_cons. cbn [choose]. destruct (dget String.eqb passes_enabled n); [apply IH|reflexivity]. Qed.
Lemma compile_choice : forall b c l1 l2, choose [] l1 = choose [] l2 ->
  compile gate_type lpmaps run_pass b c l1 = compile gate_type lpmaps run_pass b c l2.
Proof. intros b c l1 l2 H. unfold compile. rewrite H. reflexivity. Qed.
Lemma compile_skip : forall b c before n k after, named n k -> (forall t, ~ made_for k t) ->
  compile gate_type lpmaps run_pass b c (before ++ n :: after) = compile gate_type lpmaps run_pass b c (before ++ after).
Proof.
  intros b c before n k after N M. apply compile_choice. rewrite !choose_app.
  destruct (choose [] before) as [d|]; [|reflexivity]. cbn [bindr]. rewrite (choose_put _ _ _ _ N). f_equal.
  unfold put. destruct (slot k) as [t|] eqn:E; [|reflexivity]. apply slot_made in E. destruct (M t E).
Qed.

Lemma compile_resynth_fails : forall b c names b' c', num_qudits c <= List.length (dimensions c) ->
  responsible names SINGLE NaiveLocResynth -> (exists g, In g (instructions c) /\ gate_type g = SINGLE) ->
  compile gate_type lpmaps run_pass b c names <> (b', Ok c').
Proof.
  intros b c names b' c' L R (g & I & T) H. destruct (compile_ok _ _ _ _ _ L H) as (KN & C & _).
  clear H. revert I. induction C; intros I; [destruct I| |]; (destruct I as [<-|I]; [|tauto]).
  - rewrite T in H. exact (responsible_not_nobody _ _ _ R H).
  - rewrite T in H. rewrite (responsible_fun _ _ _ _ KN H R) in H0. discriminate H0.
Qed.

(** Meanings. *)
Lemma compiled_meaning : forall (S : Type) (eqv : S -> S -> Prop) (act : G -> S -> S) (resp : gtype -> cls -> Prop) (none : gtype -> Prop),
  (forall s, eqv s s) -> (forall a b c, eqv a b -> eqv b c -> eqv a c) -> (forall g a b, eqv a b -> eqv (act g a) (act g b)) ->
  (forall c b g b' gs, pass c false b g = (b', Ok gs) -> resp (gate_type g) c -> forall s, eqv (run_program act gs s) (act g s)) ->
  forall b l b' out, compiled gate_type pass resp none b l b' out ->
  forall s s', eqv s s' -> eqv (run_program act out s) (run_program act l s').
Proof.
  intros S eqv act resp none ER ET EA SOUND b l b' out C. induction C; intros s s' E.
  - exact E.
  - cbn. apply IHC. apply EA. exact E.
  - unfold run_program. rewrite fold_left_app. apply IHC. eapply ET; [eapply SOUND; eassumption|]. apply EA. exact E.
Qed.

Lemma translated_inv : forall who b g r b' o, translated pass who b (g :: r) b' o ->
  exists c f b1 gs out, who g c f /\ pass c f b g = (b1, Ok gs) /\ translated pass who b1 r b' out /\ o = gs ++ out.
Proof. intros who b g r b' o H. inversion H; subst. do 5 eexists. repeat split; eassumption. Qed.

Lemma split_spec : forall local l b new b' out,
  rewrite_split gate_type run_pass local b l new = (b', Ok out) <->
  exists o, out = new ++ o /\
    translated pass (fun g c f => match gate_type g with SINGLE => local g = Ok (c, f) | _ => c = PhyEntQRCEX /\ f = false end) b l b' o.
Proof.
  intros local. induction l as [|g r IH]; intros b new b' out; cbn [rewrite_split].
  - split.
    + intros E. injection E as <- <-. exists []. rewrite app_nil_r. split; [reflexivity|constructor].
    + intros (o & -> & H). inversion H; subst. rewrite app_nil_r. reflexivity.
  - assert (X : forall c f, (forall c' f', match gate_type g with SINGLE => local g = Ok (c', f') | _ => c' = PhyEntQRCEX /\ f' = false end <-> c' = c /\ f' = f) ->
      (match pass c f b g with (b'0, Ok gs) => rewrite_split gate_type run_pass local b'0 r (new ++ gs) | (b'0, Err e) => (b'0, Err e) end = (b', Ok out) <->
       exists o, out = new ++ o /\ translated pass (fun g c f => match gate_type g with SINGLE => local g = Ok (c, f) | _ => c = PhyEntQRCEX /\ f = false end) b (g :: r) b' o)).
    { intros c f CF. split.
      - destruct (pass c f b g) as [b1 [gs|e]] eqn:T; [|discriminate]. rewrite IH. intros (o & -> & H).
        exists (gs ++ o). rewrite app_assoc. split; [reflexivity|]. eapply translated_gate; [|exact T|exact H]. apply CF. split; reflexivity.
      - intros (o & -> & H). destruct (translated_inv _ _ _ _ _ _ H) as (c' & f' & b1 & gs & o' & W & T & R & ->).
        apply CF in W. destruct W as [-> ->]. rewrite T. apply IH. exists o'. rewrite app_assoc. split; [reflexivity|exact R]. }
    destruct (gate_type g) eqn:T.
    + destruct (local g) as [[c f]|e] eqn:LG.
      * apply X. intros c' f'. split; [intros E; injection E as <- <-; split; reflexivity|intros [-> ->]; reflexivity].
      * split; [discriminate|]. intros (o & -> & H). destruct (translated_inv _ _ _ _ _ _ H) as (c' & f' & b1 & gs & o' & W & _). cbn in W. rewrite T, LG in W. discriminate.
    + apply X. intros; reflexivity.
    + apply X. intros; reflexivity.
Qed.
Lemma finish_ok : forall (c : circuit G) r b' c', num_qudits c <= List.length (dimensions c) -> finish lpmaps c r = (b', Ok c') ->
  r = (b', Ok (instructions c')) /\ number_gates c' = Z.of_nat (List.length (instructions c')) /\ same_registers c' c /\
  exists ms, mappings c' = Some ms /\ mapping_for c (lpmaps b') ms.
Proof.
  intros c [b1 [new|e]] b' c' L H; cbn [finish] in H; [|discriminate].
  destruct (mappings_for b1 c L) as (ms & M & MF). rewrite M in H. cbn [bindr] in H. injection H as <- <-.
  split; [reflexivity|]. split; [reflexivity|]. split; [apply set_same|]. exists ms. split; [reflexivity|exact MF].
Qed.
Lemma finish_returns : forall (c : circuit G) b' new, num_qudits c <= List.length (dimensions c) ->
  exists c', finish lpmaps c (b', Ok new) = (b', Ok c') /\ instructions c' = new.
Proof.
  intros c b' new L. cbn [finish]. destruct (mappings_for b' c L) as (ms & M & MF). rewrite M. cbn [bindr]. eexists. split; reflexivity.
Qed.

Lemma translated_weaken : forall (who who' : G -> cls -> bool -> Prop), (forall g c f, who g c f -> who' g c f) ->
  forall b l b' o, translated pass who b l b' o -> translated pass who' b l b' o.
Proof. intros who who' W b l b' o H. induction H; [constructor|]. eapply translated_gate; eauto. Qed.
Lemma translated_meaning : forall (S : Type) (eqv : S -> S -> Prop) (act : G -> S -> S) (who : G -> cls -> bool -> Prop),
  (forall s, eqv s s) -> (forall a b c, eqv a b -> eqv b c -> eqv a c) -> (forall g a b, eqv a b -> eqv (act g a) (act g b)) ->
  (forall c f b g b' gs, pass c f b g = (b', Ok gs) -> who g c f -> forall s, eqv (run_program act gs s) (act g s)) ->
  forall b l b' out, translated pass who b l b' out ->
  forall s s', eqv s s' -> eqv (run_program act out s) (run_program act l s').
Proof.
  intros S eqv act who ER ET EA SOUND b l b' out C. induction C; intros s s' E; [exact E|].
  unfold run_program. rewrite fold_left_app. apply IHC. eapply ET; [eapply SOUND; eassumption|]. apply EA. exact E.
Qed.

Definition o0_names := ["PhyLocQRPass"%string; "PhyEntQRCEXPass"%string].
Lemma o0_known : forall n, In n o0_names -> exists k, named n k.
Proof. intros n [<-|[<-|[]]]; eexists; constructor. Qed.
Lemma o0_single : responsible o0_names SINGLE PhyLocQR.
Proof.
  exists [], "PhyLocQRPass"%string, ["PhyEntQRCEXPass"%string]. repeat split; try constructor.
  intros m d [<-|[]] N M. rewrite (named_fun _ _ _ N n_phy_ent) in M. discriminate M.
Qed.
Lemma o0_two : responsible o0_names TWO PhyEntQRCEX.
Proof. exists ["PhyLocQRPass"%string], "PhyEntQRCEXPass"%string, []. repeat split; try constructor. intros m d []. Qed.
Lemma o0_multi : nobody o0_names MULTI.
Proof.
  intros m d [<-|[<-|[]]] N M.
  - rewrite (named_fun _ _ _ N n_phy_qr) in M. discriminate M.
  - rewrite (named_fun _ _ _ N n_phy_ent) in M. discriminate M.
Qed.
Lemma o0_ok : forall b c b' c', num_qudits c <= List.length (dimensions c) ->
  compile_O0 gate_type lpmaps run_pass b c = (b', Ok c') ->
  compiled gate_type pass (fun t k => (t = SINGLE /\ k = PhyLocQR) \/ (t = TWO /\ k = PhyEntQRCEX)) (fun t => t = MULTI) b (instructions c) b' (instructions c') /\
  number_gates c' = Z.of_nat (List.length (instructions c')) /\ same_registers c' c /\
  exists ms, mappings c' = Some ms /\ mapping_for c (lpmaps b') ms.
Proof.
  intros b c b' c' L H. unfold compile_O0 in H. destruct (compile _ _ _ b c _) as [b1 [out|]] eqn:C; [|discriminate].
  destruct (compile_ok _ _ _ _ _ L C) as (KN & CO & NG & SR & _).
  destruct (mappings_for b1 c L) as (ms & M & MF). rewrite M in H. cbn [bindr] in H. injection H as <- <-.
  split; [|split; [exact NG|split; [exact SR|exists ms; split; [reflexivity|exact MF]]]].
  change (instructions (set_mapping out ms)) with (instructions out).
  clear -CO KN. induction CO; [constructor| |].
  - constructor; [|exact IHCO]. destruct (gate_type g); [| |reflexivity].
    + destruct (responsible_not_nobody _ _ _ o0_single H).
    + destruct (responsible_not_nobody _ _ _ o0_two H).
  - eapply compiled_replace; [|exact H0|exact IHCO]. destruct (gate_type g).
    + left. split; [reflexivity|]. exact (responsible_fun _ _ _ _ KN H o0_single).
    + right. split; [reflexivity|]. exact (responsible_fun _ _ _ _ KN H o0_two).
    + destruct (responsible_not_nobody _ _ _ H o0_multi).
Qed.

Definition o1_who (gt : G -> gtype) (g : G) (c : cls) (f : bool) : Prop :=
  f = false /\ ((gt g = SINGLE /\ c = PhyLocQR) \/ (gt g <> SINGLE /\ c = PhyEntQRCEX)).
Lemma o1_ok : forall resynth b c b' c', num_qudits c <= List.length (dimensions c) ->
  compile_O1 gate_type lpmaps run_pass resynth b c = (b', Ok c') ->
  exists l, resynth (instructions c) = Ok l /\
  translated pass (fun g k f => f = false /\ ((gate_type g = SINGLE /\ k = PhyLocQR) \/ (gate_type g <> SINGLE /\ k = PhyEntQRCEX))) b l b' (instructions c') /\
  number_gates c' = Z.of_nat (List.length (instructions c')) /\ same_registers c' c /\
  exists ms, mappings c' = Some ms /\ mapping_for c (lpmaps b') ms.
Proof.
  intros resynth b c b' c' L H. unfold compile_O1 in H. destruct (resynth (instructions c)) as [l|]; [|discriminate].
  destruct (mappings_for b c L) as (ms0 & M0 & _). rewrite M0 in H. exists l. split; [reflexivity|].
  apply finish_ok in H; [|exact L]. destruct H as (R & NG & SR & ms & M & MF). apply split_spec in R.
  destruct R as (o & E & T). cbn in E. subst o. split; [|split; [exact NG|split]].
  - eapply translated_weaken; [|exact T]. intros g k f W. cbn in W. destruct (gate_type g) eqn:Q.
    + injection W as <- <-. split; [reflexivity|]. left. split; [reflexivity|reflexivity].
    + destruct W as [-> ->]. split; [reflexivity|]. right. split; [discriminate|reflexivity].
    + destruct W as [-> ->]. split; [reflexivity|]. right. split; [discriminate|reflexivity].
  - exact SR.
  - exists ms. split; [exact M|exact MF].
Qed.
Lemma o2_ok : forall lanes b c b' c', num_qudits c <= List.length (dimensions c) ->
  compile_O2 gate_type lpmaps run_pass lanes b c = (b', Ok c') ->
  exists next, lanes = Ok next /\
  translated pass (fun g k f => (gate_type g = SINGLE /\ k = PhyLocAda /\ next g = Ok f) \/ (gate_type g <> SINGLE /\ k = PhyEntQRCEX /\ f = false)) b (instructions c) b' (instructions c') /\
  number_gates c' = Z.of_nat (List.length (instructions c')) /\ same_registers c' c /\
  exists ms, mappings c' = Some ms /\ mapping_for c (lpmaps b') ms.
Proof.
  intros [next|e] b c b' c' L H; [|discriminate]. exists next. split; [reflexivity|]. cbn [compile_O2] in H.
  apply finish_ok in H; [|exact L]. destruct H as (R & NG & SR & ms & M & MF). apply split_spec in R.
  destruct R as (o & E & T). cbn in E. subst o. split; [|split; [exact NG|split]].
  - eapply translated_weaken; [|exact T]. intros g k f W. cbn in W. destruct (gate_type g) eqn:Q.
    + destruct (next g) as [x|]; [|discriminate]. cbn [bindr] in W. injection W as <- <-. left. repeat split; reflexivity.
    + destruct W as [-> ->]. right. repeat split; discriminate.
    + destruct W as [-> ->]. right. repeat split; discriminate.
  - exact SR.
  - exists ms. split; [exact M|exact MF].
Qed.
End P.

(** Mappings *)
Lemma filter_ltb_perm : forall l n d, Permutation l (seq 0 n) -> d <= n ->
  Permutation (filter (fun p => p <? d) l) (seq 0 d).
Proof.
  intros l n d P D. apply NoDup_Permutation.
  - apply NoDup_filter. eapply Permutation_NoDup; [symmetry; exact P|apply seq_NoDup].
  - apply seq_NoDup.
  - intros x. rewrite filter_In, in_seq. rewrite Nat.ltb_lt. split.
    + intros [_ H]. lia.
    + intros [_ H]. split; [|lia]. eapply Permutation_in; [symmetry; exact P|]. apply in_seq. lia.
Qed.
Lemma filter_ltb_id : forall l d, (forall x, In x l -> x < d) -> filter (fun p => p <? d) l = l.
Proof.
  induction l as [|a l IH]; intros d H; [reflexivity|]. cbn [filter]. assert (A : a <? d = true) by (apply Nat.ltb_lt; apply H; left; reflexivity).
  rewrite A. f_equal. apply IH. intros x X. apply H. right. exact X.
Qed.
Lemma optimisations_ignored : forall (G B : Type) (gate_type : G -> gtype) lpmaps run_pass (b : B) (c : circuit G) before n after,
  n = "ZPropagationOptPass"%string \/ n = "ZRemovalOptPass"%string ->
  compile gate_type lpmaps run_pass b c (before ++ n :: after) = compile gate_type lpmaps run_pass b c (before ++ after).
Proof.
  intros G B gt lp rp b c before n after [->| ->]; [exact (compile_skip gt lp rp b c before _ _ after n_zprop (fun t F => F))|exact (compile_skip gt lp rp b c before _ _ after n_zrem (fun t F => F))].
Qed.
Lemma controlled_O1 : forall (B : Type) lpmaps run_pass (b : B) (c : circuit (obj mat)) fresh o t,
  In o (instructions c) -> local o = false -> g_target (snd o) = TInt t ->
  compile_O1 (fun o => g_type (snd o)) lpmaps run_pass (resynth (dimensions c) fresh) b c = (b, Err TypeError).
Proof.
  intros B lp rp b c fresh o t I L T. assert (E : @new_lanes mat (@instructions (nat * gate mat) c) = Err TypeError) by exact (@controlled_fails mat (instructions c) o t I L T). unfold compile_O1, resynth. rewrite E. reflexivity.
Qed.
Lemma controlled_O2 : forall (B : Type) lpmaps run_pass (b : B) (c : circuit (obj mat)) o t,
  In o (instructions c) -> local o = false -> g_target (snd o) = TInt t ->
  compile_O2 (fun o => g_type (snd o)) lpmaps run_pass
    (let? x := new_lanes (instructions c) in Ok (fun o => next_is_local x (fst o))) b c = (b, Err TypeError).
Proof.
  intros B lp rp b c o t I L T. assert (E : @new_lanes mat (@instructions (obj mat) c) = Err TypeError) by exact (@controlled_fails mat (instructions c) o t I L T). unfold compile_O2. rewrite E. reflexivity.
Qed.
Lemma mapping_perm : forall (G : Type) (c : circuit G) graphs ms i m full n d, mapping_for c graphs ms ->
  nth_error ms i = Some m -> nth_error (dimensions c) i = Some d -> nth_error graphs i = Some full ->
  Permutation full (seq 0 n) -> d <= n -> Permutation m (seq 0 d).
Proof.
  intros G c graphs ms i m full n d H M D F P L. destruct (proj2 H i m d M D) as (full' & F' & ->). rewrite F in F'. injection F' as <-. exact (filter_ltb_perm full n d P L).
Qed.
Lemma mapping_fit : forall (G : Type) (c : circuit G) graphs ms i m full d, mapping_for c graphs ms ->
  nth_error ms i = Some m -> nth_error (dimensions c) i = Some d -> nth_error graphs i = Some full ->
  Permutation full (seq 0 d) -> m = full.
Proof.
  intros G c graphs ms i m full d H M D F P. destruct (proj2 H i m d M D) as (full' & F' & ->). rewrite F in F'. injection F' as <-. apply filter_ltb_id. intros x X. apply (Permutation_in x P) in X. apply in_seq in X. lia.
Qed.
Lemma mapped_qudits : forall (G : Type) (c : circuit G) graphs ms i, mapping_for c graphs ms ->
  (exists m, nth_error ms i = Some m) <-> i < num_qudits c /\ i < List.length graphs.
Proof.
  intros G c graphs ms i [L _]. split.
  - intros [m M]. assert (X : i < List.length ms) by (apply nth_error_Some; congruence). lia.
  - intros [A B]. destruct (nth_error ms i) as [m|] eqn:M; [exists m; reflexivity|]. apply nth_error_None in M. lia.
Qed.
Lemma larger_graph : exists (c : circuit unit) graphs ms full m, mapping_for c graphs ms /\
  nth_error graphs 0 = Some full /\ Permutation full (seq 0 3) /\ nth_error (dimensions c) 0 = Some 2 /\
  nth_error ms 0 = Some m /\ nth_error full 0 = Some 2 /\ nth_error m 0 = Some 0.
Proof.
  exists (fst (circuit_of_dims 1 (Some [2]))), [[2; 0; 1]], [[0; 1]], [2; 0; 1], [0; 1].
  repeat split.
  - intros [|[|i]] m d M D; cbn in M, D; try discriminate. injection M as <-. injection D as <-. exists [2; 0; 1]. split; reflexivity.
  - cbn. apply perm_trans with [0; 2; 1]; [constructor|]. apply perm_skip. constructor.
Qed.
