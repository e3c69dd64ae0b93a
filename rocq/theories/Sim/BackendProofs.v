From Coq Require Import Ascii String.
From Verif.Base Require Import Py PyFacts.
From Verif.Sim Require Import BackendModel BackendSpec.
Local Open Scope list_scope.

Definition eqs := String.eqb_eq.

(** text search *)
Fixpoint contains (p k : string) : bool :=
  String.prefix p k || match k with String _ r => contains p r | EmptyString => false end.
Lemma prefix_app p k : String.prefix p k = true <-> exists b, k = (p ++ b)%string.
Proof.
  revert k. induction p as [| c p IH]; intros k.
  - split; [intros _; now exists k | intros _; now destruct k].
  - destruct k as [| c' k]; cbn [String.prefix].
    + split; [discriminate | intros [b H]; discriminate H].
    + destruct (ascii_dec c c') as [-> | N].
      * rewrite IH. split; intros [b H]; exists b; [now rewrite H | now injection H].
      * split; [discriminate | intros [b H]; now injection H as -> _].
Qed.
Lemma contains_spec p k : contains p k = true <-> occurs_in p k.
Proof.
  unfold occurs_in. revert p. induction k as [| c k IH]; intros p.
  - cbn [contains]. rewrite orb_false_r, prefix_app. split.
    + intros [b H]. now exists EmptyString, b.
    + intros (a & b & H). destruct a; [now exists b | discriminate H].
  - cbn [contains]. rewrite orb_true_iff, prefix_app, IH. split.
    + intros [[b H] | (a & b & H)]; [now exists EmptyString, b | exists (String c a), b; now rewrite H].
    + intros (a & b & H). destruct a as [| c' a]; [left; now exists b | right]. injection H as -> H. now exists a, b.
Qed.

Section P.
Variable search : string -> string -> res bool.

Lemma matching_app_ok p : forall keys bs, map (search p) keys = map Ok bs ->
  matching search p keys = Ok (map fst (filter snd (combine keys bs))).
Proof.
  induction keys as [| k r IH]; intros [| b bs] H; try discriminate H; [reflexivity |].
  cbn [map] in H. injection H as H1 H2. cbn [matching]. rewrite H1. cbn [bindr]. rewrite (IH _ H2). cbn [bindr combine filter snd].
  now destruct b.
Qed.
Lemma matching_inv p : forall keys ms, matching search p keys = Ok ms ->
  exists bs, map (search p) keys = map Ok bs /\ ms = map fst (filter snd (combine keys bs)).
Proof.
  induction keys as [| k r IH]; intros ms H; cbn [matching] in H; [injection H as <-; now exists [] |].
  destruct (search p k) as [b | e] eqn:S; [| discriminate H]. cbn [bindr] in H.
  destruct (matching search p r) as [ms' | e] eqn:M; [| discriminate H]. cbn [bindr] in H. injection H as <-.
  destruct (IH _ eq_refl) as (bs & E & ->). exists (b :: bs). cbn [map]. rewrite S, E. split; [reflexivity |].
  cbn [combine filter snd]. now destruct b.
Qed.
Lemma matching_In p keys ms : matching search p keys = Ok ms -> forall k, In k ms <-> In k keys /\ search p k = Ok true.
Proof.
  revert ms. induction keys as [| k0 r IH]; intros ms H k; cbn [matching] in H; [injection H as <-; cbn; tauto |].
  destruct (search p k0) as [b | e] eqn:S; [| discriminate H]. cbn [bindr] in H.
  destruct (matching search p r) as [ms' | e] eqn:M; [| discriminate H]. cbn [bindr] in H. injection H as <-.
  specialize (IH _ eq_refl k). destruct b; cbn [In]; rewrite IH; split.
  - intros [-> | [A B]]; auto.
  - intros [[-> | A] B]; auto.
  - intros [A B]; auto.
  - intros [[-> | A] B]; [congruence | auto].
Qed.
Lemma matching_ok p keys : (forall k, In k keys -> exists b, search p k = Ok b) -> exists ms, matching search p keys = Ok ms.
Proof.
  induction keys as [| k r IH]; intros H; [now exists [] |]. destruct (H k (or_introl eq_refl)) as [b S].
  destruct IH as [ms M]; [intros k' I; apply H; now right |]. cbn [matching]. rewrite S, M. cbn [bindr]. eauto.
Qed.
Lemma matching_all_ok p keys ms : matching search p keys = Ok ms -> forall k, In k keys -> exists b, search p k = Ok b.
Proof.
  revert ms. induction keys as [| k0 r IH]; intros ms H k I; [destruct I |]. cbn [matching] in H.
  destruct (search p k0) as [b | e] eqn:S; [| discriminate H]. cbn [bindr] in H.
  destruct (matching search p r) as [ms' | e] eqn:M; [| discriminate H]. destruct I as [<- | I]; eauto.
Qed.
Lemma matching_NoDup p keys ms : NoDup keys -> matching search p keys = Ok ms -> NoDup ms.
Proof.
  revert ms. induction keys as [| k0 r IH]; intros ms N H; cbn [matching] in H; [injection H as <-; constructor |].
  destruct (search p k0) as [b | e] eqn:S; [| discriminate H]. cbn [bindr] in H.
  destruct (matching search p r) as [ms' | e] eqn:M; [| discriminate H]. cbn [bindr] in H. injection H as <-.
  inversion N; subst. specialize (IH _ H2 eq_refl). destruct b; [| assumption]. constructor; [| assumption].
  intros I. apply (matching_In p r ms' M) in I. tauto.
Qed.

Lemma get_backend_iff reg p fields b : NoDup (dkeys reg) ->
  get_backend search reg (Some p) fields = Ok b <->
  exists k c, In (k, c) reg /\ b = init c fields /\ forall k', In k' (dkeys reg) -> search p k' = Ok (String.eqb k' k).
Proof.
  intros N. cbn [get_backend]. split.
  - destruct (matching search p (dkeys reg)) as [ms | e] eqn:M; [| discriminate]. cbn [bindr].
    destruct ms as [| k [| k2 r]]; try discriminate. destruct (dget String.eqb reg k) as [c |] eqn:G; [| discriminate].
    intros H. injection H as <-. exists k, c. split; [now apply (dget_In String.eqb eqs) | split; [reflexivity |]].
    intros k' I. destruct (matching_all_ok _ _ _ M k' I) as [[|] S]; rewrite S; f_equal; symmetry.
    + apply eqs. assert (J : In k' [k]) by (apply (matching_In _ _ _ M); now split). destruct J as [J | []]. now symmetry.
    + apply String.eqb_neq. intros ->. assert (J : In k [k]) by now left. apply (matching_In _ _ _ M) in J. destruct J. congruence.
  - intros (k & c & I & -> & H). destruct (matching_ok p (dkeys reg)) as [ms M]; [intros k' I'; eauto |].
    rewrite M. cbn [bindr]. assert (K : In k (dkeys reg)) by (apply in_map_iff; now exists (k, c)).
    assert (A : forall x, In x ms -> x = k).
    { intros x J. apply (matching_In _ _ _ M) in J. destruct J as [J1 J2]. rewrite (H _ J1) in J2. injection J2 as J2. now apply eqs. }
    assert (B : In k ms). { apply (matching_In _ _ _ M). split; [assumption |]. rewrite (H _ K). now rewrite String.eqb_refl. }
    pose proof (matching_NoDup _ _ _ N M) as D. destruct ms as [| x [| y r]]; [destruct B | | ].
    + rewrite <- (A x (or_introl eq_refl)) in *. clear K B. assert (G : dget String.eqb reg x = Some c) by (now apply (dget_complete String.eqb eqs)).
      now rewrite G.
    + exfalso. inversion D; subst. apply H2. rewrite (A x (or_introl eq_refl)), (A y (or_intror (or_introl eq_refl))). now left.
Qed.

Lemma get_backend_none_matches reg p fields : (forall k, In k (dkeys reg) -> search p k = Ok false) ->
  get_backend search reg (Some p) fields = Err ValueError.
Proof.
  intros H. cbn [get_backend]. destruct (matching_ok p (dkeys reg)) as [ms M]; [eauto |]. rewrite M. cbn [bindr].
  destruct ms as [| k r]; [reflexivity |]. exfalso. assert (J : In k (k :: r)) by now left.
  apply (matching_In _ _ _ M) in J. destruct J as [J1 J2]. rewrite (H _ J1) in J2. discriminate J2.
Qed.
Lemma get_backend_ambiguous reg p fields k k' : (forall x, In x (dkeys reg) -> exists b, search p x = Ok b) ->
  In k (dkeys reg) -> In k' (dkeys reg) -> k <> k' -> search p k = Ok true -> search p k' = Ok true ->
  get_backend search reg (Some p) fields = Err ValueError.
Proof.
  intros H I I' N S S'. cbn [get_backend]. destruct (matching_ok p (dkeys reg) H) as [ms M]. rewrite M. cbn [bindr].
  assert (A : In k ms) by (apply (matching_In _ _ _ M); now split).
  assert (B : In k' ms) by (apply (matching_In _ _ _ M); now split).
  destruct ms as [| x [| y r]]; [reflexivity | | reflexivity]. exfalso. destruct A as [A | []], B as [B | []]. congruence.
Qed.
Lemma get_backend_listed reg p fields : NoDup (dkeys reg) ->
  ((exists b, get_backend search reg (Some p) fields = Ok b) <-> exists k, backends search reg (Some p) = Ok [k]).
Proof.
  intros N. cbn [get_backend backends]. destruct (matching search p (dkeys reg)) as [ms | e] eqn:M; cbn [bindr].
  - split; [intros [b H] | intros [k H]; injection H as ->].
    + destruct ms as [| k [| k2 r]]; try discriminate H. now exists k.
    + assert (K : In k (dkeys reg)) by (apply (matching_In _ _ _ M k); now left).
      apply in_map_iff in K. destruct K as ([k0 c] & E & I). cbn in E. subst k0.
      rewrite (dget_complete String.eqb eqs reg k c N I). eauto.
  - split; intros [x H]; discriminate H.
Qed.
End P.

Lemma registry_NoDup : NoDup (dkeys registry).
Proof. cbn. repeat constructor; cbn; intuition discriminate. Qed.

Lemma literal_name p : forallb (fun c => negb (existsb (Ascii.eqb c) meta)) (list_ascii_of_string p) = true -> literal p.
Proof.
  intros H c I J. rewrite forallb_forall in H. specialize (H c I). apply negb_true_iff in H.
  enough (existsb (Ascii.eqb c) meta = true) by congruence. apply existsb_exists. exists c. split; [assumption | now apply Ascii.eqb_eq].
Qed.

Lemma search_text search p k : finds_literals search -> literal p -> search p k = Ok (contains p k).
Proof.
  intros F L. destruct (F p k L) as (b & -> & H). f_equal. rewrite <- contains_spec in H. destruct b, (contains p k); try reflexivity.
  - symmetry. now apply H.
  - now apply H.
Qed.

Lemma registry_self search fields : finds_literals search ->
  forall k c, In (k, c) registry -> get_backend search registry (Some k) fields = Ok (init c fields).
Proof.
  intros F k c I. apply get_backend_iff; [exact registry_NoDup |]. exists k, c. split; [assumption |]. split; [reflexivity |].
  intros k' I'. assert (L : literal k) by (apply literal_name; cbn in I; intuition (try (injection H as <- <-; reflexivity)); injection H0 as <- <-; reflexivity).
  rewrite (search_text _ _ _ F L). f_equal.
  cbn in I, I'. destruct I as [I | [I | [I | [I | [I | [I | []]]]]]]; injection I as <- <-;
  destruct I' as [I | [I | [I | [I | [I | [I | []]]]]]]; subst k'; reflexivity.
Qed.

Lemma registry_text search p fields b : finds_literals search -> literal p ->
  get_backend search registry (Some p) fields = Ok b -> exists k c, In (k, c) registry /\ b = init c fields /\ occurs_in p k.
Proof.
  intros F L H. apply get_backend_iff in H; [| exact registry_NoDup]. destruct H as (k & c & I & -> & H). exists k, c. split; [assumption |].
  split; [reflexivity |]. apply contains_spec. specialize (H k ltac:(apply in_map_iff; now exists (k, c))).
  rewrite (search_text _ _ _ F L), String.eqb_refl in H. now injection H.
Qed.

Lemma name_attribute search k fields fields' : finds_literals search ->
  get_backend search registry (b_name (init k fields)) fields' = Err ValueError.
Proof.
  intros F. destruct k; try reflexivity;
  (cbn [init set_noise b_name base_init]; apply get_backend_none_matches; intros k I;
   rewrite (search_text _ _ _ F) by (now apply literal_name); f_equal;
   cbn in I; destruct I as [I | [I | [I | [I | [I | [I | []]]]]]]; subst k; reflexivity).
Qed.

(** options *)
Lemma dget_update o fields k : dget String.eqb (update o fields) k = last_given fields k (dget String.eqb o k).
Proof.
  revert o. induction fields as [| [k' v] r IH]; intros o; [reflexivity |].
  change (update o ((k', v) :: r)) with (update (dset String.eqb o k' v) r). rewrite IH. cbn [last_given]. f_equal.
  destruct (String.eqb k k') eqn:E.
  - apply eqs in E. subst. apply (dget_dset_same String.eqb eqs).
  - apply (dget_dset_other String.eqb eqs). intros ->. rewrite String.eqb_refl in E. discriminate.
Qed.

Lemma documented_not_attr k : In k documented -> hasattr_dict k = false.
Proof. cbn [In documented]. intros H. repeat (destruct H as [<- | H]; [reflexivity |]). destruct H. Qed.

Lemma set_options_documented b fields k v : In (k, v) fields -> In k documented -> set_options b fields = (b, Some AttributeError).
Proof.
  intros I D. unfold set_options. replace (forallb _ fields) with false; [reflexivity |]. symmetry. apply not_true_iff_false.
  intros F. rewrite forallb_forall in F. specialize (F _ I). cbn [fst] in F. rewrite documented_not_attr in F by assumption. discriminate.
Qed.
Lemma last_given_absent fields k before : ~ In k (map fst fields) -> last_given fields k before = before.
Proof.
  revert before. induction fields as [| [k' v] r IH]; intros before N; [reflexivity |]. cbn [last_given map fst In] in *.
  rewrite IH by tauto. destruct (String.eqb k k') eqn:E; [apply eqs in E; subst; tauto | reflexivity].
Qed.
Lemma set_options_no_effect b fields k : In k documented -> visible (fst (set_options b fields)) k = visible b k.
Proof.
  intros D. unfold set_options, visible. destruct (forallb _ fields) eqn:F; [| reflexivity]. cbn [fst with_options b_options].
  rewrite dget_update. apply last_given_absent. intros I. apply in_map_iff in I. destruct I as ([k' v] & E & I). cbn in E. subst k'.
  rewrite forallb_forall in F. specialize (F _ I). cbn [fst] in F. rewrite documented_not_attr in F by assumption. discriminate.
Qed.
Lemma set_options_error b fields b' e : set_options b fields = (b', Some e) -> b' = b /\ e = AttributeError.
Proof. unfold set_options. destruct (forallb _ fields); [discriminate |]. intros H. injection H as <- <-. now split. Qed.
Lemma set_options_unknown b fields k v : In (k, v) fields -> ~ In k dict_attributes -> set_options b fields = (b, Some AttributeError).
Proof.
  intros I N. unfold set_options. replace (forallb _ fields) with false; [reflexivity |]. symmetry. apply not_true_iff_false.
  intros F. rewrite forallb_forall in F. specialize (F _ I). cbn [fst] in F. unfold hasattr_dict in F.
  apply existsb_exists in F. destruct F as (x & J & E). apply eqs in E. subst. contradiction.
Qed.
Lemma set_options_attr b k v : In k dict_attributes ->
  snd (set_options b [(k, v)]) = None /\ visible (fst (set_options b [(k, v)])) k = Some v.
Proof.
  intros I. unfold set_options. cbn [forallb fst]. replace (hasattr_dict k) with true.
  - cbn [andb snd fst]. split; [reflexivity |]. unfold visible, with_options. cbn [b_options].
    rewrite dget_update. cbn [last_given]. now rewrite String.eqb_refl.
  - symmetry. apply existsb_exists. exists k. split; [assumption | apply String.eqb_refl].
Qed.

(** constructor *)
Lemma init_visible k fields o : o <> "noise_model"%string \/ k = TNSim \/ k = MISim ->
  visible (init k fields) o = last_given fields o (dget String.eqb default_options o).
Proof.
  intros H. unfold visible. destruct k; cbn [init base_init b_options set_noise];
  try (rewrite (dget_dset_other String.eqb eqs) by (destruct H as [H | [H | H]]; [assumption | discriminate H | discriminate H])); apply dget_update.
Qed.
Lemma default_visible k o : o <> "noise_model"%string \/ k = TNSim \/ k = MISim ->
  visible (init k []) o = if String.eqb o "shots"%string then Some (VInt 50) else if String.eqb o "memory"%string then Some (VBool false)
                          else if String.eqb o "noise_model"%string then Some VNone else None.
Proof. intros H. rewrite (init_visible k [] o H). reflexivity. Qed.
Lemma init_noise k fields : k <> TNSim -> k <> MISim ->
  visible (init k fields) "noise_model" = Some (match k with Innsbruck01 => VNone | _ => VModel (Builtin k) end).
Proof. intros A B. unfold visible. destruct k; try congruence; cbn [init set_noise b_options]; apply (dget_dset_same String.eqb eqs). Qed.

(** runs *)
Section R.
Context {Circ V O : Type}.
Variables (execute : Circ -> res V) (stochastic : backend -> Circ -> res (list O)) (empty : V).
Notation run := (run execute stochastic empty).

Lemma run_visible b c opts k : visible (fst (run b c opts)) k = last_given opts k (visible b k).
Proof. unfold visible. cbn [fst BackendModel.run load b_options]. apply dget_update. Qed.
Lemma run_kind b c opts : b_kind (fst (run b c opts)) = b_kind b.
Proof. reflexivity. Qed.
Lemma last_given_app a b k before : last_given (a ++ b) k before = last_given b k (last_given a k before).
Proof. revert before. induction a as [| [k' v] a IH]; intros before; [reflexivity |]. cbn [app last_given]. apply IH. Qed.
Lemma runs_visible hist : forall b k, visible (fold_left (fun b co => fst (run b (fst co) (snd co))) hist b) k =
  last_given (concat (map snd hist)) k (visible b k).
Proof.
  induction hist as [| [c o] r IH]; intros b k; [reflexivity |]. cbn [fold_left fst snd map concat].
  rewrite IH, run_visible, last_given_app. reflexivity.
Qed.
Lemma run_attributes b c opts : let b' := fst (run b c opts) in
  let read k d := match visible b' k with Some v => v | None => d end in
  b_noise b' = read "noise_model"%string VNone /\ b_shots b' = read "shots"%string (VInt 50) /\ b_memory b' = read "memory"%string (VBool false) /\
  b_full b' = read "full_state_memory"%string (VBool false) /\ b_path b' = read "file_path"%string VNone /\ b_file b' = read "file_name"%string VNone.
Proof. repeat split. Qed.

Lemma run_ideal b c opts : b_kind b <> Innsbruck01 -> b_noise (load b opts) = VNone ->
  snd (run b c opts) = let? v := execute c in Ok (JResult v []).
Proof. intros K N. cbn [snd BackendModel.run]. rewrite N. now destruct (b_kind b). Qed.
Lemma run_few_shots b c opts z : b_noise (load b opts) <> VNone \/ b_kind b = Innsbruck01 -> b_shots (load b opts) = VInt z -> (z < 50)%Z ->
  snd (run b c opts) = Err AssertionError.
Proof.
  intros N E L. cbn [snd BackendModel.run]. rewrite E. cbn [at_least_50]. replace (50 <=? z)%Z with false by (symmetry; apply Z.leb_gt; lia).
  destruct N as [N | N].
  - destruct (b_noise (load b opts)); [congruence | ..]; now destruct (b_kind b).
  - now rewrite N.
Qed.
Lemma run_noisy b c opts z : b_kind b <> Innsbruck01 -> b_noise (load b opts) <> VNone -> b_shots (load b opts) = VInt z -> (50 <= z)%Z ->
  snd (run b c opts) = let? v := execute c in let? ns := stochastic (load b opts) c in Ok (JResult v ns).
Proof.
  intros K N E L. cbn [snd BackendModel.run]. rewrite E. cbn [at_least_50]. replace (50 <=? z)%Z with true by (symmetry; apply Z.leb_le; lia).
  destruct (b_noise (load b opts)); [congruence | ..]; destruct (b_kind b); congruence || reflexivity.
Qed.
Lemma run_innsbruck b c opts z : b_kind b = Innsbruck01 -> b_shots (load b opts) = VInt z -> (50 <= z)%Z ->
  snd (run b c opts) = Ok (JResult empty []).
Proof. intros K E L. cbn [snd BackendModel.run]. rewrite K, E. cbn [at_least_50]. replace (50 <=? z)%Z with true by (symmetry; apply Z.leb_le; lia). reflexivity. Qed.

Lemma run_sticky b c c' opts k v : last_given opts k None = Some v ->
  visible (fst (run (fst (run b c opts)) c' [])) k = Some v.
Proof.
  intros H. rewrite !run_visible. cbn [last_given]. revert H. generalize (visible b k) as before.
  enough (G : forall x y, last_given opts k x = Some v -> x = None -> last_given opts k y = Some v) by (intros; eapply G; eauto).
  induction opts as [| [k' v'] r IH]; intros x y H ->; [discriminate H |]. cbn [last_given] in *.
  destruct (String.eqb k k'); [| now apply (IH None)].
  assumption.
Qed.
Lemma run_stuck b c c' opts z : b_kind b <> Innsbruck01 -> b_noise (load b opts) <> VNone -> b_shots (load b opts) = VInt z -> (z < 50)%Z ->
  snd (run b c opts) = Err AssertionError /\ snd (run (fst (run b c opts)) c' []) = Err AssertionError.
Proof.
  intros K N E L. split; [eapply run_few_shots; eauto |].
  eapply run_few_shots; [left; exact N | exact E | exact L].
Qed.
End R.

Lemma backends_list search reg name l : backends search reg name = Ok l ->
  forall k, In k l <-> In k (dkeys reg) /\ match name with None => True | Some p => search p k = Ok true end.
Proof.
  destruct name as [p|]; cbn [backends]; intros H k.
  - now apply matching_In.
  - injection H as <-. tauto.
Qed.
Lemma backends_returns search reg : backends search reg None = Ok (dkeys reg).
Proof. reflexivity. Qed.

(** ** The names *)
Local Open Scope string_scope.
Lemma registry_names (k : string) c : In (k, c) registry <->
  (k = "tnsim" /\ c = TNSim) \/ (k = "misim" /\ c = MISim) \/ (k = "innsbruck01" /\ c = Innsbruck01) \/
  (k = "faketraps2trits" /\ c = FakeIonTraps2Trits) \/ (k = "faketraps2six" /\ c = FakeIonTraps2Six) \/ (k = "faketraps3six" /\ c = FakeIonTraps3Six).
Proof.
  split.
  - intros H. cbn in H. repeat (destruct H as [H|H]; [injection H as <- <-; tauto|]). contradiction.
  - intros H. repeat (destruct H as [(-> & ->)|H]; [cbn; tauto|]). destruct H as (-> & ->). cbn; tauto.
Qed.
