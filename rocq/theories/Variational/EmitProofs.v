(** The emitted circuit against the matrix of the ansatz (C48, C73), and the expansion of a gate to a register (C74). *)
From Coq Require Import List ZArith Arith Lia Sorted Permutation Reals Lra Bool String.
From Verif Require Import Base.Py Base.PyFacts Base.Cplx Base.Matrix Base.Radix Base.Fiber Base.Expm.
From Verif Require Import Circuit.GateModel Gates.FactoryModel Gates.FactorySpec Gates.ActsOn Gates.FactoryProofs Gates.Embed Gates.FactoryMain.
From Verif Require Import Gates.AnglesModel Gates.SingleModel Gates.TwoModel Gates.TwoSpec Gates.TwoProofs Gates.EntProofs Sim.TnSpec Sim.TnProofs.
From Verif Require Import Variational.AnsatzModel Variational.AnsatzSpec Variational.SudProofs.
Import ListNotations.
Local Open Scope list_scope.
Local Open Scope nat_scope.

Lemma bindr_Ok {A B} (r : res A) (k : A -> res B) b : (let? x := r in k x) = Ok b -> exists x, r = Ok x /\ k x = Ok b.
Proof. destruct r as [x|e]; cbn; intros H; [eauto|discriminate]. Qed.

(** *** Kronecker products *)
Lemma mkron_assoc n b c A B D : b <> 0 -> c <> 0 -> meq n (mkron (b * c) A (mkron c B D)) (mkron c (mkron b A B) D).
Proof.
  intros Hb Hc i j _ _. unfold mkron. destruct (div_mod_mul i b c Hb Hc) as (-> & -> & ->). destruct (div_mod_mul j b c Hb Hc) as (-> & -> & ->). ring.
Qed.
Lemma mkron_1_r A : forall i j, mkron 1 A mid i j = A i j.
Proof. intros i j. unfold mkron. rewrite !Nat.div_1_r, !Nat.mod_1_r. unfold mid. cbn. ring. Qed.
Lemma mkron_small d A B i j : i < d -> j < d -> mkron d A B i j = (A 0 0 * B i j)%C.
Proof. intros Hi Hj. unfold mkron. rewrite !Nat.div_small, !Nat.mod_small by assumption. reflexivity. Qed.

Definition idm (d : nat) : smat := (d, mid).
Lemma kron_cons a b l : kron_all (a :: b :: l) = skron a (kron_all (b :: l)).
Proof. reflexivity. Qed.
Lemma kron_ids post : (forall d, In d post -> 0 < d) -> fst (kron_all (map idm post)) = prodl post /\ meq (prodl post) (snd (kron_all (map idm post))) mid.
Proof.
  induction post as [|d post IH]; intros H; [split; [reflexivity|apply meq_refl]|]. destruct post as [|e post].
  - cbn. split; [lia|apply meq_refl].
  - destruct IH as [I1 I2]; [intros; apply H; right; assumption|]. change (map idm (d :: e :: post)) with (idm d :: idm e :: map idm post). rewrite kron_cons.
    change (idm e :: map idm post) with (map idm (e :: post)). unfold skron. cbn [fst snd]. rewrite I1. split; [reflexivity|].
    cbn [idm fst snd]. change (prodl (d :: e :: post)) with (d * prodl (e :: post)). eapply meq_trans; [apply mkron_ext; [apply meq_refl|exact I2]|].
    apply mkron_id. assert (0 < prodl (e :: post)) by (apply prodl_pos; intros; apply H; right; assumption). lia.
Qed.
Lemma kron_line pre d post M : (forall x, In x (pre ++ d :: post) -> 0 < x) ->
  fst (kron_all (map idm pre ++ (d, M) :: map idm post)) = prodl (pre ++ d :: post) /\
  meq (prodl (pre ++ d :: post)) (snd (kron_all (map idm pre ++ (d, M) :: map idm post))) (mkron (prodl post) (mkron d mid M) mid).
Proof.
  induction pre as [|e pre IH]; intros H.
  - cbn [map app]. assert (Hd : 0 < d) by (apply H; left; reflexivity).
    assert (HP : forall x, In x post -> 0 < x) by (intros; apply H; right; assumption). destruct post as [|p post].
    + cbn [kron_all map fst snd prodl]. split; [lia|]. intros i j Hi Hj. rewrite mkron_1_r, mkron_small by lia. unfold mid. cbn. ring.
    + destruct (kron_ids (p :: post) HP) as [K1 K2]. change (map idm (p :: post)) with (idm p :: map idm post). rewrite kron_cons.
      change (idm p :: map idm post) with (map idm (p :: post)). unfold skron. cbn [fst snd]. rewrite K1. split; [reflexivity|].
      change (prodl (d :: p :: post)) with (d * prodl (p :: post)). apply mkron_ext; [|exact K2].
      intros i j Hi Hj. rewrite mkron_small by assumption. unfold mid. cbn. ring.
  - cbn [map app]. destruct IH as [I1 I2]; [intros; apply H; right; assumption|].
    assert (E : map idm pre ++ (d, M) :: map idm post <> []) by (destruct pre; discriminate).
    destruct (map idm pre ++ (d, M) :: map idm post) as [|a l] eqn:Q; [congruence|]. rewrite kron_cons. unfold skron. cbn [fst snd idm]. rewrite I1. split; [reflexivity|].
    change (prodl (e :: pre ++ d :: post)) with (e * prodl (pre ++ d :: post)).
    assert (P0 : 0 < prodl post) by (apply prodl_pos; intros; apply H; right; apply in_or_app; right; right; assumption).
    assert (P1 : 0 < d) by (apply H; right; apply in_or_app; right; left; reflexivity).
    assert (P2 : 0 < prodl pre) by (apply prodl_pos; intros; apply H; right; apply in_or_app; left; assumption).
    eapply meq_trans; [apply mkron_ext; [apply meq_refl|exact I2]|]. rewrite prodl_app. cbn [prodl]. replace (prodl pre * (d * prodl post)) with (prodl pre * d * prodl post) by lia.
    eapply meq_trans; [apply mkron_assoc; nia|]. replace (e * (prodl pre * d * prodl post)) with ((e * (prodl pre * d)) * prodl post) by lia.
    apply mkron_ext; [|apply meq_refl]. eapply meq_trans; [apply mkron_assoc; lia|]. replace (e * (prodl pre * d)) with (e * prodl pre * d) by lia. apply mkron_ext; [|apply meq_refl].
    apply mkron_id. lia.
Qed.
Lemma identities_ok dims : forall lo n, lo + n <= List.length dims -> identities dims (seq lo n) = Ok (map idm (firstn n (skipn lo dims))).
Proof.
  intros lo n. revert lo. induction n as [|n IH]; intros lo L; [reflexivity|]. cbn [seq]. unfold identities in *. cbn [mapr]. rewrite pyindex_nat.
  destruct (skipn lo dims) as [|d r] eqn:E; [apply (f_equal (@List.length nat)) in E; rewrite skipn_length in E; cbn in E; lia|].
  assert (Q : dims = firstn lo dims ++ d :: r) by (rewrite <- E; symmetry; apply firstn_skipn).
  assert (Lf : List.length (firstn lo dims) = lo) by (rewrite firstn_length; lia).
  rewrite Q at 1. rewrite nth_error_app2, Lf, Nat.sub_diag by lia. cbn [nth_error bindr firstn map]. rewrite IH by lia. cbn [bindr].
  replace (skipn (S lo) dims) with r; [reflexivity|]. rewrite Q. rewrite skipn_app, Lf. rewrite skipn_all2 by lia. replace (S lo - lo) with 1 by lia. reflexivity.
Qed.
Lemma expand_closed pre d post M : (forall x, In x (pre ++ d :: post) -> 0 < x) ->
  exists E, gate_expand (d, M) (List.length (pre ++ d :: post)) (List.length pre) (pre ++ d :: post) = Ok (prodl (pre ++ d :: post), E) /\
    meq (prodl (pre ++ d :: post)) E (mkron (prodl post) (mkron d mid M) mid).
Proof.
  intros H. destruct (kron_line pre d post M H) as [K1 K2]. set (dims := pre ++ d :: post) in *.
  assert (L : List.length dims = List.length pre + S (List.length post)) by (unfold dims; rewrite app_length; reflexivity).
  unfold gate_expand. destruct (Nat.ltb_spec (List.length dims) 1); [lia|]. destruct (Nat.leb_spec (List.length dims) (List.length pre)); [lia|].
  rewrite !identities_ok by lia. cbn [bindr].
  assert (E1 : firstn (List.length dims - (List.length pre + 1)) (skipn (List.length pre + 1) dims) = post).
  { unfold dims at 2. rewrite skipn_app. rewrite skipn_all2 by lia. replace (List.length pre + 1 - List.length pre) with 1 by lia. cbn [app skipn]. apply firstn_all2. lia. }
  assert (E2 : firstn (List.length pre) (skipn 0 dims) = pre).
  { cbn [skipn]. unfold dims. rewrite firstn_app, Nat.sub_diag, firstn_all. cbn. apply app_nil_r. }
  rewrite E1, E2. cbn [app]. destruct (kron_all (map idm pre ++ (d, M) :: map idm post)) as [n E] eqn:Q. cbn [fst snd] in *. subst n. exists E. split; [f_equal; exact Q|exact K2].
Qed.
Definition line_gate (t : nat) (M : mat) : gate mat := Gate "" SINGLE (TInt (Z.of_nat t)) None false false M.
Lemma kron_acts pre d post M : (forall x, In x (pre ++ d :: post) -> 0 < x) ->
  acts_on (pre ++ d :: post) [List.length pre] [] [] M (mkron (prodl post) (mkron d mid M) mid).
Proof.
  intros H. destruct (gen_kron pre d post 2 (line_gate (List.length pre) M) H eq_refl eq_refl (Nat.le_refl 2)) as (A & GA & MA).
  set (dims := pre ++ d :: post) in *.
  assert (W : well_placed dims (line_gate (List.length pre) M)).
  { unfold well_placed. cbn. split; [discriminate|]. split; [constructor; [intros []|constructor]|]. split; [|exact Logic.I].
    intros t [<-|[]]. unfold dims. rewrite app_length. cbn [List.length]. lia. }
  assert (T : target_nats (line_gate (List.length pre) M) = [List.length pre]) by (cbn; rewrite Nat2Z.id; reflexivity).
  assert (LK : lines_ok dims [List.length pre]).
  { split; [constructor; [intros []|constructor]|]. intros t [<-|[]]. unfold dims. rewrite app_length. cbn [List.length]. lia. }
  eapply acts_ext; [exact LK|intros c []|apply meq_refl|exact MA|].
  apply (gen_acts dims 2 (line_gate (List.length pre) M) A [List.length pre] H W (Nat.le_refl 2)); [rewrite T; apply Permutation_refl|repeat constructor|exact GA].
Qed.
Lemma expand_acts dims t d M E : (forall x, In x dims -> 0 < x) -> t < List.length dims -> d = nth t dims 0 ->
  gate_expand (d, M) (List.length dims) t dims = Ok E -> fst E = prodl dims /\ acts_on dims [t] [] [] M (snd E).
Proof.
  intros H L -> G. destruct (nth_split dims 0 L) as (pre & post & Q & Lp). set (d := nth t dims 0) in *. clearbody d. subst dims t.
  destruct (expand_closed pre d post M H) as (E' & G' & ME). rewrite G in G'. injection G' as ->. cbn [fst snd]. split; [reflexivity|].
  eapply acts_ext; [| |apply meq_refl|apply meq_sym; exact ME|apply kron_acts; exact H].
  - split; [constructor; [intros []|constructor]|]. intros t [<-|[]]. exact L.
  - intros c [].
Qed.
Lemma expand_returns dims t d M : (forall x, In x dims -> 0 < x) -> t < List.length dims -> d = nth t dims 0 ->
  exists E, gate_expand (d, M) (List.length dims) t dims = Ok E.
Proof.
  intros H L ->. destruct (nth_split dims 0 L) as (pre & post & Q & Lp). set (d := nth t dims 0) in *. clearbody d. subst dims t.
  destruct (expand_closed pre d post M H) as (E' & G' & ME). eexists. exact G'.
Qed.
Lemma expand_rejects g size t dims : size <= t \/ size = 0 -> gate_expand g size t dims = Err ValueError.
Proof. intros H. unfold gate_expand. destruct (Nat.ltb_spec size 1); [reflexivity|]. destruct (Nat.leb_spec size t); [reflexivity|]. lia. Qed.

(** *** Lines 0 and 1 of a register *)
Section Register.
Variables (d0 d1 : nat) (rest : list nat).
Hypothesis P0 : 0 < d0.
Hypothesis P1 : 0 < d1.
Hypothesis PR : forall x, In x rest -> 0 < x.
Let cdims := d0 :: d1 :: rest.
Let N := prodl cdims.
Let Rn := prodl rest.
Definition big (M : mat) : mat := mkron Rn M mid.
Let Hpos : forall x, In x cdims -> 0 < x.
Proof. intros x [<-|[<-|H]]; auto. Qed.
Let HR : 0 < Rn. Proof. apply prodl_pos, PR. Qed.
Let NE : N = (d0 * d1) * Rn. Proof. unfold N, cdims, Rn. cbn [prodl]. lia. Qed.
Lemma big_ext A B : meq (d0 * d1) A B -> meq N (big A) (big B).
Proof. intros H. rewrite NE. apply mkron_ext; [exact H|apply meq_refl]. Qed.
Lemma big_mul A B : meq N (mmul N (big A) (big B)) (big (mmul (d0 * d1) A B)).
Proof. rewrite NE. unfold big. eapply meq_trans; [apply mkron_mmul|]. apply mkron_ext; [apply meq_refl|apply mmul_id_l]. Qed.
Lemma big_id : meq N (big mid) mid.
Proof. rewrite NE. apply mkron_id. lia. Qed.
Lemma big_acts M : acts_on cdims [0; 1] [] [] M (big M).
Proof.
  assert (Q1 : forall t, In t [0; 1] -> t < List.length [d0; d1]) by (intros t [<-|[<-|[]]]; cbn; lia).
  assert (Q2 : forall t, In t (@nil nat) -> t < List.length [d0; d1]) by (intros t []).
  assert (HL : acts_on ([] ++ [d0; d1] ++ rest) (unshift (List.length (@nil nat)) [0; 1]) (unshift (List.length (@nil nat)) []) [] M (big M)); [|exact HL].
  apply (acts_lift [] [d0; d1] rest Hpos [0; 1] [] [] Q1 Q2 M M (big M)).
  - apply (acts_full [d0; d1] M).
  - intros r c Hr Hc. change (prodl ([] ++ [d0; d1] ++ rest)) with N in *. replace (prodl [d0; d1]) with (d0 * d1) by (cbn; lia). fold Rn. unfold big, mkron.
    assert (Hs : forall x, x < N -> x / (d0 * d1 * Rn) = 0) by (intros x Hx; apply Nat.div_small; rewrite <- NE; exact Hx).
    assert (Hm : forall x, x < N -> (x / Rn) mod (d0 * d1) = x / Rn).
    { intros x Hx. apply Nat.mod_small. apply Nat.div_lt_upper_bound; [lia|]. rewrite NE in Hx. lia. }
    rewrite !Hs, !Hm by assumption. unfold mid at 2. cbn. ring.
Qed.
Lemma acts_line0 s : acts_on cdims [0] [] [] s (big (mkron d1 s mid)).
Proof.
  pose proof (kron_acts [] d0 (d1 :: rest) s Hpos) as H. cbn [app List.length] in H. fold cdims in H.
  eapply acts_ext; [| |apply meq_refl| |exact H]; [split; [constructor; [intros []|constructor]|intros t [<-|[]]; cbn; lia]|intros c []|].
  fold N. change (prodl (d1 :: rest)) with (d1 * Rn). unfold big. rewrite NE. replace (d0 * d1 * Rn) with (d0 * (d1 * Rn)) by lia.
  eapply meq_trans; [apply mkron_ext with (A' := s) (B' := mkron Rn mid mid)|].
  - intros i j Hi Hj. rewrite mkron_small by assumption. unfold mid. cbn. ring.
  - apply meq_sym, mkron_id. lia.
  - apply mkron_assoc; lia.
Qed.
Lemma acts_line1 s : acts_on cdims [1] [] [] s (big (mkron d1 mid s)).
Proof.
  pose proof (kron_acts [d0] d1 rest s Hpos) as H. exact H.
Qed.

Lemma implements_ext gs : forall U U', meq N U U' -> implements cdims gs U -> implements cdims gs U'.
Proof.
  destruct gs as [|g gs]; intros U U' E H; cbn [implements] in *; change (prodl cdims) with N in H |- *.
  - eapply meq_trans; [apply meq_sym; exact E|exact H].
  - destruct H as (A & V & H1 & H2 & H3). exists A, V. split; [exact H1|]. split; [exact H2|]. eapply meq_trans; [apply meq_sym; exact E|exact H3].
Qed.
Lemma implements_cons g gs A V U : matrix_of cdims g (big A) -> implements cdims gs (big V) -> meq (d0 * d1) U (mmul (d0 * d1) V A) -> implements cdims (g :: gs) (big U).
Proof.
  intros HA HV E. exists (big A), (big V). split; [exact HA|]. split; [exact HV|]. fold N. eapply meq_trans; [apply big_ext; exact E|]. apply meq_sym, big_mul.
Qed.
Lemma implements_nil : implements cdims [] (big mid).
Proof. exact big_id. Qed.

(** a two-line gate without controls *)
Lemma matrix_core (g : gate mat) : g_controls g = None -> Permutation (target_nats g) [0; 1] -> matrix_of cdims g (big (core g)).
Proof.
  intros C T. exists [0; 1]. split; [apply Permutation_sym; exact T|]. split; [repeat constructor|].
  unfold control_nats, control_levels. rewrite C. apply big_acts.
Qed.
Lemma matrix_two (g : gate mat) : g_controls g = None -> g_dagger g = false -> Permutation (target_nats g) [0; 1] -> matrix_of cdims g (big (g_data g)).
Proof. intros C D T. pose proof (matrix_core g C T) as H. unfold core in H. rewrite D in H. exact H. Qed.
Lemma matrix_single (g : gate mat) t : g_controls g = None -> g_dagger g = false -> g_target g = TInt (Z.of_nat t) -> t = 0 \/ t = 1 ->
  matrix_of cdims g (big (if t =? 0 then mkron d1 (g_data g) mid else mkron d1 mid (g_data g))).
Proof.
  intros C D T H. exists [t]. split; [unfold target_nats, target_lines; rewrite T; cbn; rewrite Nat2Z.id; apply Permutation_refl|]. split; [repeat constructor|].
  unfold control_nats, control_levels, core. rewrite C, D. destruct H as [->| ->]; [apply acts_line0|apply acts_line1].
Qed.
Lemma expand0 s : gate_expand (d0, s) 2 0 [d0; d1] = Ok (d0 * d1, mkron d1 s mid).
Proof. reflexivity. Qed.
Lemma expand1 s : gate_expand (d1, s) 2 1 [d0; d1] = Ok (d0 * d1, mkron d1 mid s).
Proof. reflexivity. Qed.

Section WithExpm.
Variable expm : nat -> mat -> mat.
Lemma sud_gate_inv t p d g : sud_gate expm cdims t p d = Ok g -> exists s, generic_sud expm p d = Ok s /\ g_data g = s /\
  g_controls g = None /\ g_dagger g = false /\ g_target g = TInt (Z.of_nat t).
Proof.
  unfold sud_gate. destruct (generic_sud expm p d) as [s|]; [|discriminate]. cbn [bindr]. cbn. intros H. injection H as <-. exists s. repeat split.
Qed.
Lemma sud_gate_ok t p d s : generic_sud expm p d = Ok s -> exists g, sud_gate expm cdims t p d = Ok g.
Proof. intros E. unfold sud_gate. rewrite E. cbn. eexists. reflexivity. Qed.

(** the two loops go together *)
Lemma loops u : g_controls u = None -> g_dagger u = false -> Permutation (target_nats u) [0; 1] ->
  forall ps c acc gs V, c <= 2 -> decompose_loop expm cdims [d0; d1] u ps c acc = Ok gs -> implements cdims (rev acc) (big V) ->
  exists U, ansatz_loop expm [d0; d1] (Ok (g_data u)) ps c V = Ok U /\ implements cdims (rev gs) (big U).
Proof.
  intros C D T. induction ps as [|p ps IH]; intros c acc gs V Hc H HV; cbn [decompose_loop ansatz_loop] in *.
  - injection H as <-. exists V. split; [reflexivity|exact HV].
  - replace (prodl [d0; d1]) with (d0 * d1) by (cbn; lia).
    assert (Q : exists c' acc' V', (if c =? 2 then (0, acc ++ [u]) else (c, acc)) = (c', acc') /\
      (if c =? 2 then let? m := Ok (g_data u) in Ok (0, mmul (d0 * d1) V m) else Ok (c, V)) = Ok (c', V') /\ implements cdims (rev acc') (big V') /\ c' <= 1).
    { destruct (Nat.eqb_spec c 2) as [->|N2].
      - exists 0, (acc ++ [u]), (mmul (d0 * d1) V (g_data u)). split; [reflexivity|]. split; [reflexivity|]. split; [|lia].
        rewrite rev_app_distr. cbn [rev app]. eapply implements_cons; [apply matrix_two; assumption|exact HV|apply meq_refl].
      - exists c, acc, V. repeat split; try assumption. lia. }
    destruct Q as (c' & acc' & V' & Q1 & Q2 & HV' & Hc'). rewrite Q1 in H. rewrite Q2. cbn [bindr fst snd] in H |- *. clear Q1 Q2 HV.
    destruct c' as [|[|]]; [| |lia].
    + change (pyindex [d0; d1] (Z.of_nat 0)) with (Ok d0) in *. cbn [bindr] in H |- *.
      destruct (sud_gate expm cdims 0 p d0) as [g|] eqn:G; [|discriminate]. cbn [bindr] in H. destruct (sud_gate_inv _ _ _ _ G) as (s & Es & Ed & Gc & Gd & Gt).
      rewrite Es. cbn [bindr]. rewrite expand0. cbn [bindr snd]. eapply IH; [|exact H|]; [lia|]. rewrite rev_app_distr. cbn [rev app].
      eapply implements_cons; [apply (matrix_single g 0 Gc Gd Gt); left; reflexivity|exact HV'|]. cbn [Nat.eqb]. rewrite Ed. apply meq_refl.
    + change (pyindex [d0; d1] (Z.of_nat 1)) with (Ok d1) in *. cbn [bindr] in H |- *.
      destruct (sud_gate expm cdims 1 p d1) as [g|] eqn:G; [|discriminate]. cbn [bindr] in H. destruct (sud_gate_inv _ _ _ _ G) as (s & Es & Ed & Gc & Gd & Gt).
      rewrite Es. cbn [bindr]. rewrite expand1. cbn [bindr snd]. eapply IH; [|exact H|]; [lia|]. rewrite rev_app_distr. cbn [rev app].
      eapply implements_cons; [apply (matrix_single g 1 Gc Gd Gt); right; reflexivity|exact HV'|]. cbn [Nat.eqb]. rewrite Ed. apply meq_refl.
Qed.
Lemma decompose_matrix u ps gs : g_controls u = None -> g_dagger u = false -> Permutation (target_nats u) [0; 1] ->
  ansatz_decompose expm cdims [d0; d1] (Some u) ps = Ok gs ->
  exists U, prepare_ansatz expm (Ok (g_data u)) ps [d0; d1] = Ok U /\ implements cdims (rev gs) (big U).
Proof.
  intros C D T H. unfold prepare_ansatz. change (pyindex [d0; d1] 0%Z) with (Ok d0). cbn [bindr]. rewrite expand0. cbn [bindr snd].
  apply (loops u C D T ps 0 [] gs); [lia|exact H|]. cbn [rev]. eapply implements_ext; [|apply implements_nil]. apply big_ext. apply meq_sym, mkron_id. lia.
Qed.
Lemma ms_gate_inv g cds : ms_gate expm cds d0 d1 = Ok g ->
  g_controls g = None /\ g_dagger g = false /\ Permutation (target_nats g) [0; 1] /\ g_data g = expm (d0 * d1) (ms_exponent d0 d1 (PI / 2)).
Proof.
  unfold ms_gate, angle_new. cbn [bindr]. destruct (Rle_dec 0 (PI / 2)); [|discriminate]. destruct (Rle_dec (PI / 2) (2 * PI)); [|discriminate].
  cbn. intros H. injection H as <-. repeat split. apply Permutation_refl.
Qed.
Lemma ls_gate_inv g cds : ls_gate expm cds d0 d1 = Ok g ->
  g_controls g = None /\ g_dagger g = false /\ Permutation (target_nats g) [0; 1] /\ g_data g = expm (d0 * d1) (ls_exponent d0 d1 (ls_theta [d0; d1])).
Proof.
  unfold ls_gate, angle_new. cbn [bindr]. destruct (Rle_dec 0 (ls_theta [d0; d1])); [|discriminate]. destruct (Rle_dec (ls_theta [d0; d1]) (2 * PI)); [|discriminate].
  cbn. intros H. injection H as <-. repeat split. apply Permutation_refl.
Qed.
Lemma ms_gate_ok cds : exists g, ms_gate expm cds d0 d1 = Ok g.
Proof.
  pose proof PI_RGT_0. unfold ms_gate, angle_new. cbn [bindr]. destruct (Rle_dec 0 (PI / 2)); [|lra]. destruct (Rle_dec (PI / 2) (2 * PI)); [|lra]. cbn. eauto.
Qed.
Lemma ls_theta_range dims : (0 <= ls_theta dims <= 2 * PI)%R.
Proof. pose proof PI_RGT_0. unfold ls_theta. destruct (existsb (Nat.eqb 2) dims); [lra|]. destruct (existsb (Nat.eqb 3) dims); lra. Qed.
Lemma ls_gate_ok cds : exists g, ls_gate expm cds d0 d1 = Ok g.
Proof.
  pose proof (ls_theta_range [d0; d1]). unfold ls_gate, angle_new. cbn [bindr]. destruct (Rle_dec 0 (ls_theta [d0; d1])); [|lra]. destruct (Rle_dec (ls_theta [d0; d1]) (2 * PI)); [|lra]. cbn. eauto.
Qed.
Lemma two_to_matrix (g : gate mat) dims : g_controls g = None -> g_dagger g = false -> Permutation (target_nats g) [0; 1] -> generate_matrix dims 0 g = Ok (g_data g).
Proof.
  intros C D T. unfold generate_matrix, reference_lines, control_lines. rewrite C, D. cbn [app].
  assert (Q : target_lines g <> []) by (intros E; unfold target_nats in T; rewrite E in T; apply Permutation_length in T; discriminate).
  destruct (target_lines g) as [|z l]; [congruence|]. reflexivity.
Qed.
Lemma instance_matrix a p gs : proper_primitive a -> create_instance expm a cdims p d0 d1 = Ok gs ->
  exists U A, ansatz_matrix expm a p d0 d1 = Ok U /\ implements cdims (rev gs) A /\ acts_on cdims [0; 1] [] [] U A.
Proof.
  intros PP H. unfold create_instance in H. unfold ansatz_matrix. destruct (params_splitter p [d0; d1]) as [ps|]; [|discriminate]. cbn [bindr] in *.
  assert (Q : exists U, match a with
    | MS => let? g := ms_gate expm [d0; d1] d0 d1 in let? m := generate_matrix [d0; d1] 0 g in prepare_ansatz expm (Ok m) ps [d0; d1]
    | LS => let? g := ls_gate expm [d0; d1] d0 d1 in let? m := generate_matrix [d0; d1] 0 g in prepare_ansatz expm (Ok m) ps [d0; d1]
    | CU c => prepare_ansatz expm match c with Some g => Ok (g_data g) | None => Err TypeError end ps [d0; d1] end = Ok U /\ implements cdims (rev gs) (big U)).
  { destruct a as [| |[g|]].
    - destruct (ms_gate expm cdims d0 d1) as [g|] eqn:G; [|discriminate]. cbn [bindr] in H. destruct (ms_gate_inv _ _ G) as (C & D & T & E).
      destruct (ms_gate_ok [d0; d1]) as (g' & G'). destruct (ms_gate_inv _ _ G') as (C' & D' & T' & E'). rewrite G'. cbn [bindr]. rewrite two_to_matrix by assumption. cbn [bindr].
      rewrite E', <- E. apply decompose_matrix; assumption.
    - destruct (ls_gate expm cdims d0 d1) as [g|] eqn:G; [|discriminate]. cbn [bindr] in H. destruct (ls_gate_inv _ _ G) as (C & D & T & E).
      destruct (ls_gate_ok [d0; d1]) as (g' & G'). destruct (ls_gate_inv _ _ G') as (C' & D' & T' & E'). rewrite G'. cbn [bindr]. rewrite two_to_matrix by assumption. cbn [bindr].
      rewrite E', <- E. apply decompose_matrix; assumption.
    - destruct PP as (C & D & T). apply decompose_matrix; assumption.
    - discriminate. }
  destruct Q as (U & E & I). exists U, (big U). split; [exact E|]. split; [exact I|apply big_acts].
Qed.

Lemma rot0 ps k q s : pyindex ps (Z.of_nat k) = Ok q -> generic_sud expm q d0 = Ok s ->
  (let? q := pyindex ps (Z.of_nat k) in let? d := pyindex [d0; d1] (Z.of_nat 0) in let? s := generic_sud expm q d in gate_expand (d, s) 2 0 [d0; d1]) = Ok (d0 * d1, mkron d1 s mid).
Proof. intros -> E. cbn [bindr]. change (pyindex [d0; d1] (Z.of_nat 0)) with (Ok d0). cbn [bindr]. rewrite E. reflexivity. Qed.
Lemma rot1 ps k q s : pyindex ps (Z.of_nat k) = Ok q -> generic_sud expm q d1 = Ok s ->
  (let? q := pyindex ps (Z.of_nat k) in let? d := pyindex [d0; d1] (Z.of_nat 1) in let? s := generic_sud expm q d in gate_expand (d, s) 2 1 [d0; d1]) = Ok (d0 * d1, mkron d1 mid s).
Proof. intros -> E. cbn [bindr]. change (pyindex [d0; d1] (Z.of_nat 1)) with (Ok d1). cbn [bindr]. rewrite E. reflexivity. Qed.
Lemma rotg_inv ps k t d g : (t = 0 /\ d = d0 \/ t = 1 /\ d = d1) ->
  (let? q := pyindex ps (Z.of_nat k) in let? d := pyindex [d0; d1] (Z.of_nat t) in sud_gate expm cdims t q d) = Ok g ->
  exists q s, pyindex ps (Z.of_nat k) = Ok q /\ generic_sud expm q d = Ok s /\ g_data g = s /\ g_controls g = None /\ g_dagger g = false /\ g_target g = TInt (Z.of_nat t).
Proof.
  intros HT H. destruct (pyindex ps (Z.of_nat k)) as [q|]; [|discriminate]. cbn [bindr] in H.
  destruct HT as [[-> ->]|[-> ->]].
  - change (pyindex [d0; d1] (Z.of_nat 0)) with (Ok d0) in H. cbn [bindr] in H. destruct (sud_gate_inv _ _ _ _ H) as (s & E & R). exists q, s. auto.
  - change (pyindex [d0; d1] (Z.of_nat 1)) with (Ok d1) in H. cbn [bindr] in H. destruct (sud_gate_inv _ _ _ _ H) as (s & E & R). exists q, s. auto.
Qed.
Lemma rotations_matrix g p gs : g_controls g = None -> Permutation (target_nats g) [0; 1] ->
  instantiate_rotations expm cdims g p d0 d1 = Ok gs ->
  exists U A, apply_rotations expm (core g) p d0 d1 = Ok U /\ implements cdims (rev gs) A /\ acts_on cdims [0; 1] [] [] U A.
Proof.
  intros C T H. unfold instantiate_rotations in H. unfold apply_rotations. destruct (params_splitter p [d0; d1]) as [ps|]; [|discriminate]. cbn [bindr] in H |- *.
  apply bindr_Ok in H. destruct H as (g1 & H1 & H). apply bindr_Ok in H. destruct H as (g2 & H2 & H). apply bindr_Ok in H. destruct H as (g3 & H3 & H). apply bindr_Ok in H. destruct H as (g4 & H4 & H).
  injection H as <-.
  destruct (rotg_inv ps 0 0 d0 g1 ltac:(auto) H1) as (q1 & s1 & I1 & E1 & D1 & C1 & G1 & T1). destruct (rotg_inv ps 1 1 d1 g2 ltac:(auto) H2) as (q2 & s2 & I2 & E2 & D2 & C2 & G2 & T2).
  destruct (rotg_inv ps 2 0 d0 g3 ltac:(auto) H3) as (q3 & s3 & I3 & E3 & D3 & C3 & G3 & T3). destruct (rotg_inv ps 3 1 d1 g4 ltac:(auto) H4) as (q4 & s4 & I4 & E4 & D4 & C4 & G4 & T4).
  rewrite (rot0 ps 0 q1 s1 I1 E1), (rot1 ps 1 q2 s2 I2 E2), (rot0 ps 2 q3 s3 I3 E3), (rot1 ps 3 q4 s4 I4 E4). cbn [bindr snd]. replace (prodl [d0; d1]) with (d0 * d1) by (cbn; lia).
  eexists. eexists. split; [reflexivity|]. split; [|apply big_acts]. cbn [rev app].
  pose proof (matrix_single g1 0 C1 G1 T1 (or_introl eq_refl)) as M1. pose proof (matrix_single g2 1 C2 G2 T2 (or_intror eq_refl)) as M2.
  pose proof (matrix_single g3 0 C3 G3 T3 (or_introl eq_refl)) as M3. pose proof (matrix_single g4 1 C4 G4 T4 (or_intror eq_refl)) as M4.
  cbn [Nat.eqb] in M1, M2, M3, M4. rewrite D1 in M1. rewrite D2 in M2. rewrite D3 in M3. rewrite D4 in M4.
  eapply implements_cons; [exact M4| |apply meq_refl]. eapply implements_cons; [exact M3| |apply meq_refl]. eapply implements_cons; [apply matrix_core; assumption| |apply meq_refl].
  eapply implements_cons; [exact M2| |apply meq_refl]. eapply implements_cons; [exact M1|apply implements_nil|]. apply meq_sym, mmul_id_l.
Qed.
End WithExpm.
End Register.

(** *** What the emitted gates touch *)
Lemma implements_off dims ts gs : (forall g, In g gs -> forall t, In t (target_nats g) -> In t ts) ->
  forall U, implements dims gs U -> forall r c, r < prodl dims -> c < prodl dims -> ~ agree_off dims ts r c -> U r c = C0.
Proof.
  induction gs as [|g gs IH]; intros H U I r c Hr Hc N; cbn [implements] in I.
  - rewrite (I r c Hr Hc). unfold mid. destruct (Nat.eqb_spec r c) as [->|]; [|reflexivity]. exfalso. apply N, agree_refl.
  - destruct I as (A & V & (ts' & PT & _ & HA) & HV & E). rewrite (E r c Hr Hc). unfold mmul. apply csum_0. intros k Hk.
    destruct (agree_dec dims ts r k) as [Q|Q].
    + assert (Z : A k c = C0); [|rewrite Z; ring]. apply (ao_off _ _ _ _ _ _ HA); [exact Hk|exact Hc|]. intros Q'. apply N. intros i Hi Hn. rewrite (Q i Hi Hn). apply Q'; [exact Hi|].
      intros Hin. apply Hn. apply (H g (or_introl eq_refl)). eapply Permutation_in; [exact PT|exact Hin].
    + rewrite (IH (fun g' Hg => H g' (or_intror Hg)) V HV r k Hr Hk Q). ring.
Qed.
Section Lines.
Variable expm : nat -> mat -> mat.
Lemma sud_gate_lines cdims t p d g : sud_gate expm cdims t p d = Ok g -> target_nats g = [t] /\ g_controls g = None.
Proof.
  unfold sud_gate. destruct (generic_sud expm p d) as [s|]; [|discriminate]. cbn. intros H. injection H as <-. unfold target_nats. cbn. rewrite Nat2Z.id. auto.
Qed.
Lemma decompose_lines cdims dims u : (forall t, In t (target_nats u) -> In t [0; 1]) -> forall ps c acc gs, c <= 2 ->
  decompose_loop expm cdims dims u ps c acc = Ok gs -> (forall g, In g acc -> forall t, In t (target_nats g) -> In t [0; 1]) ->
  forall g, In g gs -> forall t, In t (target_nats g) -> In t [0; 1].
Proof.
  intros HU. induction ps as [|p ps IH]; intros c acc gs Hc H Ha; cbn [decompose_loop] in H.
  - injection H as <-. exact Ha.
  - set (ca := if c =? 2 then (0, acc ++ [u]) else (c, acc)) in *.
    assert (Q : fst ca <= 1 /\ forall g, In g (snd ca) -> forall t, In t (target_nats g) -> In t [0; 1]).
    { unfold ca. destruct (Nat.eqb_spec c 2); cbn [fst snd]; (split; [lia|]); [|exact Ha]. intros g Hg. apply in_app_or in Hg. destruct Hg as [Hg|[<-|[]]]; [exact (Ha g Hg)|exact HU]. }
    destruct Q as [Q1 Q2]. clearbody ca. apply bindr_Ok in H. destruct H as (d & _ & H). apply bindr_Ok in H. destruct H as (g0 & G & H).
    eapply IH; [|exact H|]; [lia|]. intros g Hg. apply in_app_or in Hg. destruct Hg as [Hg|[<-|[]]]; [exact (Q2 g Hg)|].
    destruct (sud_gate_lines _ _ _ _ _ G) as [-> _]. intros t [<-|[]]. destruct (fst ca) as [|[|]]; cbn; auto. lia.
Qed.
Lemma instance_lines01 a cdims p d0 d1 gs : match a with CU _ => False | _ => True end -> create_instance expm a cdims p d0 d1 = Ok gs ->
  forall g, In g gs -> forall t, In t (target_nats g) -> In t [0; 1].
Proof.
  intros HA H. unfold create_instance in H. apply bindr_Ok in H. destruct H as (ps & _ & H). destruct a; [| |destruct HA].
  - apply bindr_Ok in H. destruct H as (u & G & H). destruct (ms_gate_inv _ _ _ _ _ G) as (_ & _ & T & _). eapply (decompose_lines cdims [d0; d1] u); [|apply Nat.le_0_l|exact H|intros g []].
    intros t Ht. eapply Permutation_in; eassumption.
  - apply bindr_Ok in H. destruct H as (u & G & H). destruct (ls_gate_inv _ _ _ _ _ G) as (_ & _ & T & _). eapply (decompose_lines cdims [d0; d1] u); [|apply Nat.le_0_l|exact H|intros g []].
    intros t Ht. eapply Permutation_in; eassumption.
Qed.
Lemma variational_lines a cdims target p gs : match a with CU _ => False | _ => True end -> variational_instructions expm a cdims target p = Ok gs ->
  forall g, In g gs -> forall t, In t (target_nats g) -> t = 0 \/ t = 1.
Proof.
  intros HA H. unfold variational_instructions in H. apply bindr_Ok in H. destruct H as (ls & _ & H). apply bindr_Ok in H. destruct H as (ds & _ & H).
  destruct ds as [|d0 [|d1 [|]]]; try discriminate. intros g Hg t Ht. destruct (instance_lines01 _ _ _ _ _ _ HA H g Hg t Ht) as [<-|[<-|[]]]; auto.
Qed.
End Lines.

