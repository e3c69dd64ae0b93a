(** Proofs about FilesModel. *)
From Verif.Base Require Import Py PyFacts.
From Verif.Qasm Require Import FilesModel FilesSpec.
Local Open Scope string_scope.
Local Open Scope list_scope.

Lemma Forall2_impl_plain {A B} (P Q : A -> B -> Prop) l r : (forall x y, P x y -> Q x y) -> Forall2 P l r -> Forall2 Q l r.
Proof. intros H. induction 1; constructor; auto. Qed.

Lemma append_nil s : (s ++ "")%string = s.
Proof. induction s; cbn; congruence. Qed.

Section Facts.
Context {G M : Type}.
Variables (join : string -> string -> string) (can_open : string -> bool) (key : nat -> string) (name : G -> string) (array : G -> option M)
  (line : G -> option string -> res string) (before after : string).
Notation lines := (gate_lines join can_open key name array line).
Notation qasm := (to_qasm join can_open key name array line before after).
Notation save := (save_to_file join can_open key name array line before after).
Notation wf := (with_files join key name array).

Lemma write_same (fs : files M) p c : write fs p c p = Some c.
Proof. unfold write. rewrite String.eqb_refl. reflexivity. Qed.
Lemma write_other (fs : files M) p c q : q <> p -> write fs p c q = fs q.
Proof. intros H. unfold write. destruct (String.eqb_spec q p); [contradiction|reflexivity]. Qed.
Lemma concat_nil_cons s l : String.concat "" (s :: l) = (s ++ String.concat "" l)%string.
Proof. destruct l; cbn; [|reflexivity]. induction s; cbn; congruence. Qed.

Definition text_of (x : G * option (string * M)) : option string := option_map (fun fm : string * M => ("(" ++ fst fm ++ ") ")%string) (snd x).
Lemma lines_saved p gs : p <> "" -> forall k fs ls, (forall f, In f (file_names (wf p k gs)) -> can_open f = true) -> NoDup (file_names (wf p k gs)) ->
  Forall2 (fun x s => line (fst x) (text_of x) = Ok s) (wf p k gs) ls ->
  exists fs', lines (Some p) gs k fs = (Ok (String.concat "" ls), fs') /\ (forall g f m, In (g, Some (f, m)) (wf p k gs) -> fs' f = Some (Matrix m)) /\
    (forall r, ~ In r (file_names (wf p k gs)) -> fs' r = fs r).
Proof.
  intros P. induction gs as [|g gs IH]; intros k fs ls O N F.
  - cbn in F. inversion F; subst. exists fs. cbn. split; [reflexivity|]. split; [intros ? ? ? []|reflexivity].
  - cbn [with_files gate_lines] in *. destruct (array g) as [m|].
    + cbn [file_names flat_map snd app] in O, N. inversion F as [|x s l' ls' E F']; subst. clear F. apply NoDup_cons_iff in N. destruct N as [Ni N].
      unfold return_custom_data. destruct p as [|ch p]; [congruence|]. fold (array_file join key name (String ch p) g k).
      assert (Of : can_open (array_file join key name (String ch p) g k) = true) by (apply O; left; reflexivity). rewrite Of. cbn [bindr].
      change (line g (Some ("(" ++ array_file join key name (String ch p) g k ++ ") ")%string) = Ok s) in E.
      match goal with |- context [line g ?t] => change (line g t) with (line g (Some ("(" ++ array_file join key name (String ch p) g k ++ ") ")%string)) end. rewrite E.
      destruct (IH (Datatypes.S k) (write fs (array_file join key name (String ch p) g k) (Matrix m)) ls') as (fs' & E' & A & B); [intros f Hf; apply O; right; exact Hf|exact N|exact F'|].
      rewrite E'. exists fs'. cbn [bindr]. rewrite concat_nil_cons. split; [reflexivity|]. split.
      * intros g' f m' [H|H]; [|exact (A g' f m' H)]. injection H as <- <- <-. etransitivity; [exact (B _ Ni)|apply write_same].
      * intros r H. cbn [file_names flat_map snd app] in H. rewrite B by (intros X; apply H; right; exact X). apply write_other. intros ->. apply H. left. reflexivity.
    + inversion F as [|x s l' ls' E F']; subst. clear F. unfold text_of in E. cbn [fst snd option_map] in E. cbn [bindr]. rewrite E.
      destruct (IH k fs ls' O N F') as (fs' & E' & A & B). rewrite E'. exists fs'. cbn [bindr]. rewrite concat_nil_cons. split; [reflexivity|]. split; [|exact B].
      intros g' f m' [H|H]; [discriminate|exact (A g' f m' H)].
Qed.
Lemma saved gs n p fs ls : p <> "" -> let q := join p (n ++ ".qasm")%string in
  (forall f, In f (q :: file_names (wf p 0 gs)) -> can_open f = true) -> NoDup (q :: file_names (wf p 0 gs)) ->
  Forall2 (fun x s => line (fst x) (text_of x) = Ok s) (wf p 0 gs) ls ->
  exists fs', save gs n p fs = (Ok q, fs', None) /\ fs' q = Some (Text (before ++ String.concat "" ls ++ after)%string) /\
    (forall g f m, In (g, Some (f, m)) (wf p 0 gs) -> fs' f = Some (Matrix m)) /\ (forall r, ~ In r (q :: file_names (wf p 0 gs)) -> fs' r = fs r).
Proof.
  intros P q O N F. unfold save_to_file. fold q. rewrite (O q (or_introl eq_refl)). apply NoDup_cons_iff in N. destruct N as [Nq N].
  destruct (lines_saved p gs P 0 (write fs q (Text "")) ls) as (fs' & E & A & B); [intros f Hf; apply O; right; exact Hf|exact N|exact F|].
  unfold to_qasm. rewrite E. cbn [bindr]. eexists. split; [reflexivity|]. split; [apply write_same|]. split.
  - intros g f m H. rewrite write_other; [exact (A g f m H)|]. intros ->. apply Nq. unfold file_names. apply in_flat_map. exists (g, Some (q, m)). split; [exact H|left; reflexivity].
  - intros r H. rewrite write_other by (intros ->; apply H; left; reflexivity). rewrite B by (intros X; apply H; right; exact X).
    apply write_other. intros ->. apply H. left. reflexivity.
Qed.
(** without a directory nothing is written *)
Lemma lines_plain o gs : o = None \/ o = Some "" -> forall k fs ls,
  Forall2 (fun g s => line g (option_map (fun _ => "(custom_data) ") (array g)) = Ok s) gs ls -> lines o gs k fs = (Ok (String.concat "" ls), fs).
Proof.
  intros H. induction gs as [|g gs IH]; intros k fs ls F; inversion F as [|x s l' ls' E F']; subst; [reflexivity|]. cbn [gate_lines].
  rewrite concat_nil_cons. destruct (array g) as [m|]; cbn [option_map] in E.
  - destruct H as [-> | ->]; cbn [return_custom_data bindr]; rewrite E, (IH k fs ls' F'); reflexivity.
  - cbn [bindr]. rewrite E, (IH k fs ls' F'). reflexivity.
Qed.
Lemma plain_text gs fs ls : Forall2 (fun g s => line g (option_map (fun _ => "(custom_data) ") (array g)) = Ok s) gs ls ->
  qasm None gs fs = (Ok (before ++ String.concat "" ls ++ after)%string, fs).
Proof. intros F. unfold to_qasm. rewrite (lines_plain None gs (or_introl eq_refl) 0 fs ls F). reflexivity. Qed.
Lemma empty_path gs n fs ls : let q := join "" (n ++ ".qasm")%string in can_open q = true ->
  Forall2 (fun g s => line g (option_map (fun _ => "(custom_data) ") (array g)) = Ok s) gs ls ->
  exists fs', save gs n "" fs = (Ok q, fs', None) /\ fs' q = Some (Text (before ++ String.concat "" ls ++ after)%string) /\ forall r, r <> q -> fs' r = fs r.
Proof.
  intros q O F. unfold save_to_file. fold q. rewrite O. unfold to_qasm. rewrite (lines_plain (Some "") gs (or_intror eq_refl) 0 _ ls F). cbn [bindr].
  eexists. split; [reflexivity|]. split; [apply write_same|]. intros r H. rewrite !write_other by exact H. reflexivity.
Qed.
Lemma collision g h m m' n p fs s s' : p <> "" -> name g = name h -> array g = Some m -> array h = Some m' -> key 0 = key 1 ->
  let q := join p (n ++ ".qasm")%string in let f := join p (name g ++ "_" ++ key 0 ++ ".npy")%string in
  q <> f -> can_open q = true -> can_open f = true -> line g (Some ("(" ++ f ++ ") ")%string) = Ok s -> line h (Some ("(" ++ f ++ ") ")%string) = Ok s' ->
  exists fs', save [g; h] n p fs = (Ok q, fs', None) /\ fs' q = Some (Text (before ++ (s ++ s') ++ after)%string) /\ fs' f = Some (Matrix m').
Proof.
  intros P E A A' K q f D Oq Of L L'. unfold save_to_file. fold q. rewrite Oq. unfold to_qasm.
  assert (R : forall x (m : M) k (fs : files M), name x = name g -> key k = key 0 -> return_custom_data join can_open key name (Some p) x m k fs = (Ok ("(" ++ f ++ ") ")%string, write fs f (Matrix m), Datatypes.S k)).
  { intros x m0 k fs0 Ex Ek. unfold return_custom_data, array_file. destruct p as [|ch p]; [congruence|]. rewrite Ex, Ek. fold f. rewrite Of. reflexivity. }
  cbn [gate_lines]. rewrite A, A', (R g m 0) by reflexivity. cbn [bindr]. rewrite L. rewrite (R h m' 1) by (symmetry; assumption). cbn [bindr]. rewrite L'. cbn [bindr].
  eexists. split; [reflexivity|]. split.
  - rewrite write_same, append_nil. reflexivity.
  - rewrite write_other by (apply not_eq_sym, D). apply write_same.
Qed.
Lemma stuck gs n p fs : can_open (join p (n ++ ".qasm")%string) = false -> save gs n p fs = (Err FileNotFoundError, fs, Some p).
Proof. intros O. unfold save_to_file. rewrite O. reflexivity. Qed.
Lemma stuck_later g m p fs : p <> "" -> array g = Some m -> (forall n, can_open (join p n) = false) -> qasm (Some p) [g] fs = (Err FileNotFoundError, fs).
Proof. intros P A O. unfold to_qasm. cbn [gate_lines]. rewrite A. unfold return_custom_data, array_file. destruct p; [congruence|]. rewrite O. reflexivity. Qed.
End Facts.
