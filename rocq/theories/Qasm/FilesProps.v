(** What saving a circuit to a file writes (C116).  The files that go with the gates are in FilesSpec.v.  The theorems are for any gates
    (G) and arrays (M); [line] makes the line of a gate from the text for its array, as in C19; [join] is the path operator of
    pathlib, [key] the random letters of the files, [can_open] says whether a file can be opened for writing. *)
From Verif.Base Require Import Py PyFacts.
From Verif.Base Require Import Text.
From Verif.Circuit Require Import CircuitModel GateModel.
From Verif.Gates Require Import SingleModel.
From Verif.Qasm Require Import QasmModel QasmSpec ReadFileProofs.
From Verif.Qasm Require Import FilesModel FilesSpec FilesProofs.
Local Open Scope string_scope.
Local Open Scope list_scope.

(** ** C116: a saved circuit names, for every custom gate, a file with its matrix *)

(** If the random letters give different files: the file of the circuit has the text of the circuit, every gate with an array
    names its file there, that file has the array of this gate, and no other file changes. *)
Theorem C116_saved : forall G M join can_open key name (array : G -> option M) line before after gs n p (fs : files M) ls, p <> "" ->
  let q := join p (n ++ ".qasm")%string in let l := with_files join key name array p 0 gs in
  (forall f, In f (q :: file_names l) -> can_open f = true) -> NoDup (q :: file_names l) ->
  Forall2 (fun x s => line (fst x) (match snd x with Some (f, _) => Some ("(" ++ f ++ ") ")%string | None => None end) = Ok s) l ls ->
  exists fs', save_to_file join can_open key name array line before after gs n p fs = (Ok q, fs', None) /\
    fs' q = Some (Text (before ++ String.concat "" ls ++ after)%string) /\
    (forall g f m, In (g, Some (f, m)) l -> fs' f = Some (Matrix m)) /\ (forall r, ~ In r (q :: file_names l) -> fs' r = fs r).
Proof.
  intros G M join can_open key name array line before after gs n p fs ls P q l O N F. apply saved; try assumption.
  revert F. apply Forall2_impl_plain. intros (g, [(f, m)|]) s H; exact H.
Qed.
Print Assumptions C116_saved.

(** The text of a circuit that is not being saved writes no file. *)
Theorem C116_text : forall G M join can_open key name (array : G -> option M) line before after gs (fs : files M) ls,
  Forall2 (fun g s => line g (match array g with Some _ => Some "(custom_data) " | None => None end) = Ok s) gs ls ->
  FilesModel.to_qasm join can_open key name array line before after None gs fs = (Ok (before ++ String.concat "" ls ++ after)%string, fs).
Proof.
  intros G M join can_open key name array line before after gs fs ls F. apply plain_text. revert F. apply Forall2_impl_plain.
  intros g s H. destruct (array g); exact H.
Qed.
Print Assumptions C116_text.

(** Reading such a line back loads the file it names (here by numpy's load, an argument) and gives a custom gate with the array on
    the operands of the line, provided the path has no closing parenthesis. *)
Theorem C116_read : forall Arr eval load (s : @pstate Arr) tag u x l, In tag ["cuone"; "cutwo"; "cumulti"] -> p_comment s = false ->
  (forall a, In a u -> a <> ")"%char) -> word (tx (fst x)) -> (forall y, In y l -> word (tx (fst y))) ->
  parse_line eval load s (tx tag ++ tx " (" ++ (u ++ tx ".npy") ++ tx ") " ++
      Text.join (tx ", ") (map (fun y => tx (fst y) ++ tx "[" ++ show_nat (snd y) ++ tx "]") (x :: l)) ++ tx ";") =
  (let? a := load (u ++ tx ".npy") in let? qs := mapr (fun y => QasmModel.lookup (p_sitemap s) (fst y) (snd y)) (x :: l) in
   Ok (PState (p_sitemap s) (p_classic s) (p_gates s ++ [Instr tag (AArray a) qs None]) false)).
Proof. intros Arr. exact read_array. Qed.
Print Assumptions C116_read.

(** Violations.  Four random letters can repeat: two custom gates of one name then share a file, and both lines name the matrix of
    the second. *)
Theorem C116_collision_refuted : forall G M join can_open key name (array : G -> option M) line before after g h m m' n p (fs : files M) s s', p <> "" ->
  name g = name h -> array g = Some m -> array h = Some m' -> key 0 = key 1 ->
  let q := join p (n ++ ".qasm")%string in let f := join p (name g ++ "_" ++ key 0 ++ ".npy")%string in
  q <> f -> can_open q = true -> can_open f = true -> line g (Some ("(" ++ f ++ ") ")%string) = Ok s -> line h (Some ("(" ++ f ++ ") ")%string) = Ok s' ->
  exists fs', save_to_file join can_open key name array line before after [g; h] n p fs = (Ok q, fs', None) /\
    fs' q = Some (Text (before ++ (s ++ s') ++ after)%string) /\ fs' f = Some (Matrix m').
Proof. intros G M join can_open key name array line before after. exact (collision join can_open key name array line before after). Qed.
Print Assumptions C116_collision_refuted.
(** With the empty path, the current directory, no array is saved and no exception raised: every custom gate has the text custom_data. *)
Theorem C116_empty_path_refuted : forall G M join can_open key name (array : G -> option M) line before after gs n (fs : files M) ls,
  let q := join "" (n ++ ".qasm")%string in can_open q = true ->
  Forall2 (fun g s => line g (match array g with Some _ => Some "(custom_data) " | None => None end) = Ok s) gs ls ->
  exists fs', save_to_file join can_open key name array line before after gs n "" fs = (Ok q, fs', None) /\
    fs' q = Some (Text (before ++ String.concat "" ls ++ after)%string) /\ forall r, r <> q -> fs' r = fs r.
Proof.
  intros G M join can_open key name array line before after gs n fs ls q O F. apply empty_path; [exact O|]. revert F. apply Forall2_impl_plain.
  intros g s H. destruct (array g); exact H.
Qed.
Print Assumptions C116_empty_path_refuted.
(** A save that fails leaves the path set in the circuit, so that asking for the text of a circuit with a custom gate raises from then on. *)
Theorem C116_failed_save_refuted : forall G M join can_open key name (array : G -> option M) line before after g m n p (fs : files M) s, p <> "" ->
  array g = Some m -> line g (Some "(custom_data) ") = Ok s -> (forall f, can_open (join p f) = false) ->
  FilesModel.to_qasm join can_open key name array line before after None [g] fs = (Ok (before ++ s ++ after)%string, fs) /\
  exists path_save, save_to_file join can_open key name array line before after [g] n p fs = (Err FileNotFoundError, fs, path_save) /\
    FilesModel.to_qasm join can_open key name array line before after path_save [g] fs = (Err FileNotFoundError, fs).
Proof.
  intros G M join can_open key name array line before after g m n p fs s P A L O. split.
  - rewrite (plain_text join can_open key name array line before after [g] fs [s]); [reflexivity|]. constructor; [rewrite A; exact L|constructor].
  - exists (Some p). split; [apply stuck, O|exact (stuck_later join can_open key name array line before after g m p fs P A O)].
Qed.
Print Assumptions C116_failed_save_refuted.

(** Gates are pairs of a name and perhaps a number as the array; two gates called CUo and one without an array are saved with
    the letters aaaa and bbbb, and again with aaaa twice. *)
Definition case_line (g : string * option Z) (t : option string) : res string := Ok (fst g ++ " " ++ match t with Some t => t | None => "" end ++ "q;")%string.
Definition case_join (a b : string) : string := (a ++ "/" ++ b)%string.
Definition case_save (key : nat -> string) := save_to_file case_join (fun _ => true) key (@fst string (option Z)) snd case_line "B " "E"
  [("CUo", Some 5%Z); ("h", None); ("CUo", Some 7%Z)] "c" "." (fun _ => None).
Example C116_case :
  let fs := snd (fst (case_save (fun k => if Nat.eqb k 0 then "aaaa" else "bbbb"))) in
  let fs' := snd (fst (case_save (fun _ => "aaaa"))) in
  fs "./c.qasm" = Some (Text "B CUo (./CUo_aaaa.npy) q;h q;CUo (./CUo_bbbb.npy) q;E") /\
  fs "./CUo_aaaa.npy" = Some (Matrix 5%Z) /\ fs "./CUo_bbbb.npy" = Some (Matrix 7%Z) /\
  fs' "./CUo_aaaa.npy" = Some (Matrix 7%Z) /\ fs' "./CUo_bbbb.npy" = None.
Proof. vm_compute. repeat split. Qed.
