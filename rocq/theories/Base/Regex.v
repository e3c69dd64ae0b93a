(** Python's re on ASCII text: a backtracking matcher in continuation-passing style.
    Alternatives are tried left to right, repetitions are greedy; the first way to match the whole
    expression wins, as in CPython.  Iterations of a repetition that consume nothing are not
    modelled (no expression of the code has one). *)
From Verif Require Import Base.Py Base.Text.

Inductive rx :=
| Chr (p : ascii -> bool)      (* one character of a class *)
| Eps
| Seq (a b : rx)
| Alt (a b : rx)               (* a|b *)
| Star (a : rx)                (* a*, greedy *)
| Grp (n : nat) (a : rx).      (* ( a ), capture group n *)

Definition Opt (a : rx) : rx := Alt a Eps.
Definition Plus (a : rx) : rx := Seq a (Star a).
Definition Ch (c : ascii) : rx := Chr (Ascii.eqb c).
Fixpoint Lits (s : text) : rx := match s with [] => Eps | a :: r => Seq (Ch a) (Lits r) end.
Definition Lit (s : string) : rx := Lits (tx s).
Definition W := Chr is_word.
Definition D := Chr is_digit.
Definition Sp := Star (Chr is_space).

(** captured groups, the latest first *)
Definition caps := list (nat * text).
Definition group (c : caps) (n : nat) : option text := dget Nat.eqb c n.

Definition consumed (s s' : text) : text := firstn (List.length s - List.length s') s.

Section Match.
Context {X : Type}.
Definition cont := text -> caps -> option X.

Section StarLoop.
Variable ma : text -> caps -> cont -> option X.
Fixpoint star_loop (fuel : nat) (s : text) (c : caps) (k : cont) : option X :=
  match fuel with
  | O => k s c
  | S f => match ma s c (fun s' c' => if Nat.ltb (List.length s') (List.length s) then star_loop f s' c' k else None) with
           | Some x => Some x
           | None => k s c
           end
  end.
End StarLoop.

Fixpoint m (r : rx) (s : text) (c : caps) (k : cont) {struct r} : option X :=
  match r with
  | Chr p => match s with a :: s' => if p a then k s' c else None | [] => None end
  | Eps => k s c
  | Seq a b => m a s c (fun s' c' => m b s' c' k)
  | Alt a b => match m a s c k with Some x => Some x | None => m b s c k end
  | Star a => star_loop (m a) (List.length s) s c k
  | Grp n a => m a s c (fun s' c' => k s' ((n, consumed s s') :: c'))
  end.
End Match.

(** pattern.match(s): the rest of the text and the groups *)
Definition re_match (r : rx) (s : text) : option (text * caps) := m r s [] (fun s' c => Some (s', c)).
(** pattern.search(s) *)
Fixpoint re_search (r : rx) (s : text) : option (text * caps) :=
  match re_match r s with
  | Some x => Some x
  | None => match s with [] => None | _ :: s' => re_search r s' end
  end.
Definition matches (r : rx) (s : text) : bool := match re_match r s with Some _ => true | None => false end.

(** pattern.findall(s): non-overlapping matches from left to right (for expressions that match no
    empty text). *)
Fixpoint findall_fuel (f : nat) (r : rx) (s : text) : list caps :=
  match f with
  | O => []
  | S f' => match re_match r s with
            | Some (s', c) => c :: findall_fuel f' r s'
            | None => match s with [] => [] | _ :: s' => findall_fuel f' r s' end
            end
  end.
Definition re_findall (r : rx) (s : text) : list caps := findall_fuel (S (List.length s)) r s.
