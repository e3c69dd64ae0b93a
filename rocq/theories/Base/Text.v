(** Text as lists of characters: Python's str operations used by the modelled code.
    Only ASCII text is considered: the classes below are Python's on code points below 128. *)
From Coq Require Export Ascii.
From Verif Require Import Base.Py.

Notation text := (list ascii) (only parsing).
Definition tx (s : string) : text := list_ascii_of_string s.
Definition st (t : text) : string := string_of_list_ascii t.

Definition between (lo hi : nat) (a : ascii) : bool :=
  Nat.leb lo (nat_of_ascii a) && Nat.leb (nat_of_ascii a) hi.
(** \d *)
Definition is_digit (a : ascii) : bool := between 48 57 a.
(** \w : [a-zA-Z0-9_] *)
Definition is_word (a : ascii) : bool :=
  is_digit a || between 65 90 a || between 97 122 a || Nat.eqb (nat_of_ascii a) 95.
(** \s and str.strip: tab, line feed, vertical tab, form feed, carriage return, file/group/
    record/unit separators, space *)
Definition is_space (a : ascii) : bool := between 9 13 a || between 28 32 a.

Definition nl : ascii := ascii_of_nat 10.

(** str(n) for a natural number *)
Definition digit_char (n : nat) : ascii := ascii_of_nat (48 + n).
Fixpoint show_fuel (f n : nat) (acc : text) : text :=
  match f with
  | O => acc
  | S f' => let acc' := digit_char (n mod 10) :: acc in
            if Nat.ltb n 10 then acc' else show_fuel f' (n / 10) acc'
  end.
Definition show_nat (n : nat) : text := show_fuel (S n) n [].
(** str(z) for an int *)
Definition show_Z (z : Z) : text :=
  if (z <? 0)%Z then "-"%char :: show_nat (Z.to_nat (- z)) else show_nat (Z.to_nat z).

(** int(s) for a string of digits *)
Definition digit_val (a : ascii) : nat := nat_of_ascii a - 48.
Definition read_nat (t : text) : nat := fold_left (fun n a => 10 * n + digit_val a) t 0.

(** sep.join(l) *)
Fixpoint join (sep : text) (l : list text) : text :=
  match l with
  | [] => []
  | [x] => x
  | x :: r => x ++ sep ++ join sep r
  end.

(** s.split(c) for one character c: always at least one piece *)
Fixpoint split_on (c : ascii) (s : text) : list text :=
  match s with
  | [] => [[]]
  | a :: r => if Ascii.eqb a c then [] :: split_on c r
              else match split_on c r with
                   | p :: ps => (a :: p) :: ps
                   | [] => [[a]]
                   end
  end.

(** s.strip(chars) with the character set as a predicate *)
Fixpoint lstrip (p : ascii -> bool) (s : text) : text :=
  match s with
  | [] => []
  | a :: r => if p a then lstrip p r else s
  end.
Definition strip (p : ascii -> bool) (s : text) : text := rev (lstrip p (rev (lstrip p s))).

(** s.startswith(p) and "p in s" *)
Fixpoint prefixb (p s : text) : bool :=
  match p, s with
  | [], _ => true
  | a :: p', b :: s' => Ascii.eqb a b && prefixb p' s'
  | _, [] => false
  end.
Fixpoint containsb (p s : text) : bool :=
  prefixb p s || match s with [] => false | _ :: r => containsb p r end.

(** s[:-2] *)
Definition drop2 (s : text) : text := firstn (List.length s - 2) s.

Definition eqb_text (a b : text) : bool := if list_eq_dec ascii_dec a b then true else false.
