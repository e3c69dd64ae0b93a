(** The table of real numbers of the C++ simulator's package.
    Source: include/dd/ComplexTable.hpp, ComplexNumbers.hpp (lines given below).

    A cell is an address; [vals] and [refs] are what the cells hold.  A bucket is the list of the cells that are linked
    through their next pointers; the list of available cells likewise.  Cells of a new chunk are numbered consecutively
    (chunks are never moved).  Statistics are left out except [count], which the collection looks at.  [tol] is
    TOLERANCE (2^-42 in the source, lines 523-525), [mask] is MASK (2^16, line 130), [root] is SQRT2_2, [limit0] is
    INITIAL_GC_LIMIT (65536).  Numbers are exact reals; the overflow of a number of more than 2^63 / MASK in the hash and
    clear() are left out. *)
From Coq Require Import List Arith ZArith Reals Bool.
From Verif Require Import Base.Cplx.
Import ListNotations.
Local Open Scope nat_scope.

(** ComplexTable.hpp:105-116 (the three static cells), 32-35 (a cell) and 504-542 (the fields) *)
Inductive ptr := Zero | One | Root | Cell (a : nat).
Record table := T { bucket : nat -> list nat; tail : nat -> option nat; vals : nat -> R; refs : nat -> nat;
  available : list nat; fresh : nat; count : nat; gc_limit : nat }.
Definition upd {A} (f : nat -> A) (k : nat) (x : A) : nat -> A := fun i => if Nat.eqb i k then x else f i.

Section Table.
Variable tol : R.
Variable mask : nat.
Variable root : R.
Variable limit0 : nat.

(** ComplexTable.hpp:80-90, 95-97 (approximatelyEquals, approximatelyZero, approximatelyOne) *)
Definition close (x y : R) : bool := if Rle_dec (Rabs (x - y)) tol then true else false.

(** std::nearbyint in the default rounding mode: to the nearest integer, ties to even *)
Definition nearbyint (x : R) : Z :=
  let n := Int_part x in
  let f := (x - IZR n)%R in
  if Rlt_dec f (1 / 2) then n else if Rlt_dec (1 / 2) f then (n + 1)%Z else if Z.even n then n else (n + 1)%Z.
(** ComplexTable.hpp:132-137 (hash) *)
Definition hash (v : R) : nat := Z.to_nat (Z.min (nearbyint (v * INR mask)) (Z.of_nat mask)).

(** ComplexTable.hpp:247-270 (getEntry): the cell, and the table with the cell taken *)
Definition get_entry (t : table) : nat * table :=
  match available t with
  | a :: r => (a, T (bucket t) (tail t) (vals t) (upd (refs t) a 0) r (fresh t) (count t) (gc_limit t))
  | [] => (fresh t, T (bucket t) (tail t) (vals t) (upd (refs t) (fresh t) 0) [] (S (fresh t)) (count t) (gc_limit t))
  end.

(** ComplexTable.hpp:547-581: the loop of findOrInsert that looks for a cell; [None] is the case that none was found *)
Fixpoint hit (vs : nat -> R) (v : R) (l : list nat) : option nat :=
  match l with
  | [] => None
  | c :: r =>
      if Rle_dec (vs c) (v + tol) then
        if close (vs c) v then
          match r with
          | n :: _ => if Rle_dec (vs n) (v + tol) then if Rlt_dec (Rabs (vs n - v)) (Rabs (vs c - v)) then Some n else Some c else Some c
          | [] => Some c
          end
        else hit vs v r
      else None
  end.
(** ComplexTable.hpp:550, 617-632: the new cell goes before the first one that holds more than [bound] *)
Fixpoint put (vs : nat -> R) (bound : R) (a : nat) (l : list nat) : list nat :=
  match l with
  | [] => [a]
  | c :: r => if Rle_dec (vs c) bound then c :: put vs bound a r else a :: c :: r
  end.
Fixpoint at_end (vs : nat -> R) (bound : R) (l : list nat) : bool :=
  match l with [] => true | c :: r => if Rle_dec (vs c) bound then at_end vs bound r else false end.
(** ComplexTable.hpp:583-602 and 612-639 (insert): [bound] is val + TOLERANCE in the first and val in the second *)
Definition insert (t : table) (key : nat) (v bound : R) : nat * table :=
  let (a, t1) := get_entry t in
  let l := bucket t1 key in
  (a, T (upd (bucket t1) key (put (vals t1) bound a l))
        (if at_end (vals t1) bound l then upd (tail t1) key (Some a) else tail t1)
        (upd (vals t1) a v) (refs t1) (available t1) (fresh t1) (S (count t1)) (gc_limit t1)).
(** ComplexTable.hpp:544-603 (findOrInsert) *)
Definition find_or_insert (t : table) (key : nat) (v : R) : nat * table :=
  match hit (vals t) v (bucket t key) with Some c => (c, t) | None => insert t key v (v + tol) end.

(** ComplexTable.hpp:152-245 (lookup), for v >= 0 *)
Definition lookup (t : table) (v : R) : ptr * table :=
  if close v 0 then (Zero, t)
  else if close v 1 then (One, t)
  else if close v root then (Root, t)
  else
    let lower := hash (v - tol) in
    let upper := hash (v + tol) in
    if Nat.eqb upper lower then let (a, t') := find_or_insert t lower v in (Cell a, t')
    else
      let key := hash v in
      let '(pl, pu) := if negb (Nat.eqb lower key) then (tail t lower, hd_error (bucket t key)) else (tail t key, hd_error (bucket t upper)) in
      let matches p := match p with Some a => close v (vals t a) | None => false end in
      match pl, pu with
      | Some l, Some u =>
          if matches pl && matches pu then
            if Rlt_dec (Rabs (vals t l - v)) (Rabs (vals t u - v)) then (Cell l, t) else (Cell u, t)
          else if matches pl then (Cell l, t)
          else if matches pu then (Cell u, t)
          else let (a, t') := insert t key v v in (Cell a, t')
      | Some l, None => if matches pl then (Cell l, t) else let (a, t') := insert t key v v in (Cell a, t')
      | None, Some u => if matches pu then (Cell u, t) else let (a, t') := insert t key v v in (Cell a, t')
      | None, None => let (a, t') := insert t key v v in (Cell a, t')
      end.

(** ComplexTable.hpp:278-297, 300-322 (incRef, decRef): the static cells are left alone; None is the exception.  The
    limit of the counter is left out. *)
Definition with_refs (t : table) (r : nat -> nat) : table := T (bucket t) (tail t) (vals t) r (available t) (fresh t) (count t) (gc_limit t).
Definition inc_ref (t : table) (p : ptr) : table := match p with Cell a => with_refs t (upd (refs t) a (S (refs t a))) | _ => t end.
Definition dec_ref (t : table) (p : ptr) : option table :=
  match p with
  | Cell a => match refs t a with 0 => None | S n => Some (with_refs t (upd (refs t) a n)) end
  | _ => Some t
  end.

(** ComplexTable.hpp:328-376 (garbageCollect), with returnEntry (272-275).  In each bucket the cells without references are unlinked and put in
    front of the available ones; the tail is set in every turn of the loop to the last cell that was kept. *)
Definition kept (t : table) (l : list nat) : list nat := filter (fun a => negb (Nat.eqb (refs t a) 0)) l.
Definition freed (t : table) (l : list nat) : list nat := filter (fun a => Nat.eqb (refs t a) 0) l.
Fixpoint last_of (l : list nat) : option nat := match l with [] => None | [a] => Some a | _ :: r => last_of r end.
Definition collect (force : bool) (t : table) : table :=
  if (negb force && Nat.ltb (count t) (gc_limit t)) || Nat.leb (count t) 1 then t
  else
    let keys := seq 0 (S mask) in
    let remaining := list_sum (map (fun k => length (kept t (bucket t k))) keys) in
    T (fun k => if Nat.leb k mask then kept t (bucket t k) else bucket t k)
      (fun k => if Nat.leb k mask then match bucket t k with [] => tail t k | _ => last_of (kept t (bucket t k)) end else tail t k)
      (vals t) (refs t)
      (fold_left (fun av k => rev (freed t (bucket t k)) ++ av) keys (available t))
      (fresh t) remaining
      (if Nat.ltb (gc_limit t / 10 * 9) remaining then remaining + limit0
       else if Nat.ltb remaining (gc_limit t / 128) then gc_limit t / 2 else gc_limit t).

(** ComplexTable.hpp:118-122: the constructor stores 1/2 and keeps it *)
Definition empty : table := T (fun _ => []) (fun _ => None) (fun _ => 0%R) (fun _ => 0) [] 0 0 limit0.
Definition init : table := let (p, t) := lookup empty (1 / 2) in inc_ref t p.

(** what the package does with the table *)
Inductive op := Lookup (v : R) | IncRef (p : ptr) | DecRef (p : ptr) | Collect (force : bool).
Definition step (t : table) (o : op) : option table :=
  match o with
  | Lookup v => Some (snd (lookup t v))
  | IncRef p => Some (inc_ref t p)
  | DecRef p => dec_ref t p
  | Collect f => Some (collect f t)
  end.
Fixpoint run (t : table) (os : list op) : option table :=
  match os with [] => Some t | o :: r => match step t o with Some t' => run t' r | None => None end end.

(** ComplexTable.hpp:62-67 (val): what a pointer stands for; Complex.hpp:20-22: numbers are pairs of pointers with a sign bit *)
Definition value (t : table) (p : ptr) : R := match p with Zero => 0%R | One => 1%R | Root => root | Cell a => vals t a end.
Definition sptr := (bool * ptr)%type.
Definition svalue (t : table) (p : sptr) : R := if fst p then (- value t (snd p))%R else value t (snd p).
Definition cvalue (t : table) (c : sptr * sptr) : C := (svalue t (fst c), svalue t (snd c)).
(** ComplexNumbers.hpp:156-188 (lookup); the sign bit of -0.0 gives the same as 0.0 *)
Definition slookup (t : table) (x : R) : sptr * table :=
  if Rlt_dec x 0 then
    if Rlt_dec (Rabs x) tol then ((false, Zero), t) else let (p, t') := lookup t (Rabs x) in ((true, p), t')
  else let (p, t') := lookup t x in ((false, p), t').
Definition clookup (t : table) (z : C) : (sptr * sptr) * table :=
  let (r, t1) := slookup t (fst z) in let (i, t2) := slookup t1 (snd z) in ((r, i), t2).
(** ComplexNumbers.hpp:101-117 (conj, neg), ComplexTable.hpp:52-55 (flipPointerSign); a pointer to zero is not flipped *)
Definition flip (p : sptr) : sptr := match p with (false, Zero) => p | (s, q) => (negb s, q) end.
Definition conj (c : sptr * sptr) : sptr * sptr := (fst c, flip (snd c)).
Definition neg (c : sptr * sptr) : sptr * sptr := (flip (fst c), flip (snd c)).

(** ComplexNumbers.hpp:49-68, 69-88 (mul, div): what is written; Complex.hpp:36-48 (the comparisons) *)
Definition near (x y : C) : bool := close (fst x) (fst y) && close (snd x) (snd y).
Definition mul (a b : C) : C :=
  if near a C1 then b else if near b C1 then a else if near a C0 || near b C0 then C0 else Cmul a b.
Definition div (a b : C) : C :=
  if near a b then C1 else if near b C1 then a
  else (((fst a * fst b + snd a * snd b) / Cnorm2 b)%R, ((snd a * fst b - fst a * snd b) / Cnorm2 b)%R).

End Table.
