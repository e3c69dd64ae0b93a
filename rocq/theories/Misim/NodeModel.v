(** The decision diagrams of the C++ simulator in memory: nodes behind pointers, the unique tables, the compute tables,
    the table of identities and the flags of the nodes.
    Source: include/dd/MDDPackage.hpp, UniqueTable.hpp, ComputeTable.hpp, UnaryComputeTable.hpp, Edge.hpp,
    src/python/bindings.cpp (lines given below).

    Misim/DdModel.v is the same code without memory: there an edge holds the node it points to, and every result is
    computed afresh.  Here an edge holds an address, nodes are shared, and results are taken from tables.

    Simplifications, besides those of DdModel.v (exact weights; no 8-bit registers).  Addresses are natural numbers;
    chunks of nodes are never moved, so new nodes have consecutive addresses.  Hash values are arbitrary functions of
    what is hashed.  The vector and the matrix half of the package are one definition with the argument [m] (matrix).
    Reference counts are left out: the binding never changes them, and the functions that would (incRef, decRef,
    garbageCollect) are templates that are never instantiated.  The null pointer of a default edge does not occur. *)
From Coq Require Import String ZArith Arith Reals Bool List.
From Verif Require Import Base.Cplx Base.Matrix Gates.AnglesModel Gates.SingleModel Sim.TnModel Misim.DdModel Misim.MisimModel.
Import ListNotations.
Local Open Scope nat_scope.

(** ** normalisation, for edges to nodes of any kind: the text of DdModel.v with [N] for the nodes (there [node]) *)
Section Generic.
Variable N : Type.
Variable term : N.
Variable tol : R.
Definition g_at (es : list (C * N)) (i : nat) : C * N := nth i es (C0, term).
Definition g_mag2 (es : list (C * N)) (i : nat) : R := Cnorm2 (fst (g_at es i)).
(** MDDPackage.hpp:165-174, 392-403 *)
Definition g_clear (cached : bool) (es : list (C * N)) : list (C * N) :=
  if cached then map (fun e => if near_zero tol (fst e) then (C0, term) else e) es else es.
(** MDDPackage.hpp:202-222 *)
Definition g_vpivot (es : list (C * N)) : nat :=
  snd (fold_left (fun (acc : R * nat) i => if Rle_dec (fst acc) (g_mag2 es i + tol) then (g_mag2 es i, i) else acc)
    (rev (seq 0 (length es))) (g_mag2 es 0, 0)).
Fixpoint g_sum_mag2 (n : nat) (es : list (C * N)) : R := match n with O => 0%R | S m => (g_sum_mag2 m es + g_mag2 es m)%R end.
(** MDDPackage.hpp:150-274 (normalize for vectors) *)
Definition g_vnormalise (cached : bool) (es0 : list (C * N)) : option (C * list (C * N)) :=
  let nz := filter (fun i => negb (near_zero tol (fst (g_at es0 i)))) (seq 0 (length es0)) in
  let es := g_clear cached es0 in
  match nz with
  | [] => None
  | [k] => Some (fst (g_at es k), tab (length es) (fun i => if Nat.eqb i k then (C1, snd (g_at es i)) else g_at es i))
  | _ =>
      let k := g_vpivot es in
      let norm := sqrt (g_sum_mag2 (length es) es) in
      let magmax := sqrt (g_mag2 es k) in
      let factor := RtoC (norm / magmax) in
      let w := fst (g_at es k) in
      let top := if cached && negb (is_one w) then Cmul w factor else factor in
      if negb (cached && negb (is_one w)) && near_zero tol top then None
      else Some (top, tab (length es) (fun i =>
        let e := g_at es i in
        let c := if Nat.eqb i k then RtoC (magmax / norm) else Cdiv (fst e) top in
        if is_zero c then (C0, term) else (c, snd e)))
  end.
(** MDDPackage.hpp:405-425 *)
Definition g_mpivot (es : list (C * N)) : option nat :=
  fold_left (fun (acc : option nat) i =>
    if near_zero tol (fst (g_at es i)) then acc
    else match acc with
         | None => Some i
         | Some k => if Rlt_dec tol (g_mag2 es i - g_mag2 es k) then Some i else acc
         end) (seq 0 (length es)) None.
(** MDDPackage.hpp:383-476 (normalize for matrices) *)
Definition g_mnormalise (cached : bool) (es0 : list (C * N)) : option (C * list (C * N)) :=
  let es := g_clear cached es0 in
  match g_mpivot es with
  | None => None
  | Some k =>
      let w := fst (g_at es k) in
      Some (w, tab (length es) (fun i =>
        let e := g_at es i in
        if Nat.eqb i k then (C1, snd e)
        else (Cdiv (if near tol (fst e) C1 then C1 else fst e) w, snd e)))
  end.
End Generic.

(** ** memory *)

(** A pointer to a node; None is the terminal node (MDDPackage.hpp:140, 373). *)
Definition ref := option nat.
Notation aedge := (C * ref)%type.
Definition zero_a : aedge := (C0, None).
Definition one_a : aedge := (C1, None).
Definition at_a (es : list aedge) (i : nat) : aedge := g_at ref None es i.

(** The nodes of one kind (MDDPackage.hpp:129-146, 362-379) and their unique table (UniqueTable.hpp): per register and
    hash value the nodes that are linked in the bucket; the nodes that can be handed out again; the first address never
    used. *)
Record heap := H { cell : nat -> nat * list aedge; sym : nat -> bool; idn : nat -> bool;
  bucket : nat -> nat -> list nat; avail : list nat; fresh : nat }.
(** The compute tables (MDDPackage.hpp:703-704, 840-841, 1869): an array of entries, None while nothing was stored; and
    the table of the identities (697).  The table of transposed matrices stays empty: see [check_special]. *)
Record store := St { heaps : bool -> heap; add_table : bool -> nat -> option (aedge * aedge * aedge);
  mul_table : bool -> nat -> option (ref * ref * aedge); adj_table : nat -> option (aedge * aedge); id_table : nat -> option aedge }.
Definition upd {A} (f : nat -> A) (k : nat) (x : A) : nat -> A := fun i => if Nat.eqb i k then x else f i.
Definition with_heap (s : store) (m : bool) (h : heap) : store :=
  St (fun b => if Bool.eqb b m then h else heaps s b) (add_table s) (mul_table s) (adj_table s) (id_table s).
(** MDDPackage.hpp:65-68 (the constructor) *)
Definition empty_heap : heap := H (fun _ => (0, [])) (fun _ => false) (fun _ => false) (fun _ _ => []) [] 0.
Definition init_store : store := St (fun _ => empty_heap) (fun _ _ => None) (fun _ _ => None) (fun _ => None) (fun _ => None).

(** computations that use the memory and can throw *)
Definition M (A : Type) : Type := store -> cres (A * store).
Definition ret {A} (x : A) : M A := fun s => Done (x, s).
Definition bind {A B} (x : M A) (f : A -> M B) : M B := fun s => match x s with Done (a, s') => f a s' | Throw e => Throw e end.
Definition lift {A} (x : cres A) : M A := fun s => match x with Done a => Done (a, s) | Throw e => Throw e end.
Notation "'let*' x ':=' e 'in' f" := (bind e (fun x => f)) (at level 200, x name, e at level 100, f at level 200).
Fixpoint each {A B} (f : A -> M B) (l : list A) : M (list B) :=
  match l with [] => ret [] | a :: r => let* b := f a in let* bs := each f r in ret (b :: bs) end.
Definition tab_m {B} (n : nat) (f : nat -> M B) : M (list B) := each f (seq 0 n).

Section Package.
Variable tol : R.
Variable dims : list nat.
Variable uhash : bool -> list aedge -> nat.
Variable ahash : bool -> aedge -> aedge -> nat.
Variable mhash : bool -> ref -> ref -> nat.
Variable chash : aedge -> nat.

(** comparison of pointers; Edge.hpp:24-27 (operator== of edges), and of vectors of edges *)
Definition ref_eqb (r q : ref) : bool :=
  match r, q with None, None => true | Some a, Some b => Nat.eqb a b | _, _ => false end.
Definition edge_eqb (e f : aedge) : bool := ref_eqb (snd e) (snd f) && near tol (fst e) (fst f).
Fixpoint edges_eqb (es fs : list aedge) : bool :=
  match es, fs with [], [] => true | e :: es', f :: fs' => edge_eqb e f && edges_eqb es' fs' | _, _ => false end.

(** UniqueTable.hpp:137-165 (getNode, returnNode) *)
Definition get_node (h : heap) : nat * heap :=
  match avail h with
  | a :: r => (a, H (cell h) (sym h) (idn h) (bucket h) r (fresh h))
  | [] => (fresh h, H (cell h) (sym h) (idn h) (bucket h) [] (S (fresh h)))
  end.
Definition return_node (h : heap) (a : nat) : heap := H (cell h) (sym h) (idn h) (bucket h) (a :: avail h) (fresh h).
(** writing the register and the edges of a node *)
Definition put_node (h : heap) (a v : nat) (es : list aedge) : heap := H (upd (cell h) a (v, es)) (sym h) (idn h) (bucket h) (avail h) (fresh h).
(** UniqueTable.hpp:128-132: a new node is put in front of its bucket *)
Definition link (h : heap) (v key a : nat) : heap :=
  H (cell h) (sym h) (idn h) (fun v' k => if Nat.eqb v' v && Nat.eqb k key then a :: bucket h v k else bucket h v' k) (avail h) (fresh h).

(** the flags; the terminal node has both (MDDPackage.hpp:1975-1983) *)
Definition symmetric (h : heap) (r : ref) : bool := match r with None => true | Some a => sym h a end.
Definition identity (h : heap) (r : ref) : bool := match r with None => true | Some a => idn h a end.
Definition set_flags (h : heap) (a : nat) (s i : bool) : heap := H (cell h) (upd (sym h) a s) (upd (idn h) a i) (bucket h) (avail h) (fresh h).
(** MDDPackage.hpp:1823-1833: every edge off the diagonal is transposed and compared with the one on the other side.
    Transposing an edge to a symmetric node (or the terminal) gives the edge back; any other edge is written with at()
    into an empty vector (1883-1893), which throws: None. *)
Fixpoint mirrored (h : heap) (d : nat) (es : list aedge) (ps : list nat) : option bool :=
  match ps with
  | [] => Some true
  | p :: r =>
      if Nat.eqb (p / d) (p mod d) then mirrored h d es r
      else if symmetric h (snd (at_a es p)) then
        if edge_eqb (at_a es p) (at_a es (p mod d * d + p / d)) then mirrored h d es r else Some false
      else None
  end.
(** MDDPackage.hpp:1803-1861 (checkSpecialMatrices) *)
Definition check_special (h : heap) (a : nat) : option heap :=
  let d := nth (fst (cell h a)) dims 0 in
  let es := snd (cell h a) in
  let h0 := set_flags h a false false in
  if forallb (fun i => symmetric h0 (snd (at_a es (i * d + i)))) (seq 0 d) then
    match mirrored h0 d es (seq 0 (d * d)) with
    | None => None
    | Some false => Some h0
    | Some true => Some (set_flags h a true (forallb (fun p =>
        if Nat.eqb (p / d) (p mod d) then identity h0 (snd (at_a es p)) && is_one (fst (at_a es p)) else is_zero (fst (at_a es p))) (seq 0 (d * d))))
    end
  else Some h0.

(** MDDPackage.hpp:326-358 (makeDDNode) with UniqueTable.hpp:87-135 (lookup).  A node that turns out to be zero is handed
    back (177-183, 428-434) if the weights are not cached, and forgotten otherwise. *)
Definition make_node (m cached : bool) (v : nat) (es : list aedge) : M aedge := fun s =>
  let (a, h1) := get_node (heaps s m) in
  match (if m then g_mnormalise ref None tol cached es else g_vnormalise ref None tol cached es) with
  | None =>
      let h2 := put_node h1 a v es in
      Done (zero_a, with_heap s m (if negb cached && forallb (fun e => near_zero tol (fst e)) es then return_node h2 a else h2))
  | Some (w, es') =>
      let h2 := put_node h1 a v es' in
      match find (fun p => edges_eqb es' (snd (cell h2 p))) (bucket h2 v (uhash m es')) with
      | Some p => Done ((w, Some p), with_heap s m (if Nat.eqb p a then h2 else return_node h2 a))
      | None =>
          let h3 := link h2 v (uhash m es') a in
          if m then match check_special h3 a with Some h4 => Done ((w, Some a), with_heap s m h4) | None => Throw OutOfRange end
          else Done ((w, Some a), with_heap s m h3)
      end
  end.

(** the edges of a node, read through the pointer *)
Definition edges (s : store) (m : bool) (a : nat) : list aedge := snd (cell (heaps s m) a).

(** ComputeTable.hpp:49-74 (insert, lookup) *)
Definition add_lookup (s : store) (m : bool) (x y : aedge) : option aedge :=
  match add_table s m (ahash m x y) with Some (x', y', r) => if edge_eqb x' x && edge_eqb y' y then Some r else None | None => None end.
Definition add_insert (s : store) (m : bool) (x y r : aedge) : store :=
  St (heaps s) (fun b => if Bool.eqb b m then upd (add_table s b) (ahash m x y) (Some (x, y, r)) else add_table s b) (mul_table s) (adj_table s) (id_table s).
Definition mul_lookup (s : store) (m : bool) (x y : ref) : option aedge :=
  match mul_table s m (mhash m x y) with Some (x', y', r) => if ref_eqb x' x && ref_eqb y' y then Some r else None | None => None end.
Definition mul_insert (s : store) (m : bool) (x y : ref) (r : aedge) : store :=
  St (heaps s) (add_table s) (fun b => if Bool.eqb b m then upd (mul_table s b) (mhash m x y) (Some (x, y, r)) else mul_table s b) (adj_table s) (id_table s).
(** UnaryComputeTable.hpp:42-62 *)
Definition adj_lookup (s : store) (x : aedge) : option aedge :=
  match adj_table s (chash x) with Some (x', r) => if edge_eqb x' x then Some r else None | None => None end.
Definition adj_insert (s : store) (x r : aedge) : store :=
  St (heaps s) (add_table s) (mul_table s) (upd (adj_table s) (chash x) (Some (x, r))) (id_table s).
Definition id_insert (s : store) (v : nat) (r : aedge) : store :=
  St (heaps s) (add_table s) (mul_table s) (adj_table s) (upd (id_table s) v (Some r)).

(** MDDPackage.hpp:608-685 (makeIdent) for the registers 0 to k-1 *)
Definition ident_layer (v : nat) (e : aedge) : M aedge :=
  let d := nth v dims 0 in make_node true false v (tab (d * d) (fun p => if Nat.eqb (p / d) (p mod d) then e else zero_a)).
Fixpoint ident_layers (vs : list nat) (e : aedge) : M aedge :=
  match vs with [] => ret e | v :: r => let* e' := ident_layer v e in ident_layers r e' end.
Definition ident_m (k : nat) : M aedge := fun s =>
  match k with
  | O => Done (one_a, s)
  | S v =>
      let keep (e : aedge) : M aedge := fun s => Done (e, id_insert s v e) in
      match id_table s v with
      | Some e => Done (e, s)
      | None =>
          match v with
          | S u => match id_table s u with
                   | Some e => (let* r := ident_layer v e in keep r) s
                   | None => (let* r := ident_layers (seq 0 k) one_a in keep r) s
                   end
          | O => (let* r := ident_layers (seq 0 k) one_a in keep r) s
          end
      end
  end.

(** MDDPackage.hpp:277-301 (makeZeroState) *)
Fixpoint zero_layers (vs : list nat) (e : aedge) : M aedge :=
  match vs with [] => ret e | v :: r => let* e' := make_node false false v (e :: repeat zero_a (nth v dims 0 - 1)) in zero_layers r e' end.
Definition zero_state_m : M aedge := zero_layers (seq 0 (length dims)) one_a.

(** MDDPackage.hpp:727-835 (add2) *)
Fixpoint add_m (m : bool) (n : nat) (x y : aedge) : M aedge := fun s =>
  if is_zero (fst x) then Done (y, s)
  else if is_zero (fst y) then Done (x, s)
  else if ref_eqb (snd x) (snd y) then
    let w := Cadd (fst x) (fst y) in Done (if near_zero tol w then zero_a else (w, snd y), s)
  else match add_lookup s m x y with
  | Some r => Done (if near_zero tol (fst r) then zero_a else r, s)
  | None =>
      match snd x, snd y, n with
      | Some a, Some b, S n' =>
          (let* rs := tab_m (length (edges s m a)) (fun i s =>
             let e1 := at_a (edges s m a) i in
             let e2 := at_a (edges s m b) i in
             add_m m n' (if is_zero (fst e1) then e1 else (Cmul (fst e1) (fst x), snd e1))
                        (if is_zero (fst e2) then e2 else (Cmul (fst e2) (fst y), snd e2)) s) in
           let* e := make_node m true (fst (cell (heaps s m) a)) rs in
           fun s => Done (e, add_insert s m x y e)) s
      | _, _, _ => Done (zero_a, s)
      end
  end.

(** MDDPackage.hpp:998-1024: the products for k = 0, 1, ... are computed and added up *)
Fixpoint sum_m (m : bool) (n : nat) (f : nat -> M aedge) (ks : list nat) (acc : aedge) : M aedge :=
  match ks with
  | [] => ret acc
  | k :: r =>
      let* t := f k in
      let* acc' := (if is_zero (fst acc) then ret t else if is_zero (fst t) then ret acc else add_m m n acc t) in
      sum_m m n f r acc'
  end.

(** MDDPackage.hpp:877-1045 (multiply2) *)
Fixpoint mul_m (m : bool) (ds : list nat) (x y : aedge) : M aedge := fun s =>
  if is_zero (fst x) || is_zero (fst y) then Done (zero_a, s)
  else match ds with
  | [] => Done ((Cmul (fst x) (fst y), None), s)
  | d :: r =>
      let scaled (w : C) (n : ref) : aedge := if near_zero tol w then zero_a else (w, n) in
      match mul_lookup s m (snd x) (snd y) with
      | Some e => Done (if near_zero tol (fst e) then zero_a else scaled (Cmul (Cmul (fst e) (fst x)) (fst y)) (snd e), s)
      | None =>
          if identity (heaps s true) (snd x) then
            (let* e := (if m && identity (heaps s true) (snd y) then ident_m (S (length r)) else ret (C1, snd y)) in
             fun s => Done (scaled (Cmul (fst x) (fst y)) (snd e), mul_insert s m (snd x) (snd y) e)) s
          else if m && identity (heaps s true) (snd y) then
            Done (scaled (Cmul (fst x) (fst y)) (snd x), mul_insert s m (snd x) (snd y) (C1, snd x))
          else match snd x, snd y with
          | Some a, Some b =>
              let cols := if m then d else 1 in
              (let* rs := tab_m (d * cols) (fun p => sum_m m (length r) (fun k s =>
                 mul_m m r (at_a (edges s true a) (d * (p / cols) + k)) (at_a (edges s m b) (p mod cols + cols * k)) s) (seq 0 d) zero_a) in
               let* e := make_node m true (length r) rs in
               fun s => Done (if is_zero (fst e) || (is_one (fst x) && is_one (fst y)) then e
                              else scaled (Cmul (Cmul (fst e) (fst x)) (fst y)) (snd e), mul_insert s m (snd x) (snd y) e)) s
          | _, _ => Done (zero_a, s)
          end
      end
  end.

(** MDDPackage.hpp:1905-1944 (conjugateTranspose) *)
Fixpoint adjoint_m (ds : list nat) (e : aedge) : M aedge := fun s =>
  match ds, snd e with
  | d :: r, Some a =>
      match adj_lookup s e with
      | Some t => Done (t, s)
      | None =>
          (let* rs := tab_m (length (edges s true a)) (fun p s => adjoint_m r (at_a (edges s true a) (d * (p mod d) + p / d)) s) in
           let* t := make_node true false (fst (cell (heaps s true) a)) rs in
           let u := (Cmul (fst t) (Cconj (fst e)), snd t) in
           fun s => Done (u, adj_insert s e u)) s
      end
  | _, _ => Done ((Cconj (fst e), snd e), s)
  end.

(** MDDPackage.hpp:496-597 (makeGateDD), as in DdModel.v *)
Definition below_m (t : nat) (es : list aedge) (controls : list (nat * nat)) (v : nat) : M (list aedge) :=
  let radix := nth v dims 0 in
  let c := on_register controls v in
  if match c with Some l => Nat.leb radix l && Nat.ltb 1 t | None => false end then fun _ => Throw OutOfRange
  else tab_m (t * t) (fun entry =>
    let* qs := tab_m (radix * radix) (fun p =>
      if Nat.eqb (p / radix) (p mod radix) then
        match c with
        | Some l => if Nat.eqb (p / radix) l then ret (at_a es entry)
                    else if Nat.eqb (entry / t) (entry mod t) then ident_m v else ret zero_a
        | None => ret (at_a es entry)
        end
      else ret zero_a) in
    make_node true false v qs).
Fixpoint all_below_m (t : nat) (es : list aedge) (controls : list (nat * nat)) (vs : list nat) : M (list aedge * list (nat * nat)) :=
  match vs with
  | [] => ret (es, controls)
  | v :: r => let* es' := below_m t es controls v in all_below_m t es' (next_control controls v) r
  end.
Fixpoint above_m (e : aedge) (controls : list (nat * nat)) (vs : list nat) : M aedge :=
  match vs with
  | [] => ret e
  | v :: r =>
      let radix := nth v dims 0 in
      let* qs := tab_m (radix * radix) (fun p =>
        if Nat.eqb (p / radix) (p mod radix) then
          match on_register controls v with
          | Some l => if Nat.eqb (p / radix) l then ret e else ident_m v
          | None => ret e
          end
        else ret zero_a) in
      let* e' := make_node true false v qs in
      above_m e' (next_control controls v) r
  end.
Definition gate_m (d : nat) (A : mat) (controls : list (nat * nat)) (target : nat) : M aedge :=
  match nth_error dims target with
  | None => fun _ => Throw OutOfRange
  | Some t =>
      if Nat.ltb (d * d) (t * t) then fun _ => Throw OutOfRange
      else
        let entries := tab (t * t) (fun i => let w := A (i / d) (i mod d) in if is_zero w then zero_a else (w, None)) in
        let* st := all_below_m t entries controls (seq 0 target) in
        let* e := make_node true false target (fst st) in
        above_m e (snd st) (seq (S target) (length dims - S target))
  end.

(** MDDPackage.hpp:1684-1720 (getVector) *)
Fixpoint read (s : store) (n : nat) (e : aedge) (amp : C) (i next : nat) (v : vec) : vec :=
  let c := Cmul (fst e) amp in
  match n, snd e with
  | S n', Some a =>
      let es := edges s false a in
      let offset := (next - i) / length es in
      fold_left (fun v k =>
        let ch := at_a es k in
        if near_zero tol (fst ch) then v else read s n' ch c (i + k * offset) (i + (k + 1) * offset) v) (seq 0 (length es)) v
  | _, _ => update v i c
  end.

(** ** the simulation (MisimModel.v), on the memory *)
Definition dag_m (dag : bool) (e : aedge) : M aedge := if dag then adjoint_m (rev dims) e else ret e.
(** MDDPackage.hpp:1251-1311 (cex) *)
Definition cex_m (level : nat) (phi : R) (a b c t : nat) (dag : bool) : M aedge :=
  match nth_error dims t with
  | None => fun _ => Throw OutOfRange
  | Some d =>
      if supported d then let* A := lift (cpp_emb_x d phi a b) in let* e := gate_m d A [(c, level)] t in dag_m dag e
      else fun _ => Throw InvalidArgument
  end.
(** MDDPackage.hpp:1313-1413 (csum) *)
Fixpoint times_m (n : nat) (gate res : aedge) : M aedge :=
  match n with O => ret res | S k => let* r := mul_m true (rev dims) res gate in times_m k gate r end.
Fixpoint csum_levels_m (d c t : nat) (levels : list nat) (res : aedge) : M aedge :=
  match levels with
  | [] => ret res
  | i :: r => let* e := gate_m d (cpp_x d) [(c, i)] t in let* res' := times_m i e res in csum_levels_m d c t r res'
  end.
Definition csum_m (c t : nat) (dag : bool) : M aedge :=
  let* start := ident_m (length dims) in
  match nth_error dims t with
  | None => fun _ => Throw OutOfRange
  | Some d =>
      if supported d then
        match nth_error dims c with
        | None => fun _ => Throw OutOfRange
        | Some dc => let* e := csum_levels_m d c t (seq 0 dc) start in dag_m dag e
        end
      else fun _ => Throw InvalidArgument
  end.
(** bindings.cpp:500-763 (getGate) *)
Definition get_gate_m (i : instr) : M aedge :=
  match i_targets i with
  | [] => fun _ => Throw OutOfRange
  | t :: more =>
      if String.eqb (i_tag i) "cx"%string then
        let* l := lift (plist (i_params i)) in let* a := lift (get_size l 0) in let* b := lift (get_size l 1) in
        let* level := lift (get_size l 2) in let* phi := lift (get_double l 3) in
        match more with t1 :: _ => cex_m level phi a b t t1 (i_dag i) | [] => fun _ => Throw OutOfRange end
      else if String.eqb (i_tag i) "csum"%string then
        match more with t1 :: _ => csum_m t t1 (i_dag i) | [] => fun _ => Throw OutOfRange end
      else
        let* mm := lift (single_matrix (i_tag i) (i_params i) (match i_dims i with [d] => Some d | _ => None end)) in
        match mm, i_dims i with
        | Some A, d :: _ => let* e := gate_m d A [] t in dag_m (i_dag i) e
        | _, _ => fun _ => Throw Crash
        end
  end.
(** bindings.cpp:765-792 (ddsimulator) *)
Fixpoint run_m (is : list instr) (psi : aedge) : M aedge :=
  match is with
  | [] => ret psi
  | i :: r => let* g := get_gate_m i in let* psi' := mul_m false (rev dims) g psi in run_m r psi'
  end.
Definition circuit_m (is : list instr) : M aedge := let* psi := zero_state_m in run_m is psi.
Definition ddsimulator_m (is : list instr) : cres vec :=
  match circuit_m is init_store with
  | Done (psi, s) => Done (read s (length dims) psi C1 0 (fold_left Nat.mul dims 1) (fun _ => C0))
  | Throw e => Throw e
  end.
(** bindings.cpp:794-810, misim.py:54-72 *)
Definition misim_m (nm : noise_table) (draw : nat -> R) (is : list instr) : cres vec :=
  if physical nm then Throw InvalidArgument
  else let! noisy := generate dims nm draw 0 is in let! v := ddsimulator_m noisy in Done (reverse_axes dims v).

End Package.
