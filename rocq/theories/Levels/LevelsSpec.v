(** Vocabulary for the level graph properties: what a user sees of a graph. *)
From Coq Require Import Reals.
From Verif.Base Require Import Py Cplx Matrix.
From Verif.Gates Require Import AnglesModel SingleModel SingleSpec.
From Verif.Levels Require Import LevelsModel.
Local Open Scope string_scope.
Local Open Scope list_scope.
Local Open Scope nat_scope.

Definition is_node (g : lgraph) (n : Z) : Prop := In n (map fst (nd g)).
(** Node n has attribute k with value v. *)
Definition has_attr (g : lgraph) (n : Z) (k : string) (v : aval) : Prop :=
  exists a, In (n, a) (nd g) /\ In (k, v) a.
(** There is an edge from u to v with data d. *)
Definition joined (g : lgraph) (u v : Z) (d : attrs) : Prop :=
  exists l, In (u, l) (adj g) /\ In (v, d) l.
Definition linked (g : lgraph) (u v : Z) : Prop := exists d, joined g u v d.

(** Logical level n sits on physical level p. *)
Definition placed (g : lgraph) (n p : Z) : Prop := has_attr g n "lpmap" (AInt p).
(** Physical levels p and q are coupled by a transition with data d. *)
Definition coupled (g : lgraph) (p q : Z) (d : attrs) : Prop :=
  exists a b, joined g a b d /\ placed g a p /\ placed g b q.

(** The dicts of a networkx graph: distinct keys, adjacency symmetric and over the nodes. *)
Record well_formed (g : lgraph) : Prop := {
  wf_nodes : NoDup (map fst (nd g));
  wf_adj : map fst (adj g) = map fst (nd g);
  wf_attrs : forall n a, In (n, a) (nd g) -> NoDup (map fst a);
  wf_neighbours : forall u l, In (u, l) (adj g) -> NoDup (map fst l);
  wf_data : forall u v d, joined g u v d -> NoDup (map fst d);
  wf_sym : forall u v d, joined g u v d -> joined g v u d;
  wf_ends : forall u v d, joined g u v d -> is_node g v }.

(** Every node carries the same attributes, as the constructor and phase_storing_setup leave it. *)
Definition uniform (g : lgraph) : Prop :=
  forall n m k v, has_attr g n k v -> is_node g m -> exists w, has_attr g m k w.

(** Every logical level sits on exactly one physical level, different ones on different ones. *)
Definition placement_ok (g : lgraph) : Prop :=
  (forall n, is_node g n -> exists p, placed g n p) /\
  (forall n m p, placed g n p -> placed g m p -> n = m).

(** A walk along edges. *)
Inductive walk (g : lgraph) : list Z -> Z -> Z -> Prop :=
| walk_one : forall s, walk g [s] s s
| walk_cons : forall s m t p, linked g s m -> walk g p m t -> walk g (s :: p) s t.
Definition connected (g : lgraph) : Prop :=
  forall s t, is_node g s -> is_node g t -> exists p, walk g p s t.
Definition shortest (g : lgraph) (p : list Z) (s t : Z) : Prop :=
  walk g p s t /\ forall q, walk g q s t -> List.length p <= List.length q.

(** The contract of networkx.shortest_path. *)
Definition finds_shortest (sp : lgraph -> Z -> Z -> res (list Z)) : Prop :=
  forall g s t, well_formed g -> connected g -> is_node g s -> is_node g t ->
    exists p, sp g s t = Ok p /\ shortest g p s t.

(** A graph a rotation can be routed through, for a qudit of dimension d: connected, placed one to one
    on levels of the qudit, every node classified as initial or reachable with at least one initial
    node, and stored phases (if any) are numbers. *)
Record routable (d : nat) (g : lgraph) : Prop := {
  rt_wf : well_formed g;
  rt_uniform : uniform g;
  rt_placement : placement_ok g;
  rt_connected : connected g;
  rt_logical : forall n, is_node g n -> (0 <= n < Z.of_nat d)%Z;
  rt_physical : forall n p, placed g n p -> (0 <= p < Z.of_nat d)%Z;
  rt_level : forall n, is_node g n -> exists v, has_attr g n "level" v;
  rt_initial : exists n, has_attr g n "level" (AStr "i");
  rt_phases : forall n v, has_attr g n "phase_storage" v -> exists x, num v = Ok x }.

(** Two graphs show the same couplings and the same occupied physical levels. *)
Definition same_couplings (g g' : lgraph) : Prop :=
  (forall p q d, coupled g p q d <-> coupled g' p q d) /\
  (forall p, (exists n, placed g n p) <-> (exists n, placed g' n p)).

(** The matrix of a list of pulses on a qudit of dimension d, the first pulse acting first. *)
Definition pulses_matrix (d : nat) (l : list rot) : mat :=
  fold_left (fun M r => mmul d (r_array d (lev_a r) (lev_b r) (r_theta r) (r_phi r)) M) l mid.

(** A carries basis state j to basis state i up to a phase. *)
Definition carries (d : nat) (A : mat) (j i : nat) : Prop :=
  exists c, Cmul c (Cconj c) = C1 /\ maps_ket d A j c i.

(** A history of swap_nodes calls, each on the graph returned by the one before. *)
Fixpoint swap_all (g : lgraph) (l : list (Z * Z)) : res lgraph :=
  match l with
  | [] => Ok g
  | (a, b) :: r => let? g' := swap_nodes g a b in swap_all g' r
  end.

(** Edge arguments of the constructor: different unordered pairs of nodes, each with a dict as data. *)
Definition good_edges (nodes : list Z) (edges : list (Z * Z * attrs)) : Prop :=
  Forall (fun e => In (fst (fst e)) nodes /\ In (snd (fst e)) nodes /\ NoDup (map fst (snd e))) edges /\
  ForallOrdPairs (fun e f => ~ (fst e = fst f \/ (fst (fst e) = snd (fst f) /\ snd (fst e) = fst (fst f)))) edges.

(** A pulse the hardware described by g allows: a pi rotation between two coupled physical levels. *)
Definition legal_pulse (g : lgraph) (r : rot) : Prop :=
  (exists dat, coupled g (Z.of_nat (lev_a r)) (Z.of_nat (lev_b r)) dat) /\
  (r_theta r = PI \/ r_theta r = (- PI)%R).

(** The phases pending on the physical levels: f l is the phase stored at the node placed on l, and 0 on
    levels nothing is placed on or if the graph stores no phases. *)
Definition pending (g : lgraph) (f : nat -> R) : Prop :=
  (forall n p v x, placed g n p -> has_attr g n "phase_storage" v -> num v = Ok x -> f (Z.to_nat p) = x) /\
  (forall l, (forall n v, placed g n (Z.of_nat l) -> ~ has_attr g n "phase_storage" v) -> f l = 0%R).

(** The basis states a and b exchanged. *)
Definition exchange (a b : nat) : mat := two_level a b C0 C1 C1 C0.

(** The diagonal operator of the phases f. *)
Definition phases (f : nat -> R) : mat := mdiag (fun l => cis (- f l)).

(** A phase that is not (nearly) a multiple of a full turn, as get_vrz_gates reads it. *)
Definition noticed (x : R) : Prop := (1 / 1000 < x \/ 1 / 1000 < rmod x (2 * PI))%R.

(** A search that meets the contract [finds_shortest]; only used to show that the contract can be met and
    to evaluate examples: all walks with n edges from s, for growing n. *)
Fixpoint walks (g : lgraph) (n : nat) (s : Z) : list (list Z) :=
  match n with
  | 0 => [[s]]
  | S k => flat_map (fun m => map (cons s) (walks g k m)) (map fst (neighbours g s))
  end.
Fixpoint search (g : lgraph) (s t : Z) (n k : nat) : res (list Z) :=
  match k with
  | 0 => Err NodeNotFoundError
  | S k' => match find (fun p => (last p s =? t)%Z) (walks g n s) with
            | Some p => Ok p
            | None => search g s t (S n) k'
            end
  end.
Definition search_shortest (g : lgraph) (s t : Z) : res (list Z) := search g s t 0 (List.length (nd g)).
