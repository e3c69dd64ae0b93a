(** The compiler front end with the passes it calls: DispatchModel.v with the decomposing passes of Local/ and Ent/.
    Source: src/mqt/qudits/compiler/dit_compiler.py and the passes.

    The backend is its list of energy level graphs.  A pass that raises is taken to leave the graphs as they were
    (in the code it may have changed some of them before). *)
From Coq Require Import Reals.
From Verif.Base Require Import Py Cplx Matrix.
From Verif.Circuit Require Import CircuitModel GateModel.
From Verif.Gates Require Import SingleModel TwoModel.
From Verif.Levels Require Import LevelsModel.
From Verif.Lanes Require Import LanesModel.
From Verif.Local Require Import QrModel AdaModel.
From Verif.Ent Require Import BlockModel PassModel.
From Verif.Compiler Require Import DispatchModel.
Local Open Scope string_scope.
Local Open Scope list_scope.
Local Open Scope nat_scope.

(** The gates of a circuit under compilation: those of the user, on one line (by to_matrix(identities=0), daggers
    included), on two lines (PassModel.twogate) and on any lines, and those put out by the passes: a rotation or virtual
    rotation of a local pass, a gate of a two-qudit block, a new CEx. *)
Inductive cgate :=
| CUser1 (q d : nat) (U : mat)
| CUser2 (g : twogate)
| CUserN (ts : list nat) (U : mat)
| CRot (q d : nat) (o : qop * bool)
| CBlock (q0 q1 dc dt : nat) (e : egate)
| CCex (q0 q1 dc dt : nat) (x : cex).

(** gate.py:49-67 (gate_type). *)
Definition type_of (g : cgate) : gtype :=
  match g with
  | CUser1 _ _ _ | CRot _ _ _ | CBlock _ _ _ _ (ELoc _ _ _) => SINGLE
  | CUser2 _ | CBlock _ _ _ _ (ECex _) | CCex _ _ _ _ _ => TWO
  | CUserN _ _ => MULTI
  end.

(** The gate objects (GateModel.gate), with the array of to_matrix(identities=0) before the dagger flag as data.  Names are
    not used. *)
Definition on_one (q : nat) (dag : bool) (M : mat) : gate mat := Gate "" SINGLE (TInt (Z.of_nat q)) None dag false M.
Definition on_two (q0 q1 : nat) (dag : bool) (M : mat) : gate mat :=
  Gate "" TWO (TList [Z.of_nat q0; Z.of_nat q1]) None dag (1 <? Z.abs (Z.of_nat q0 - Z.of_nat q1))%Z M.
Definition as_gate (g : cgate) : gate mat :=
  match g with
  | CUser1 q _ U => on_one q false U
  | CUser2 (Two q0 q1 dc dt (TCex x dag)) => on_two q0 q1 dag (the (cex_array dc dt (q0 <? q1) x))
  | CUser2 (Two q0 q1 _ _ (TMat U)) => on_two q0 q1 false U
  | CUserN ts U => Gate "" MULTI (TList (map Z.of_nat ts)) None false false U
  | CRot q d (o, dag) => on_one q dag (op_matrix d o)
  | CBlock q0 q1 dc dt (ELoc second k dag) =>
      on_one (if second then q1 else q0) dag (kind_matrix (if second then dt else dc) k)
  | CBlock q0 q1 dc dt (ECex dag) => on_two q0 q1 dag (the (cex_array dc dt (q0 <? q1) (Cex 0 1 1 0)))
  | CCex q0 q1 dc dt x => on_two q0 q1 false (the (cex_array dc dt (q0 <? q1) x))
  end.

(** What a local pass reads of a gate: gate.target_qudits, gate.dimensions, gate.to_matrix(identities=0).  It is called
    with gates of type SINGLE only. *)
Definition single (g : cgate) : res (nat * nat * mat) :=
  match g with
  | CUser1 q d U => Ok (q, d, U)
  | CRot q d o => Ok (q, d, gate_matrix d o)
  | CBlock q0 q1 dc dt (ELoc second k dag) =>
      let d := if second then dt else dc in Ok (if second then q1 else q0, d, flagged dag (kind_matrix d k))
  | _ => Err TypeError
  end.
(** What a two-qudit pass reads of a gate.  Gates on three lines or more, which levels O1 and O2 also send to it, are
    not modelled: an exception stands for whatever happens. *)
Definition double (g : cgate) : res twogate :=
  match g with
  | CUser2 t => Ok t
  | CBlock q0 q1 dc dt (ECex dag) => Ok (Two q0 q1 dc dt (TCex (Cex 0 1 1 0) dag))
  | CCex q0 q1 dc dt x => Ok (Two q0 q1 dc dt (TCex x false))
  | _ => Err TypeError
  end.
Definition from_ent (dc dt : nat) (e : eout) : list cgate :=
  match e with
  | EGate q0 q1 g => [CBlock q0 q1 dc dt g]
  | ENewCex q0 q1 x => [CCex q0 q1 dc dt x]
  | EKeep _ => []
  end.

(** level_graph.py:234-239 (log_phy_map) of every graph; levels are ints. *)
Definition level_map (g : lgraph) : list nat :=
  match log_phy_map g with
  | Ok l => match mapr as_int l with Ok z => map Z.to_nat z | Err _ => [] end
  | Err _ => []
  end.
Definition level_maps (gs : list lgraph) : list (list nat) := map level_map gs.

(** The instructions as objects: the objects of a circuit are different, so each is known by its position. *)
Definition as_objects (l : list cgate) : list (obj mat) := combine (seq 0 (List.length l)) (map as_gate l).
(** A gate of the circuit of the local resynthesis: an old object, or a new CustomOne (local_resynth.py:46-48). *)
Definition of_object (dims : list nat) (l : list cgate) (o : obj mat) : cgate :=
  match nth_error l (fst o) with
  | Some g => g
  | None => let q := match g_target (snd o) with TInt t => Z.to_nat t | TList _ => 0 end in CUser1 q (nth q dims 0) (g_data (snd o))
  end.
(** local_resynth.py:30-62 (transpile), see LanesModel.resynth. *)
Definition resynthesised (dims : list nat) (l : list cgate) : res (list cgate) :=
  let? r := resynth dims (List.length l) (as_objects l) in Ok (map (of_object dims l) r).
(** lanes.py:19-24 (Lanes(circuit)) and next_is_local of the object at a position. *)
Definition lookahead {T} (l : list cgate) : res (nat * T -> res bool) :=
  let? x := new_lanes (as_objects l) in Ok (fun o => next_is_local x (fst o)).
(** The same circuit with other gates. *)
Definition with_gates {G H} (c : circuit G) (l : list H) : circuit H :=
  {| cl_inverse_sitemap := cl_inverse_sitemap c; inverse_sitemap := inverse_sitemap c; number_gates := number_gates c; instructions := l;
     quantum_registers := quantum_registers c; classic_registers := classic_registers c; sitemap := sitemap c;
     classic_site_map := classic_site_map c; num_cl := num_cl c; num_qudits := num_qudits c; dimensions := dimensions c;
     mappings := mappings c; path_save := path_save c |}.

Section Whole.
  Variable sp : lgraph -> Z -> Z -> res (list Z).
  Variable round6 : R -> R.
  Variable det : nat -> (nat -> nat -> R) -> R.
  Variable solve : nat -> (nat -> nat -> R) -> (nat -> R) -> res (list R).
  Variable fuel : nat.

  (** cls(backend).transpile_gate(gate): phy_local_qr_decomp.py:27-31, phy_local_adaptive_decomp.py:41-54,
      log_local_qr_decomp.py:29-33, log_ent_qr_cex_decomp.py:32-36, phy_ent_qr_cex_decomp.py:25-65. *)
  Definition pass_result (c : cls) (vrz_prop : bool) (gs : list lgraph) (g : cgate) : res (list cgate * list lgraph) :=
    match c with
    | PhyLocQR =>
        let? s := single g in
        let '(q, d, U) := s in
        let? r := phy_transpile_gate sp gs (Z.of_nat q) d U in
        Ok (map (CRot q d) (fst r), snd r)
    | LogLocQR =>
        let? s := single g in
        let '(q, d, U) := s in
        let? r := log_transpile_gate sp gs (Z.of_nat q) d U in
        Ok (map (CRot q d) (fst r), snd r)
    | PhyLocAda =>
        let? s := single g in
        let '(q, d, U) := s in
        let? r := phy_ada_gate sp fuel vrz_prop (map Some gs) (Z.of_nat q) d U in
        let? gs' := mapr (fun o => match o with Some h => Ok h | None => Err AttributeError end) (snd r) in
        Ok (map (CRot q d) (fst r), gs')
    | LogEntQRCEX =>
        let? t := double g in
        let? l := ent_transpile_gate round6 det solve t in
        Ok (map (CBlock (tw_q0 t) (tw_q1 t) (tw_dc t) (tw_dt t)) l, gs)
    | PhyEntQRCEX =>
        let? t := double g in
        let? r := phy_ent_gate sp round6 det solve gs t in
        Ok (flat_map (from_ent (tw_dc t) (tw_dt t)) (fst r), snd r)
    | _ => Err NotImplementedError
    end.
  Definition the_pass (c : cls) (vrz_prop : bool) (gs : list lgraph) (g : cgate) : list lgraph * res (list cgate) :=
    match pass_result c vrz_prop gs g with Ok (l, gs') => (gs', Ok l) | Err e => (gs, Err e) end.

  (** dit_compiler.py:67-76 (compile_O0). *)
  Definition whole_O0 : list lgraph -> circuit cgate -> list lgraph * res (circuit cgate) :=
    compile_O0 type_of level_maps the_pass.

  (** dit_compiler.py:78-99 (compile_O1). *)
  Definition whole_O1 (gs : list lgraph) (c : circuit cgate) : list lgraph * res (circuit cgate) :=
    compile_O1 type_of level_maps the_pass (resynthesised (dimensions c)) gs c.

  (** dit_compiler.py:101-122 (compile_O2).  The gates carry their positions for next_is_local; the identity of new gates
      is not looked at. *)
  Definition object_pass (c : cls) (vrz_prop : bool) (gs : list lgraph) (o : nat * cgate) : list lgraph * res (list (nat * cgate)) :=
    match the_pass c vrz_prop gs (snd o) with (gs', r) => (gs', let? l := r in Ok (map (pair 0) l)) end.
  Definition whole_O2 (gs : list lgraph) (c : circuit cgate) : list lgraph * res (circuit cgate) :=
    let l := instructions c in
    match compile_O2 (fun o => type_of (snd o)) level_maps object_pass (lookahead l) gs (with_gates c (combine (seq 0 (List.length l)) l)) with
    | (gs', r) => (gs', let? c' := r in Ok (with_gates c' (map snd (instructions c'))))
    end.
End Whole.
