(** The compiler front end: the choice of a pass for each gate and the optimisation levels.
    Source: src/mqt/qudits/compiler/dit_compiler.py.

    A backend is a value of an arbitrary type [B]: the passes read and write its energy level graphs.  The
    front end looks at a graph only through its log_phy_map (level_graph.py:234-239).  What a pass makes of
    one gate is an argument of the functions ([run_pass]); the passes themselves are modelled elsewhere.
    Gates are values of an arbitrary type [G] with a gate_type (object identities can be part of [G]). *)
From Verif.Base Require Import Py.
From Verif.Circuit Require Import CircuitModel GateModel.
Local Open Scope string_scope.
Local Open Scope list_scope.
Local Open Scope nat_scope.

(** The classes of dit_compiler.py:8-12, and str(cls). *)
Inductive cls := PhyLocQR | PhyLocAda | LogLocQR | ZPropagation | ZRemoval | LogEntQRCEX | PhyEntQRCEX | NaiveLocResynth.
Definition str_cls (c : cls) : string :=
  match c with
  | PhyLocQR => "<class 'mqt.qudits.compiler.onedit.mapping_aware_transpilation.phy_local_qr_decomp.PhyLocQRPass'>"
  | PhyLocAda => "<class 'mqt.qudits.compiler.onedit.mapping_aware_transpilation.phy_local_adaptive_decomp.PhyLocAdaPass'>"
  | LogLocQR => "<class 'mqt.qudits.compiler.onedit.mapping_un_aware_transpilation.log_local_qr_decomp.LogLocQRPass'>"
  | ZPropagation => "<class 'mqt.qudits.compiler.onedit.local_phases_transpilation.propagate_virtrz.ZPropagationOptPass'>"
  | ZRemoval => "<class 'mqt.qudits.compiler.onedit.local_phases_transpilation.remove_phase_rotations.ZRemovalOptPass'>"
  | LogEntQRCEX => "<class 'mqt.qudits.compiler.twodit.entanglement_qr.log_ent_qr_cex_decomp.LogEntQRCEXPass'>"
  | PhyEntQRCEX => "<class 'mqt.qudits.compiler.twodit.entanglement_qr.phy_ent_qr_cex_decomp.PhyEntQRCEXPass'>"
  | NaiveLocResynth => "<class 'mqt.qudits.compiler.naive_local_resynth.local_resynth.NaiveLocResynthOptPass'>"
  end.
(** dit_compiler.py:21-32 (passes_enabled). *)
Definition passes_enabled : list (string * cls) :=
  [("PhyLocQRPass", PhyLocQR); ("PhyLocAdaPass", PhyLocAda); ("LocQRPass", PhyLocQR); ("LocAdaPass", PhyLocAda);
   ("LogLocQRPass", LogLocQR); ("ZPropagationOptPass", ZPropagation); ("ZRemovalOptPass", ZRemoval);
   ("LogEntQRCEXPass", LogEntQRCEX); ("PhyEntQRCEXPass", PhyEntQRCEX); ("NaiveLocResynthOptPass", NaiveLocResynth)].

(** [needle in s] on strings. *)
Fixpoint contains (needle s : string) : bool :=
  prefix needle s || match s with EmptyString => false | String _ r => contains needle r end.

Definition gtype_eqb (a b : gtype) : bool :=
  match a, b with SINGLE, SINGLE => true | TWO, TWO => true | MULTI, MULTI => true | _, _ => false end.

(** dit_compiler.py:42-50: passes_dict. *)
Fixpoint choose (d : list (gtype * cls)) (names : list string) : res (list (gtype * cls)) :=
  match names with
  | [] => Ok d
  | n :: r =>
      match dget String.eqb passes_enabled n with
      | None => Err KeyError
      | Some c =>
          choose (if contains "Loc" (str_cls c) then dset gtype_eqb d SINGLE c
                  else if contains "Ent" (str_cls c) then dset gtype_eqb d TWO c
                  else if contains "Multi" (str_cls c) then dset gtype_eqb d MULTI c
                  else d) r
      end
  end.

Section Dispatch.
Context {G B : Type}.
Variable gate_type : G -> gtype.
(** [graph.log_phy_map for graph in backend.energy_level_graphs] *)
Variable lpmaps : B -> list (list nat).
(** cls(backend).transpile_gate(gate), for the passes that decompose; the flag is vrz_prop of
    phy_local_adaptive_decomp.py:37-39. *)
Variable run_pass : cls -> bool -> B -> G -> B * res (list G).

(** propagate_virtrz.py:22-24, remove_phase_rotations.py:19-21, local_resynth.py:24-28, else [run_pass]. *)
Definition transpile_gate (c : cls) (vrz_prop : bool) (b : B) (g : G) : B * res (list G) :=
  match c with
  | ZPropagation => (b, Ok [g])
  | ZRemoval => (b, Ok [g])
  | NaiveLocResynth => (b, Err NotImplementedError)
  | _ => run_pass c vrz_prop b g
  end.

(** dit_compiler.py:51-57. *)
Fixpoint rewrite_all (d : list (gtype * cls)) (b : B) (l : list G) (new : list G) : B * res (list G) :=
  match l with
  | [] => (b, Ok new)
  | g :: r =>
      match dget gtype_eqb d (gate_type g) with
      | Some c =>
          match transpile_gate c false b g with
          | (b', Ok gs) => rewrite_all d b' r (new ++ gs)
          | (b', Err e) => (b', Err e)
          end
      | None => rewrite_all d b r (new ++ [g])
      end
  end.

(** dit_compiler.py:60-63 (again 71-74, 95-98, 118-121): the loop over enumerate(energy_level_graphs) from
    index i on. *)
Fixpoint mapping_loop (num : nat) (dims : list nat) (i : nat) (graphs : list (list nat)) : res (list (list nat)) :=
  match graphs with
  | [] => Ok []
  | m :: r =>
      if i <? num then
        let? d := pyindex dims (Z.of_nat i) in
        let? ms := mapping_loop num dims (S i) r in
        Ok (filter (fun lev => lev <? d) m :: ms)
      else mapping_loop num dims (S i) r
  end.
Definition mappings_of (b : B) (c : circuit G) : res (list (list nat)) :=
  mapping_loop (num_qudits c) (dimensions c) 0 (lpmaps b).

(** dit_compiler.py:37-65 (compile).  The deep copy of the circuit is a value here. *)
Definition compile (b : B) (c : circuit G) (names : list string) : B * res (circuit G) :=
  match choose [] names with
  | Err e => (b, Err e)
  | Ok d =>
      match rewrite_all d b (instructions c) [] with
      | (b', Err e) => (b', Err e)
      | (b', Ok new) =>
          (b', let? ms := mappings_of b' c in Ok (set_instructions (set_mapping c ms) new))
      end
  end.

(** dit_compiler.py:67-76 (compile_O0). *)
Definition compile_O0 (b : B) (c : circuit G) : B * res (circuit G) :=
  match compile b c ["PhyLocQRPass"; "PhyEntQRCEXPass"] with
  | (b', Err e) => (b', Err e)
  | (b', Ok out) => (b', let? ms := mappings_of b' c in Ok (set_mapping out ms))
  end.

(** dit_compiler.py:85-93 and 108-116: SINGLE goes to one pass, every other type to the other.  [local g]
    is the pass for a local gate and its flag, computed when the gate is reached. *)
Fixpoint rewrite_split (local : G -> res (cls * bool)) (b : B) (l : list G) (new : list G) : B * res (list G) :=
  match l with
  | [] => (b, Ok new)
  | g :: r =>
      match gate_type g with
      | SINGLE =>
          match local g with
          | Err e => (b, Err e)
          | Ok (c, f) =>
              match transpile_gate c f b g with
              | (b', Ok gs) => rewrite_split local b' r (new ++ gs)
              | (b', Err e) => (b', Err e)
              end
          end
      | _ =>
          match transpile_gate PhyEntQRCEX false b g with
          | (b', Ok gs) => rewrite_split local b' r (new ++ gs)
          | (b', Err e) => (b', Err e)
          end
      end
  end.
Definition finish (c : circuit G) (r : B * res (list G)) : B * res (circuit G) :=
  match r with
  | (b', Err e) => (b', Err e)
  | (b', Ok new) => (b', let? ms := mappings_of b' c in Ok (set_instructions (set_mapping c ms) new))
  end.

(** dit_compiler.py:78-99 (compile_O1); [resynth] gives the instructions of NaiveLocResynthOptPass.transpile
    (local_resynth.py:30-62, see Lanes/LanesModel.v). *)
Definition compile_O1 (resynth : list G -> res (list G)) (b : B) (c : circuit G) : B * res (circuit G) :=
  match resynth (instructions c) with
  | Err e => (b, Err e)
  | Ok l =>
      match mappings_of b c with
      | Err e => (b, Err e)
      | Ok ms =>
          let c' := set_instructions (set_mapping c ms) l in
          finish c' (rewrite_split (fun _ => Ok (PhyLocQR, false)) b l [])
      end
  end.

(** dit_compiler.py:101-122 (compile_O2); [lanes] is Lanes(circuit).next_is_local, or the exception of the
    constructor Lanes(circuit). *)
Definition compile_O2 (lanes : res (G -> res bool)) (b : B) (c : circuit G) : B * res (circuit G) :=
  match lanes with
  | Err e => (b, Err e)
  | Ok next_is_local =>
      finish c (rewrite_split (fun g => let? f := next_is_local g in Ok (PhyLocAda, f)) b (instructions c) [])
  end.
End Dispatch.
