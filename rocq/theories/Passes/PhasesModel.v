(** The optimisation passes on phases.
    Source: src/mqt/qudits/compiler/onedit/local_phases_transpilation/propagate_virtrz.py and
    remove_phase_rotations.py.

    A gate is the gate object of Circuit/GateModel.v; its payload is the class of the gate with the
    attributes the passes read.  Classes the passes do not look at are one case that carries the array of
    the gate.  A circuit is its number of qudits, its dimensions and its instruction list; the deep copies
    the passes make are values here.  Floats are exact reals. *)
From Coq Require Import Reals.
From Verif.Base Require Import Py Cplx Matrix Radix.
From Verif.Circuit Require Import GateModel.
From Verif.Gates Require Import AnglesModel SingleModel.
From Verif.Levels Require Import LevelsModel.
Local Open Scope string_scope.
Local Open Scope list_scope.
Local Open Scope nat_scope.

(** R (r.py:40-47), VirtRz (virt_rz.py:38-42, phi is regulated), Rz (rz.py:39-45), Z, any other class. *)
Inductive kind := KR (r : rot) | KVirtRz (lev : nat) (phi : R) | KRz (a b : nat) (phi : R) | KZ | KOther (m : mat).
(** dimensions is an int or a list (gate.py:39). *)
Record pay := Pay { p_dims : nat + list nat; p_kind : kind }.

(** The array of a gate object (__array__ of the classes, see Gates/SingleModel.v). *)
Definition pay_size (p : pay) : nat := match p_dims p with inl d => d | inr l => prodl l end.
Definition pay_array (p : pay) : mat :=
  let d := pay_size p in
  match p_kind p with
  | KR r => r_array d (lev_a r) (lev_b r) (r_theta r) (r_phi r)
  | KVirtRz l f => virtrz_array d l f
  | KRz a b f => rz_array d a b f
  | KZ => z_array d
  | KOther m => m
  end.
(** The gate with its array as payload, as the matrix factory reads it. *)
Definition lower (g : gate pay) : gate mat :=
  {| g_name := g_name g; g_type := g_type g; g_target := g_target g; g_controls := g_controls g;
     g_dagger := g_dagger g; g_long := g_long g; g_data := pay_array (g_data g) |}.

Section Passes.
Variable num : nat.        (* circuit.num_qudits *)
Variable dims : list nat.  (* circuit.dimensions *)

(** r.py:22-47 and virt_rz.py:22-42 as the pass calls them. *)
Definition make_R (qi : target) (d : nat) (a b : nat) (theta phi : R) : res (gate pay) :=
  let? r := new_R d (Z.of_nat a) (Z.of_nat b) theta phi in
  new_gate num dims "R" SINGLE qi None (Pay (inl d) (KR r)).
Definition make_VirtRz (qi : target) (d lev : nat) (phi : R) : res (gate pay) :=
  let lf := match virtrz_validate d (PList [PInt (Z.of_nat lev); PFloat phi]) with
            | Some (l, f) => (l, regulate_theta f) | None => (0, 0%R) end in
  new_gate num dims "VRz" SINGLE qi None (Pay (inl d) (KVirtRz (fst lf) (snd lf))).

(** z_angles[lev] *)
Definition angle (z : list R) (lev : nat) : res R :=
  match nth_error z lev with Some x => Ok x | None => Err KeyError end.

(** propagate_virtrz.py:44-66: the loop over the line; classes other than R and VirtRz are skipped. *)
Fixpoint propagate_loop (back : bool) (qi : target) (d : nat) (l : list (gate pay)) (z : list R) (rots : list (gate pay))
    : res (list R * list (gate pay)) :=
  match l with
  | [] => Ok (z, rots)
  | g :: rest =>
      match p_kind (g_data g) with
      | KR r =>
          let? za := angle z (lev_a r) in
          let? zb := angle z (lev_b r) in
          let phi := if back then pi_mod (r_phi r + za - zb)%R else pi_mod (r_phi r - za + zb)%R in
          let? g' := make_R qi d (lev_a r) (lev_b r) (r_theta r) phi in
          propagate_loop back qi d rest z (rots ++ [g'])
      | KVirtRz lev phi =>
          let? za := angle z lev in
          propagate_loop back qi d rest (set_nth z lev (pi_mod (za + phi)%R)) rots
      | _ => propagate_loop back qi d rest z rots
      end
  end.

(** propagate_virtrz.py:70-73: one VirtRz per level. *)
Fixpoint z_gates (qi : target) (d lev : nat) (z : list R) : res (list (gate pay)) :=
  match z with
  | [] => Ok []
  | x :: r => let? g := make_VirtRz qi d lev x in let? gs := z_gates qi d (S lev) r in Ok (g :: gs)
  end.

(** propagate_virtrz.py:30-76 (propagate_z). *)
Definition propagate_z (line : list (gate pay)) (back : bool) : res (list (gate pay) * list (gate pay)) :=
  match line with
  | [] => Err IndexError
  | g0 :: _ =>
      match p_dims (g_data g0) with
      | inr _ => Err TypeError
      | inl d =>
          let qi := g_target g0 in
          let? zr := propagate_loop back qi d (if back then rev line else line) (repeat 0%R d) [] in
          let rots := if back then rev (snd zr) else snd zr in
          let? zs := z_gates qi d 0 (fst zr) in
          Ok (rots, zs)
      end
  end.

(** propagate_virtrz.py:85-105: i is the position of the next instruction, cur the current interval. *)
Definition eqb_lines (a b : list Z) : bool := (List.length a =? List.length b) && forallb (fun p => (fst p =? snd p)%Z) (combine a b).
Fixpoint intervals_loop (i : nat) (l : list (gate pay)) (cur : list nat) (cur_lines : list Z) (acc : list (list nat)) : list (list nat) :=
  match l with
  | [] => match cur with [] => acc | _ => acc ++ [cur] end
  | g :: r =>
      let t := target_lines g in
      if (List.length cur_lines =? 0) || eqb_lines t cur_lines
      then intervals_loop (S i) r (cur ++ [i]) t acc
      else intervals_loop (S i) r [i] t (acc ++ [cur])
  end.
Definition find_intervals (l : list (gate pay)) : list (list nat) := intervals_loop 0 l [] [] [].

(** propagate_virtrz.py:112-123: the slice read from the circuit is the original one, the positions are
    those of the original list although [new] has already been changed. *)
Fixpoint remove_z_loop (orig : list (gate pay)) (back : bool) (ivs : list (list nat)) (new : list (gate pay)) : res (list (gate pay)) :=
  match ivs with
  | [] => Ok new
  | iv :: r =>
      if (1 <? List.length iv) then
        let first := Z.of_nat (hd 0 iv) in
        let stop := (Z.of_nat (last iv 0%nat) + 1)%Z in
        let? fz := propagate_z (pyslice orig first stop) back in
        let combined := if back then snd fz ++ fst fz else fst fz ++ snd fz in
        remove_z_loop orig back r (pyslice_assign new first stop [] ++ combined)
      else remove_z_loop orig back r new
  end.
(** propagate_virtrz.py:107-125 (remove_z). *)
Definition remove_z (l : list (gate pay)) (back : bool) : res (list (gate pay)) :=
  remove_z_loop l back (find_intervals l) l.

(** remove_phase_rotations.py:48: isinstance (Rz, VirtRz, Z). *)
Definition is_phase (g : gate pay) : bool :=
  match p_kind (g_data g) with KVirtRz _ _ => true | KRz _ _ _ => true | KZ => true | _ => false end.
Definition mem (t : Z) (s : list Z) : bool := existsb (Z.eqb t) s.
(** set.add, set.update: s has no repetitions. *)
Definition set_add (s : list Z) (t : Z) : list Z := if mem t s then s else s ++ [t].

(** remove_phase_rotations.py:36-51: the loop; the result is indices_to_remove. *)
Fixpoint rz_scan (l : list (nat * gate pay)) (seen : list Z) (del : list nat) : list nat :=
  match l with
  | [] => del
  | (i, g) :: r =>
      if List.length seen =? num then del
      else match g_target g with
           | TList ts => rz_scan r (fold_left set_add ts seen) del
           | TInt t => if negb (mem t seen) && is_phase g then rz_scan r seen (del ++ [i])
                       else rz_scan r (set_add seen t) del
           end
  end.
Definition enumerate {A} (l : list A) : list (nat * A) := combine (seq 0 (List.length l)) l.
(** remove_phase_rotations.py:28-54 (remove_rz_gates). *)
Definition remove_rz_gates (l : list (gate pay)) (reverse : bool) : list (gate pay) :=
  let del := rz_scan (if reverse then rev (enumerate l) else enumerate l) [] [] in
  map snd (filter (fun ig => negb (existsb (Nat.eqb (fst ig)) del)) (enumerate l)).
(** remove_phase_rotations.py:23-25, 56-60 (transpile). *)
Definition zremoval_transpile (l : list (gate pay)) : list (gate pay) := remove_rz_gates (remove_rz_gates l false) true.
End Passes.
