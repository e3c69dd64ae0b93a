(** The noise models the fake devices build for themselves, and compiled circuits as the noisy circuit factory sees them.
    Source: src/mqt/qudits/simulation/backends/fake_backends/*.py, and the files the other models cite. *)
From Coq Require Import Reals List ZArith String.
From Verif.Base Require Import Py Matrix.
From Verif.Circuit Require Import GateModel.
From Verif.Gates Require Import SingleModel TwoModel.
From Verif.Noise Require Import NoiseModel InsertModel.
From Verif.Sim Require Import BackendModel.
From Verif.Local Require Import QrModel.
From Verif.Ent Require Import BlockModel PassModel.
From Verif.Compiler Require Import WholeModel.
Import ListNotations.
Local Open Scope string_scope.
Local Open Scope R_scope.

(** fake_traps2three.py:77-82, fake_traps2six.py:80-85, fake_traps3six.py:108-113 *)
Definition local_error : noise := Noise (1 / 1000) (1 / 1000).
Definition local_error_rz : noise := Noise (3 / 100) (3 / 100).
Definition entangling_error : noise := Noise (1 / 10) (1 / 1000).
Definition entangling_error_extra : noise := Noise (1 / 10) (1 / 10).
Definition entangling_error_on_target : noise := Noise (1 / 10) 0.
Definition entangling_error_on_control : noise := Noise (1 / 100) 0.
(** fake_traps2three.py:86-97, fake_traps2six.py:89-100, fake_traps3six.py:117-128: the same calls in all three files. *)
Definition trap_calls : list call :=
  [CAddError (Math local_error) ["csum"] "all";
   CAddError (Math entangling_error) ["cx"; "ls"; "ms"] "nonlocal";
   CAddError (Math entangling_error_on_target) ["cx"; "ls"; "ms"] "target";
   CAddError (Math entangling_error_on_control) ["csum"; "cx"; "ls"; "ms"] "control";
   CAddError (Math entangling_error_extra) ["csum"] "nonlocal";
   CAddError (Math local_error) ["h"; "rxy"; "s"; "x"; "z"] "local";
   CAddError (Math local_error_rz) ["rz"; "virtrz"] "local"].
(** The classes that build a noise model in their constructor (fake_traps2three.py:34, fake_traps2six.py:27,
    fake_traps3six.py:34); the others hold what the user gave. *)
Definition device_calls (k : kind) : option (list call) :=
  match k with FakeIonTraps2Trits | FakeIonTraps2Six | FakeIonTraps3Six => Some trap_calls | _ => None end.

(** qasm_tag of the gates a pass puts out: r.py:37 (rxy), rz.py:37 (rz), rh.py:38 (rh), virt_rz.py:36 (virtrz), cx.py:38 (cx);
    custom_one.py:37, custom_two.py:37, custom_multi.py:37 for the gates of the user, who may also have other gates there. *)
Definition tag_of (g : cgate) : string :=
  match g with
  | CUser1 _ _ _ => "cuone" | CUser2 _ => "cutwo" | CUserN _ _ => "cumulti"
  | CRot _ _ (OR _, _) => "rxy" | CRot _ _ (OV _, _) => "virtrz"
  | CBlock _ _ _ _ (ELoc _ (KR _ _ _ _) _) => "rxy" | CBlock _ _ _ _ (ELoc _ (KRz _ _ _) _) => "rz"
  | CBlock _ _ _ _ (ELoc _ (KRh _ _) _) => "rh" | CBlock _ _ _ _ (ELoc _ (KV _ _) _) => "virtrz"
  | CBlock _ _ _ _ (ECex _) => "cx" | CCex _ _ _ _ _ => "cx"
  end.
(** lev_a and lev_b, for the instances of R, Rz, Rh and CEx. *)
Definition levels_of (g : cgate) : option (Z * Z) :=
  match g with
  | CRot _ _ (OR r, _) => Some (Z.of_nat (lev_a r), Z.of_nat (lev_b r))
  | CBlock _ _ _ _ (ELoc _ (KR a b _ _) _) => Some (a, b) | CBlock _ _ _ _ (ELoc _ (KRz a b _) _) => Some (a, b)
  | CBlock _ _ _ _ (ELoc _ (KRh a b) _) => Some (a, b) | CBlock _ _ _ _ (ECex _) => Some (0, 1)%Z
  | CCex _ _ _ _ x => Some (Z.of_nat (cx_a x), Z.of_nat (cx_b x))
  | _ => None
  end.
(** A gate of a compiled circuit on n qudits as noisy_circuit_factory.py reads it (see InsertModel.v). *)
Definition as_instr (n : nat) (g : cgate) : gate idata :=
  let h := as_gate g in
  Gate (g_name h) (g_type h) (g_target h) (g_controls h) (g_dagger h) (g_long h) (IData (tag_of g) (levels_of g) n).
