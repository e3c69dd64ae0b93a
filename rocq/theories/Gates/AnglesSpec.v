(** Specification for angles: equality modulo a period. *)
From Coq Require Import Reals.
Open Scope R_scope.
Definition same_mod (m x y : R) : Prop := exists k : Z, x = y + IZR k * m.
