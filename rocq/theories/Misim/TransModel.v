(** The transpose of a matrix in the decision diagram package.
    Source: include/dd/MDDPackage.hpp:1863-1904.

    Simplifications as in DdModel.v.  The compute table matrixTranspose is only written after the exception described below,
    so it is always empty, and its look-up (lines 1877-1881) is left out. *)
From Coq Require Import List Arith Reals Bool.
From Verif Require Import Base.Cplx Misim.DdModel Misim.KronModel.
Import ListNotations.
Local Open Scope nat_scope.

Section Trans.
Variable tol : R.
(** registersSizes, register 0 first *)
Variable dims : list nat.
(** lines 1871-1904: an edge to the terminal node or to a node marked symmetric is returned; for any other node the vector
    newEdge is empty, and newEdge.at(0) throws std::out_of_range (None), unless the register has size 0; registersSizes.at throws for
    a register that does not exist *)
Definition transpose (e : edge) : option edge :=
  match snd e with
  | Term => Some e
  | Node v _ =>
      if marked tol dims (snd e) then Some e
      else match nth_error dims v with
           | Some O => let r := make tol true false v [] in Some (Cmul (fst r) (fst e), snd r)
           | _ => None
           end
  end.
End Trans.
