(** Vocabulary for the search tree: nodes are addressed by the child numbers on the way from the root. *)
From Coq Require Import Reals List ZArith.
From Verif.Base Require Import Py.
From Verif.Compiler Require Import TreeModel.
Import ListNotations.
Local Open Scope list_scope.

Section Spec.
  Context {P : Type}.
  Notation info := (info P). Notation tree := (tree P). Notation ntree := (ntree P).

  (** The subtree at an address. *)
  Fixpoint sub (t : tree) (a : list nat) : option tree :=
    match a with
    | [] => Some t
    | n :: r => match nth_error (children t) n with Some c => sub c r | None => None end
    end.
  (** The node at an address. *)
  Definition node (t : tree) (a : list nat) : option info :=
    match sub t a with Some s => Some (label s) | None => None end.
  Definition leaf (t : tree) (a : list nat) (i : info) : Prop := sub t a = Some (Nd i []).

  (** a comes before b when nodes are visited depth first, a node before its children. *)
  Inductive before : list nat -> list nat -> Prop :=
  | before_child : forall n a, before [] (n :: a)
  | before_left : forall n m a b, n < m -> before (n :: a) (m :: b)
  | before_same : forall n a b, before a b -> before (n :: a) (n :: b).
  (** The first node with key k sits at a. *)
  Definition first_with (t : tree) (k : Z) (a : list nat) : Prop :=
    (exists i, node t a = Some i /\ key i = k) /\
    forall b j, node t b = Some j -> key j = k -> b = a \/ before a b.

  (** The tree has n nodes. *)
  Definition nodes (t : tree) (n : nat) : Prop :=
    exists l, NoDup l /\ length l = n /\ forall a, In a l <-> node t a <> None.
  (** The longest way down from the root has n steps. *)
  Definition height (t : tree) (n : nat) : Prop :=
    (exists a, node t a <> None /\ length a = n) /\ forall a, node t a <> None -> length a <= n.

  (** Every node marked finished is, or is above, a leaf marked finished. *)
  Definition supported (t : tree) : Prop :=
    forall a i, node t a = Some i -> finished i = true -> exists b j, leaf t (a ++ b) j /\ finished j = true.

  (** The nodes from the root to an address, root first. *)
  Definition way (t : tree) (a : list nat) (l : list info) : Prop :=
    length l = S (length a) /\ forall n, n <= length a -> nth_error l n = node t (firstn n a).

  (** Two nodes that agree up to the finished flag. *)
  Definition same_but_flag (i j : info) : Prop :=
    key i = key j /\ parent_key i = parent_key j /\ current_cost i = current_cost j /\
    decomp_cost i = decomp_cost j /\ payload i = payload j.

  (** Histories of a tree. *)
  Inductive op :=
  | OAdd (k : Z) (c dc : R) (p : P) (parent : option Z)
  | OFinish (k : Z)
  | ORetrieve.
  Definition step (n : ntree) (o : op) : res ntree :=
    match o with
    | OAdd k c dc p parent => add n k c dc p parent
    | OFinish k => mark_finished n k
    | ORetrieve => match root n with None => Err AttributeError | Some t => Ok (NT (Some (fst (retrieve t))) (size n)) end
    end.
  (** The compilers mark leaves only, and never add below a finished leaf. *)
  Definition legal (n : ntree) (o : op) : Prop :=
    match root n, o with
    | Some t, OAdd _ _ _ _ (Some pk) => forall a i, first_with t pk a -> leaf t a i -> finished i = false
    | Some t, OFinish k => forall a, first_with t k a -> exists i, leaf t a i
    | _, _ => True
    end.
  Inductive history : ntree -> list op -> ntree -> Prop :=
  | history_nil : forall n, history n [] n
  | history_ok : forall n o n' l n'', step n o = Ok n' -> history n' l n'' -> history n (o :: l) n''
  | history_err : forall n o e l n'', step n o = Err e -> history n l n'' -> history n (o :: l) n''.
  Inductive legal_history : ntree -> list op -> ntree -> Prop :=
  | legal_nil : forall n, legal_history n [] n
  | legal_ok : forall n o n' l n'', legal n o -> step n o = Ok n' -> legal_history n' l n'' -> legal_history n (o :: l) n''
  | legal_err : forall n o e l n'', step n o = Err e -> legal_history n l n'' -> legal_history n (o :: l) n''.
End Spec.
Arguments op : clear implicits.
