(** Vocabulary for the search tree (C77). *)
From Coq Require Import Reals.
From Verif.Base Require Import Py.
From Verif.Local Require Import TreeModel.
Local Open Scope list_scope.
Local Open Scope nat_scope.

Section Spec.
  Context {A : Type}.

  (** t' is t or lies below it, d steps down. *)
  Inductive under : ntree A -> ntree A -> nat -> Prop :=
  | under_self t : under t t 0
  | under_child k f a ch c t' n : In c ch -> under c t' n -> under (NT k f a ch) t' (S n).

  (** The nodes of a tree, parents before children, as (key, payload). *)
  Fixpoint entries (t : ntree A) : list (Z * A) :=
    match t with NT k _ a ch => (k, a) :: flat_map entries ch end.

  (** A path of payloads from the root of t to a node without children, and the flag of that node. *)
  Inductive leads : ntree A -> list A -> bool -> Prop :=
  | leads_leaf k f a : leads (NT k f a []) [a] f
  | leads_child k f a ch c p b : In c ch -> leads c p b -> leads (NT k f a ch) (a :: p) b.

  (** Only nodes without children are finished: what the searches leave. *)
  Definition leaves_only (t : ntree A) : Prop :=
    forall t' n, under t t' n -> t_children t' <> [] -> t_fin t' = false.

  (** Histories of NAryTree calls: add, and the attribute total_size. *)
  Inductive call := CAdd (k : Z) (a : A) (parent : option Z) | CTotal.
  Definition run_call (t : @nary A) (c : call) : res (@nary A) :=
    match c with
    | CAdd k a p => tree_add t k a p
    | CTotal => let? x := total_size t in Ok (snd x)
    end.
  Fixpoint run_calls (t : @nary A) (l : list call) : res (@nary A) :=
    match l with [] => Ok t | c :: r => let? t' := run_call t c in run_calls t' r end.
  (** What was added since the tree last got a root. *)
  Fixpoint added (acc : list (Z * A)) (l : list call) : list (Z * A) :=
    match l with
    | [] => acc
    | CAdd k a None :: r => added [(k, a)] r
    | CAdd k a (Some _) :: r => added (acc ++ [(k, a)]) r
    | CTotal :: r => added acc r
    end.
End Spec.
Arguments call A : clear implicits.
