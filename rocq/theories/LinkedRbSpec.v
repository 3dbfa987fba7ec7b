(** The blocks of a red-black tree in memory, for a tree whose nodes carry their addresses. *)
From Coq Require Import NArith Bool List Permutation.
From Verif Require Import Base RbTree LinkedRb.
Import ListNotations.

Section RB.
  Variable A : Type.

  (** Memory consists of exactly these blocks, at different addresses, none of which is NULL. *)
  Definition owns (h : mem A) (L : list (N * rnode A)) : Prop :=
    NoDup (map fst (m_cells h))
    /\ ((0 < m_next h)%N /\ Forall (fun c => (0 < fst c < m_next h)%N) (m_cells h))
    /\ Permutation (m_cells h) L.

  (** Trees whose nodes carry addresses. *)
  Inductive art := AL | AN (a : N) (red : bool) (d : A) (l r : art).
  (** Without the addresses. *)
  Fixpoint er (t : art) : rb A := match t with AL => RL | AN _ c d l r => RN c d (er l) (er r) end.
  (** The pointer to a tree. *)
  Definition ptr (t : art) : N := match t with AL => 0%N | AN a _ _ _ _ => a end.
  (** Its blocks. *)
  Fixpoint cells (t : art) : list (N * rnode A) :=
    match t with AL => [] | AN a c d l r => (a, mkR c (Some d) (ptr l) (ptr r)) :: cells l ++ cells r end.
  (** [root] points to a tree equal to [t], in a memory with the further blocks [R]. *)
  Definition tree_at (h : mem A) (root : N) (t : rb A) (R : list (N * rnode A)) : Prop :=
    exists a, er a = t /\ root = ptr a /\ owns h (cells a ++ R).
End RB.
Arguments owns {A}. Arguments AL {A}. Arguments AN {A}. Arguments er {A}. Arguments ptr {A}. Arguments cells {A}.
Arguments tree_at {A}.
