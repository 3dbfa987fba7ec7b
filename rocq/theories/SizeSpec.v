(** How large the index can be: how often the range of a partition is divided and how many nodes there are.  Read
    off the tree structure only. *)
From Coq Require Import ZArith NArith Bool List.
From Verif Require Import Base Float FloatSpec Value Ast Config Tree TreeSpec.
Import ListNotations.
Local Open Scope Z_scope.

(** The distance of the ends of a range, for floats rounded down; for strings the numbers are unsigned 64-bit
    numbers. *)
Definition width (b : bound) : Z :=
  match b with
  | BBool lo hi => if Bool.eqb lo hi then 0 else 1
  | BInt _ lo hi => hi - lo
  | BStr _ lo hi => (hi - lo) mod 2 ^ 64
  | BFloat lo hi => (units hi - units lo) / 2 ^ 1074
  | BSegs | BFreqs => 0
  end.
(** Ranges of integers whose ends are in order, of truth values and of strings, and ranges of floats whose ends are
    in order, multiples of 2^-10 up to 2^40, and a whole number apart. *)
Definition discrete (b : bound) : Prop :=
  match b with
  | BInt _ lo hi => lo <= hi
  | BBool _ _ | BStr _ _ _ => True
  | BFloat lo hi => coarse lo /\ coarse hi /\ units lo <= units hi /\ whole_width lo hi
  | BSegs | BFreqs => False
  end.
Definition reach_of (cd : cdir) : bound := match cd with CLeaf b _ | CSplit b _ _ _ => b end.

(** How many divided ranges lie inside each other, how many ranges a partition has. *)
Fixpoint steps (cd : cdir) : nat := match cd with CLeaf _ _ => O | CSplit _ _ l r => S (Nat.max (steps l) (steps r)) end.
Fixpoint ranges (cd : cdir) : nat := match cd with CLeaf _ _ => 1%nat | CSplit _ _ l r => S (ranges l + ranges r) end.

(** The ranges of all partitions of a tree. *)
Fixpoint tops_cnode (cn : cnode) : list cdir := match cn with CNode _ _ ps => tops_pdir ps end
with tops_pdir (ps : pdir) : list cdir := match ps with PNil => [] | PCons _ _ cd rest => cd :: tops_cdir cd ++ tops_pdir rest end
with tops_cdir (cd : cdir) : list cdir :=
  match cd with CLeaf _ cn => tops_cnode cn | CSplit _ cn l r => tops_cnode cn ++ tops_cdir l ++ tops_cdir r end.

(** The number of nodes of a tree. *)
Fixpoint total_cnode (cn : cnode) : nat := match cn with CNode _ _ ps => S (total_pdir ps) end
with total_pdir (ps : pdir) : nat := match ps with PNil => O | PCons _ _ cd rest => (total_cdir cd + total_pdir rest)%nat end
with total_cdir (cd : cdir) : nat :=
  match cd with CLeaf _ cn => total_cnode cn | CSplit _ cn l r => (total_cnode cn + total_cdir l + total_cdir r)%nat end.
