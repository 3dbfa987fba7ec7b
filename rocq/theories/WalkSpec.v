(** Which nodes a search visits. *)
From Coq Require Import ZArith NArith Bool List.
From Verif Require Import Base Float FloatSpec Value Ast Config Match Tree TreeSpec SizeSpec.
Import ListNotations.
Local Open Scope Z_scope.

Section Walk.
  Context (ds : list domain) (p : env).
  (** tree.c 131-132: the search enters the partition of [v]. *)
  Definition enters (v : N) : bool :=
    match nthN ds v, nthN p v with
    | Some d, Some o => d_undef d || match o with Some _ => true | None => false end
    | Some d, None => d_undef d
    | None, _ => false
    end.
  (** tree.c 235-240: it goes on to a part of a divided range. *)
  Definition goes (v : N) (b : bound) (ol orr : bool) : bool :=
    match is_event_enclosed p v b ol orr with Ok true => true | _ => false end.
  (** tree.c 229-242: the ranges of one partition that are visited. *)
  Fixpoint seen (v : N) (ol orr : bool) (cd : cdir) : list cdir :=
    cd :: match cd with
          | CLeaf _ _ => []
          | CSplit _ _ l r =>
              (if goes v (reach_of l) ol false then seen v ol false l else [])
              ++ (if goes v (reach_of r) false orr then seen v false orr r else [])
          end.
  (** tree.c 120-137, 229-242: the nodes that are visited, in order. *)
  Fixpoint visited_cnode (cn : cnode) : list cnode :=
    cn :: match cn with CNode _ _ ps => visited_pdir ps end
  with visited_pdir (ps : pdir) : list cnode :=
    match ps with
    | PNil => []
    | PCons v _ cd rest => (if enters v then visited_cdir v true true cd else []) ++ visited_pdir rest
    end
  with visited_cdir (v : N) (ol orr : bool) (cd : cdir) : list cnode :=
    match cd with
    | CLeaf _ cn => visited_cnode cn
    | CSplit _ cn l r =>
        visited_cnode cn
        ++ (if goes v (reach_of l) ol false then visited_cdir v ol false l else [])
        ++ (if goes v (reach_of r) false orr then visited_cdir v false orr r else [])
    end.
End Walk.

Definition at_node (cn : cnode) : list sub := match cn with CNode _ subs _ => subs end.

(** The partitions of a tree with their variables. *)
Fixpoint named_cnode (cn : cnode) : list (N * cdir) := match cn with CNode _ _ ps => named_pdir ps end
with named_pdir (ps : pdir) : list (N * cdir) :=
  match ps with PNil => [] | PCons v _ cd rest => (v, cd) :: named_cdir cd ++ named_pdir rest end
with named_cdir (cd : cdir) : list (N * cdir) :=
  match cd with CLeaf _ cn => named_cnode cn | CSplit _ cn l r => named_cnode cn ++ named_cdir l ++ named_cdir r end.

(** One value: not a list, and finite. *)
Definition single (x : value) : Prop :=
  match x with
  | VBool _ | VInt _ | VStr _ | VIEnum _ => True
  | VFloat f => canonical f
  | VIntList _ | VStrList _ | VSegs _ | VFreqs _ => False
  end.
(** Ranges whose ends are in order, as in [discrete]. *)
Definition ordered (b : bound) : Prop :=
  match b with
  | BBool lo hi => implb lo hi = true
  | BInt _ lo hi => lo <= hi
  | BStr _ lo hi => 0 <= lo <= hi /\ hi < 2 ^ 64
  | BFloat lo hi => coarse lo /\ coarse hi /\ units lo <= units hi /\ whole_width lo hi
  | BSegs | BFreqs => False
  end.
