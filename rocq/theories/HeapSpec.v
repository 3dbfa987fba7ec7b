(** Which blocks belong to a value. *)
From Coq Require Import ZArith List Bool Permutation.
From Verif Require Import Base Ledger HeapExpr.
Import ListNotations.
Local Open Scope Z_scope.

(** Exactly these blocks are allocated, each once. *)
Definition holds (m : ledger) (l : list Z) : Prop :=
  0 < l_next m /\ Permutation (l_live m) l /\ NoDup l /\ Forall (fun a => 0 < a < l_next m) l.

(** A pointer that may be NULL. *)
Definition opt_at (a : Z) : list Z := if a =? 0 then [] else [a].
Definition bl_var (v : hvar) : list Z := opt_at (hs_at (hv_attr v)).
Definition bl_sval (s : hsval) : list Z := [hs_at (hw_string s)].
(** The list and its array; an empty list need not have one. *)
Definition bl_ints (l : hints) : list Z :=
  hi_at l :: match hi_items l with [] => opt_at (hi_arr l) | _ => [hi_arr l] end.
Definition bl_strs (l : hstrs) : list Z :=
  hl_at l :: match hl_items l with [] => opt_at (hl_arr l) | _ => [hl_arr l] end ++ flat_map bl_sval (hl_items l).
Definition bl_qval (q : hqval) : list Z := match q with HQStr s => bl_sval s | _ => [] end.
Definition bl_left (l : hleft) : list Z := match l with HLInt _ => [] | HLStr s => bl_sval s | HLVar v => bl_var v end.
Definition bl_right (r : hright) : list Z := match r with HRInts l => bl_ints l | HRStrs l => bl_strs l | HRVar v => bl_var v end.
Definition bl_lval (l : hlval) : list Z := match l with HVInts l => bl_ints l | HVStrs l => bl_strs l end.
Definition bl_leaf (p : hleaf) : list Z :=
  match p with
  | HPLit _ => []
  | HPVar v | HPNull _ v | HPCmp _ v _ => bl_var v
  | HPEq _ v q => bl_var v ++ bl_qval q
  | HPSet _ l r => bl_left l ++ bl_right r
  | HPList _ v l => bl_var v ++ bl_lval l
  | HPFreq v _ ns _ _ now _ => bl_var v ++ bl_sval ns ++ bl_var now
  | HPSeg _ _ v _ _ now => bl_var v ++ bl_var now
  | HPGeo _ _ _ _ latv lonv => bl_var latv ++ bl_var lonv
  | HPStr _ v p => bl_var v ++ [hs_at p]
  end.
(** All blocks of an expression. *)
Fixpoint blocks (e : hexpr) : list Z :=
  match e with
  | HLeaf a _ p => a :: bl_leaf p
  | HAnd a _ x y | HOr a _ x y => a :: blocks x ++ blocks y
  | HNot a _ x => a :: blocks x
  end.

(** The names a copy reads are there. *)
Definition has_name (v : hvar) : Prop := hs_at (hv_attr v) <> 0.
Definition named_leaf (p : hleaf) : Prop :=
  match p with
  | HPLit _ | HPGeo _ _ _ _ _ _ => True
  | HPVar v | HPNull _ v | HPCmp _ v _ | HPEq _ v _ | HPFreq v _ _ _ _ _ _ | HPSeg _ _ v _ _ _ | HPStr _ v _ => has_name v
  | HPSet _ l r => match l with HLVar v => has_name v | _ => True end /\ match r with HRVar v => has_name v | _ => True end
  | HPList _ v _ => has_name v
  end.
Fixpoint named (e : hexpr) : Prop :=
  match e with
  | HLeaf _ _ p => named_leaf p
  | HAnd _ _ x y | HOr _ _ x y => named x /\ named y
  | HNot _ _ x => named x
  end.

(** The blocks of a value on the stack of the parser. *)
Definition bl_val (v : hval) : list Z :=
  match v with
  | HTok | HInt _ | HFlt _ | HCmp _ => []
  | HString s => [hs_at s]
  | HInts l => bl_ints l
  | HStrs l => bl_strs l
  | HStr s => bl_sval s
  | HEq q => bl_qval q
  | HVar v => bl_var v
  | HLeft l => bl_left l
  | HRight r => bl_right r
  | HList l => bl_lval l
  | HNode e => blocks e
  end.
