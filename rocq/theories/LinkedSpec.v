(** What it means that memory holds an index: the nodes of a tree with their addresses, and the blocks
    they occupy. *)
From Coq Require Import ZArith NArith String Bool List Permutation.
From Verif Require Import Base Float Value Ast Config Tree Linked.
Import ListNotations.

(** A tree of Tree.v with the addresses of its blocks: [AC a la sa m subs pd pa ps] is a cnode at [a] whose
    lnode is at [la], with the array of subscriptions at [sa], and whose pdir is at [pd] with the array
    of pnodes at [pa]; [ACons a sa ...] is a pnode at [a] with its name at [sa]; likewise for cdirs. *)
Inductive acnode := AC (a la sa : N) (m : Z) (subs : list (N * sub)) (pd pa : N) (ps : apdir)
with apdir := ANil | ACons (a sa : N) (v : N) (score : flt) (cd : acdir) (rest : apdir)
with acdir := ALeaf (a sa : N) (b : bound) (cn : acnode) | ASplit (a sa : N) (b : bound) (cn : acnode) (l r : acdir).

(** The address of a node. *)
Definition cn_at (T : acnode) : N := match T with AC a _ _ _ _ _ _ _ => a end.
(** The address of the lnode. *)
Definition ln_at (T : acnode) : N := match T with AC _ la _ _ _ _ _ _ => la end.
(** The address of a cdir. *)
Definition cd_at (D : acdir) : N := match D with ALeaf a _ _ _ | ASplit a _ _ _ _ _ => a end.
(** The cnode of a cdir. *)
Definition cd_cn (D : acdir) : acnode := match D with ALeaf _ _ _ T | ASplit _ _ _ T _ _ => T end.
(** The range of a cdir. *)
Definition cd_b (D : acdir) : bound := match D with ALeaf _ _ b _ | ASplit _ _ b _ _ _ => b end.
(** The addresses of the pnodes of a pdir. *)
Fixpoint pn_at (P : apdir) : list N := match P with ANil => [] | ACons a _ _ _ _ rest => a :: pn_at rest end.

(** The tree without its addresses. *)
Fixpoint er_cnode (T : acnode) : cnode :=
  match T with AC _ _ _ m subs _ _ ps => CNode m (map snd subs) (er_pdir ps) end
with er_pdir (P : apdir) : pdir :=
  match P with ANil => PNil | ACons _ _ v sc cd rest => PCons v sc (er_cdir cd) (er_pdir rest) end
with er_cdir (D : acdir) : cdir :=
  match D with
  | ALeaf _ _ b cn => CLeaf b (er_cnode cn)
  | ASplit _ _ b cn l r => CSplit b (er_cnode cn) (er_cdir l) (er_cdir r)
  end.

(** An array exists only if it has entries. *)
Definition arr_ptr (a : N) (l : list N) : N := match l with [] => NULL | _ => a end.
(** The block of an array. *)
Definition arr_cells (a : N) (l : list N) : list (N * obj) := match l with [] => [] | _ => [(a, OArr l)] end.
(** The blocks of an lnode at [la] of the cnode at [a], with the array of its subscriptions. *)
Definition ln_cells (a la sa : N) (m : Z) (l : list N) : list (N * obj) :=
  (la, OLnode a (length l) (arr_ptr sa l) m) :: arr_cells sa l.
(** The blocks of a pdir with its array; they exist only if there are pnodes. *)
Definition pd_cells (cn pd pa : N) (l : list N) : list (N * obj) :=
  match l with [] => [] | _ => [(pd, OPdir cn (length l) pa); (pa, OArr l)] end.

(** All blocks of an index, except those of its subscriptions, each with the contents it should have: the
    parent of the cnode is the cdir at [p]; the parent of the pnodes is the pdir at [pd]; the parent of
    the cdir is a pnode ([k] = true) or a cdir at [p]. *)
Fixpoint blocks_cnode (p : N) (T : acnode) : list (N * obj) :=
  match T with
  | AC a la sa m subs pd pa ps =>
      (a, OCnode p la (arr_ptr pd (pn_at ps)))
      :: ln_cells a la sa m (map fst subs) ++ pd_cells a pd pa (pn_at ps) ++ blocks_pdir pd ps
  end
with blocks_pdir (pd : N) (P : apdir) : list (N * obj) :=
  match P with
  | ANil => []
  | ACons a sa v sc cd rest =>
      (a, OPnode pd v sa (cd_at cd) sc) :: (sa, OStr) :: blocks_cdir true a v cd ++ blocks_pdir pd rest
  end
with blocks_cdir (k : bool) (p v : N) (D : acdir) : list (N * obj) :=
  match D with
  | ALeaf a sa b cn => (a, OCdir k p v sa b (cn_at cn) NULL NULL) :: (sa, OStr) :: blocks_cnode a cn
  | ASplit a sa b cn l r =>
      (a, OCdir k p v sa b (cn_at cn) (cd_at l) (cd_at r)) :: (sa, OStr)
      :: blocks_cnode a cn ++ blocks_cdir false a v l ++ blocks_cdir false a v r
  end.

(** The subscriptions in the leaves, with their addresses. *)
Fixpoint asubs_cnode (T : acnode) : list (N * sub) :=
  match T with AC _ _ _ _ subs _ _ ps => subs ++ asubs_pdir ps end
with asubs_pdir (P : apdir) : list (N * sub) :=
  match P with ANil => [] | ACons _ _ _ _ cd rest => asubs_cdir cd ++ asubs_pdir rest end
with asubs_cdir (D : acdir) : list (N * sub) :=
  match D with
  | ALeaf _ _ _ cn => asubs_cnode cn
  | ASplit _ _ _ cn l r => asubs_cnode cn ++ asubs_cdir l ++ asubs_cdir r
  end.
(** The blocks of subscriptions. *)
Definition sub_blocks (l : list (N * sub)) : list (N * obj) := map (fun x => (fst x, OSub (snd x))) l.

(** Memory consists of exactly these blocks, at different addresses, none of which is NULL. *)
Definition holds (h : heap) (L : list (N * obj)) : Prop :=
  NoDup (map fst (h_cells h))
  /\ ((0 < h_next h)%N /\ Forall (fun c => (0 < fst c < h_next h)%N) (h_cells h))
  /\ Permutation (h_cells h) L.
