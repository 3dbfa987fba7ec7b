(** What the index looks like: which variables label its partitions, which subscriptions lie below them, how
    ranges are divided.  Read off the tree structure and the expressions only. *)
From Coq Require Import ZArith NArith String Bool List.
From Verif Require Import Base Float Value Ast Config Tree TreeSpec.
Import ListNotations.

(** The variables a predicate asks about.  The clock [now] of a frequency cap or a segment test is not one of
    them. *)
Definition asks (p : leaf) : list N :=
  match p with
  | PLit _ => []
  | PVar v | PCmp _ v _ | PEq _ v _ | PList _ v _ | PNull _ v | PStr _ v _ | PFreq v _ _ _ _ _ _ | PSeg _ _ v _ _ _ => [av_var v]
  | PSet _ (SLVar v) _ => [av_var v]
  | PSet _ _ (SRVar v) => [av_var v]
  | PSet _ _ _ => []
  | PGeo _ _ _ _ la lo => [av_var la; av_var lo]
  end.
Definition about (v : N) (s : sub) : Prop := exists p, In p (expr_leaves (s_expr s)) /\ In v (asks p).

(** The variables that label the partitions of one node. *)
Fixpoint labels (ps : pdir) : list N := match ps with PNil => [] | PCons v _ _ rest => v :: labels rest end.
Definition parts (cn : cnode) : list N := match cn with CNode _ _ ps => labels ps end.
Definition range (cd : cdir) : bound := match cd with CLeaf b _ | CSplit b _ _ _ => b end.

(** A range of one value. *)
Definition point (b : bound) : Prop :=
  match b with
  | BBool lo hi => lo = hi
  | BInt _ lo hi => lo = hi
  | BFloat lo hi => feq lo hi = true
  | BStr _ lo hi => lo = hi
  | BSegs | BFreqs => False
  end.
(** [b] is divided into [l] and [r]: they start and end where [b] does and share one value, or each is one end
    of [b]. *)
Definition divided (b l r : bound) : Prop :=
  match b with
  | BBool lo hi => l = BBool lo lo /\ r = BBool hi hi
  | BInt t lo hi => (exists m, l = BInt t lo m /\ r = BInt t m hi) \/ (l = BInt t lo lo /\ r = BInt t hi hi)
  | BFloat lo hi => (exists m, l = BFloat lo m /\ r = BFloat m hi) \/ (l = BFloat lo lo /\ r = BFloat hi hi)
  | BStr t lo hi => (exists m, l = BStr t lo m /\ r = BStr t m hi) \/ (l = BStr t lo lo /\ r = BStr t hi hi)
  | BSegs | BFreqs => False
  end.

Section Shape.
  (** [has v s]: the subscription [s] is about [v]; [n] variables; [minp] subscriptions make a partition. *)
  Variables (has : N -> sub -> Prop) (n : nat) (minp : Z).
  (** [used]: the variables that label the partitions above. *)
  Fixpoint shaped_cnode (used : list N) (cn : cnode) : Prop :=
    match cn with
    | CNode _ subs ps =>
        NoDup (labels ps)
        /\ (forall v, In v (labels ps) -> ~ In v used /\ (N.to_nat v < n)%nat /\ forall s, In s subs -> ~ has v s)
        /\ shaped_pdir used ps
    end
  with shaped_pdir (used : list N) (ps : pdir) : Prop :=
    match ps with
    | PNil => True
    | PCons v _ cd rest =>
        (forall s, In s (subs_cdir cd) -> has v s)
        /\ ((1 <= List.length (subs_cdir cd))%nat /\ (minp <= Z.of_nat (List.length (subs_cdir cd)))%Z)
        /\ shaped_cdir (v :: used) cd /\ shaped_pdir used rest
    end
  with shaped_cdir (used : list N) (cd : cdir) : Prop :=
    match cd with
    | CLeaf b cn => (parts cn = [] \/ point b) /\ shaped_cnode used cn
    | CSplit b cn l r => divided b (range l) (range r) /\ shaped_cnode used cn /\ shaped_cdir used l /\ shaped_cdir used r
    end.
End Shape.

(** How many partitions lie inside each other, and how many there are. *)
Fixpoint depth_cnode (cn : cnode) : nat := match cn with CNode _ _ ps => depth_pdir ps end
with depth_pdir (ps : pdir) : nat :=
  match ps with PNil => O | PCons _ _ cd rest => Nat.max (S (depth_cdir cd)) (depth_pdir rest) end
with depth_cdir (cd : cdir) : nat :=
  match cd with
  | CLeaf _ cn => depth_cnode cn
  | CSplit _ cn l r => Nat.max (depth_cnode cn) (Nat.max (depth_cdir l) (depth_cdir r))
  end.
Fixpoint size_cnode (cn : cnode) : nat := match cn with CNode _ _ ps => size_pdir ps end
with size_pdir (ps : pdir) : nat :=
  match ps with PNil => O | PCons _ _ cd rest => (1 + size_cdir cd + size_pdir rest)%nat end
with size_cdir (cd : cdir) : nat :=
  match cd with
  | CLeaf _ cn => size_cnode cn
  | CSplit _ cn l r => (size_cnode cn + size_cdir l + size_cdir r)%nat
  end.
