(** The red-black tree that stores predicates (jsw_rbtree.c 26-198). *)
From Coq Require Import Bool List.
From Verif Require Import Base.
Import ListNotations.
Local Open Scope res_scope.

Section RB.
  Variable A : Type.
  Variable cmp : A -> A -> comparison.

  (** jsw_rbtree.c 26-30 [struct jsw_rbnode]; [RL] is NULL. *)
  Inductive rb := RL | RN (red : bool) (d : A) (l r : rb).

  (** jsw_rbtree.c 37-40 [is_red]. *)
  Definition is_red (t : rb) : bool := match t with RN true _ _ _ => true | _ => false end.

  (** A node with link[dir] = x and link[!dir] = y. *)
  Definition node (red : bool) (d : A) (dir : bool) (x y : rb) : rb :=
    if dir then RN red d y x else RN red d x y.

  (** jsw_rbtree.c 115-130 [jsw_rbfind]. *)
  Fixpoint rb_find (t : rb) (x : A) : option A :=
    match t with
    | RL => None
    | RN _ d l r =>
        match cmp d x with
        | Eq => Some d
        | Lt => rb_find r x
        | Gt => rb_find l x
        end
    end.

  (** A step of the path from the root to the current node q: q is link[dir] of a node with the given
      colour and data, whose other link is [sib].  The head of the path is the parent p, then the
      grandparent g, and so on. *)
  Record frame := mkF { f_dir : bool; f_red : bool; f_data : A; f_sib : rb }.
  (** jsw_rbtree.c 132-198: writing a changed child back into its parent. *)
  Definition plug1 (f : frame) (q : rb) : rb := node (f_red f) (f_data f) (f_dir f) q (f_sib f).
  (** jsw_rbtree.c 132-198: the whole tree around the current node. *)
  Fixpoint plug (path : list frame) (q : rb) : rb :=
    match path with [] => q | f :: path' => plug path' (plug1 f q) end.

  (** jsw_rbtree.c 194: tree->root->red = 0. *)
  Definition set_black (t : rb) : rb := match t with RN _ d l r => RN false d l r | RL => RL end.

  (** jsw_rbtree.c 157-169: attach a new red node, or split a node with two red children. *)
  Definition fix_q (q : rb) (x : A) : rb :=
    match q with
    | RL => RN true x RL RL
    | RN c d l r => if is_red l && is_red r then RN true d (set_black l) (set_black r) else q
    end.

  (** jsw_rbtree.c 132-198 [jsw_rbinsert], one iteration of the loop.
      The C code keeps pointers q, p, g, t to the current node and its last three predecessors.
      After a rotation these are no longer consecutive ancestors for one (single rotation) or two
      (double rotation) iterations; [stale] counts those iterations.  The model takes ancestors from
      the path; a rotation at a moment when the C pointers are out of date, or without a
      grandparent, is [UB] here (RbProofs.v shows that this does not happen).  LinkedRb.v has the
      pointers themselves, PropsRbLinked.v shows that they do the same. *)
  Fixpoint rb_loop (fuel : nat) (q : rb) (path : list frame) (stale : nat) (x : A) : result rb :=
    match fuel with
    | O => Fuel
    | S fuel' =>
        let q1 := fix_q q x in
        do '(q2, path2, stale2) <-
          (if is_red q1 && match path with p :: _ => f_red p | [] => false end then
             match path, q1, stale with
             | p :: g :: rest, RN _ d l r, O =>
                 let last := f_dir g in
                 if Bool.eqb (f_dir p) last then
                   (* jsw_single(g, !last) (42-53): p above g and q *)
                   Ok (q1, mkF last false (f_data p) (node true (f_data g) last (f_sib p) (f_sib g)) :: rest, 2)
                 else
                   (* jsw_double(g, !last) (55-60): q above p and g *)
                   let ql := if last then r else l in      (* q->link[last] *)
                   let qn := if last then l else r in      (* q->link[!last] *)
                   Ok (node false d last (node true (f_data p) last (f_sib p) ql)
                                         (node true (f_data g) last qn (f_sib g)), rest, 3)
             | _, _, _ => UB
             end
           else Ok (q1, path, stale));
        match q2 with
        | RL => UB
        | RN c d l r =>
            match cmp d x with
            | Eq => Ok (plug path2 q2)
            | Lt => rb_loop fuel' r (mkF true c d l :: path2) (pred stale2) x
            | Gt => rb_loop fuel' l (mkF false c d r :: path2) (pred stale2) x
            end
        end
    end.

  (** jsw_rbtree.c 273-276 [jsw_rbsize]. *)
  Fixpoint rb_size (t : rb) : nat :=
    match t with RL => 0 | RN _ _ l r => S (rb_size l + rb_size r) end.

  (** jsw_rbtree.c 132-198 [jsw_rbinsert]; the number of iterations is bounded by three times the
      height plus a constant. *)
  Definition rb_insert (t : rb) (x : A) : result rb :=
    match t with
    | RL => Ok (RN false x RL RL)
    | _ => do t' <- rb_loop (3 * rb_size t + 4) t [] 0 x; Ok (set_black t')
    end.

  (** In-order contents (specification helper, no C counterpart). *)
  Fixpoint rb_elems (t : rb) : list A :=
    match t with RL => [] | RN _ d l r => rb_elems l ++ d :: rb_elems r end.
End RB.
Arguments RL {A}. Arguments RN {A}. Arguments is_red {A}. Arguments node {A}. Arguments rb_find {A}.
Arguments mkF {A}. Arguments f_dir {A}. Arguments f_red {A}. Arguments f_data {A}. Arguments f_sib {A}.
Arguments plug1 {A}. Arguments plug {A}. Arguments set_black {A}.
Arguments fix_q {A}. Arguments rb_loop {A}. Arguments rb_size {A}. Arguments rb_insert {A}.
Arguments rb_elems {A}.
