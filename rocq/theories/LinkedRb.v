(** The red-black tree as jsw_rbtree.c has it: nodes in memory, the pointers g, t, p, q of jsw_rbinsert, releasing by
    rotations.  RbTree.v describes the same functions on trees without pointers. *)
From Coq Require Import NArith Bool List.
From Verif Require Import Base.
Import ListNotations.
Local Open Scope res_scope.

Section RB.
  Variable A : Type.
  Variable cmp : A -> A -> comparison.

  (** jsw_rbtree.c 26-30 [struct jsw_rbnode]; [None] is a null data pointer (the node [head] has no data). *)
  Record rnode := mkR { r_red : bool; r_data : option A; r_l : N; r_r : N }.
  (** Memory: the next address, the live blocks. Address 0 is NULL. *)
  Record mem := mkM { m_next : N; m_cells : list (N * rnode) }.
  (** The block at an address. *)
  Fixpoint find_cell (l : list (N * rnode)) (a : N) : option rnode :=
    match l with [] => None | (b, o) :: t => if (a =? b)%N then Some o else find_cell t a end.
  (** The block at [a] replaced. *)
  Fixpoint put_cell (l : list (N * rnode)) (a : N) (o : rnode) : list (N * rnode) :=
    match l with
    | [] => []
    | (b, o') :: t => if (a =? b)%N then (b, o) :: t else (b, o') :: put_cell t a o
    end.
  (** The block at [a] removed. *)
  Fixpoint drop_cell (l : list (N * rnode)) (a : N) : list (N * rnode) :=
    match l with
    | [] => []
    | (b, o') :: t => if (a =? b)%N then t else (b, o') :: drop_cell t a
    end.
  (** alloc.h [bmalloc]. *)
  Definition r_alloc (o : rnode) (h : mem) : N * mem := (m_next h, mkM (m_next h + 1) ((m_next h, o) :: m_cells h)).
  (** Reading through a pointer: undefined for NULL and for released blocks. *)
  Definition r_load (h : mem) (a : N) : result rnode := match find_cell (m_cells h) a with Some o => Ok o | None => UB end.
  (** Writing through a pointer. *)
  Definition r_store (h : mem) (a : N) (o : rnode) : result mem :=
    match find_cell (m_cells h) a with Some _ => Ok (mkM (m_next h) (put_cell (m_cells h) a o)) | None => UB end.
  (** alloc.h [bfree]. *)
  Definition r_release (h : mem) (a : N) : result mem :=
    if (a =? 0)%N then Ok h else
    match find_cell (m_cells h) a with Some _ => Ok (mkM (m_next h) (drop_cell (m_cells h) a)) | None => UB end.

  (** jsw_rbtree.c 29: node->link[dir]. *)
  Definition get_link (h : mem) (a : N) (dir : bool) : result N := do n <- r_load h a; Ok (if dir then r_r n else r_l n).
  (** jsw_rbtree.c 29: node->link[dir] = v. *)
  Definition set_link (h : mem) (a : N) (dir : bool) (v : N) : result mem :=
    do n <- r_load h a;
    r_store h a (if dir then mkR (r_red n) (r_data n) (r_l n) v else mkR (r_red n) (r_data n) v (r_r n)).
  (** jsw_rbtree.c 27: node->red = b. *)
  Definition set_red (h : mem) (a : N) (b : bool) : result mem :=
    do n <- r_load h a; r_store h a (mkR b (r_data n) (r_l n) (r_r n)).
  (** jsw_rbtree.c 37-40 [is_red]. *)
  Definition red_at (h : mem) (a : N) : result bool := if (a =? 0)%N then Ok false else do n <- r_load h a; Ok (r_red n).

  (** jsw_rbtree.c 42-53 [jsw_single]. *)
  Definition p_single (h : mem) (root : N) (dir : bool) : result (N * mem) :=
    do save <- get_link h root (negb dir);
    do x <- get_link h save dir;
    do h <- set_link h root (negb dir) x;
    do h <- set_link h save dir root;
    do h <- set_red h root true;
    do h <- set_red h save false;
    Ok (save, h).
  (** jsw_rbtree.c 55-60 [jsw_double]. *)
  Definition p_double (h : mem) (root : N) (dir : bool) : result (N * mem) :=
    do a <- get_link h root (negb dir);
    do '(b, h) <- p_single h a (negb dir);
    do h <- set_link h root (negb dir) b;
    p_single h root dir.
  (** jsw_rbtree.c 62-76 [new_node]. *)
  Definition new_node (x : A) (h : mem) : N * mem := r_alloc (mkR true (Some x) 0 0) h.

  (** jsw_rbtree.c 115-130 [jsw_rbfind], from the node [it]. *)
  Fixpoint p_rbfind (n : nat) (h : mem) (it : N) (x : A) : result (option A) :=
    match n with
    | O => Fuel
    | S n' =>
        if (it =? 0)%N then Ok None else
        do c <- r_load h it;
        match r_data c with
        | None => UB
        | Some d =>
            match cmp d x with
            | Eq => Ok (Some d)
            | Lt => p_rbfind n' h (r_r c) x
            | Gt => p_rbfind n' h (r_l c) x
            end
        end
    end.

  (** jsw_rbtree.c 157-169: the new node, or the colours of a node with two red children. *)
  Definition p_grow (h : mem) (p q : N) (dir : bool) (x : A) : result (N * mem) :=
    if (q =? 0)%N then
      let '(q, h) := new_node x h in
      do h <- set_link h p dir q;
      Ok (q, h)
    else
      do l <- get_link h q false;
      do r <- get_link h q true;
      do rl <- red_at h l;
      do rr <- (if rl then red_at h r else Ok false);
      if rr then
        do h <- set_red h q true;
        do l <- get_link h q false;
        do h <- set_red h l false;
        do r <- get_link h q true;
        do h <- set_red h r false;
        Ok (q, h)
      else Ok (q, h).
  (** jsw_rbtree.c 171-180: a red node below a red node. *)
  Definition p_balance (h : mem) (t g p q : N) (last : bool) : result mem :=
    do rq <- red_at h q;
    do rp <- (if rq then red_at h p else Ok false);
    if rp then
      do t1 <- get_link h t true;
      let dir2 := (t1 =? g)%N in
      do pl <- get_link h p last;
      do '(s, h) <- (if (q =? pl)%N then p_single h g (negb last) else p_double h g (negb last));
      set_link h t dir2 s
    else Ok h.
  (** jsw_rbtree.c 156-192: the loop of [jsw_rbinsert]. *)
  Fixpoint p_rbloop (n : nat) (h : mem) (t g p q : N) (dir last : bool) (x : A) : result mem :=
    match n with
    | O => Fuel
    | S n' =>
        do '(q, h) <- p_grow h p q dir x;
        do h <- p_balance h t g p q last;
        do c <- r_load h q;
        match r_data c with
        | None => UB
        | Some d =>
            match cmp d x with
            | Eq => Ok h
            | o =>
                let dir' := match o with Lt => true | _ => false end in
                let t' := if (g =? 0)%N then t else g in
                do q' <- get_link h q dir';
                p_rbloop n' h t' p q q' dir' dir x
            end
        end
    end.
  (** jsw_rbtree.c 132-198 [jsw_rbinsert] of a tree with the given root and size: the new root and size. The node [head]
      on the stack is a block that ends with the call. *)
  Definition p_rbinsert (n : nat) (h : mem) (root : N) (size : nat) (x : A) : result (N * nat * mem) :=
    do '(root, h) <-
      (if (root =? 0)%N then Ok (new_node x h)
       else
         let '(head, h) := r_alloc (mkR false None 0 0) h in
         do h <- set_link h head true root;
         do h <- p_rbloop n h head 0 0 root false false x;
         do root <- get_link h head true;
         do h <- r_release h head;
         Ok (root, h));
    do h <- set_red h root false;
    Ok (root, S size, h).

  (** jsw_rbtree.c 97-110: the loop of [jsw_rbdelete], from the node [it]. *)
  Fixpoint p_rbdelete (n : nat) (h : mem) (it : N) : result mem :=
    match n with
    | O => Fuel
    | S n' =>
        if (it =? 0)%N then Ok h else
        do l <- get_link h it false;
        if (l =? 0)%N then
          do save <- get_link h it true;
          do h <- r_release h it;
          p_rbdelete n' h save
        else
          do sr <- get_link h l true;
          do h <- set_link h it false sr;
          do h <- set_link h l true it;
          p_rbdelete n' h l
    end.

  (** jsw_rbtree.c 32-36 [struct jsw_rbtree]: the root and the size (the comparison is [cmp]); the block of the struct
      itself is not in memory. *)
  Record rtree := mkRT { t_root : N; t_size : nat }.
  (** jsw_rbtree.c 78-91 [jsw_rbnew]. *)
  Definition rb_new : rtree := mkRT 0 0.
  (** Calls of the functions above. *)
  Inductive rcall := RInsert (x : A) | RFind (x : A) | RSize.
  Inductive ranswer := RDone | RFound (o : option A) | RCount (n : nat).
  (** jsw_rbtree.c 115-198, 273-276: one call. *)
  Definition rb_call (n : nat) (c : rcall) (t : rtree) (h : mem) : result (ranswer * rtree * mem) :=
    match c with
    | RInsert x => do '(root, size, h) <- p_rbinsert n h (t_root t) (t_size t) x; Ok (RDone, mkRT root size, h)
    | RFind x => do o <- p_rbfind n h (t_root t) x; Ok (RFound o, t, h)
    | RSize => Ok (RCount (t_size t), t, h)
    end.
  (** jsw_rbtree.c 115-198, 273-276: calls one after the other. *)
  Fixpoint rb_run (n : nat) (cs : list rcall) (t : rtree) (h : mem) : result (list ranswer * rtree * mem) :=
    match cs with
    | [] => Ok ([], t, h)
    | c :: cs' =>
        do '(a, t, h) <- rb_call n c t h;
        do '(l, t, h) <- rb_run n cs' t h;
        Ok (a :: l, t, h)
    end.
End RB.
Arguments mkR {A}. Arguments r_red {A}. Arguments r_data {A}. Arguments r_l {A}. Arguments r_r {A}.
Arguments mkM {A}. Arguments m_next {A}. Arguments m_cells {A}. Arguments find_cell {A}. Arguments put_cell {A}.
Arguments drop_cell {A}. Arguments r_alloc {A}. Arguments r_load {A}. Arguments r_store {A}. Arguments r_release {A}.
Arguments get_link {A}. Arguments set_link {A}. Arguments set_red {A}. Arguments red_at {A}. Arguments p_single {A}.
Arguments p_double {A}. Arguments new_node {A}. Arguments p_rbfind {A}. Arguments p_grow {A}. Arguments p_balance {A}.
Arguments p_rbloop {A}. Arguments p_rbinsert {A}. Arguments p_rbdelete {A}.
Arguments RInsert {A}. Arguments RFind {A}. Arguments RSize {A}. Arguments RDone {A}. Arguments RFound {A}.
Arguments RCount {A}. Arguments rb_call {A}. Arguments rb_run {A}.
