(** Removal from the red-black tree, with the pointers g, p, q, f of jsw_rberase (jsw_rbtree.c 200-271).  Nothing in the library
    calls it. *)
From Coq Require Import ZArith NArith Bool List.
From Verif Require Import Base LinkedRb.
Import ListNotations.
Local Open Scope res_scope.

Section RB.
  Variable A : Type.
  Variable cmp : A -> A -> comparison.

  (** jsw_rbtree.c 28: node->data = d. *)
  Definition set_data (h : mem A) (a : N) (d : option A) : result (mem A) :=
    do n <- r_load h a; r_store h a (mkR (r_red n) d (r_l n) (r_r n)).

  (** jsw_rbtree.c 224-251: q becomes red or has a red child in the direction [dir]; p is its parent, q = p->link[last], g the
      parent of p.  The new p. *)
  Definition p_redden (h : mem A) (g p q : N) (last dir : bool) : result (N * mem A) :=
    do rq <- red_at h q;
    if rq : bool then Ok (p, h) else
    do c <- get_link h q dir;
    do rc <- red_at h c;
    if rc : bool then Ok (p, h) else
    do o <- get_link h q (negb dir);
    do ro <- red_at h o;
    if ro : bool then
      do '(s, h) <- p_single h q dir;
      do h <- set_link h p last s;
      Ok (s, h)
    else
      do s <- get_link h p (negb last);
      if (s =? 0)%N then Ok (p, h) else
      do x <- get_link h s (negb last);
      do rx <- red_at h x;
      do y <- get_link h s last;
      do ry <- red_at h y;
      if negb rx && negb ry then
        do h <- set_red h p false;
        do h <- set_red h s true;
        do h <- set_red h q true;
        Ok (p, h)
      else
        do g1 <- get_link h g true;
        let dir2 := (g1 =? p)%N in
        do '(t, h) <- (if ry then p_double h p last else p_single h p last);
        do h <- set_link h g dir2 t;
        do t <- get_link h g dir2;
        do h <- set_red h t true;
        do h <- set_red h q true;
        do l <- get_link h t false;
        do h <- set_red h l false;
        do r <- get_link h t true;
        do h <- set_red h r false;
        Ok (p, h).

  (** jsw_rbtree.c 212-253: the loop; [f] is the node found, 0 if there is none.  The pointers p, q, f at its end. *)
  Fixpoint p_down (n : nat) (h : mem A) (p q f : N) (dir : bool) (x : A) : result (N * N * N * mem A) :=
    match n with
    | O => Fuel
    | S n' =>
        do nx <- get_link h q dir;
        if (nx =? 0)%N then Ok (p, q, f, h) else
        do c <- r_load h nx;
        match r_data c with
        | None => UB
        | Some d =>
            let dir' := match cmp d x with Lt => true | _ => false end in
            let f' := match cmp d x with Eq => nx | _ => f end in
            do '(p', h) <- p_redden h p q nx dir dir';
            p_down n' h p' nx f' dir' x
        end
    end.

  (** jsw_rbtree.c 200-271 [jsw_rberase] of a tree with the given root: the new root.  The node [head] on the stack is a block
      that ends with the call. *)
  Definition p_rberase (n : nat) (h : mem A) (root : N) (x : A) : result (N * mem A) :=
    if (root =? 0)%N then Ok (root, h) else
    let '(head, h) := r_alloc (mkR false None 0 0) h in
    do h <- set_link h head true root;
    do '(p, q, f, h) <- p_down n h 0 head 0 true x;
    do h <-
      (if (f =? 0)%N then Ok h
       else
         do c <- r_load h q;
         do h <- set_data h f (r_data c);
         do p1 <- get_link h p true;
         do q0 <- get_link h q false;
         do v <- get_link h q (q0 =? 0)%N;
         do h <- set_link h p (p1 =? q)%N v;
         r_release h q);
    do root <- get_link h head true;
    do h <- r_release h head;
    do h <- (if (root =? 0)%N then Ok h else set_red h root false);
    Ok (root, h).

  (** jsw_rbtree.c 32-36 [struct jsw_rbtree]; the size is a size_t. *)
  Record etree := mkET { e_root : N; e_size : Z }.
  (** jsw_rbtree.c 78-91 [jsw_rbnew]. *)
  Definition e_new : etree := mkET 0 0.
  Definition size_t (z : Z) : Z := (z mod 2 ^ 64)%Z.
  (** Calls. *)
  Inductive ecall := EInsert (x : A) | EErase (x : A) | EFind (x : A) | ESize.
  Inductive eanswer := EDone | EFound (o : option A) | ECount (z : Z).
  (** jsw_rbtree.c 115-276: one call; the size is written after everything else (195, 267). *)
  Definition e_call (n : nat) (c : ecall) (t : etree) (h : mem A) : result (eanswer * etree * mem A) :=
    match c with
    | EInsert x =>
        do '(root, _, h) <- p_rbinsert cmp n h (e_root t) 0 x;
        Ok (EDone, mkET root (size_t (e_size t + 1)), h)
    | EErase x =>
        if (e_root t =? 0)%N then Ok (EDone, t, h) else
        do '(root, h) <- p_rberase n h (e_root t) x;
        Ok (EDone, mkET root (size_t (e_size t - 1)), h)
    | EFind x => do o <- p_rbfind cmp n h (e_root t) x; Ok (EFound o, t, h)
    | ESize => Ok (ECount (e_size t), t, h)
    end.
  (** jsw_rbtree.c 115-276: calls one after the other. *)
  Fixpoint e_run (n : nat) (cs : list ecall) (t : etree) (h : mem A) : result (list eanswer * etree * mem A) :=
    match cs with
    | [] => Ok ([], t, h)
    | c :: cs' =>
        do '(a, t, h) <- e_call n c t h;
        do '(l, t, h) <- e_run n cs' t h;
        Ok (a :: l, t, h)
    end.
End RB.
Arguments set_data {A}. Arguments p_redden {A}. Arguments p_down {A}. Arguments p_rberase {A}.
Arguments EInsert {A}. Arguments EErase {A}. Arguments EFind {A}. Arguments ESize {A}.
Arguments EDone {A}. Arguments EFound {A}. Arguments ECount {A}. Arguments e_call {A}. Arguments e_run {A}.
