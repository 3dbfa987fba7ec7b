(** The index as linked objects in memory: allocation, parent pointers, reallocated arrays and freeing
    (tree.c 46-1205, 1251-1290, 1749-1793).  Tree.v describes the same functions on trees without pointers. *)
From Coq Require Import ZArith NArith String Bool List.
From Verif Require Import Base Float Value Ast Config Assign Special Match Bound Tree RbTree PredMap Source Api.
Import ListNotations.
Local Open Scope Z_scope.
Local Open Scope res_scope.

(** *** Memory *)

(** Addresses; 0 is NULL. *)
Definition NULL : N := 0%N.

(** The blocks the index consists of (tree.h 22-84).  A subscription with its expression and its bit sets
    is one block.  [OStr] is a copy of a variable's name (only its address matters here), [OArr] an
    array of pointers (lnode->subs, pdir->pnodes). *)
Inductive obj :=
| OCnode (parent lnode pdir : N)
| OLnode (parent : N) (sub_count : nat) (subs : N) (max : Z)
| OPdir (parent : N) (pnode_count : nat) (pnodes : N)
| OPnode (parent var attr cdir : N) (score : flt)
| OCdir (pnode_parent : bool) (parent var attr : N) (b : bound) (cnode lchild rchild : N)
| OArr (l : list N)
| OStr
| OSub (s : sub).

(** The allocated blocks; [h_next] is above all addresses ever handed out. *)
Record heap := mkH { h_next : N; h_cells : list (N * obj) }.
(** The block at an address. *)
Fixpoint cell (l : list (N * obj)) (a : N) : option obj :=
  match l with [] => None | (b, o) :: t => if (a =? b)%N then Some o else cell t a end.
(** The block at [a] replaced. *)
Fixpoint set_cell (l : list (N * obj)) (a : N) (o : obj) : list (N * obj) :=
  match l with
  | [] => []
  | (b, o') :: t => if (a =? b)%N then (b, o) :: t else (b, o') :: set_cell t a o
  end.
(** The block at [a] removed. *)
Fixpoint del_cell (l : list (N * obj)) (a : N) : list (N * obj) :=
  match l with
  | [] => []
  | (b, o') :: t => if (a =? b)%N then t else (b, o') :: del_cell t a
  end.

(** alloc.h [bcalloc], [bmalloc]: a new address; allocation does not fail. *)
Definition alloc (o : obj) (h : heap) : N * heap :=
  (h_next h, mkH (h_next h + 1) ((h_next h, o) :: h_cells h)).
(** Reading through a pointer: undefined for NULL and for freed blocks. *)
Definition load (h : heap) (a : N) : result obj := match cell (h_cells h) a with Some o => Ok o | None => UB end.
(** Writing through a pointer. *)
Definition store (h : heap) (a : N) (o : obj) : result heap :=
  match cell (h_cells h) a with Some _ => Ok (mkH (h_next h) (set_cell (h_cells h) a o)) | None => UB end.
(** alloc.h [bfree]: nothing for NULL, undefined for a block that was freed already. *)
Definition release (h : heap) (a : N) : result heap :=
  if (a =? NULL)%N then Ok h else
  match cell (h_cells h) a with Some _ => Ok (mkH (h_next h) (del_cell (h_cells h) a)) | None => UB end.

(** Reading a block as a struct of the given type (tree.h 22-84). *)
Definition get_cnode (h : heap) (a : N) : result (N * N * N) :=
  do o <- load h a; match o with OCnode p l d => Ok (p, l, d) | _ => UB end.
(** tree.h 31-38. *)
Definition get_lnode (h : heap) (a : N) : result (N * nat * N * Z) :=
  do o <- load h a; match o with OLnode p n s m => Ok (p, n, s, m) | _ => UB end.
(** tree.h 78-84. *)
Definition get_pdir (h : heap) (a : N) : result (N * nat * N) :=
  do o <- load h a; match o with OPdir p n s => Ok (p, n, s) | _ => UB end.
(** tree.h 53-58. *)
Definition get_pnode (h : heap) (a : N) : result (N * N * N * N * flt) :=
  do o <- load h a; match o with OPnode p v s c f => Ok (p, v, s, c, f) | _ => UB end.
(** tree.h 65-76. *)
Definition get_cdir (h : heap) (a : N) : result (bool * N * N * N * bound * N * N * N) :=
  do o <- load h a; match o with OCdir k p v s b c l r => Ok (k, p, v, s, b, c, l, r) | _ => UB end.
(** An array of pointers. *)
Definition get_arr (h : heap) (a : N) : result (list N) :=
  do o <- load h a; match o with OArr l => Ok l | _ => UB end.
(** tree.h 22-27. *)
Definition get_sub (h : heap) (a : N) : result sub := do o <- load h a; match o with OSub s => Ok s | _ => UB end.

(** The first [n] entries of an array, as a loop from 0 to n reads them. *)
Definition entries (h : heap) (n : nat) (a : N) : result (list N) :=
  match n with
  | O => Ok []
  | _ => do l <- get_arr h a; if Nat.leb n (length l) then Ok (firstn n l) else UB
  end.
(** Reading the subscriptions an array points to. *)
Fixpoint get_subs (h : heap) (l : list N) : result (list sub) :=
  match l with [] => Ok [] | a :: t => do s <- get_sub h a; do r <- get_subs h t; Ok (s :: r) end.
(** lnode->subs[0 .. sub_count - 1]. *)
Definition lnode_subs (h : heap) (la : N) : result (list N) :=
  do '(_, n, sa, _) <- get_lnode h la; entries h n sa.

(** brealloc to [n] entries: the block moves, the entries that fit are kept. *)
Definition resize (h : heap) (a : N) (n : nat) : result (N * heap) :=
  do l <- get_arr h a;
  do h <- release h a;
  Ok (alloc (OArr (firstn n l ++ repeat NULL (n - length l))) h).
(** l[i] = x. *)
Fixpoint upd (l : list N) (i : nat) (x : N) : option (list N) :=
  match l, i with
  | [], _ => None
  | _ :: t, O => Some (x :: t)
  | y :: t, S i' => match upd t i' x with Some t' => Some (y :: t') | None => None end
  end.
(** array[i] = x. *)
Definition put_arr (h : heap) (a : N) (i : nat) (x : N) : result heap :=
  do l <- get_arr h a; match upd l i x with Some l' => store h a (OArr l') | None => UB end.

(** *** Subscriptions in a leaf *)

(** tree.c 294-313 [insert_sub] and 531-548 of [move]. *)
Definition append (h : heap) (la x : N) : result heap :=
  do '(p, n, sa, m) <- get_lnode h la;
  do '(sa', h) <- (match n with
                   | O => Ok (alloc (OArr [NULL]) h)
                   | _ => resize h sa (n + 1)
                   end);
  do h <- put_arr h sa' n x;
  store h la (OLnode p (n + 1) sa' m).

(** The index of the first subscription with an id (tree.c 499-501). *)
Fixpoint index_of (h : heap) (id : Z) (l : list N) : result (option nat) :=
  match l with
  | [] => Ok None
  | a :: t =>
      do s <- get_sub h a;
      if id =? s_id s then Ok (Some O) else
      do o <- index_of h id t; Ok (match o with Some i => Some (S i) | None => None end)
  end.
(** The loop of tree.c 502-504: the entries after [i] move down by one, the last one stays where it is. *)
Definition shift (i : nat) (l : list N) : list N := firstn i l ++ skipn (S i) l ++ skipn (pred (length l)) l.
(** tree.c 497-522 [remove_sub]. *)
Definition remove_sub (h : heap) (id : Z) (la : N) : result (bool * heap) :=
  do '(p, n, sa, m) <- get_lnode h la;
  do l <- entries h n sa;
  do o <- index_of h id l;
  match o with
  | None => Ok (false, h)
  | Some i =>
      do l <- get_arr h sa;
      do h <- store h sa (OArr (shift i (firstn n l) ++ skipn n l));
      if Nat.eqb (pred n) 0 then
        do h <- release h sa;
        do h <- store h la (OLnode p 0 NULL m);
        Ok (true, h)
      else
        do '(sa', h) <- resize h sa (pred n);
        do h <- store h la (OLnode p (pred n) sa' m);
        Ok (true, h)
  end.
(** tree.c 524-549 [move]. *)
Definition move (h : heap) (x origin destination : N) : result heap :=
  do s <- get_sub h x;
  do '(found, h) <- remove_sub h (s_id s) origin;
  if negb found then Abort else append h destination x.

(** *** New nodes *)

(** tree.c 866-878 [make_lnode]. *)
Definition new_lnode (c : config) (parent : N) (h : heap) : N * heap := alloc (OLnode parent 0 NULL (c_cap c)) h.
(** tree.c 880-891 [make_cnode]. *)
Definition new_cnode (c : config) (parent : N) (h : heap) : result (N * heap) :=
  let '(a, h) := alloc (OCnode parent NULL NULL) h in
  let '(la, h) := new_lnode c a h in
  do h <- store h a (OCnode parent la NULL);
  Ok (a, h).
(** tree.c 551-586 [create_cdir], [create_cdir_with_cdir_parent], [create_cdir_with_pnode_parent];
    [pk] tells whether the parent is a pnode. *)
Definition create_cdir (c : config) (pk : bool) (parent var : N) (b : bound) (h : heap) : result (N * heap) :=
  let '(a, h) := alloc (OCdir pk parent var NULL b NULL NULL NULL) h in
  let '(sa, h) := alloc OStr h in
  do '(cn, h) <- new_cnode c a h;
  do h <- store h a (OCdir pk parent var sa b cn NULL NULL);
  Ok (a, h).
(** The copied name belongs to the parent cdir (tree.c 573). *)
Definition create_child (c : config) (parent : N) (b : bound) (h : heap) : result (N * heap) :=
  do '(_, _, v, sa, _, _, _, _) <- get_cdir h parent;
  do _ <- load h sa;
  create_cdir c false parent v b h.
(** tree.c 588-652 [create_pdir]. *)
Definition create_pdir (c : config) (v cnode : N) (h : heap) : result (N * heap) :=
  do '(p, la, pd) <- get_cnode h cnode;
  do '(pd, h) <- (if (pd =? NULL)%N then
                    let '(pd', h) := alloc (OPdir cnode 0 NULL) h in
                    do h <- store h cnode (OCnode p la pd'); Ok (pd', h)
                  else Ok (pd, h));
  let '(pn, h) := alloc (OPnode pd v NULL NULL (f_of_Z 0)) h in
  let '(sa, h) := alloc OStr h in
  do d <- get_domain c v;
  do '(cd, h) <- create_cdir c true pn v (d_bound d) h;
  do h <- store h pn (OPnode pd v sa cd (f_of_Z 0));
  do '(q, n, pa) <- get_pdir h pd;
  do '(pa', h) <- (match n with
                   | O => Ok (alloc (OArr [NULL]) h)
                   | _ => resize h pa (n + 1)
                   end);
  do h <- put_arr h pa' n pn;
  do h <- store h pd (OPdir q (n + 1) pa');
  Ok (pn, h).

(** *** Walking up *)

(** tree.c 245-291 [is_used_cnode], [is_used_cdir], [is_used_pnode], [is_used_pdir]. *)
Fixpoint is_used_cnode (n : nat) (h : heap) (v a : N) : result bool :=
  match n with
  | O => Fuel
  | S n =>
      if (a =? NULL)%N then Ok false else
      do '(p, _, _) <- get_cnode h a;
      if (p =? NULL)%N then Ok false else is_used_cdir n h v p
  end
with is_used_cdir (n : nat) (h : heap) (v a : N) : result bool :=
  match n with
  | O => Fuel
  | S n =>
      if (a =? NULL)%N then Ok false else
      do '(pk, p, w, _, _, _, _, _) <- get_cdir h a;
      if (w =? v)%N then Ok true else
      if pk : bool then is_used_pnode n h v p else is_used_cdir n h v p
  end
with is_used_pnode (n : nat) (h : heap) (v a : N) : result bool :=
  match n with
  | O => Fuel
  | S n =>
      if (a =? NULL)%N then Ok false else
      do '(p, w, _, _, _) <- get_pnode h a;
      if (p =? NULL)%N then Ok false else
      if (w =? v)%N then Ok true else is_used_pdir n h v p
  end
with is_used_pdir (n : nat) (h : heap) (v a : N) : result bool :=
  match n with
  | O => Fuel
  | S n =>
      if (a =? NULL)%N then Ok false else
      do '(p, _, _) <- get_pdir h a;
      if (p =? NULL)%N then Ok false else is_used_cnode n h v p
  end.

(** tree.c 315-321 [is_root]. *)
Definition is_root (h : heap) (a : N) : result bool :=
  if (a =? NULL)%N then Ok false else do '(p, _, _) <- get_cnode h a; Ok (p =? NULL)%N.

(** tree.c 673-710 [is_attr_used_in_parent_cnode], [.._cdir], [.._pnode], [.._pdir]. *)
Fixpoint used_above_cnode (n : nat) (h : heap) (v a : N) : result bool :=
  match n with
  | O => Fuel
  | S n =>
      do root <- is_root h a;
      if root : bool then Ok false else
      do '(p, _, _) <- get_cnode h a; used_above_cdir n h v p
  end
with used_above_cdir (n : nat) (h : heap) (v a : N) : result bool :=
  match n with
  | O => Fuel
  | S n =>
      do '(pk, p, w, _, _, _, _, _) <- get_cdir h a;
      if (w =? v)%N then Ok true else
      if pk : bool then used_above_pnode n h v p else used_above_cdir n h v p
  end
with used_above_pnode (n : nat) (h : heap) (v a : N) : result bool :=
  match n with
  | O => Fuel
  | S n =>
      do '(p, w, _, _, _) <- get_pnode h a;
      if (w =? v)%N then Ok true else used_above_pdir n h v p
  end
with used_above_pdir (n : nat) (h : heap) (v a : N) : result bool :=
  match n with
  | O => Fuel
  | S n => do '(p, _, _) <- get_pdir h a; used_above_cnode n h v p
  end.
(** tree.c 712-715 [is_attr_used_in_parent_lnode]. *)
Definition used_above_lnode (n : nat) (h : heap) (v la : N) : result bool :=
  do '(p, _, _, _) <- get_lnode h la; used_above_cnode n h v p.

(** *** Choice of a variable (tree.c 751-783 [get_next_highest_score_unused_attr]) *)

(** One variable. *)
Definition phs_step (n : nat) (h : heap) (la : N) (c : config) (all : list sub) (s : sub) (d : domain) (j : N)
    (acc : hs_acc) : result hs_acc :=
  if negb (has_attr j s) then Ok acc else
  do sp <- splitable c (d_bound d);
  if negb sp then Ok acc else
  do u <- used_above_lnode n h j la;
  if u : bool then Ok acc else
  do score <- get_score d (count_attr j all);
  let '(_, best, var) := acc in
  if fgtb score best then Ok (true, score, Some j) else Ok (true, best, var).
(** The inner loop. *)
Fixpoint phs_domains (n : nat) (h : heap) (la : N) (c : config) (all : list sub) (s : sub) (ds : list domain) (j : N)
    (acc : hs_acc) : result hs_acc :=
  match ds with
  | [] => Ok acc
  | d :: t => do acc' <- phs_step n h la c all s d j acc; phs_domains n h la c all s t (j + 1) acc'
  end.
(** The outer loop. *)
Fixpoint phs_subs (n : nat) (h : heap) (la : N) (c : config) (all rest : list sub) (acc : hs_acc) : result hs_acc :=
  match rest with
  | [] => Ok acc
  | s :: t => do acc' <- phs_domains n h la c all s (c_domains c) 0 acc; phs_subs n h la c all t acc'
  end.
(** tree.c 751-783. *)
Definition pnext_highest (n : nat) (c : config) (la : N) (h : heap) : result (option N) :=
  do l <- lnode_subs h la;
  do subs <- get_subs h l;
  do '(found, _, var) <- phs_subs n h la c subs subs (false, f_of_Z 0, None);
  if found : bool then match var with Some v => Ok (Some v) | None => UB end else Ok None.

(** *** Reorganisation *)

(** tree.c 479-481 [is_overflowed]. *)
Definition is_overflowed (h : heap) (la : N) : result bool :=
  do '(_, n, _, m) <- get_lnode h la; Ok (Z.of_nat n >? m).
(** tree.c 785-794 [update_cluster_capacity]. *)
Definition set_capacity (c : config) (la : N) (h : heap) : result heap :=
  if (la =? NULL)%N then Ok h else
  do '(p, n, sa, _) <- get_lnode h la;
  do m <- cluster_capacity c n;
  store h la (OLnode p n sa m).
(** tree.c 190-227 [sub_is_enclosed]. *)
Definition enclosed (c : config) (s : sub) (a : N) (h : heap) : result bool :=
  if (a =? NULL)%N then Ok false else
  do '(_, _, v, _, b, _, _, _) <- get_cdir h a;
  sub_is_enclosed c s v b.
(** tree.c 458-477 [is_leaf], [insert_cdir]. *)
Fixpoint insert_cdir (n : nat) (c : config) (s : sub) (a : N) (h : heap) : result N :=
  match n with
  | O => Fuel
  | S n =>
      do '(_, _, _, _, _, _, l, r) <- get_cdir h a;
      if ((l =? NULL) && (r =? NULL))%N then Ok a else
      do el <- enclosed c s l h;
      if el : bool then insert_cdir n c s l h else
      do er <- enclosed c s r h;
      if er : bool then insert_cdir n c s r h else Ok a
  end.
(** cdir->cnode->lnode. *)
Definition cdir_lnode (h : heap) (a : N) : result N :=
  do '(_, _, _, _, _, cn, _, _) <- get_cdir h a; do '(_, la, _) <- get_cnode h cn; Ok la.

(** The loops of tree.c 826-833 and 1020-1031; [dest] says to which lnode a subscription goes (None: it
    stays).  After a move the index stays, as i-- and i++ cancel. *)
Fixpoint move_loop (n : nat) (dest : heap -> N -> result (option N)) (la : N) (i : nat) (h : heap) : result heap :=
  match n with
  | O => Fuel
  | S n =>
      do l <- lnode_subs h la;
      match nth_error l i with
      | None => Ok h
      | Some x =>
          do o <- dest h x;
          match o with
          | None => move_loop n dest la (S i) h
          | Some d => do h <- move h x la d; move_loop n dest la i h
          end
      end
  end.
(** tree.c 827-830. *)
Definition dest_pnode (n : nat) (c : config) (v pn : N) (h : heap) (x : N) : result (option N) :=
  do s <- get_sub h x;
  if has_attr v s then
    do '(_, _, _, cd, _) <- get_pnode h pn;
    do m <- insert_cdir n c s cd h;
    do la <- cdir_lnode h m;
    Ok (Some la)
  else Ok None.
(** tree.c 1021-1030. *)
Definition dest_children (c : config) (cd : N) (h : heap) (x : N) : result (option N) :=
  do s <- get_sub h x;
  do '(_, _, _, _, _, _, l, r) <- get_cdir h cd;
  do el <- enclosed c s l h;
  if el : bool then do la <- cdir_lnode h l; Ok (Some la) else
  do er <- enclosed c s r h;
  if er : bool then do la <- cdir_lnode h r; Ok (Some la) else Ok None.

(** tree.c 809-836 [space_partitioning] with its loop, and 1006-1040 [space_clustering]. *)
Fixpoint p_partitioning (n : nat) (c : config) (cn : N) (h : heap) : result heap :=
  match n with
  | O => Fuel
  | S n =>
      do '(_, la, _) <- get_cnode h cn;
      do h <- p_loop n c cn la h;
      set_capacity c la h
  end
with p_loop (n : nat) (c : config) (cn la : N) (h : heap) : result heap :=
  match n with
  | O => Fuel
  | S n =>
      do ov <- is_overflowed h la;
      if negb ov then Ok h else
      do o <- pnext_highest n c la h;
      match o with
      | None => Ok h
      | Some v =>
          do l <- lnode_subs h la;
          do subs <- get_subs h l;
          if count_attr v subs <? c_minpart c then Ok h else
          do '(pn, h) <- create_pdir c v cn h;
          do h <- move_loop n (dest_pnode n c v pn) la 0 h;
          do '(_, _, _, cd, _) <- get_pnode h pn;
          do h <- p_clustering n c cd h;
          p_loop n c cn la h
      end
  end
with p_clustering (n : nat) (c : config) (cd : N) (h : heap) : result heap :=
  match n with
  | O => Fuel
  | S n =>
      if (cd =? NULL)%N then Ok h else
      do '(k, p, v, sa, b, cn, l, r) <- get_cdir h cd;
      if (cn =? NULL)%N then Ok h else
      do '(_, la, _) <- get_cnode h cn;
      do ov <- is_overflowed h la;
      if negb ov then Ok h else
      do stop <- (if ((l =? NULL) && (r =? NULL))%N then is_atomic b else Ok true);
      do h <- (if stop : bool then p_partitioning n c cn h else
               do '(lb, rb) <- split_value_bound b;
               do '(l, h) <- create_child c cd lb h;
               do h <- store h cd (OCdir k p v sa b cn l NULL);
               do '(r, h) <- create_child c cd rb h;
               do h <- store h cd (OCdir k p v sa b cn l r);
               do h <- move_loop n (dest_children c cd) la 0 h;
               do h <- p_partitioning n c cn h;
               do h <- p_clustering n c l h;
               p_clustering n c r h);
      set_capacity c la h
  end.

(** *** Insertion *)

(** tree.c 98-106: the loop of [search_pdir]. *)
Fixpoint find_pnode (h : heap) (v : N) (l : list N) : result N :=
  match l with
  | [] => Ok NULL
  | a :: t => do '(_, w, _, _, _) <- get_pnode h a; if (v =? w)%N then Ok a else find_pnode h v t
  end.
(** tree.c 96-108 [search_pdir]. *)
Definition search_pdir (h : heap) (v pd : N) : result N :=
  if (pd =? NULL)%N then Ok NULL else
  do '(_, n, pa) <- get_pdir h pd;
  do l <- entries h n pa;
  find_pnode h v l.

(** The loop of tree.c 421-441 over the variables j, j+1, ...; the accumulator is (foundPartition,
    max_score, max_pnode). *)
Fixpoint p_choose (n k : nat) (j : N) (s : sub) (cn pd : N) (h : heap) (acc : bool * flt * N) : result (bool * flt * N) :=
  match k with
  | O => Ok acc
  | S k =>
      do acc' <-
        (if negb (has_attr j s) then Ok acc else
         do u <- is_used_cnode n h j cn;
         if u : bool then Ok acc else
         do pn <- search_pdir h j pd;
         if (pn =? NULL)%N then Ok acc else
         do '(_, _, _, _, sc) <- get_pnode h pn;
         let '(_, best, m) := acc in
         Ok (if fltb best sc then (true, sc, pn) else (true, best, m)));
      p_choose n k (j + 1) s cn pd h acc'
  end.
(** tree.c 420-442. *)
Definition p_find (n : nat) (c : config) (s : sub) (cn pd : N) (h : heap) : result (bool * N) :=
  if (pd =? NULL)%N then Ok (false, NULL) else
  do '(found, _, m) <- p_choose n (length (c_domains c)) 0 s cn pd h (false, f_to_f32 (fopp DBL_MAX), NULL);
  Ok (found, m).

(** tree.c 328-342 [count_attr_in_cdir], with 654-671 [count_attr_in_lnode]. *)
Fixpoint count_in_cdir (n : nat) (v a : N) (h : heap) : result Z :=
  match n with
  | O => Fuel
  | S n =>
      if (a =? NULL)%N then Ok 0 else
      do '(_, _, _, _, _, cn, l, r) <- get_cdir h a;
      do x <- (if (cn =? NULL)%N then Ok 0 else
               do '(_, la, _) <- get_cnode h cn;
               do ps <- lnode_subs h la; do subs <- get_subs h ps; Ok (count_attr v subs));
      do y <- count_in_cdir n v l h;
      do z <- count_in_cdir n v r h;
      Ok (x + y + z)
  end.
(** tree.c 395-411 [get_pnode_score], [update_partition_score]. *)
Definition update_score (n : nat) (c : config) (pn : N) (h : heap) : result heap :=
  do '(p, v, sa, cd, _) <- get_pnode h pn;
  do k <- count_in_cdir n v cd h;
  do d <- get_domain c v;
  do sc <- get_score d k;
  store h pn (OPnode p v sa cd (f_to_f32 sc)).

(** tree.c 413-456 [insert_be_tree]. *)
Fixpoint p_insert (n : nat) (c : config) (x cn cd : N) (h : heap) : result heap :=
  match n with
  | O => Fuel
  | S n =>
      do s <- get_sub h x;
      do '(_, la, pd) <- get_cnode h cn;
      do '(found, pn) <- p_find n c s cn pd h;
      if negb found then
        do h <- append h la x;
        do root <- is_root h cn;
        if root : bool then p_partitioning n c cn h else p_clustering n c cd h
      else
        do '(_, _, _, top, _) <- get_pnode h pn;
        do m <- insert_cdir n c s top h;
        do '(_, _, _, _, _, mcn, _, _) <- get_cdir h m;
        do h <- p_insert n c x mcn m h;
        update_score n c pn h
  end.

(** *** Searching *)

(** tree.c 120-137 [match_be_tree], its loop, and 229-242 [search_cdir], with 88-94 [check_sub]: pointers
    to the candidates in the order in which they are collected. *)
Fixpoint p_match (n : nat) (ds : list domain) (p : env) (cn : N) (h : heap) : result (list N) :=
  match n with
  | O => Fuel
  | S n =>
      do '(_, la, pd) <- get_cnode h cn;
      do a <- lnode_subs h la;
      do b <- (if (pd =? NULL)%N then Ok [] else
               do '(_, k, pa) <- get_pdir h pd;
               do l <- entries h k pa;
               p_match_pnodes n ds p l h);
      Ok (a ++ b)
  end
with p_match_pnodes (n : nat) (ds : list domain) (p : env) (l : list N) (h : heap) : result (list N) :=
  match n with
  | O => Fuel
  | S n =>
      match l with
      | [] => Ok []
      | pn :: t =>
          do '(_, v, _, cd, _) <- get_pnode h pn;
          match nthN ds v with
          | None => UB
          | Some d =>
              do go <- (if d_undef d then Ok true else
                        do o <- read_var p v; Ok (match o with Some _ => true | None => false end));
              do a <- (if go : bool then p_search n ds p true true cd h else Ok []);
              do b <- p_match_pnodes n ds p t h;
              Ok (a ++ b)
          end
      end
  end
with p_search (n : nat) (ds : list domain) (p : env) (ol orr : bool) (cd : N) (h : heap) : result (list N) :=
  match n with
  | O => Fuel
  | S n =>
      do '(_, _, _, _, _, cn, l, r) <- get_cdir h cd;
      do a <- p_match n ds p cn h;
      do el <- (if (l =? NULL)%N then Ok false else
                do '(_, _, v, _, b, _, _, _) <- get_cdir h l; is_event_enclosed p v b ol false);
      do b <- (if el : bool then p_search n ds p ol false l h else Ok []);
      do er <- (if (r =? NULL)%N then Ok false else
                do '(_, _, v, _, b, _, _, _) <- get_cdir h r; is_event_enclosed p v b false orr);
      do c <- (if er : bool then p_search n ds p false orr r h else Ok []);
      Ok (a ++ b ++ c)
  end.

(** *** Freeing *)

(** bfree of a block that is not the struct of a subscription: those are released by [free_sub] only, with what they hold. *)
Definition drop (h : heap) (a : N) : result heap :=
  if (a =? NULL)%N then Ok h else
  do o <- load h a; match o with OSub _ => UB | _ => release h a end.
(** tree.c 1101-1113 [free_sub], for each entry of an array: the struct is read before it is released. *)
Fixpoint free_subs (l : list N) (h : heap) : result heap :=
  match l with
  | [] => Ok h
  | x :: t =>
      if (x =? NULL)%N then free_subs t h else
      do _ <- get_sub h x; do h <- release h x; free_subs t h
  end.
(** tree.c 1130-1142 [free_lnode]. *)
Definition free_lnode (la : N) (h : heap) : result heap :=
  if (la =? NULL)%N then Ok h else
  do '(_, n, sa, _) <- get_lnode h la;
  do l <- entries h n sa;
  do h <- free_subs l h;
  do h <- drop h sa;
  drop h la.
(** tree.c 1144-1154 [free_cnode], 1077-1089 [free_pdir] with its loop, 1197-1205 [free_pnode], 1156-1169
    [free_cdir].  Pointers set to NULL before their struct is freed are left as they are. *)
Fixpoint free_cnode (n : nat) (a : N) (h : heap) : result heap :=
  match n with
  | O => Fuel
  | S n =>
      if (a =? NULL)%N then Ok h else
      do '(_, la, pd) <- get_cnode h a;
      do h <- free_lnode la h;
      do h <- free_pdir n pd h;
      drop h a
  end
with free_pdir (n : nat) (a : N) (h : heap) : result heap :=
  match n with
  | O => Fuel
  | S n =>
      if (a =? NULL)%N then Ok h else
      do '(_, k, pa) <- get_pdir h a;
      do l <- entries h k pa;
      do h <- free_pnodes n l h;
      do h <- drop h pa;
      drop h a
  end
with free_pnodes (n : nat) (l : list N) (h : heap) : result heap :=
  match n with
  | O => Fuel
  | S n =>
      match l with
      | [] => Ok h
      | a :: t => do h <- free_pnode n a h; free_pnodes n t h
      end
  end
with free_pnode (n : nat) (a : N) (h : heap) : result heap :=
  match n with
  | O => Fuel
  | S n =>
      if (a =? NULL)%N then Ok h else
      do '(_, _, sa, cd, _) <- get_pnode h a;
      do h <- drop h sa;
      do h <- free_cdir n cd h;
      drop h a
  end
with free_cdir (n : nat) (a : N) (h : heap) : result heap :=
  match n with
  | O => Fuel
  | S n =>
      if (a =? NULL)%N then Ok h else
      do '(_, _, _, sa, _, cn, l, r) <- get_cdir h a;
      do h <- drop h sa;
      do h <- free_cnode n cn h;
      do h <- free_cdir n l h;
      do h <- free_cdir n r h;
      drop h a
  end.
