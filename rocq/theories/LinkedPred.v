(** Numbering the predicates with the linked red-black tree (hashmap.c). *)
From Coq Require Import NArith Bool List.
From Verif Require Import Base Ast PredMap LinkedRb.
Import ListNotations.
Local Open Scope res_scope.

(** hashmap.h 10-14 [struct pred_map] with the tree in memory; [l_mids] as in [pred_map]. *)
Record lmap := mkLM { l_count : N; l_mcount : N; l_tree : rtree; l_mids : list N }.
(** hashmap.c 55-65 [make_pred_map]. *)
Definition l_make : lmap := mkLM 0 0 rb_new [].

(** hashmap.c 26-44. *)
Definition l_node (n : nat) (m : lmap) (h : mem expr) (e : expr) : result (expr * lmap * mem expr) :=
  do o <- p_rbfind expr_cmp n h (t_root (l_tree m)) e;
  match o with
  | None =>
      let e' := set_gid (l_count m) e in
      do '(root, size, h) <- p_rbinsert expr_cmp n h (t_root (l_tree m)) (t_size (l_tree m)) e';
      Ok (e', mkLM (l_count m + 1) (l_mcount m) (mkRT root size) (l_mids m ++ [INVALID_PRED]), h)
  | Some f =>
      let e' := set_gid (gid f) e in
      match nthN (l_mids m) (gid f) with
      | None => UB
      | Some i =>
          if (i =? INVALID_PRED)%N
          then Ok (e', mkLM (l_count m) (l_mcount m + 1) (l_tree m) (updN (l_mids m) (gid f) (l_mcount m)), h)
          else Ok (e', m, h)
      end
  end.
(** hashmap.c 13-45 [assign_pred]. *)
Fixpoint l_assign (n : nat) (m : lmap) (h : mem expr) (e : expr) : result (expr * lmap * mem expr) :=
  match e with
  | ELeaf g p => l_node n m h e
  | ENot g a => do '(a', m, h) <- l_assign n m h a; l_node n m h (ENot g a')
  | EAnd g a b =>
      do '(a', m, h) <- l_assign n m h a;
      do '(b', m, h) <- l_assign n m h b;
      l_node n m h (EAnd g a' b')
  | EOr g a b =>
      do '(a', m, h) <- l_assign n m h a;
      do '(b', m, h) <- l_assign n m h b;
      l_node n m h (EOr g a' b')
  end.
(** hashmap.c 13-45: several expressions. *)
Fixpoint l_assigns (n : nat) (m : lmap) (h : mem expr) (es : list expr) : result (list expr * lmap * mem expr) :=
  match es with
  | [] => Ok ([], m, h)
  | e :: es' =>
      do '(e', m, h) <- l_assign n m h e;
      do '(l, m, h) <- l_assigns n m h es';
      Ok (e' :: l, m, h)
  end.
(** hashmap.c 67-71 [free_pred_map]. *)
Definition l_free (n : nat) (m : lmap) (h : mem expr) : result (mem expr) := p_rbdelete n h (t_root (l_tree m)).
