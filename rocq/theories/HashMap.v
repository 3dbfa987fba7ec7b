(** The string hash table (map.c, map.h; used for the string tables of config.c 278-318, 347-371).

    Keys are C strings; here Coq strings (without the character 0).  Values are the numbers stored by
    config.c.  Memory layout of nodes (map.c 32-45) and freeing are not modelled; a failing allocation is
    an input. *)
From Coq Require Import ZArith NArith String Ascii Bool List.
From Verif Require Import Base.
Import ListNotations.
Local Open Scope Z_scope.
Local Open Scope res_scope.

(** map.c 14-20 [struct map_node_t] with the key and the value behind it. *)
Record mnode := mkN { n_hash : Z; n_key : string; n_val : Z }.
(** map.h 21-24 [map_base_t]; [nbuckets] is the length of [m_buckets]. *)
Record hmap := mkM { m_buckets : list (list mnode); m_nnodes : Z }.

(** `(unsigned)*str` for a signed char. *)
Definition char_unsigned (a : ascii) : Z := to_uint 32 (to_sint 8 (Z.of_N (N_of_ascii a))).
(** map.c 23-29 [map_hash]. *)
Fixpoint hash_from (h : Z) (s : string) : Z :=
  match s with
  | EmptyString => h
  | String a t => hash_from (Z.lxor (to_uint 32 (to_uint 32 (Z.shiftl h 5) + h)) (char_unsigned a)) t
  end.
(** map.c 23-29 [map_hash]. *)
Definition map_hash (s : string) : Z := hash_from 5381 s.

(** map.h 21-24: m->nbuckets. *)
Definition nbuckets (m : hmap) : Z := Z.of_nat (List.length (m_buckets m)).
(** map.c 48-52 [map_bucketidx]: the mask is computed on unsigned. *)
Definition bucketidx (nb : Z) (hash : Z) : Z := Z.land hash (to_uint 32 (nb - 1)).

(** map.c 55-59 [map_addnode]: in front of its bucket; a position outside the array is undefined. *)
Fixpoint push_bucket (bs : list (list mnode)) (i : nat) (n : mnode) : result (list (list mnode)) :=
  match bs, i with
  | [], _ => UB
  | b :: t, O => Ok ((n :: b) :: t)
  | b :: t, S i' => do t' <- push_bucket t i' n; Ok (b :: t')
  end.
(** map.c 55-59 [map_addnode]. *)
Definition addnode (bs : list (list mnode)) (n : mnode) : result (list (list mnode)) :=
  push_bucket bs (Z.to_nat (bucketidx (Z.of_nat (List.length bs)) (n_hash n))) n.

(** map.c 66-77: all nodes in one chain, last bucket first, each node pushed in front. *)
Fixpoint push_all (l acc : list mnode) : list mnode :=
  match l with [] => acc | n :: t => push_all t (n :: acc) end.
(** map.c 66-77. *)
Fixpoint chain (bs : list (list mnode)) : list mnode :=
  match bs with [] => [] | b :: t => push_all b (chain t) end.
(** map.c 86-92. *)
Fixpoint add_all (bs : list (list mnode)) (l : list mnode) : result (list (list mnode)) :=
  match l with
  | [] => Ok bs
  | n :: t => do bs' <- addnode bs n; add_all bs' t
  end.
(** map.c 62-96 [map_resize] to [n] buckets; [alloc] tells whether brealloc succeeds (otherwise the array
    keeps its size, or stays NULL; the nodes are put back).  The boolean is "no error". *)
Definition resize (m : hmap) (n : Z) (alloc : bool) : result (bool * hmap) :=
  let nodes := chain (m_buckets m) in
  let size := if alloc then n else nbuckets m in
  if (negb alloc) && (nbuckets m =? 0) then Ok (false, m) else
  do bs <- add_all (repeat [] (Z.to_nat size)) nodes;
  Ok (alloc, mkM bs (m_nnodes m)).

(** map.c 99-112 [map_getref] / 131-134 [map_get_]: the value found. *)
Fixpoint find_node (l : list mnode) (h : Z) (key : string) : option Z :=
  match l with
  | [] => None
  | n :: t => if (n_hash n =? h) && String.eqb (n_key n) key then Some (n_val n) else find_node t h key
  end.
(** map.c 131-134 [map_get_]. *)
Definition map_get (m : hmap) (key : string) : result (option Z) :=
  let h := map_hash key in
  if nbuckets m >? 0 then
    match nth_error (m_buckets m) (Z.to_nat (bucketidx (nbuckets m) h)) with
    | Some b => Ok (find_node b h key)
    | None => UB
    end
  else Ok None.

(** map.c 141-145: overwriting the value of an existing node. *)
Fixpoint set_node (l : list mnode) (h : Z) (key : string) (v : Z) : list mnode :=
  match l with
  | [] => []
  | n :: t => if (n_hash n =? h) && String.eqb (n_key n) key then mkN (n_hash n) (n_key n) v :: t
              else n :: set_node t h key v
  end.
(** map.c 141-145. *)
Definition upd_bucket (m : hmap) (h : Z) (f : list mnode -> list mnode) : list (list mnode) :=
  let i := Z.to_nat (bucketidx (nbuckets m) h) in
  firstn i (m_buckets m) ++ match nth_error (m_buckets m) i with Some b => [f b] | None => [] end ++ skipn (S i) (m_buckets m).

(** map.c 151-157: doubling the array when it is full.  The size is passed as int: doubling beyond 2^30 is not
    modelled ([UB]). *)
Definition grow (m : hmap) (alloc : bool) : result (bool * hmap) :=
  if m_nnodes m >=? nbuckets m then
    let n := if nbuckets m >? 0 then Z.shiftl (nbuckets m) 1 else 1 in
    if n >? 2 ^ 30 then UB else resize m n alloc
  else Ok (true, m).

(** map.c 137-166 [map_set_]; [a1], [a2]: the allocation of the node / of the array succeeds.  The boolean is
    "result 0". *)
Definition map_set (m : hmap) (key : string) (v : Z) (a1 a2 : bool) : result (bool * hmap) :=
  let h := map_hash key in
  do old <- map_get m key;
  match old with
  | Some _ => Ok (true, mkM (upd_bucket m h (fun b => set_node b h key v)) (m_nnodes m))
  | None =>
      if negb a1 then Ok (false, m) else
      do '(ok, m1) <- grow m a2;
      if negb ok then Ok (false, m1) else
      do bs <- addnode (m_buckets m1) (mkN h key v);
      Ok (true, mkM bs (to_uint 32 (m_nnodes m1 + 1)))
  end.

(** map.c 169-178 [map_remove_]. *)
Fixpoint drop_node (l : list mnode) (h : Z) (key : string) : list mnode :=
  match l with
  | [] => []
  | n :: t => if (n_hash n =? h) && String.eqb (n_key n) key then t else n :: drop_node t h key
  end.
(** map.c 169-178 [map_remove_]. *)
Definition map_remove (m : hmap) (key : string) : result hmap :=
  let h := map_hash key in
  do old <- map_get m key;
  match old with
  | Some _ => Ok (mkM (upd_bucket m h (fun b => drop_node b h key)) (to_uint 32 (m_nnodes m - 1)))
  | None => Ok m
  end.

(** map.h 33-34 [map_init]. *)
Definition map_init : hmap := mkM [] 0.

(** map.c 181-186 [map_iter_], 189-207 [map_next_]: the position of an iteration is the number of the bucket (unsigned,
    -1 at the start) and the node in it with those behind it.  [None]: finished. *)
Record miter := mkI { it_bucket : Z; it_nodes : list mnode }.
(** map.c 181-186 [map_iter_]. *)
Definition map_iter : miter := mkI (to_uint 32 (-1)) [].
(** map.c 197-203. *)
Fixpoint next_bucket (bs : list (list mnode)) (i : Z) : option (string * miter) :=
  match bs with
  | [] => None
  | [] :: t => next_bucket t (i + 1)
  | (n :: b) :: _ => Some (n_key n, mkI i (n :: b))
  end.
(** map.c 189-207 [map_next_]. *)
Definition map_next (m : hmap) (it : miter) : option (string * miter) :=
  let skip := let i := to_uint 32 (it_bucket it + 1) in next_bucket (skipn (Z.to_nat i) (m_buckets m)) i in
  match it_nodes it with
  | _ :: n :: t => Some (n_key n, mkI (it_bucket it) (n :: t))
  | _ => skip
  end.

(** *** Histories *)
Inductive mop := MSet (key : string) (v : Z) (a1 a2 : bool) | MRemove (key : string).
(** The final table and, for each operation, whether it succeeded. *)
Fixpoint map_run (m : hmap) (ops : list mop) : result (hmap * list bool) :=
  match ops with
  | [] => Ok (m, [])
  | MSet k v a1 a2 :: t => do '(ok, m1) <- map_set m k v a1 a2; do '(m2, oks) <- map_run m1 t; Ok (m2, ok :: oks)
  | MRemove k :: t => do m1 <- map_remove m k; do '(m2, oks) <- map_run m1 t; Ok (m2, true :: oks)
  end.
(** The value a key has after the operations, according to those that succeeded. *)
Fixpoint last_stored (ops : list mop) (oks : list bool) (key : string) (old : option Z) : option Z :=
  match ops, oks with
  | MSet k v _ _ :: t, ok :: oks' => last_stored t oks' key (if ok && String.eqb k key then Some v else old)
  | MRemove k :: t, _ :: oks' => last_stored t oks' key (if String.eqb k key then None else old)
  | _, _ => old
  end.
(** All allocations succeed. *)
Definition no_failure (o : mop) : Prop := match o with MSet _ _ a1 a2 => a1 = true /\ a2 = true | MRemove _ => True end.

(** config.c 278-285 [add_to_string_map], for the strings of a variable one after the other. *)
Fixpoint string_table_from (m : hmap) (n : Z) (l : list string) : result hmap :=
  match l with
  | [] => Ok m
  | s :: t => do '(_, m1) <- map_set m s n true true; string_table_from m1 (n + 1) t
  end.
(** config.c 278-285, starting from map_init (map.h 33-34). *)
Definition string_table (l : list string) : result hmap := string_table_from map_init 0 l.

(** The keys seen by an iteration of at most [n] steps; [true]: it came to the end. *)
Fixpoint iterate (n : nat) (m : hmap) (it : miter) : list string * bool :=
  match n with
  | O => ([], false)
  | S n' => match map_next m it with
            | None => ([], true)
            | Some (k, it') => let (l, e) := iterate n' m it' in (k :: l, e)
            end
  end.
