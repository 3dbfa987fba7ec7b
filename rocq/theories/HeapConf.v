(** The memory of the configuration: declared variables, tables of strings with their hash tables, tables of integers
    (config.c, map.c). *)
From Coq Require Import ZArith NArith String Bool List.
From Verif Require Import Base Float Value Ast Config HashMap Ledger HeapExpr.
Import ListNotations.
Local Open Scope Z_scope.
Local Open Scope led_scope.

(** ** The hash table *)
(** map.c 14-20 [struct map_node_t]: one block with the key and the value behind it. *)
Record knode := mkKN { kn_at : Z; kn_node : mnode }.
(** map.h 21-24 [map_base_t]: where the array of buckets is (0 as long as there is none), the buckets. *)
Record ktable := mkKT { kt_arr : Z; kt_buckets : list (list knode); kt_nnodes : Z }.
(** The table of HashMap.v. *)
Definition er_table (t : ktable) : hmap := mkM (map (map kn_node) (kt_buckets t)) (kt_nnodes t).

(** map.c 99-112 [map_getref]: reads the nodes up to the one looked for. *)
Fixpoint k_find (l : list knode) (h : Z) (key : string) : cmd (option Z) :=
  match l with
  | [] => ret None
  | n :: t =>
      on _ <- use (kn_at n);
      if (n_hash (kn_node n) =? h) && String.eqb (n_key (kn_node n)) key then ret (Some (n_val (kn_node n))) else k_find t h key
  end.
(** map.c 131-134 [map_get_] of a string in memory. *)
Definition k_get (t : ktable) (s : hstr) : cmd (option Z) :=
  on _ <- use (hs_at s);
  let h := map_hash (hs_text s) in
  let nb := Z.of_nat (List.length (kt_buckets t)) in
  if nb >? 0 then
    on _ <- use (kt_arr t);
    match nth_error (kt_buckets t) (Z.to_nat (bucketidx nb h)) with
    | Some b => k_find b h (hs_text s)
    | None => fail UB
    end
  else ret None.
(** map.c 55-59 [map_addnode]. *)
Fixpoint k_push (bs : list (list knode)) (i : nat) (n : knode) : result (list (list knode)) :=
  match bs, i with
  | [], _ => UB
  | b :: t, O => Ok ((n :: b) :: t)
  | b :: t, S i' => bind (k_push t i' n) (fun t' => Ok (b :: t'))
  end.
Definition k_addnode (bs : list (list knode)) (n : knode) : result (list (list knode)) :=
  k_push bs (Z.to_nat (bucketidx (Z.of_nat (List.length bs)) (n_hash (kn_node n)))) n.
(** map.c 66-77: all nodes in one chain. *)
Fixpoint k_chain (bs : list (list knode)) : list knode :=
  match bs with [] => [] | b :: t => rev_append b (k_chain t) end.
(** map.c 86-92. *)
Fixpoint k_add_all (bs : list (list knode)) (l : list knode) : result (list (list knode)) :=
  match l with
  | [] => Ok bs
  | n :: t => bind (k_addnode bs n) (fun bs' => k_add_all bs' t)
  end.
(** map.c 62-96 [map_resize] when there is memory: every node is written; brealloc(NULL, ...) allocates. *)
Definition k_resize (t : ktable) (n : Z) : cmd ktable :=
  let nodes := k_chain (kt_buckets t) in
  on _ <- match kt_buckets t with [] => ret tt | _ => use (kt_arr t) end;
  on _ <- each (fun x => use (kn_at x)) nodes;
  on a <- (if kt_arr t =? 0 then malloc else realloc (kt_arr t));
  on bs <- fail (k_add_all (repeat [] (Z.to_nat n)) nodes);
  ret (mkKT a bs (kt_nnodes t)).
(** map.c 151-157; doubling beyond 2^30 is not modelled, as in HashMap.v. *)
Definition k_grow (t : ktable) : cmd ktable :=
  let nb := Z.of_nat (List.length (kt_buckets t)) in
  if kt_nnodes t >=? nb then
    let n := if nb >? 0 then Z.shiftl nb 1 else 1 in
    if n >? 2 ^ 30 then fail UB else k_resize t n
  else ret t.
(** map.c 141-145: the value of a node overwritten. *)
Fixpoint k_put (l : list knode) (h : Z) (key : string) (v : Z) : list knode :=
  match l with
  | [] => []
  | n :: t => if (n_hash (kn_node n) =? h) && String.eqb (n_key (kn_node n)) key
              then mkKN (kn_at n) (mkN (n_hash (kn_node n)) (n_key (kn_node n)) v) :: t else n :: k_put t h key v
  end.
Definition k_upd (t : ktable) (h : Z) (f : list knode -> list knode) : list (list knode) :=
  let i := Z.to_nat (bucketidx (Z.of_nat (List.length (kt_buckets t))) h) in
  firstn i (kt_buckets t) ++ match nth_error (kt_buckets t) i with Some b => [f b] | None => [] end ++ skipn (S i) (kt_buckets t).
(** map.c 137-166 [map_set_]: the key is copied into the new node (map.c 32-45 [map_newnode]). *)
Definition k_set (t : ktable) (s : hstr) (v : Z) : cmd ktable :=
  let h := map_hash (hs_text s) in
  on old <- k_get t s;
  match old with
  | Some _ => ret (mkKT (kt_arr t) (k_upd t h (fun b => k_put b h (hs_text s) v)) (kt_nnodes t))
  | None =>
      on _ <- use (hs_at s);
      on a <- malloc;
      on t <- k_grow t;
      on _ <- use (kt_arr t);
      on bs <- fail (k_addnode (kt_buckets t) (mkKN a (mkN h (hs_text s) v)));
      ret (mkKT (kt_arr t) bs (to_uint 32 (kt_nnodes t + 1)))
  end.
(** map.h 33-34 [map_init], or memory from bcalloc. *)
Definition k_init : ktable := mkKT 0 [] 0.
(** map.c 115-128 [map_deinit_]: the next node is read before a node is freed. *)
Definition k_deinit (t : ktable) : cmd unit :=
  on _ <- match kt_buckets t with [] => ret tt | _ => use (kt_arr t) end;
  on _ <- each (fun b => each (fun x => on _ <- use (kn_at x); free (kn_at x)) b) (rev (kt_buckets t));
  free (kt_arr t).

(** ** The configuration *)
(** config.h 11-15 [struct attr_domain]. *)
Record kdom := mkKD { kd_at : Z; kd_attr : hstr; kd_bound : bound; kd_undef : bool }.
(** config.h 22-26 [struct string_map], an element of an array; [None]: the table was not initialised. *)
Record kstrs := mkKS { ks_attr : hvar; ks_count : Z; ks_map : option ktable }.
(** config.h 28-34 [struct integer_map], an element of an array, with the address of its values. *)
Record kints := mkKI { ki_attr : hvar; ki_arr : Z; ki_vals : list Z }.
(** config.h 40-57 [struct config]: the arrays with their addresses.  [k_pm] is the block of the predicate map (its tree is in
    LinkedRb.v). *)
Record kconf := mkKC {
  k_at : Z; k_pm : Z; k_cap : Z; k_minpart : Z; k_maxsplit : Z;
  k_doms_at : Z; k_doms : list kdom;
  k_strs_at : Z; k_strs : list kstrs;
  k_ints_at : Z; k_ints : list kints }.

(** The strings of a table in the order of their numbers. *)
Definition key_of (l : list mnode) (i : Z) : string :=
  match find (fun n => n_val n =? i) l with Some n => n_key n | None => EmptyString end.
Definition keys_of (l : list mnode) (n : Z) : list string := map (fun i => key_of l (Z.of_nat i)) (seq 0 (Z.to_nat n)).
(** The configuration of Config.v. *)
Definition er_dom (d : kdom) : domain := mkD (hs_text (kd_attr d)) (kd_bound d) (kd_undef d).
Definition ks_vals (x : kstrs) : list string :=
  match ks_map x with Some t => keys_of (concat (m_buckets (er_table t))) (ks_count x) | None => [] end.
Definition er_smap (x : kstrs) : strmap := mkSM (hs_text (hv_attr (ks_attr x))) (hv_var (ks_attr x)) (ks_vals x).
Definition er_imap (x : kints) : intmap := mkIM (hs_text (hv_attr (ki_attr x))) (hv_var (ki_attr x)) (ki_vals x).
Definition er_conf (k : kconf) : config :=
  mkC (map er_dom (k_doms k)) (k_cap k) (k_minpart k) (k_maxsplit k) (map er_smap (k_strs k)) (map er_imap (k_ints k)).

Definition k_set_strs (k : kconf) (a : Z) (l : list kstrs) : kconf :=
  mkKC (k_at k) (k_pm k) (k_cap k) (k_minpart k) (k_maxsplit k) (k_doms_at k) (k_doms k) a l (k_ints_at k) (k_ints k).
Definition k_set_ints (k : kconf) (a : Z) (l : list kints) : kconf :=
  mkKC (k_at k) (k_pm k) (k_cap k) (k_minpart k) (k_maxsplit k) (k_doms_at k) (k_doms k) (k_strs_at k) (k_strs k) a l.
Definition k_set_doms (k : kconf) (a : Z) (l : list kdom) : kconf :=
  mkKC (k_at k) (k_pm k) (k_cap k) (k_minpart k) (k_maxsplit k) a l (k_strs_at k) (k_strs k) (k_ints_at k) (k_ints k).

(** config.c 12-28 [make_config], hashmap.c 55-65 [make_pred_map]. *)
Definition k_make (cap minpart : Z) : cmd kconf :=
  on a <- malloc; on p <- malloc; ret (mkKC a p (to_uint 8 cap) (to_uint 8 minpart) 1000 0 [] 0 [] 0 []).
(** config.c 71-84 [make_attr_domain], 86-109 [add_attr_domain]; the name is the caller's. *)
Definition k_declare (k : kconf) (d : domain) : cmd kconf :=
  on _ <- use (k_at k);
  on a <- malloc; on s <- bstrdup_lit (d_attr d);
  on b <- match k_doms k with [] => malloc | _ => realloc (k_doms_at k) end;
  ret (k_set_doms k b (k_doms k ++ [mkKD a s (d_bound d) (d_undef d)])).

(** The loops of config.c 290, 307, 323, 350 read the array. *)
Definition walk {A} (a : Z) (l : list A) : cmd unit := match l with [] => ret tt | _ => use a end.
(** config.c 307-309, 350-352: the first table of the variable. *)
Fixpoint k_find_strs (l : list kstrs) (v : N) : option kstrs :=
  match l with [] => None | x :: t => if (hv_var (ks_attr x) =? v)%N then Some x else k_find_strs t v end.
Fixpoint k_put_strs (l : list kstrs) (v : N) (y : kstrs) : list kstrs :=
  match l with [] => [] | x :: t => if (hv_var (ks_attr x) =? v)%N then y :: t else x :: k_put_strs t v y end.
(** config.c 290-292, 323-325: the first table of the variable. *)
Fixpoint k_find_ints (l : list kints) (v : N) : option kints :=
  match l with [] => None | x :: t => if (hv_var (ki_attr x) =? v)%N then Some x else k_find_ints t v end.
Fixpoint k_put_ints (l : list kints) (v : N) (y : kints) : list kints :=
  match l with [] => [] | x :: t => if (hv_var (ki_attr x) =? v)%N then y :: t else x :: k_put_ints t v y end.

(** map_get of the table of a variable (config.c 310, 353); a table that was not initialised is read all the same. *)
Definition k_lookup (x : kstrs) (s : hstr) : cmd (option Z) :=
  match ks_map x with Some t => k_get t s | None => fail UB end.
(** config.c 304-318 [try_get_id_for_string]. *)
Definition k_try_str (k : kconf) (v : N) (s : hstr) : cmd Z :=
  on _ <- use (k_at k); on _ <- walk (k_strs_at k) (k_strs k);
  match k_find_strs (k_strs k) v with
  | None => ret INVALID_STR
  | Some x => on o <- k_lookup x s; ret (match o with Some i => i | None => INVALID_STR end)
  end.
(** config.c 287-302 [try_get_id_for_ienum]. *)
Definition k_try_ie (k : kconf) (v : N) (z : Z) : cmd Z :=
  on _ <- use (k_at k); on _ <- walk (k_ints_at k) (k_ints k);
  match k_find_ints (k_ints k) v with
  | None => ret INVALID_IENUM
  | Some x => on _ <- walk (ki_arr x) (ki_vals x); ret (match int_index (ki_vals x) z with Some i => i | None => INVALID_IENUM end)
  end.

(** config.c 232-254 [add_string_map]: bcalloc clears the first element, brealloc leaves the later ones as they are. *)
Definition k_add_strs (k : kconf) (v : hvar) : cmd (kconf * kstrs) :=
  on a <- match k_strs k with [] => malloc | _ => realloc (k_strs_at k) end;
  on s <- bstrdup (hv_attr v);
  let x := mkKS (mkHV s (hv_var v)) 0 (match k_strs k with [] => Some k_init | _ => None end) in
  ret (k_set_strs k a (k_strs k ++ [x]), x).
(** config.c 207-230 [add_integer_map]. *)
Definition k_add_ints (k : kconf) (v : hvar) : cmd (kconf * kints) :=
  on a <- match k_ints k with [] => malloc | _ => realloc (k_ints_at k) end;
  on s <- bstrdup (hv_attr v);
  let x := mkKI (mkHV s (hv_var v)) 0 [] in
  ret (k_set_ints k a (k_ints k ++ [x]), x).
(** config.c 201-205 [get_attr_domain]. *)
Definition k_domain (k : kconf) (v : N) : cmd kdom :=
  on _ <- walk (k_doms_at k) (k_doms k);
  match nthN (k_doms k) v with Some d => on _ <- use (kd_at d); ret d | None => fail UB end.
(** config.c 336-338, 363-365. *)
Definition k_full (k : kconf) (v : N) (count : Z) (always : bool) : cmd bool :=
  on d <- k_domain k v;
  if always then ret false else on smax <- fail (dom_smax (kd_bound d)); ret (to_uint 64 (smax + 1) =? count).
(** config.c 278-285 [add_to_string_map]. *)
Definition k_add_to_strs (x : kstrs) (s : hstr) : cmd kstrs :=
  let o := if ks_count x =? 0 then Some k_init else ks_map x in
  match o with
  | None => fail UB
  | Some t => on t <- k_set t s (ks_count x); ret (mkKS (ks_attr x) (ks_count x + 1) (Some t))
  end.
(** config.c 256-276 [add_to_integer_map]. *)
Definition k_add_to_ints (x : kints) (z : Z) : cmd kints :=
  on b <- match ki_vals x with [] => malloc | _ => realloc (ki_arr x) end;
  ret (mkKI (ki_attr x) b (ki_vals x ++ [z])).

(** config.c 361-370, when the string was not found. *)
Definition k_new_string (k : kconf) (x : kstrs) (v : N) (s : hstr) (always : bool) : cmd (Z * kconf) :=
  on full <- k_full k v (ks_count x) always;
  if full : bool then ret (INVALID_STR, k) else
  on _ <- use (k_strs_at k);
  on y <- k_add_to_strs x s;
  ret (ks_count x, k_set_strs k (k_strs_at k) (k_put_strs (k_strs k) v y)).
(** config.c 347-371 [get_id_for_string]. *)
Definition k_get_string (k : kconf) (v : hvar) (s : hstr) (always : bool) : cmd (Z * kconf) :=
  on _ <- use (k_at k); on _ <- walk (k_strs_at k) (k_strs k);
  match k_find_strs (k_strs k) (hv_var v) with
  | Some x =>
      on o <- k_lookup x s;
      match o with Some i => ret (i, k) | None => k_new_string k x (hv_var v) s always end
  | None => on '(k, x) <- k_add_strs k v; k_new_string k x (hv_var v) s always
  end.
(** config.c 320-345 [get_id_for_ienum], from where the integer was not found. *)
Definition k_new_ienum (k : kconf) (x : kints) (v : N) (z : Z) (always : bool) : cmd (Z * kconf) :=
  on full <- k_full k v (Z.of_nat (List.length (ki_vals x))) always;
  if full : bool then ret (INVALID_IENUM, k) else
  on _ <- use (k_ints_at k);
  on y <- k_add_to_ints x z;
  ret (Z.of_nat (List.length (ki_vals x)), k_set_ints k (k_ints_at k) (k_put_ints (k_ints k) v y)).
(** config.c 320-345 [get_id_for_ienum]. *)
Definition k_get_ienum (k : kconf) (v : hvar) (z : Z) (always : bool) : cmd (Z * kconf) :=
  on _ <- use (k_at k); on _ <- walk (k_ints_at k) (k_ints k);
  match k_find_ints (k_ints k) (hv_var v) with
  | Some x =>
      on _ <- walk (ki_arr x) (ki_vals x);
      match int_index (ki_vals x) z with Some i => ret (i, k) | None => k_new_ienum k x (hv_var v) z always end
  | None => on '(k, x) <- k_add_ints k v; k_new_ienum k x (hv_var v) z always
  end.

(** ** Releasing *)
(** config.c 35-69 [free_config]; map_deinit reads a table also when it was not initialised. *)
Definition k_free_dom (d : kdom) : cmd unit := on _ <- use (kd_at d); on _ <- free (hs_at (kd_attr d)); free (kd_at d).
Definition k_free_ints (x : kints) : cmd unit := on _ <- h_free_var (ki_attr x); free (ki_arr x).
Definition k_free_strs (x : kstrs) : cmd unit :=
  on _ <- h_free_var (ks_attr x); match ks_map x with Some t => k_deinit t | None => fail UB end.
Definition k_free (k : kconf) : cmd unit :=
  on _ <- use (k_at k);
  on _ <- walk (k_doms_at k) (k_doms k); on _ <- each k_free_dom (k_doms k); on _ <- free (k_doms_at k);
  on _ <- walk (k_ints_at k) (k_ints k); on _ <- each k_free_ints (k_ints k); on _ <- free (k_ints_at k);
  on _ <- walk (k_strs_at k) (k_strs k); on _ <- each k_free_strs (k_strs k); on _ <- free (k_strs_at k);
  on _ <- free (k_pm k);
  free (k_at k).
