(** The memory of a whole program: the tree with its configuration, the expressions of its subscriptions and what calls
    allocate on their way (betree.c 375-672, ast.c 1909-2528, hashmap.c, tree.c 1101-1205 and 1587-1603).

    The blocks of the index (tree.h 22-84) are in the heap of Linked.v, with the structs of the subscriptions.  All other blocks
    are in the ledger: expressions, bit sets, the configuration, events, reports.

    Functions that only read (validation, searching, the choices of an insertion) are run on the values after all blocks they might
    read have been used: they may read less. *)
From Coq Require Import ZArith NArith String Bool List.
From Verif Require Import Base Float Value Ast Config Assign Special Match Bound Tree RbTree PredMap Source Api Linked LinkedApi.
From Verif Require Import BisonTables Machine Ledger HeapExpr HeapSpec HeapEvent HeapEventSpec HeapConf HeapConfSpec.
Import ListNotations.
Local Open Scope Z_scope.
Local Open Scope led_scope.

(** tree.h 22-27 [struct betree_sub]: what its members point to. *)
Record hsub := mkHU { hu_expr : hexpr; hu_vars : Z; hu_pass : Z; hu_fail : Z }.
(** tree.h [struct betree] at [w_at]; [w_rb] is the struct of the red-black tree of predicates, [w_keys] its nodes with the expressions
    they point to; [w_subs] is what the subscriptions in the heap point to. *)
Record wstate := mkW {
  w_at : Z; w_conf : kconf; w_rb : Z; w_keys : list (Z * hexpr); w_pm : pred_map;
  w_root : N; w_heap : heap; w_made : list N; w_subs : list (N * hsub) }.

(** The blocks of a subscription besides its struct. *)
Definition bl_hsub (u : hsub) : list Z := blocks (hu_expr u) ++ [hu_vars u; hu_pass u; hu_fail u].

(** ** Reading *)
(** All blocks of an expression. *)
Definition h_read (e : hexpr) : cmd unit := each use (blocks e).
(** All blocks of the configuration; the second also looks up strings, in any of the tables: one that was not initialised cannot
    be read.  The C code reads some of these blocks. *)
Definition k_read (k : kconf) : cmd unit := each use (bl_conf k).
Definition k_read_all (k : kconf) : cmd unit :=
  if existsb (fun x => match ks_map x with None => true | Some _ => false end) (k_strs k) then fail UB else each use (bl_conf k).
(** All subscriptions. *)
Definition w_read_subs (us : list (N * hsub)) : cmd unit := each (fun x => each use (bl_hsub (snd x))) us.
(** The nodes of the red-black tree and the expressions they point to. *)
Definition w_read_keys (rb : Z) (keys : list (Z * hexpr)) : cmd unit :=
  on _ <- use rb; each (fun x => on _ <- use (fst x); h_read (snd x)) keys.

(** ** Passes over an expression *)
(** The recursion of ast.c 1966-2528 and betree.c 74-121 over bool_expr nodes, left operand first. *)
Fixpoint h_trav (f : kconf -> hleaf -> cmd (hleaf * kconf)) (k : kconf) (e : hexpr) : cmd (hexpr * kconf) :=
  on _ <- use (h_at e);
  match e with
  | HLeaf a g p => on '(q, k) <- f k p; ret (HLeaf a g q, k)
  | HAnd a g x y => on '(x, k) <- h_trav f k x; on '(y, k) <- h_trav f k y; ret (HAnd a g x y, k)
  | HOr a g x y => on '(x, k) <- h_trav f k x; on '(y, k) <- h_trav f k y; ret (HOr a g x y, k)
  | HNot a g x => on '(x, k) <- h_trav f k x; ret (HNot a g x, k)
  end.

(** tree.c 1632-1637: the first declared variable with the name. *)
Fixpoint k_find_attr (l : list kdom) (name : string) (i : N) : cmd N :=
  match l with
  | [] => ret INVALID_VAR
  | d :: t =>
      on _ <- use (kd_at d); on _ <- use (hs_at (kd_attr d));
      if String.eqb (hs_text (kd_attr d)) name then ret i else k_find_attr t name (i + 1)
  end.
(** tree.c 1625-1639 [try_get_id_for_attr]: makes a copy in lower case, which it releases. *)
Definition k_try_id (k : kconf) (name : hstr) : cmd N :=
  on copy <- bstrdup name; on _ <- use (hs_at copy);
  on _ <- use (k_at k); on _ <- walk (k_doms_at k) (k_doms k);
  on i <- k_find_attr (k_doms k) (lower (hs_text copy)) 0;
  on _ <- free (hs_at copy); ret i.
Definition h_set_var (k : kconf) (v : hvar) : cmd hvar := on i <- k_try_id k (hv_attr v); ret (mkHV (hv_attr v) i).
(** ast.c 1966-2089 [assign_variable_id] on one predicate. *)
Definition h_var_leaf (k : kconf) (p : hleaf) : cmd (hleaf * kconf) :=
  on q <- match p with
          | HPLit b => ret (HPLit b)
          | HPVar v => on v <- h_set_var k v; ret (HPVar v)
          | HPCmp op v x => on v <- h_set_var k v; ret (HPCmp op v x)
          | HPEq op v x => on v <- h_set_var k v; ret (HPEq op v x)
          | HPSet op l r =>
              on l <- match l with HLVar v => on v <- h_set_var k v; ret (HLVar v) | _ => ret l end;
              on r <- match r with HRVar v => on v <- h_set_var k v; ret (HRVar v) | _ => ret r end;
              ret (HPSet op l r)
          | HPList op v x => on v <- h_set_var k v; ret (HPList op v x)
          | HPNull op v => on v <- h_set_var k v; ret (HPNull op v)
          | HPFreq v ty ns value len now id =>
              on v <- h_set_var k v; on now <- h_set_var k now; ret (HPFreq v ty ns value len now id)
          | HPSeg op h v id s now => on v <- h_set_var k v; on now <- h_set_var k now; ret (HPSeg op h v id s now)
          | HPGeo h a b r la lo => on la <- h_set_var k la; on lo <- h_set_var k lo; ret (HPGeo h a b r la lo)
          | HPStr op v pat => on v <- h_set_var k v; ret (HPStr op v pat)
          end;
  ret (q, k).
Definition h_assign_variable_id (k : kconf) (e : hexpr) : cmd (hexpr * kconf) := h_trav h_var_leaf k e.

(** ast.c 2135-2232 [assign_str_id]: one string. *)
Definition h_str (always : bool) (k : kconf) (v : hvar) (s : hsval) : cmd (hsval * kconf) :=
  on '(i, k) <- k_get_string k v (hw_string s) always; ret (mkHSV (hw_string s) i, k).
(** The loops of ast.c 2191-2198 and 2213-2220. *)
Fixpoint h_strs (always : bool) (k : kconf) (v : hvar) (arr : Z) (l : list hsval) : cmd (list hsval * kconf) :=
  match l with
  | [] => ret ([], k)
  | s :: t =>
      on _ <- use arr;
      on '(s, k) <- h_str always k v s; on '(t, k) <- h_strs always k v arr t; ret (s :: t, k)
  end.
Definition h_str_list (always : bool) (k : kconf) (v : hvar) (l : hstrs) : cmd (hstrs * kconf) :=
  on _ <- use (hl_at l);
  on '(items, k) <- h_strs always k v (hl_arr l) (hl_items l); ret (mkHL (hl_at l) (hl_arr l) items, k).
(** ast.c 2135-2232 [assign_str_id] on one predicate; as in Assign.v another member of a union is not read. *)
Definition h_str_leaf (always : bool) (k : kconf) (p : hleaf) : cmd (hleaf * kconf) :=
  match p with
  | HPFreq v ty ns value len now id =>
      on '(ns, k) <- h_str always k v ns; ret (HPFreq v ty ns value len now id, k)
  | HPEq op v (HQStr s) => on '(s, k) <- h_str always k v s; ret (HPEq op v (HQStr s), k)
  | HPList op v (HVStrs l) => on '(l, k) <- h_str_list always k v l; ret (HPList op v (HVStrs l), k)
  | HPSet op l r =>
      match l, r with
      | HLStr s, HRVar v => on '(s, k) <- h_str always k v s; ret (HPSet op (HLStr s) r, k)
      | HLStr _, _ => fail UB
      | HLVar v, HRStrs l' => on '(l', k) <- h_str_list always k v l'; ret (HPSet op l (HRStrs l'), k)
      | HLInt _, HRStrs _ => fail UB
      | _, _ => ret (p, k)
      end
  | _ => ret (p, k)
  end.
Definition h_assign_str_id (always : bool) (k : kconf) (e : hexpr) : cmd (hexpr * kconf) := h_trav (h_str_leaf always) k e.

(** ast.c 2091-2133 [assign_ienum_id]. *)
Definition h_ie_leaf (always : bool) (k : kconf) (p : hleaf) : cmd (hleaf * kconf) :=
  match p with
  | HPEq op v (HQInt z) =>
      on d <- k_domain k (hv_var v);
      match kd_bound d with
      | BStr TIEnum _ _ => on '(i, k) <- k_get_ienum k v z always; ret (HPEq op v (HQIEnum (mkIE z i)), k)
      | _ => ret (p, k)
      end
  | _ => ret (p, k)
  end.
Definition h_assign_ienum_id (always : bool) (k : kconf) (e : hexpr) : cmd (hexpr * kconf) := h_trav (h_ie_leaf always) k e.

(** ast.c 2468-2528 [sort_lists]: qsort of the arrays. *)
Definition h_sort_int_list (l : hints) : cmd hints :=
  on _ <- use (hi_at l); on _ <- walk (hi_arr l) (hi_items l);
  ret (mkHI (hi_at l) (hi_arr l) (sort_key (fun z => z) (hi_items l))).
Definition h_sort_str_list (l : hstrs) : cmd hstrs :=
  on _ <- use (hl_at l); on _ <- walk (hl_arr l) (hl_items l);
  ret (mkHL (hl_at l) (hl_arr l) (sort_key hw_str (hl_items l))).
Definition h_sort_leaf (k : kconf) (p : hleaf) : cmd (hleaf * kconf) :=
  on q <- match p with
          | HPSet op (HLVar v) (HRInts l) => on l <- h_sort_int_list l; ret (HPSet op (HLVar v) (HRInts l))
          | HPSet op (HLVar v) (HRStrs l) => on l <- h_sort_str_list l; ret (HPSet op (HLVar v) (HRStrs l))
          | HPList op v (HVInts l) => on l <- h_sort_int_list l; ret (HPList op v (HVInts l))
          | HPList op v (HVStrs l) => on l <- h_sort_str_list l; ret (HPList op v (HVStrs l))
          | _ => ret p
          end;
  ret (q, k).
Definition h_sort_lists (k : kconf) (e : hexpr) : cmd (hexpr * kconf) := h_trav h_sort_leaf k e.

(** betree.c 74-121 [fix_float_with_no_fractions]. *)
Definition h_fix_leaf (k : kconf) (p : hleaf) : cmd (hleaf * kconf) :=
  match p with
  | HPCmp op v x =>
      on d <- k_domain k (hv_var v);
      match x with
      | CInt z => ret (if is_float_bound (kd_bound d) then HPCmp op v (CFloat (f_of_Z z)) else p, k)
      | CFloat _ => ret (p, k)
      end
  | HPEq op v x =>
      on d <- k_domain k (hv_var v);
      match x with
      | HQInt z => ret (if is_float_bound (kd_bound d) then HPEq op v (HQFloat (f_of_Z z)) else p, k)
      | _ => ret (p, k)
      end
  | _ => ret (p, k)
  end.
Definition h_fix_float (k : kconf) (e : hexpr) : cmd (hexpr * kconf) := h_trav h_fix_leaf k e.

(** ast.c 1909-1964 [assign_constants]; the constants are the caller's. *)
Definition h_const_leaf (cs : constants) (p : hleaf) : option hleaf :=
  match p with
  | HPFreq v ty ns value len now id =>
      match constant_name ty with
      | None => None
      | Some name =>
          match get_integer_constant name cs with
          | None => None
          | Some z => Some (HPFreq v ty ns value len now (to_uint 32 z))
          end
      end
  | _ => Some p
  end.
Fixpoint h_constants (cs : constants) (e : hexpr) : cmd (option hexpr) :=
  on _ <- use (h_at e);
  match e with
  | HLeaf a g p => ret (match h_const_leaf cs p with Some q => Some (HLeaf a g q) | None => None end)
  | HAnd a g x y =>
      on u <- h_constants cs x; on v <- h_constants cs y;
      ret (match u, v with Some u, Some v => Some (HAnd a g u v) | _, _ => None end)
  | HOr a g x y =>
      on u <- h_constants cs x; on v <- h_constants cs y;
      ret (match u, v with Some u, Some v => Some (HOr a g u v) | _, _ => None end)
  | HNot a g x => on u <- h_constants cs x; ret (match u with Some u => Some (HNot a g u) | None => None end)
  end.

(** betree.c 375-457 [change_boundaries]: the bounds in the structs of the variables. *)
Fixpoint set_bounds (l : list kdom) (ds : list domain) : list kdom :=
  match l, ds with
  | d :: t, x :: s => mkKD (kd_at d) (kd_attr d) (d_bound x) (kd_undef d) :: set_bounds t s
  | _, _ => l
  end.
Definition k_change (k : kconf) (e : hexpr) : cmd kconf :=
  on _ <- k_read k; on _ <- h_read e;
  on c <- fail (change_boundaries (er_conf k) (er_expr e));
  ret (k_set_doms k (k_doms_at k) (set_bounds (k_doms k) (c_domains c))).

(** ** Predicates *)
(** node->global_id = id (hashmap.c 29, 37). *)
Definition h_set_gid (g : N) (e : hexpr) : hexpr :=
  match e with
  | HLeaf a _ p => HLeaf a g p | HAnd a _ x y => HAnd a g x y | HOr a _ x y => HOr a g x y | HNot a _ x => HNot a g x
  end.
(** The predicate map: its values, its nodes. *)
Definition preds := (pred_map * list (Z * hexpr))%type.
(** hashmap.c 26-44: a new predicate gets a node of the red-black tree, which points to the expression (jsw_rbtree.c 62-76
    [make_node]). *)
Definition h_assign_node (rb : Z) (ps : preds) (e : hexpr) : cmd (hexpr * preds) :=
  let '(m, keys) := ps in
  on _ <- h_read e; on _ <- w_read_keys rb keys;
  on '(x, m') <- fail (assign_node m (er_expr e));
  let e' := h_set_gid (gid x) e in
  if (pm_count m =? pm_count m')%N then ret (e', (m', keys)) else
  on a <- malloc; ret (e', (m', keys ++ [(a, e')])).
(** hashmap.c 13-45 [assign_pred]. *)
Fixpoint h_assign_pred (rb : Z) (ps : preds) (e : hexpr) : cmd (hexpr * preds) :=
  on _ <- use (h_at e);
  match e with
  | HLeaf a g p => h_assign_node rb ps e
  | HNot a g x => on '(x, ps) <- h_assign_pred rb ps x; h_assign_node rb ps (HNot a g x)
  | HAnd a g x y =>
      on '(x, ps) <- h_assign_pred rb ps x; on '(y, ps) <- h_assign_pred rb ps y; h_assign_node rb ps (HAnd a g x y)
  | HOr a g x y =>
      on '(x, ps) <- h_assign_pred rb ps x; on '(y, ps) <- h_assign_pred rb ps y; h_assign_node rb ps (HOr a g x y)
  end.
(** jsw_rbtree.c 92-113 [jsw_rbdelete], hashmap.c 67-71 [free_pred_map]: the nodes and the struct; see LinkedRb.v for the order.
    The expressions are not read. *)
Definition w_free_keys (rb : Z) (keys : list (Z * hexpr)) : cmd unit := on _ <- each (fun x => free (fst x)) keys; free rb.

(** ** Subscriptions *)
(** tree.c 1587-1603 [make_sub]. *)
Definition w_make_sub (k : kconf) (id : Z) (e : hexpr) (h : heap) : cmd (N * heap * hsub) :=
  on _ <- k_read k;
  on v <- malloc; on _ <- h_read e; on p <- malloc; on f <- malloc;
  on s <- fail (make_sub (er_conf k) id (er_expr e));
  let '(x, h) := alloc (OSub s) h in ret (x, h, mkHU e v p f).
(** tree.c 413-456 [insert_be_tree]. *)
Definition w_insert (n : nat) (k : kconf) (us : list (N * hsub)) (x root : N) (h : heap) : cmd heap :=
  on _ <- k_read k; on _ <- w_read_subs us; fail (p_insert n (er_conf k) x root NULL h).

(** What the subscription at [x] points to. *)
Fixpoint sub_at (us : list (N * hsub)) (x : N) : option hsub :=
  match us with [] => None | (a, u) :: t => if (x =? a)%N then Some u else sub_at t x end.
Fixpoint sub_gone (us : list (N * hsub)) (x : N) : list (N * hsub) :=
  match us with [] => [] | (a, u) :: t => if (x =? a)%N then t else (a, u) :: sub_gone t x end.
(** The heap and what its subscriptions point to. *)
Definition hus := (heap * list (N * hsub))%type.
(** tree.c 1101-1113 [free_sub]. *)
Definition w_free_sub (x : N) (s : hus) : cmd hus :=
  if (x =? NULL)%N then ret s else
  on _ <- fail (get_sub (fst s) x);
  match sub_at (snd s) x with
  | None => fail UB
  | Some u =>
      on _ <- free (hu_vars u);
      on _ <- h_free (hu_expr u);
      on _ <- free (hu_pass u); on _ <- free (hu_fail u);
      on h <- fail (release (fst s) x); ret (h, sub_gone (snd s) x)
  end.
Fixpoint w_free_subs (l : list N) (s : hus) : cmd hus :=
  match l with [] => ret s | x :: t => on s <- w_free_sub x s; w_free_subs t s end.
(** bfree of another block of the index. *)
Definition w_drop (s : hus) (a : N) : cmd hus := on h <- fail (drop (fst s) a); ret (h, snd s).
(** tree.c 1130-1142 [free_lnode]. *)
Definition w_free_lnode (la : N) (s : hus) : cmd hus :=
  if (la =? NULL)%N then ret s else
  on '(_, n, sa, _) <- fail (get_lnode (fst s) la);
  on l <- fail (entries (fst s) n sa);
  on s <- w_free_subs l s;
  on s <- w_drop s sa;
  w_drop s la.
(** tree.c 1144-1154 [free_cnode], 1077-1089 [free_pdir] with its loop, 1197-1205 [free_pnode], 1156-1169 [free_cdir], as in Linked.v. *)
Fixpoint w_free_cnode (n : nat) (a : N) (s : hus) : cmd hus :=
  match n with
  | O => fail Fuel
  | S n =>
      if (a =? NULL)%N then ret s else
      on '(_, la, pd) <- fail (get_cnode (fst s) a);
      on s <- w_free_lnode la s;
      on s <- w_free_pdir n pd s;
      w_drop s a
  end
with w_free_pdir (n : nat) (a : N) (s : hus) : cmd hus :=
  match n with
  | O => fail Fuel
  | S n =>
      if (a =? NULL)%N then ret s else
      on '(_, k, pa) <- fail (get_pdir (fst s) a);
      on l <- fail (entries (fst s) k pa);
      on s <- w_free_pnodes n l s;
      on s <- w_drop s pa;
      w_drop s a
  end
with w_free_pnodes (n : nat) (l : list N) (s : hus) : cmd hus :=
  match n with
  | O => fail Fuel
  | S n =>
      match l with
      | [] => ret s
      | a :: t => on s <- w_free_pnode n a s; w_free_pnodes n t s
      end
  end
with w_free_pnode (n : nat) (a : N) (s : hus) : cmd hus :=
  match n with
  | O => fail Fuel
  | S n =>
      if (a =? NULL)%N then ret s else
      on '(_, _, sa, cd, _) <- fail (get_pnode (fst s) a);
      on s <- w_drop s sa;
      on s <- w_free_cdir n cd s;
      w_drop s a
  end
with w_free_cdir (n : nat) (a : N) (s : hus) : cmd hus :=
  match n with
  | O => fail Fuel
  | S n =>
      if (a =? NULL)%N then ret s else
      on '(_, _, _, sa, _, cn, l, r) <- fail (get_cdir (fst s) a);
      on s <- w_drop s sa;
      on s <- w_free_cnode n cn s;
      on s <- w_free_cdir n l s;
      on s <- w_free_cdir n r s;
      w_drop s a
  end.

(** ** The public operations *)
Section WithGeo.
  Context {G : Geo}.

  (** config.c 86-109 [add_attr_domain], for each variable. *)
  Fixpoint w_declare_all (k : kconf) (ds : list domain) : cmd kconf :=
    match ds with [] => ret k | d :: t => on k <- k_declare k d; w_declare_all k t end.
  (** betree.c 656-660 [betree_make_with_parameters] with config.c 12-28 [make_config], then max_domain_for_split is set and
      variables are declared. *)
  Definition w_make (cap minpart maxsplit : Z) (ds : list domain) : cmd wstate :=
    on k <- k_make cap minpart; on rb <- malloc; on a <- malloc;
    on '(r, h) <- fail (new_cnode (er_conf k) NULL (mkH 1 []));
    let k := mkKC (k_at k) (k_pm k) (k_cap k) (k_minpart k) maxsplit (k_doms_at k) (k_doms k) (k_strs_at k) (k_strs k) (k_ints_at k) (k_ints k) in
    on k <- w_declare_all k ds;
    ret (mkW a k rb [] make_pred_map r h [] []).

  Definition set_conf (w : wstate) (k : kconf) : wstate :=
    mkW (w_at w) k (w_rb w) (w_keys w) (w_pm w) (w_root w) (w_heap w) (w_made w) (w_subs w).

  (** betree.c 475-503 [betree_insert_with_constants]. *)
  Definition w_insert_text (n : nat) (w : wstate) (id : Z) (cs : constants) (s : string) : cmd (bool * wstate) :=
    on _ <- use (w_at w);
    on o <- h_parse s;
    match o with
    | None => ret (false, w)
    | Some e =>
        on '(e, k) <- h_assign_variable_id (w_conf w) e;
        on _ <- k_read_all k; on _ <- h_read e;
        on ok <- fail (is_valid (er_conf k) (er_expr e));
        if negb ok then on _ <- h_free e; ret (false, set_conf w k) else
        on o <- h_constants cs e;
        match o with
        | None => ret (false, set_conf w k)
        | Some e =>
            on '(e, k) <- h_assign_str_id false k e;
            on '(e, k) <- h_assign_ienum_id false k e;
            on '(e, k) <- h_sort_lists k e;
            on '(e, k) <- h_fix_float k e;
            on '(e, (m, keys)) <- h_assign_pred (w_rb w) (w_pm w, w_keys w) e;
            on '(x, h, u) <- w_make_sub k id e (w_heap w);
            let us := w_subs w ++ [(x, u)] in
            on h <- w_insert n k us x (w_root w) h;
            ret (true, mkW (w_at w) k (w_rb w) keys m (w_root w) h (w_made w) us)
        end
    end.
  (** betree.c 505-536 [betree_make_sub]. *)
  Definition w_make_text (w : wstate) (id : Z) (cs : constants) (s : string) : cmd (bool * wstate) :=
    on _ <- use (w_at w);
    on o <- h_parse s;
    match o with
    | None => ret (false, w)
    | Some e =>
        on '(e, k) <- h_assign_variable_id (w_conf w) e;
        on _ <- k_read_all k; on _ <- h_read e;
        on ok <- fail (all_variables_in_config (er_expr e));
        if negb ok then on _ <- h_free e; ret (false, set_conf w k) else
        on '(e, k) <- h_assign_str_id true k e;
        on '(e, k) <- h_assign_ienum_id true k e;
        on '(e, k) <- h_fix_float k e;
        on _ <- k_read_all k; on _ <- h_read e;
        on ok <- fail (all_exprs_valid (er_conf k) (er_expr e));
        if negb ok then on _ <- h_free e; ret (false, set_conf w k) else
        on o <- h_constants cs e;
        match o with
        | None => on _ <- h_free e; ret (false, set_conf w k)
        | Some e =>
            on '(e, k) <- h_sort_lists k e;
            on k <- k_change k e;
            on '(e, (m, keys)) <- h_assign_pred (w_rb w) (w_pm w, w_keys w) e;
            on '(x, h, u) <- w_make_sub k id e (w_heap w);
            ret (true, mkW (w_at w) k (w_rb w) keys m (w_root w) h (w_made w ++ [x]) (w_subs w ++ [(x, u)]))
        end
    end.
  (** betree.c 538-541 [betree_insert_sub] of the k-th made subscription. *)
  Definition w_insert_made (n : nat) (w : wstate) (k : nat) : cmd wstate :=
    on _ <- use (w_at w);
    match nth_error (w_made w) k with
    | None => fail UB
    | Some x =>
        on h <- w_insert n (w_conf w) (w_subs w) x (w_root w) (w_heap w);
        ret (mkW (w_at w) (w_conf w) (w_rb w) (w_keys w) (w_pm w) (w_root w) h (w_made w) (w_subs w))
    end.
  (** betree.c 459-473 [betree_change_boundaries]. *)
  Definition w_change_text (w : wstate) (s : string) : cmd (bool * wstate) :=
    on _ <- use (w_at w);
    on o <- h_parse s;
    match o with
    | None => ret (false, w)
    | Some e =>
        on '(e, k) <- h_assign_variable_id (w_conf w) e;
        on '(e, k) <- h_assign_str_id true k e;
        on '(e, k) <- h_assign_ienum_id true k e;
        on '(e, k) <- h_sort_lists k e;
        on '(e, k) <- h_fix_float k e;
        on k <- k_change k e;
        on _ <- h_free e;
        ret (true, set_conf w k)
    end.
  (** helper.c 97-105 [empty_tree]: the predicate map is released and made again. *)
  Definition w_empty (n : nat) (w : wstate) : cmd wstate :=
    on _ <- use (w_at w);
    on '(h, us) <- w_free_cnode n (w_root w) (w_heap w, w_subs w);
    on _ <- use (k_at (w_conf w));
    on '(a, h) <- fail (new_cnode (er_conf (w_conf w)) NULL h);
    let k := w_conf w in
    on _ <- w_free_keys (w_rb w) (w_keys w); on _ <- free (k_pm k);
    on p <- malloc; on rb <- malloc;
    let k := mkKC (k_at k) p (k_cap k) (k_minpart k) (k_maxsplit k) (k_doms_at k) (k_doms k) (k_strs_at k) (k_strs k) (k_ints_at k) (k_ints k) in
    ret (mkW (w_at w) k rb [] make_pred_map a h (w_made w) us).

  (** tree.c 1749-1771 [betree_search_with_preds], betree.c 559-568 and 591-597: as in HeapEvent.v, with the index in memory. *)
  Definition w_search_text (n : nat) (w : wstate) (text : string) (r : hreport) : cmd (bool * hreport) :=
    let c := er_conf (w_conf w) in
    on _ <- use (w_at w); on _ <- k_read_all (w_conf w); on _ <- w_read_subs (w_subs w);
    on e <- h_event_from_string c text;
    on '(a, p) <- h_make_environment c e;
    on '(b, r) <-
      (if negb (validate_variables (c_domains c) p) then ret (false, r) else
       on u <- malloc; on pass <- malloc; on fail_ <- malloc; on s <- malloc;
       on l <- fail (p_match n (c_domains c) p (w_root w) (w_heap w));
       on subs <- fail (get_subs (w_heap w) l);
       on s <- h_candidates s 10 0 subs;
       on r <- h_search_loop [s; u; pass; fail_; a] e p (pm_mids (w_pm w)) (make_undefined p) subs
                 (make_memoize (pm_mcount (w_pm w)) (r_memoized (hp_report r))) r;
       on _ <- free s; on _ <- free pass; on _ <- free fail_; on _ <- free u; on _ <- free a;
       ret (true, r));
    on _ <- h_free_event e; ret (b, r).
  (** tree.c 1773-1793 [betree_exists_with_preds], betree.c 570-582. *)
  Definition w_exists_text (n : nat) (w : wstate) (text : string) : cmd bool :=
    let c := er_conf (w_conf w) in
    on _ <- use (w_at w); on _ <- k_read_all (w_conf w); on _ <- w_read_subs (w_subs w);
    on e <- h_event_from_string c text;
    on '(a, p) <- h_make_environment c e;
    on u <- malloc; on pass <- malloc; on fail_ <- malloc; on s <- malloc;
    on l <- fail (p_match n (c_domains c) p (w_root w) (w_heap w));
    on subs <- fail (get_subs (w_heap w) l);
    on s <- h_candidates s 10 0 subs;
    on b <- h_exists_loop [s; u; pass; fail_; a] e p (pm_mids (w_pm w)) (make_undefined p) subs (make_memoize (pm_mcount (w_pm w)) 0);
    on _ <- free s; on _ <- free pass; on _ <- free fail_; on _ <- free u; on _ <- free a;
    on _ <- h_free_event e; ret b.

  (** A call; the report of a search is made before and released after it. *)
  Definition w_call (n : nat) (w : wstate) (c : tcall) : cmd (reply * wstate) :=
    match c with
    | TInsert id cs s => on '(b, w) <- w_insert_text n w id cs s; ret (RBool b, w)
    | TMake id cs s => on '(b, w) <- w_make_text w id cs s; ret (RBool b, w)
    | TInsertSub k => on w <- w_insert_made n w k; ret (RNone, w)
    | TChange s => on '(b, w) <- w_change_text w s; ret (RBool b, w)
    | TDeclare d => on k <- k_declare (w_conf w) d; ret (RNone, set_conf w k)
    | TEmpty => on w <- w_empty n w; ret (RNone, w)
    | TSearch s =>
        on r <- h_make_report; on '(b, r) <- w_search_text n w s r;
        let x := hp_report r in on _ <- h_free_report r; ret (RReport b x, w)
    | TExists s => on b <- w_exists_text n w s; ret (RBool b, w)
    end.
  Fixpoint w_run (n : nat) (w : wstate) (l : list tcall) : cmd (list reply * wstate) :=
    match l with
    | [] => ret ([], w)
    | c :: t => on '(a, w) <- w_call n w c; on '(r, w) <- w_run n w t; ret (a :: r, w)
    end.

  (** betree.c 662-672 [betree_deinit], [betree_free]; config.c 35-69 [free_config] releases the predicate map, too. *)
  Definition w_free (n : nat) (w : wstate) : cmd hus :=
    on _ <- use (w_at w);
    on s <- w_free_cnode n (w_root w) (w_heap w, w_subs w);
    on _ <- w_free_keys (w_rb w) (w_keys w);
    on _ <- k_free (w_conf w);
    on _ <- free (w_at w);
    ret s.
End WithGeo.
