(** Passes over a parsed expression before it is stored (ast.c 1868-2230, 2468-2806,
    betree.c 31-44, 75-122). *)
From Coq Require Import ZArith NArith String Bool List.
From Verif Require Import Base Float Value Ast Config.
Import ListNotations.
Local Open Scope Z_scope.
Local Open Scope res_scope.

(** All passes below visit `not`, `and`, `or` nodes recursively, left operand first, and work on
    the predicates.  [map_leaves] / [trav] / [all_leaves] is that common recursion; [trav] threads
    the configuration. *)
Fixpoint map_leaves (f : leaf -> leaf) (e : expr) : expr :=
  match e with
  | ELeaf g p => ELeaf g (f p)
  | EAnd g a b => EAnd g (map_leaves f a) (map_leaves f b)
  | EOr g a b => EOr g (map_leaves f a) (map_leaves f b)
  | ENot g a => ENot g (map_leaves f a)
  end.

(** The recursion of ast.c 2091-2232 and betree.c 74-121 over bool_expr nodes, with the configuration they update. *)
Fixpoint trav (f : config -> leaf -> result (leaf * config)) (c : config) (e : expr)
  : result (expr * config) :=
  match e with
  | ELeaf g p => do '(p', c') <- f c p; Ok (ELeaf g p', c')
  | EAnd g a b =>
      do '(a', c1) <- trav f c a; do '(b', c2) <- trav f c1 b; Ok (EAnd g a' b', c2)
  | EOr g a b =>
      do '(a', c1) <- trav f c a; do '(b', c2) <- trav f c1 b; Ok (EOr g a' b', c2)
  | ENot g a => do '(a', c1) <- trav f c a; Ok (ENot g a', c1)
  end.

(** Conjunction over the predicates; the right operand is not visited when the left one fails
    (C's && or early return). *)
Fixpoint all_leaves (f : leaf -> result bool) (e : expr) : result bool :=
  match e with
  | ELeaf _ p => f p
  | EAnd _ a b | EOr _ a b => do x <- all_leaves f a; if (x : bool) then all_leaves f b else Ok false
  | ENot _ a => all_leaves f a
  end.

(** ast.c 1966-2089 [assign_variable_id]. *)
Definition set_var (c : config) (v : avar) : avar :=
  mkAV (av_attr v) (try_get_id_for_attr c (av_attr v)).
(** ast.c 1966-2089 [assign_variable_id] on one predicate. *)
Definition assign_var_leaf (c : config) (p : leaf) : leaf :=
  match p with
  | PLit b => PLit b
  | PVar v => PVar (set_var c v)
  | PCmp op v x => PCmp op (set_var c v) x
  | PEq op v x => PEq op (set_var c v) x
  | PSet op l r =>
      PSet op (match l with SLVar v => SLVar (set_var c v) | _ => l end)
              (match r with SRVar v => SRVar (set_var c v) | _ => r end)
  | PList op v x => PList op (set_var c v) x
  | PNull op v => PNull op (set_var c v)
  | PFreq v ty ns value len now id => PFreq (set_var c v) ty ns value len (set_var c now) id
  | PSeg op h v id s now => PSeg op h (set_var c v) id s (set_var c now)
  | PGeo h a b r la lo => PGeo h a b r (set_var c la) (set_var c lo)
  | PStr op v pat => PStr op (set_var c v) pat
  end.
(** ast.c 1966-2089 [assign_variable_id]. *)
Definition assign_variable_id (c : config) (e : expr) : expr := map_leaves (assign_var_leaf c) e.

(** Loop of ast.c 2191-2198 / 2213-2220. *)
Fixpoint assign_strs (c : config) (v : avar) (l : list sval) (always : bool)
  : result (list sval * config) :=
  match l with
  | [] => Ok ([], c)
  | s :: t =>
      do '(i, c1) <- get_id_for_string c v (sv_string s) always;
      do '(t', c2) <- assign_strs c1 v t always;
      Ok (mkS (sv_string s) i :: t', c2)
  end.

(** ast.c 2135-2232 [assign_str_id].  A string on the left of `in` is interned for the variable on
    the right; when the right side is no variable C reads another union member ([UB]). *)
Definition assign_str_leaf (always : bool) (c : config) (p : leaf) : result (leaf * config) :=
  match p with
  | PFreq v ty ns value len now id =>
      do '(i, c1) <- get_id_for_string c v (sv_string ns) always;
      Ok (PFreq v ty (mkS (sv_string ns) i) value len now id, c1)
  | PEq op v (QStr s) =>
      do '(i, c1) <- get_id_for_string c v (sv_string s) always;
      Ok (PEq op v (QStr (mkS (sv_string s) i)), c1)
  | PList op v (LStrs l) =>
      do '(l', c1) <- assign_strs c v l always;
      Ok (PList op v (LStrs l'), c1)
  | PSet op l r =>
      match l, r with
      | SLStr s, SRVar v =>
          do '(i, c1) <- get_id_for_string c v (sv_string s) always;
          Ok (PSet op (SLStr (mkS (sv_string s) i)) r, c1)
      | SLStr _, _ => UB
      | SLVar v, SRStrs l' =>
          do '(l2, c1) <- assign_strs c v l' always;
          Ok (PSet op l (SRStrs l2), c1)
      | SLInt _, SRStrs _ => UB
      | _, _ => Ok (p, c)
      end
  | _ => Ok (p, c)
  end.
(** ast.c 2135-2232 [assign_str_id]. *)
Definition assign_str_id (c : config) (e : expr) (always : bool) : result (expr * config) :=
  trav (assign_str_leaf always) c e.

(** ast.c 2091-2133 [assign_ienum_id]. *)
Definition assign_ie_leaf (always : bool) (c : config) (p : leaf) : result (leaf * config) :=
  match p with
  | PEq op v (QInt z) =>
      do d <- get_domain c (av_var v);
      match d_bound d with
      | BStr TIEnum _ _ =>
          do '(i, c1) <- get_id_for_ienum c v z always;
          Ok (PEq op v (QIEnum (mkIE z i)), c1)
      | _ => Ok (p, c)
      end
  | _ => Ok (p, c)
  end.
(** ast.c 2091-2133 [assign_ienum_id]. *)
Definition assign_ienum_id (c : config) (e : expr) (always : bool) : result (expr * config) :=
  trav (assign_ie_leaf always) c e.

(** ast.c 2468-2528 [sort_lists]: constants of `in`/`not in` with a variable on the left and of
    list expressions are sorted (not de-duplicated). *)
Definition sort_leaf (p : leaf) : leaf :=
  match p with
  | PSet op (SLVar v) (SRInts l) => PSet op (SLVar v) (SRInts (sort_key (fun z => z) l))
  | PSet op (SLVar v) (SRStrs l) => PSet op (SLVar v) (SRStrs (sort_key sv_str l))
  | PList op v (LInts l) => PList op v (LInts (sort_key (fun z => z) l))
  | PList op v (LStrs l) => PList op v (LStrs (sort_key sv_str l))
  | _ => p
  end.
(** ast.c 2468-2528 [sort_lists]. *)
Definition sort_lists (e : expr) : expr := map_leaves sort_leaf e.

(** betree.c 74-121 [fix_float_with_no_fractions]. *)
Definition is_float_bound (b : bound) : bool := match b with BFloat _ _ => true | _ => false end.
(** betree.c 74-121 [fix_float_with_no_fractions] on one predicate. *)
Definition fix_leaf (c : config) (p : leaf) : result (leaf * config) :=
  match p with
  | PCmp op v x =>
      do d <- get_domain c (av_var v);
      match x with
      | CInt z => Ok (if is_float_bound (d_bound d) then PCmp op v (CFloat (f_of_Z z)) else p, c)
      | CFloat _ => Ok (p, c)
      end
  | PEq op v x =>
      do d <- get_domain c (av_var v);
      match x with
      | QInt z => Ok (if is_float_bound (d_bound d) then PEq op v (QFloat (f_of_Z z)) else p, c)
      | _ => Ok (p, c)
      end
  | _ => Ok (p, c)
  end.
(** betree.c 74-121 [fix_float_with_no_fractions]. *)
Definition fix_float (c : config) (e : expr) : result (expr * config) := trav fix_leaf c e.

(** A named constant given with an insertion (betree.h [struct betree_constant]). *)
Definition constants := list (string * value).

(** ast.c 1868-1883 [get_integer_constant]: the first constant with that name must be an integer. *)
Fixpoint get_integer_constant (name : string) (cs : constants) : option Z :=
  match cs with
  | [] => None
  | (n, v) :: t =>
      if String.eqb name n then match v with VInt z => Some z | _ => None end
      else get_integer_constant name t
  end.

(** ast.c 1885-1907 [get_constant_name_for_type]. *)
Definition constant_name (t : ftype) : option string :=
  match t with
  | FTAdvertiser | FTAdvertiserIP => Some "advertiser_id"%string
  | FTCampaign | FTCampaignIP => Some "campaign_id"%string
  | FTCampaignGroup | FTCampaignGroupIP => Some "campaign_group_id"%string
  | FTFlight | FTFlightIP => Some "flight_id"%string
  | FTProduct | FTProductIP => Some "product_id"%string
  | FTInvalid => None
  end.

(** ast.c 1909-1964 [assign_constants]: [None] when some constant is missing.  (The C code goes on
    after a missing constant and updates the other predicates; the expression is then dropped.) *)
Definition assign_const_leaf (cs : constants) (p : leaf) : option leaf :=
  match p with
  | PFreq v ty ns value len now id =>
      match constant_name ty with
      | None => None
      | Some name =>
          match get_integer_constant name cs with
          | None => None
          | Some z => Some (PFreq v ty ns value len now (to_uint 32 z))
          end
      end
  | _ => Some p
  end.
(** ast.c 1909-1964 [assign_constants]. *)
Fixpoint assign_constants (cs : constants) (e : expr) : option expr :=
  match e with
  | ELeaf g p => match assign_const_leaf cs p with Some p' => Some (ELeaf g p') | None => None end
  | EAnd g a b =>
      match assign_constants cs a, assign_constants cs b with
      | Some a', Some b' => Some (EAnd g a' b') | _, _ => None end
  | EOr g a b =>
      match assign_constants cs a, assign_constants cs b with
      | Some a', Some b' => Some (EOr g a' b') | _, _ => None end
  | ENot g a => match assign_constants cs a with Some a' => Some (ENot g a') | None => None end
  end.

(** ast.c 2540-2547 [is_variable_valid]. *)
Definition var_valid (v : avar) : bool := negb (av_var v =? INVALID_VAR)%N.

(** ast.c 2629-2672 [all_variables_in_config]: geo predicates are not checked. *)
Definition vars_leaf (p : leaf) : result bool :=
  match p with
  | PLit _ => Ok true
  | PVar v | PCmp _ v _ | PEq _ v _ | PList _ v _ | PNull _ v | PStr _ v _ => Ok (var_valid v)
  | PSet _ (SLVar v) _ => Ok (var_valid v)
  | PSet _ _ (SRVar v) => Ok (var_valid v)
  | PSet _ _ _ => Abort
  | PFreq v _ _ _ _ now _ => Ok (var_valid v && var_valid now)
  | PSeg _ _ v _ _ now => Ok (var_valid v && var_valid now)
  | PGeo _ _ _ _ _ _ => Ok true
  end.
(** ast.c 2629-2672 [all_variables_in_config]. *)
Definition all_variables_in_config (e : expr) : result bool := all_leaves vars_leaf e.

(** ast.c 2674-2686 [get_attr_string_bound]: the declared name is compared with the name as
    written in the expression (no lower-casing here). *)
Fixpoint attr_string_bound (ds : list domain) (attr : string) : result Z :=
  match ds with
  | [] => Ok SIZE_MAX
  | d :: t =>
      if String.eqb attr (d_attr d) then
        do smax <- dom_smax (d_bound d);
        Ok (if smax =? SIZE_MAX then smax else smax + 1)
      else attr_string_bound t attr
  end.

(** ast.c 2688-2697 [get_string_map_for_attr]. *)
Fixpoint strmap_for_attr (ms : list strmap) (attr : string) : option strmap :=
  match ms with
  | [] => None
  | m :: t => if String.eqb attr (sm_attr m) then Some m else strmap_for_attr t attr
  end.

(** ast.c 2699-2719 [str_valid]; the subtraction is on size_t. *)
Definition str_valid (c : config) (attr : string) (s : string) : result bool :=
  do bound <- attr_string_bound (c_domains c) attr;
  match strmap_for_attr (c_strs c) attr with
  | None => Ok (bound >? 0)
  | Some m =>
      match str_index (sm_vals m) s with
      | Some _ => Ok true
      | None => Ok (to_uint 64 (bound - Z.of_nat (length (sm_vals m))) >? 0)
      end
  end.

(** ast.c 2721-2749 [strs_valid]. *)
Definition strs_valid (c : config) (attr : string) (l : list sval) : result bool :=
  do bound <- attr_string_bound (c_domains c) attr;
  if bound =? SIZE_MAX then Ok true else
  match strmap_for_attr (c_strs c) attr with
  | None => Ok (bound >=? Z.of_nat (length l))
  | Some m =>
      let space := to_uint 64 (bound - Z.of_nat (length (sm_vals m))) in
      let found := length (filter (fun s => match str_index (sm_vals m) (sv_string s) with
                                            | Some _ => true | None => false end) l) in
      Ok (space >=? Z.of_nat (length l - found))
  end.

(** ast.c 2751-2805 [all_bounded_strings_valid]. *)
Definition strings_leaf (c : config) (p : leaf) : result bool :=
  match p with
  | PEq _ v (QStr s) => str_valid c (av_attr v) (sv_string s)
  | PSet _ (SLVar v) (SRStrs l) => strs_valid c (av_attr v) l
  | PSet _ (SLStr s) (SRVar v) => str_valid c (av_attr v) (sv_string s)
  | PList _ v (LStrs l) => strs_valid c (av_attr v) l
  | _ => Ok true
  end.
(** ast.c 2751-2805 [all_bounded_strings_valid]. *)
Definition all_bounded_strings_valid (c : config) (e : expr) : result bool :=
  all_leaves (strings_leaf c) e.

(** betree.c 31-44 [is_valid]. *)
Definition is_valid (c : config) (e : expr) : result bool :=
  do v <- all_variables_in_config e;
  if v : bool then all_bounded_strings_valid c e else Ok false.

(** ast.c 2549-2627 [is_list_type], [all_exprs_valid]. *)
Definition exprs_leaf (c : config) (p : leaf) : result bool :=
  match p with
  | PLit _ => Ok true
  | PVar v => do d <- get_domain c (av_var v); Ok (vtype_eqb (btype (d_bound d)) TBool)
  | PNull op v =>
      do d <- get_domain c (av_var v);
      Ok (match op with
          | NIsNull | NIsNotNull => d_undef d
          | NIsEmpty => vtype_eqb (btype (d_bound d)) TIntList || vtype_eqb (btype (d_bound d)) TStrList
          end)
  | PCmp _ v x =>
      do d <- get_domain c (av_var v);
      Ok (match x with
          | CInt _ => vtype_eqb (btype (d_bound d)) TInt
          | CFloat _ => vtype_eqb (btype (d_bound d)) TFloat
          end)
  | PEq _ v x =>
      do d <- get_domain c (av_var v);
      Ok (match x with
          | QStr _ => vtype_eqb (btype (d_bound d)) TStr
          | QFloat _ => vtype_eqb (btype (d_bound d)) TFloat
          | QInt _ => vtype_eqb (btype (d_bound d)) TInt
          | QIEnum _ => vtype_eqb (btype (d_bound d)) TIEnum
          end)
  | PList _ v x =>
      do d <- get_domain c (av_var v);
      Ok (match x with
          | LStrs _ => vtype_eqb (btype (d_bound d)) TStrList
          | LInts _ => vtype_eqb (btype (d_bound d)) TIntList
          end)
  | PSet _ (SLVar v) r =>
      do d <- get_domain c (av_var v);
      Ok (match r with
          | SRStrs _ => vtype_eqb (btype (d_bound d)) TStr
          | SRInts _ => vtype_eqb (btype (d_bound d)) TInt
          | SRVar _ => false
          end)
  | PSet _ l (SRVar v) =>
      do d <- get_domain c (av_var v);
      Ok (match l with
          | SLStr _ => vtype_eqb (btype (d_bound d)) TStrList
          | SLInt _ => vtype_eqb (btype (d_bound d)) TIntList
          | SLVar _ => false
          end)
  | PSet _ _ _ => Ok false
  | PFreq _ ty _ _ _ _ _ => Ok (match ty with FTInvalid => false | _ => true end)
  | PSeg _ _ _ _ _ _ | PGeo _ _ _ _ _ _ | PStr _ _ _ => Ok true
  end.
(** ast.c 2553-2627 [all_exprs_valid]. *)
Definition all_exprs_valid (c : config) (e : expr) : result bool := all_leaves (exprs_leaf c) e.
