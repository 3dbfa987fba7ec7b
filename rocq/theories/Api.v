(** The public operations (betree.c 459-606) on a whole tree. *)
From Coq Require Import ZArith NArith String Bool List.
From Verif Require Import Base Float Value Ast Config Assign Bound Special Match RbTree PredMap Tree Source.
Import ListNotations.
Local Open Scope Z_scope.
Local Open Scope res_scope.

(** betree.h [struct betree] with the predicate map of its configuration. *)
Record betree := mkBT { bt_cfg : config; bt_pm : pred_map; bt_root : cnode }.

(** betree.c 639-660 [betree_make_with_parameters] followed by declarations of the variables.
    [maxsplit] is config.max_domain_for_split (1000 by default, config.c 26). *)
Definition make_tree (cap minpart maxsplit : Z) (ds : list domain) : betree :=
  let c := mkC ds (to_uint 8 cap) (to_uint 8 minpart) maxsplit [] [] in
  mkBT c make_pred_map (make_cnode c []).

(** Bound on the nesting of [space_partitioning] / [space_clustering] calls in the model. *)
Definition insert_fuel (c : config) : nat :=
  let n := length (c_domains c) in
  ((n + 1) * (n + Z.to_nat (c_maxsplit c) + 8))%nat.

(** tree->config after the calls that change it (betree.h [struct betree]). *)
Definition set_cfg (t : betree) (c : config) : betree := mkBT c (bt_pm t) (bt_root t).

(** betree.c 674-723 [betree_add_boolean_variable] and the other betree_add_*_variable functions, on
    any tree: only the list of declarations changes. *)
Definition betree_declare (t : betree) (d : domain) : betree := set_cfg t (add_domain (bt_cfg t) d).

(** helper.c 97-105 [empty_tree]: the subscriptions and the predicate map go, the configuration with its
    tables of strings stays. *)
Definition empty_tree (t : betree) : betree := mkBT (bt_cfg t) make_pred_map (make_cnode (bt_cfg t) []).

(** tree.c 413 [insert_be_tree] called with the root. *)
Definition insert_sub (t : betree) (s : sub) : result betree :=
  do r <- insert_root (insert_fuel (bt_cfg t)) (bt_cfg t) s (bt_root t);
  Ok (mkBT (bt_cfg t) (bt_pm t) r).

(** betree.c 475-503 [betree_insert_with_constants], from the parsed expression.  The boolean is the
    value returned to the caller. *)
Definition insert_expr (t : betree) (id : Z) (cs : constants) (e : expr) : result (bool * betree) :=
  let c := bt_cfg t in
  let e := assign_variable_id c e in
  do ok <- is_valid c e;
  if negb ok then Ok (false, t) else
  match assign_constants cs e with
  | None => Ok (false, t)
  | Some e =>
      do '(e, c) <- assign_str_id c e false;
      do '(e, c) <- assign_ienum_id c e false;
      let e := sort_lists e in
      do '(e, c) <- fix_float c e;
      do '(e, m) <- assign_pred (bt_pm t) e;
      do s <- make_sub c id e;
      do t' <- insert_sub (mkBT c m (bt_root t)) s;
      Ok (true, t')
  end.
(** betree.c 475-503 [betree_insert_with_constants]. *)
Definition betree_insert_with_constants (t : betree) (id : Z) (cs : constants) (x : src) :=
  insert_expr t id cs (build x).
(** betree.c 543-546 [betree_insert]. *)
Definition betree_insert (t : betree) (id : Z) (x : src) := betree_insert_with_constants t id [] x.

(** betree.c 505-536 [betree_make_sub], from the parsed expression: [None] is the NULL result; the
    configuration may have changed all the same. *)
Definition make_sub_expr (t : betree) (id : Z) (cs : constants) (e : expr)
  : result (option sub * betree) :=
  let c := bt_cfg t in
  let e := assign_variable_id c e in
  do ok <- all_variables_in_config e;
  if negb ok then Ok (None, t) else
  do '(e, c) <- assign_str_id c e true;
  do '(e, c) <- assign_ienum_id c e true;
  do '(e, c) <- fix_float c e;
  do ok <- all_exprs_valid c e;
  if negb ok then Ok (None, set_cfg t c) else
  match assign_constants cs e with
  | None => Ok (None, set_cfg t c)
  | Some e =>
      let e := sort_lists e in
      do c <- change_boundaries c e;
      do '(e, m) <- assign_pred (bt_pm t) e;
      do s <- make_sub c id e;
      Ok (Some s, mkBT c m (bt_root t))
  end.

(** betree.c 505-536 [betree_make_sub]. *)
Definition betree_make_sub (t : betree) (id : Z) (cs : constants) (x : src) :=
  make_sub_expr t id cs (build x).

(** betree.c 538-541 [betree_insert_sub]. *)
Definition betree_insert_sub (t : betree) (s : sub) : result betree := insert_sub t s.

(** betree.c 459-473 [betree_change_boundaries], from the parsed expression. *)
Definition change_boundaries_expr (t : betree) (e : expr) : result betree :=
  let c := bt_cfg t in
  let e := assign_variable_id c e in
  do '(e, c) <- assign_str_id c e true;
  do '(e, c) <- assign_ienum_id c e true;
  let e := sort_lists e in
  do '(e, c) <- fix_float c e;
  do c <- change_boundaries c e;
  Ok (set_cfg t c).
(** betree.c 459-473 [betree_change_boundaries]. *)
Definition betree_change_boundaries (t : betree) (x : src) := change_boundaries_expr t (build x).

(** *** Events *)

(** An event: variables with names; a null variable is dropped by the event parser (event_parser.y 103,
    tree.c 1846-1850). *)
Definition event := list (string * option value).

(** The double with the bit pattern of an int64_t: an integer given for a float variable keeps its
    bits (event_parser.y 107, tree.c 1886). *)
Definition float_of_bits (z : Z) : flt :=
  let u := to_uint 64 z in
  let s := 2 ^ 63 <=? u in
  let e := (u / 2 ^ 52) mod 2 ^ 11 in
  let m := u mod 2 ^ 52 in
  if e =? 2047 then (if m =? 0 then SpecFloat.S754_infinity s else SpecFloat.S754_nan)
  else if e =? 0 then
    match m with Z.pos p => SpecFloat.S754_finite s p (-1074) | _ => SpecFloat.S754_zero s end
  else
    match m + 2 ^ 52 with Z.pos p => SpecFloat.S754_finite s p (e - 1075) | _ => SpecFloat.S754_zero s end.

(** tree.c 1872-1930 [fill_event] for one variable: the value is tagged with the declared type
    whatever it was, then strings and enum integers are looked up.  Other mismatches between the
    given and the declared type read the wrong union member and are [UB] in the model.  An empty
    list is parsed as an integer list and stands for an empty list of any kind. *)
Definition fill_value (c : config) (v : N) (b : bound) (x : value) : result value :=
  let str s := mkS s (try_get_str c v s) in
  match btype b, x with
  | TBool, VBool _ | TInt, VInt _ | TFloat, VFloat _ | TIntList, VIntList _ | TSegs, VSegs _ => Ok x
  | TFloat, VInt z => Ok (VFloat (float_of_bits z))
  | TIEnum, VInt z => Ok (VIEnum (mkIE z (try_get_ie c v z)))
  | TIEnum, VIEnum e => Ok (VIEnum (mkIE (ie_int e) (try_get_ie c v (ie_int e))))
  | TStr, VStr s => Ok (VStr (str (sv_string s)))
  | TStrList, VStrList l => Ok (VStrList (map (fun s => str (sv_string s)) l))
  | TFreqs, VFreqs l =>
      Ok (VFreqs (map (fun k => mkCap (fc_type k) (fc_id k) (str (sv_string (fc_ns k)))
                                      (fc_tsdef k) (fc_ts k) (fc_value k)) l))
  | TStrList, VIntList [] => Ok (VStrList [])
  | TSegs, VIntList [] => Ok (VSegs [])
  | TFreqs, VIntList [] => Ok (VFreqs [])
  | _, _ => UB
  end.

(** tree.c 1795-1809 [sort_event_lists] for one variable. *)
Definition sort_value (x : value) : value :=
  match x with
  | VIntList l => VIntList (sort_ints l)
  | VStrList l => VStrList (sort_strs l)
  | _ => x
  end.

(** tree.c 1872-1930 [fill_event] for one variable. *)
Definition fill_variable (c : config) (name : string) (x : value) : result (N * value) :=
  let v := try_get_id_for_attr c name in
  if (v =? INVALID_VAR)%N then Abort else
  do d <- get_domain c v;
  do y <- fill_value c v (d_bound d) x;
  Ok (v, sort_value y).

(** tree.c 1811-1821 [make_event_from_string] (from the parsed event), betree.c 548-557
    [make_environment]. *)
Fixpoint fill_event (c : config) (ev : event) (p : env) : result env :=
  match ev with
  | [] => Ok p
  | (_, None) :: t => fill_event c t p
  | (name, Some x) :: t =>
      do '(v, y) <- fill_variable c name x;
      fill_event c t (updN p v (Some y))
  end.
(** betree.c 548-557 [make_environment]. *)
Definition make_env (c : config) (ev : event) : result env :=
  fill_event c ev (repeat None (length (c_domains c))).

(** tree.c 1932-1942 [validate_variables]. *)
Fixpoint validate_variables (ds : list domain) (p : env) : bool :=
  match ds, p with
  | d :: ds', o :: p' =>
      (d_undef d || match o with Some _ => true | None => false end) && validate_variables ds' p'
  | _, _ => true
  end.

Section WithGeo.
  Context {G : Geo}.

  (** betree.c 559-569, 591-604 [betree_search], [betree_search_with_event]. *)
  Definition betree_search (t : betree) (ev : event) (r : report) : result (bool * report) :=
    let c := bt_cfg t in
    do p <- make_env c ev;
    if negb (validate_variables (c_domains c) p) then Ok (false, r) else
    do r' <- search_with_preds c (pm_mids (bt_pm t)) (pm_mcount (bt_pm t)) p (bt_root t) r;
    Ok (true, r').

  (** betree.c 570-589 [betree_exists], [betree_exists_with_event]. *)
  Definition betree_exists (t : betree) (ev : event) : result bool :=
    let c := bt_cfg t in
    do p <- make_env c ev;
    exists_with_preds c (pm_mids (bt_pm t)) (pm_mcount (bt_pm t)) p (bt_root t).
End WithGeo.

(** betree.c 606-619 [make_report]. *)
Definition make_report : report := mkR 0 0 0 0 [].
