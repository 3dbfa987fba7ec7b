(** The public operations (betree.c 459-672, helper.c 97-105) on an index of linked objects, and programs that
    use them, both on linked objects and on the trees of Api.v. *)
From Coq Require Import ZArith NArith String Bool List.
From Verif Require Import Base Float Value Ast Config Assign Special Match Bound Tree TreeSpec RbTree PredMap Source Api Linked.
Import ListNotations.
Local Open Scope Z_scope.
Local Open Scope res_scope.

(** betree.h [struct betree]: the configuration, its predicate map, the address of the root cnode, memory;
    [p_made] are the results of betree_make_sub, which belong to the caller. *)
Record pstate := mkP { p_cfg : config; p_pm : pred_map; p_root : N; p_heap : heap; p_made : list N }.

(** betree.c 626-660 [betree_make_with_parameters], then declarations, as in [make_tree]. *)
Definition p_make_tree (cap minpart maxsplit : Z) (ds : list domain) : result pstate :=
  let c := mkC ds (to_uint 8 cap) (to_uint 8 minpart) maxsplit [] [] in
  do '(a, h) <- new_cnode c NULL (mkH 1 []);
  Ok (mkP c make_pred_map a h []).

(** betree.c 475-503 [betree_insert_with_constants]; tree.c 1587-1603 [make_sub] allocates. *)
Definition p_insert_expr (n : nat) (q : pstate) (id : Z) (cs : constants) (e : expr) : result (bool * pstate) :=
  let c := p_cfg q in
  let e := assign_variable_id c e in
  do ok <- is_valid c e;
  if negb ok then Ok (false, q) else
  match assign_constants cs e with
  | None => Ok (false, q)
  | Some e =>
      do '(e, c) <- assign_str_id c e false;
      do '(e, c) <- assign_ienum_id c e false;
      let e := sort_lists e in
      do '(e, c) <- fix_float c e;
      do '(e, m) <- assign_pred (p_pm q) e;
      do s <- make_sub c id e;
      let '(x, h) := alloc (OSub s) (p_heap q) in
      do h <- p_insert n c x (p_root q) NULL h;
      Ok (true, mkP c m (p_root q) h (p_made q))
  end.

(** betree.c 505-536 [betree_make_sub]. *)
Definition p_make_sub (q : pstate) (id : Z) (cs : constants) (e : expr) : result (bool * pstate) :=
  let c := p_cfg q in
  let set c := mkP c (p_pm q) (p_root q) (p_heap q) (p_made q) in
  let e := assign_variable_id c e in
  do ok <- all_variables_in_config e;
  if negb ok then Ok (false, q) else
  do '(e, c) <- assign_str_id c e true;
  do '(e, c) <- assign_ienum_id c e true;
  do '(e, c) <- fix_float c e;
  do ok <- all_exprs_valid c e;
  if negb ok then Ok (false, set c) else
  match assign_constants cs e with
  | None => Ok (false, set c)
  | Some e =>
      let e := sort_lists e in
      do c <- change_boundaries c e;
      do '(e, m) <- assign_pred (p_pm q) e;
      do s <- make_sub c id e;
      let '(x, h) := alloc (OSub s) (p_heap q) in
      Ok (true, mkP c m (p_root q) h (p_made q ++ [x]))
  end.

(** betree.c 538-541 [betree_insert_sub] of the k-th made subscription. *)
Definition p_insert_made (n : nat) (q : pstate) (k : nat) : result pstate :=
  match nth_error (p_made q) k with
  | None => UB
  | Some x =>
      do h <- p_insert n (p_cfg q) x (p_root q) NULL (p_heap q);
      Ok (mkP (p_cfg q) (p_pm q) (p_root q) h (p_made q))
  end.

(** betree.c 459-473 [betree_change_boundaries]: the configuration changes only. *)
Definition p_change (q : pstate) (e : expr) : result pstate :=
  let c := p_cfg q in
  let e := assign_variable_id c e in
  do '(e, c) <- assign_str_id c e true;
  do '(e, c) <- assign_ienum_id c e true;
  let e := sort_lists e in
  do '(e, c) <- fix_float c e;
  do c <- change_boundaries c e;
  Ok (mkP c (p_pm q) (p_root q) (p_heap q) (p_made q)).

(** helper.c 97-105 [empty_tree]. *)
Definition p_empty (n : nat) (q : pstate) : result pstate :=
  do h <- free_cnode n (p_root q) (p_heap q);
  do '(a, h) <- new_cnode (p_cfg q) NULL h;
  Ok (mkP (p_cfg q) make_pred_map a h (p_made q)).

(** betree.c 662-672 [betree_deinit], [betree_free]: what is left in memory. *)
Definition p_free (n : nat) (q : pstate) : result heap := free_cnode n (p_root q) (p_heap q).

Section WithGeo.
  Context {G : Geo}.

  (** betree.c 559-569, 591-604 [betree_search] with tree.c 1749-1771. *)
  Definition p_query (n : nat) (q : pstate) (ev : event) (r : report) : result (bool * report) :=
    let c := p_cfg q in
    do p <- make_env c ev;
    if negb (validate_variables (c_domains c) p) then Ok (false, r) else
    do l <- p_match n (c_domains c) p (p_root q) (p_heap q);
    do subs <- get_subs (p_heap q) l;
    do r' <- search_loop p (pm_mids (p_pm q)) (make_undefined p) subs
               (make_memoize (pm_mcount (p_pm q)) (r_memoized r)) r;
    Ok (true, r').
  (** betree.c 570-589 [betree_exists] with tree.c 1773-1793. *)
  Definition p_exists (n : nat) (q : pstate) (ev : event) : result bool :=
    let c := p_cfg q in
    do p <- make_env c ev;
    do l <- p_match n (c_domains c) p (p_root q) (p_heap q);
    do subs <- get_subs (p_heap q) l;
    exists_loop p (pm_mids (p_pm q)) (make_undefined p) subs (make_memoize (pm_mcount (p_pm q)) 0).

  (** *** Programs *)

  (** A call of the public interface with an expression as the parser gives it; [CInsertSub k] inserts the k-th subscription that was made. *)
  Inductive call :=
  | CInsert (id : Z) (cs : constants) (e : expr)
  | CMake (id : Z) (cs : constants) (e : expr)
  | CInsertSub (k : nat)
  | CChange (e : expr)
  | CDeclare (d : domain)
  | CEmpty
  | CSearch (ev : event)
  | CExists (ev : event).
  (** What a call returns to the caller. *)
  Inductive reply := RNone | RBool (b : bool) | RReport (b : bool) (r : report).

  (** One call on linked objects. *)
  Definition p_call (n : nat) (q : pstate) (k : call) : result (reply * pstate) :=
    match k with
    | CInsert id cs e => do '(b, q) <- p_insert_expr n q id cs e; Ok (RBool b, q)
    | CMake id cs e => do '(b, q) <- p_make_sub q id cs e; Ok (RBool b, q)
    | CInsertSub k => do q <- p_insert_made n q k; Ok (RNone, q)
    | CChange e => do q <- p_change q e; Ok (RNone, q)
    | CDeclare d => Ok (RNone, mkP (add_domain (p_cfg q) d) (p_pm q) (p_root q) (p_heap q) (p_made q))
    | CEmpty => do q <- p_empty n q; Ok (RNone, q)
    | CSearch ev => do '(b, r) <- p_query n q ev make_report; Ok (RReport b r, q)
    | CExists ev => do b <- p_exists n q ev; Ok (RBool b, q)
    end.
  (** A program on linked objects: the answers and the final state. *)
  Fixpoint p_run (n : nat) (q : pstate) (l : list call) : result (list reply * pstate) :=
    match l with
    | [] => Ok ([], q)
    | k :: t => do '(a, q) <- p_call n q k; do '(r, q) <- p_run n q t; Ok (a :: r, q)
    end.

  (** The same on the trees of Api.v; a made subscription is marked when it is inserted. *)
  Record vstate := mkV { v_tree : betree; v_made : list (sub * bool) }.
  (** The mark. *)
  Fixpoint mark (k : nat) (l : list (sub * bool)) : list (sub * bool) :=
    match l, k with
    | [], _ => []
    | (s, _) :: t, O => (s, true) :: t
    | x :: t, S k => x :: mark k t
    end.
  (** One call. *)
  Definition v_call (st : vstate) (k : call) : result (reply * vstate) :=
    let t := v_tree st in
    match k with
    | CInsert id cs e => do '(b, t) <- insert_expr t id cs e; Ok (RBool b, mkV t (v_made st))
    | CMake id cs e =>
        do '(o, t) <- make_sub_expr t id cs e;
        Ok (match o with
            | Some s => (RBool true, mkV t (v_made st ++ [(s, false)]))
            | None => (RBool false, mkV t (v_made st))
            end)
    | CInsertSub k =>
        match nth_error (v_made st) k with
        | None => UB
        | Some (s, _) => do t <- betree_insert_sub t s; Ok (RNone, mkV t (mark k (v_made st)))
        end
    | CChange e => do t <- change_boundaries_expr t e; Ok (RNone, mkV t (v_made st))
    | CDeclare d => Ok (RNone, mkV (betree_declare t d) (v_made st))
    | CEmpty => Ok (RNone, mkV (empty_tree t) (v_made st))
    | CSearch ev => do '(b, r) <- betree_search t ev make_report; Ok (RReport b r, st)
    | CExists ev => do b <- betree_exists t ev; Ok (RBool b, st)
    end.
  (** A program. *)
  Fixpoint v_run (st : vstate) (l : list call) : result (list reply * vstate) :=
    match l with
    | [] => Ok ([], st)
    | k :: t => do '(a, st) <- v_call st k; do '(r, st) <- v_run st t; Ok (a :: r, st)
    end.

  (** No subscription in the tree has this id. *)
  Definition free_id (t : betree) (id : Z) : bool :=
    negb (existsb (Z.eqb id) (map s_id (subs_cnode (bt_root t)))).
  (** A call keeps ids unique and does not insert a made subscription a second time. *)
  Definition careful_call (st : vstate) (k : call) : bool :=
    match k with
    | CInsert id cs e =>
        match insert_expr (v_tree st) id cs e with
        | Ok (true, _) => free_id (v_tree st) id
        | _ => true
        end
    | CInsertSub k =>
        match nth_error (v_made st) k with
        | Some (s, false) => free_id (v_tree st) (s_id s)
        | _ => false
        end
    | _ => true
    end.
  (** So does every call of the program. *)
  Fixpoint careful (st : vstate) (l : list call) : bool :=
    match l with
    | [] => true
    | k :: t => careful_call st k && match v_call st k with Ok (_, st') => careful st' t | _ => true end
    end.
  (** A program that never empties the tree. *)
  Definition no_empty (k : call) : Prop := match k with CEmpty => False | _ => True end.
End WithGeo.
