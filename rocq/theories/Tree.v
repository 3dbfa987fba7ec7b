(** The index tree: nodes, candidate collection, insertion with partitioning and clustering
    (tree.c 46-1040, 1251-1290, 1365-1604, 1697-1793). *)
From Coq Require Import ZArith NArith String Bool List.
From Verif Require Import Base Float Value Ast Config Special Match Bound.
Import ListNotations.
Local Open Scope Z_scope.
Local Open Scope res_scope.

(** tree.h 22-27 [struct betree_sub].  The bit sets have attr_domain_count/64+1 words (tree.c 1594);
    all variables are declared before the first subscription is made, so later reads of them at a
    declared variable stay inside these arrays. *)
Record sub := mkSub { s_id : Z; s_expr : expr; s_vars : bits; s_pass : bits; s_fail : bits }.

(** tree.h 31-84.  Parent pointers are dropped: functions that walk up to find the variables already
    used above a node get the list of these variables ([used]) instead.
    [CNode max subs pnodes] is a cnode with its lnode and its pdir (a missing pdir is [PNil]; a pdir
    is never empty in C); [PCons v score cdir rest] is a pnode followed by the later ones; a cdir has
    either no child ([CLeaf]) or two ([CSplit]); its variable is that of its pnode. *)
Inductive cnode := CNode (lmax : Z) (subs : list sub) (ps : pdir)
with pdir := PNil | PCons (v : N) (score : flt) (cd : cdir) (rest : pdir)
with cdir := CLeaf (b : bound) (cn : cnode) | CSplit (b : bound) (cn : cnode) (l r : cdir).

(** tree.h 31-84: cnode->lnode->subs. *)
Definition cn_subs (cn : cnode) : list sub := match cn with CNode _ s _ => s end.
(** tree.h 31-84: cdir->bound. *)
Definition cd_bound (cd : cdir) : bound := match cd with CLeaf b _ | CSplit b _ _ _ => b end.
(** tree.h 31-84: cdir->cnode. *)
Definition cd_cnode (cd : cdir) : cnode := match cd with CLeaf _ c | CSplit _ c _ _ => c end.

(** tree.c 867-894 [make_lnode], [make_cnode]. *)
Definition make_cnode (c : config) (subs : list sub) : cnode := CNode (c_cap c) subs PNil.

(** *** Subscriptions *)

(** tree.c 1367-1370 [fill_pred_attr_var]. *)
Definition fill_var (A : result bits) (v : avar) : result bits :=
  do A <- A; if bit_in A (av_var v) then Ok (set_bit A (av_var v)) else UB.

(** tree.c 1372-1442 [fill_pred]. *)
Definition fill_leaf (A : bits) (p : leaf) : result bits :=
  match p with
  | PLit _ => Ok A
  | PVar v | PCmp _ v _ | PEq _ v _ | PList _ v _ | PNull _ v | PStr _ v _ => fill_var (Ok A) v
  | PSet _ (SLVar v) _ => fill_var (Ok A) v
  | PSet _ _ (SRVar v) => fill_var (Ok A) v
  | PSet _ _ _ => Ok A
  | PFreq v _ _ _ _ _ _ => fill_var (Ok A) v
  | PSeg _ _ v _ _ _ => fill_var (Ok A) v
  | PGeo _ _ _ _ la lo => fill_var (fill_var (Ok A) la) lo
  end.
(** tree.c 1372-1442 [fill_pred]. *)
Fixpoint fill_pred (A : bits) (e : expr) : result bits :=
  match e with
  | ELeaf _ p => fill_leaf A p
  | EAnd _ a b | EOr _ a b => do A' <- fill_pred A a; fill_pred A' b
  | ENot _ a => fill_pred A a
  end.

(** tree.c 46 [enum short_circuit_e]. *)
Inductive sc := ScPass | ScFail | ScNone.

(** tree.c 1443-1454 [short_circuit_for_attr_var]. *)
Definition sc_var (id : N) (inverted : bool) (v : avar) : sc :=
  if (id =? av_var v)%N then (if inverted then ScPass else ScFail) else ScNone.

(** The combination used for `and` (tree.c 1489-1501) and for two-variable predicates
    (tree.c 1528-1560). *)
Definition sc_and (l r : sc) : sc :=
  match l, r with
  | ScFail, _ | _, ScFail => ScFail
  | ScPass, ScPass => ScPass
  | _, _ => ScNone
  end.
(** The combination used for `or` (tree.c 1476-1488). *)
Definition sc_or (l r : sc) : sc :=
  match l, r with
  | ScPass, _ | _, ScPass => ScPass
  | ScFail, ScFail => ScFail
  | _, _ => ScNone
  end.

(** tree.c 1456-1568 [short_circuit_for_node].  A set expression without a variable on the left is
    read as having one on the right; other forms are refused before. *)
Definition sc_leaf (id : N) (inv : bool) (p : leaf) : sc :=
  match p with
  | PLit _ => ScNone
  | PNull NIsNull v => sc_var id (negb inv) v
  | PNull _ v => sc_var id inv v
  | PVar v | PCmp _ v _ | PEq _ v _ | PList _ v _ | PStr _ v _ => sc_var id inv v
  | PSet _ (SLVar v) _ => sc_var id inv v
  | PSet _ _ (SRVar v) => sc_var id inv v
  | PSet _ _ _ => ScNone
  | PFreq v _ _ _ _ now _ => sc_and (sc_var id inv v) (sc_var id inv now)
  | PSeg _ _ v _ _ now => sc_and (sc_var id inv v) (sc_var id inv now)
  | PGeo _ _ _ _ la lo => sc_and (sc_var id inv la) (sc_var id inv lo)
  end.
(** tree.c 1456-1568 [short_circuit_for_node]. *)
Fixpoint sc_node (id : N) (inv : bool) (e : expr) : sc :=
  match e with
  | ELeaf _ p => sc_leaf id inv p
  | EOr _ a b => sc_or (sc_node id inv a) (sc_node id inv b)
  | EAnd _ a b => sc_and (sc_node id inv a) (sc_node id inv b)
  | ENot _ a => sc_node id (negb inv) a
  end.

(** tree.c 1570-1585 [fill_short_circuit]. *)
Fixpoint fill_sc (ds : list domain) (i : N) (e : expr) (pass fail : bits) : bits * bits :=
  match ds with
  | [] => (pass, fail)
  | d :: t =>
      if d_undef d then
        match sc_node i false e with
        | ScPass => fill_sc t (i + 1) e (set_bit pass i) fail
        | ScFail => fill_sc t (i + 1) e pass (set_bit fail i)
        | ScNone => fill_sc t (i + 1) e pass fail
        end
      else fill_sc t (i + 1) e pass fail
  end.

(** config->attr_domain_count (config.h 40-57). *)
Definition ndomains (c : config) : N := N.of_nat (length (c_domains c)).

(** tree.c 1587-1603 [make_sub]. *)
Definition make_sub (c : config) (id : Z) (e : expr) : result sub :=
  let z := make_bits (ndomains c) in
  do vars <- fill_pred z e;
  let '(pass, fail) := fill_sc (c_domains c) 0 e z z in
  Ok (mkSub id e vars pass fail).

(** tree.c 483-486 [sub_has_attribute]. *)
Definition has_attr (v : N) (s : sub) : bool := test_bit (s_vars s) v.

(** tree.c 654-671 [count_attr_in_lnode], 796-807 [count_subs_with_variable]. *)
Definition count_attr (v : N) (subs : list sub) : Z := Z.of_nat (length (filter (has_attr v) subs)).

(** tree.c 328-342 [count_attr_in_cdir]: nested pdirs are not visited. *)
Fixpoint count_cdir (v : N) (cd : cdir) : Z :=
  match cd with
  | CLeaf _ cn => count_attr v (cn_subs cn)
  | CSplit _ cn l r => count_attr v (cn_subs cn) + count_cdir v l + count_cdir v r
  end.

(** *** Candidate collection *)

(** tree.c 139-188: `<=` on bool. *)
Definition bool_le (a b : bool) : bool := implb a b.

(** First and last element of a sorted list, if any. *)
Definition in_range_list (l : list Z) (lo hi : Z) : bool :=
  match ends l with
  | Some (mn, mx) => (mn <=? hi) && (lo <=? mx)
  | None => true
  end.

(** tree.c 139-188 [is_event_enclosed] for an existing cdir of variable [v] with range [b].  The tag
    of the event value equals the tag of the range (both come from the declaration); other
    combinations would read other union members ([UB]). *)
Definition is_event_enclosed (p : env) (v : N) (b : bound) (ol orr : bool) : result bool :=
  do o <- read_var p v;
  match o with
  | None => Ok true
  | Some x =>
      match x, b with
      | VBool y, BBool lo hi => Ok (bool_le lo y && bool_le y hi)
      | VInt y, BInt _ lo hi => Ok ((ol || (lo <=? y)) && (orr || (hi >=? y)))
      | VFloat y, BFloat lo hi => Ok ((ol || fleb lo y) && (orr || fgeb hi y))
      | VStr y, BStr _ lo hi => Ok ((lo <=? sv_str y) && (orr || (hi >=? sv_str y)))
      | VIEnum y, BStr _ lo hi => Ok ((lo <=? ie_id y) && (orr || (hi >=? ie_id y)))
      | VIntList l, BInt _ lo hi =>
          Ok (in_range_list l (if ol then INT64_MIN else lo) (if orr then INT64_MAX else hi))
      | VStrList l, BStr _ lo hi =>
          Ok (in_range_list (map sv_str l) lo (if orr then SIZE_MAX else hi))
      | VSegs _, _ | VFreqs _, _ => Ok true
      | _, _ => UB
      end
  end.

(** tree.c 120-137 [match_be_tree] and 229-242 [search_cdir]; the result is the list of candidate
    subscriptions in the order in which the C code appends them (tree.c 88-94 [check_sub]). *)
Fixpoint match_cnode (ds : list domain) (p : env) (cn : cnode) : result (list sub) :=
  match cn with
  | CNode _ subs ps => do r <- match_pdir ds p ps; Ok (subs ++ r)
  end
with match_pdir (ds : list domain) (p : env) (ps : pdir) : result (list sub) :=
  match ps with
  | PNil => Ok []
  | PCons v _ cd rest =>
      match nthN ds v with
      | None => UB
      | Some d =>
          do go <- (if d_undef d then Ok true else
                    do o <- read_var p v; Ok (match o with Some _ => true | None => false end));
          do a <- (if go : bool then match_cdir ds p v true true cd else Ok []);
          do b <- match_pdir ds p rest;
          Ok (a ++ b)
      end
  end
with match_cdir (ds : list domain) (p : env) (v : N) (ol orr : bool) (cd : cdir) : result (list sub) :=
  match cd with
  | CLeaf _ cn => match_cnode ds p cn
  | CSplit _ cn l r =>
      do a <- match_cnode ds p cn;
      do el <- is_event_enclosed p v (cd_bound l) ol false;
      do b <- (if el : bool then match_cdir ds p v ol false l else Ok []);
      do er <- is_event_enclosed p v (cd_bound r) false orr;
      do c <- (if er : bool then match_cdir ds p v false orr r else Ok []);
      Ok (a ++ b ++ c)
  end.

(** *** Insertion *)

(** tree.c 190-227 [sub_is_enclosed] for an existing cdir of variable [v] with range [b]. *)
Definition sub_is_enclosed (c : config) (s : sub) (v : N) (b : bound) : result bool :=
  if has_attr v s then
    do d <- get_domain c v;
    do r <- get_variable_bound v (d_bound d) (s_expr s);
    match r, b with
    | BInt _ lo hi, BInt _ clo chi => Ok ((clo <=? lo) && (chi >=? hi))
    | BFloat lo hi, BFloat clo chi => Ok (fleb clo lo && fgeb chi hi)
    | BBool lo hi, BBool clo chi => Ok (bool_le clo lo && bool_le hi chi)
    | BStr _ lo hi, BStr _ clo chi => Ok ((clo <=? lo) && (chi >=? hi))
    | BSegs, _ | BFreqs, _ => Abort
    | _, _ => UB
    end
  else Ok false.

(** llabs(b - a) on int64_t. *)
Definition llabs_diff (hi lo : Z) : result Z := do d <- ck64 (hi - lo); ck64 (Z.abs d).
(** (size_t)fabs(hi - lo). *)
Definition fabs_diff (hi lo : flt) : result Z :=
  match f_trunc (fabs (fsub hi lo)) with
  | Some z => if z <=? UINT64_MAX then Ok z else UB
  | None => UB
  end.

(** tree.c 344-374 [domain_bound_diff]. *)
Definition domain_bound_diff (b : bound) : result Z :=
  match b with
  | BBool _ _ => Ok 1
  | BInt _ lo hi => if (lo =? INT64_MIN) && (hi =? INT64_MAX) then Ok SIZE_MAX else llabs_diff hi lo
  | BFloat lo hi => if feq lo (fopp DBL_MAX) && feq hi DBL_MAX then Ok SIZE_MAX else fabs_diff hi lo
  | BStr _ lo hi => Ok (to_uint 64 (hi - lo))
  | BSegs | BFreqs => Abort
  end.

(** tree.c 376-394 [get_attr_domain_score], [get_score]. *)
Definition get_score (d : domain) (count : Z) : result flt :=
  do diff <- domain_bound_diff (d_bound d);
  let diff := if diff =? 0 then 1 else diff in
  Ok (fmul (f_of_Z count) (fdiv (f_of_Z (if d_undef d then 1 else 10)) (f_of_Z diff))).

(** tree.c 717-749 [splitable_attr_domain]. *)
Definition splitable (c : config) (b : bound) : result bool :=
  match b with
  | BInt _ lo hi =>
      if (lo =? INT64_MIN) || (hi =? INT64_MAX) then Ok false
      else do d <- llabs_diff hi lo; Ok (d <? c_maxsplit c)
  | BFloat lo hi =>
      if feq lo (fopp DBL_MAX) || feq hi DBL_MAX then Ok false
      else do d <- fabs_diff hi lo; Ok (d <? c_maxsplit c)
  | BBool _ _ => Ok true
  | BStr _ lo hi =>
      if hi =? SIZE_MAX then Ok false else Ok (to_uint 64 (hi - lo) <? c_maxsplit c)
  | BSegs | BFreqs => Ok false
  end.

(** tree.c 675-715: variable ids on the path to the root. *)
Definition memN (v : N) (l : list N) : bool := existsb (N.eqb v) l.

(** tree.c 751-783 [get_next_highest_score_unused_attr].  The accumulator is (found, highest_score,
    highest_var); highest_var is uninitialised at first. *)
Definition hs_acc := (bool * flt * option N)%type.
(** tree.c 751-783, one variable. *)
Definition hs_step (c : config) (used : list N) (all : list sub) (s : sub) (d : domain) (j : N)
    (acc : hs_acc) : result hs_acc :=
  if negb (has_attr j s) then Ok acc else
  do sp <- splitable c (d_bound d);
  if (sp : bool) && negb (memN j used) then
    do score <- get_score d (count_attr j all);
    let '(_, best, var) := acc in
    if fgtb score best then Ok (true, score, Some j) else Ok (true, best, var)
  else Ok acc.
(** tree.c 751-783, the inner loop. *)
Fixpoint hs_domains (c : config) (used : list N) (all : list sub) (s : sub) (ds : list domain) (j : N)
    (acc : hs_acc) : result hs_acc :=
  match ds with
  | [] => Ok acc
  | d :: t => do acc' <- hs_step c used all s d j acc; hs_domains c used all s t (j + 1) acc'
  end.
(** tree.c 751-783, the outer loop. *)
Fixpoint hs_subs (c : config) (used : list N) (all rest : list sub) (acc : hs_acc) : result hs_acc :=
  match rest with
  | [] => Ok acc
  | s :: t => do acc' <- hs_domains c used all s (c_domains c) 0 acc; hs_subs c used all t acc'
  end.
(** tree.c 751-783 [get_next_highest_score_unused_attr]. *)
Definition next_highest (c : config) (used : list N) (subs : list sub) : result (option N) :=
  do '(found, _, var) <- hs_subs c used subs subs (false, f_of_Z 0, None);
  if found : bool then match var with Some v => Ok (Some v) | None => UB end else Ok None.

(** tree.c 785-794 [update_cluster_capacity].  ceil((double)count / (double)cap) * cap is computed on
    integers (the two agree below 2^44); with cap = 0 the C code converts a NaN or infinity. *)
Definition cluster_capacity (c : config) (n : nat) : result Z :=
  if c_cap c =? 0 then UB
  else Ok (Z.max (c_cap c) ((Z.of_nat n + c_cap c - 1) / c_cap c * c_cap c)).
(** tree.c 785-794 [update_cluster_capacity]. *)
Definition update_capacity (c : config) (cn : cnode) : result cnode :=
  match cn with
  | CNode _ subs ps => do m <- cluster_capacity c (length subs); Ok (CNode m subs ps)
  end.

(** tree.c 479-481 [is_overflowed]. *)
Definition overflowed (cn : cnode) : bool :=
  match cn with CNode m subs _ => Z.of_nat (length subs) >? m end.

(** tree.c 497-522 [remove_sub]: the first entry with that id. *)
Fixpoint remove_first (id : Z) (l : list sub) : option (list sub) :=
  match l with
  | [] => None
  | x :: t =>
      if s_id x =? id then Some t
      else match remove_first id t with Some t' => Some (x :: t') | None => None end
  end.

(** The loops of tree.c 826-833 and 1020-1031: for the sub at index i, [choose] says where it goes
    (None: stays).  [move] (tree.c 524-549) removes the first entry with its id, which sits before
    index i if ids are not unique; then index i holds the next sub.  [before] are the entries
    below index i. *)
Fixpoint distribute (choose : sub -> result (option bool)) (before rest tl tr : list sub)
  : result (list sub * list sub * list sub) :=
  match rest with
  | [] => Ok (before, tl, tr)
  | x :: rest' =>
      do w <- choose x;
      match w with
      | None => distribute choose (before ++ [x]) rest' tl tr
      | Some toleft =>
          let before' := match remove_first (s_id x) before with
                         | Some b => b ++ [x]
                         | None => before
                         end in
          if toleft : bool then distribute choose before' rest' (tl ++ [x]) tr
          else distribute choose before' rest' tl (tr ++ [x])
      end
  end.

(** tree.c 838-864 [is_atomic]. *)
Definition is_atomic (b : bound) : result bool :=
  match b with
  | BInt _ lo hi => Ok (lo =? hi)
  | BFloat lo hi => Ok (feq lo hi)
  | BBool lo hi => Ok (Bool.eqb lo hi)
  | BStr _ lo hi => Ok (lo =? hi)
  | BSegs | BFreqs => Abort
  end.

(** tree.c 898-1004 [split_value_bound]. *)
Definition split_value_bound (b : bound) : result (bound * bound) :=
  match b with
  | BInt t lo hi =>
      do w <- llabs_diff hi lo;
      if w >? 2 then
        let m := lo + Z.quot (hi - lo) 2 in Ok (BInt t lo m, BInt t m hi)
      else if w =? 2 then
        do m <- ck64 (lo + 1); Ok (BInt t lo m, BInt t m hi)
      else if w =? 1 then Ok (BInt t lo lo, BInt t hi hi)
      else Abort
  | BFloat lo hi =>
      let w := fabs (fsub hi lo) in
      if fgtb w (f_of_Z 2) then
        let m := fadd lo (fceil (fdiv (fsub hi lo) (f_of_Z 2))) in Ok (BFloat lo m, BFloat m hi)
      else if feq w (f_of_Z 2) then
        let m := fadd lo (f_of_Z 1) in Ok (BFloat lo m, BFloat m hi)
      else if feq w (f_of_Z 1) then Ok (BFloat lo lo, BFloat hi hi)
      else Abort
  | BBool lo hi => if Bool.eqb lo hi then Abort else Ok (BBool lo lo, BBool hi hi)
  | BStr t lo hi =>
      let w := to_uint 64 (hi - lo) in
      if w >? 2 then
        let m := to_uint 64 (lo + w / 2) in Ok (BStr t lo m, BStr t m hi)
      else if w =? 2 then
        let m := to_uint 64 (lo + 1) in Ok (BStr t lo m, BStr t m hi)
      else if w =? 1 then Ok (BStr t lo lo, BStr t hi hi)
      else Abort
  | BSegs | BFreqs => Abort
  end.

(** Append a pnode at the end of a pdir (tree.c 588-652 [create_pdir]). *)
Fixpoint pdir_app (ps : pdir) (v : N) (score : flt) (cd : cdir) : pdir :=
  match ps with
  | PNil => PCons v score cd PNil
  | PCons w s d rest => PCons w s d (pdir_app rest v score cd)
  end.

(** tree.c 809-836 [space_partitioning] (one loop iteration, then the rest of the loop) and
    1006-1040 [space_clustering].  [used] are the variables of the cdirs above the cnode (for
    [space_clustering]: including the variable [v] of the cdir itself). *)
Fixpoint space_partitioning (fuel : nat) (c : config) (used : list N) (cn : cnode) : result cnode :=
  match fuel with
  | O => Fuel
  | S fuel' =>
      if negb (overflowed cn) then update_capacity c cn else
      match cn with
      | CNode m subs ps =>
          do o <- next_highest c used subs;
          match o with
          | None => update_capacity c cn
          | Some v =>
              if count_attr v subs <? c_minpart c then update_capacity c cn else
              do d <- get_domain c v;
              do '(stay, moved, _) <-
                distribute (fun s => Ok (if has_attr v s then Some true else None)) [] subs [] [];
              do cd <- space_clustering fuel' c (v :: used) v (CLeaf (d_bound d) (make_cnode c moved));
              space_partitioning fuel' c used (CNode m stay (pdir_app ps v (f_of_Z 0) cd))
          end
      end
  end
with space_clustering (fuel : nat) (c : config) (used : list N) (v : N) (cd : cdir) : result cdir :=
  match fuel with
  | O => Fuel
  | S fuel' =>
      if negb (overflowed (cd_cnode cd)) then Ok cd else
      match cd with
      | CSplit b cn l r =>
          do cn1 <- space_partitioning fuel' c used cn;
          do cn2 <- update_capacity c cn1;
          Ok (CSplit b cn2 l r)
      | CLeaf b cn =>
          do a <- is_atomic b;
          if a : bool then
            do cn1 <- space_partitioning fuel' c used cn;
            do cn2 <- update_capacity c cn1;
            Ok (CLeaf b cn2)
          else
            do '(lb, rb) <- split_value_bound b;
            match cn with
            | CNode m subs ps =>
                do '(stay, ls, rs) <-
                  distribute (fun s =>
                    do el <- sub_is_enclosed c s v lb;
                    if el : bool then Ok (Some true) else
                    do er <- sub_is_enclosed c s v rb;
                    Ok (if er : bool then Some false else None)) [] subs [] [];
                do cn1 <- space_partitioning fuel' c used (CNode m stay ps);
                do l <- space_clustering fuel' c used v (CLeaf lb (make_cnode c ls));
                do r <- space_clustering fuel' c used v (CLeaf rb (make_cnode c rs));
                do cn2 <- update_capacity c cn1;
                Ok (CSplit b cn2 l r)
            end
      end
  end.

(** tree.c 96-108 [search_pdir]: the score of the first pnode of a variable. *)
Fixpoint pdir_score (v : N) (ps : pdir) : option flt :=
  match ps with
  | PNil => None
  | PCons w s _ rest => if (v =? w)%N then Some s else pdir_score v rest
  end.

(** The loop of tree.c 421-441 of [insert_be_tree] over the declared variables j, j+1, ...; the
    accumulator is (foundPartition, max_score, variable of max_pnode).  Scores are floats. *)
Fixpoint choose_pnode (n : nat) (j : N) (s : sub) (used : list N) (ps : pdir)
    (acc : bool * flt * option N) : bool * flt * option N :=
  match n with
  | O => acc
  | S n' =>
      let acc' :=
        if has_attr j s && negb (memN j used) then
          match pdir_score j ps with
          | None => acc
          | Some sc =>
              let '(_, best, var) := acc in
              if fltb best sc then (true, sc, Some j) else (true, best, var)
          end
        else acc in
      choose_pnode n' (j + 1) s used ps acc'
  end.
(** tree.c 421-441. *)
Definition find_partition (c : config) (s : sub) (used : list N) (ps : pdir) : result (option N) :=
  let '(found, _, var) :=
    choose_pnode (length (c_domains c)) 0 s used ps (false, f_to_f32 (fopp DBL_MAX), None) in
  if found : bool then match var with Some v => Ok (Some v) | None => UB end else Ok None.

(** tree.c 396-411 [get_pnode_score], [update_partition_score]: a float. *)
Definition partition_score (c : config) (v : N) (cd : cdir) : result flt :=
  do d <- get_domain c v;
  do s <- get_score d (count_cdir v cd);
  Ok (f_to_f32 s).

(** tree.c 294-313 [insert_sub]. *)
Definition add_to_cnode (s : sub) (cn : cnode) : cnode :=
  match cn with CNode m subs ps => CNode m (subs ++ [s]) ps end.
(** Assignment through cdir->cnode (tree.h 31-84). *)
Definition set_cnode (cd : cdir) (cn : cnode) : cdir :=
  match cd with CLeaf b _ => CLeaf b cn | CSplit b _ l r => CSplit b cn l r end.

(** tree.c 413-456 [insert_be_tree] below a pnode, with 463-477 [insert_cdir]: [ins_cdir] descends to
    the cdir that takes the sub, then inserts at its cnode; [ins_pdir] finds the chosen pnode,
    inserts there and refreshes its score. *)
Fixpoint ins_cdir (fuel : nat) (c : config) (s : sub) (used : list N) (v : N) (cd : cdir)
  : result cdir :=
  match cd with
  | CLeaf b (CNode m subs ps) =>
      do o <- find_partition c s used ps;
      match o with
      | None => space_clustering fuel c used v (CLeaf b (CNode m (subs ++ [s]) ps))
      | Some w => do ps' <- ins_pdir fuel c s used w ps; Ok (CLeaf b (CNode m subs ps'))
      end
  | CSplit b (CNode m subs ps) l r =>
      do el <- sub_is_enclosed c s v (cd_bound l);
      if el : bool then do l' <- ins_cdir fuel c s used v l; Ok (CSplit b (CNode m subs ps) l' r) else
      do er <- sub_is_enclosed c s v (cd_bound r);
      if er : bool then do r' <- ins_cdir fuel c s used v r; Ok (CSplit b (CNode m subs ps) l r') else
      do o <- find_partition c s used ps;
      match o with
      | None => space_clustering fuel c used v (CSplit b (CNode m (subs ++ [s]) ps) l r)
      | Some w => do ps' <- ins_pdir fuel c s used w ps; Ok (CSplit b (CNode m subs ps') l r)
      end
  end
with ins_pdir (fuel : nat) (c : config) (s : sub) (used : list N) (w : N) (ps : pdir) : result pdir :=
  match ps with
  | PNil => UB
  | PCons v score cd rest =>
      if (w =? v)%N then
        do cd' <- ins_cdir fuel c s (v :: used) v cd;
        do score' <- partition_score c v cd';
        Ok (PCons v score' cd' rest)
      else do rest' <- ins_pdir fuel c s used w rest; Ok (PCons v score cd rest')
  end.

(** tree.c 413-456 [insert_be_tree] at the root cnode. *)
Definition insert_root (fuel : nat) (c : config) (s : sub) (cn : cnode) : result cnode :=
  match cn with
  | CNode m subs ps =>
      do o <- find_partition c s [] ps;
      match o with
      | None => space_partitioning fuel c [] (CNode m (subs ++ [s]) ps)
      | Some w => do ps' <- ins_pdir fuel c s [] w ps; Ok (CNode m subs ps')
      end
  end.

(** tree.c 1251-1290 [find_sub_id]. *)
Fixpoint find_sub (id : Z) (l : list sub) : option sub :=
  match l with
  | [] => None
  | s :: t => if s_id s =? id then Some s else find_sub id t
  end.
(** tree.c 1271-1290 [find_sub_id]. *)
Fixpoint find_cnode (id : Z) (cn : cnode) : option sub :=
  match cn with
  | CNode _ subs ps => match find_sub id subs with Some s => Some s | None => find_pdir id ps end
  end
with find_pdir (id : Z) (ps : pdir) : option sub :=
  match ps with
  | PNil => None
  | PCons _ _ cd rest => match find_cdir id cd with Some s => Some s | None => find_pdir id rest end
  end
with find_cdir (id : Z) (cd : cdir) : option sub :=
  match cd with
  | CLeaf _ cn => find_cnode id cn
  | CSplit _ cn l r =>
      match find_cnode id cn with
      | Some s => Some s
      | None => match find_cdir id l with Some s => Some s | None => find_cdir id r end
      end
  end.

(** *** Evaluation of the candidates *)

(** tree.c 48-63 [try_short_circuit]: word by word. *)
Fixpoint try_short_circuit (pass fail undefined : bits) : result sc :=
  match undefined with
  | [] => Ok ScNone
  | u :: undefined' =>
      match pass, fail with
      | p :: pass', f :: fail' =>
          if negb (N.land p u =? 0)%N then Ok ScPass
          else if negb (N.land f u =? 0)%N then Ok ScFail
          else try_short_circuit pass' fail' undefined'
      | _, _ => UB
      end
  end.

(** tree.c 1715-1727 [make_undefined]; [p] has one entry per declared variable. *)
Fixpoint undefined_from (p : env) (i : N) (A : bits) : bits :=
  match p with
  | [] => A
  | o :: t => undefined_from t (i + 1) (match o with None => set_bit A i | Some _ => A end)
  end.
(** tree.c 1715-1725 [make_undefined]. *)
Definition make_undefined (p : env) : bits :=
  undefined_from p 0 (make_bits (N.of_nat (length p))).

(** tree.c 1251-1290 [find_sub_id_cdir], [find_sub_id]. *)
Fixpoint find_sub_id (id : Z) (cn : cnode) : option sub :=
  match cn with
  | CNode _ subs ps =>
      match find (fun s => s_id s =? id) subs with
      | Some s => Some s
      | None => find_sub_id_pdir id ps
      end
  end
with find_sub_id_pdir (id : Z) (ps : pdir) : option sub :=
  match ps with
  | PNil => None
  | PCons _ _ cd rest =>
      match find_sub_id_cdir id cd with Some s => Some s | None => find_sub_id_pdir id rest end
  end
with find_sub_id_cdir (id : Z) (cd : cdir) : option sub :=
  match cd with
  | CLeaf _ cn => find_sub_id id cn
  | CSplit _ cn l r =>
      match find_sub_id id cn with
      | Some s => Some s
      | None =>
          match find_sub_id_cdir id l with Some s => Some s | None => find_sub_id_cdir id r end
      end
  end.

(** betree.h [struct report]. *)
Record report := mkR {
  r_evaluated : Z; r_matched : Z; r_shorted : Z; r_memoized : Z; r_subs : list Z }.
(** tree.c 1728-1747 [add_sub]. *)
Definition add_sub (id : Z) (r : report) : report :=
  mkR (r_evaluated r) (r_matched r + 1) (r_shorted r) (r_memoized r) (r_subs r ++ [id]).

Section WithGeo.
  Context {G : Geo}.

  (** tree.c 65-86 [match_sub]; the last component tells whether the shortcut decided. *)
  Definition match_sub (p : env) (m : mids) (undefined : bits) (s : sub) (st : mstate)
    : result (bool * mstate * bool) :=
    do k <- try_short_circuit (s_pass s) (s_fail s) undefined;
    match k with
    | ScPass => Ok (true, st, true)
    | ScFail => Ok (false, st, true)
    | ScNone => do '(b, st') <- match_node p m (s_expr s) st; Ok (b, st', false)
    end.

  (** The loop of tree.c 1759-1765 [betree_search_with_preds]. *)
  Fixpoint search_loop (p : env) (m : mids) (undefined : bits) (subs : list sub) (st : mstate)
      (r : report) : result report :=
    match subs with
    | [] => Ok (mkR (r_evaluated r) (r_matched r) (r_shorted r) (ms_memoized st) (r_subs r))
    | s :: t =>
        do '(b, st', shorted) <- match_sub p m undefined s st;
        let r' := mkR (r_evaluated r + 1) (r_matched r)
                      (if shorted : bool then r_shorted r + 1 else r_shorted r) (r_memoized r) (r_subs r) in
        search_loop p m undefined t st' (if b : bool then add_sub (s_id s) r' else r')
    end.

  (** tree.c 1783-1789 [betree_exists_with_preds]. *)
  Fixpoint exists_loop (p : env) (m : mids) (undefined : bits) (subs : list sub) (st : mstate)
    : result bool :=
    match subs with
    | [] => Ok false
    | s :: t =>
        do '(b, st', _) <- match_sub p m undefined s st;
        if b : bool then Ok true else exists_loop p m undefined t st'
    end.

  (** tree.c 1698-1707 [make_memoize]. *)
  Definition make_memoize (n : N) (memoized : Z) : mstate := mkM (make_bits n) (make_bits n) memoized.

  (** tree.c 1749-1771 [betree_search_with_preds]. *)
  Definition search_with_preds (c : config) (m : mids) (mcount : N) (p : env) (cn : cnode) (r : report)
    : result report :=
    do subs <- match_cnode (c_domains c) p cn;
    search_loop p m (make_undefined p) subs (make_memoize mcount (r_memoized r)) r.

  (** tree.c 1773-1793 [betree_exists_with_preds]. *)
  Definition exists_with_preds (c : config) (m : mids) (mcount : N) (p : env) (cn : cnode) : result bool :=
    do subs <- match_cnode (c_domains c) p cn;
    exists_loop p m (make_undefined p) subs (make_memoize mcount 0).
End WithGeo.
