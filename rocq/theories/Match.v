(** Evaluation of expressions on events (ast.c 382-1076, var.c). *)
From Coq Require Import ZArith NArith String Bool List.
From Verif Require Import Base Float Value Ast Special.
Import ListNotations.
Local Open Scope Z_scope.
Local Open Scope res_scope.

(** The environment built from an event: one optional value per declared variable
    (betree.c 548-557, [const struct betree_variable** preds]). *)
Definition env := list (option value).

(** preds[var]: reading outside the array is undefined behaviour (var.c). *)
Definition read_var (p : env) (v : N) : result (option value) :=
  match nthN p v with Some o => Ok o | None => UB end.

(** ast.c 382-399 [d64binary_search] and 401-418 [sbinary_search].  Indices are C [int]s.
    [fuel] bounds the number of loop iterations. *)
Fixpoint bsearch (fuel : nat) (arr : list Z) (imin imax : Z) (x : Z) : result bool :=
  match fuel with
  | O => Fuel
  | S fuel' =>
      if imax >=? imin then
        let imid := imin + (imax - imin) / 2 in
        if imid <? 0 then UB else
        match nth_error arr (Z.to_nat imid) with
        | None => UB
        | Some y =>
            if y =? x then Ok true
            else if y <? x then bsearch fuel' arr (imid + 1) imax x
            else bsearch fuel' arr imin (imid - 1) x
        end
      else Ok false
  end.

(** int imin = 0; int imax = (int)count - 1. *)
Definition binary_search (arr : list Z) (x : Z) : result bool :=
  bsearch (S (length arr)) arr 0 (to_sint 32 (Z.of_nat (length arr)) - 1) x.

(** ast.c 420-423 [integer_in_integer_list]. *)
Definition integer_in_integer_list (z : Z) (l : list Z) : result bool := binary_search l z.
(** ast.c 425-428 [string_in_string_list]. *)
Definition string_in_string_list (s : sval) (l : list sval) : result bool :=
  binary_search (map sv_str l) (sv_str s).

(** The while loop of ast.c 609-623 / 644-658: do two sorted arrays meet? *)
Fixpoint merge_meet (xs : list Z) : list Z -> bool :=
  fix inner (ys : list Z) : bool :=
    match xs, ys with
    | x :: xs', y :: ys' =>
        if x =? y then true
        else if y <? x then inner ys'
        else merge_meet xs' ys
    | _, _ => false
    end.

(** ast.c 591-624 [match_not_all_of_int], 626-659 [match_not_all_of_string]: the shorter array
    plays the role of xs. *)
Definition match_not_all_of (variable constant : list Z) : bool :=
  if (length variable <? length constant)%nat
  then merge_meet variable constant
  else merge_meet constant variable.

(** The while loop of ast.c 668-682 / 698-712: is every x among the ys (both sorted)? *)
Fixpoint merge_all (ys : list Z) (xs : list Z) : bool :=
  match ys, xs with
  | y :: ys', x :: xs' =>
      if y <? x then merge_all ys' xs
      else if x =? y then merge_all ys' xs'
      else false
  | _, [] => true
  | [], _ :: _ => false
  end.

(** ast.c 661-689 [match_all_of_int], 691-719 [match_all_of_string]. *)
Definition match_all_of (variable constant : list Z) : bool :=
  if (length constant <=? length variable)%nat then merge_all variable constant else false.

(** Reading a union member other than the one stored is [UB] in the model. *)
Definition as_int (v : value) : result Z := match v with VInt z => Ok z | _ => UB end.
(** `value.float_value` (value.h 82). *)
Definition as_float (v : value) : result flt := match v with VFloat f => Ok f | _ => UB end.
(** `value.boolean_value` (value.h 83). *)
Definition as_bool (v : value) : result bool := match v with VBool b => Ok b | _ => UB end.
(** `value.string_value` (value.h 84). *)
Definition as_str (v : value) : result sval := match v with VStr s => Ok s | _ => UB end.
(** `value.integer_enum_value` (value.h 89). *)
Definition as_ie (v : value) : result ieval := match v with VIEnum e => Ok e | _ => UB end.
(** `value.integer_list_value` (value.h 85). *)
Definition as_ints (v : value) : result (list Z) := match v with VIntList l => Ok l | _ => UB end.
(** `value.string_list_value` (value.h 86). *)
Definition as_strs (v : value) : result (list sval) := match v with VStrList l => Ok l | _ => UB end.
(** `value.segments_value` (value.h 87). *)
Definition as_segs (v : value) : result (list segment) := match v with VSegs l => Ok l | _ => UB end.
(** `value.frequency_caps_value` (value.h 88). *)
Definition as_freqs (v : value) : result (list fcap) := match v with VFreqs l => Ok l | _ => UB end.

(** Evaluate [k] on the value of variable [v]; an undefined variable gives false. *)
Definition with_var (p : env) (v : N) (k : value -> result bool) : result bool :=
  do o <- read_var p v;
  match o with None => Ok false | Some x => k x end.

(** ast.c 823-886 [match_compare_expr]. *)
Definition match_compare (op : cmp_op) (c : cval) (v : value) : result bool :=
  match c with
  | CInt z =>
      do x <- as_int v;
      Ok (match op with CLt => x <? z | CLe => x <=? z | CGt => x >? z | CGe => x >=? z end)
  | CFloat f =>
      do x <- as_float v;
      Ok (match op with CLt => fltb x f | CLe => fleb x f | CGt => fgtb x f | CGe => fgeb x f end)
  end.

(** ast.c 888-941 [match_equality_expr]. *)
Definition match_equality (op : eq_op) (q : qval) (v : value) : result bool :=
  do r <- match q with
          | QInt z => do x <- as_int v; Ok (x =? z)
          | QFloat f => do x <- as_float v; Ok (feq x f)
          | QStr s => do x <- as_str v; Ok (sv_str x =? sv_str s)
          | QIEnum e => do x <- as_ie v; Ok (ie_id x =? ie_id e)
          end;
  Ok (match op with QEq => r | QNe => negb r end).

(** ast.c 767-821 [match_set_expr]. *)
Definition match_set (p : env) (op : set_op) (l : set_left) (r : set_right) : result bool :=
  let fin (b : bool) := match op with SNotIn => negb b | SIn => b end in
  match l, r with
  | SLInt z, SRVar v =>
      with_var p (av_var v) (fun x => do xs <- as_ints x; do b <- integer_in_integer_list z xs; Ok (fin b))
  | SLStr s, SRVar v =>
      with_var p (av_var v) (fun x => do xs <- as_strs x; do b <- string_in_string_list s xs; Ok (fin b))
  | SLVar v, SRInts xs =>
      with_var p (av_var v) (fun x => do z <- as_int x; do b <- integer_in_integer_list z xs; Ok (fin b))
  | SLVar v, SRStrs xs =>
      with_var p (av_var v) (fun x => do s <- as_str x; do b <- string_in_string_list s xs; Ok (fin b))
  | _, _ => Abort
  end.

(** ast.c 721-765 [match_list_expr]. *)
Definition match_list (op : list_op) (c : lval) (v : value) : result bool :=
  do '(xs, cs) <- match c with
          | LInts cs => do xs <- as_ints v; Ok (xs, cs)
          | LStrs cs => do xs <- as_strs v; Ok (map sv_str xs, map sv_str cs)
          end;
  Ok (match op with
      | LOneOf => match_not_all_of xs cs
      | LNoneOf => negb (match_not_all_of xs cs)
      | LAllOf => match_all_of xs cs
      end).

(** ast.c 988-1002 [match_is_null_expr]. *)
Definition match_is_null (op : null_op) (o : option value) : bool :=
  match op with
  | NIsNull => match o with None => true | Some _ => false end
  | NIsNotNull => match o with None => false | Some _ => true end
  | NIsEmpty => match o with None => false | Some v => is_empty_list v end
  end.

Section WithGeo.
  Context {G : Geo}.

  (** ast.c 501-589 [match_special_expr], 948-986 [match_bool_expr] (literal and variable
      cases) and the dispatch of ast.c 1024-1053. *)
  Definition match_leaf (p : env) (l : leaf) : result bool :=
    match l with
    | PLit b => Ok b
    | PVar v => with_var p (av_var v) as_bool
    | PCmp op v c => with_var p (av_var v) (match_compare op c)
    | PEq op v q => with_var p (av_var v) (match_equality op q)
    | PSet op l r => match_set p op l r
    | PList op v c => with_var p (av_var v) (match_list op c)
    | PNull op v => do o <- read_var p (av_var v); Ok (match_is_null op o)
    | PFreq v ty ns value len now id =>
        with_var p (av_var v) (fun x =>
          do caps <- as_freqs x;
          match caps with
          | [] => Ok true
          | _ => with_var p (av_var now) (fun n =>
                   do n <- as_int n;
                   Ok (within_frequency_caps caps ty id ns (to_uint 32 value) len n))
          end)
    | PSeg op _ v id seconds now =>
        with_var p (av_var v) (fun x =>
          do segs <- as_segs x;
          with_var p (av_var now) (fun n =>
            do n <- as_int n;
            Ok (match op with
                | SegWithin => segment_within (to_sint 64 id) (to_sint 32 seconds) segs n
                | SegBefore => segment_before (to_sint 64 id) (to_sint 32 seconds) segs n
                end)))
    | PGeo _ lat lon radius latv lonv =>
        do olat <- read_var p (av_var latv);
        do olon <- read_var p (av_var lonv);
        match olat, olon with
        | Some vlat, Some vlon =>
            do flat <- as_float vlat;
            do flon <- as_float vlon;
            Ok (geo_within lat lon flat flon radius)
        | _, _ => Ok false
        end
    | PStr op v pat =>
        with_var p (av_var v) (fun x =>
          do s <- as_str x;
          Ok (match op with
              | StContains => contains (sv_string s) pat
              | StStartsWith => starts_with (sv_string s) pat
              | StEndsWith => ends_with (sv_string s) pat
              end))
    end.

  (** Memo tables (memoize.h) and the [memoized] counter of the report. *)
  Record mstate := mkM { ms_pass : bits; ms_fail : bits; ms_memoized : Z }.

  (** memoize_id of a node, by global id (see PredMap.v); INVALID_PRED when absent. *)
  Definition mids := list N.
  (** `node->memoize_id` (ast.h 276-289). *)
  Definition mid_of (m : mids) (g : N) : N :=
    match nthN m g with Some i => i | None => INVALID_PRED end.

  (** ast.c 1012, 1018: report->memoized++ when a result is reused. *)
  Definition bump (s : mstate) : mstate := mkM (ms_pass s) (ms_fail s) (ms_memoized s + 1).

  (** Accesses to the memo tables; an index outside the array is undefined behaviour. *)
  Definition bit_in (A : bits) (i : N) : bool := (i / 64 <? N.of_nat (length A))%N.

  (** Tail of ast.c 1055-1063. *)
  Definition record_result (m : mids) (g : N) (r : bool) (s : mstate) : result mstate :=
    let i := mid_of m g in
    if (i =? INVALID_PRED)%N then Ok s
    else if r then
      if bit_in (ms_pass s) i then Ok (mkM (set_bit (ms_pass s) i) (ms_fail s) (ms_memoized s)) else UB
    else
      if bit_in (ms_fail s) i then Ok (mkM (ms_pass s) (set_bit (ms_fail s) i) (ms_memoized s)) else UB.

  (** Head of ast.c 1009-1022: a recorded result, if any. *)
  Definition lookup_result (m : mids) (g : N) (s : mstate) : result (option bool) :=
    let i := mid_of m g in
    if (i =? INVALID_PRED)%N then Ok None
    else if negb (bit_in (ms_pass s) i && bit_in (ms_fail s) i) then UB
    else if test_bit (ms_pass s) i then Ok (Some true)
    else if test_bit (ms_fail s) i then Ok (Some false)
    else Ok None.

  (** ast.c 1004-1063 [match_node_inner] with 948-986 [match_bool_expr].  The report is assumed
      non-NULL; with a NULL report the counter is simply not kept. *)
  Fixpoint match_node (p : env) (m : mids) (e : expr) (s : mstate) : result (bool * mstate) :=
    do o <- lookup_result m (gid e) s;
    match o with
    | Some b => Ok (b, bump s)
    | None =>
        do '(r, s') <-
          match e with
          | ELeaf _ l => do b <- match_leaf p l; Ok (b, s)
          | EAnd _ a b =>
              do '(ra, s1) <- match_node p m a s;
              if ra then match_node p m b s1 else Ok (false, s1)
          | EOr _ a b =>
              do '(ra, s1) <- match_node p m a s;
              if ra then Ok (true, s1) else match_node p m b s1
          | ENot _ a =>
              do '(ra, s1) <- match_node p m a s;
              Ok (negb ra, s1)
          end;
        do s2 <- record_result m (gid e) r s'; Ok (r, s2)
    end.
End WithGeo.
