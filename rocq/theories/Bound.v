(** Value ranges of expressions (ast.c 1071-1866) and adaptation of declared ranges
    (betree.c 123-457). *)
From Coq Require Import ZArith NArith String Bool List.
From Verif Require Import Base Float Value Ast Config.
Import ListNotations.
Local Open Scope Z_scope.
Local Open Scope res_scope.

(** One end of a range: the member of the [value_bound] union that belongs to the domain type. *)
Inductive bv := BVb (b : bool) | BVi (z : Z) | BVf (f : flt) | BVs (z : Z).

(** [struct value_bound] together with [struct bound_dirty] (ast.c 1071-1076): an end is present iff
    its dirty flag is set. *)
Record pb := mkPB { p_min : option bv; p_max : option bv }.
(** ast.c 1071-1076, 1818-1866: no end touched yet. *)
Definition pb_none : pb := mkPB None None.
(** ast.c 1078-1816: both ends touched. *)
Definition pb_both (a b : bv) : pb := mkPB (Some a) (Some b).

(** An int64_t expression; overflow is undefined behaviour. *)
Definition ck64 (z : Z) : result Z :=
  if (INT64_MIN <=? z) && (z <=? INT64_MAX) then Ok z else UB.

(** math.h fmin / fmax. *)
Definition is_nan (f : flt) : bool := match f with SpecFloat.S754_nan => true | _ => false end.
(** math.h fmin (ast.c 1078-1816). *)
Definition ffmin (a b : flt) : flt := if is_nan a then b else if fltb b a then b else a.
(** math.h fmax (ast.c 1078-1816). *)
Definition ffmax (a b : flt) : flt := if is_nan a then b else if fltb a b then b else a.

(** The merge of two lower / upper ends: `&&` and `||` for booleans, d64min/d64max, fmin/fmax,
    smin/smax (ast.c 1427-1470, 1484-1588).  Ends of different kinds do not occur. *)
Definition bv_min (a b : bv) : bv :=
  match a, b with
  | BVb x, BVb y => BVb (x && y)
  | BVi x, BVi y => BVi (if x <? y then x else y)
  | BVf x, BVf y => BVf (ffmin x y)
  | BVs x, BVs y => BVs (if x <? y then x else y)
  | _, _ => a
  end.
(** utils.c 18-21 [d64max], 33-36 [smax], math.h fmax. *)
Definition bv_max (a b : bv) : bv :=
  match a, b with
  | BVb x, BVb y => BVb (x || y)
  | BVi x, BVi y => BVi (if x >? y then x else y)
  | BVf x, BVf y => BVf (ffmax x y)
  | BVs x, BVs y => BVs (if x >? y then x else y)
  | _, _ => a
  end.

(** OR: an end is known only if both operands know it (ast.c 1410-1473). *)
Definition merge_or (f : bv -> bv -> bv) (a b : option bv) : option bv :=
  match a, b with Some x, Some y => Some (f x y) | _, _ => None end.
(** AND: an end is known if one operand knows it (ast.c 1474-1592). *)
Definition merge_and (f : bv -> bv -> bv) (a b : option bv) : option bv :=
  match a, b with
  | Some x, Some y => Some (f x y)
  | Some x, None => Some x
  | None, o => o
  end.

(** First and last element, if the list is not empty. *)
Definition ends {A} (l : list A) : option (A * A) :=
  match l with [] => None | x :: _ => Some (x, last l x) end.
(** ast.c 1078-1816: integers[0] and integers[count - 1]. *)
Definition pb_ends_i (l : list Z) : pb :=
  match ends l with Some (a, b) => pb_both (BVi a) (BVi b) | None => pb_none end.
(** ast.c 1078-1816: strings[0].str and strings[count - 1].str. *)
Definition pb_ends_s (l : list sval) : pb :=
  match ends l with Some (a, b) => pb_both (BVs (sv_str a)) (BVs (sv_str b)) | None => pb_none end.

(** ast.c 1078-1816 [get_variable_bound_inner], predicates.  [v] and [t] are the variable and the
    type of the domain.  [Abort] is `invalid_expr`. *)
Definition gvb_leaf (v : N) (t : vtype) (rev : bool) (p : leaf) : result pb :=
  match p with
  | PNull _ _ | PFreq _ _ _ _ _ _ _ | PSeg _ _ _ _ _ _ | PGeo _ _ _ _ _ _ | PStr _ _ _ => Ok pb_none
  | PLit _ => Ok pb_none
  | PVar x =>
      if negb (v =? av_var x)%N then Ok pb_none else
      match t with
      | TBool => Ok (if rev then pb_both (BVb false) (BVb false) else pb_both (BVb true) (BVb true))
      | _ => Abort
      end
  | PList op x l =>
      if negb (v =? av_var x)%N then Ok pb_none else
      let use := match op with LOneOf | LAllOf => negb rev | LNoneOf => rev end in
      match t, l with
      | TIntList, LInts l => Ok (if use then pb_ends_i l else pb_none)
      | TStrList, LStrs l => Ok (if use then pb_ends_s l else pb_none)
      | _, _ => Abort
      end
  | PSet op (SLVar x) r =>
      if negb (v =? av_var x)%N then Ok pb_none else
      let use := match op with SIn => negb rev | SNotIn => rev end in
      match t, r with
      | TInt, SRInts l => Ok (if use then pb_ends_i l else pb_none)
      | TStr, SRStrs l => Ok (if use then pb_ends_s l else pb_none)
      | _, _ => Abort
      end
  | PSet op l (SRVar x) =>
      if negb (v =? av_var x)%N then Ok pb_none else
      let use := match op with SIn => negb rev | SNotIn => rev end in
      match t, l with
      | TIntList, SLInt z => Ok (if use then pb_both (BVi z) (BVi z) else pb_none)
      | TStrList, SLStr s => Ok (if use then pb_both (BVs (sv_str s)) (BVs (sv_str s)) else pb_none)
      | _, _ => Abort
      end
  | PSet _ _ _ => Abort
  | PEq op x q =>
      if negb (v =? av_var x)%N then Ok pb_none else
      let use := match op with QEq => negb rev | QNe => rev end in
      match t, q with
      | TInt, QInt z => Ok (if use then pb_both (BVi z) (BVi z) else pb_none)
      | TFloat, QFloat f => Ok (if use then pb_both (BVf f) (BVf f) else pb_none)
      | TStr, QStr s => Ok (if use then pb_both (BVs (sv_str s)) (BVs (sv_str s)) else pb_none)
      | TIEnum, QIEnum e => Ok (if use then pb_both (BVs (ie_id e)) (BVs (ie_id e)) else pb_none)
      | _, _ => Abort
      end
  | PCmp op x c =>
      if negb (v =? av_var x)%N then Ok pb_none else
      match t, c with
      | TInt, CInt z =>
          match op, rev with
          | CLt, true => Ok (mkPB (Some (BVi z)) None)
          | CLt, false => do y <- ck64 (z - 1); Ok (mkPB None (Some (BVi y)))
          | CLe, true => do y <- ck64 (z + 1); Ok (mkPB (Some (BVi y)) None)
          | CLe, false => Ok (mkPB None (Some (BVi z)))
          | CGt, true => Ok (mkPB None (Some (BVi z)))
          | CGt, false => do y <- ck64 (z + 1); Ok (mkPB (Some (BVi y)) None)
          | CGe, true => do y <- ck64 (z - 1); Ok (mkPB None (Some (BVi y)))
          | CGe, false => Ok (mkPB (Some (BVi z)) None)
          end
      | TFloat, CFloat f =>
          match op, rev with
          | CLt, true => Ok (mkPB (Some (BVf f)) None)
          | CLt, false => Ok (mkPB None (Some (BVf (fsub f DBL_EPSILON))))
          | CLe, true => Ok (mkPB (Some (BVf (fadd f DBL_EPSILON))) None)
          | CLe, false => Ok (mkPB None (Some (BVf f)))
          | CGt, true => Ok (mkPB None (Some (BVf f)))
          | CGt, false => Ok (mkPB (Some (BVf (fadd f DBL_EPSILON))) None)
          | CGe, true => Ok (mkPB None (Some (BVf (fsub f DBL_EPSILON))))
          | CGe, false => Ok (mkPB (Some (BVf f)) None)
          end
      | _, _ => Abort
      end
  end.

(** ast.c 1078-1816 [get_variable_bound_inner], boolean operators (1403-1592). *)
Fixpoint gvb_inner (v : N) (t : vtype) (rev : bool) (e : expr) : result pb :=
  match e with
  | ELeaf _ p => gvb_leaf v t rev p
  | ENot _ a => gvb_inner v t (negb rev) a
  | EOr _ a b =>
      do l <- gvb_inner v t rev a;
      do r <- gvb_inner v t rev b;
      Ok (mkPB (merge_or bv_min (p_min l) (p_min r)) (merge_or bv_max (p_max l) (p_max r)))
  | EAnd _ a b =>
      do l <- gvb_inner v t rev a;
      do r <- gvb_inner v t rev b;
      Ok (mkPB (merge_and bv_min (p_min l) (p_min r)) (merge_and bv_max (p_max l) (p_max r)))
  end.

(** The two ends of a declared range. *)
Definition pick_b (o : option bv) (d : bool) : bool := match o with Some (BVb x) => x | _ => d end.
(** ast.c 1818-1866: the same for integers. *)
Definition pick_i (o : option bv) (d : Z) : Z := match o with Some (BVi x) => x | _ => d end.
(** ast.c 1818-1866: the same for floats. *)
Definition pick_f (o : option bv) (d : flt) : flt := match o with Some (BVf x) => x | _ => d end.
(** ast.c 1818-1866: the same for strings. *)
Definition pick_s (o : option bv) (d : Z) : Z := match o with Some (BVs x) => x | _ => d end.

(** ast.c 1818-1866 [get_variable_bound]. *)
Definition get_variable_bound (v : N) (dom : bound) (e : expr) : result bound :=
  do p <- gvb_inner v (btype dom) false e;
  match dom with
  | BBool lo hi => Ok (BBool (pick_b (p_min p) lo) (pick_b (p_max p) hi))
  | BInt l lo hi => Ok (BInt l (pick_i (p_min p) lo) (pick_i (p_max p) hi))
  | BFloat lo hi => Ok (BFloat (pick_f (p_min p) lo) (pick_f (p_max p) hi))
  | BStr t lo hi => Ok (BStr t (pick_s (p_min p) lo) (pick_s (p_max p) hi))
  | BSegs | BFreqs => Abort
  end.

(** *** Adaptation of the declared ranges *)

(** betree.c 186-211 [compare_simple_bound]. *)
Definition compare_simple (op : cmp_op) (c : cval) (inverted : bool) : result bound :=
  let op := if inverted then match op with CLt => CGe | CLe => CGt | CGt => CLe | CGe => CLt end
            else op in
  match c with
  | CInt z =>
      do y <- (match op with CLt => ck64 (z - 1) | CLe => Ok z | CGt => ck64 (z + 1) | CGe => Ok z end);
      Ok (BInt false y y)
  | CFloat f =>
      let y := match op with
               | CLt => fsub f DBL_EPSILON | CLe => f | CGt => fadd f DBL_EPSILON | CGe => f end in
      Ok (BFloat y y)
  end.

(** betree.c 213-222 [equality_simple_bound]. *)
Definition equality_simple (q : qval) : bound :=
  match q with
  | QInt z => BInt false z z
  | QFloat f => BFloat f f
  | QStr s => BStr TStr (sv_str s) (sv_str s)
  | QIEnum e => BStr TIEnum (ie_id e) (ie_id e)
  end.

(** Element 0 and element count-1 of an array; undefined on an empty list. *)
Definition simple_ends_i (l : list Z) : result bound :=
  match ends l with Some (a, b) => Ok (BInt true a b) | None => UB end.
(** betree.c 224-269: strings[0].str and strings[count - 1].str. *)
Definition simple_ends_s (l : list sval) : result bound :=
  match ends l with Some (a, b) => Ok (BStr TStrList (sv_str a) (sv_str b)) | None => UB end.

(** betree.c 224-252 [set_simple_bound]. *)
Definition set_simple (l : set_left) (r : set_right) : result bound :=
  match l with
  | SLVar _ =>
      match r with
      | SRInts l => simple_ends_i l
      | SRStrs l => simple_ends_s l
      | SRVar _ => Abort
      end
  | SLInt z => Ok (BInt false z z)
  | SLStr s => Ok (BStr TStr (sv_str s) (sv_str s))
  end.

(** betree.c 254-269 [list_simple_bound]. *)
Definition list_simple (l : lval) : result bound :=
  match l with LInts l => simple_ends_i l | LStrs l => simple_ends_s l end.

(** betree.c 271-289 [might_be_affected] (predicates) and 291-373 [get_simple_variable_bound]. *)
Definition simple_leaf (v : N) (inverted : bool) (p : leaf) : result (option bound) :=
  match p with
  | PCmp op x c => if (av_var x =? v)%N then do b <- compare_simple op c inverted; Ok (Some b) else Ok None
  | PEq _ x q => if (av_var x =? v)%N then Ok (Some (equality_simple q)) else Ok None
  | PVar x => if (av_var x =? v)%N then Ok (Some (BBool (negb inverted) (negb inverted))) else Ok None
  | PSet _ l r =>
      if (match l with SLVar x => (av_var x =? v)%N | _ => false end)
         || (match r with SRVar x => (av_var x =? v)%N | _ => false end)
      then do b <- set_simple l r; Ok (Some b) else Ok None
  | PList _ x l => if (av_var x =? v)%N then do b <- list_simple l; Ok (Some b) else Ok None
  | _ => Ok None
  end.

(** Union of two ranges (betree.c 321-346), read according to the tag of the first; a different
    kind of the second means reading another union member ([UB]).  Integer and integer-list ranges
    share their members, as do string, string-list and enum ranges. *)
Definition simple_merge (l r : bound) : result bound :=
  match l, r with
  | BBool a b, BBool x y => Ok (BBool (a && x) (b || y))
  | BInt t a b, BInt _ x y => Ok (BInt t (if a <? x then a else x) (if b >? y then b else y))
  | BFloat a b, BFloat x y => Ok (BFloat (if fltb a x then a else x) (if fgtb b y then b else y))
  | BStr t a b, BStr _ x y => Ok (BStr t (if a <? x then a else x) (if b >? y then b else y))
  | _, _ => UB
  end.

(** betree.c 291-373 [get_simple_variable_bound]. *)
Fixpoint simple_bound (v : N) (inverted : bool) (e : expr) : result (option bound) :=
  match e with
  | ELeaf _ p => simple_leaf v inverted p
  | ENot _ a => simple_bound v (negb inverted) a
  | EAnd _ a b | EOr _ a b =>
      do l <- simple_bound v inverted a;
      do r <- simple_bound v inverted b;
      match l, r with
      | None, r => Ok r
      | l, None => Ok l
      | Some x, Some y => do m <- simple_merge x y; Ok (Some m)
      end
  end.

(** Number of strings / integers interned for a variable (first map of that variable). *)
Definition str_count (c : config) (v : N) : option Z :=
  match find_strmap (c_strs c) v with Some m => Some (Z.of_nat (length (sm_vals m))) | None => None end.
(** betree.c 375-457: integer_value_count of the variable's table. *)
Definition int_count (c : config) (v : N) : option Z :=
  match find_intmap (c_ints c) v with Some m => Some (Z.of_nat (length (im_vals m))) | None => None end.

(** betree.c 375-457: new string bound from the number of interned strings. *)
Definition widen_s (hi : Z) (count : option Z) : Z :=
  match count with
  | None => hi
  | Some n =>
      let m := to_uint 64 (n - 1) in
      if hi <? SIZE_MAX - 1 then (if m >? hi then m else hi) else m
  end.

(** Body of the loop of betree.c 375-457 [change_boundaries] for one domain. *)
Definition widen (c : config) (v : N) (dom b : bound) : result bound :=
  match dom with
  | BInt t lo hi =>
      match b with
      | BInt _ x y =>
          Ok (BInt t (if lo =? INT64_MIN then x else if x <? lo then x else lo)
                     (if hi =? INT64_MAX then y else if y >? hi then y else hi))
      | _ => UB
      end
  | BFloat lo hi =>
      match b with
      | BFloat x y =>
          Ok (BFloat (if fne lo (fopp DBL_MAX) then (if fltb x lo then x else lo) else x)
                     (if fne hi DBL_MAX then (if fgtb y hi then y else hi) else y))
      | _ => UB
      end
  | BStr TIEnum lo hi => Ok (BStr TIEnum lo (widen_s hi (int_count c v)))
  | BStr t lo hi => Ok (BStr t lo (widen_s hi (str_count c v)))
  | BBool _ _ | BSegs | BFreqs => Ok dom
  end.

(** betree.c 375-457: domains that are not adapted. *)
Definition skip_domain (b : bound) : bool :=
  match b with BBool _ _ | BSegs | BFreqs => true | _ => false end.

(** betree.c 375-457 [change_boundaries]; the interning tables of [c] do not change here. *)
Fixpoint change_from (c : config) (v : N) (ds : list domain) (e : expr) : result (list domain) :=
  match ds with
  | [] => Ok []
  | d :: t =>
      do d' <- (if skip_domain (d_bound d) then Ok d else
                do o <- simple_bound v false e;
                match o with
                | None => Ok d
                | Some b => do b' <- widen c v (d_bound d) b; Ok (mkD (d_attr d) b' (d_undef d))
                end);
      do t' <- change_from c (v + 1) t e;
      Ok (d' :: t')
  end.
(** betree.c 375-457 [change_boundaries]. *)
Definition change_boundaries (c : config) (e : expr) : result config :=
  do ds <- change_from c 0 (c_domains c) e; Ok (set_domains c ds).
