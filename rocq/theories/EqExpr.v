(** Comparison of expressions for equality (ast.c 2234-2460).  Null pointers are not modelled.  The
    variable kept in a string (string_value.var) is that of its predicate (ast.c 2135-2232
    [assign_str_id]), whose variable is compared as well, so it is left out. *)
From Coq Require Import ZArith NArith String Bool List.
From Verif Require Import Base Float Value Ast PredMap.
Import ListNotations.
Local Open Scope Z_scope.

(** Variables are equal if their numbers are (ast.c 2413, 2416). *)
Definition eq_var (a b : avar) : bool := (av_var a =? av_var b)%N.
(** Strings are equal if their numbers are (ast.c 2258-2260). *)
Definition eq_str (a b : sval) : bool := sv_str a =? sv_str b.

(** ast.c 2234-2246 [eq_compare_value]. *)
Definition eq_cval (a b : cval) : bool :=
  match a, b with
  | CInt x, CInt y => x =? y
  | CFloat x, CFloat y => feq x y
  | _, _ => false
  end.
(** ast.c 2248-2266 [eq_equality_value]. *)
Definition eq_qval (a b : qval) : bool :=
  match a, b with
  | QInt x, QInt y => x =? y
  | QFloat x, QFloat y => feq x y
  | QStr x, QStr y => eq_str x y
  | QIEnum x, QIEnum y => ie_id x =? ie_id y
  | _, _ => false
  end.
(** ast.c 2287-2302 [eq_set_left_value]. *)
Definition eq_left (a b : set_left) : bool :=
  match a, b with
  | SLInt x, SLInt y => x =? y
  | SLStr x, SLStr y => eq_str x y
  | SLVar x, SLVar y => eq_var x y
  | _, _ => false
  end.
(** ast.c 2304-2315 [eq_integer_list], 2317-2328 [eq_string_list]: the same length and the same
    elements. *)
Fixpoint eq_list {A} (eq : A -> A -> bool) (a b : list A) : bool :=
  match a, b with
  | [], [] => true
  | x :: a', y :: b' => eq x y && eq_list eq a' b'
  | _, _ => false
  end.
(** ast.c 2330-2344 [eq_set_right_value]. *)
Definition eq_right (a b : set_right) : bool :=
  match a, b with
  | SRInts x, SRInts y => eq_list Z.eqb x y
  | SRStrs x, SRStrs y => eq_list eq_str x y
  | SRVar x, SRVar y => eq_var x y
  | _, _ => false
  end.
(** ast.c 2355-2367 [eq_list_value]. *)
Definition eq_lval (a b : lval) : bool :=
  match a, b with
  | LInts x, LInts y => eq_list Z.eqb x y
  | LStrs x, LStrs y => eq_list eq_str x y
  | _, _ => false
  end.

(** ast.c 2268-2285 [eq_bool_expr] (variables and literals), 2346-2353 [eq_set_expr], 2369-2375
    [eq_list_expr], 2377-2403 [eq_special_expr], 2405-2440 [eq_expr].  The id of frequency
    predicates and the kind of null tests are not compared. *)
Definition eq_leaf (a b : leaf) : bool :=
  match a, b with
  | PLit x, PLit y => Bool.eqb x y
  | PVar v, PVar w => eq_var v w
  | PCmp op v x, PCmp op' w y => eq_var v w && (cmp_num op =? cmp_num op') && eq_cval x y
  | PEq op v x, PEq op' w y => eq_var v w && (eq_num op =? eq_num op') && eq_qval x y
  | PSet op l r, PSet op' l' r' => (set_num op =? set_num op') && eq_left l l' && eq_right r r'
  | PList op v l, PList op' w l' => (list_num op =? list_num op') && eq_var v w && eq_lval l l'
  | PNull _ v, PNull _ w => eq_var v w
  | PFreq v ty ns value len _ _, PFreq w ty' ns' value' len' _ _ =>
      eq_var v w && (len =? len') && eq_str ns ns' && (ftype_num ty =? ftype_num ty') && (value =? value')
  | PSeg op h v id seconds _, PSeg op' h' w id' seconds' _ =>
      eq_var v w && Bool.eqb h h' && (seg_num op =? seg_num op') && (seconds =? seconds') && (id =? id')
  | PGeo h lat lon radius _ _, PGeo h' lat' lon' radius' _ _ =>
      Bool.eqb h h' && feq lat lat' && feq lon lon' && feq radius radius'
  | PStr op v pat, PStr op' w pat' => eq_var v w && (str_num op =? str_num op') && String.eqb pat pat'
  | _, _ => false
  end.
(** ast.c 2405-2440 [eq_expr], 2268-2285 [eq_bool_expr]. *)
Fixpoint eq_expr (a b : expr) : bool :=
  match a, b with
  | ELeaf _ p, ELeaf _ q => eq_leaf p q
  | EAnd _ a1 a2, EAnd _ b1 b2 => eq_expr a1 b1 && eq_expr a2 b2
  | EOr _ a1 a2, EOr _ b1 b2 => eq_expr a1 b1 && eq_expr a2 b2
  | ENot _ a1, ENot _ b1 => eq_expr a1 b1
  | _, _ => false
  end.

(** The type of a node (ast.h 266-274). *)
Definition node_type (e : expr) : Z :=
  match e with
  | ELeaf _ p =>
      match p with
      | PCmp _ _ _ => 0 | PEq _ _ _ => 1 | PLit _ | PVar _ => 2 | PSet _ _ _ => 3 | PList _ _ _ => 4
      | PFreq _ _ _ _ _ _ _ | PSeg _ _ _ _ _ _ | PGeo _ _ _ _ _ _ | PStr _ _ _ => 5 | PNull _ _ => 6
      end
  | _ => 2
  end.
(** ast.c 2442-2460 [fast_eq_expr]: operands are compared by their numbers.  The operators `and`, `or`
    and `not` are not compared: `and` and `or` have the same operands; other operands are read from
    members of the union that were not written. *)
Definition fast_eq_expr (a b : expr) : result bool :=
  if negb (node_type a =? node_type b) then Ok false
  else
    match a, b with
    | ENot _ x, ENot _ y => Ok (gid x =? gid y)%N
    | EAnd _ x1 x2, EAnd _ y1 y2 | EAnd _ x1 x2, EOr _ y1 y2
    | EOr _ x1 x2, EAnd _ y1 y2 | EOr _ x1 x2, EOr _ y1 y2 => Ok ((gid x1 =? gid y1)%N && (gid x2 =? gid y2)%N)
    | ENot _ _, _ | EAnd _ _ _, _ | EOr _ _ _, _ => UB
    | ELeaf _ _, _ => Ok (gid a =? gid b)%N
    end.
