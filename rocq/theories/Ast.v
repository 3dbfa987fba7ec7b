(** Boolean expressions (ast.h) and their construction by the parser (ast.c 21-251).

    The C [struct ast_node] is a tagged union of seven node kinds, one of which (bool
    expressions) has five operators.  The model regroups them: [expr] has the recursive
    operators, [leaf] the non-recursive predicates.  Each node carries its [global_id];
    the [memoize_id] of a node is looked up by global id (see PredMap.v). *)
From Coq Require Import ZArith NArith String Bool List.
From Verif Require Import Base Float Value.
Import ListNotations.

(** var.h [struct attr_var]. *)
Record avar := mkAV { av_attr : string; av_var : N }.

(** ast.h 14-38. *)
Inductive cmp_op := CLt | CLe | CGt | CGe.
(** ast.h 26-32 [struct compare_value]. *)
Inductive cval := CInt (z : Z) | CFloat (f : flt).
(** ast.h 43-69. *)
Inductive eq_op := QEq | QNe.
(** ast.h 55-63 [struct equality_value]. *)
Inductive qval := QInt (z : Z) | QFloat (f : flt) | QStr (s : sval) | QIEnum (e : ieval).
(** ast.h 109-148. *)
Inductive set_left := SLInt (z : Z) | SLStr (s : sval) | SLVar (v : avar).
(** ast.h 124-137: right side of `in`. *)
Inductive set_right := SRInts (l : list Z) | SRStrs (l : list sval) | SRVar (v : avar).
(** ast.h 139-142: `not in`, `in`. *)
Inductive set_op := SNotIn | SIn.
(** ast.h 152-175. *)
Inductive list_op := LOneOf | LNoneOf | LAllOf.
(** ast.h 163-169 [struct list_value]. *)
Inductive lval := LInts (l : list Z) | LStrs (l : list sval).
(** ast.h 194-197, 222-226, 253-257. *)
Inductive seg_op := SegWithin | SegBefore.
(** ast.h 222-226: string predicates. *)
Inductive str_op := StContains | StStartsWith | StEndsWith.
(** ast.h 253-257: null tests. *)
Inductive null_op := NIsNull | NIsNotNull | NIsEmpty.

(** Predicates.  [PFreq]: ast.h 183-192 (op has a single value and is dropped);
    [PSeg]: ast.h 199-206; [PGeo]: ast.h 212-220; [PStr]: ast.h 228-232. *)
Inductive leaf :=
| PLit (b : bool)
| PVar (v : avar)
| PCmp (op : cmp_op) (v : avar) (c : cval)
| PEq (op : eq_op) (v : avar) (q : qval)
| PSet (op : set_op) (l : set_left) (r : set_right)
| PList (op : list_op) (v : avar) (l : lval)
| PNull (op : null_op) (v : avar)
| PFreq (v : avar) (ty : ftype) (ns : sval) (value : Z) (length : Z) (now : avar) (id : Z)
| PSeg (op : seg_op) (has_var : bool) (v : avar) (id : Z) (seconds : Z) (now : avar)
| PGeo (has_radius : bool) (lat lon radius : flt) (latv lonv : avar)
| PStr (op : str_op) (v : avar) (pattern : string).

(** ast.h 276-289 [struct ast_node] with its bool_expr member (ast.h 75-103); the memoize_id is kept in the table of PredMap.v. *)
Inductive expr :=
| ELeaf (g : N) (p : leaf)
| EAnd (g : N) (a b : expr)
| EOr (g : N) (a b : expr)
| ENot (g : N) (a : expr).

(** [node->global_id]. *)
Definition gid (e : expr) : N :=
  match e with ELeaf g _ | EAnd g _ _ | EOr g _ _ | ENot g _ => g end.

(** ast.c 94-100 [enum scores] and 102-135 [score_node] (uint64_t; computed in Z, a wrap-around
    would need 2^59 nodes). *)
Definition score_leaf (p : leaf) : Z :=
  match p with
  | PNull _ _ => 0
  | PCmp _ _ _ => 1
  | PEq _ _ _ => 1
  | PVar _ => 1
  | PLit _ => 0
  | PSet _ _ _ => 5
  | PList _ _ _ => 10
  | PFreq _ _ _ _ _ _ _ => 20
  | PSeg _ _ _ _ _ _ => 20
  | PGeo _ _ _ _ _ _ => 0
  | PStr _ _ _ => 20
  end%Z.

(** ast.c 102-135 [score_node]. *)
Fixpoint score_node (e : expr) : Z :=
  match e with
  | ELeaf _ p => score_leaf p
  | EAnd _ a b => score_node a + score_node b
  | EOr _ a b => score_node a + score_node b
  | ENot _ a => score_node a
  end%Z.

(** ast.c 21-31: a fresh node has global_id INVALID_PRED. *)
Definition mk_leaf (p : leaf) : expr := ELeaf INVALID_PRED p.
(** ast.c 86-91 [ast_bool_expr_unary_create]. *)
Definition mk_not (a : expr) : expr := ENot INVALID_PRED a.
(** ast.c 137-152 [ast_bool_expr_binary_create]: the cheaper operand goes left. *)
Definition mk_and (a b : expr) : expr :=
  if (score_node b <? score_node a)%Z then EAnd INVALID_PRED b a else EAnd INVALID_PRED a b.
(** ast.c 137-152 [ast_bool_expr_binary_create] with op = AST_BOOL_OR. *)
Definition mk_or (a b : expr) : expr :=
  if (score_node b <? score_node a)%Z then EOr INVALID_PRED b a else EOr INVALID_PRED a b.

(** ast.c 1823 region / tree.c 1823-1834 [make_attr_var] with config = NULL. *)
Definition mk_var (s : string) : avar := mkAV s INVALID_VAR.
(** parser.y 108: string literals carry str = INVALID_STR. *)
Definition mk_str (s : string) : sval := mkS s INVALID_STR.

(** ast.c 183-202 [ast_special_frequency_create]: attr_var "frequency_caps", now "now",
    id = UINT32_MAX; the int64 length literal becomes a size_t. *)
Definition mk_freq (stype ns : string) (value length : Z) : leaf :=
  PFreq (mk_var "frequency_caps") (get_type_from_string stype) (mk_str ns) value
        (to_uint 64 length) (mk_var "now") (2 ^ 32 - 1).
(** ast.c 204-221 [ast_special_segment_create]; segment_id is a uint64_t. *)
Definition mk_seg (op : seg_op) (name : option string) (id seconds : Z) : leaf :=
  match name with
  | None => PSeg op false (mk_var "segments_with_timestamp") (to_uint 64 id) seconds (mk_var "now")
  | Some n => PSeg op true (mk_var n) (to_uint 64 id) seconds (mk_var "now")
  end.
(** ast.c 223-240 [ast_special_geo_create]. *)
Definition mk_geo (lat lon radius : flt) : leaf :=
  PGeo true lat lon radius (mk_var "latitude") (mk_var "longitude").

(** Structural equality of leaf classes used by several passes. *)
Fixpoint expr_leaves (e : expr) : list leaf :=
  match e with
  | ELeaf _ p => [p]
  | EAnd _ a b | EOr _ a b => expr_leaves a ++ expr_leaves b
  | ENot _ a => expr_leaves a
  end.
