(** The grammar of expressions (parser.y 94-227), production by production, on token
    sequences. *)
From Coq Require Import ZArith NArith String Bool List.
From Verif Require Import Base Float Value Ast Lexer.
Import ListNotations.

(** parser.y 100-102 [integer]. *)
Inductive g_int : list token -> Z -> Prop :=
| gi_pos z : g_int [KInt z] z
| gi_neg z : g_int [KMinus; KInt z] (- z)%Z.

(** parser.y 104-106 [float]. *)
Inductive g_flt : list token -> flt -> Prop :=
| gf_pos f : g_flt [KFlt f] f
| gf_neg f : g_flt [KMinus; KFlt f] (fopp f).

(** parser.y 112-114 [integer_list_loop]. *)
Inductive g_int_loop : list token -> list Z -> Prop :=
| gil_one a z : g_int a z -> g_int_loop a [z]
| gil_more a l b z : g_int_loop a l -> g_int b z -> g_int_loop (a ++ KComma :: b) (l ++ [z]).
(** parser.y 110 [integer_list_value]. *)
Inductive g_ints : list token -> list Z -> Prop :=
| gis a l : g_int_loop a l -> g_ints (KLParen :: a ++ [KRParen]) l.

(** parser.y 118-120 [string_list_loop]. *)
Inductive g_str_loop : list token -> list string -> Prop :=
| gsl_one s : g_str_loop [KStr s] [s]
| gsl_more a l s : g_str_loop a l -> g_str_loop (a ++ [KComma; KStr s]) (l ++ [s]).
(** parser.y 116 [string_list_value]. *)
Inductive g_strs : list token -> list string -> Prop :=
| gss a l : g_str_loop a l -> g_strs (KLParen :: a ++ [KRParen]) l.

(** parser.y 137-139 [num_comp_value]. *)
Inductive g_num : list token -> cval -> Prop :=
| gn_int a z : g_int a z -> g_num a (CInt z)
| gn_flt a f : g_flt a f -> g_num a (CFloat f).

(** parser.y 151-154 [eq_value]. *)
Inductive g_eqv : list token -> qval -> Prop :=
| ge_int a z : g_int a z -> g_eqv a (QInt z)
| ge_flt a f : g_flt a f -> g_eqv a (QFloat f)
| ge_str s : g_eqv [KStr s] (QStr (mk_str s)).

(** parser.y 164-167 [set_left_value]. *)
Inductive g_left : list token -> set_left -> Prop :=
| gl_int a z : g_int a z -> g_left a (SLInt z)
| gl_str s : g_left [KStr s] (SLStr (mk_str s))
| gl_var x : g_left [KIdent x] (SLVar (mk_var x)).

(** parser.y 169-172 [set_right_value]. *)
Inductive g_right : list token -> set_right -> Prop :=
| gr_ints a l : g_ints a l -> g_right a (SRInts l)
| gr_strs a l : g_strs a l -> g_right a (SRStrs (map mk_str l))
| gr_var x : g_right [KIdent x] (SRVar (mk_var x)).

(** parser.y 178-180 [list_value]. *)
Inductive g_listv : list token -> lval -> Prop :=
| gv_ints a l : g_ints a l -> g_listv a (LInts l)
| gv_strs a l : g_strs a l -> g_listv a (LStrs (map mk_str l)).

(** parser.y 132-135 [is_null_expr], 141-149 [num_comp_expr], 156-160 [eq_expr], 174-176
    [set_expr], 182-185 [list_expr], 190-192 (variables and literals), 201-227 [special_expr]. *)
Inductive g_atom : list token -> leaf -> Prop :=
| ga_null x : g_atom [KIdent x; KIsNull] (PNull NIsNull (mk_var x))
| ga_not_null x : g_atom [KIdent x; KIsNotNull] (PNull NIsNotNull (mk_var x))
| ga_empty x : g_atom [KIdent x; KIsEmpty] (PNull NIsEmpty (mk_var x))
| ga_gt x a c : g_num a c -> g_atom (KIdent x :: KGt :: a) (PCmp CGt (mk_var x) c)
| ga_ge x a c : g_num a c -> g_atom (KIdent x :: KGe :: a) (PCmp CGe (mk_var x) c)
| ga_lt x a c : g_num a c -> g_atom (KIdent x :: KLt :: a) (PCmp CLt (mk_var x) c)
| ga_le x a c : g_num a c -> g_atom (KIdent x :: KLe :: a) (PCmp CLe (mk_var x) c)
| ga_num_lt x a c : g_num a c -> g_atom (a ++ [KLt; KIdent x]) (PCmp CGt (mk_var x) c)
| ga_num_le x a c : g_num a c -> g_atom (a ++ [KLe; KIdent x]) (PCmp CGe (mk_var x) c)
| ga_num_gt x a c : g_num a c -> g_atom (a ++ [KGt; KIdent x]) (PCmp CLt (mk_var x) c)
| ga_num_ge x a c : g_num a c -> g_atom (a ++ [KGe; KIdent x]) (PCmp CLe (mk_var x) c)
| ga_eq x a q : g_eqv a q -> g_atom (KIdent x :: KEq :: a) (PEq QEq (mk_var x) q)
| ga_ne x a q : g_eqv a q -> g_atom (KIdent x :: KNe :: a) (PEq QNe (mk_var x) q)
| ga_val_eq x a q : g_eqv a q -> g_atom (a ++ [KEq; KIdent x]) (PEq QEq (mk_var x) q)
| ga_val_ne x a q : g_eqv a q -> g_atom (a ++ [KNe; KIdent x]) (PEq QNe (mk_var x) q)
| ga_not_in a l b r : g_left a l -> g_right b r -> g_atom (a ++ KNotIn :: b) (PSet SNotIn l r)
| ga_in a l b r : g_left a l -> g_right b r -> g_atom (a ++ KIn :: b) (PSet SIn l r)
| ga_one_of x a l : g_listv a l -> g_atom (KIdent x :: KOneOf :: a) (PList LOneOf (mk_var x) l)
| ga_none_of x a l : g_listv a l -> g_atom (KIdent x :: KNoneOf :: a) (PList LNoneOf (mk_var x) l)
| ga_all_of x a l : g_listv a l -> g_atom (KIdent x :: KAllOf :: a) (PList LAllOf (mk_var x) l)
| ga_var x : g_atom [KIdent x] (PVar (mk_var x))
| ga_true : g_atom [KTrue] (PLit true)
| ga_false : g_atom [KFalse] (PLit false)
| ga_freq ty ns a v b len : g_int a v -> g_int b len ->
    g_atom (KFreqCap :: KLParen :: KStr ty :: KComma :: KStr ns :: KComma ::
            a ++ KComma :: b ++ [KRParen]) (mk_freq ty ns v len)
| ga_seg_within a id b sec : g_int a id -> g_int b sec ->
    g_atom (KSegWithin :: KLParen :: a ++ KComma :: b ++ [KRParen]) (mk_seg SegWithin None id sec)
| ga_seg_within_var x a id b sec : g_int a id -> g_int b sec ->
    g_atom (KSegWithin :: KLParen :: KIdent x :: KComma :: a ++ KComma :: b ++ [KRParen])
           (mk_seg SegWithin (Some x) id sec)
| ga_seg_before a id b sec : g_int a id -> g_int b sec ->
    g_atom (KSegBefore :: KLParen :: a ++ KComma :: b ++ [KRParen]) (mk_seg SegBefore None id sec)
| ga_seg_before_var x a id b sec : g_int a id -> g_int b sec ->
    g_atom (KSegBefore :: KLParen :: KIdent x :: KComma :: a ++ KComma :: b ++ [KRParen])
           (mk_seg SegBefore (Some x) id sec)
| ga_geo_int a x b y c z : g_int a x -> g_int b y -> g_int c z ->
    g_atom (KGeo :: KLParen :: a ++ KComma :: b ++ KComma :: c ++ [KRParen])
           (mk_geo (f_of_Z x) (f_of_Z y) (f_of_Z z))
| ga_geo_flt a x b y c z : g_flt a x -> g_flt b y -> g_flt c z ->
    g_atom (KGeo :: KLParen :: a ++ KComma :: b ++ KComma :: c ++ [KRParen]) (mk_geo x y z)
| ga_contains x s :
    g_atom [KContains; KLParen; KIdent x; KComma; KStr s; KRParen] (PStr StContains (mk_var x) s)
| ga_starts_with x s :
    g_atom [KStartsWith; KLParen; KIdent x; KComma; KStr s; KRParen]
           (PStr StStartsWith (mk_var x) s)
| ga_ends_with x s :
    g_atom [KEndsWith; KLParen; KIdent x; KComma; KStr s; KRParen] (PStr StEndsWith (mk_var x) s).

(** parser.y 122-130, 187-193 without the precedence declarations: an ambiguous grammar. *)
Inductive g_expr : list token -> expr -> Prop :=
| gx_paren a x : g_expr a x -> g_expr (KLParen :: a ++ [KRParen]) x
| gx_atom a l : g_atom a l -> g_expr a (mk_leaf l)
| gx_and a x b y : g_expr a x -> g_expr b y -> g_expr (a ++ KAnd :: b) (mk_and x y)
| gx_or a x b y : g_expr a x -> g_expr b y -> g_expr (a ++ KOr :: b) (mk_or x y)
| gx_not a x : g_expr a x -> g_expr (KNot :: a) (mk_not x).

(** The levels of parser.y 87-90: `or` binds weakest, then `and`, then `not`. *)
Inductive level := LOr | LAnd | LUn.

(** The trees the precedence declarations select: %left groups to the left, an operand of a
    connective is of a higher level, an operand of `not` is not a connective. *)
Inductive derives : level -> list token -> expr -> Prop :=
| d_or a x b y : derives LOr a x -> derives LAnd b y -> derives LOr (a ++ KOr :: b) (mk_or x y)
| d_or_and a x : derives LAnd a x -> derives LOr a x
| d_and a x b y : derives LAnd a x -> derives LUn b y -> derives LAnd (a ++ KAnd :: b) (mk_and x y)
| d_and_un a x : derives LUn a x -> derives LAnd a x
| d_not a x : derives LUn a x -> derives LUn (KNot :: a) (mk_not x)
| d_paren a x : derives LOr a x -> derives LUn (KLParen :: a ++ [KRParen]) x
| d_atom a l : g_atom a l -> derives LUn a (mk_leaf l).
