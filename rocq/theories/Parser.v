(** The parser of expression texts (parser.y 92-255).

    bison turns the grammar with its precedence declarations (parser.y 87-90) into an LALR
    automaton.  The model is a recursive descent parser for the same grammar; Grammar.v has the
    productions themselves and ParseProofs.v proves that the two accept the same token sequences
    with the same trees.  The generated parser itself is in Bison.v and BisonTables.v. *)
From Coq Require Import ZArith NArith String Bool List.
From Verif Require Import Base Float Value Ast Lexer.
Import ListNotations.

(** Sequencing of parsers that may fail. *)
Definition obind {A B} (o : option A) (f : A -> option B) : option B :=
  match o with Some a => f a | None => None end.
Notation "'do' x <- e ; f" := (obind e (fun x => f))
  (at level 200, x pattern, e at level 100, f at level 200).

(** A parser consumes a prefix of the tokens. *)
Definition parser (A : Type) := list token -> option (A * list token).

(** Punctuation of lists and argument lists. *)
Definition p_lparen (ts : list token) : option (list token) :=
  match ts with KLParen :: r => Some r | _ => None end.
(** A closing parenthesis. *)
Definition p_rparen (ts : list token) : option (list token) :=
  match ts with KRParen :: r => Some r | _ => None end.
(** A comma. *)
Definition p_comma (ts : list token) : option (list token) :=
  match ts with KComma :: r => Some r | _ => None end.

(** parser.y 98 [ident]. *)
Definition p_id : parser string :=
  fun ts => match ts with KIdent x :: r => Some (x, r) | _ => None end.
(** parser.y 108 [string]. *)
Definition p_string : parser string :=
  fun ts => match ts with KStr s :: r => Some (s, r) | _ => None end.
(** parser.y 100-102 [integer]. *)
Definition p_int : parser Z :=
  fun ts =>
    match ts with
    | KInt z :: r => Some (z, r)
    | KMinus :: r => match r with KInt z :: r' => Some ((- z)%Z, r') | _ => None end
    | _ => None
    end.
(** parser.y 104-106 [float]. *)
Definition p_flt : parser flt :=
  fun ts =>
    match ts with
    | KFlt f :: r => Some (f, r)
    | KMinus :: r => match r with KFlt f :: r' => Some (fopp f, r') | _ => None end
    | _ => None
    end.

(** parser.y 112-114, 118-120: a non-empty sequence of items separated by commas and its closing
    parenthesis; n bounds the number of items. *)
Fixpoint p_items {A} (item : parser A) (n : nat) : parser (list A) :=
  fun ts =>
    match n with
    | O => None
    | S n' =>
        do (a, r) <- item ts;
        match r with
        | KRParen :: r' => Some ([a], r')
        | KComma :: r' => do (l, r'') <- p_items item n' r'; Some (a :: l, r'')
        | _ => None
        end
    end.
(** parser.y 110 [integer_list_value]. *)
Definition p_ints : parser (list Z) :=
  fun ts => do r <- p_lparen ts; p_items p_int (List.length r) r.
(** parser.y 116 [string_list_value]. *)
Definition p_strs : parser (list string) :=
  fun ts => do r <- p_lparen ts; p_items p_string (List.length r) r.

(** parser.y 137-139 [num_comp_value]. *)
Definition p_num : parser cval :=
  fun ts =>
    match p_int ts with
    | Some (z, r) => Some (CInt z, r)
    | None => do (f, r) <- p_flt ts; Some (CFloat f, r)
    end.
(** parser.y 151-154 [eq_value]. *)
Definition p_eq_value : parser qval :=
  fun ts =>
    match p_num ts with
    | Some (CInt z, r) => Some (QInt z, r)
    | Some (CFloat f, r) => Some (QFloat f, r)
    | None => do (s, r) <- p_string ts; Some (QStr (mk_str s), r)
    end.
(** parser.y 178-180 [list_value]. *)
Definition p_list_value : parser lval :=
  fun ts =>
    match p_ints ts with
    | Some (l, r) => Some (LInts l, r)
    | None => do (l, r) <- p_strs ts; Some (LStrs (map mk_str l), r)
    end.
(** parser.y 169-172 [set_right_value]. *)
Definition p_set_right : parser set_right :=
  fun ts =>
    match p_id ts with
    | Some (x, r) => Some (SRVar (mk_var x), r)
    | None =>
        do (l, r) <- p_list_value ts;
        Some (match l with LInts l => SRInts l | LStrs l => SRStrs l end, r)
    end.

(** parser.y 141-144: the operator of `ident op value`. *)
Definition cmp_of (t : token) : option cmp_op :=
  match t with KGt => Some CGt | KGe => Some CGe | KLt => Some CLt | KLe => Some CLe | _ => None end.
(** parser.y 145-148: the operator of `value op ident`. *)
Definition cmp_rev_of (t : token) : option cmp_op :=
  match t with KLt => Some CGt | KLe => Some CGe | KGt => Some CLt | KGe => Some CLe | _ => None end.
(** parser.y 156-159. *)
Definition eq_of (t : token) : option eq_op :=
  match t with KEq => Some QEq | KNe => Some QNe | _ => None end.
(** parser.y 174-176. *)
Definition set_of (t : token) : option set_op :=
  match t with KNotIn => Some SNotIn | KIn => Some SIn | _ => None end.
(** parser.y 182-185. *)
Definition list_of (t : token) : option list_op :=
  match t with
  | KOneOf => Some LOneOf | KNoneOf => Some LNoneOf | KAllOf => Some LAllOf | _ => None
  end.
(** parser.y 132-135. *)
Definition null_of (t : token) : option null_op :=
  match t with
  | KIsNull => Some NIsNull | KIsNotNull => Some NIsNotNull | KIsEmpty => Some NIsEmpty
  | _ => None
  end.

(** What may follow an identifier (parser.y 132-135, 141-144, 156-157, 166, 174-176, 182-185,
    190). *)
Definition p_after_ident (x : string) : parser leaf :=
  fun ts =>
    match ts with
    | [] => Some (PVar (mk_var x), ts)
    | t :: r =>
        match cmp_of t, eq_of t, set_of t, list_of t, null_of t with
        | Some op, _, _, _, _ => do (c, r') <- p_num r; Some (PCmp op (mk_var x) c, r')
        | _, Some op, _, _, _ => do (q, r') <- p_eq_value r; Some (PEq op (mk_var x) q, r')
        | _, _, Some op, _, _ =>
            do (s, r') <- p_set_right r; Some (PSet op (SLVar (mk_var x)) s, r')
        | _, _, _, Some op, _ => do (l, r') <- p_list_value r; Some (PList op (mk_var x) l, r')
        | _, _, _, _, Some op => Some (PNull op (mk_var x), r)
        | _, _, _, _, _ => Some (PVar (mk_var x), ts)
        end
    end.

(** What may follow a number (parser.y 145-148, 158-159, 164, 174-176). *)
Definition p_after_num (c : cval) : parser leaf :=
  fun ts =>
    match ts with
    | [] => None
    | t :: r =>
        match cmp_rev_of t, eq_of t, set_of t with
        | Some op, _, _ => do (x, r') <- p_id r; Some (PCmp op (mk_var x) c, r')
        | _, Some op, _ =>
            do (x, r') <- p_id r;
            Some (PEq op (mk_var x) (match c with CInt z => QInt z | CFloat f => QFloat f end), r')
        | _, _, Some op =>
            match c with
            | CInt z => do (s, r') <- p_set_right r; Some (PSet op (SLInt z) s, r')
            | CFloat _ => None
            end
        | _, _, _ => None
        end
    end.

(** What may follow a string (parser.y 158-159, 165, 174-176). *)
Definition p_after_string (s : string) : parser leaf :=
  fun ts =>
    match ts with
    | [] => None
    | t :: r =>
        match eq_of t, set_of t with
        | Some op, _ => do (x, r') <- p_id r; Some (PEq op (mk_var x) (QStr (mk_str s)), r')
        | _, Some op => do (v, r') <- p_set_right r; Some (PSet op (SLStr (mk_str s)) v, r')
        | _, _ => None
        end
    end.

(** parser.y 201-203 [s_frequency_expr] after the keyword. *)
Definition p_freq : parser leaf :=
  fun ts =>
    do r <- p_lparen ts; do (ty, r) <- p_string r;
    do r <- p_comma r; do (ns, r) <- p_string r;
    do r <- p_comma r; do (v, r) <- p_int r;
    do r <- p_comma r; do (len, r) <- p_int r;
    do r <- p_rparen r; Some (mk_freq ty ns v len, r).

(** parser.y 205-213 [s_segment_expr] after the keyword. *)
Definition p_seg (op : seg_op) : parser leaf :=
  fun ts =>
    do r <- p_lparen ts;
    match p_id r with
    | Some (x, r) =>
        do r <- p_comma r; do (id, r) <- p_int r;
        do r <- p_comma r; do (sec, r) <- p_int r;
        do r <- p_rparen r; Some (mk_seg op (Some x) id sec, r)
    | None =>
        do (id, r) <- p_int r;
        do r <- p_comma r; do (sec, r) <- p_int r;
        do r <- p_rparen r; Some (mk_seg op None id sec, r)
    end.

(** parser.y 215-219 [s_geo_expr] after the keyword: three integers or three floats. *)
Definition p_geo : parser leaf :=
  fun ts =>
    do r <- p_lparen ts;
    match p_int r with
    | Some (a, r) =>
        do r <- p_comma r; do (b, r) <- p_int r;
        do r <- p_comma r; do (c, r) <- p_int r;
        do r <- p_rparen r; Some (mk_geo (f_of_Z a) (f_of_Z b) (f_of_Z c), r)
    | None =>
        do (a, r) <- p_flt r;
        do r <- p_comma r; do (b, r) <- p_flt r;
        do r <- p_comma r; do (c, r) <- p_flt r;
        do r <- p_rparen r; Some (mk_geo a b c, r)
    end.

(** parser.y 221-227 [s_string_expr] after the keyword. *)
Definition p_strop (op : str_op) : parser leaf :=
  fun ts =>
    do r <- p_lparen ts; do (x, r) <- p_id r;
    do r <- p_comma r; do (s, r) <- p_string r;
    do r <- p_rparen r; Some (PStr op (mk_var x) s, r).

(** parser.y 123-129, 190-192: everything but parentheses and connectives. *)
Definition p_atom : parser leaf :=
  fun ts =>
    match ts with
    | KIdent x :: r => p_after_ident x r
    | KStr s :: r => p_after_string s r
    | KTrue :: r => Some (PLit true, r)
    | KFalse :: r => Some (PLit false, r)
    | KFreqCap :: r => p_freq r
    | KSegWithin :: r => p_seg SegWithin r
    | KSegBefore :: r => p_seg SegBefore r
    | KGeo :: r => p_geo r
    | KContains :: r => p_strop StContains r
    | KStartsWith :: r => p_strop StStartsWith r
    | KEndsWith :: r => p_strop StEndsWith r
    | _ => do (c, r) <- p_num ts; p_after_num c r
    end.

(** parser.y 187 with %left TAND: operands joined by `and`, grouped to the left. *)
Fixpoint p_ands (p : parser expr) (n : nat) (acc : expr) : parser expr :=
  fun ts =>
    match n, ts with
    | S n', KAnd :: r => do (x, r') <- p r; p_ands p n' (mk_and acc x) r'
    | _, _ => Some (acc, ts)
    end.
(** Operands joined by `and`. *)
Definition p_and (p : parser expr) (n : nat) : parser expr :=
  fun ts => do (x, r) <- p ts; p_ands p n x r.
(** parser.y 188 with %left TOR below TAND: operands joined by `or`, grouped to the left. *)
Fixpoint p_ors (p : parser expr) (n : nat) (acc : expr) : parser expr :=
  fun ts =>
    match n, ts with
    | S n', KOr :: r => do (x, r') <- p r; p_ors p n' (mk_or acc x) r'
    | _, _ => Some (acc, ts)
    end.
(** Operands joined by `or`. *)
Definition p_or (p : parser expr) (n : nat) : parser expr :=
  fun ts => do (x, r) <- p ts; p_ors p n x r.

(** parser.y 122, 189 with %precedence TNOT above TAND; n bounds the nesting depth and the number
    of operands. *)
Fixpoint p_unary (n : nat) : parser expr :=
  fun ts =>
    match n with
    | O => None
    | S n' =>
        match ts with
        | KNot :: r => do (x, r') <- p_unary n' r; Some (mk_not x, r')
        | KLParen :: r =>
            do (x, r') <- p_or (p_and (p_unary n') n') n' r;
            do r'' <- p_rparen r'; Some (x, r'')
        | _ => do (l, r) <- p_atom ts; Some (mk_leaf l, r)
        end
    end.

(** parser.y 96 [program]: the whole input is one expression. *)
Definition parse_tokens (ts : list token) : option expr :=
  let n := S (List.length ts) in
  match p_or (p_and (p_unary n) n) n ts with
  | Some (e, []) => Some e
  | _ => None
  end.

(** parser.y 237-255 [parse]: None stands for the result -1. *)
Definition parse (text : string) : option expr := parse_tokens (lex text).
