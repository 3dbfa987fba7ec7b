(** The memory of expressions: nodes, names, strings and lists as allocated blocks; how the parser makes them, how they are
    copied and released (ast.c 21-385, value.c 12-115 and 251-268, tree.c 1823-1849, clone.c, parser.c). *)
From Coq Require Import ZArith NArith String Bool List.
From Verif Require Import Base Float Value Ast Printer Lexer Ledger Flex FlexTables Bison BisonTables.
Import ListNotations.
Local Open Scope Z_scope.
Local Open Scope led_scope.

(** A pointer to an allocated string; the address 0 is NULL. *)
Record hstr := mkHS { hs_at : Z; hs_text : string }.
(** var.h [struct attr_var]. *)
Record hvar := mkHV { hv_attr : hstr; hv_var : N }.
(** value.h [struct string_value]. *)
Record hsval := mkHSV { hw_string : hstr; hw_str : Z }.
(** value.h [struct betree_integer_list]: where the list is, where its array is (0 as long as it is empty), the array. *)
Record hints := mkHI { hi_at : Z; hi_arr : Z; hi_items : list Z }.
(** value.h [struct betree_string_list]. *)
Record hstrs := mkHL { hl_at : Z; hl_arr : Z; hl_items : list hsval }.

(** ast.h: the members of the nodes as in Ast.v. *)
Inductive hqval := HQInt (z : Z) | HQFloat (f : flt) | HQStr (s : hsval) | HQIEnum (e : ieval).
Inductive hleft := HLInt (z : Z) | HLStr (s : hsval) | HLVar (v : hvar).
Inductive hright := HRInts (l : hints) | HRStrs (l : hstrs) | HRVar (v : hvar).
Inductive hlval := HVInts (l : hints) | HVStrs (l : hstrs).
Inductive hleaf :=
| HPLit (b : bool)
| HPVar (v : hvar)
| HPCmp (op : cmp_op) (v : hvar) (c : cval)
| HPEq (op : eq_op) (v : hvar) (q : hqval)
| HPSet (op : set_op) (l : hleft) (r : hright)
| HPList (op : list_op) (v : hvar) (l : hlval)
| HPNull (op : null_op) (v : hvar)
| HPFreq (v : hvar) (ty : ftype) (ns : hsval) (value : Z) (length : Z) (now : hvar) (id : Z)
| HPSeg (op : seg_op) (has_var : bool) (v : hvar) (id : Z) (seconds : Z) (now : hvar)
| HPGeo (has_radius : bool) (lat lon radius : flt) (latv lonv : hvar)
| HPStr (op : str_op) (v : hvar) (pattern : hstr).
(** A node at the address [a]. *)
Inductive hexpr :=
| HLeaf (a : Z) (g : N) (p : hleaf)
| HAnd (a : Z) (g : N) (x y : hexpr)
| HOr (a : Z) (g : N) (x y : hexpr)
| HNot (a : Z) (g : N) (x : hexpr).

(** Where a node is. *)
Definition h_at (e : hexpr) : Z := match e with HLeaf a _ _ | HAnd a _ _ _ | HOr a _ _ _ | HNot a _ _ => a end.

(** ** What the pointers point to: the expressions of Ast.v *)
Definition er_var (v : hvar) : avar := mkAV (hs_text (hv_attr v)) (hv_var v).
Definition er_sval (s : hsval) : sval := mkS (hs_text (hw_string s)) (hw_str s).
Definition er_strs (l : hstrs) : list sval := map er_sval (hl_items l).
Definition er_qval (q : hqval) : qval :=
  match q with HQInt z => QInt z | HQFloat f => QFloat f | HQStr s => QStr (er_sval s) | HQIEnum e => QIEnum e end.
Definition er_left (l : hleft) : set_left :=
  match l with HLInt z => SLInt z | HLStr s => SLStr (er_sval s) | HLVar v => SLVar (er_var v) end.
Definition er_right (r : hright) : set_right :=
  match r with HRInts l => SRInts (hi_items l) | HRStrs l => SRStrs (er_strs l) | HRVar v => SRVar (er_var v) end.
Definition er_lval (l : hlval) : lval := match l with HVInts l => LInts (hi_items l) | HVStrs l => LStrs (er_strs l) end.
Definition er_leaf (p : hleaf) : leaf :=
  match p with
  | HPLit b => PLit b
  | HPVar v => PVar (er_var v)
  | HPCmp op v c => PCmp op (er_var v) c
  | HPEq op v q => PEq op (er_var v) (er_qval q)
  | HPSet op l r => PSet op (er_left l) (er_right r)
  | HPList op v l => PList op (er_var v) (er_lval l)
  | HPNull op v => PNull op (er_var v)
  | HPFreq v ty ns value len now id => PFreq (er_var v) ty (er_sval ns) value len (er_var now) id
  | HPSeg op h v id sec now => PSeg op h (er_var v) id sec (er_var now)
  | HPGeo h lat lon r latv lonv => PGeo h lat lon r (er_var latv) (er_var lonv)
  | HPStr op v p => PStr op (er_var v) (hs_text p)
  end.
Fixpoint er_expr (e : hexpr) : expr :=
  match e with
  | HLeaf _ g p => ELeaf g (er_leaf p)
  | HAnd _ g x y => EAnd g (er_expr x) (er_expr y)
  | HOr _ g x y => EOr g (er_expr x) (er_expr y)
  | HNot _ g x => ENot g (er_expr x)
  end.

(** ** Making *)
(** alloc.c 20-30 [bstrdup]: reads the string. *)
Definition bstrdup (s : hstr) : cmd hstr := on _ <- use (hs_at s); on a <- malloc; ret (mkHS a (hs_text s)).
(** The same of a string constant of the program. *)
Definition bstrdup_lit (s : string) : cmd hstr := on a <- malloc; ret (mkHS a s).
(** tree.c 1823-1834 [make_attr_var] without a config. *)
Definition h_make_attr_var (s : hstr) : cmd hvar := on c <- bstrdup s; ret (mkHV c INVALID_VAR).
Definition h_make_attr_lit (s : string) : cmd hvar := on c <- bstrdup_lit s; ret (mkHV c INVALID_VAR).
(** ast.c 21-31 [ast_node_create] and the assignment of the members. *)
Definition h_leaf (p : hleaf) : cmd hexpr := on a <- malloc; ret (HLeaf a INVALID_PRED p).

(** value.c 12-20 [make_integer_list]. *)
Definition h_make_ints : cmd hints := on a <- malloc; ret (mkHI a 0 []).
(** value.c 52-71 [add_integer_list_value]. *)
Definition h_add_int (z : Z) (l : hints) : cmd hints :=
  on _ <- use (hi_at l);
  match hi_items l with
  | [] => on b <- malloc; ret (mkHI (hi_at l) b [z])
  | _ => on b <- realloc (hi_arr l); ret (mkHI (hi_at l) b (hi_items l ++ [z]))
  end.
(** value.c 22-30 [make_string_list]. *)
Definition h_make_strs : cmd hstrs := on a <- malloc; ret (mkHL a 0 []).
(** value.c 94-114 [add_string_list_value]. *)
Definition h_add_str (s : hsval) (l : hstrs) : cmd hstrs :=
  on _ <- use (hl_at l);
  match hl_items l with
  | [] => on b <- malloc; ret (mkHL (hl_at l) b [s])
  | _ => on b <- realloc (hl_arr l); ret (mkHL (hl_at l) b (hl_items l ++ [s]))
  end.

(** ast.c 102-135 [score_node]: reads the nodes of connectives and predicates. *)
Fixpoint h_score (e : hexpr) : cmd Z :=
  on _ <- use (h_at e);
  match e with
  | HLeaf _ _ p => ret (score_leaf (er_leaf p))
  | HAnd _ _ x y | HOr _ _ x y => on a <- h_score x; on b <- h_score y; ret (a + b)
  | HNot _ _ x => h_score x
  end.
(** ast.c 33-40 [ast_is_null_expr_create], 42-51 [ast_compare_expr_create], 53-62 [ast_equality_expr_create], 79-84
    [ast_bool_expr_variable_create], 166-175 [ast_list_expr_create]: the node is allocated before its name. *)
Definition h_named (f : hvar -> hleaf) (name : hstr) : cmd hexpr :=
  on a <- malloc; on v <- h_make_attr_var name; ret (HLeaf a INVALID_PRED (f v)).
(** ast.c 137-152 [ast_bool_expr_binary_create]. *)
Definition h_binary (mk : Z -> N -> hexpr -> hexpr -> hexpr) (x y : hexpr) : cmd hexpr :=
  on a <- malloc; on sx <- h_score x; on sy <- h_score y;
  ret (if sy <? sx then mk a INVALID_PRED y x else mk a INVALID_PRED x y).
(** ast.c 86-91 [ast_bool_expr_unary_create]. *)
Definition h_unary (x : hexpr) : cmd hexpr := on a <- malloc; ret (HNot a INVALID_PRED x).
(** ast.c 183-202 [ast_special_frequency_create]: strcmp reads the type (value.c 216-249). *)
Definition h_freq (stype : hstr) (ns : hsval) (value length : Z) : cmd hexpr :=
  on _ <- use (hs_at stype);
  on a <- malloc; on v <- h_make_attr_lit "frequency_caps"; on now <- h_make_attr_lit "now";
  ret (HLeaf a INVALID_PRED
    (HPFreq v (get_type_from_string (hs_text stype)) ns value (to_uint 64 length) now (2 ^ 32 - 1))).
(** ast.c 204-221 [ast_special_segment_create]. *)
Definition h_seg (op : seg_op) (name : option hstr) (id seconds : Z) : cmd hexpr :=
  on a <- malloc;
  match name with
  | None =>
      on v <- h_make_attr_lit "segments_with_timestamp"; on now <- h_make_attr_lit "now";
      ret (HLeaf a INVALID_PRED (HPSeg op false v (to_uint 64 id) seconds now))
  | Some n =>
      on v <- h_make_attr_var n; on now <- h_make_attr_lit "now";
      ret (HLeaf a INVALID_PRED (HPSeg op true v (to_uint 64 id) seconds now))
  end.
(** ast.c 223-240 [ast_special_geo_create]. *)
Definition h_geo (lat lon radius : flt) : cmd hexpr :=
  on a <- malloc; on latv <- h_make_attr_lit "latitude"; on lonv <- h_make_attr_lit "longitude";
  ret (HLeaf a INVALID_PRED (HPGeo true lat lon radius latv lonv)).
(** ast.c 242-251 [ast_special_string_create]. *)
Definition h_string (op : str_op) (name pattern : hstr) : cmd hexpr :=
  on a <- malloc; on v <- h_make_attr_var name; on p <- bstrdup pattern;
  ret (HLeaf a INVALID_PRED (HPStr op v p)).

(** ** Releasing *)
(** tree.c 1836-1839 [free_attr_var]. *)
Definition h_free_var (v : hvar) : cmd unit := free (hs_at (hv_attr v)).
(** bfree of the string of a [struct string_value]. *)
Definition h_free_sval (s : hsval) : cmd unit := free (hs_at (hw_string s)).
(** value.c 251-255 [free_integer_list]. *)
Definition h_free_ints (l : hints) : cmd unit := on _ <- use (hi_at l); on _ <- free (hi_arr l); free (hi_at l).
(** value.c 257-264 [free_string_list]. *)
Definition h_free_strs (l : hstrs) : cmd unit :=
  on _ <- use (hl_at l); on _ <- each h_free_sval (hl_items l); on _ <- free (hl_arr l); free (hl_at l).
(** ast.c 277-308 [free_set_expr]. *)
Definition h_free_left (l : hleft) : cmd unit :=
  match l with HLInt _ => ret tt | HLStr s => h_free_sval s | HLVar v => h_free_var v end.
Definition h_free_right (r : hright) : cmd unit :=
  match r with HRInts l => h_free_ints l | HRStrs l => h_free_strs l | HRVar v => h_free_var v end.
(** ast.c 310-324 [free_list_expr]: the list. *)
Definition h_free_lval (l : hlval) : cmd unit := match l with HVInts l => h_free_ints l | HVStrs l => h_free_strs l end.
(** ast.c 253-275 [free_special_expr], 278-326, 326-374 [free_ast_node]: what a predicate holds. *)
Definition h_free_leaf (p : hleaf) : cmd unit :=
  match p with
  | HPLit _ => ret tt
  | HPVar v | HPNull _ v | HPCmp _ v _ => h_free_var v
  | HPEq _ v q => on _ <- h_free_var v; match q with HQStr s => h_free_sval s | _ => ret tt end
  | HPSet _ l r => on _ <- h_free_left l; h_free_right r
  | HPList _ v l => on _ <- h_free_lval l; h_free_var v
  | HPFreq v _ ns _ _ now _ => on _ <- h_free_var v; on _ <- h_free_var now; h_free_sval ns
  | HPSeg _ _ v _ _ now => on _ <- h_free_var v; h_free_var now
  | HPGeo _ _ _ _ latv lonv => on _ <- h_free_var latv; h_free_var lonv
  | HPStr _ v p => on _ <- h_free_var v; free (hs_at p)
  end.
(** ast.c 326-374 [free_ast_node] of a pointer that is not NULL. *)
Fixpoint h_free (e : hexpr) : cmd unit :=
  on _ <- use (h_at e);
  on _ <- match e with
          | HLeaf _ _ p => h_free_leaf p
          | HAnd _ _ x y | HOr _ _ x y => on _ <- h_free x; h_free y
          | HNot _ _ x => h_free x
          end;
  free (h_at e).

(** ** Copying (clone.c) *)
(** clone.c 8-12 [clone_attr_var]. *)
Definition h_clone_var (v : hvar) : cmd hvar := on s <- bstrdup (hv_attr v); ret (mkHV s (hv_var v)).
(** clone.c 41-45 [clone_string_value]. *)
Definition h_clone_sval (s : hsval) : cmd hsval := on c <- bstrdup (hw_string s); ret (mkHSV c (hw_str s)).
(** clone.c 130-139 [clone_integer_list], 141-151 [clone_string_list]. *)
Definition h_clone_ints (l : hints) : cmd hints :=
  on a <- malloc; on _ <- use (hi_at l); on b <- malloc;
  on _ <- match hi_items l with [] => ret tt | _ => use (hi_arr l) end;
  ret (mkHI a b (hi_items l)).
Definition h_clone_strs (l : hstrs) : cmd hstrs :=
  on a <- malloc; on _ <- use (hl_at l); on b <- malloc;
  on _ <- match hl_items l with [] => ret tt | _ => use (hl_arr l) end;
  on items <- collect h_clone_sval (hl_items l); ret (mkHL a b items).
(** clone.c 47-66 [clone_equality_value]. *)
Definition h_clone_qval (q : hqval) : cmd hqval :=
  match q with HQStr s => on c <- h_clone_sval s; ret (HQStr c) | _ => ret q end.
(** clone.c 112-128 [clone_set_left_value], 153-170 [clone_set_right_value], 184-198 [clone_list_value]. *)
Definition h_clone_left (l : hleft) : cmd hleft :=
  match l with
  | HLInt z => ret (HLInt z)
  | HLStr s => on c <- h_clone_sval s; ret (HLStr c)
  | HLVar v => on c <- h_clone_var v; ret (HLVar c)
  end.
Definition h_clone_right (r : hright) : cmd hright :=
  match r with
  | HRInts l => on c <- h_clone_ints l; ret (HRInts c)
  | HRStrs l => on c <- h_clone_strs l; ret (HRStrs c)
  | HRVar v => on c <- h_clone_var v; ret (HRVar c)
  end.
Definition h_clone_lval (l : hlval) : cmd hlval :=
  match l with HVInts l => on c <- h_clone_ints l; ret (HVInts c) | HVStrs l => on c <- h_clone_strs l; ret (HVStrs c) end.
(** A variable of a fresh node: bcalloc left NULL and 0. *)
Definition h_no_var : hvar := mkHV (mkHS 0 "") 0.
(** clone.c 29-39 [clone_compare], 68-78 [clone_equality], 172-182 [clone_set], 200-210 [clone_list], 212-248 [clone_special],
    250-259 [clone_is_null], 80-110 [clone_bool] of a variable or literal: what is copied into the fresh node. *)
Definition h_clone_leaf (p : hleaf) : cmd hleaf :=
  match p with
  | HPLit b => ret (HPLit b)
  | HPVar v => on c <- h_clone_var v; ret (HPVar c)
  | HPCmp op v c => on w <- h_clone_var v; ret (HPCmp op w c)
  | HPEq op v q => on w <- h_clone_var v; on c <- h_clone_qval q; ret (HPEq op w c)
  | HPSet op l r => on c <- h_clone_left l; on d <- h_clone_right r; ret (HPSet op c d)
  | HPList op v l => on w <- h_clone_var v; on c <- h_clone_lval l; ret (HPList op w c)
  | HPNull op v => on w <- h_clone_var v; ret (HPNull op w)
  | HPFreq v ty ns value len _ _ =>
      on w <- h_clone_var v; on c <- h_clone_sval ns; ret (HPFreq w ty c value len h_no_var 0)
  | HPSeg op h v id seconds _ => on w <- h_clone_var v; ret (HPSeg op h w id seconds h_no_var)
  | HPGeo h lat lon r _ _ => ret (HPGeo h lat lon r h_no_var h_no_var)
  | HPStr op v p => on w <- h_clone_var v; on c <- bstrdup p; ret (HPStr op w c)
  end.
(** clone.c 261-289 [clone_node], 80-110 [clone_bool]. *)
Fixpoint h_clone (e : hexpr) : cmd hexpr :=
  on _ <- use (h_at e); on a <- malloc;
  match e with
  | HLeaf _ g p => on q <- h_clone_leaf p; ret (HLeaf a g q)
  | HAnd _ g x y => on u <- h_clone x; on v <- h_clone y; ret (HAnd a g u v)
  | HOr _ g x y => on u <- h_clone x; on v <- h_clone y; ret (HOr a g u v)
  | HNot _ g x => on u <- h_clone x; ret (HNot a g u)
  end.

(** ** The generated parser *)
Section Parser.
Context {K V R : Type}.
Variables (P : ptables) (code : K -> Z) (scan : K -> cmd V) (garbage : V).
Variable act : Z -> list V -> cmd (V * option R).

(** yychar and yylval: the value of the next token if it was read (YYEMPTY: None; the end of the text has no value).  It is
    read unless the state has only a default action (parser.c 1359-1371). *)
Definition fetch (q : Z) (la : option V) (ts : list K) : cmd (option V) :=
  on p <- fail (at_ (p_pact P) q);
  if p =? p_ninf P then ret la else
  match la, ts with
  | None, t :: _ => on v <- scan t; ret (Some v)
  | _, _ => ret la
  end.
(** parser.c 1415-1936 (yyreduce). *)
Definition h_reduce (k : Z) (st : list (Z * V)) (r : option R) : cmd (list (Z * V) * option R) :=
  on n <- fail (at_ (p_r2 P) k);
  on '(vs, st') <- fail (pop (Z.to_nat n) st []);
  on '(v, o) <- act k vs;
  on x <- fail (at_ (p_r1 P) k);
  match st' with
  | [] => fail UB
  | (q, _) :: _ =>
      on q' <- fail (goto_of P q x);
      ret ((q', v) :: st', match o with Some r' => Some r' | None => r end)
  end.
(** Where a run ends: the outcome, what was stored in *root, the values on the stack, yylval, the tokens not shifted. *)
Record left_behind := mkLeft {
  lb_out : outcome (R := R); lb_root : option R; lb_stack : list (Z * V); lb_la : option V; lb_rest : list K }.
(** One round (parser.c 1284-2130), as in Bison.v.  yydestruct (1180-1196), called for what is on the stack at the end, does
    nothing: the grammars have no %destructor. *)
Definition h_step (st : list (Z * V)) (la : option V) (ts : list K) (r : option R) :
  cmd (left_behind + list (Z * V) * option V * list K * option R) :=
  match st with
  | [] => fail UB
  | (q, _) :: _ =>
      if YYMAXDEPTH <=? Z.of_nat (List.length st) then ret (inl (mkLeft Exhausted r st la ts)) else
      if q =? p_final P then ret (inl (mkLeft (Accepted r) r st la ts)) else
      on la <- fetch q la ts;
      on mv <- fail (move_of P q (lookahead P code ts));
      match mv with
      | Error => ret (inl (mkLeft Rejected r st la ts))
      | Shift q' =>
          match ts, la with
          | [], _ => ret (inr ((q', garbage) :: st, None, [], r))
          | _ :: ts', Some v => ret (inr ((q', v) :: st, None, ts', r))
          | _, _ => fail UB
          end
      | Reduce k => on '(st', r') <- h_reduce k st r; ret (inr (st', la, ts, r'))
      end
  end.
Fixpoint h_run (n : nat) (st : list (Z * V)) (la : option V) (ts : list K) (r : option R) : cmd left_behind :=
  match n with
  | O => fail Fuel
  | S n' => on x <- h_step st la ts r;
            match x with inl o => ret o | inr (st', la', ts', r') => h_run n' st' la' ts' r' end
  end.
Definition h_yyparse (n : nat) (ts : list K) : cmd left_behind := h_run n [(0, garbage)] None ts None.
End Parser.
Arguments mkLeft {K V R}. Arguments lb_out {K V R}. Arguments lb_root {K V R}. Arguments lb_stack {K V R}.
Arguments lb_la {K V R}. Arguments lb_rest {K V R}.

(** parser.h [YYSTYPE] (parser.y 35-51). *)
Inductive hval :=
| HTok | HString (s : hstr) | HInt (z : Z) | HFlt (f : flt) | HInts (l : hints) | HStrs (l : hstrs)
| HStr (s : hsval) | HCmp (c : cval) | HEq (q : hqval) | HVar (v : hvar) | HLeft (l : hleft) | HRight (r : hright)
| HList (l : hlval) | HNode (e : hexpr).
(** lexer.l 6-14: SAVE_STRING and SAVE_IDENTIFIER allocate. *)
Definition xp_scan (t : token) : cmd hval :=
  match t with
  | KStr s => on a <- malloc; ret (HString (mkHS a s))
  | KIdent s => on a <- malloc; ret (HString (mkHS a s))
  | KInt z => ret (HInt z)
  | KFlt f => ret (HFlt f)
  | _ => ret HTok
  end.

Definition h_arg (vs : list hval) (i : nat) : cmd hval := fail (arg vs i).
Definition a_string vs i : cmd hstr := on v <- h_arg vs i; match v with HString s => ret s | _ => fail UB end.
Definition a_int vs i : cmd Z := on v <- h_arg vs i; match v with HInt z => ret z | _ => fail UB end.
Definition a_flt vs i : cmd flt := on v <- h_arg vs i; match v with HFlt f => ret f | _ => fail UB end.
Definition a_ints vs i : cmd hints := on v <- h_arg vs i; match v with HInts l => ret l | _ => fail UB end.
Definition a_strs vs i : cmd hstrs := on v <- h_arg vs i; match v with HStrs l => ret l | _ => fail UB end.
Definition a_str vs i : cmd hsval := on v <- h_arg vs i; match v with HStr s => ret s | _ => fail UB end.
Definition a_cmp vs i : cmd cval := on v <- h_arg vs i; match v with HCmp c => ret c | _ => fail UB end.
Definition a_eq vs i : cmd hqval := on v <- h_arg vs i; match v with HEq q => ret q | _ => fail UB end.
Definition a_var vs i : cmd hvar := on v <- h_arg vs i; match v with HVar x => ret x | _ => fail UB end.
Definition a_left vs i : cmd hleft := on v <- h_arg vs i; match v with HLeft l => ret l | _ => fail UB end.
Definition a_right vs i : cmd hright := on v <- h_arg vs i; match v with HRight r => ret r | _ => fail UB end.
Definition a_list vs i : cmd hlval := on v <- h_arg vs i; match v with HList l => ret l | _ => fail UB end.
Definition a_node vs i : cmd hexpr := on v <- h_arg vs i; match v with HNode e => ret e | _ => fail UB end.

(** `{ $$ = create($i, …); bfree($i); }` *)
Definition named_and_free (f : hvar -> hleaf) (s : hstr) : cmd hval :=
  on e <- h_named f s; on _ <- free (hs_at s); ret (HNode e).
(** parser.y 222, 224, 226. *)
Definition string_and_free (op : str_op) (vs : list hval) : cmd hval :=
  on s <- a_string vs 3; on p <- a_str vs 5; on e <- h_string op s (hw_string p);
  on _ <- free (hs_at s); on _ <- free (hs_at (hw_string p)); ret (HNode e).
(** parser.c 1451-1898: the actions by rule (parser.y 96-227). *)
Definition hx_act0 (k : Z) (vs : list hval) : cmd hval :=
  match k with
  | 2 => on e <- a_node vs 1; ret (HNode e)
  | 3 => on s <- a_string vs 1; ret (HString s)
  | 4 => on z <- a_int vs 1; ret (HInt z)
  | 5 => on z <- a_int vs 2; ret (HInt (- z))
  | 6 => on f <- a_flt vs 1; ret (HFlt f)
  | 7 => on f <- a_flt vs 2; ret (HFlt (fopp f))
  | 8 => on s <- a_string vs 1; on c <- bstrdup s; on _ <- free (hs_at s); ret (HStr (mkHSV c INVALID_STR))
  | 9 => on l <- a_ints vs 2; ret (HInts l)
  | 10 => on z <- a_int vs 1; on l <- h_make_ints; on l <- h_add_int z l; ret (HInts l)
  | 11 => on z <- a_int vs 3; on l <- a_ints vs 1; on l <- h_add_int z l; ret (HInts l)
  | 12 => on l <- a_strs vs 2; ret (HStrs l)
  | 13 => on s <- a_str vs 1; on l <- h_make_strs; on l <- h_add_str s l; ret (HStrs l)
  | 14 => on s <- a_str vs 3; on l <- a_strs vs 1; on l <- h_add_str s l; ret (HStrs l)
  | 15 => on e <- a_node vs 2; ret (HNode e)
  | 16 | 17 | 18 | 19 | 20 | 21 | 22 => on e <- a_node vs 1; ret (HNode e)
  | 23 => on s <- a_string vs 1; named_and_free (HPNull NIsNull) s
  | 24 => on s <- a_string vs 1; named_and_free (HPNull NIsNotNull) s
  | 25 => on s <- a_string vs 1; named_and_free (HPNull NIsEmpty) s
  | 26 => on z <- a_int vs 1; ret (HCmp (CInt z))
  | 27 => on f <- a_flt vs 1; ret (HCmp (CFloat f))
  | 28 => on s <- a_string vs 1; on c <- a_cmp vs 3; named_and_free (fun v => HPCmp CGt v c) s
  | 29 => on s <- a_string vs 1; on c <- a_cmp vs 3; named_and_free (fun v => HPCmp CGe v c) s
  | 30 => on s <- a_string vs 1; on c <- a_cmp vs 3; named_and_free (fun v => HPCmp CLt v c) s
  | 31 => on s <- a_string vs 1; on c <- a_cmp vs 3; named_and_free (fun v => HPCmp CLe v c) s
  | 32 => on s <- a_string vs 3; on c <- a_cmp vs 1; named_and_free (fun v => HPCmp CGt v c) s
  | 33 => on s <- a_string vs 3; on c <- a_cmp vs 1; named_and_free (fun v => HPCmp CGe v c) s
  | 34 => on s <- a_string vs 3; on c <- a_cmp vs 1; named_and_free (fun v => HPCmp CLt v c) s
  | 35 => on s <- a_string vs 3; on c <- a_cmp vs 1; named_and_free (fun v => HPCmp CLe v c) s
  | 36 => on z <- a_int vs 1; ret (HEq (HQInt z))
  | 37 => on f <- a_flt vs 1; ret (HEq (HQFloat f))
  | 38 => on s <- a_str vs 1; ret (HEq (HQStr s))
  | 39 => on s <- a_string vs 1; on q <- a_eq vs 3; named_and_free (fun v => HPEq QEq v q) s
  | 40 => on s <- a_string vs 1; on q <- a_eq vs 3; named_and_free (fun v => HPEq QNe v q) s
  | 41 => on s <- a_string vs 3; on q <- a_eq vs 1; named_and_free (fun v => HPEq QEq v q) s
  | 42 => on s <- a_string vs 3; on q <- a_eq vs 1; named_and_free (fun v => HPEq QNe v q) s
  | 43 => on s <- a_string vs 1; on v <- h_make_attr_var s; on _ <- free (hs_at s); ret (HVar v)
  | 44 => on z <- a_int vs 1; ret (HLeft (HLInt z))
  | 45 => on s <- a_str vs 1; ret (HLeft (HLStr s))
  | 46 => on x <- a_var vs 1; ret (HLeft (HLVar x))
  | 47 => on l <- a_ints vs 1; ret (HRight (HRInts l))
  | 48 => on l <- a_strs vs 1; ret (HRight (HRStrs l))
  | 49 => on x <- a_var vs 1; ret (HRight (HRVar x))
  | 50 => on l <- a_left vs 1; on r <- a_right vs 3; on e <- h_leaf (HPSet SNotIn l r); ret (HNode e)
  | 51 => on l <- a_left vs 1; on r <- a_right vs 3; on e <- h_leaf (HPSet SIn l r); ret (HNode e)
  | 52 => on l <- a_ints vs 1; ret (HList (HVInts l))
  | 53 => on l <- a_strs vs 1; ret (HList (HVStrs l))
  | 54 => on s <- a_string vs 1; on l <- a_list vs 3; named_and_free (fun v => HPList LOneOf v l) s
  | 55 => on s <- a_string vs 1; on l <- a_list vs 3; named_and_free (fun v => HPList LNoneOf v l) s
  | 56 => on s <- a_string vs 1; on l <- a_list vs 3; named_and_free (fun v => HPList LAllOf v l) s
  | 57 => on x <- a_node vs 1; on y <- a_node vs 3; on e <- h_binary HAnd x y; ret (HNode e)
  | 58 => on x <- a_node vs 1; on y <- a_node vs 3; on e <- h_binary HOr x y; ret (HNode e)
  | 59 => on x <- a_node vs 2; on e <- h_unary x; ret (HNode e)
  | 60 => on s <- a_string vs 1; named_and_free HPVar s
  | 61 => on e <- h_leaf (HPLit true); ret (HNode e)
  | 62 => on e <- h_leaf (HPLit false); ret (HNode e)
  | 63 | 64 | 65 | 66 => on e <- a_node vs 1; ret (HNode e)
  | 67 => on ty <- a_string vs 3; on ns <- a_str vs 5; on v <- a_int vs 7; on n <- a_int vs 9;
          on e <- h_freq ty ns v n; on _ <- free (hs_at ty); ret (HNode e)
  | 68 => on i <- a_int vs 3; on n <- a_int vs 5; on e <- h_seg SegWithin None i n; ret (HNode e)
  | 69 => on s <- a_string vs 3; on i <- a_int vs 5; on n <- a_int vs 7;
          on e <- h_seg SegWithin (Some s) i n; on _ <- free (hs_at s); ret (HNode e)
  | 70 => on i <- a_int vs 3; on n <- a_int vs 5; on e <- h_seg SegBefore None i n; ret (HNode e)
  | 71 => on s <- a_string vs 3; on i <- a_int vs 5; on n <- a_int vs 7;
          on e <- h_seg SegBefore (Some s) i n; on _ <- free (hs_at s); ret (HNode e)
  | 72 => on a <- a_int vs 3; on b <- a_int vs 5; on c <- a_int vs 7; on e <- h_geo (f_of_Z a) (f_of_Z b) (f_of_Z c); ret (HNode e)
  | 73 => on a <- a_flt vs 3; on b <- a_flt vs 5; on c <- a_flt vs 7; on e <- h_geo a b c; ret (HNode e)
  | 74 => string_and_free StContains vs
  | 75 => string_and_free StStartsWith vs
  | 76 => string_and_free StEndsWith vs
  | _ => h_arg vs 1
  end.
(** Rule 2 stores the expression ( *root = $1). *)
Definition hx_act (k : Z) (vs : list hval) : cmd (hval * option hexpr) :=
  on v <- hx_act0 k vs; ret (v, match k, v with 2, HNode e => Some e | _, _ => None end).
(** parser.c 1202-2130 [yyparse] (xxparse). *)
Definition h_xxparse (ts : list token) : cmd (left_behind (K := token) (V := hval) (R := hexpr)) :=
  h_yyparse xp_tables xp_code xp_scan HTok hx_act (10 * List.length ts + 10) ts.
(** parser.y 237-255 [parse]: None stands for the result -1.  The blocks of the scanner are in FlexBuffer.v. *)
Definition h_parse (text : string) : cmd (option hexpr) :=
  on ts <- fail (x_lex text); on o <- h_xxparse ts;
  ret (match lb_out o with Accepted r => r | _ => None end).
