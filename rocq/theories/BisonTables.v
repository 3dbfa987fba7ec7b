(** The tables and actions of the two generated parsers. *)
From Coq Require Import ZArith NArith String Bool List.
From Verif Require Import Base Float Value Ast Lexer Flex FlexTables Bison.
Import ListNotations.
Local Open Scope Z_scope.
Local Open Scope res_scope.

(** ** Expressions (parser.c) *)
(** parser.c 516-548 [yytranslate]. *)
Definition xp_translate : list Z :=
  [0; 2; 2; 2; 2; 2; 2; 2; 2; 2; 2; 2; 2; 2; 2; 2; 2; 2; 2; 2; 2; 2; 2; 2; 2; 2; 2; 2; 2; 2; 2; 2; 2; 2; 2; 2;
    2; 2; 2; 2; 2; 2; 2; 2; 2; 2; 2; 2; 2; 2; 2; 2; 2; 2; 2; 2; 2; 2; 2; 2; 2; 2; 2; 2; 2; 2; 2; 2; 2; 2; 2; 2;
    2; 2; 2; 2; 2; 2; 2; 2; 2; 2; 2; 2; 2; 2; 2; 2; 2; 2; 2; 2; 2; 2; 2; 2; 2; 2; 2; 2; 2; 2; 2; 2; 2; 2; 2; 2;
    2; 2; 2; 2; 2; 2; 2; 2; 2; 2; 2; 2; 2; 2; 2; 2; 2; 2; 2; 2; 2; 2; 2; 2; 2; 2; 2; 2; 2; 2; 2; 2; 2; 2; 2; 2;
    2; 2; 2; 2; 2; 2; 2; 2; 2; 2; 2; 2; 2; 2; 2; 2; 2; 2; 2; 2; 2; 2; 2; 2; 2; 2; 2; 2; 2; 2; 2; 2; 2; 2; 2; 2;
    2; 2; 2; 2; 2; 2; 2; 2; 2; 2; 2; 2; 2; 2; 2; 2; 2; 2; 2; 2; 2; 2; 2; 2; 2; 2; 2; 2; 2; 2; 2; 2; 2; 2; 2; 2;
    2; 2; 2; 2; 2; 2; 2; 2; 2; 2; 2; 2; 2; 2; 2; 2; 2; 2; 2; 2; 2; 2; 2; 2; 2; 2; 2; 2; 2; 2; 2; 2; 2; 2; 2; 2;
    2; 2; 2; 2; 1; 2; 3; 4; 5; 6; 7; 8; 9; 10; 11; 12; 13; 14; 15; 16; 17; 18; 19; 20; 21; 22; 23; 24; 25; 26;
    27; 28; 29; 30; 31; 32; 33; 34; 35; 36].
(** parser.c 610-629 [yypact]. *)
Definition xp_pact : list Z :=
  [15; (-8); 15; 15; (-5); 7; 21; 33; 47; 76; 93; (-44); (-44); (-44); (-44); (-44); (-44); 105; 134; 65; 63;
    41; 53; (-44); 87; (-44); 77; (-44); (-44); 86; (-44); (-44); (-44); (-44); (-44); (-44); (-44); (-44);
    (-44); (-44); 73; (-44); 0; 10; 10; 26; 83; 83; 83; (-44); 23; 23; 26; 26; 26; 26; 101; 101; 101; (-44);
    (-44); (-44); 15; 15; 83; 83; 83; 83; 83; 83; (-4); (-4); (-44); 85; 72; 144; 145; 146; 147; 148; 149; 153;
    154; 155; (-44); (-44); (-44); (-44); (-44); (-44); (-44); (-44); (-44); (-44); (-44); 50; (-44); (-44);
    (-44); (-44); (-44); (-44); 128; (-44); (-44); (-44); (-44); (-44); (-44); (-44); (-44); (-44); (-44);
    (-44); (-44); 135; 31; 31; 31; 31; 31; 29; 135; 135; 135; (-44); (-44); 104; 113; 157; 158; 160; 161; 163;
    164; 136; 165; 167; 168; 169; (-44); 31; (-44); 135; 31; 31; (-44); 31; (-44); 31; 29; (-44); (-44); (-44);
    (-44); (-44); 170; 172; 173; 174; 175; 31; (-44); (-44); (-44); (-44); 176; (-44)].
(** parser.c 634-653 [yydefact]. *)
Definition xp_defact : list Z :=
  [0; 0; 0; 0; 0; 0; 0; 0; 0; 0; 0; 61; 62; 8; 3; 4; 6; 0; 60; 26; 27; 38; 2; 22; 0; 16; 0; 17; 46; 0; 18; 19;
    20; 21; 63; 64; 65; 66; 5; 7; 0; 59; 0; 0; 0; 0; 0; 0; 0; 1; 0; 0; 0; 0; 0; 0; 0; 0; 0; 24; 23; 25; 0; 0; 0;
    0; 0; 0; 0; 0; 0; 0; 15; 0; 0; 0; 0; 0; 0; 0; 0; 0; 0; 0; 36; 37; 38; 39; 40; 26; 27; 28; 29; 30; 31; 0; 52;
    53; 54; 55; 56; 57; 58; 34; 35; 32; 33; 41; 42; 43; 47; 48; 49; 50; 51; 0; 0; 0; 0; 0; 0; 0; 0; 0; 0; 10;
    13; 0; 0; 0; 0; 0; 0; 0; 0; 0; 0; 0; 0; 0; 9; 0; 12; 0; 0; 0; 68; 0; 70; 0; 0; 74; 75; 76; 11; 14; 0; 0; 0;
    0; 0; 0; 69; 71; 72; 73; 0; 67].
(** parser.c 656-661 [yypgoto]. *)
Definition xp_pgoto : list Z :=
  [(-44); (-44); 66; (-43); (-31); (-35); 56; (-44); 58; (-44); 1; (-44); 68; (-44); 94; (-44); 82; (-44); 110;
    (-44); 97; (-44); (-44); (-44); (-44); (-44); (-44); (-44)].
(** parser.c 664-669 [yydefgoto]. *)
Definition xp_defgoto : list Z :=
  [(-1); 17; 18; 19; 20; 21; 96; 127; 97; 128; 22; 23; 24; 25; 26; 27; 28; 29; 113; 30; 98; 31; 32; 33; 34; 35;
    36; 37].
(** parser.c 674-695 [yytable]. *)
Definition xp_table : list Z :=
  [76; 78; 79; 40; 41; 42; 95; 84; 84; 89; 89; 89; 89; 74; 80; 86; 86; 43; 1; 85; 85; 90; 90; 90; 90; 2; 1; 38;
    39; 1; 14; 44; 135; 73; 74; 3; 4; 5; 6; 7; 8; 9; 10; 45; 14; 15; 11; 12; 13; 14; 15; 16; 125; 74; (-45);
    (-45); 13; 46; 15; 16; 126; 15; 16; 101; 102; 16; 15; (-37); (-37); (-36); (-36); 62; 63; 130; 131; 132;
    133; 134; (-44); (-44); 129; 68; 69; 13; 72; 15; 47; 137; 138; 139; 136; 62; 63; 64; 65; 66; 67; 115; 154;
    70; 71; 156; 157; 48; 158; 49; 159; 38; 155; 75; 77; 95; 81; 82; 83; 140; 141; 14; 166; 160; 91; 92; 93; 94;
    142; 143; 110; 110; 111; 111; 103; 104; 105; 106; 107; 108; 109; 109; 50; 51; 52; 53; 54; 55; 87; 88; 62;
    (-43); (-43); 56; 57; 58; 112; 112; 99; 100; 116; 117; 118; 119; 120; 121; 59; 60; 61; 122; 123; 124; 13;
    144; 145; 146; 39; 147; 148; 0; 149; 150; 151; 152; 153; 114; 161; 162; 163; 164; 165; 167].
(** parser.c 697-718 [yycheck]. *)
Definition xp_check : list Z :=
  [43; 44; 45; 2; 3; 10; 10; 50; 51; 52; 53; 54; 55; 3; 45; 50; 51; 10; 3; 50; 51; 52; 53; 54; 55; 10; 3; 35;
    36; 3; 34; 10; 3; 33; 3; 20; 21; 22; 23; 24; 25; 26; 27; 10; 34; 35; 31; 32; 33; 34; 35; 36; 95; 3; 13; 14;
    33; 10; 35; 36; 95; 35; 36; 62; 63; 36; 35; 4; 5; 4; 5; 18; 19; 116; 117; 118; 119; 120; 13; 14; 115; 4; 5;
    33; 11; 35; 10; 122; 123; 124; 121; 18; 19; 6; 7; 8; 9; 12; 141; 13; 14; 144; 145; 10; 147; 0; 149; 35; 143;
    43; 44; 10; 46; 47; 48; 11; 12; 34; 161; 150; 52; 53; 54; 55; 11; 12; 70; 71; 70; 71; 64; 65; 66; 67; 68;
    69; 70; 71; 4; 5; 6; 7; 8; 9; 50; 51; 18; 13; 14; 15; 16; 17; 70; 71; 57; 58; 12; 12; 12; 12; 12; 12; 28;
    29; 30; 12; 12; 12; 33; 12; 12; 11; 36; 12; 11; (-1); 12; 12; 11; 11; 11; 71; 12; 11; 11; 11; 11; 11].
(** parser.c 744-754 [yyr1]. *)
Definition xp_r1 : list Z :=
  [0; 37; 38; 39; 40; 40; 41; 41; 42; 43; 44; 44; 45; 46; 46; 47; 47; 47; 47; 47; 47; 47; 47; 48; 48; 48; 49;
    49; 50; 50; 50; 50; 50; 50; 50; 50; 51; 51; 51; 52; 52; 52; 52; 53; 54; 54; 54; 55; 55; 55; 56; 56; 57; 57;
    58; 58; 58; 59; 59; 59; 59; 59; 59; 60; 60; 60; 60; 61; 62; 62; 62; 62; 63; 63; 64; 64; 64].
(** parser.c 757-767 [yyr2]. *)
Definition xp_r2 : list Z :=
  [0; 2; 1; 1; 1; 2; 1; 2; 1; 3; 1; 3; 3; 1; 3; 3; 1; 1; 1; 1; 1; 1; 1; 2; 2; 2; 1; 1; 3; 3; 3; 3; 3; 3; 3; 3;
    1; 1; 1; 3; 3; 3; 3; 1; 1; 1; 1; 1; 1; 1; 3; 3; 1; 1; 3; 3; 3; 3; 3; 2; 1; 1; 1; 1; 1; 1; 1; 10; 6; 8; 6; 8;
    8; 8; 6; 6; 6].
(** parser.c 492-502, 598. *)
Definition xp_tables : ptables :=
  mkPtables xp_translate xp_pact xp_defact xp_pgoto xp_defgoto xp_table xp_check xp_r1 xp_r2 (-44) 187 37 49.

(** parser.h 56-89: the numbers of the tokens. *)
Definition xp_code (t : token) : Z :=
  match t with
  | KMinus => 258 | KEq => 259 | KNe => 260 | KGt => 261 | KGe => 262 | KLt => 263 | KLe => 264
  | KLParen => 265 | KRParen => 266 | KComma => 267 | KNotIn => 268 | KIn => 269 | KOneOf => 270 | KNoneOf => 271
  | KAllOf => 272 | KAnd => 273 | KOr => 274 | KNot => 275 | KFreqCap => 276 | KSegWithin => 277 | KSegBefore => 278
  | KGeo => 279 | KContains => 280 | KStartsWith => 281 | KEndsWith => 282 | KIsNotNull => 283 | KIsNull => 284
  | KIsEmpty => 285 | KTrue => 286 | KFalse => 287 | KStr _ => 288 | KIdent _ => 289 | KInt _ => 290 | KFlt _ => 291
  end.

(** parser.h [YYSTYPE] (parser.y 35-51): the members that are used; reading another member than the one written is undefined. *)
Inductive xval :=
| XTok | XString (s : string) | XInt (z : Z) | XFlt (f : flt) | XInts (l : list Z) | XStrs (l : list string)
| XStr (s : string) | XCmp (c : cval) | XEq (q : qval) | XVar (x : string) | XLeft (l : set_left) | XRight (r : set_right)
| XList (l : lval) | XNode (e : expr).
(** lexer.l 10-24: the value of a token. *)
Definition xp_lval (t : token) : xval :=
  match t with KStr s => XString s | KIdent s => XString s | KInt z => XInt z | KFlt f => XFlt f | _ => XTok end.

(** $1, $2, …: the i-th value, from 1 on. *)
Definition arg {V} (vs : list V) (i : nat) : result V :=
  match nth_error vs (i - 1) with Some v => Ok v | None => UB end.
Definition x_string vs i := do v <- arg vs i; match v with XString s => Ok s | _ => UB end.
Definition x_int vs i := do v <- arg vs i; match v with XInt z => Ok z | _ => UB end.
Definition x_flt vs i := do v <- arg vs i; match v with XFlt f => Ok f | _ => UB end.
Definition x_ints vs i := do v <- arg vs i; match v with XInts l => Ok l | _ => UB end.
Definition x_strs vs i := do v <- arg vs i; match v with XStrs l => Ok l | _ => UB end.
Definition x_str vs i := do v <- arg vs i; match v with XStr s => Ok s | _ => UB end.
Definition x_cmp vs i := do v <- arg vs i; match v with XCmp c => Ok c | _ => UB end.
Definition x_eq vs i := do v <- arg vs i; match v with XEq q => Ok q | _ => UB end.
Definition x_var vs i := do v <- arg vs i; match v with XVar x => Ok x | _ => UB end.
Definition x_left vs i := do v <- arg vs i; match v with XLeft l => Ok l | _ => UB end.
Definition x_right vs i := do v <- arg vs i; match v with XRight r => Ok r | _ => UB end.
Definition x_list vs i := do v <- arg vs i; match v with XList l => Ok l | _ => UB end.
Definition x_node vs i := do v <- arg vs i; match v with XNode e => Ok e | _ => UB end.

(** parser.c 1451-1898: the actions by rule. *)
Definition xp_act0 (k : Z) (vs : list xval) : result xval :=
  match k with
  | 2 => do e <- x_node vs 1; Ok (XNode e)
  | 3 => do s <- x_string vs 1; Ok (XString s)
  | 4 => do z <- x_int vs 1; Ok (XInt z)
  | 5 => do z <- x_int vs 2; Ok (XInt (- z))
  | 6 => do f <- x_flt vs 1; Ok (XFlt f)
  | 7 => do f <- x_flt vs 2; Ok (XFlt (fopp f))
  | 8 => do s <- x_string vs 1; Ok (XStr s)
  | 9 => do l <- x_ints vs 2; Ok (XInts l)
  | 10 => do z <- x_int vs 1; Ok (XInts [z])
  | 11 => do z <- x_int vs 3; do l <- x_ints vs 1; Ok (XInts (l ++ [z]))
  | 12 => do l <- x_strs vs 2; Ok (XStrs l)
  | 13 => do s <- x_str vs 1; Ok (XStrs [s])
  | 14 => do s <- x_str vs 3; do l <- x_strs vs 1; Ok (XStrs (l ++ [s]))
  | 15 => do e <- x_node vs 2; Ok (XNode e)
  | 16 | 17 | 18 | 19 | 20 | 21 | 22 => do e <- x_node vs 1; Ok (XNode e)
  | 23 => do s <- x_string vs 1; Ok (XNode (mk_leaf (PNull NIsNull (mk_var s))))
  | 24 => do s <- x_string vs 1; Ok (XNode (mk_leaf (PNull NIsNotNull (mk_var s))))
  | 25 => do s <- x_string vs 1; Ok (XNode (mk_leaf (PNull NIsEmpty (mk_var s))))
  | 26 => do z <- x_int vs 1; Ok (XCmp (CInt z))
  | 27 => do f <- x_flt vs 1; Ok (XCmp (CFloat f))
  | 28 => do s <- x_string vs 1; do c <- x_cmp vs 3; Ok (XNode (mk_leaf (PCmp CGt (mk_var s) c)))
  | 29 => do s <- x_string vs 1; do c <- x_cmp vs 3; Ok (XNode (mk_leaf (PCmp CGe (mk_var s) c)))
  | 30 => do s <- x_string vs 1; do c <- x_cmp vs 3; Ok (XNode (mk_leaf (PCmp CLt (mk_var s) c)))
  | 31 => do s <- x_string vs 1; do c <- x_cmp vs 3; Ok (XNode (mk_leaf (PCmp CLe (mk_var s) c)))
  | 32 => do s <- x_string vs 3; do c <- x_cmp vs 1; Ok (XNode (mk_leaf (PCmp CGt (mk_var s) c)))
  | 33 => do s <- x_string vs 3; do c <- x_cmp vs 1; Ok (XNode (mk_leaf (PCmp CGe (mk_var s) c)))
  | 34 => do s <- x_string vs 3; do c <- x_cmp vs 1; Ok (XNode (mk_leaf (PCmp CLt (mk_var s) c)))
  | 35 => do s <- x_string vs 3; do c <- x_cmp vs 1; Ok (XNode (mk_leaf (PCmp CLe (mk_var s) c)))
  | 36 => do z <- x_int vs 1; Ok (XEq (QInt z))
  | 37 => do f <- x_flt vs 1; Ok (XEq (QFloat f))
  | 38 => do s <- x_str vs 1; Ok (XEq (QStr (mk_str s)))
  | 39 => do s <- x_string vs 1; do q <- x_eq vs 3; Ok (XNode (mk_leaf (PEq QEq (mk_var s) q)))
  | 40 => do s <- x_string vs 1; do q <- x_eq vs 3; Ok (XNode (mk_leaf (PEq QNe (mk_var s) q)))
  | 41 => do s <- x_string vs 3; do q <- x_eq vs 1; Ok (XNode (mk_leaf (PEq QEq (mk_var s) q)))
  | 42 => do s <- x_string vs 3; do q <- x_eq vs 1; Ok (XNode (mk_leaf (PEq QNe (mk_var s) q)))
  | 43 => do s <- x_string vs 1; Ok (XVar s)
  | 44 => do z <- x_int vs 1; Ok (XLeft (SLInt z))
  | 45 => do s <- x_str vs 1; Ok (XLeft (SLStr (mk_str s)))
  | 46 => do x <- x_var vs 1; Ok (XLeft (SLVar (mk_var x)))
  | 47 => do l <- x_ints vs 1; Ok (XRight (SRInts l))
  | 48 => do l <- x_strs vs 1; Ok (XRight (SRStrs (map mk_str l)))
  | 49 => do x <- x_var vs 1; Ok (XRight (SRVar (mk_var x)))
  | 50 => do l <- x_left vs 1; do r <- x_right vs 3; Ok (XNode (mk_leaf (PSet SNotIn l r)))
  | 51 => do l <- x_left vs 1; do r <- x_right vs 3; Ok (XNode (mk_leaf (PSet SIn l r)))
  | 52 => do l <- x_ints vs 1; Ok (XList (LInts l))
  | 53 => do l <- x_strs vs 1; Ok (XList (LStrs (map mk_str l)))
  | 54 => do s <- x_string vs 1; do l <- x_list vs 3; Ok (XNode (mk_leaf (PList LOneOf (mk_var s) l)))
  | 55 => do s <- x_string vs 1; do l <- x_list vs 3; Ok (XNode (mk_leaf (PList LNoneOf (mk_var s) l)))
  | 56 => do s <- x_string vs 1; do l <- x_list vs 3; Ok (XNode (mk_leaf (PList LAllOf (mk_var s) l)))
  | 57 => do a <- x_node vs 1; do b <- x_node vs 3; Ok (XNode (mk_and a b))
  | 58 => do a <- x_node vs 1; do b <- x_node vs 3; Ok (XNode (mk_or a b))
  | 59 => do a <- x_node vs 2; Ok (XNode (mk_not a))
  | 60 => do s <- x_string vs 1; Ok (XNode (mk_leaf (PVar (mk_var s))))
  | 61 => Ok (XNode (mk_leaf (PLit true)))
  | 62 => Ok (XNode (mk_leaf (PLit false)))
  | 63 | 64 | 65 | 66 => do e <- x_node vs 1; Ok (XNode e)
  | 67 => do ty <- x_string vs 3; do ns <- x_str vs 5; do v <- x_int vs 7; do n <- x_int vs 9; Ok (XNode (mk_leaf (mk_freq ty ns v n)))
  | 68 => do i <- x_int vs 3; do n <- x_int vs 5; Ok (XNode (mk_leaf (mk_seg SegWithin None i n)))
  | 69 => do s <- x_string vs 3; do i <- x_int vs 5; do n <- x_int vs 7; Ok (XNode (mk_leaf (mk_seg SegWithin (Some s) i n)))
  | 70 => do i <- x_int vs 3; do n <- x_int vs 5; Ok (XNode (mk_leaf (mk_seg SegBefore None i n)))
  | 71 => do s <- x_string vs 3; do i <- x_int vs 5; do n <- x_int vs 7; Ok (XNode (mk_leaf (mk_seg SegBefore (Some s) i n)))
  | 72 => do a <- x_int vs 3; do b <- x_int vs 5; do c <- x_int vs 7; Ok (XNode (mk_leaf (mk_geo (f_of_Z a) (f_of_Z b) (f_of_Z c))))
  | 73 => do a <- x_flt vs 3; do b <- x_flt vs 5; do c <- x_flt vs 7; Ok (XNode (mk_leaf (mk_geo a b c)))
  | 74 => do s <- x_string vs 3; do p <- x_str vs 5; Ok (XNode (mk_leaf (PStr StContains (mk_var s) p)))
  | 75 => do s <- x_string vs 3; do p <- x_str vs 5; Ok (XNode (mk_leaf (PStr StStartsWith (mk_var s) p)))
  | 76 => do s <- x_string vs 3; do p <- x_str vs 5; Ok (XNode (mk_leaf (PStr StEndsWith (mk_var s) p)))
  | _ => arg vs 1
  end.
(** Rule 2 stores the expression ( *root = $1). *)
Definition xp_act (k : Z) (vs : list xval) : result (xval * option expr) :=
  do v <- xp_act0 k vs; Ok (v, match k, v with 2, XNode e => Some e | _, _ => None end).
(** parser.c 1202-2130 [yyparse] (xxparse) on the tokens of a text.  A bound on the number of rounds: each reduces
    6 * tokens + the weights of the stack ([BisonProofs.step_sound]). *)
Definition xxparse (ts : list token) : result (outcome (R := expr)) :=
  yyparse xp_tables xp_code xp_lval XTok xp_act (10 * List.length ts + 10) ts.

(** parser.y 237-255 [parse]: None stands for the result -1. *)
Definition parse_c (text : string) : result (option expr) :=
  do ts <- x_lex text; do o <- xxparse ts; Ok (match o with Accepted r => r | _ => None end).

(** ** Events (event_parser.c) *)
(** event_parser.c 536-566 [yytranslate]. *)
Definition ep_translate : list Z :=
  [0; 2; 2; 2; 2; 2; 2; 2; 2; 2; 2; 2; 2; 2; 2; 2; 2; 2; 2; 2; 2; 2; 2; 2; 2; 2; 2; 2; 2; 2; 2; 2; 2; 2; 2; 2;
    2; 2; 2; 2; 2; 2; 2; 2; 2; 2; 2; 2; 2; 2; 2; 2; 2; 2; 2; 2; 2; 2; 2; 2; 2; 2; 2; 2; 2; 2; 2; 2; 2; 2; 2; 2;
    2; 2; 2; 2; 2; 2; 2; 2; 2; 2; 2; 2; 2; 2; 2; 2; 2; 2; 2; 2; 2; 2; 2; 2; 2; 2; 2; 2; 2; 2; 2; 2; 2; 2; 2; 2;
    2; 2; 2; 2; 2; 2; 2; 2; 2; 2; 2; 2; 2; 2; 2; 2; 2; 2; 2; 2; 2; 2; 2; 2; 2; 2; 2; 2; 2; 2; 2; 2; 2; 2; 2; 2;
    2; 2; 2; 2; 2; 2; 2; 2; 2; 2; 2; 2; 2; 2; 2; 2; 2; 2; 2; 2; 2; 2; 2; 2; 2; 2; 2; 2; 2; 2; 2; 2; 2; 2; 2; 2;
    2; 2; 2; 2; 2; 2; 2; 2; 2; 2; 2; 2; 2; 2; 2; 2; 2; 2; 2; 2; 2; 2; 2; 2; 2; 2; 2; 2; 2; 2; 2; 2; 2; 2; 2; 2;
    2; 2; 2; 2; 2; 2; 2; 2; 2; 2; 2; 2; 2; 2; 2; 2; 2; 2; 2; 2; 2; 2; 2; 2; 2; 2; 2; 2; 2; 2; 2; 2; 2; 2; 2; 2;
    2; 2; 2; 2; 1; 2; 3; 4; 5; 6; 7; 8; 9; 10; 11; 12; 13; 14; 15].
(** event_parser.c 618-629 [yypact]. *)
Definition ep_pact : list Z :=
  [8; (-3); 29; (-10); 36; 3; (-10); (-10); 4; (-10); 23; 15; 12; (-10); (-10); (-10); (-10); (-10); (-10);
    (-10); (-10); (-10); (-10); (-10); (-10); (-10); (-10); (-10); (-10); (-10); 18; (-10); 32; (-10); (-10);
    (-1); 28; 30; (-10); 35; (-10); (-10); (-10); 31; 42; 43; (-10); (-5); (-10); 37; (-10); 38; (-10); 46; 47;
    (-5); (-5); (-10); (-10); (-5); (-10); 17; (-10); (-5); 49; 51; 52; 37; (-10); 37; 54; 56; (-5); 58; 59;
    (-5); (-5); 62; 57; (-5); (-10); 64; (-10)].
(** event_parser.c 634-645 [yydefact]. *)
Definition ep_defact : list Z :=
  [0; 0; 0; 2; 0; 0; 4; 1; 0; 3; 0; 0; 0; 7; 17; 18; 19; 21; 23; 6; 8; 9; 10; 11; 12; 13; 14; 15; 16; 5; 0; 24;
    0; 26; 29; 0; 0; 0; 32; 0; 36; 20; 22; 0; 0; 0; 25; 0; 28; 0; 31; 0; 35; 0; 0; 0; 0; 27; 30; 0; 33; 0; 37;
    0; 0; 0; 0; 0; 34; 0; 0; 0; 0; 0; 0; 0; 0; 0; 0; 0; 38; 0; 39].
(** event_parser.c 648-652 [yypgoto]. *)
Definition ep_pgoto : list Z :=
  [(-10); (-10); (-10); 63; (-10); (-10); (-8); (-10); (-9); (-10); (-10); (-10); (-10); (-10); (-10); (-10);
    2; (-10); (-10); 19].
(** event_parser.c 655-659 [yydefgoto]. *)
Definition ep_defgoto : list Z :=
  [(-1); 2; 5; 6; 19; 20; 45; 22; 23; 24; 25; 35; 26; 36; 27; 37; 38; 28; 39; 40].
(** event_parser.c 664-674 [yytable]. *)
Definition ep_table : list Z :=
  [21; 3; 34; 33; 32; 46; 47; 9; 16; 11; 10; 1; 4; 12; 13; 14; 15; 16; 17; 18; 30; 31; 43; 43; 32; 41; 42; 32;
    16; 7; 18; 16; 44; 44; 48; 49; 50; 51; 4; 57; 58; 52; 53; 59; 8; 41; 54; 64; 65; 55; 56; 61; 18; 60; 63; 66;
    67; 68; 70; 69; 71; 72; 73; 80; 74; 75; 76; 77; 78; 79; 82; 81; 62; 29].
(** event_parser.c 676-686 [yycheck]. *)
Definition ep_check : list Z :=
  [8; 4; 11; 11; 9; 6; 7; 4; 13; 5; 7; 3; 15; 9; 10; 11; 12; 13; 14; 15; 5; 6; 5; 5; 9; 13; 14; 9; 13; 0; 15;
    13; 15; 15; 6; 7; 6; 7; 15; 47; 49; 6; 7; 5; 8; 13; 15; 55; 56; 7; 7; 5; 15; 51; 7; 63; 7; 6; 67; 7; 69; 7;
    6; 6; 72; 7; 7; 75; 76; 7; 6; 79; 53; 10].
(** event_parser.c 704-710 [yyr1]. *)
Definition ep_r1 : list Z :=
  [0; 16; 17; 17; 18; 18; 19; 19; 20; 20; 20; 20; 20; 20; 20; 20; 20; 21; 21; 22; 22; 23; 23; 24; 25; 26; 27;
    27; 28; 29; 29; 30; 31; 31; 32; 33; 34; 34; 35; 35].
(** event_parser.c 713-719 [yyr2]. *)
Definition ep_r2 : list Z :=
  [0; 2; 2; 3; 1; 3; 3; 3; 1; 1; 1; 1; 1; 1; 1; 1; 1; 1; 1; 1; 2; 1; 2; 1; 2; 3; 1; 3; 3; 1; 3; 3; 1; 3; 5; 3;
    1; 3; 11; 13].
(** event_parser.c 511-522, 606. *)
Definition ep_tables : ptables :=
  mkPtables ep_translate ep_pact ep_defact ep_pgoto ep_defgoto ep_table ep_check ep_r1 ep_r2 (-10) 73 16 7.

(** event_parser.h 60-72: the numbers of the tokens. *)
Definition ep_code (t : etoken) : Z :=
  match t with
  | JLCu => 258 | JRCu => 259 | JLSq => 260 | JRSq => 261 | JComma => 262 | JColon => 263 | JMinus => 264 | JNull => 265
  | JTrue => 266 | JFalse => 267 | JInt _ => 268 | JFlt _ => 269 | JStr _ => 270
  end.

(** event_parser.h [YYSTYPE] (event_parser.y 32-52): the members that are used. *)
Inductive eval :=
| YTok | YBool (b : bool) | YInt (z : Z) | YFlt (f : flt) | YString (s : string) | YStr (s : string)
| YInts (l : list Z) | YStrs (l : list string) | YSeg (s : segment) | YSegs (l : list segment)
| YCap (c : fcap) | YCaps (l : list fcap) | YValue (v : value) | YVariable (v : option (string * value))
| YEvent (l : list (string * value)).
Definition ep_lval (t : etoken) : eval :=
  match t with JStr s => YString s | JInt z => YInt z | JFlt f => YFlt f | _ => YTok end.

Definition y_bool vs i := do v <- arg vs i; match v with YBool b => Ok b | _ => UB end.
Definition y_int vs i := do v <- arg vs i; match v with YInt z => Ok z | _ => UB end.
Definition y_flt vs i := do v <- arg vs i; match v with YFlt f => Ok f | _ => UB end.
Definition y_string vs i := do v <- arg vs i; match v with YString s => Ok s | _ => UB end.
Definition y_str vs i := do v <- arg vs i; match v with YStr s => Ok s | _ => UB end.
Definition y_ints vs i := do v <- arg vs i; match v with YInts l => Ok l | _ => UB end.
Definition y_strs vs i := do v <- arg vs i; match v with YStrs l => Ok l | _ => UB end.
Definition y_seg vs i := do v <- arg vs i; match v with YSeg s => Ok s | _ => UB end.
Definition y_segs vs i := do v <- arg vs i; match v with YSegs l => Ok l | _ => UB end.
Definition y_cap vs i := do v <- arg vs i; match v with YCap c => Ok c | _ => UB end.
Definition y_caps vs i := do v <- arg vs i; match v with YCaps l => Ok l | _ => UB end.
Definition y_value vs i := do v <- arg vs i; match v with YValue x => Ok x | _ => UB end.
Definition y_variable vs i := do v <- arg vs i; match v with YVariable x => Ok x | _ => UB end.
Definition y_event vs i := do v <- arg vs i; match v with YEvent l => Ok l | _ => UB end.
(** tree.c 1847-1851 [add_variable]: NULL is not added. *)
Definition add_variable (v : option (string * value)) (l : list (string * value)) : list (string * value) :=
  match v with Some x => l ++ [x] | None => l end.
(** value.c 188-197 [make_frequency_cap] as called by the grammar. *)
Definition make_cap (ty : string) (id : Z) (ns : string) (ts v : Z) : fcap :=
  mkCap (get_type_from_string ty) (to_uint 32 id) (mk_str ns) true ts (to_uint 32 v).

(** event_parser.c 1513-1740: the actions by rule; for the rules 2 and 3 the value is the default one, $1. *)
Definition ep_act0 (k : Z) (vs : list eval) : result eval :=
  match k with
  | 4 => do v <- y_variable vs 1; Ok (YEvent (add_variable v []))
  | 5 => do v <- y_variable vs 3; do l <- y_event vs 1; Ok (YEvent (add_variable v l))
  | 6 => do s <- y_string vs 1; do x <- y_value vs 3; Ok (YVariable (Some (s, x)))
  | 7 => Ok (YVariable None)
  | 8 => do b <- y_bool vs 1; Ok (YValue (VBool b))
  | 9 => do z <- y_int vs 1; Ok (YValue (VInt z))
  | 10 => do f <- y_flt vs 1; Ok (YValue (VFloat f))
  | 11 => do s <- y_str vs 1; Ok (YValue (VStr (mk_str s)))
  | 12 | 13 => do l <- y_ints vs 1; Ok (YValue (VIntList l))
  | 14 => do l <- y_strs vs 1; Ok (YValue (VStrList (map mk_str l)))
  | 15 => do l <- y_segs vs 1; Ok (YValue (VSegs l))
  | 16 => do l <- y_caps vs 1; Ok (YValue (VFreqs l))
  | 17 => Ok (YBool true)
  | 18 => Ok (YBool false)
  | 19 => do z <- y_int vs 1; Ok (YInt z)
  | 20 => do z <- y_int vs 2; Ok (YInt (- z))
  | 21 => do f <- y_flt vs 1; Ok (YFlt f)
  | 22 => do f <- y_flt vs 2; Ok (YFlt (fopp f))
  | 23 => do s <- y_string vs 1; Ok (YStr s)
  | 24 => Ok (YInts [])
  | 25 => do l <- y_ints vs 2; Ok (YInts l)
  | 26 => do z <- y_int vs 1; Ok (YInts [z])
  | 27 => do z <- y_int vs 3; do l <- y_ints vs 1; Ok (YInts (l ++ [z]))
  | 28 => do l <- y_strs vs 2; Ok (YStrs l)
  | 29 => do s <- y_str vs 1; Ok (YStrs [s])
  | 30 => do s <- y_str vs 3; do l <- y_strs vs 1; Ok (YStrs (l ++ [s]))
  | 31 => do l <- y_segs vs 2; Ok (YSegs l)
  | 32 => do s <- y_seg vs 1; Ok (YSegs [s])
  | 33 => do s <- y_seg vs 3; do l <- y_segs vs 1; Ok (YSegs (l ++ [s]))
  | 34 => do i <- y_int vs 2; do t <- y_int vs 4; Ok (YSeg (mkSeg i t))
  | 35 => do l <- y_caps vs 2; Ok (YCaps l)
  | 36 => do c <- y_cap vs 1; Ok (YCaps [c])
  | 37 => do c <- y_cap vs 3; do l <- y_caps vs 1; Ok (YCaps (l ++ [c]))
  | 38 => do ty <- y_string vs 2; do i <- y_int vs 4; do ns <- y_str vs 6; do v <- y_int vs 8; do t <- y_int vs 10; Ok (YCap (make_cap ty i ns t v))
  | 39 => do ty <- y_string vs 3; do i <- y_int vs 5; do ns <- y_str vs 7; do v <- y_int vs 10; do t <- y_int vs 12; Ok (YCap (make_cap ty i ns t v))
  | _ => arg vs 1
  end.
(** The rules 2 and 3 store the event in the variable root. *)
Definition ep_act (k : Z) (vs : list eval) : result (eval * option (list (string * value))) :=
  do v <- ep_act0 k vs;
  match k with
  | 2 => Ok (v, Some [])
  | 3 => do l <- y_event vs 2; Ok (v, Some l)
  | _ => Ok (v, None)
  end.
(** event_parser.c [yyparse] (zzparse) on the tokens of a text. *)
Definition zzparse (ts : list etoken) : result (outcome (R := list (string * value))) :=
  yyparse ep_tables ep_code ep_lval YTok ep_act (10 * List.length ts + 10) ts.
(** event_parser.y 179-198 [event_parse]: None stands for the result -1. *)
Definition event_parse_c (text : string) : result (option (list (string * value))) :=
  do ts <- e_lex text; do o <- zzparse ts; Ok (match o with Accepted r => r | _ => None end).
