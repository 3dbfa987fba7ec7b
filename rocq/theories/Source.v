(** Source expressions (the language of parser.y 94-227) and the syntax tree the parser's actions
    build from them.  Lexer.v and Parser.v go from texts to syntax trees.  Literal-first forms (`3 < i`) are mirrored by the grammar actions to the
    forms below (parser.y 145-148, 158-159). *)
From Coq Require Import ZArith NArith String Bool List.
From Verif Require Import Base Float Value Ast.
Import ListNotations.

(** parser.y 100-108: a literal. *)
Inductive slit := SInt (z : Z) | SFlt (f : flt) | SStr (s : string).
(** parser.y 110-120: a list literal. *)
Inductive slist := SInts (l : list Z) | SStrs (l : list string).

(** Atoms with attribute names. *)
Inductive atom :=
| AVar (x : string)
| ALit (b : bool)
| ACmp (op : cmp_op) (x : string) (c : cval)
| AEq (op : eq_op) (x : string) (c : slit)
| AIn (op : set_op) (x : string) (l : slist)          (* x in (1,2) *)
| AHas (op : set_op) (c : slit) (x : string)          (* 1 in x, "a" in x; no float in the grammar *)
| AList (op : list_op) (x : string) (l : slist)
| ANull (op : null_op) (x : string)
| AFreq (type ns : string) (value length : Z)
| ASeg (op : seg_op) (x : option string) (id seconds : Z)
| AGeo (lat lon radius : flt)
| AStr (op : str_op) (x : string) (pattern : string).

(** parser.y 187-193: connectives. *)
Inductive src :=
| XAtom (a : atom)
| XNot (a : src)
| XAnd (a b : src)
| XOr (a b : src).

(** Grammar actions of parser.y 132-227 and constructors of ast.c 33-251.  The grammar also accepts
    `variable in variable` and `constant in (list)`; insertion of these ends in abort()
    (ast.c 2640-2650 of all_variables_in_config) or refusal, they are not part of [src]. *)
Definition build_strs (l : list string) : list sval := map mk_str l.
(** parser.y 132-227, the action of each predicate. *)
Definition build_atom (a : atom) : leaf :=
  match a with
  | AVar x => PVar (mk_var x)
  | ALit b => PLit b
  | ACmp op x c => PCmp op (mk_var x) c
  | AEq op x (SInt z) => PEq op (mk_var x) (QInt z)
  | AEq op x (SFlt f) => PEq op (mk_var x) (QFloat f)
  | AEq op x (SStr s) => PEq op (mk_var x) (QStr (mk_str s))
  | AIn op x (SInts l) => PSet op (SLVar (mk_var x)) (SRInts l)
  | AIn op x (SStrs l) => PSet op (SLVar (mk_var x)) (SRStrs (build_strs l))
  | AHas op (SInt z) x => PSet op (SLInt z) (SRVar (mk_var x))
  | AHas op (SStr s) x => PSet op (SLStr (mk_str s)) (SRVar (mk_var x))
  | AHas op (SFlt _) x => PLit false                     (* not in the grammar *)
  | AList op x (SInts l) => PList op (mk_var x) (LInts l)
  | AList op x (SStrs l) => PList op (mk_var x) (LStrs (build_strs l))
  | ANull op x => PNull op (mk_var x)
  | AFreq t ns v len => mk_freq t ns v len
  | ASeg op x id s => mk_seg op x id s
  | AGeo a b r => mk_geo a b r
  | AStr op x p => PStr op (mk_var x) p
  end.

(** parser.y 122, 187-189, ast.c 86-92, 137-152. *)
Fixpoint build (x : src) : expr :=
  match x with
  | XAtom a => mk_leaf (build_atom a)
  | XNot a => mk_not (build a)
  | XAnd a b => mk_and (build a) (build b)
  | XOr a b => mk_or (build a) (build b)
  end.
