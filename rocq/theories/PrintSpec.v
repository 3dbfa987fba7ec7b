(** What the text of an expression should be. *)
From Coq Require Import ZArith NArith String Ascii Bool List Floats.SpecFloat.
From Verif Require Import Base Float Value Ast Config Assign Special Source Api Spec FloatSpec Lexer LexSpec HelpSpec.
Import ListNotations.
Local Open Scope Z_scope.

(** An integer with digits that the scanner can read, possibly after a minus sign. *)
Definition readable_int (z : Z) : Prop := - INT64_MAX <= z <= INT64_MAX.
(** A double that is nearest to a number with two decimals, below 2^45 in absolute value. *)
Definition two_decimals (f : flt) : Prop :=
  exists N g, 0 <= N < 100 * 2 ^ 45 /\ rounded g N 100 /\ (f = g \/ f = fopp g).
Definition readable_name (x : string) : Prop := ident_ok expr_lexicon x = true.
(** A string that can stand between double quotes. *)
Definition readable_str (s : string) : Prop := quotable c_dq s = true.

(** Predicates whose text can be read back. *)
Definition printable_leaf (p : leaf) : Prop :=
  match p with
  | PLit _ => True
  | PVar v => readable_name (av_attr v)
  | PCmp _ v c => readable_name (av_attr v) /\ match c with CInt z => readable_int z | CFloat f => two_decimals f end
  | PEq _ v q =>
      readable_name (av_attr v)
      /\ match q with
         | QInt z => readable_int z
         | QFloat f => two_decimals f
         | QStr s => readable_str (sv_string s)
         | QIEnum e => readable_int (ie_int e)
         end
  | PSet _ l r =>
      match l with SLInt z => readable_int z | SLStr s => readable_str (sv_string s) | SLVar v => readable_name (av_attr v) end
      /\ match r with
         | SRInts l => l <> [] /\ Forall readable_int l
         | SRStrs l => l <> [] /\ Forall (fun s => readable_str (sv_string s)) l
         | SRVar v => readable_name (av_attr v)
         end
  | PList _ v l =>
      readable_name (av_attr v)
      /\ match l with
         | LInts l => l <> [] /\ Forall readable_int l
         | LStrs l => l <> [] /\ Forall (fun s => readable_str (sv_string s)) l
         end
  | PNull _ _ => False
  | PFreq _ ty ns value len _ _ =>
      ty <> FTInvalid /\ readable_str (sv_string ns) /\ readable_int value /\ 0 <= len <= INT64_MAX
  | PSeg _ _ v id seconds _ => readable_name (av_attr v) /\ 0 <= id <= INT64_MAX /\ readable_int seconds
  | PGeo _ lat lon radius _ _ => two_decimals lat /\ two_decimals lon /\ two_decimals radius
  | PStr _ v pat => readable_name (av_attr v) /\ readable_str pat
  end.
Definition printable (e : expr) : Prop := Forall printable_leaf (expr_leaves e).

(** The same expression as the parser makes it: without numbers for variables, strings and predicates; an integer of
    an enumeration is an integer, the variable of a segment predicate is named. *)
Definition fresh_str (s : sval) : sval := mk_str (sv_string s).
Definition fresh_var (v : avar) : avar := mk_var (av_attr v).
Definition fresh_leaf (p : leaf) : leaf :=
  match p with
  | PLit b => PLit b
  | PVar v => PVar (fresh_var v)
  | PCmp op v c => PCmp op (fresh_var v) c
  | PEq op v q =>
      PEq op (fresh_var v) (match q with QStr s => QStr (fresh_str s) | QIEnum e => QInt (ie_int e) | _ => q end)
  | PSet op l r =>
      PSet op (match l with SLInt z => SLInt z | SLStr s => SLStr (fresh_str s) | SLVar v => SLVar (fresh_var v) end)
        (match r with SRInts l => SRInts l | SRStrs l => SRStrs (map fresh_str l) | SRVar v => SRVar (fresh_var v) end)
  | PList op v l => PList op (fresh_var v) (match l with LInts l => LInts l | LStrs l => LStrs (map fresh_str l) end)
  | PNull op v => PNull op (fresh_var v)
  | PFreq _ ty ns value len _ _ =>
      PFreq (mk_var "frequency_caps") ty (fresh_str ns) value len (mk_var "now") (2 ^ 32 - 1)
  | PSeg op _ v id seconds _ => PSeg op true (fresh_var v) id seconds (mk_var "now")
  | PGeo _ lat lon radius _ _ => PGeo true lat lon radius (mk_var "latitude") (mk_var "longitude")
  | PStr op v pat => PStr op (fresh_var v) pat
  end.
Fixpoint fresh (e : expr) : expr :=
  match e with
  | ELeaf _ p => mk_leaf (fresh_leaf p)
  | ENot _ a => mk_not (fresh a)
  | EAnd _ a b => mk_and (fresh a) (fresh b)
  | EOr _ a b => mk_or (fresh a) (fresh b)
  end.
(** No segment predicate leaves its variable to the default. *)
Definition no_default_segment (e : expr) : Prop := forall op v id sec w, ~ In (PSeg op false v id sec w) (expr_leaves e).

(** Source predicates whose stored form can be read back. *)
Definition printable_atom (ds : list domain) (a : atom) : Prop :=
  match a with
  | ALit _ => True
  | AVar x => readable_name x
  | ACmp _ x (CInt z) => readable_name x /\ (has_type ds x TFloat -> Z.abs z < 2 ^ 45)
  | ACmp _ x (CFloat f) => readable_name x /\ two_decimals f
  | AEq _ x (SInt z) => readable_name x /\ readable_int z /\ (has_type ds x TFloat -> Z.abs z < 2 ^ 45)
  | AEq _ x (SFlt f) => readable_name x /\ two_decimals f
  | AEq _ x (SStr s) => readable_name x /\ readable_str s
  | AIn _ x (SInts _) | AList _ x (SInts _) => readable_name x
  | AIn _ x (SStrs l) | AList _ x (SStrs l) => readable_name x /\ Forall readable_str l
  | AHas _ (SStr s) x => readable_name x /\ readable_str s
  | AHas _ _ x => readable_name x
  | ANull _ _ => False
  | AFreq _ ns _ _ => readable_str ns
  | ASeg _ x id _ => 0 <= id /\ match x with Some x => readable_name x | None => True end
  | AGeo lat lon radius => two_decimals lat /\ two_decimals lon /\ two_decimals radius
  | AStr _ x pat => readable_name x /\ readable_str pat
  end.
Definition printable_src (ds : list domain) (x : src) : Prop := Forall (printable_atom ds) (src_atoms x).

(** Predicates that the copy keeps whole. *)
Definition plain_leaf (p : leaf) : Prop :=
  match p with PFreq _ _ _ _ _ _ _ | PSeg _ _ _ _ _ _ | PGeo _ _ _ _ _ _ => False | _ => True end.
