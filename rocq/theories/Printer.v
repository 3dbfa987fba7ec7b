(** Printing of expressions (printer.c 11-355, value.c 73-92, 116-135, ast.c 450-499) and copies of
    them (clone.c).  basprintf is asprintf (alloc.c 64-75); running out of memory is not modelled. *)
From Coq Require Import ZArith NArith String Ascii Bool List Decimal DecimalString Floats.SpecFloat.
From Verif Require Import Base Float Value Ast Lexer.
Import ListNotations.
Local Open Scope string_scope.

(** printf `%ld`, `%lu` and `%zu`. *)
Definition show_Z (z : Z) : string := NilEmpty.string_of_int (Z.to_int z).

(** The last two digits of a number. *)
Definition two_digits (n : Z) : string :=
  String (ascii_of_N (48 + Z.to_N (n / 10 mod 10))) (String (ascii_of_N (48 + Z.to_N (n mod 10))) "").
(** The integer nearest to a / b, the even one of two. *)
Definition near_div (a b : Z) : Z :=
  let q := (a / b)%Z in
  let r := (2 * (a mod b))%Z in
  if (r <? b)%Z then q else if (b <? r)%Z then (q + 1)%Z else if Z.even q then q else (q + 1)%Z.
(** printf `%.2f` (glibc: the exact value, rounded to nearest even). *)
Definition show_flt (f : flt) : string :=
  match f with
  | S754_zero s => (if s then "-" else "") ++ "0.00"
  | S754_infinity s => (if s then "-" else "") ++ "inf"
  | S754_nan => "nan"
  | S754_finite s m e =>
      let n := if (e <? 0)%Z then near_div (100 * Z.pos m) (2 ^ (- e)) else (100 * Z.pos m * 2 ^ e)%Z in
      (if s then "-" else "") ++ show_Z (n / 100) ++ "." ++ two_digits n
  end.

(** `"%s"`. *)
Definition show_str (s : string) : string := String c_dq (s ++ String c_dq "").
(** value.c 73-92 [integer_list_value_to_string], 116-135 [string_list_value_to_string], for lists
    that are not empty. *)
Fixpoint show_items {A} (show : A -> string) (l : list A) : string :=
  match l with [] => "" | [a] => show a | a :: l' => show a ++ ", " ++ show_items show l' end.
(** printer.c 114-129, 153-166: the list in parentheses; an empty list gives NULL to `%s`, which
    is undefined. *)
Definition show_list {A} (show : A -> string) (l : list A) : result string :=
  match l with [] => UB | _ => Ok ("(" ++ show_items show l ++ ")") end.

(** printer.c 11-28 [compare_value_to_string]. *)
Definition show_cval (c : cval) : string :=
  match c with CInt z => show_Z z | CFloat f => show_flt f end.
(** printer.c 30-43 [compare_op_to_string]. *)
Definition show_cmp (op : cmp_op) : string :=
  match op with CLt => "<" | CLe => "<=" | CGt => ">" | CGe => ">=" end.
(** printer.c 45-72 [equality_value_to_string]. *)
Definition show_qval (q : qval) : string :=
  match q with
  | QInt z => show_Z z
  | QFloat f => show_flt f
  | QStr s => show_str (sv_string s)
  | QIEnum e => show_Z (ie_int e)
  end.
(** printer.c 74-83 [equality_op_to_string]. *)
Definition show_eq (op : eq_op) : string := match op with QEq => "=" | QNe => "<>" end.
(** printer.c 85-107 [set_left_value_to_string]. *)
Definition show_left (l : set_left) : string :=
  match l with SLInt z => show_Z z | SLStr s => show_str (sv_string s) | SLVar v => av_attr v end.
(** printer.c 109-137 [set_right_value_to_string]. *)
Definition show_right (r : set_right) : result string :=
  match r with
  | SRVar v => Ok (av_attr v)
  | SRInts l => show_list show_Z l
  | SRStrs l => show_list (fun s => show_str (sv_string s)) l
  end.
(** printer.c 139-148 [set_op_to_string]. *)
Definition show_set (op : set_op) : string := match op with SIn => "in" | SNotIn => "not in" end.
(** printer.c 150-173 [list_value_to_string]. *)
Definition show_lval (l : lval) : result string :=
  match l with
  | LInts l => show_list show_Z l
  | LStrs l => show_list (fun s => show_str (sv_string s)) l
  end.
(** printer.c 175-189 [list_op_to_string]. *)
Definition show_lop (op : list_op) : string :=
  match op with LOneOf => "one of" | LNoneOf => "none of" | LAllOf => "all of" end.
(** ast.c 450-499 [frequency_type_to_string]. *)
Definition show_ftype (ty : ftype) : result string :=
  match ty with
  | FTAdvertiser => Ok "advertiser"
  | FTAdvertiserIP => Ok "advertiser:ip"
  | FTCampaign => Ok "campaign"
  | FTCampaignIP => Ok "campaign:ip"
  | FTCampaignGroup => Ok "campaign_group"
  | FTCampaignGroupIP => Ok "campaign_group:ip"
  | FTFlight => Ok "flight"
  | FTFlightIP => Ok "flight:ip"
  | FTProduct => Ok "product"
  | FTProductIP => Ok "product:ip"
  | FTInvalid => Abort
  end.

(** printer.c 213-223. *)
Definition show_seg (op : seg_op) : string :=
  match op with SegWithin => "segment_within" | SegBefore => "segment_before" end.
(** printer.c 246-258. *)
Definition show_sop (op : str_op) : string :=
  match op with StContains => "contains" | StStartsWith => "starts_with" | StEndsWith => "ends_with" end.

(** printer.c 191-283, 313-354: a predicate. *)
Definition show_leaf (p : leaf) : result string :=
  match p with
  | PNull _ v => Ok ("?" ++ av_attr v)
  | PFreq _ ty ns value len _ _ =>
      bind (show_ftype ty) (fun t =>
      Ok ("within_frequency_cap(" ++ show_str t ++ ", " ++ show_str (sv_string ns) ++ ", " ++
          show_Z value ++ ", " ++ show_Z len ++ ")"))
  | PSeg op _ v id seconds _ =>
      Ok (show_seg op ++ "(" ++ av_attr v ++ ", " ++ show_Z id ++ ", " ++ show_Z seconds ++ ")")
  | PGeo _ lat lon radius _ _ =>
      Ok ("geo_within_radius(" ++ show_flt lat ++ ", " ++ show_flt lon ++ ", " ++ show_flt radius ++ ")")
  | PStr op v pat => Ok (show_sop op ++ "(" ++ av_attr v ++ ", " ++ show_str pat ++ ")")
  | PLit b => Ok (if b then "true" else "false")
  | PVar v => Ok (av_attr v)
  | PSet op l r => bind (show_right r) (fun r' => Ok (show_left l ++ " " ++ show_set op ++ " " ++ r'))
  | PList op v l => bind (show_lval l) (fun l' => Ok (av_attr v ++ " " ++ show_lop op ++ " " ++ l'))
  | PEq op v q => Ok (av_attr v ++ " " ++ show_eq op ++ " " ++ show_qval q)
  | PCmp op v c => Ok (av_attr v ++ " " ++ show_cmp op ++ " " ++ show_cval c)
  end.

(** printer.c 191-355 [ast_to_string]. *)
Fixpoint ast_to_string (e : expr) : result string :=
  match e with
  | ELeaf _ p => show_leaf p
  | ENot _ a => bind (ast_to_string a) (fun a' => Ok ("(not (" ++ a' ++ "))"))
  | EOr _ a b =>
      bind (ast_to_string a) (fun a' => bind (ast_to_string b) (fun b' =>
      Ok ("((" ++ a' ++ ") or (" ++ b' ++ "))")))
  | EAnd _ a b =>
      bind (ast_to_string a) (fun a' => bind (ast_to_string b) (fun b' =>
      Ok ("((" ++ a' ++ ") and (" ++ b' ++ "))")))
  end.

(** A variable of a fresh node (ast.c 21-31: bcalloc): no name (NULL, here the empty name), number 0. *)
Definition no_var : avar := mkAV "" 0.
(** clone.c 8-259: the copy of a predicate.  Of a frequency predicate (218-225) `now` and the id are
    not copied, of a segment predicate (226-232) `now`, of a geo predicate (233-239) the two
    variables. *)
Definition clone_leaf (p : leaf) : leaf :=
  match p with
  | PFreq v ty ns value len _ _ => PFreq v ty ns value len no_var 0
  | PSeg op h v id seconds _ => PSeg op h v id seconds no_var
  | PGeo h lat lon radius _ _ => PGeo h lat lon radius no_var no_var
  | _ => p
  end.
(** clone.c 80-110 [clone_bool], 261-290 [clone_node]. *)
Fixpoint clone_node (e : expr) : expr :=
  match e with
  | ELeaf g p => ELeaf g (clone_leaf p)
  | EAnd g a b => EAnd g (clone_node a) (clone_node b)
  | EOr g a b => EOr g (clone_node a) (clone_node b)
  | ENot g a => ENot g (clone_node a)
  end.
