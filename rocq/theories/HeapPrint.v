(** The memory of printing: the texts of expressions, values and events (printer.c 11-422, value.c 73-92, 116-135, 331-401,
    tree.c 1641-1694, alloc.c 19-74).

    The strings in between are allocated and released; an event is written into the buffer of the caller. *)
From Coq Require Import ZArith NArith Ascii String Bool List.
From Verif Require Import Base Float Value Ast Printer Flex Ledger HeapExpr HeapEvent FlexBuffer.
Import ListNotations.
Local Open Scope Z_scope.
Local Open Scope led_scope.
Local Open Scope string_scope.

(** alloc.c 32-61 [bvasprintf], 63-74 [basprintf] for the text [s] and a caller that aborts when it returns less than 0.
    vsnprintf returns less than 0 for more than INT_MAX characters; 1 is added to an int. *)
Definition basprintf (s : string) : cmd hstr :=
  let len := Z.of_nat (String.length s) in
  if (INT_MAX <? len)%Z then fail Abort else
  if (len =? INT_MAX)%Z then fail UB else
  on a <- malloc; ret (mkHS a s).
(** `%s`: the string is read; NULL is undefined. *)
Definition arg (s : hstr) : cmd string :=
  if (hs_at s =? 0)%Z then fail UB else on _ <- use (hs_at s); ret (hs_text s).
Definition NULL : hstr := mkHS 0 "".

(** ** Lists *)
(** value.c 73-92 [integer_list_value_to_string], 116-135 [string_list_value_to_string]: the loop.  [show] reads an element. *)
Fixpoint join_loop {A} (show : A -> cmd string) (str : hstr) (i : nat) (l : list A) : cmd hstr :=
  match l with
  | [] => ret str
  | x :: t =>
      on new <- match i with
                | O => on b <- show x; basprintf b
                | _ => on a <- arg str; on b <- show x; on n <- basprintf (a ++ ", " ++ b); on _ <- free (hs_at str); ret n
                end;
      join_loop show new (S i) t
  end.
(** value.c 73-92 [integer_list_value_to_string]. *)
Definition h_ints_text (l : hints) : cmd hstr :=
  on _ <- use (hi_at l); join_loop (fun z => on _ <- use (hi_arr l); ret (show_Z z)) NULL 0 (hi_items l).
(** value.c 116-135 [string_list_value_to_string]. *)
Definition h_strs_text (l : hstrs) : cmd hstr :=
  on _ <- use (hl_at l);
  join_loop (fun s => on _ <- use (hl_arr l); on t <- arg (hw_string s); ret (show_str t)) NULL 0 (hl_items l).
(** printer.c 114-129, 153-168: the list in parentheses. *)
Definition h_parens (text : cmd hstr) : cmd hstr :=
  on list <- text; on a <- arg list; on s <- basprintf ("(" ++ a ++ ")"); on _ <- free (hs_at list); ret s.

(** value.c 340-361 [segments_value_to_string], 380-401 [frequency_caps_value_to_string]: the loop; the text of each element
    is allocated. *)
Fixpoint join_texts {A} (text : A -> cmd hstr) (str : hstr) (i : nat) (l : list A) : cmd hstr :=
  match l with
  | [] => ret str
  | x :: t =>
      on piece <- text x;
      on new <- match i with
                | O => on b <- arg piece; basprintf b
                | _ => on a <- arg str; on b <- arg piece; on n <- basprintf (a ++ ", " ++ b); on _ <- free (hs_at str); ret n
                end;
      on _ <- free (hs_at piece);
      join_texts text new (S i) t
  end.
(** value.c 331-338 [segment_value_to_string]. *)
Definition h_seg_text (s : hseg) : cmd hstr :=
  on _ <- use (hg_at s); basprintf ("[" ++ show_Z (sg_id (hg_seg s)) ++ ", " ++ show_Z (sg_ts (hg_seg s)) ++ "]").
(** value.c 340-361 [segments_value_to_string]. *)
Definition h_segs_text (l : hsegs) : cmd hstr :=
  on _ <- use (hgs_at l); join_texts (fun s => on _ <- use (hgs_arr l); h_seg_text s) NULL 0 (hgs_items l).
(** value.c 363-378 [frequency_cap_to_string]. *)
Definition h_cap_text (k : hcap) : cmd hstr :=
  on _ <- use (hc_at k); on ty <- fail (show_ftype (hc_type k)); on ns <- arg (hw_string (hc_ns k));
  basprintf ("[[" ++ show_str ty ++ ", " ++ show_Z (hc_id k) ++ ", " ++ show_str ns ++ "], " ++ show_Z (hc_value k) ++ ", " ++
             (if hc_tsdef k then show_Z (hc_ts k) else "undefined") ++ "]").
(** value.c 380-401 [frequency_caps_value_to_string]. *)
Definition h_caps_text (l : hcaps) : cmd hstr :=
  on _ <- use (hcs_at l); join_texts (fun k => on _ <- use (hcs_arr l); h_cap_text k) NULL 0 (hcs_items l).

(** ** Expressions *)
(** printer.c 45-72 [equality_value_to_string]. *)
Definition h_show_qval (q : hqval) : cmd hstr :=
  match q with
  | HQInt z => basprintf (show_Z z)
  | HQFloat f => basprintf (show_flt f)
  | HQStr s => on t <- arg (hw_string s); basprintf (show_str t)
  | HQIEnum e => basprintf (show_Z (ie_int e))
  end.
(** printer.c 85-107 [set_left_value_to_string]. *)
Definition h_show_left (l : hleft) : cmd hstr :=
  match l with
  | HLInt z => basprintf (show_Z z)
  | HLStr s => on t <- arg (hw_string s); basprintf (show_str t)
  | HLVar v => on t <- arg (hv_attr v); basprintf t
  end.
(** printer.c 109-137 [set_right_value_to_string]. *)
Definition h_show_right (r : hright) : cmd hstr :=
  match r with
  | HRVar v => on t <- arg (hv_attr v); basprintf t
  | HRInts l => h_parens (h_ints_text l)
  | HRStrs l => h_parens (h_strs_text l)
  end.
(** printer.c 150-173 [list_value_to_string]. *)
Definition h_show_lval (l : hlval) : cmd hstr :=
  match l with HVInts l => h_parens (h_ints_text l) | HVStrs l => h_parens (h_strs_text l) end.

(** printer.c 195-283, 313-352: a predicate. *)
Definition h_show_leaf (p : hleaf) : cmd hstr :=
  match p with
  | HPNull _ v => on a <- arg (hv_attr v); basprintf ("?" ++ a)
  | HPFreq _ ty ns value len _ _ =>
      on ty <- fail (show_ftype ty); on n <- arg (hw_string ns);
      basprintf ("within_frequency_cap(" ++ show_str ty ++ ", " ++ show_str n ++ ", " ++ show_Z value ++ ", " ++ show_Z len ++ ")")
  | HPSeg op _ v id seconds _ =>
      on a <- arg (hv_attr v); basprintf (show_seg op ++ "(" ++ a ++ ", " ++ show_Z id ++ ", " ++ show_Z seconds ++ ")")
  | HPGeo _ lat lon radius _ _ =>
      basprintf ("geo_within_radius(" ++ show_flt lat ++ ", " ++ show_flt lon ++ ", " ++ show_flt radius ++ ")")
  | HPStr op v pat =>
      on a <- arg (hv_attr v); on p <- arg pat; basprintf (show_sop op ++ "(" ++ a ++ ", " ++ show_str p ++ ")")
  | HPLit b => bstrdup_lit (if b then "true" else "false")
  | HPVar v => bstrdup (hv_attr v)
  | HPSet op l r =>
      on lhs <- h_show_left l; on rhs <- h_show_right r;
      on a <- arg lhs; on b <- arg rhs; on s <- basprintf (a ++ " " ++ show_set op ++ " " ++ b);
      on _ <- free (hs_at lhs); on _ <- free (hs_at rhs); ret s
  | HPList op v l =>
      on val <- h_show_lval l;
      on a <- arg (hv_attr v); on b <- arg val; on s <- basprintf (a ++ " " ++ show_lop op ++ " " ++ b);
      on _ <- free (hs_at val); ret s
  | HPEq op v q =>
      on val <- h_show_qval q;
      on a <- arg (hv_attr v); on b <- arg val; on s <- basprintf (a ++ " " ++ show_eq op ++ " " ++ b);
      on _ <- free (hs_at val); ret s
  | HPCmp op v c =>
      on val <- basprintf (show_cval c);
      on a <- arg (hv_attr v); on b <- arg val; on s <- basprintf (a ++ " " ++ show_cmp op ++ " " ++ b);
      on _ <- free (hs_at val); ret s
  end.
(** printer.c 191-355 [ast_to_string]. *)
Fixpoint h_ast_to_string (e : hexpr) : cmd hstr :=
  on _ <- use (h_at e);
  match e with
  | HLeaf _ _ p => h_show_leaf p
  | HNot _ _ x =>
      on a <- h_ast_to_string x;
      on s <- arg a; on r <- basprintf ("(not (" ++ s ++ "))"); on _ <- free (hs_at a); ret r
  | HOr _ _ x y =>
      on a <- h_ast_to_string x; on b <- h_ast_to_string y;
      on s <- arg a; on t <- arg b; on r <- basprintf ("((" ++ s ++ ") or (" ++ t ++ "))");
      on _ <- free (hs_at a); on _ <- free (hs_at b); ret r
  | HAnd _ _ x y =>
      on a <- h_ast_to_string x; on b <- h_ast_to_string y;
      on s <- arg a; on t <- arg b; on r <- basprintf ("((" ++ s ++ ") and (" ++ t ++ "))");
      on _ <- free (hs_at a); on _ <- free (hs_at b); ret r
  end.

(** ** Events *)
(** sprintf at the end of what was written: the text and a NUL are written, the length is added.  More than INT_MAX
    characters (sprintf then returns -1) are left out: undefined here. *)
Record out := mkOut { o_buf : list Z; o_length : nat }.
Definition sprintf (o : out) (s : string) : cmd out :=
  if (INT_MAX <? Z.of_nat (String.length s))%Z then fail UB else
  on buf <- fail (copy_in (o_buf o) (o_length o) (bytes s ++ [0])%list);
  ret (mkOut buf (o_length o + String.length s)%nat).
(** tree.c 1649-1691: a variable.  An integer is printed with PRIu64, as unsigned. *)
Definition h_print_value (o : out) (name : hstr) (v : hvalue) : cmd out :=
  match v with
  | HWInt z => on a <- arg name; sprintf o (a ++ " = " ++ show_Z (to_uint 64 z))
  | HWFloat f => on a <- arg name; sprintf o (a ++ " = " ++ show_flt f)
  | HWBool b => on a <- arg name; sprintf o (a ++ " = " ++ (if b then "true" else "false"))
  | HWStr s => on a <- arg name; on t <- arg (hw_string s); sprintf o (a ++ " = " ++ show_str t)
  | HWIEnum e => on a <- arg name; sprintf o (a ++ " = " ++ show_Z (ie_int e))
  | HWInts l =>
      on list <- h_ints_text l; on a <- arg name; on t <- arg list; on o <- sprintf o (a ++ " = (" ++ t ++ ")");
      on _ <- free (hs_at list); ret o
  | HWStrs l =>
      on list <- h_strs_text l; on a <- arg name; on t <- arg list; on o <- sprintf o (a ++ " = (" ++ t ++ ")");
      on _ <- free (hs_at list); ret o
  | HWSegs _ | HWCaps _ => fail Abort
  end.
(** tree.c 1644-1692: the loop.  A slot without variable is NULL; it is not compared with NULL. *)
Fixpoint print_loop (arr : Z) (o : out) (i : nat) (l : list (option hvariable)) : cmd out :=
  match l with
  | [] => ret o
  | x :: t =>
      on _ <- use arr;
      on o <- match i with O => ret o | _ => sprintf o ", " end;
      on o <- match x with
              | None => fail UB
              | Some y => on _ <- use (hy_at y); h_print_value o (hv_attr (hy_attr y)) (hy_value y)
              end;
      print_loop arr o (S i) t
  end.
(** tree.c 1641-1694 [event_to_string]: what is in the buffer afterwards. *)
Definition h_event_to_string (e : hevent) (buf : list Z) : cmd (list Z) :=
  on _ <- use (he_at e);
  on o <- print_loop (he_arr e) (mkOut buf 0) 0 (he_vars e);
  fail (put (o_buf o) (o_length o) 0).

(** ** Variables on stdout *)
(** printer.c 357-371 [value_type_to_string]. *)
Definition type_text (v : hvalue) : string :=
  match v with
  | HWBool _ => "boolean" | HWInt _ => "integer" | HWFloat _ => "float" | HWStr _ => "string" | HWInts _ => "integer_list"
  | HWStrs _ => "string_list" | HWSegs _ => "segments" | HWCaps _ => "frequency_caps" | HWIEnum _ => "integer_enum"
  end.
(** printer.c 381-417: the value as it is printed, and the text that was allocated for it. *)
Definition h_inner (text : cmd hstr) : cmd (string * hstr) := on inner <- text; on t <- arg inner; ret (t, inner).
Definition h_value_text (v : hvalue) : cmd (string * hstr) :=
  match v with
  | HWBool b => ret (if b then "true" else "false", NULL)
  | HWInt z => ret (show_Z z, NULL)
  | HWFloat f => ret (show_flt f, NULL)
  | HWStr s => on t <- arg (hw_string s); ret (t, NULL)
  | HWIEnum e => ret (show_Z (ie_int e), NULL)
  | HWInts l => h_inner (h_ints_text l)
  | HWStrs l => h_inner (h_strs_text l)
  | HWSegs l => h_inner (h_segs_text l)
  | HWCaps l => h_inner (h_caps_text l)
  end.
(** printer.c 373-422 [print_variable]: what is printed, without the end of the line. *)
Definition h_print_variable (x : option hvariable) : cmd string :=
  match x with
  | None => ret "undefined"
  | Some y =>
      on _ <- use (hy_at y);
      on a <- arg (hv_attr (hy_attr y));
      on '(t, inner) <- h_value_text (hy_value y);
      on _ <- if (hs_at inner =? 0)%Z then ret tt else free (hs_at inner);
      ret (type_text (hy_value y) ++ " " ++ a ++ " = " ++ t)
  end.
