(** The memory of events and searches: variables and their values as allocated blocks; how the parser of events makes them,
    how fill_event and sort_event_lists change them, what a search allocates for itself, and how all of it is released
    (event_parser.y, value.c 12-330, tree.c 27-43, 1090-1128, 1354-1365, 1605-1639, 1698-1930, betree.c 548-625). *)
From Coq Require Import ZArith NArith String Bool List.
From Verif Require Import Base Float Value Ast Config Assign Bound Special Match Tree PredMap Source Api Lexer EventGrammar.
From Verif Require Import Flex FlexTables Bison BisonTables EventObj Ledger HeapExpr.
Import ListNotations.
Local Open Scope Z_scope.
Local Open Scope led_scope.

(** value.h [struct betree_segment]. *)
Record hseg := mkHG { hg_at : Z; hg_seg : segment }.
(** value.h [struct betree_segments]: where it is, where its array is (0 as long as it is empty), the elements. *)
Record hsegs := mkHGs { hgs_at : Z; hgs_arr : Z; hgs_items : list hseg }.
(** value.h [struct betree_frequency_cap]. *)
Record hcap := mkHC {
  hc_at : Z; hc_type : ftype; hc_id : Z; hc_ns : hsval; hc_tsdef : bool; hc_ts : Z; hc_value : Z }.
(** value.h [struct betree_frequency_caps]. *)
Record hcaps := mkHCs { hcs_at : Z; hcs_arr : Z; hcs_items : list hcap }.
(** value.h [struct value]. *)
Inductive hvalue :=
| HWBool (b : bool) | HWInt (z : Z) | HWFloat (f : flt) | HWStr (s : hsval) | HWIEnum (e : ieval)
| HWInts (l : hints) | HWStrs (l : hstrs) | HWSegs (l : hsegs) | HWCaps (l : hcaps).
(** tree.h 12-15 [struct betree_variable]. *)
Record hvariable := mkHY { hy_at : Z; hy_attr : hvar; hy_value : hvalue }.
(** betree.h 29-32 [struct betree_event]. *)
Record hevent := mkHE { he_at : Z; he_arr : Z; he_vars : list (option hvariable) }.

(** ** What the pointers point to *)
Definition er_cap (k : hcap) : fcap :=
  mkCap (hc_type k) (hc_id k) (er_sval (hc_ns k)) (hc_tsdef k) (hc_ts k) (hc_value k).
Definition er_value (v : hvalue) : value :=
  match v with
  | HWBool b => VBool b | HWInt z => VInt z | HWFloat f => VFloat f | HWStr s => VStr (er_sval s) | HWIEnum e => VIEnum e
  | HWInts l => VIntList (hi_items l) | HWStrs l => VStrList (er_strs l) | HWSegs l => VSegs (map hg_seg (hgs_items l))
  | HWCaps l => VFreqs (map er_cap (hcs_items l))
  end.
Definition hy_name (x : hvariable) : string := hs_text (hv_attr (hy_attr x)).
Definition er_variable (x : hvariable) : variable := (hy_name x, er_value (hy_value x)).
Definition er_event (e : hevent) : evobj := map (option_map er_variable) (he_vars e).

(** ** Making *)
(** value.c 180-186 [make_segment]. *)
Definition h_make_segment (id ts : Z) : cmd hseg := on a <- malloc; ret (mkHG a (mkSeg id ts)).
(** value.c 32-40 [make_segments]. *)
Definition h_make_segs : cmd hsegs := on a <- malloc; ret (mkHGs a 0 []).
(** value.c 137-156 [add_segment]. *)
Definition h_add_seg (s : hseg) (l : hsegs) : cmd hsegs :=
  on _ <- use (hgs_at l);
  match hgs_items l with
  | [] => on b <- malloc; ret (mkHGs (hgs_at l) b [s])
  | _ => on b <- realloc (hgs_arr l); ret (mkHGs (hgs_at l) b (hgs_items l ++ [s]))
  end.
(** value.c 188-214 [make_frequency_cap], [make_frequency_cap_with_type]: strcmp reads the type. *)
Definition h_make_cap (stype : hstr) (id : Z) (ns : hsval) (ts v : Z) : cmd hcap :=
  on _ <- use (hs_at stype); on a <- malloc;
  ret (mkHC a (get_type_from_string (hs_text stype)) (to_uint 32 id) ns true ts (to_uint 32 v)).
(** value.c 42-50 [make_frequency_caps]. *)
Definition h_make_caps : cmd hcaps := on a <- malloc; ret (mkHCs a 0 []).
(** value.c 158-178 [add_frequency]. *)
Definition h_add_cap (s : hcap) (l : hcaps) : cmd hcaps :=
  on _ <- use (hcs_at l);
  match hcs_items l with
  | [] => on b <- malloc; ret (mkHCs (hcs_at l) b [s])
  | _ => on b <- realloc (hcs_arr l); ret (mkHCs (hcs_at l) b (hcs_items l ++ [s]))
  end.
(** tree.c 1354-1365 [make_pred] with INVALID_VAR. *)
Definition h_make_pred (name : hstr) (v : hvalue) : cmd hvariable :=
  on a <- malloc; on s <- bstrdup name; ret (mkHY a (mkHV s INVALID_VAR) v).
(** tree.c 1605-1615 [make_empty_event]. *)
Definition h_make_event : cmd hevent := on a <- malloc; ret (mkHE a 0 []).
(** tree.c 1847-1870 [add_variable]. *)
Definition h_add_variable (x : option hvariable) (e : hevent) : cmd hevent :=
  match x with
  | None => ret e
  | Some _ =>
      on _ <- use (he_at e);
      match he_vars e with
      | [] => on b <- malloc; ret (mkHE (he_at e) b [x])
      | _ => on b <- realloc (he_arr e); ret (mkHE (he_at e) b (he_vars e ++ [x]))
      end
  end.

(** betree.c 832-839 [betree_make_variable] (tree.c 1823-1834 [make_attr_var] copies the name), for a value that was made before. *)
Definition h_make_variable (name : string) (v : hvalue) : cmd hvariable :=
  on s <- malloc; on a <- malloc; ret (mkHY a (mkHV (mkHS s name) INVALID_VAR) v).
(** betree.c 859-864 [betree_make_string_variable]. *)
Definition h_make_string_variable (name text : string) : cmd hvariable :=
  on s <- malloc; h_make_variable name (HWStr (mkHSV (mkHS s text) INVALID_STR)).
(** betree.c 943-949 [betree_make_event]: an array of NULL. *)
Definition h_make_object (t : betree) : cmd hevent :=
  on a <- malloc; on b <- malloc; ret (mkHE a b (repeat None (List.length (c_domains (bt_cfg t))))).
(** betree.c 951-954 [betree_set_variable]: what was there is not released. *)
Definition h_set_variable (e : hevent) (i : N) (x : option hvariable) : cmd hevent :=
  on _ <- use (he_at e);
  if (i <? N.of_nat (List.length (he_vars e)))%N then on _ <- use (he_arr e); ret (mkHE (he_at e) (he_arr e) (updN (he_vars e) i x))
  else fail UB.

(** ** Releasing *)
(** value.c 266-269 [free_segment], 271-280 [free_segments]. *)
Definition h_free_seg (s : hseg) : cmd unit := free (hg_at s).
Definition h_free_segs (l : hsegs) : cmd unit :=
  on _ <- use (hgs_at l); on _ <- each h_free_seg (hgs_items l); on _ <- free (hgs_arr l); free (hgs_at l).
(** value.c 282-286 [free_frequency_cap], 288-297 [free_frequency_caps]. *)
Definition h_free_cap (k : hcap) : cmd unit := on _ <- use (hc_at k); on _ <- h_free_sval (hc_ns k); free (hc_at k).
Definition h_free_caps (l : hcaps) : cmd unit :=
  on _ <- use (hcs_at l); on _ <- each h_free_cap (hcs_items l); on _ <- free (hcs_arr l); free (hcs_at l).
(** value.c 299-329 [free_value]: by the tag, which fill_event sets to the declared type. *)
Definition h_free_value (v : hvalue) : cmd unit :=
  match v with
  | HWInts l => h_free_ints l
  | HWStrs l => h_free_strs l
  | HWStr s => h_free_sval s
  | HWSegs l => h_free_segs l
  | HWCaps l => h_free_caps l
  | HWBool _ | HWInt _ | HWFloat _ | HWIEnum _ => ret tt
  end.
(** tree.c 1090-1099 [free_pred]; betree.c 901-906 [betree_free_variable]. *)
Definition h_free_variable (x : hvariable) : cmd unit :=
  on _ <- use (hy_at x); on _ <- free (hs_at (hv_attr (hy_attr x))); on _ <- h_free_value (hy_value x); free (hy_at x).
(** tree.c 1115-1128 [free_event]. *)
Definition h_free_event (e : hevent) : cmd unit :=
  on _ <- use (he_at e);
  on _ <- each (fun x => match x with Some y => h_free_variable y | None => ret tt end) (he_vars e);
  on _ <- free (he_arr e); free (he_at e).

(** ** The generated parser *)
(** event_parser.h [YYSTYPE] (event_parser.y 32-52): the members that are used. *)
Inductive heval :=
| GTok | GBool (b : bool) | GInt (z : Z) | GFlt (f : flt) | GString (s : hstr) | GStr (s : hsval)
| GInts (l : hints) | GStrs (l : hstrs) | GSeg (s : hseg) | GSegs (l : hsegs) | GCap (k : hcap) | GCaps (l : hcaps)
| GValue (v : hvalue) | GVariable (x : option hvariable) | GEvent (e : hevent).
(** event_lexer.l: only strings are copied. *)
Definition ep_scan (t : etoken) : cmd heval :=
  match t with
  | JStr s => on a <- malloc; ret (GString (mkHS a s))
  | JInt z => ret (GInt z)
  | JFlt f => ret (GFlt f)
  | _ => ret GTok
  end.

Definition g_arg (vs : list heval) (i : nat) : cmd heval := fail (arg vs i).
Definition g_bool vs i : cmd bool := on v <- g_arg vs i; match v with GBool b => ret b | _ => fail UB end.
Definition g_int vs i : cmd Z := on v <- g_arg vs i; match v with GInt z => ret z | _ => fail UB end.
Definition g_flt vs i : cmd flt := on v <- g_arg vs i; match v with GFlt f => ret f | _ => fail UB end.
Definition g_string vs i : cmd hstr := on v <- g_arg vs i; match v with GString s => ret s | _ => fail UB end.
Definition g_str vs i : cmd hsval := on v <- g_arg vs i; match v with GStr s => ret s | _ => fail UB end.
Definition g_ints vs i : cmd hints := on v <- g_arg vs i; match v with GInts l => ret l | _ => fail UB end.
Definition g_strs vs i : cmd hstrs := on v <- g_arg vs i; match v with GStrs l => ret l | _ => fail UB end.
Definition g_seg vs i : cmd hseg := on v <- g_arg vs i; match v with GSeg s => ret s | _ => fail UB end.
Definition g_segs vs i : cmd hsegs := on v <- g_arg vs i; match v with GSegs l => ret l | _ => fail UB end.
Definition g_cap vs i : cmd hcap := on v <- g_arg vs i; match v with GCap k => ret k | _ => fail UB end.
Definition g_caps vs i : cmd hcaps := on v <- g_arg vs i; match v with GCaps l => ret l | _ => fail UB end.
Definition g_value vs i : cmd hvalue := on v <- g_arg vs i; match v with GValue x => ret x | _ => fail UB end.
Definition g_variable vs i : cmd (option hvariable) := on v <- g_arg vs i; match v with GVariable x => ret x | _ => fail UB end.
Definition g_event vs i : cmd hevent := on v <- g_arg vs i; match v with GEvent e => ret e | _ => fail UB end.

(** event_parser.c 1513-1740: the actions by rule (event_parser.y 94-167); for the rules 2 and 3 the value is the default
    one, $1. *)
Definition he_act0 (k : Z) (vs : list heval) : cmd heval :=
  match k with
  | 4 => on x <- g_variable vs 1; on e <- h_make_event; on e <- h_add_variable x e; ret (GEvent e)
  | 5 => on x <- g_variable vs 3; on e <- g_event vs 1; on e <- h_add_variable x e; ret (GEvent e)
  | 6 => on s <- g_string vs 1; on v <- g_value vs 3; on x <- h_make_pred s v; on _ <- free (hs_at s); ret (GVariable (Some x))
  | 7 => on s <- g_string vs 1; on _ <- free (hs_at s); ret (GVariable None)
  | 8 => on b <- g_bool vs 1; ret (GValue (HWBool b))
  | 9 => on z <- g_int vs 1; ret (GValue (HWInt z))
  | 10 => on f <- g_flt vs 1; ret (GValue (HWFloat f))
  | 11 => on s <- g_str vs 1; ret (GValue (HWStr s))
  | 12 | 13 => on l <- g_ints vs 1; ret (GValue (HWInts l))
  | 14 => on l <- g_strs vs 1; ret (GValue (HWStrs l))
  | 15 => on l <- g_segs vs 1; ret (GValue (HWSegs l))
  | 16 => on l <- g_caps vs 1; ret (GValue (HWCaps l))
  | 17 => ret (GBool true)
  | 18 => ret (GBool false)
  | 19 => on z <- g_int vs 1; ret (GInt z)
  | 20 => on z <- g_int vs 2; ret (GInt (- z))
  | 21 => on f <- g_flt vs 1; ret (GFlt f)
  | 22 => on f <- g_flt vs 2; ret (GFlt (fopp f))
  | 23 => on s <- g_string vs 1; on c <- bstrdup s; on _ <- free (hs_at s); ret (GStr (mkHSV c INVALID_STR))
  | 24 => on l <- h_make_ints; ret (GInts l)
  | 25 => on l <- g_ints vs 2; ret (GInts l)
  | 26 => on z <- g_int vs 1; on l <- h_make_ints; on l <- h_add_int z l; ret (GInts l)
  | 27 => on z <- g_int vs 3; on l <- g_ints vs 1; on l <- h_add_int z l; ret (GInts l)
  | 28 => on l <- g_strs vs 2; ret (GStrs l)
  | 29 => on s <- g_str vs 1; on l <- h_make_strs; on l <- h_add_str s l; ret (GStrs l)
  | 30 => on s <- g_str vs 3; on l <- g_strs vs 1; on l <- h_add_str s l; ret (GStrs l)
  | 31 => on l <- g_segs vs 2; ret (GSegs l)
  | 32 => on s <- g_seg vs 1; on l <- h_make_segs; on l <- h_add_seg s l; ret (GSegs l)
  | 33 => on s <- g_seg vs 3; on l <- g_segs vs 1; on l <- h_add_seg s l; ret (GSegs l)
  | 34 => on i <- g_int vs 2; on t <- g_int vs 4; on s <- h_make_segment i t; ret (GSeg s)
  | 35 => on l <- g_caps vs 2; ret (GCaps l)
  | 36 => on k <- g_cap vs 1; on l <- h_make_caps; on l <- h_add_cap k l; ret (GCaps l)
  | 37 => on k <- g_cap vs 3; on l <- g_caps vs 1; on l <- h_add_cap k l; ret (GCaps l)
  | 38 => on ty <- g_string vs 2; on i <- g_int vs 4; on ns <- g_str vs 6; on v <- g_int vs 8; on t <- g_int vs 10;
          on k <- h_make_cap ty i ns t v; on _ <- free (hs_at ty); ret (GCap k)
  | 39 => on ty <- g_string vs 3; on i <- g_int vs 5; on ns <- g_str vs 7; on v <- g_int vs 10; on t <- g_int vs 12;
          on k <- h_make_cap ty i ns t v; on _ <- free (hs_at ty); ret (GCap k)
  | _ => g_arg vs 1
  end.
(** The rules 2 and 3 store the event in the variable root. *)
Definition he_act (k : Z) (vs : list heval) : cmd (heval * option hevent) :=
  on v <- he_act0 k vs;
  match k with
  | 2 => on e <- h_make_event; ret (v, Some e)
  | 3 => on e <- g_event vs 2; ret (v, Some e)
  | _ => ret (v, None)
  end.
(** event_parser.c [yyparse] (zzparse). *)
Definition h_zzparse (ts : list etoken) : cmd (left_behind (K := etoken) (V := heval) (R := hevent)) :=
  h_yyparse ep_tables ep_code ep_scan GTok he_act (10 * List.length ts + 10) ts.
(** event_parser.y 179-198 [event_parse]: None stands for the result -1.  The blocks of the scanner are in FlexBuffer.v. *)
Definition h_event_parse (text : string) : cmd (option hevent) :=
  on ts <- fail (e_lex text); on o <- h_zzparse ts;
  ret (match lb_out o with Accepted r => r | _ => None end).

(** ** Filling *)
(** A string of a value is looked up (config.c 304-318 [try_get_id_for_string] and map.c): it is read. *)
Definition h_look (c : config) (v : N) (s : hsval) : cmd hsval :=
  on _ <- use (hs_at (hw_string s)); ret (mkHSV (hw_string s) (try_get_str c v (hs_text (hw_string s)))).
(** tree.c 1872-1930 [fill_event] for the value of one variable, as in Api.v; the list of an empty list changes its type
    with the tag (the list structs share their layout). *)
Definition h_fill_value (c : config) (v : N) (b : bound) (x : hvalue) : cmd hvalue :=
  match btype b, x with
  | TBool, HWBool _ | TInt, HWInt _ | TFloat, HWFloat _ | TIntList, HWInts _ | TSegs, HWSegs _ => ret x
  | TFloat, HWInt z => ret (HWFloat (float_of_bits z))
  | TIEnum, HWInt z => ret (HWIEnum (mkIE z (try_get_ie c v z)))
  | TIEnum, HWIEnum e => ret (HWIEnum (mkIE (ie_int e) (try_get_ie c v (ie_int e))))
  | TStr, HWStr s => on s <- h_look c v s; ret (HWStr s)
  | TStrList, HWStrs l =>
      on _ <- use (hl_at l);
      on s <- collect (fun s => on _ <- use (hl_arr l); h_look c v s) (hl_items l);
      ret (HWStrs (mkHL (hl_at l) (hl_arr l) s))
  | TFreqs, HWCaps l =>
      on _ <- use (hcs_at l);
      on s <- collect (fun k => on _ <- use (hcs_arr l); on _ <- use (hc_at k); on ns <- h_look c v (hc_ns k);
                                ret (mkHC (hc_at k) (hc_type k) (hc_id k) ns (hc_tsdef k) (hc_ts k) (hc_value k))) (hcs_items l);
      ret (HWCaps (mkHCs (hcs_at l) (hcs_arr l) s))
  | TStrList, HWInts l => match hi_items l with [] => on _ <- use (hi_at l); ret (HWStrs (mkHL (hi_at l) (hi_arr l) [])) | _ => fail UB end
  | TSegs, HWInts l => match hi_items l with [] => ret (HWSegs (mkHGs (hi_at l) (hi_arr l) [])) | _ => fail UB end
  | TFreqs, HWInts l => match hi_items l with [] => on _ <- use (hi_at l); ret (HWCaps (mkHCs (hi_at l) (hi_arr l) [])) | _ => fail UB end
  | _, _ => fail UB
  end.
(** tree.c 1625-1639 [try_get_id_for_attr]: makes a copy in lower case, which it releases. *)
Definition h_try_get_id (c : config) (name : hstr) : cmd N :=
  on copy <- bstrdup name; on _ <- use (hs_at copy);
  let v := find_attr (c_domains c) (lower (hs_text copy)) 0 in
  on _ <- free (hs_at copy); ret v.
(** tree.c 1872-1930 [fill_event] for one variable. *)
Definition h_fill_variable (c : config) (x : hvariable) : cmd hvariable :=
  on _ <- use (hy_at x);
  on v <- h_try_get_id c (hv_attr (hy_attr x));
  if (v =? INVALID_VAR)%N then fail Abort else
  on d <- fail (get_domain c v);
  on y <- h_fill_value c v (d_bound d) (hy_value x);
  ret (mkHY (hy_at x) (mkHV (hv_attr (hy_attr x)) v) y).
(** A loop over the variables of an event: NULL is skipped. *)
Definition on_slot (arr : Z) (f : hvariable -> cmd hvariable) (x : option hvariable) : cmd (option hvariable) :=
  on _ <- use arr; match x with None => ret None | Some y => on z <- f y; ret (Some z) end.
Definition each_variable (f : hvariable -> cmd hvariable) (e : hevent) : cmd hevent :=
  on _ <- use (he_at e);
  on l <- collect (on_slot (he_arr e) f) (he_vars e);
  ret (mkHE (he_at e) (he_arr e) l).
(** tree.c 1872-1930 [fill_event]. *)
Definition h_fill_event (c : config) : hevent -> cmd hevent := each_variable (h_fill_variable c).

(** value.c 428-443 [remove_duplicates_string_list]: a dropped string is released. *)
Fixpoint h_dedup_from (last : hsval) (l : list hsval) : cmd (list hsval) :=
  match l with
  | [] => ret []
  | x :: t =>
      if hw_str last =? hw_str x then on _ <- h_free_sval x; h_dedup_from last t
      else on t <- h_dedup_from x t; ret (x :: t)
  end.
Definition h_dedup (l : list hsval) : cmd (list hsval) :=
  match l with [] => ret [] | x :: t => on t <- h_dedup_from x t; ret (x :: t) end.
(** value.c 450-454 [sort_and_remove_duplicate_string_list]. *)
Definition h_sort_strs (l : hstrs) : cmd hstrs :=
  on _ <- use (hl_at l);
  on _ <- match hl_items l with [] => ret tt | _ => use (hl_arr l) end;
  on s <- h_dedup (sort_key hw_str (hl_items l));
  ret (mkHL (hl_at l) (hl_arr l) s).
(** value.c 422-426 [sort_and_remove_duplicate_integer_list]. *)
Definition h_sort_ints (l : hints) : cmd hints :=
  on _ <- use (hi_at l);
  on _ <- match hi_items l with [] => ret tt | _ => use (hi_arr l) end;
  ret (mkHI (hi_at l) (hi_arr l) (sort_ints (hi_items l))).
(** tree.c 1795-1809 [sort_event_lists]. *)
Definition h_sort_variable (x : hvariable) : cmd hvariable :=
  on _ <- use (hy_at x);
  match hy_value x with
  | HWInts l => on l <- h_sort_ints l; ret (mkHY (hy_at x) (hy_attr x) (HWInts l))
  | HWStrs l => on l <- h_sort_strs l; ret (mkHY (hy_at x) (hy_attr x) (HWStrs l))
  | _ => ret x
  end.
Definition h_sort_event : hevent -> cmd hevent := each_variable h_sort_variable.
(** tree.c 1811-1821 [make_event_from_string]. *)
Definition h_event_from_string (c : config) (text : string) : cmd hevent :=
  on o <- h_event_parse text;
  match o with
  | None => fail Abort
  | Some e => on e <- h_fill_event c e; h_sort_event e
  end.

(** ** Searching *)
(** betree.h [struct report]. *)
Record hreport := mkHR { hp_at : Z; hp_subs : Z; hp_report : report }.
(** betree.c 606-619 [make_report]. *)
Definition h_make_report : cmd hreport := on a <- malloc; ret (mkHR a 0 make_report).
(** betree.c 621-625 [free_report]. *)
Definition h_free_report (r : hreport) : cmd unit := on _ <- use (hp_at r); on _ <- free (hp_subs r); free (hp_at r).
(** tree.c 1728-1747 [add_sub]. *)
Definition h_add_sub (id : Z) (r : hreport) : cmd hreport :=
  on _ <- use (hp_at r);
  on b <- if r_matched (hp_report r) =? 0 then malloc else realloc (hp_subs r);
  ret (mkHR (hp_at r) b (add_sub id (hp_report r))).

(** The addresses that reading a value may use. *)
Definition value_reads (v : hvalue) : list Z :=
  match v with
  | HWBool _ | HWInt _ | HWFloat _ | HWIEnum _ => []
  | HWStr s => [hs_at (hw_string s)]
  | HWInts l => hi_at l :: match hi_items l with [] => [] | _ => [hi_arr l] end
  | HWStrs l => hl_at l :: match hl_items l with [] => [] | _ => hl_arr l :: map (fun s => hs_at (hw_string s)) (hl_items l) end
  | HWSegs l => hgs_at l :: match hgs_items l with [] => [] | _ => hgs_arr l :: map hg_at (hgs_items l) end
  | HWCaps l => hcs_at l :: match hcs_items l with
      [] => [] | _ => hcs_arr l :: flat_map (fun k => [hc_at k; hs_at (hw_string (hc_ns k))]) (hcs_items l) end
  end.
Definition event_reads (e : hevent) : list Z :=
  flat_map (fun x => match x with Some y => hy_at y :: value_reads (hy_value y) | None => [] end) (he_vars e).
(** The evaluation of one subscription reads some of the variables; here all of them are read. *)
Definition h_read_event (e : hevent) : cmd unit := each use (event_reads e).

(** betree.c 548-557 [make_environment]: an array that points to the variables of the event; what it says about them. *)
Definition env_of (n : nat) (l : list (option hvariable)) : env :=
  fold_left (fun p x => match x with Some y => updN p (hv_var (hy_attr y)) (Some (er_value (hy_value y))) | None => p end) l (repeat None n).
Definition h_make_environment (c : config) (e : hevent) : cmd (Z * env) :=
  on a <- malloc;
  on _ <- each (fun x => match x with Some y => on _ <- use (hy_at y); use a | None => ret tt end) (he_vars e);
  ret (a, env_of (List.length (c_domains c)) (he_vars e)).

(** tree.c 27-43 [init_subs_to_eval], [add_sub_to_eval]: the array of candidates grows to twice its size when it is full. *)
Fixpoint h_candidates (a : Z) (cap count : nat) (l : list sub) : cmd Z :=
  match l with
  | [] => ret a
  | _ :: t =>
      on '(a, cap) <- if Nat.eqb cap count then on b <- realloc a; ret (b, (2 * cap)%nat) else ret (a, cap);
      on _ <- use a; h_candidates a cap (S count) t
  end.

Section WithGeo.
  Context {G : Geo}.

  (** The loop of tree.c 1759-1765: [arrays] are the array of candidates, undefined, the two of memoize, and the environment. *)
  Fixpoint h_search_loop (arrays : list Z) (e : hevent) (p : env) (m : mids) (undefined : bits) (subs : list sub) (st : mstate) (r : hreport)
    : cmd hreport :=
    match subs with
    | [] => ret (mkHR (hp_at r) (hp_subs r) (let x := hp_report r in mkR (r_evaluated x) (r_matched x) (r_shorted x) (ms_memoized st) (r_subs x)))
    | s :: t =>
        on _ <- use (hp_at r); on _ <- each use arrays; on _ <- h_read_event e;
        on '(b, st', shorted) <- fail (match_sub p m undefined s st);
        let x := hp_report r in
        let r' := mkHR (hp_at r) (hp_subs r)
                    (mkR (r_evaluated x + 1) (r_matched x) (if shorted : bool then r_shorted x + 1 else r_shorted x) (r_memoized x) (r_subs x)) in
        on r2 <- if b : bool then h_add_sub (s_id s) r' else ret r';
        h_search_loop arrays e p m undefined t st' r2
    end.
  (** The loop of tree.c 1783-1789. *)
  Fixpoint h_exists_loop (arrays : list Z) (e : hevent) (p : env) (m : mids) (undefined : bits) (subs : list sub) (st : mstate) : cmd bool :=
    match subs with
    | [] => ret false
    | s :: t =>
        on _ <- each use arrays; on _ <- h_read_event e;
        on '(b, st', _) <- fail (match_sub p m undefined s st);
        if b : bool then ret true else h_exists_loop arrays e p m undefined t st'
    end.

  (** tree.c 1749-1771 [betree_search_with_preds]: releases the environment, too. *)
  Definition h_search_with_preds (c : config) (m : mids) (mcount : N) (a : Z) (p : env) (e : hevent) (cn : cnode) (r : hreport) : cmd hreport :=
    on u <- malloc; on pass <- malloc; on fail_ <- malloc; on s <- malloc;
    on subs <- fail (match_cnode (c_domains c) p cn);
    on s <- h_candidates s 10 0 subs;
    on r <- h_search_loop [s; u; pass; fail_; a] e p m (make_undefined p) subs (make_memoize mcount (r_memoized (hp_report r))) r;
    on _ <- free s; on _ <- free pass; on _ <- free fail_; on _ <- free u; on _ <- free a;
    ret r.
  (** tree.c 1773-1793 [betree_exists_with_preds]. *)
  Definition h_exists_with_preds (c : config) (m : mids) (mcount : N) (a : Z) (p : env) (e : hevent) (cn : cnode) : cmd bool :=
    on u <- malloc; on pass <- malloc; on fail_ <- malloc; on s <- malloc;
    on subs <- fail (match_cnode (c_domains c) p cn);
    on s <- h_candidates s 10 0 subs;
    on b <- h_exists_loop [s; u; pass; fail_; a] e p m (make_undefined p) subs (make_memoize mcount 0);
    on _ <- free s; on _ <- free pass; on _ <- free fail_; on _ <- free u; on _ <- free a;
    ret b.

  (** betree.c 559-568 [betree_search_with_event_filled]: an event that lacks a variable is refused without releasing the
      environment. *)
  Definition h_search_filled (t : betree) (e : hevent) (r : hreport) : cmd (bool * hreport) :=
    let c := bt_cfg t in
    on '(a, p) <- h_make_environment c e;
    if negb (validate_variables (c_domains c) p) then ret (false, r) else
    on r <- h_search_with_preds c (pm_mids (bt_pm t)) (pm_mcount (bt_pm t)) a p e (bt_root t) r;
    ret (true, r).
  (** betree.c 570-574 [betree_exists_with_event_filled]. *)
  Definition h_exists_filled (t : betree) (e : hevent) : cmd bool :=
    let c := bt_cfg t in
    on '(a, p) <- h_make_environment c e;
    h_exists_with_preds c (pm_mids (bt_pm t)) (pm_mcount (bt_pm t)) a p e (bt_root t).
  (** betree.c 599-604 [betree_search_with_event]. *)
  Definition h_search_event (t : betree) (e : hevent) (r : hreport) : cmd (bool * hreport * hevent) :=
    on e <- h_fill_event (bt_cfg t) e; on e <- h_sort_event e;
    on '(b, r) <- h_search_filled t e r; ret (b, r, e).
  (** betree.c 584-589 [betree_exists_with_event]. *)
  Definition h_exists_event (t : betree) (e : hevent) : cmd (bool * hevent) :=
    on e <- h_fill_event (bt_cfg t) e; on e <- h_sort_event e;
    on b <- h_exists_filled t e; ret (b, e).
  (** betree.c 591-597 [betree_search]. *)
  Definition h_search (t : betree) (text : string) (r : hreport) : cmd (bool * hreport) :=
    on e <- h_event_from_string (bt_cfg t) text;
    on '(b, r) <- h_search_filled t e r; on _ <- h_free_event e; ret (b, r).
  (** betree.c 576-582 [betree_exists]. *)
  Definition h_exists (t : betree) (text : string) : cmd bool :=
    on e <- h_event_from_string (bt_cfg t) text;
    on b <- h_exists_filled t e; on _ <- h_free_event e; ret b.

  (** One report for each of some searches with texts. *)
  Fixpoint h_session (t : betree) (texts : list string) : cmd (list (bool * report)) :=
    match texts with
    | [] => ret []
    | s :: rest =>
        on r <- h_make_report; on '(b, r) <- h_search t s r;
        let x := hp_report r in on _ <- h_free_report r;
        on l <- h_session t rest; ret ((b, x) :: l)
    end.
End WithGeo.
