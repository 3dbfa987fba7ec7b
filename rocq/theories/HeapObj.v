(** The memory of event objects, constants and reports that the caller builds call by call (betree.c 606-625, 725-954), and of
    programs that use them (ObjProgram.v). *)
From Coq Require Import ZArith NArith String Bool List.
From Verif Require Import Base Float Value Ast Config Assign Special Match Bound Tree PredMap Source Api EventObj Linked LinkedApi BisonTables Machine ObjProgram.
From Verif Require Import Ledger HeapExpr HeapEvent HeapConf HeapWorld.
Import ListNotations.
Local Open Scope Z_scope.
Local Open Scope led_scope.

(** A list under construction: where it is, where its array is, the elements; NULL where none was set.  (calloc may give NULL
    for an array without elements: here it is a block.) *)
Record hslots (A : Type) := mkSL { sl_at : Z; sl_arr : Z; sl_items : list (option A) }.
Arguments mkSL {A}. Arguments sl_at {A}. Arguments sl_arr {A}. Arguments sl_items {A}.

(** What a pointer of the caller points to, as in ObjProgram.v. *)
Inductive hitem :=
| JInts (l : hints) | JStrs (l : hslots hsval) | JSeg (s : hseg) | JSegs (l : hslots hseg)
| JCap (k : hcap) | JCaps (l : hslots hcap) | JVar (x : hvariable) | JEvent (e : hevent)
| JConst (a : Z) (name : hstr) (z : Z) | JReport (r : hreport) | JNull | JGone.

Definition hitem_at (l : list hitem) (h : nat) : cmd hitem := match nth_error l h with Some x => ret x | None => fail UB end.

(** betree.c 767-773 [betree_make_string_list], 781-787 [betree_make_segments], 801-807 [betree_make_frequency_caps]. *)
Definition h_make_slots {A} (n : nat) : cmd (hslots A) := on a <- malloc; on b <- malloc; ret (mkSL a b (repeat None n)).
(** betree.c 775-779 [betree_add_string], 794-798 [betree_add_segment], 825-830 [betree_add_frequency_cap]: what was there is
    not released. *)
Definition h_add_slot {A} (l : hslots A) (i : N) (x : option A) : cmd (hslots A) :=
  on _ <- use (sl_at l);
  if (i <? N.of_nat (List.length (sl_items l)))%N then on _ <- use (sl_arr l); ret (mkSL (sl_at l) (sl_arr l) (updN (sl_items l) i x))
  else fail UB.
(** betree.c 754-760 [betree_make_integer_list], 762-765 [betree_add_integer]. *)
Definition h_make_int_list (n : nat) : cmd hints := on a <- malloc; on b <- malloc; ret (mkHI a b (repeat 0 n)).
Definition h_set_int (l : hints) (i : N) (z : Z) : cmd hints :=
  on _ <- use (hi_at l);
  if (i <? N.of_nat (List.length (hi_items l)))%N then on _ <- use (hi_arr l); ret (mkHI (hi_at l) (hi_arr l) (updN (hi_items l) i z))
  else fail UB.
(** betree.c 809-823 [betree_make_frequency_cap]: the namespace is copied once the type is known. *)
Definition h_new_cap (ty : string) (id : Z) (ns : string) (tsdef : bool) (ts v : Z) : cmd hitem :=
  match get_type_from_string ty with
  | FTInvalid => ret JNull
  | t => on s <- malloc; on a <- malloc; ret (JCap (mkHC a t id (mkHSV (mkHS s ns) INVALID_STR) tsdef ts v))
  end.
(** betree.c 725-736 [betree_make_integer_constant], 738-743 [betree_free_constant]. *)
Definition h_make_constant (name : string) (z : Z) : cmd hitem := on a <- malloc; on s <- malloc; ret (JConst a (mkHS s name) z).
Definition h_free_constant (a : Z) (name : hstr) : cmd unit := on _ <- use a; on _ <- free (hs_at name); free a.
(** value.c 257-264 [free_string_list], 271-280 [free_segments], 288-297 [free_frequency_caps]: an element that was not set is
    skipped (free takes NULL). *)
Definition h_free_slots {A} (f : A -> cmd unit) (l : hslots A) : cmd unit :=
  on _ <- use (sl_at l);
  on _ <- each (fun x => match x with Some y => f y | None => ret tt end) (sl_items l);
  on _ <- free (sl_arr l); free (sl_at l).
(** The function of betree.c 738-752, 901-941, 621-625 for the type of the pointer. *)
Definition h_free_item (x : hitem) : cmd unit :=
  match x with
  | JInts l => h_free_ints l
  | JStrs l => h_free_slots h_free_sval l
  | JSeg s => h_free_seg s
  | JSegs l => h_free_slots h_free_seg l
  | JCap k => h_free_cap k
  | JCaps l => h_free_slots h_free_cap l
  | JVar y => h_free_variable y
  | JEvent e => h_free_event e
  | JConst a name _ => h_free_constant a name
  | JReport r => h_free_report r
  | JNull | JGone => fail UB
  end.

(** The elements of a finished list, as in EventObj.v. *)
Fixpoint all_set {A} (l : list (option A)) : result (list A) :=
  match l with [] => Ok [] | None :: _ => UB | Some x :: t => bind (all_set t) (fun t => Ok (x :: t)) end.

(** The pointers after a call. *)
Definition ho_call (nv : nat) (l : list hitem) (k : ocall) : cmd (list hitem) :=
  match k with
  | OConst name z => on x <- h_make_constant name z; ret (l ++ [x])
  | OInts n => on s <- h_make_int_list n; ret (l ++ [JInts s])
  | OAddInt h i z =>
      on x <- hitem_at l h;
      match x with JInts s => on s <- h_set_int s i z; ret (put l h (JInts s)) | _ => fail UB end
  | OStrs n => on s <- h_make_slots n; ret (l ++ [JStrs s])
  | OAddStr h i s =>
      on x <- hitem_at l h;
      match x with
      | JStrs t => on a <- malloc; on t <- h_add_slot t i (Some (mkHSV (mkHS a s) 0)); ret (put l h (JStrs t))
      | _ => fail UB
      end
  | OSeg id ts => on s <- h_make_segment id ts; ret (l ++ [JSeg s])
  | OSegs n => on s <- h_make_slots n; ret (l ++ [JSegs s])
  | OAddSeg h i g =>
      on x <- hitem_at l h; on y <- hitem_at l g;
      match x, y with
      | JSegs t, JSeg s => on t <- h_add_slot t i (Some s); ret (put (put l g JGone) h (JSegs t))
      | JSegs t, JNull => on t <- h_add_slot t i None; ret (put l h (JSegs t))
      | _, _ => fail UB
      end
  | OCap ty id ns d ts v => on x <- h_new_cap ty id ns d ts v; ret (l ++ [x])
  | OCaps n => on s <- h_make_slots n; ret (l ++ [JCaps s])
  | OAddCap h i g =>
      on x <- hitem_at l h; on y <- hitem_at l g;
      match x, y with
      | JCaps t, JCap s => on t <- h_add_slot t i (Some s); ret (put (put l g JGone) h (JCaps t))
      | JCaps t, JNull => on t <- h_add_slot t i None; ret (put l h (JCaps t))
      | _, _ => fail UB
      end
  | OBoolVar name b => on x <- h_make_variable name (HWBool b); ret (l ++ [JVar x])
  | OIntVar name z => on x <- h_make_variable name (HWInt z); ret (l ++ [JVar x])
  | OFloatVar name f => on x <- h_make_variable name (HWFloat f); ret (l ++ [JVar x])
  | OStrVar name s => on x <- h_make_string_variable name s; ret (l ++ [JVar x])
  | OIntsVar name h =>
      on x <- hitem_at l h;
      match x with JInts s => on y <- h_make_variable name (HWInts s); ret (put l h JGone ++ [JVar y]) | _ => fail UB end
  | OStrsVar name h =>
      on x <- hitem_at l h;
      match x with
      | JStrs s => on t <- fail (all_set (sl_items s)); on y <- h_make_variable name (HWStrs (mkHL (sl_at s) (sl_arr s) t)); ret (put l h JGone ++ [JVar y])
      | _ => fail UB
      end
  | OSegsVar name h =>
      on x <- hitem_at l h;
      match x with
      | JSegs s => on t <- fail (all_set (sl_items s)); on y <- h_make_variable name (HWSegs (mkHGs (sl_at s) (sl_arr s) t)); ret (put l h JGone ++ [JVar y])
      | _ => fail UB
      end
  | OCapsVar name h =>
      on x <- hitem_at l h;
      match x with
      | JCaps s => on t <- fail (all_set (sl_items s)); on y <- h_make_variable name (HWCaps (mkHCs (sl_at s) (sl_arr s) t)); ret (put l h JGone ++ [JVar y])
      | _ => fail UB
      end
  | OEvent => on a <- malloc; on b <- malloc; ret (l ++ [JEvent (mkHE a b (repeat None nv))])
  | OSetVar h i g =>
      on x <- hitem_at l h; on y <- hitem_at l g;
      match x, y with
      | JEvent e, JVar v => on e <- h_set_variable e i (Some v); ret (put (put l g JGone) h (JEvent e))
      | JEvent e, JNull => on e <- h_set_variable e i None; ret (put l h (JEvent e))
      | _, _ => fail UB
      end
  | OReport => on r <- h_make_report; ret (l ++ [JReport r])
  | OFree h => on x <- hitem_at l h; on _ <- h_free_item x; ret (put l h JGone)
  end.

(** The constants of an insertion: ast.c 1868-1883 [get_integer_constant] reads them and their names. *)
Fixpoint h_consts_at (l : list hitem) (hs : list nat) : cmd constants :=
  match hs with
  | [] => ret []
  | h :: t =>
      on x <- hitem_at l h; on cs <- h_consts_at l t;
      match x with JConst a name z => on _ <- use a; on _ <- use (hs_at name); ret ((hs_text name, VInt z) :: cs) | _ => fail UB end
  end.
Definition h_report_at (l : list hitem) (h : nat) : cmd hreport :=
  on x <- hitem_at l h; match x with JReport r => ret r | _ => fail UB end.
Definition h_event_at (l : list hitem) (h : nat) : cmd hevent :=
  on x <- hitem_at l h; match x with JEvent e => ret e | _ => fail UB end.

Section WithGeo.
  Context {G : Geo}.

  (** betree.c 599-604 [betree_search_with_event], with the index in memory as in HeapWorld.v. *)
  Definition w_search_event (n : nat) (w : wstate) (e : hevent) (r : hreport) : cmd (bool * hreport * hevent) :=
    let c := er_conf (w_conf w) in
    on _ <- use (w_at w); on _ <- k_read_all (w_conf w); on _ <- w_read_subs (w_subs w);
    on e <- h_fill_event c e; on e <- h_sort_event e;
    on '(a, p) <- h_make_environment c e;
    if negb (validate_variables (c_domains c) p) then ret (false, r, e) else
    on u <- malloc; on pass <- malloc; on fail_ <- malloc; on s <- malloc;
    on l <- fail (p_match n (c_domains c) p (w_root w) (w_heap w));
    on subs <- fail (get_subs (w_heap w) l);
    on s <- h_candidates s 10 0 subs;
    on r <- h_search_loop [s; u; pass; fail_; a] e p (pm_mids (w_pm w)) (make_undefined p) subs
              (make_memoize (pm_mcount (w_pm w)) (r_memoized (hp_report r))) r;
    on _ <- free s; on _ <- free pass; on _ <- free fail_; on _ <- free u; on _ <- free a;
    ret (true, r, e).
  (** betree.c 584-589 [betree_exists_with_event]. *)
  Definition w_exists_event (n : nat) (w : wstate) (e : hevent) : cmd (bool * hevent) :=
    let c := er_conf (w_conf w) in
    on _ <- use (w_at w); on _ <- k_read_all (w_conf w); on _ <- w_read_subs (w_subs w);
    on e <- h_fill_event c e; on e <- h_sort_event e;
    on '(a, p) <- h_make_environment c e;
    on u <- malloc; on pass <- malloc; on fail_ <- malloc; on s <- malloc;
    on l <- fail (p_match n (c_domains c) p (w_root w) (w_heap w));
    on subs <- fail (get_subs (w_heap w) l);
    on s <- h_candidates s 10 0 subs;
    on b <- h_exists_loop [s; u; pass; fail_; a] e p (pm_mids (w_pm w)) (make_undefined p) subs (make_memoize (pm_mcount (w_pm w)) 0);
    on _ <- free s; on _ <- free pass; on _ <- free fail_; on _ <- free u; on _ <- free a;
    ret (b, e).

  Definition xheap := (wstate * list hitem)%type.
  Definition hx_call (n : nat) (s : xheap) (k : xcall) : cmd (reply * xheap) :=
    let '(w, l) := s in
    match k with
    | XTree k => on '(a, w) <- w_call n w k; ret (a, (w, l))
    | XObj k =>
        on _ <- match k with OEvent => on _ <- use (w_at w); use (k_at (w_conf w)) | _ => ret tt end;
        on l <- ho_call (List.length (c_domains (er_conf (w_conf w)))) l k; ret (RNone, (w, l))
    | XInsert id hs t => on cs <- h_consts_at l hs; on '(a, w) <- w_call n w (TInsert id cs t); ret (a, (w, l))
    | XMake id hs t => on cs <- h_consts_at l hs; on '(a, w) <- w_call n w (TMake id cs t); ret (a, (w, l))
    | XSearch t h =>
        on r <- h_report_at l h; on '(b, r) <- w_search_text n w t r;
        ret (RReport b (hp_report r), (w, put l h (JReport r)))
    | XSearchEvent e h =>
        on ev <- h_event_at l e; on r <- h_report_at l h;
        on '(b, r, ev) <- w_search_event n w ev r;
        ret (RReport b (hp_report r), (w, put (put l e (JEvent ev)) h (JReport r)))
    | XExistsEvent e =>
        on ev <- h_event_at l e; on '(b, ev) <- w_exists_event n w ev;
        ret (RBool b, (w, put l e (JEvent ev)))
    end.
  Fixpoint hx_run (n : nat) (s : xheap) (l : list xcall) : cmd (list reply * xheap) :=
    match l with
    | [] => ret ([], s)
    | k :: t => on '(a, s) <- hx_call n s k; on '(r, s) <- hx_run n s t; ret (a :: r, s)
    end.
End WithGeo.
