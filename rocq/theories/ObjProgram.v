(** Programs that build event objects, constants and reports call by call and use them, besides the calls of Machine.v
    (betree.h 57-69, 102-149).  Values only; HeapObj.v has the memory. *)
From Coq Require Import ZArith NArith String Bool List.
From Verif Require Import Base Float Value Ast Config Assign Special Match Bound Tree PredMap Source Api EventObj Linked LinkedApi BisonTables Machine.
Import ListNotations.
Local Open Scope Z_scope.
Local Open Scope res_scope.

(** What a pointer of the caller points to.  [INull] is the NULL pointer; [IGone] was released or given away: what is added to
    a list, made a variable of or set in an event belongs to it from then on.  The model allows no use of it: C would allow
    some, until it is released. *)
Inductive item :=
| IInts (l : list Z) | IStrs (l : slots sval) | ISeg (s : segment) | ISegs (l : slots segment)
| ICap (k : fcap) | ICaps (l : slots fcap) | IVar (x : variable) | IEvent (e : evobj)
| IConst (name : string) (z : Z) | IReport (r : report) | INull | IGone.

(** The calls that need no tree but for the number of its variables; pointers are numbered in the order they were made. *)
Inductive ocall :=
| OConst (name : string) (z : Z)
| OInts (n : nat) | OAddInt (h : nat) (i : N) (z : Z)
| OStrs (n : nat) | OAddStr (h : nat) (i : N) (s : string)
| OSeg (id ts : Z) | OSegs (n : nat) | OAddSeg (h : nat) (i : N) (g : nat)
| OCap (ty : string) (id : Z) (ns : string) (tsdef : bool) (ts v : Z) | OCaps (n : nat) | OAddCap (h : nat) (i : N) (k : nat)
| OBoolVar (name : string) (b : bool) | OIntVar (name : string) (z : Z) | OFloatVar (name : string) (f : flt)
| OStrVar (name s : string) | OIntsVar (name : string) (h : nat) | OStrsVar (name : string) (h : nat)
| OSegsVar (name : string) (h : nat) | OCapsVar (name : string) (h : nat)
| OEvent | OSetVar (h : nat) (i : N) (x : nat)
| OReport | OFree (h : nat).

Definition item_at (l : list item) (h : nat) : result item := match nth_error l h with Some x => Ok x | None => UB end.
Fixpoint put {A} (l : list A) (h : nat) (x : A) : list A :=
  match l, h with [], _ => [] | _ :: t, O => x :: t | y :: t, S h => y :: put t h x end.

(** The pointers after the call; the tree has [nv] variables. *)
Definition o_call (nv : nat) (l : list item) (k : ocall) : result (list item) :=
  match k with
  (* betree.c 725-736 [betree_make_integer_constant] *)
  | OConst name z => Ok (l ++ [IConst name z])
  | OInts n => Ok (l ++ [IInts (make_integer_list n)])
  | OAddInt h i z =>
      do x <- item_at l h;
      match x with IInts s => do s <- add_integer s i z; Ok (put l h (IInts s)) | _ => UB end
  | OStrs n => Ok (l ++ [IStrs (make_slots n)])
  | OAddStr h i s =>
      do x <- item_at l h;
      match x with IStrs t => do t <- add_slot t i (new_string s); Ok (put l h (IStrs t)) | _ => UB end
  | OSeg id ts => Ok (l ++ [match make_segment id ts with Some s => ISeg s | None => INull end])
  | OSegs n => Ok (l ++ [ISegs (make_slots n)])
  | OAddSeg h i g =>
      do x <- item_at l h; do y <- item_at l g;
      match x, y with
      | ISegs t, ISeg s => do t <- add_slot t i (Some s); Ok (put (put l g IGone) h (ISegs t))
      | ISegs t, INull => do t <- add_slot t i None; Ok (put l h (ISegs t))
      | _, _ => UB
      end
  | OCap ty id ns d ts v => Ok (l ++ [match make_frequency_cap ty id ns d ts v with Some k => ICap k | None => INull end])
  | OCaps n => Ok (l ++ [ICaps (make_slots n)])
  | OAddCap h i g =>
      do x <- item_at l h; do y <- item_at l g;
      match x, y with
      | ICaps t, ICap s => do t <- add_slot t i (Some s); Ok (put (put l g IGone) h (ICaps t))
      | ICaps t, INull => do t <- add_slot t i None; Ok (put l h (ICaps t))
      | _, _ => UB
      end
  | OBoolVar name b => Ok (l ++ [IVar (make_boolean_variable name b)])
  | OIntVar name z => Ok (l ++ [IVar (make_integer_variable name z)])
  | OFloatVar name f => Ok (l ++ [IVar (make_float_variable name f)])
  | OStrVar name s => Ok (l ++ [IVar (make_string_variable name s)])
  | OIntsVar name h =>
      do x <- item_at l h;
      match x with IInts s => Ok (put l h IGone ++ [IVar (make_integer_list_variable name s)]) | _ => UB end
  | OStrsVar name h =>
      do x <- item_at l h;
      match x with IStrs s => do y <- make_string_list_variable name s; Ok (put l h IGone ++ [IVar y]) | _ => UB end
  | OSegsVar name h =>
      do x <- item_at l h;
      match x with ISegs s => do y <- make_segments_variable name s; Ok (put l h IGone ++ [IVar y]) | _ => UB end
  | OCapsVar name h =>
      do x <- item_at l h;
      match x with ICaps s => do y <- make_frequency_caps_variable name s; Ok (put l h IGone ++ [IVar y]) | _ => UB end
  (* betree.c 943-949 [betree_make_event] *)
  | OEvent => Ok (l ++ [IEvent (repeat None nv)])
  | OSetVar h i g =>
      do x <- item_at l h; do y <- item_at l g;
      match x, y with
      | IEvent e, IVar v => do e <- set_variable e i (Some v); Ok (put (put l g IGone) h (IEvent e))
      | IEvent e, INull => do e <- set_variable e i None; Ok (put l h (IEvent e))
      | _, _ => UB
      end
  (* betree.c 606-619 [make_report] *)
  | OReport => Ok (l ++ [IReport make_report])
  (* betree.c 738-752, 901-941, 621-625: the function for the type; all of them read what they release *)
  | OFree h =>
      do x <- item_at l h;
      match x with INull | IGone => UB | _ => Ok (put l h IGone) end
  end.

(** The constants given to an insertion. *)
Fixpoint consts_at (l : list item) (hs : list nat) : result constants :=
  match hs with
  | [] => Ok []
  | h :: t =>
      do x <- item_at l h; do cs <- consts_at l t;
      match x with IConst name z => Ok ((name, VInt z) :: cs) | _ => UB end
  end.
Definition report_at (l : list item) (h : nat) : result report :=
  do x <- item_at l h; match x with IReport r => Ok r | _ => UB end.
Definition event_at (l : list item) (h : nat) : result evobj :=
  do x <- item_at l h; match x with IEvent e => Ok e | _ => UB end.

Section WithGeo.
  Context {G : Geo}.

  (** betree.c 599-604 [betree_search_with_event], 559-568, tree.c 1749-1771, on the linked index. *)
  Definition p_search_object (n : nat) (q : pstate) (ev : evobj) (r : report) : result (bool * report * evobj) :=
    let c := p_cfg q in
    do '(ev', p) <- fill_object c ev (repeat None (List.length (c_domains c)));
    if negb (validate_variables (c_domains c) p) then Ok (false, r, ev') else
    do l <- p_match n (c_domains c) p (p_root q) (p_heap q);
    do subs <- get_subs (p_heap q) l;
    do r' <- search_loop p (pm_mids (p_pm q)) (make_undefined p) subs (make_memoize (pm_mcount (p_pm q)) (r_memoized r)) r;
    Ok (true, r', ev').
  (** betree.c 584-589 [betree_exists_with_event], 570-574, tree.c 1773-1793. *)
  Definition p_exists_object (n : nat) (q : pstate) (ev : evobj) : result (bool * evobj) :=
    let c := p_cfg q in
    do '(ev', p) <- fill_object c ev (repeat None (List.length (c_domains c)));
    do l <- p_match n (c_domains c) p (p_root q) (p_heap q);
    do subs <- get_subs (p_heap q) l;
    do b <- exists_loop p (pm_mids (p_pm q)) (make_undefined p) subs (make_memoize (pm_mcount (p_pm q)) 0);
    Ok (b, ev').

  (** All calls: [XInsert] and [XMake] with constants that were made, the searches with a report and an event that were. *)
  Inductive xcall :=
  | XTree (k : tcall)
  | XObj (k : ocall)
  | XInsert (id : Z) (hs : list nat) (s : string)
  | XMake (id : Z) (hs : list nat) (s : string)
  | XSearch (s : string) (r : nat)
  | XSearchEvent (e r : nat)
  | XExistsEvent (e : nat).

  (** The tree and the pointers of the caller. *)
  Definition xstate := (pstate * list item)%type.
  Definition x_call (n : nat) (s : xstate) (k : xcall) : result (reply * xstate) :=
    let '(q, l) := s in
    match k with
    | XTree k => do '(a, q) <- m_call n q k; Ok (a, (q, l))
    | XObj k => do l <- o_call (List.length (c_domains (p_cfg q))) l k; Ok (RNone, (q, l))
    | XInsert id hs t => do cs <- consts_at l hs; do '(a, q) <- m_call n q (TInsert id cs t); Ok (a, (q, l))
    | XMake id hs t => do cs <- consts_at l hs; do '(a, q) <- m_call n q (TMake id cs t); Ok (a, (q, l))
    | XSearch t h =>
        do r <- report_at l h; do o <- event_parse_c t;
        match o with
        | None => Abort
        | Some ev =>
            do '(b, r) <- p_query n q (map (fun p => (fst p, Some (snd p))) ev) r;
            Ok (RReport b r, (q, put l h (IReport r)))
        end
    | XSearchEvent e h =>
        do ev <- event_at l e; do r <- report_at l h;
        do '(b, r, ev) <- p_search_object n q ev r;
        Ok (RReport b r, (q, put (put l e (IEvent ev)) h (IReport r)))
    | XExistsEvent e =>
        do ev <- event_at l e; do '(b, ev) <- p_exists_object n q ev;
        Ok (RBool b, (q, put l e (IEvent ev)))
    end.
  Fixpoint x_run (n : nat) (s : xstate) (l : list xcall) : result (list reply * xstate) :=
    match l with
    | [] => Ok ([], s)
    | k :: t => do '(a, s) <- x_call n s k; do '(r, s) <- x_run n s t; Ok (a :: r, s)
    end.
End WithGeo.
