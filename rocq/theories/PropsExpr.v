(** Properties about the meaning of expressions, ids of strings and integers, and ranges. *)
From Coq Require Import ZArith NArith String Bool List Permutation.
From Verif Require Import Base Float Value Ast Config Assign Special Match Bound Tree PredMap Source Api Spec TreeSpec Hist Check Cases.
From Verif Require Import EvalProofs AnswerProofs ExprProofs RewriteProofs RangeProofs.
Import ListNotations.
Local Open Scope Z_scope.

(** A tree with one subscription for each kind of predicate. *)
Section Data.
Local Open Scope string_scope.
Local Open Scope list_scope.
Definition s_ne := XAtom (AEq QNe "s" (SStr "x")).
Definition s_null := XAtom (ANull NIsNull "s").
Definition kinds_log : list entry :=
  map (fun p => mkE (fst p) case_cs (snd p))
  [ (1, s_ne); (2, s_null); (3, XNot s_ne); (4, XAnd s_ne s_null); (5, XOr s_ne s_null);
    (6, XAtom (AIn SIn "i" (SInts [3; 1; 3]))); (7, XAtom (AIn SNotIn "s" (SStrs ["y"; "x"; "y"])));
    (8, XAtom (AHas SIn (SInt 3) "il")); (9, XAtom (AHas SNotIn (SStr "a") "sl"));
    (10, XAtom (AList LOneOf "il" (SInts [7; 3; 7]))); (11, XAtom (AList LAllOf "sl" (SStrs ["b"; "a"])));
    (12, XAtom (AList LNoneOf "sl" (SStrs ["c"; "c"]))); (13, XAtom (AFreq "flight" "ns" 10 100));
    (14, XAtom (AEq QEq "s" (SStr "x"))); (15, XAtom (AEq QEq "ie" (SInt 7)));
    (16, XAtom (ACmp CLt "f" (CInt 2))) ].
(** The same subscriptions with other orders, repetitions, spellings of names and literals. *)
Definition kinds_log' : list entry :=
  map (fun p => mkE (fst p) case_cs (snd p))
  [ (1, s_ne); (2, s_null); (3, XNot s_ne); (4, XAnd s_ne s_null); (5, XOr s_ne s_null);
    (6, XAtom (AIn SIn "i" (SInts [1; 3]))); (7, XAtom (AIn SNotIn "s" (SStrs ["x"; "y"])));
    (8, XAtom (AHas SIn (SInt 3) "il")); (9, XAtom (AHas SNotIn (SStr "a") "sl"));
    (10, XAtom (AList LOneOf "il" (SInts [3; 7; 3; 3]))); (11, XAtom (AList LAllOf "sl" (SStrs ["a"; "b"])));
    (12, XAtom (AList LNoneOf "sl" (SStrs ["c"]))); (13, XAtom (AFreq "flight" "ns" 10 100));
    (14, XAtom (AEq QEq "s" (SStr "x"))); (15, XAtom (AEq QEq "ie" (SInt 7)));
    (16, XAtom (ACmp CLt "f" (CInt 2))) ].
Definition upper_s (s : string) : string := if String.eqb s "il" then "iL" else if String.eqb s "s" then "S" else s.
Definition upper_atom (a : atom) : atom :=
  match a with
  | AEq op x c => AEq op (upper_s x) c
  | AIn op x l => AIn op (upper_s x) l
  | AList op x l => AList op (upper_s x) l
  | ANull op x => ANull op (upper_s x)
  | _ => a
  end.
Fixpoint map_src (f : atom -> atom) (x : src) : src :=
  match x with
  | XAtom a => XAtom (f a)
  | XNot a => XNot (map_src f a)
  | XAnd a b => XAnd (map_src f a) (map_src f b)
  | XOr a b => XOr (map_src f a) (map_src f b)
  end.
Definition kinds_upper : list entry := map (fun e => mkE (e_id e) (e_cs e) (map_src upper_atom (e_src e))) kinds_log.
Definition kinds_decimal : list entry := map (fun e => mkE (e_id e) (e_cs e) (map_src (decimal_atom case_ds) (e_src e))) kinds_log.

Definition kinds_t : betree := Eval vm_compute in built (build_from case_ds 2 0 1000 kinds_log).
Lemma kinds_reach : reach case_ds kinds_t [] kinds_log.
Proof. eapply builds_reach, build_from_ok with (cap := 2) (minpart := 0) (maxsplit := 1000). vm_compute. reflexivity. Qed.
Definition kinds_t' : betree := Eval vm_compute in built (build_from case_ds 2 0 1000 kinds_log').
Lemma kinds_reach' : reach case_ds kinds_t' [] kinds_log'.
Proof. eapply builds_reach, build_from_ok with (cap := 2) (minpart := 0) (maxsplit := 1000). vm_compute. reflexivity. Qed.
Definition kinds_tu : betree := Eval vm_compute in built (build_from case_ds 2 0 1000 kinds_upper).
Lemma kinds_reach_u : reach case_ds kinds_tu [] kinds_upper.
Proof. eapply builds_reach, build_from_ok with (cap := 2) (minpart := 0) (maxsplit := 1000). vm_compute. reflexivity. Qed.
Definition kinds_td : betree := Eval vm_compute in built (build_from case_ds 2 0 1000 kinds_decimal).
Lemma kinds_reach_d : reach case_ds kinds_td [] kinds_decimal.
Proof. eapply builds_reach, build_from_ok with (cap := 2) (minpart := 0) (maxsplit := 1000). vm_compute. reflexivity. Qed.

(** i and now only. *)
Definition kinds_ev1 : event := [("i", Some (VInt 3)); ("now", Some (VInt 100))].
Definition kinds_ev2 : event :=
  [("now", Some (VInt 100)); ("i", Some (VInt 2)); ("s", Some (VStr (str "q"))); ("il", Some (VIntList [5; 3; 1; 3]));
   ("sl", Some (VStrList [str "b"; str "a"])); ("ie", Some (VInt 7)); ("f", Some (VFloat (f_of_Z 1)));
   ("frequency_caps", Some (VFreqs [mkCap FTFlight 20 (str "ns") true 0 9; mkCap FTFlight 21 (str "ns") true 0 99]))].
Definition kinds_ev2' : event :=
  [("now", Some (VInt 100)); ("i", Some (VInt 2)); ("s", Some (VStr (str "q"))); ("il", Some (VIntList [1; 3; 5]));
   ("sl", Some (VStrList [str "a"; str "b"; str "a"])); ("ie", Some (VInt 7)); ("f", Some (VFloat (f_of_Z 1)));
   ("frequency_caps", Some (VFreqs [mkCap FTFlight 20 (str "ns") true 0 9; mkCap FTFlight 21 (str "ns") true 0 99]))].
Definition kinds_ev2u : event := map (fun nv => (upper_s (fst nv), snd nv)) kinds_ev2.
End Data.

Ltac fact := lazymatch goal with
  | |- reach _ kinds_t _ _ => exact kinds_reach
  | |- reach _ kinds_t' _ _ => exact kinds_reach'
  | |- reach _ kinds_tu _ _ => exact kinds_reach_u
  | |- reach _ kinds_td _ _ => exact kinds_reach_d
  | |- fair _ _ _ _ => apply fair_b_ok; vm_compute; reflexivity
  | |- fair_one _ _ _ _ => apply fair_one_b_ok; vm_compute; reflexivity
  | |- calm _ _ _ => apply calm_b_ok; vm_compute; reflexivity
  | |- few_preds _ => apply few_preds_b_ok; vm_compute; reflexivity
  | |- event_ok _ _ => apply event_ok_b_ok; vm_compute; reflexivity
  | |- complete _ _ => apply complete_b_ok; vm_compute; reflexivity
  | |- accepts _ _ _ _ _ => apply accepts_b_ok; vm_compute; reflexivity
  | |- In _ _ => cbv [kinds_log kinds_decimal map fst snd In e_id e_cs e_src map_src]; repeat (first [left; reflexivity|right])
  | |- _ = _ => vm_compute; reflexivity
  end.
Ltac facts := repeat match goal with |- _ /\ _ => split | |- searchable _ _ _ _ _ => split end; try fact.

(** ** C13 *)
Theorem C13_undefined : forall (G : Geo) m ds t pend log ev e a x,
  searchable_in m ds t pend log ev -> In e log -> e_src e = XAtom a ->
  In x (atom_attrs a) -> lookup ev x = None -> (reports t ev (e_id e) <-> a = ANull NIsNull x).
Proof. exact @absent_reported. Qed.
Print Assumptions C13_undefined.
Theorem C13_two_valued : forall (G : Geo) m ds t pend log ev e e1 e2,
  searchable_in m ds t pend log ev -> fair m t ev [e; e1; e2] ->
  In e log -> In e1 log -> In e2 log -> e_cs e1 = e_cs e -> e_cs e2 = e_cs e ->
  (e_src e = XNot (e_src e1) -> (reports t ev (e_id e) <-> ~ reports t ev (e_id e1)))
  /\ (e_src e = XAnd (e_src e1) (e_src e2) -> (reports t ev (e_id e) <-> reports t ev (e_id e1) /\ reports t ev (e_id e2)))
  /\ (e_src e = XOr (e_src e1) (e_src e2) -> (reports t ev (e_id e) <-> reports t ev (e_id e1) \/ reports t ev (e_id e2))).
Proof. exact @combined_reported. Qed.
Print Assumptions C13_two_valued.
Example C13_case :
  searchable case_ds kinds_t [] kinds_log kinds_ev1
  /\ In (mkE 1 case_cs s_ne) kinds_log /\ In (mkE 2 case_cs s_null) kinds_log /\ In (mkE 3 case_cs (XNot s_ne)) kinds_log
  /\ In (mkE 4 case_cs (XAnd s_ne s_null)) kinds_log /\ In (mkE 5 case_cs (XOr s_ne s_null)) kinds_log
  /\ lookup kinds_ev1 "s" = None
  /\ same_ids (answer (betree_search kinds_t kinds_ev1 make_report)) [2; 3; 5; 6] = true.
Proof. facts. Qed.

(** ** C14 *)
Theorem C14_in_ints : forall (G : Geo) m ds t pend log ev e op x l y,
  searchable_in m ds t pend log ev -> In e log -> e_src e = XAtom (AIn op x (SInts l)) -> lookup ev x = Some (VInt y) ->
  (reports t ev (e_id e) <-> match op with SIn => In y l | SNotIn => ~ In y l end).
Proof. exact @in_ints_reported. Qed.
Print Assumptions C14_in_ints.
Theorem C14_in_strings : forall (G : Geo) m ds t pend log ev e op x l y,
  searchable_in m ds t pend log ev -> In e log -> e_src e = XAtom (AIn op x (SStrs l)) -> lookup ev x = Some (VStr y) ->
  (reports t ev (e_id e) <-> match op with SIn => In (sv_string y) l | SNotIn => ~ In (sv_string y) l end).
Proof. exact @in_strs_reported. Qed.
Print Assumptions C14_in_strings.
Theorem C14_has_int : forall (G : Geo) m ds t pend log ev e op x z v have,
  searchable_in m ds t pend log ev -> In e log -> e_src e = XAtom (AHas op (SInt z) x) ->
  lookup ev x = Some v -> ints_in v = Some have ->
  (reports t ev (e_id e) <-> match op with SIn => In z have | SNotIn => ~ In z have end).
Proof. exact @has_int_reported. Qed.
Print Assumptions C14_has_int.
Theorem C14_has_string : forall (G : Geo) m ds t pend log ev e op x s v have,
  searchable_in m ds t pend log ev -> In e log -> e_src e = XAtom (AHas op (SStr s) x) ->
  lookup ev x = Some v -> strs_in v = Some have ->
  (reports t ev (e_id e) <-> match op with SIn => In s have | SNotIn => ~ In s have end).
Proof. exact @has_str_reported. Qed.
Print Assumptions C14_has_string.
Theorem C14_list_ints : forall (G : Geo) m ds t pend log ev e op x want v have,
  searchable_in m ds t pend log ev -> In e log -> e_src e = XAtom (AList op x (SInts want)) ->
  lookup ev x = Some v -> ints_in v = Some have ->
  (reports t ev (e_id e) <->
   match op with
   | LOneOf => exists c, In c want /\ In c have
   | LNoneOf => ~ exists c, In c want /\ In c have
   | LAllOf => forall c, In c want -> In c have
   end).
Proof. exact @list_ints_reported. Qed.
Print Assumptions C14_list_ints.
Theorem C14_list_strings : forall (G : Geo) m ds t pend log ev e op x want v have,
  searchable_in m ds t pend log ev -> In e log -> e_src e = XAtom (AList op x (SStrs want)) ->
  lookup ev x = Some v -> strs_in v = Some have ->
  (reports t ev (e_id e) <->
   match op with
   | LOneOf => exists c, In c want /\ In c have
   | LNoneOf => ~ exists c, In c want /\ In c have
   | LAllOf => forall c, In c want -> In c have
   end).
Proof. exact @list_strs_reported. Qed.
Print Assumptions C14_list_strings.
Example C14_case :
  searchable case_ds kinds_t [] kinds_log kinds_ev2
  /\ In (mkE 6 case_cs (XAtom (AIn SIn "i" (SInts [3; 1; 3])))) kinds_log
  /\ In (mkE 7 case_cs (XAtom (AIn SNotIn "s" (SStrs ["y"; "x"; "y"]%string)))) kinds_log
  /\ In (mkE 8 case_cs (XAtom (AHas SIn (SInt 3) "il"))) kinds_log
  /\ In (mkE 9 case_cs (XAtom (AHas SNotIn (SStr "a") "sl"))) kinds_log
  /\ In (mkE 10 case_cs (XAtom (AList LOneOf "il" (SInts [7; 3; 7])))) kinds_log
  /\ In (mkE 11 case_cs (XAtom (AList LAllOf "sl" (SStrs ["b"; "a"]%string)))) kinds_log
  /\ In (mkE 12 case_cs (XAtom (AList LNoneOf "sl" (SStrs ["c"; "c"]%string)))) kinds_log
  /\ same_ids (answer (betree_search kinds_t kinds_ev2 make_report)) [1; 5; 7; 8; 10; 11; 12; 13; 15; 16] = true.
Proof. facts. Qed.

(** ** C15 *)
Theorem C15_list_order : forall (G : Geo) m m' ds t pend log ev t' pend' log' ev',
  searchable_in m ds t pend log ev -> searchable_in m' ds t' pend' log' ev' ->
  fair m t ev log -> fair m' t' ev' log' ->
  entries_alike lists_alike log log' -> events_alike ev ev' -> same_reports t ev t' ev'.
Proof. exact @lists_same. Qed.
Print Assumptions C15_list_order.
Ltac alike_fact := lazymatch goal with
  | |- alike _ (XAtom _) _ => apply al_atom
  | |- alike _ (XNot _) _ => apply al_not; alike_fact
  | |- alike _ (XAnd _ _) _ => apply al_and; alike_fact
  | |- alike _ (XOr _ _) _ => apply al_or; alike_fact
  end.
Ltac set_fact := first [ apply la_same | apply va_same | exact I
  | first [apply la_in_i | apply la_in_s | apply la_list_i | apply la_list_s | apply va_ints | apply va_strs];
    let z := fresh in intros z; cbn [In map sv_string str]; tauto ].
Ltac entry_fact := cbn [map kinds_log kinds_log' kinds_upper kinds_decimal fst snd]; repeat apply Forall2_cons; try apply Forall2_nil;
  (split; [reflexivity|split; [reflexivity|unfold s_ne, s_null; cbn [e_src snd map_src]; alike_fact]]).
Example C15_case :
  searchable case_ds kinds_t [] kinds_log kinds_ev2 /\ searchable case_ds kinds_t' [] kinds_log' kinds_ev2'
  /\ entries_alike lists_alike kinds_log kinds_log' /\ events_alike kinds_ev2 kinds_ev2'
  /\ same_ids (answer (betree_search kinds_t' kinds_ev2' make_report)) [1; 5; 7; 8; 10; 11; 12; 13; 15; 16] = true.
Proof.
  facts.
  - entry_fact; set_fact.
  - repeat apply Forall2_cons; try apply Forall2_nil; (split; [reflexivity|cbn [snd]; set_fact]).
Qed.

(** ** C16, C17 *)
Theorem C16_string_ids : forall c l ids c', c_strs c = [] -> ask_strs c l = Ok (ids, c') ->
  (forall k k' v v' s s' a a' i i',
     nth_error l k = Some (v, s, a) -> nth_error ids k = Some i -> i <> INVALID_STR ->
     nth_error l k' = Some (v', s', a') -> nth_error ids k' = Some i' -> i' <> INVALID_STR ->
     av_var v = av_var v' -> (i = i' <-> s = s'))
  /\ (forall k v s a i, nth_error l k = Some (v, s, a) -> nth_error ids k = Some i -> i <> INVALID_STR ->
        try_get_str c' (av_var v) s = i)
  /\ (forall v s, (forall v' a, In (v', s, a) l -> av_var v' <> v) -> try_get_str c' v s = INVALID_STR)
  /\ (Z.of_nat (List.length l) < INVALID_STR ->
      forall k v s i, nth_error l k = Some (v, s, true) -> nth_error ids k = Some i -> i <> INVALID_STR).
Proof. exact string_ids. Qed.
Print Assumptions C16_string_ids.
Definition ask_case_c : config := bt_cfg (make_tree 1 0 1000 case_ds).
Definition ask_case_l : list (avar * string * bool) :=
  [(mkAV "s" 2, "a", false); (mkAV "sl" 6, "a", true); (mkAV "s" 2, "b", false); (mkAV "S" 2, "a", true)]%string.
Example C16_case :
  c_strs ask_case_c = [] /\ match ask_strs ask_case_c ask_case_l with
  | Ok (ids, c') => (ids, try_get_str c' 2 "b", try_get_str c' 6 "b")
  | _ => ([], 0, 0) end = ([0; 0; 1; 0], 1, INVALID_STR).
Proof. facts. Qed.
(** What it means for searches: a string constant equals exactly the equal event strings. *)
Theorem C16_string_equality : forall (G : Geo) m ds t pend log ev e op x s y,
  searchable_in m ds t pend log ev -> In e log -> e_src e = XAtom (AEq op x (SStr s)) -> lookup ev x = Some (VStr y) ->
  (reports t ev (e_id e) <-> match op with QEq => sv_string y = s | QNe => sv_string y <> s end).
Proof. exact @eq_str_reported. Qed.
Print Assumptions C16_string_equality.
Example C16_case2 :
  searchable case_ds kinds_t [] kinds_log kinds_ev2 /\ In (mkE 14 case_cs (XAtom (AEq QEq "s" (SStr "x")))) kinds_log
  /\ In (mkE 1 case_cs s_ne) kinds_log /\ lookup kinds_ev2 "s" = Some (VStr (str "q")).
Proof. facts. Qed.

Theorem C17_enum_ids : forall c l ids c', c_ints c = [] -> ask_ints c l = Ok (ids, c') ->
  (forall k k' v v' s s' a a' i i',
     nth_error l k = Some (v, s, a) -> nth_error ids k = Some i -> i <> INVALID_IENUM ->
     nth_error l k' = Some (v', s', a') -> nth_error ids k' = Some i' -> i' <> INVALID_IENUM ->
     av_var v = av_var v' -> (i = i' <-> s = s'))
  /\ (forall k v s a i, nth_error l k = Some (v, s, a) -> nth_error ids k = Some i -> i <> INVALID_IENUM ->
        try_get_ie c' (av_var v) s = i)
  /\ (forall v s, (forall v' a, In (v', s, a) l -> av_var v' <> v) -> try_get_ie c' v s = INVALID_IENUM)
  /\ (Z.of_nat (List.length l) < INVALID_IENUM ->
      forall k v s i, nth_error l k = Some (v, s, true) -> nth_error ids k = Some i -> i <> INVALID_IENUM).
Proof. exact ienum_ids. Qed.
Print Assumptions C17_enum_ids.
Definition ask_case_l' : list (avar * Z * bool) := [(mkAV "ie" 5, 7, false); (mkAV "ie" 5, -2, true); (mkAV "ie" 5, 7, true)]%string.
Example C17_case :
  c_ints ask_case_c = [] /\ match ask_ints ask_case_c ask_case_l' with
  | Ok (ids, c') => (ids, try_get_ie c' 5 (-2), try_get_ie c' 5 8)
  | _ => ([], 0, 0) end = ([0; 1; 0], 1, INVALID_IENUM).
Proof. facts. Qed.
Theorem C17_enum_equality : forall (G : Geo) m ds t pend log ev e op x z y,
  searchable_in m ds t pend log ev -> In e log -> e_src e = XAtom (AEq op x (SInt z)) -> lookup ev x = Some (VInt y) ->
  (reports t ev (e_id e) <-> match op with QEq => y = z | QNe => y <> z end).
Proof. exact @eq_int_reported. Qed.
Print Assumptions C17_enum_equality.
Example C17_case2 :
  searchable case_ds kinds_t [] kinds_log kinds_ev2 /\ In (mkE 15 case_cs (XAtom (AEq QEq "ie" (SInt 7)))) kinds_log
  /\ lookup kinds_ev2 "ie" = Some (VInt 7).
Proof. facts. Qed.

(** ** C20, C21 *)
(** In every kind of history ([m]); the value of a float variable must be no near miss of a constant it is compared with. *)
Theorem C20_range_safe : forall (G : Geo) m ds t pend log ev s e x v d y r,
  reach_in m ds t pend log -> event_ok ds ev -> In s (subs_cnode (bt_root t)) -> In e log -> s_id s = e_id e ->
  sem (e_cs e) ev (e_src e) = true ->
  decl (c_domains (bt_cfg t)) x = Some (v, d) -> lookup ev x = Some y ->
  range_ok false (e_src e) -> (forall f, y = VFloat f -> clear_of (c_domains (bt_cfg t)) v f (e_src e)) ->
  get_variable_bound v (d_bound d) (s_expr s) = Ok r ->
  range_covers (bt_cfg t) v (d_bound d) r y.
Proof. exact @range_safe. Qed.
Print Assumptions C20_range_safe.
Example C20_case :
  reach case_ds kinds_t [] kinds_log /\ event_ok case_ds kinds_ev1
  /\ In (mkE 6 case_cs (XAtom (AIn SIn "i" (SInts [3; 1; 3])))) kinds_log
  /\ sem case_cs kinds_ev1 (XAtom (AIn SIn "i" (SInts [3; 1; 3]))) = true
  /\ decl (c_domains (bt_cfg kinds_t)) "i" = Some (1%N, mkD "i" (BInt false 0 10) false)
  /\ map (fun s => get_variable_bound 1 (BInt false 0 10) (s_expr s)) (filter (fun s => s_id s =? 6) (subs_cnode (bt_root kinds_t)))
     = [Ok (BInt false 1 3)]
  /\ lookup kinds_ev1 "i" = Some (VInt 3).
Proof. facts. Qed.

Theorem C21_split : forall b, splits_ok b -> exists l r, split_value_bound b = Ok (l, r) /\ halves b l r.
Proof. exact split_halves. Qed.
Print Assumptions C21_split.
Example C21_case :
  splits_ok (BInt false (-3) 10) /\ split_value_bound (BInt false (-3) 10) = Ok (BInt false (-3) 3, BInt false 3 10)
  /\ splits_ok (BStr TStr 4 5) /\ split_value_bound (BStr TStr 4 5) = Ok (BStr TStr 4 4, BStr TStr 5 5)
  /\ splits_ok (BBool false true) /\ split_value_bound (BBool false true) = Ok (BBool false false, BBool true true).
Proof. cbn. repeat split; try reflexivity; discriminate. Qed.

(** ** C28 *)
(** Whatever the passes [f] do to the predicates, the reordered expression has the value of the one in
    the written order, as long as the predicates can be evaluated. *)
Theorem C28_reordering : forall (G : Geo) p f x,
  (forall a, In a (src_atoms x) -> exists b, match_leaf p (f (build_atom a)) = Ok b) ->
  eval p (map_leaves f (build x)) = eval p (map_leaves f (plain x)).
Proof. exact @reorder_same. Qed.
Print Assumptions C28_reordering.
Definition reorder_x : src := XAnd (XAtom (AList LAllOf "il" (SInts [1; 3]))) (XOr (XAtom (AList LOneOf "il" (SInts [9]))) (XAtom (AVar "b"))).
Definition reorder_p : env := [Some (VBool true); None; None; Some (VIntList [1; 2; 3])].
Example C28_case :
  build reorder_x <> plain reorder_x
  /\ eval reorder_p (map_leaves (assign_var_leaf ask_case_c) (build reorder_x)) = Ok true
  /\ forallb (fun a => match match_leaf reorder_p (assign_var_leaf ask_case_c (build_atom a)) with Ok _ => true | _ => false end)
       (src_atoms reorder_x) = true.
Proof. facts. intros H. vm_compute in H. discriminate H. Qed.

(** ** C29 *)
Theorem C29_names : forall (G : Geo) m m' ds t pend log ev t' pend' log' ev',
  searchable_in m ds t pend log ev -> searchable_in m' ds t' pend' log' ev' ->
  fair m t ev log -> fair m' t' ev' log' ->
  entries_alike (fun a a' => lower_atom a = lower_atom a') log log' -> lower_event ev = lower_event ev' ->
  same_reports t ev t' ev'.
Proof. exact @names_same. Qed.
Print Assumptions C29_names.
(** Geo predicates are the exception: their two variables are not checked. *)
Theorem C29_undeclared : forall t id cs x a y, In a (src_atoms x) ->
  In y (match a with AGeo _ _ _ | AHas _ (SFlt _) _ => [] | _ => atom_attrs a end) ->
  (forall d, In d (c_domains (bt_cfg t)) -> d_attr d <> lower y) ->
  betree_insert_with_constants t id cs x = Ok (false, t) /\ betree_make_sub t id cs x = Ok (None, t).
Proof. exact unknown_refused. Qed.
Print Assumptions C29_undeclared.
Example C29_case :
  searchable case_ds kinds_t [] kinds_log kinds_ev2 /\ searchable case_ds kinds_tu [] kinds_upper kinds_ev2u
  /\ entries_alike (fun a a' => lower_atom a = lower_atom a') kinds_log kinds_upper
  /\ lower_event kinds_ev2 = lower_event kinds_ev2u /\ kinds_ev2 <> kinds_ev2u
  /\ same_ids (answer (betree_search kinds_tu kinds_ev2u make_report)) [1; 5; 7; 8; 10; 11; 12; 13; 15; 16] = true
  /\ betree_insert_with_constants kinds_t 99 [] (XOr s_null (XAtom (AVar "other"))) = Ok (false, kinds_t).
Proof.
  facts.
  - entry_fact; reflexivity.
  - intros H. vm_compute in H. discriminate H.
Qed.

(** ** C30 *)
Theorem C30_decimals : forall (G : Geo) m m' ds t pend log t' pend' log' ev,
  searchable_in m ds t pend log ev -> searchable_in m' ds t' pend' log' ev -> fair m t ev log -> fair m' t' ev log' ->
  entries_alike (fun a a' => decimal_atom ds a = decimal_atom ds a') log log' -> same_reports t ev t' ev.
Proof. exact @decimals_same. Qed.
Print Assumptions C30_decimals.
Example C30_case :
  searchable case_ds kinds_t [] kinds_log kinds_ev2 /\ searchable case_ds kinds_td [] kinds_decimal kinds_ev2
  /\ entries_alike (fun a a' => decimal_atom case_ds a = decimal_atom case_ds a') kinds_log kinds_decimal
  /\ In (mkE 16 case_cs (XAtom (ACmp CLt "f" (CFloat (f_of_Z 2))))) kinds_decimal
  /\ same_ids (answer (betree_search kinds_td kinds_ev2 make_report)) [1; 5; 7; 8; 10; 11; 12; 13; 15; 16] = true.
Proof.
  facts. entry_fact; reflexivity.
Qed.

(** ** C32 *)
Theorem C32_event_order : forall (G : Geo) m ds t pend log ev ev' r,
  reach_in m ds t pend log -> event_ok ds ev -> Permutation ev ev' -> NoDup (map (fun e => lower (fst e)) ev) ->
  betree_search t ev r = betree_search t ev' r /\ betree_exists t ev = betree_exists t ev'.
Proof. exact @order_same. Qed.
Print Assumptions C32_event_order.
Theorem C32_null : forall (G : Geo) t ev1 n ev2 r,
  betree_search t (ev1 ++ (n, None) :: ev2) r = betree_search t (ev1 ++ ev2) r
  /\ betree_exists t (ev1 ++ (n, None) :: ev2) = betree_exists t (ev1 ++ ev2).
Proof. exact @null_same. Qed.
Print Assumptions C32_null.
Theorem C32_last_counts : forall (G : Geo) m ds t pend log ev1 n v ev2 n' v' ev3 r,
  reach_in m ds t pend log -> event_ok ds (ev1 ++ (n, Some v) :: ev2 ++ (n', Some v') :: ev3) -> lower n = lower n' ->
  betree_search t (ev1 ++ (n, Some v) :: ev2 ++ (n', Some v') :: ev3) r
  = betree_search t (ev1 ++ ev2 ++ (n', Some v') :: ev3) r
  /\ betree_exists t (ev1 ++ (n, Some v) :: ev2 ++ (n', Some v') :: ev3)
     = betree_exists t (ev1 ++ ev2 ++ (n', Some v') :: ev3).
Proof. exact @last_same. Qed.
Print Assumptions C32_last_counts.
Definition twice_ev : event := [("now", Some (VInt 100)); ("i", Some (VInt 9)); ("I", Some (VInt 3))]%string.
Example C32_case :
  reach case_ds kinds_t [] kinds_log /\ event_ok case_ds kinds_ev2 /\ Permutation kinds_ev2 (rev kinds_ev2)
  /\ NoDup (map (fun e => lower (fst e)) kinds_ev2)
  /\ answer (betree_search kinds_t (rev kinds_ev2) make_report) = answer (betree_search kinds_t kinds_ev2 make_report)
  /\ event_ok case_ds twice_ev /\ same_ids (answer (betree_search kinds_t twice_ev make_report)) [2; 3; 5; 6] = true.
Proof.
  facts; [apply Permutation_rev|].
  repeat constructor; cbn; intuition discriminate.
Qed.

(** ** C34 *)
(** [freq_const] names the constant that belongs to a cap type (Spec.v). *)
Theorem C34_missing_constant : forall t id cs x ty ns value window t',
  In (AFreq ty ns value window) (src_atoms x) -> const_int cs (freq_const (get_type_from_string ty)) = None ->
  betree_insert_with_constants t id cs x <> Ok (true, t') /\ (forall s, betree_make_sub t id cs x <> Ok (Some s, t')).
Proof. exact missing_constant. Qed.
Print Assumptions C34_missing_constant.
Theorem C34_constant_used : forall (G : Geo) m ds t pend log ev e ty ns value window id caps now,
  searchable_in m ds t pend log ev -> In e log -> e_src e = XAtom (AFreq ty ns value window) ->
  const_int (e_cs e) (freq_const (get_type_from_string ty)) = Some id ->
  lookup ev "frequency_caps" = Some (VFreqs caps) -> lookup ev "now" = Some (VInt now) ->
  (reports t ev (e_id e) <->
   match find (fun k => (fc_id k =? id) && String.eqb (sv_string (fc_ns k)) ns
                        && (ftype_num (fc_type k) =? ftype_num (get_type_from_string ty))) caps with
   | None => True
   | Some k => fc_value k < value
               \/ (0 < window /\ (fc_tsdef k = false \/ window < now - Z.quot (fc_ts k) 1000000))
   end).
Proof. exact @freq_reported. Qed.
Print Assumptions C34_constant_used.
Example C34_case :
  searchable case_ds kinds_t [] kinds_log kinds_ev2
  /\ In (mkE 13 case_cs (XAtom (AFreq "flight" "ns" 10 100))) kinds_log
  /\ const_int case_cs (freq_const (get_type_from_string "flight")) = Some 20
  /\ const_int case_cs (freq_const (get_type_from_string "advertiser")) = None
  /\ map freq_const [FTFlight; FTAdvertiser; FTCampaign; FTProduct]
     = ["flight_id"; "advertiser_id"; "campaign_id"; "product_id"]%string
  /\ betree_insert_with_constants kinds_t 99 case_cs (XAtom (AFreq "advertiser" "ns" 10 100)) = Ok (false, kinds_t).
Proof. facts. Qed.
