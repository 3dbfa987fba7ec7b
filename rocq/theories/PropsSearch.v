(** Properties of searches of trees produced by any history of calls.

    [reach_in m ds t pend log] (Hist.v): calls that declared the variables [ds] made the tree [t] and inserted
    the subscriptions [log]; [m] says whether float ranges are split.  [fair m t ev log] (Hist.v) are the conditions on
    the subscriptions whose answers are claimed; they concern `and` and `or` below an odd number of `not`s, and
    split float ranges:
    - an undefined attribute does not decide them wrongly ([calm]; C02_not_or_refuted, C01_not_and_null_refuted);
    - no range is derived from such an `and` ([range_ok]; C01_not_and_refuted);
    - where float ranges are split, no value of the event is a near miss of a constant ([clear], TreeSpec.v;
      C01_float_range_refuted, C53_near_miss_refuted).
    [hits ev log] are the ids of the subscriptions of [log] whose source is true
    of the event according to [sem] (Spec.v).  [event_ok] says that the values of an event have the
    declared types; [complete] that no required variable is missing. *)
From Coq Require Import ZArith NArith String Bool List Permutation.
From Verif Require Import Base Float Value Ast Config Assign Special Match Bound Tree PredMap Source Api Spec TreeSpec Hist Check Cases.
From Verif Require Import EvalProofs AnswerProofs.
Import ListNotations.
Local Open Scope Z_scope.

(** Checks of the hypotheses for the concrete trees. *)
Ltac fact := lazymatch goal with
  | |- reach _ case_t _ _ => exact case_reach
  | |- reach _ case_t' _ _ => exact case_reach'
  | |- builds _ _ _ _ _ case_b1 => exact case_built1
  | |- builds _ _ _ _ _ case_b2 => exact case_built2
  | |- builds _ _ _ _ _ case_b3 => exact case_built3
  | |- few_preds _ => apply few_preds_b_ok; vm_compute; reflexivity
  | |- event_ok _ _ => apply event_ok_b_ok; vm_compute; reflexivity
  | |- complete _ _ => apply complete_b_ok; vm_compute; reflexivity
  | |- accepts _ _ _ _ _ => apply accepts_b_ok; vm_compute; reflexivity
  | |- src_ok _ _ _ => apply src_ok_b_ok; vm_compute; reflexivity
  | |- fits _ _ _ => apply fits_b_ok; vm_compute; reflexivity
  | |- whole_floats _ => apply whole_floats_b_ok; vm_compute; reflexivity
  | |- fair _ _ _ _ => apply fair_b_ok; vm_compute; reflexivity
  | |- fair_one _ _ _ _ => apply fair_one_b_ok; vm_compute; reflexivity
  | |- calm _ _ _ => apply calm_b_ok; vm_compute; reflexivity
  | |- floats_ok _ _ _ => apply floats_b_ok; vm_compute; reflexivity
  | |- ~ In _ _ => apply memZ_In; vm_compute; reflexivity
  | |- _ = _ => vm_compute; reflexivity
  | |- (_ < _)%N => vm_compute; reflexivity
  | |- match _ with _ => _ end => vm_compute; reflexivity
  end.
Ltac facts := repeat match goal with |- _ /\ _ => split end; try fact.

(** ** C01 *)
Theorem C01_search_exact : forall (G : Geo) m ds t pend log ev,
  reach_in m ds t pend log -> few_preds t -> event_ok ds ev -> complete ds ev -> fair m t ev log ->
  exists r, betree_search t ev make_report = Ok (true, r) /\ Permutation (r_subs r) (hits ev log).
Proof. exact @search_exact. Qed.
Print Assumptions C01_search_exact.
(** The answer about one subscription is right whatever the others are. *)
Theorem C01_each : forall (G : Geo) m ds t pend log ev,
  reach_in m ds t pend log -> few_preds t -> event_ok ds ev -> forall e, complete ds ev -> In e log -> fair_one m t ev e ->
  exists r, betree_search t ev make_report = Ok (true, r) /\ (In (e_id e) (r_subs r) <-> sem (e_cs e) ev (e_src e) = true).
Proof. exact @search_each. Qed.
Print Assumptions C01_each.
Example C01_case :
  reach case_ds case_t [] case_log /\ few_preds case_t /\ event_ok case_ds case_ev2 /\ complete case_ds case_ev2
  /\ fair NoSplit case_t case_ev2 case_log
  /\ List.length case_log = 14%nat /\ List.length (leaves_cnode (bt_root case_t)) = 16%nat
  /\ hits case_ev2 case_log = [4; 6; 7; 8; 9; 13; 15; 16; 12]
  /\ same_ids (answer (betree_search case_t case_ev2 make_report)) (hits case_ev2 case_log) = true.
Proof. facts. Qed.

Example C01_case_nots :
  reach case_ds case_not_t [] case_not_log /\ few_preds case_not_t /\ event_ok case_ds case_ev2 /\ complete case_ds case_ev2
  /\ fair NoSplit case_not_t case_ev2 case_not_log /\ fair NoSplit case_not_t case_ev1 case_not_log
  /\ List.length case_not_log = 7%nat /\ hits case_ev2 case_not_log = [1; 2; 3; 4; 5] /\ hits case_ev1 case_not_log = [1; 3]
  /\ same_ids (answer (betree_search case_not_t case_ev2 make_report)) [1; 2; 3; 4; 5] = true
  /\ same_ids (answer (betree_search case_not_t case_ev1 make_report)) [1; 3] = true.
Proof. facts. exact case_not_reach. Qed.

(** Subscriptions 1 and 4 use `not` in ways that the shortcut and the derived ranges do not allow.  An event that gives
    a and b is answered right for all but 4; without a, also 1 is answered wrongly; the others are right. *)
Definition mix_ds : list domain :=
  [mkD "a"%string (BBool false true) true; mkD "b"%string (BBool false true) true; mkD "i"%string (BInt false 0 10) false].
Definition mix_ops : list op :=
  [ OInsert 1 [] (XNot (XOr (XAtom (AVar "a"%string)) (XAtom (AVar "b"%string))));
    OInsert 2 [] (XNot (XAnd (i_eq 1) (XAtom (ANull NIsNotNull "a"%string))));
    OInsert 3 [] (i_eq 7);
    OInsert 4 [] (XNot (XAnd (XAtom (ACmp CGt "i"%string (CInt 5))) (XAtom (AVar "b"%string))));
    OInsert 5 [] (i_eq 1); OInsert 6 [] (XAnd (i_eq 7) (XNot (XAtom (AVar "a"%string)))) ].
Definition mix_st := Eval vm_compute in
  match run_in NoSplit mix_ds 1 0 1000 mix_ops with Some st => st | None => (make_tree 1 0 1000 mix_ds, [], []) end.
Definition mix_t : betree := Eval vm_compute in fst (fst mix_st).
Definition mix_log : list entry := Eval vm_compute in snd mix_st.
Lemma mix_reach : reach mix_ds mix_t [] mix_log.
Proof. apply (run_reach _ 1 0 1000 mix_ops). vm_compute. reflexivity. Qed.
Definition mix_ev (a : option bool) (b : bool) : event := [("b"%string, Some (VBool b)); ("i"%string, Some (VInt 7)); ("a"%string, option_map VBool a)].
Example C01_mixed_case :
  reach mix_ds mix_t [] mix_log /\ few_preds mix_t /\ List.length mix_log = 6%nat
  /\ (event_ok mix_ds (mix_ev (Some false) false) /\ complete mix_ds (mix_ev (Some false) false)
      /\ fair NoSplit mix_t (mix_ev (Some false) false) (filter (fun e => negb (e_id e =? 4)) mix_log)
      /\ hits (mix_ev (Some false) false) mix_log = [1; 2; 3; 4; 6]
      /\ answer (betree_search mix_t (mix_ev (Some false) false) make_report) = [2; 1; 3; 6])
  /\ (event_ok mix_ds (mix_ev None true) /\ complete mix_ds (mix_ev None true)
      /\ fair NoSplit mix_t (mix_ev None true) (filter (fun e => negb (e_id e =? 4) && negb (e_id e =? 1)) mix_log)
      /\ hits (mix_ev None true) mix_log = [2; 3; 6]
      /\ answer (betree_search mix_t (mix_ev None true) make_report) = [2; 1; 3; 6]).
Proof. facts. exact mix_reach. Qed.

(** ** C02 *)
Theorem C02_no_false_positive : forall (G : Geo) m ds t pend log ev,
  reach_in m ds t pend log -> few_preds t -> event_ok ds ev -> forall b r id,
  betree_search t ev make_report = Ok (b, r) -> In id (r_subs r) ->
  exists e, In e log /\ e_id e = id /\ (calm t ev e -> sem (e_cs e) ev (e_src e) = true).
Proof. exact @search_sound. Qed.
Print Assumptions C02_no_false_positive.
Example C02_case :
  reach case_ds case_t [] case_log /\ few_preds case_t /\ event_ok case_ds case_ev1
  /\ answer (betree_search case_t case_ev1 make_report) = [14; 1].
Proof. facts. Qed.

(** ** C03 *)
Theorem C03_reported_once : forall (G : Geo) m ds t pend log ev,
  reach_in m ds t pend log -> few_preds t -> event_ok ds ev -> forall b r,
  betree_search t ev make_report = Ok (b, r) ->
  NoDup (r_subs r) /\ r_matched r = Z.of_nat (List.length (r_subs r)).
Proof. exact @search_once. Qed.
Print Assumptions C03_reported_once.
Example C03_case :
  reach case_ds case_t [] case_log /\ few_preds case_t /\ event_ok case_ds case_ev2
  /\ match betree_search case_t case_ev2 make_report with Ok (true, r) => r_matched r | _ => 0 end = 9.
Proof. facts. Qed.

(** ** C04 *)
(** Evaluating any list of subscriptions of the tree (in any order, with repetitions) with one shared
    table gives what each gives alone with an empty table, which is the value without any table. *)
Theorem C04_shared_results : forall (G : Geo) m ds t pend log ev p l,
  reach_in m ds t pend log -> few_preds t -> event_ok ds ev -> make_env (bt_cfg t) ev = Ok p ->
  incl l (subs_cnode (bt_root t) ++ map fst pend) ->
  exists bs, eval_shared p (pm_mids (bt_pm t)) l (make_memoize (pm_mcount (bt_pm t)) 0) = Ok bs
    /\ Forall2 (fun s b => eval p (s_expr s) = Ok b) l bs
    /\ Forall2 (fun s b => eval_shared p (pm_mids (bt_pm t)) [s] (make_memoize (pm_mcount (bt_pm t)) 0) = Ok [b]) l bs.
Proof. exact @shared_alone. Qed.
Print Assumptions C04_shared_results.
Example C04_case :
  reach case_ds case_t [] case_log /\ few_preds case_t /\ event_ok case_ds case_ev1
  /\ (0 < pm_mcount (bt_pm case_t))%N
  /\ match make_env (bt_cfg case_t) case_ev1 with
     | Ok p => eval_shared p (pm_mids (bt_pm case_t)) (subs_cnode (bt_root case_t))
                 (make_memoize (pm_mcount (bt_pm case_t)) 0)
     | _ => Ok []
     end = Ok (map (fun s => memZ (s_id s) [1; 14]) (subs_cnode (bt_root case_t)))
  /\ match betree_search case_t case_ev1 make_report with Ok (true, r) => r_memoized r | _ => 0 end = 2.
Proof. facts. Qed.

(** ** C05 *)
Theorem C05_shortcut : forall (G : Geo) m ds t pend log ev p s,
  reach_in m ds t pend log -> few_preds t -> event_ok ds ev -> make_env (bt_cfg t) ev = Ok p ->
  In s (subs_cnode (bt_root t)) ->
  exists e k, In e log /\ e_id e = s_id s /\ try_short_circuit (s_pass s) (s_fail s) (make_undefined p) = Ok k
    /\ (calm t ev e -> (k = ScPass -> sem (e_cs e) ev (e_src e) = true) /\ (k = ScFail -> sem (e_cs e) ev (e_src e) = false))
    /\ eval p (s_expr s) = Ok (sem (e_cs e) ev (e_src e)).
Proof. exact @shortcut_right. Qed.
Print Assumptions C05_shortcut.
Example C05_case :
  reach case_ds case_t [] case_log /\ few_preds case_t /\ event_ok case_ds case_ev2
  /\ match make_env (bt_cfg case_t) case_ev2 with
     | Ok p => map s_id (filter (fun s => match try_short_circuit (s_pass s) (s_fail s) (make_undefined p) with
                                          | Ok ScPass => true | _ => false end) (subs_cnode (bt_root case_t)))
     | _ => []
     end = [7]
  /\ match make_env (bt_cfg case_t) case_ev2 with
     | Ok p => map s_id (filter (fun s => match try_short_circuit (s_pass s) (s_fail s) (make_undefined p) with
                                          | Ok ScFail => true | _ => false end) (subs_cnode (bt_root case_t)))
     | _ => []
     end = [14; 3].
Proof. facts. Qed.

(** ** C06 *)
Theorem C06_exists_agrees : forall (G : Geo) m ds t pend log ev,
  reach_in m ds t pend log -> few_preds t -> event_ok ds ev -> complete ds ev ->
  exists b r, betree_exists t ev = Ok b /\ betree_search t ev make_report = Ok (true, r)
    /\ (b = true <-> r_subs r <> []).
Proof. exact @exists_agrees. Qed.
Print Assumptions C06_exists_agrees.
Definition case_ev0 : event := [("i", Some (VInt 0)); ("b", Some (VBool true)); ("now", Some (VInt 0)); ("frequency_caps", Some (VFreqs [mkCap FTFlight 20 (str "ns") true 0 11]))]%string.
Example C06_case :
  reach case_ds case_t [] case_log /\ few_preds case_t
  /\ event_ok case_ds case_ev1 /\ complete case_ds case_ev1 /\ betree_exists case_t case_ev1 = Ok true
  /\ event_ok case_ds case_ev0 /\ complete case_ds case_ev0 /\ betree_exists case_t case_ev0 = Ok false.
Proof. facts. Qed.

(** ** C07, C08 *)
Theorem C07_insertion_order : forall (G : Geo) m m' ds cap minpart maxsplit l t l' t' ev,
  builds_in m ds cap minpart maxsplit l t -> builds_in m' ds cap minpart maxsplit l' t' -> Permutation l l' ->
  few_preds t -> few_preds t' -> event_ok ds ev -> complete ds ev -> fair m t ev l -> fair m' t' ev l' ->
  exists r r', betree_search t ev make_report = Ok (true, r) /\ betree_search t' ev make_report = Ok (true, r')
    /\ Permutation (r_subs r) (r_subs r').
Proof.
  exact (fun G m m' ds cap minpart maxsplit l t l' t' ev =>
    @built_same G m m' ds cap minpart maxsplit l t cap minpart maxsplit l' t' ev). Qed.
Print Assumptions C07_insertion_order.
Example C07_case :
  builds case_ds 1 0 1000 case_log case_b1 /\ builds case_ds 1 0 1000 (rev case_log) case_b2
  /\ Permutation case_log (rev case_log) /\ few_preds case_b1 /\ few_preds case_b2
  /\ event_ok case_ds case_ev2 /\ complete case_ds case_ev2
  /\ answer (betree_search case_b1 case_ev2 make_report) = [9; 15; 6; 12; 4; 7; 8; 13; 16]
  /\ same_ids (answer (betree_search case_b1 case_ev2 make_report)) (answer (betree_search case_b2 case_ev2 make_report)) = true.
Proof. facts. apply Permutation_rev. Qed.

Theorem C08_parameters : forall (G : Geo) m m' ds cap minpart maxsplit l t cap' minpart' maxsplit' l' t' ev,
  builds_in m ds cap minpart maxsplit l t -> builds_in m' ds cap' minpart' maxsplit' l' t' -> Permutation l l' ->
  few_preds t -> few_preds t' -> event_ok ds ev -> complete ds ev -> fair m t ev l -> fair m' t' ev l' ->
  exists r r', betree_search t ev make_report = Ok (true, r) /\ betree_search t' ev make_report = Ok (true, r')
    /\ Permutation (r_subs r) (r_subs r').
Proof. exact @built_same. Qed.
Print Assumptions C08_parameters.
(** The same for every two histories (with any calls) that inserted the same subscriptions. *)
Theorem C08_histories : forall (G : Geo) m m' ds t pend log t' pend' log' ev,
  reach_in m ds t pend log -> reach_in m' ds t' pend' log' -> Permutation log log' -> few_preds t -> few_preds t' ->
  event_ok ds ev -> complete ds ev -> fair m t ev log -> fair m' t' ev log' ->
  exists r r', betree_search t ev make_report = Ok (true, r) /\ betree_search t' ev make_report = Ok (true, r')
    /\ Permutation (r_subs r) (r_subs r').
Proof. exact @same_answers. Qed.
Print Assumptions C08_histories.
Example C08_case :
  builds case_ds 1 0 1000 case_log case_b1 /\ builds case_ds 3 2 5 (rev case_log) case_b3
  /\ reach case_ds case_t [] case_log /\ reach case_ds case_t' [] case_log /\ few_preds case_t'
  /\ few_preds case_b3 /\ event_ok case_ds case_ev2 /\ complete case_ds case_ev2
  /\ List.length (leaves_cnode (bt_root case_b1)) = 16%nat /\ List.length (leaves_cnode (bt_root case_b3)) = 2%nat
  /\ same_ids (answer (betree_search case_b1 case_ev2 make_report)) (answer (betree_search case_b3 case_ev2 make_report)) = true.
Proof. facts. Qed.

(** ** C09 *)
Theorem C09_insert_keeps_all : forall (G : Geo) m ds t pend log id cs x t',
  reach_in m ds t pend log -> accepts ds (bt_cfg t) false cs x -> ~ In id (ids_of pend log) ->
  betree_insert_with_constants t id cs x = Ok (true, t') ->
  exists s, s_id s = id /\ Permutation (subs_cnode (bt_root t')) (s :: subs_cnode (bt_root t))
    /\ NoDup (map s_id (subs_cnode (bt_root t')))
    /\ forall s', In s' (s :: subs_cnode (bt_root t)) -> find_sub_id (s_id s') (bt_root t') = Some s'.
Proof. exact @insert_keeps. Qed.
Print Assumptions C09_insert_keeps_all.
Example C09_case :
  reach case_ds case_t [] case_log /\ accepts case_ds (bt_cfg case_t) false [] case_new /\ ~ In 77 (ids_of [] case_log)
  /\ betree_insert_with_constants case_t 77 [] case_new = Ok (true, case_next)
  /\ List.length (leaves_cnode (bt_root case_next)) = 17%nat
  /\ option_map s_id (find_sub_id 77 (bt_root case_next)) = Some 77
  /\ option_map s_id (find_sub_id 16 (bt_root case_next)) = Some 16
  /\ option_map s_id (find_sub_id 10 (bt_root case_next)) = None.
Proof. facts. Qed.

(** ** C12 *)
Theorem C12_missing_required : forall (G : Geo) m ds t pend log ev,
  reach_in m ds t pend log -> few_preds t -> event_ok ds ev -> forall r,
  (complete ds ev /\ exists r', betree_search t ev r = Ok (true, r'))
  \/ (~ complete ds ev /\ betree_search t ev r = Ok (false, r)).
Proof. exact @search_decides. Qed.
Print Assumptions C12_missing_required.
Example C12_case :
  reach case_ds case_t [] case_log /\ few_preds case_t /\ event_ok case_ds case_ev3
  /\ betree_search case_t case_ev3 (mkR 1 2 3 4 [5]) = Ok (false, mkR 1 2 3 4 [5])
  /\ event_ok case_ds case_ev1 /\ answer (betree_search case_t case_ev1 (mkR 1 2 3 4 [5])) = [5; 14; 1].
Proof. facts. Qed.

(** ** C19 *)
Theorem C19_change_keeps_answers : forall (G : Geo) m ds t pend log x t' ev,
  reach_in m ds t pend log -> src_ok ds [] x -> fits (bt_cfg t) true x ->
  betree_change_boundaries t x = Ok t' -> floats_ok m (bt_cfg t) (bt_cfg t') ->
  few_preds t -> few_preds t' -> event_ok ds ev -> complete ds ev -> fair m t ev log -> fair m t' ev log ->
  exists r r', betree_search t ev make_report = Ok (true, r) /\ betree_search t' ev make_report = Ok (true, r')
    /\ Permutation (r_subs r) (r_subs r').
Proof. exact @change_answers. Qed.
Print Assumptions C19_change_keeps_answers.
Theorem C19_make_keeps_answers : forall (G : Geo) m ds t pend log id cs x s t' ev,
  reach_in m ds t pend log -> accepts ds (bt_cfg t) true cs x -> ~ In id (ids_of pend log) ->
  betree_make_sub t id cs x = Ok (s, t') -> floats_ok m (bt_cfg t) (bt_cfg t') ->
  few_preds t -> few_preds t' -> event_ok ds ev -> complete ds ev -> fair m t ev log -> fair m t' ev log ->
  exists r r', betree_search t ev make_report = Ok (true, r) /\ betree_search t' ev make_report = Ok (true, r')
    /\ Permutation (r_subs r) (r_subs r').
Proof. exact @make_answers. Qed.
Print Assumptions C19_make_keeps_answers.
Theorem C19_change_widens : forall (G : Geo) m ds t pend log x t',
  reach_in m ds t pend log -> src_ok ds [] x -> fits (bt_cfg t) true x ->
  betree_change_boundaries t x = Ok t' -> floats_ok m (bt_cfg t) (bt_cfg t') ->
  all_widened (bt_cfg t) (bt_cfg t').
Proof. exact @change_widens. Qed.
Print Assumptions C19_change_widens.
Theorem C19_make_widens : forall (G : Geo) m ds t pend log id cs x s t',
  reach_in m ds t pend log -> accepts ds (bt_cfg t) true cs x ->
  betree_make_sub t id cs x = Ok (Some s, t') -> floats_ok m (bt_cfg t) (bt_cfg t') ->
  all_widened (bt_cfg t) (bt_cfg t').
Proof. exact @make_widens. Qed.
Print Assumptions C19_make_widens.
Example C19_case :
  reach case_ds case_t [] case_log /\ src_ok case_ds [] case_wider /\ fits (bt_cfg case_t) true case_wider
  /\ betree_change_boundaries case_t case_wider = Ok case_changed /\ whole_floats (bt_cfg case_changed)
  /\ few_preds case_t /\ few_preds case_changed /\ event_ok case_ds case_ev2 /\ complete case_ds case_ev2
  /\ option_map d_bound (nthN (c_domains (bt_cfg case_t)) 1) = Some (BInt false 0 12)
  /\ option_map d_bound (nthN (c_domains (bt_cfg case_changed)) 1) = Some (BInt false 0 40)
  /\ answer (betree_search case_changed case_ev2 make_report) = answer (betree_search case_t case_ev2 make_report)
  /\ accepts case_ds (bt_cfg case_t) true [] case_new /\ ~ In 77 (ids_of [] case_log)
  /\ betree_make_sub case_t 77 [] case_new = Ok (Some case_made_sub, case_made_t)
  /\ whole_floats (bt_cfg case_made_t) /\ few_preds case_made_t.
Proof. facts. Qed.

(** ** C24 *)
Theorem C24_counters : forall (G : Geo) m ds t pend log ev,
  reach_in m ds t pend log -> few_preds t -> event_ok ds ev -> forall b r,
  betree_search t ev make_report = Ok (b, r) ->
  exists rep silent, (exists rest, Permutation (rep ++ silent ++ rest) log)
    /\ r_evaluated r = Z.of_nat (List.length (rep ++ silent)) /\ r_evaluated r <= Z.of_nat (List.length log)
    /\ r_subs r = map e_id rep
    /\ Forall (fun e => calm t ev e -> sem (e_cs e) ev (e_src e) = true) rep
    /\ Forall (fun e => calm t ev e -> sem (e_cs e) ev (e_src e) = false) silent
    /\ 0 <= r_matched r <= r_evaluated r /\ 0 <= r_shorted r <= r_evaluated r.
Proof. exact @counters. Qed.
Print Assumptions C24_counters.
Example C24_case :
  reach case_ds case_t [] case_log /\ few_preds case_t /\ event_ok case_ds case_ev1
  /\ betree_search case_t case_ev1 make_report = Ok (true, mkR 12 2 6 2 [14; 1]).
Proof. facts. Qed.

(** ** C33 *)
Theorem C33_refused_insert : forall t id cs x t',
  betree_insert_with_constants t id cs x = Ok (false, t') -> t' = t.
Proof. exact refused_same. Qed.
Print Assumptions C33_refused_insert.
Theorem C33_refused_make : forall (G : Geo) m ds t pend log id cs x t' ev,
  reach_in m ds t pend log -> fits (bt_cfg t) true x -> betree_make_sub t id cs x = Ok (None, t') ->
  few_preds t -> few_preds t' -> event_ok ds ev -> complete ds ev -> fair m t ev log -> fair m t' ev log ->
  exists r r', betree_search t ev make_report = Ok (true, r) /\ betree_search t' ev make_report = Ok (true, r')
    /\ Permutation (r_subs r) (r_subs r').
Proof. exact @refused_make_answers. Qed.
Print Assumptions C33_refused_make.
Example C33_case :
  (* an unknown variable, too many strings, a missing constant *)
  forallb (fun x => match betree_insert_with_constants case_t 78 [] x with Ok (false, _) => true | _ => false end)
    [XAtom (AVar "unknown"); case_many; XAtom (AFreq "flight" "ns" 10 100)]%string = true
  /\ reach case_ds case_t [] case_log /\ fits (bt_cfg case_t) true (XAtom (AFreq "flight" "other" 10 100))
  /\ match betree_make_sub case_t 78 [] (XAtom (AFreq "flight" "other" 10 100)) with
     | Ok (None, t') => answer (betree_search t' case_ev2 make_report) = answer (betree_search case_t case_ev2 make_report)
     | _ => False
     end.
Proof. facts. Qed.

(** ** C35 *)
Theorem C35_two_paths : forall (G : Geo) m ds t pend log id cs x s t1 t2 t' ev,
  reach_in m ds t pend log -> ~ In id (ids_of pend log) ->
  accepts ds (bt_cfg t) false cs x -> betree_insert_with_constants t id cs x = Ok (true, t') ->
  accepts ds (bt_cfg t) true cs x -> betree_make_sub t id cs x = Ok (Some s, t1) ->
  floats_ok m (bt_cfg t) (bt_cfg t1) ->
  betree_insert_sub t1 s = Ok t2 ->
  few_preds t' -> few_preds t2 -> event_ok ds ev -> complete ds ev ->
  fair m t' ev (log ++ [mkE id cs x]) -> fair m t2 ev (log ++ [mkE id cs x]) ->
  exists r r', betree_search t' ev make_report = Ok (true, r) /\ betree_search t2 ev make_report = Ok (true, r')
    /\ Permutation (r_subs r) (r_subs r').
Proof. exact @make_insert_answers. Qed.
Print Assumptions C35_two_paths.
Example C35_case :
  reach case_ds case_t [] case_log /\ ~ In 77 (ids_of [] case_log)
  /\ accepts case_ds (bt_cfg case_t) false [] case_new /\ betree_insert_with_constants case_t 77 [] case_new = Ok (true, case_next)
  /\ accepts case_ds (bt_cfg case_t) true [] case_new /\ betree_make_sub case_t 77 [] case_new = Ok (Some case_made_sub, case_made_t)
  /\ whole_floats (bt_cfg case_made_t) /\ betree_insert_sub case_made_t case_made_sub = Ok case_made_t2
  /\ few_preds case_next /\ few_preds case_made_t2 /\ event_ok case_ds case_ev2 /\ complete case_ds case_ev2
  /\ same_ids (answer (betree_search case_next case_ev2 make_report)) (answer (betree_search case_made_t2 case_ev2 make_report)) = true
  /\ memZ 77 (answer (betree_search case_next case_ev2 make_report)) = true.
Proof. facts. Qed.

(** ** C37 *)
Theorem C37_repeated_searches : forall (G : Geo) m ds t pend log evs,
  reach_in m ds t pend log -> few_preds t -> Forall (event_ok ds) evs ->
  forall r, exists r' singles, search_all t evs r = Ok r'
    /\ Forall2 (fun ev ids => exists b r1, betree_search t ev make_report = Ok (b, r1) /\ r_subs r1 = ids) evs singles
    /\ r_subs r' = r_subs r ++ concat singles.
Proof. exact @search_many. Qed.
Print Assumptions C37_repeated_searches.
Example C37_case :
  reach case_ds case_t [] case_log /\ few_preds case_t /\ Forall (event_ok case_ds) [case_ev1; case_ev3; case_ev1]
  /\ search_all case_t [case_ev1; case_ev3; case_ev1] make_report = Ok (mkR 24 4 12 4 [14; 1; 14; 1]).
Proof. facts. repeat constructor; fact. Qed.

(** ** C38 *)
Theorem C38_insert_is_local : forall (G : Geo) m ds t pend log id cs x t' ev,
  reach_in m ds t pend log -> accepts ds (bt_cfg t) false cs x -> ~ In id (ids_of pend log) ->
  betree_insert_with_constants t id cs x = Ok (true, t') ->
  few_preds t -> few_preds t' -> event_ok ds ev -> complete ds ev ->
  fair m t ev log -> fair m t' ev (log ++ [mkE id cs x]) ->
  exists r r', betree_search t ev make_report = Ok (true, r) /\ betree_search t' ev make_report = Ok (true, r')
    /\ Permutation (r_subs r') (r_subs r ++ if sem cs ev x then [id] else []).
Proof. exact @insert_answers. Qed.
Print Assumptions C38_insert_is_local.
Example C38_case :
  reach case_ds case_t [] case_log /\ accepts case_ds (bt_cfg case_t) false [] case_new /\ ~ In 77 (ids_of [] case_log)
  /\ betree_insert_with_constants case_t 77 [] case_new = Ok (true, case_next)
  /\ few_preds case_t /\ few_preds case_next /\ event_ok case_ds case_ev2 /\ complete case_ds case_ev2
  /\ sem [] case_ev2 case_new = true /\ sem [] case_ev1 case_new = false
  /\ answer (betree_search case_next case_ev1 make_report) = [14; 1].
Proof. facts. Qed.
