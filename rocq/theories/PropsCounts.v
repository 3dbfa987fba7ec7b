(** C24: what the counters of a report count, exactly. *)
From Coq Require Import ZArith NArith String Bool List Permutation.
From Verif Require Import Base Float Value Ast Config Assign Special Match Bound Tree PredMap Source Api Spec TreeSpec Hist CountSpec Check Cases.
From Verif Require Import BaseProofs EvalProofs CountProofs.
Import ListNotations.
Local Open Scope Z_scope.

(** The candidates [cand] are some of the stored subscriptions; all others are false (if float ranges are split: those
    of which the event is no near miss).  Every candidate is counted as evaluated, the true ones as matched and
    reported in the same order, those decided by a variable without a value as shorted.  The others are visited in
    order, and `memoized` counts the parts found decided: every part is evaluated at most once. *)
Theorem C24_exact : forall (G : Geo) m ds t pend log ev,
  reach_in m ds t pend log -> few_preds t -> event_ok ds ev -> complete ds ev ->
  exists p cand, make_env (bt_cfg t) ev = Ok p
    /\ (exists rest, Permutation (cand ++ rest) (subs_cnode (bt_root t)) /\ Forall (fun s =>
          (forall e, In e log -> e_id e = s_id s -> fair m t ev [e]) -> holds p (s_expr s) = false) rest)
    /\ Forall (fun s => (forall e, In e log -> e_id e = s_id s -> calm t ev e) -> verdict p s = holds p (s_expr s)) cand
    /\ forall r, exists r', betree_search t ev r = Ok (true, r')
    /\ r_subs r' = r_subs r ++ map s_id (filter (verdict p) cand)
    /\ r_matched r' = r_matched r + Z.of_nat (List.length (filter (verdict p) cand))
    /\ r_evaluated r' = r_evaluated r + Z.of_nat (List.length cand)
    /\ r_shorted r' = r_shorted r + Z.of_nat (List.length (filter (early p) cand))
    /\ r_memoized r' = r_memoized r + Z.of_nat (visits p (map s_expr (filter (fun s => negb (early p s)) cand)) []).
Proof. exact @report_exact. Qed.
Print Assumptions C24_exact.
(** A number that occurs twice in the stored and prepared subscriptions has a place in the table of results. *)
Theorem C24_shared_numbers : forall (G : Geo) m ds t pend log g,
  reach_in m ds t pend log -> few_preds t ->
  (2 <= count_occ N.eq_dec (map gid (flat_map (fun s => nodes (s_expr s)) (subs_cnode (bt_root t) ++ map fst pend))) g)%nat ->
  mid_of (pm_mids (bt_pm t)) g <> INVALID_PRED.
Proof. exact @twice_shared. Qed.
Print Assumptions C24_shared_numbers.
Definition case_cands (p : env) : list sub :=
  match match_cnode (c_domains (bt_cfg case_t)) p (bt_root case_t) with Ok l => l | _ => [] end.
Example C24_exact_case : forall G : Geo,
  reach case_ds case_t [] case_log /\ few_preds case_t /\ event_ok case_ds case_ev1 /\ complete case_ds case_ev1
  /\ match make_env (bt_cfg case_t) case_ev1 with
     | Ok p => let cand := case_cands p in
         (List.length cand, List.length (filter (verdict p) cand), List.length (filter (early p) cand),
          visits p (map s_expr (filter (fun s => negb (early p s)) cand)) [])
     | _ => (0, 0, 0, 0)%nat
     end = (12, 2, 6, 2)%nat
  /\ betree_search case_t case_ev1 (mkR 100 200 300 400 [5]) = Ok (true, mkR 112 202 306 402 [5; 14; 1]).
Proof.
  intros G. split; [exact case_reach|]. split; [vm_compute; discriminate|].
  split; [apply event_ok_b_ok; vm_compute; reflexivity|]. split; [apply complete_b_ok; vm_compute; reflexivity|].
  split; vm_compute; reflexivity.
Qed.
