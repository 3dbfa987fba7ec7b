(** Properties that hold for every history of calls, without restrictions on the expressions, constants,
    events and declared variables ([calls], Calls.v); only calls that finish are part of a history.  For
    searches of trees in which an expression lies outside the restrictions of [reach], a search may report
    wrong ids (Refute.v); what follows holds all the same. *)
From Coq Require Import ZArith NArith String Bool List Permutation Lia.
From Verif Require Import Base Float Value Ast Config Assign Special Match Bound Tree PredMap Source Api Spec TreeSpec Hist Calls Check Cases Refute.
From Verif Require Import CallProofs.
Import ListNotations.
Local Open Scope Z_scope.

(** A tree with expressions and declarations that [reach] excludes: `not` over `or`, a narrow float
    range, an optional `now`; capacity 1. *)
Definition wild_ds : list domain :=
  [ mkD "i" (BInt false 0 20) false; mkD "b" (BBool false true) true; mkD "c" (BBool false true) true;
    mkD "f" (BFloat (f_of_Z 0) (f_of_Z 8)) true; mkD "s" (BStr TStr 0 3) true ]%string.
Definition wild_log : list entry :=
  [ mkE 1 [] (XNot (XOr (XAtom (AVar "b")) (XAtom (AVar "c"))));
    mkE 2 [] (XNot (XAnd (XAtom (ACmp CGt "i" (CInt 5))) (XAtom (AVar "b"))));
    mkE 3 [] (XAtom (ACmp CLt "f" (CInt 3)));
    mkE 4 [] (XAtom (AEq QEq "s" (SStr "x")));
    mkE 5 [] (XAtom (AEq QEq "i" (SInt 7)));
    mkE 6 [] (XAtom (AEq QEq "i" (SInt 9)));
    mkE 7 [] (XOr (XAtom (AEq QEq "i" (SInt 7))) (XAtom (AEq QNe "s" (SStr "y"))));
    mkE 8 [] (XAtom (AIn SIn "i" (SInts [])));
    mkE 9 [] (XAtom (AEq QEq "f" (SFlt (f_of_Z 5)))) ]%string.
Definition wild_t : betree := Eval vm_compute in
  match insert_all (make_tree 1 0 1000 wild_ds) wild_log with Ok t => t | _ => make_tree 1 0 1000 wild_ds end.
Lemma insert_all_calls cap minpart maxsplit ds made : forall l t ids t', calls cap minpart maxsplit ds t made ids ->
  insert_all t l = Ok t' -> calls cap minpart maxsplit ds t' made (ids ++ map e_id l).
Proof.
  induction l as [|e l IH]; intros t ids t' K H; cbn [insert_all map] in *.
  - injection H as <-. now rewrite app_nil_r.
  - destruct (betree_insert_with_constants t (e_id e) (e_cs e) (e_src e)) as [[b t1]| | |] eqn:E; cbn [bind fst snd] in H; try discriminate.
    destruct b; [|discriminate]. replace (ids ++ e_id e :: map e_id l) with ((ids ++ [e_id e]) ++ map e_id l) by now rewrite <- app_assoc.
    eapply IH; [|exact H]. eapply k_insert; eauto.
Qed.
Lemma wild_calls : calls 1 0 1000 wild_ds wild_t [] [1; 2; 3; 4; 5; 6; 7; 8; 9].
Proof.
  apply (insert_all_calls 1 0 1000 wild_ds [] wild_log (make_tree 1 0 1000 wild_ds) []); [apply k_start|].
  vm_compute. reflexivity.
Qed.
Lemma wild_distinct : NoDup [1; 2; 3; 4; 5; 6; 7; 8; 9].
Proof. repeat constructor; cbn [In]; intuition discriminate. Qed.
Definition wild_ev : event := [("i", Some (VInt 7)); ("b", Some (VBool false)); ("f", Some (VFloat (f_of_Z 5)))]%string.

(** ** C03 *)
Theorem C03_any_history : forall (G : Geo) ds cap minpart maxsplit t made ids ev b r,
  calls cap minpart maxsplit ds t made ids -> NoDup ids -> betree_search t ev make_report = Ok (b, r) ->
  NoDup (r_subs r) /\ incl (r_subs r) ids /\ r_matched r = Z.of_nat (List.length (r_subs r)).
Proof. exact @calls_once. Qed.
Print Assumptions C03_any_history.
Example C03_wild_case :
  calls 1 0 1000 wild_ds wild_t [] [1; 2; 3; 4; 5; 6; 7; 8; 9] /\ NoDup [1; 2; 3; 4; 5; 6; 7; 8; 9]
  /\ answer (betree_search wild_t wild_ev make_report) = [1; 2; 7; 5; 9].
Proof. split; [exact wild_calls|]. split; [exact wild_distinct|]. vm_compute. reflexivity. Qed.

(** ** C06 *)
(** Whatever the tree: when a search of it accepts the event and finishes, so does the existence test, and
    they agree. *)
Theorem C06_any_tree : forall (G : Geo) t ev r,
  betree_search t ev make_report = Ok (true, r) ->
  exists b, betree_exists t ev = Ok b /\ (b = true <-> r_subs r <> []).
Proof. exact @search_then_exists. Qed.
Print Assumptions C06_any_tree.
Example C06_wild_case :
  match betree_search wild_t wild_ev make_report with Ok (true, r) => r_matched r | _ => 0 end = 5
  /\ betree_exists wild_t wild_ev = Ok true
  /\ betree_exists (make_tree 1 0 1000 wild_ds) wild_ev = Ok false.
Proof. vm_compute. auto. Qed.

(** ** C09 *)
Theorem C09_any_history : forall ds cap minpart maxsplit t made ids id cs x t',
  calls cap minpart maxsplit ds t made ids -> NoDup ids -> ~ In id ids ->
  betree_insert_with_constants t id cs x = Ok (true, t') ->
  exists s, s_id s = id /\ Permutation (subs_cnode (bt_root t')) (s :: subs_cnode (bt_root t))
    /\ NoDup (map s_id (subs_cnode (bt_root t')))
    /\ forall s', In s' (s :: subs_cnode (bt_root t)) -> find_sub_id (s_id s') (bt_root t') = Some s'.
Proof. exact calls_insert. Qed.
Print Assumptions C09_any_history.
Theorem C09_any_history_sub : forall ds cap minpart maxsplit t made ids s t',
  calls cap minpart maxsplit ds t made ids -> NoDup ids -> ~ In (s_id s) ids ->
  betree_insert_sub t s = Ok t' ->
  Permutation (subs_cnode (bt_root t')) (s :: subs_cnode (bt_root t))
    /\ NoDup (map s_id (subs_cnode (bt_root t')))
    /\ forall s', In s' (s :: subs_cnode (bt_root t)) -> find_sub_id (s_id s') (bt_root t') = Some s'.
Proof. exact calls_insert_sub. Qed.
Print Assumptions C09_any_history_sub.
(** The tree holds exactly the inserted ids. *)
Theorem C09_any_history_ids : forall ds cap minpart maxsplit t made ids,
  calls cap minpart maxsplit ds t made ids -> NoDup ids -> Permutation (map s_id (subs_cnode (bt_root t))) ids.
Proof. exact calls_subs. Qed.
Print Assumptions C09_any_history_ids.
Example C09_wild_case :
  ~ In 10 [1; 2; 3; 4; 5; 6; 7; 8; 9]
  /\ match betree_insert_with_constants wild_t 10 [] (XNot (XOr (XAtom (AVar "b")) (XAtom (ACmp CLt "f" (CInt 2)))))%string with
     | Ok (true, t') => map s_id (subs_cnode (bt_root t'))
     | _ => []
     end = [10; 1; 2; 4; 8; 7; 5; 6; 3; 9]
  /\ map s_id (subs_cnode (bt_root wild_t)) = [1; 2; 4; 8; 7; 5; 6; 3; 9].
Proof. split; [cbn [In]; intuition discriminate|]. vm_compute. auto. Qed.

(** ** C11 *)
Theorem C11_leaves : forall ds cap minpart maxsplit t made ids,
  0 < cap < 256 -> calls cap minpart maxsplit ds t made ids ->
  forall m n, In (m, n) (leaves_cnode (bt_root t)) -> (exists k, 0 < k /\ m = k * cap) /\ Z.of_nat n <= m.
Proof.
  intros ds cap minpart maxsplit t made ids P K m n I.
  assert (to_uint 8 cap = cap) as E by (unfold to_uint; apply Z.mod_small; lia).
  assert (to_uint 8 cap <> 0) as Z by lia. pose proof (leaves_in_order _ _ _ _ _ _ _ Z K) as F.
  rewrite Forall_forall, E in F. exact (F _ I).
Qed.
Print Assumptions C11_leaves.
(** The capacity is stored in eight bits; for larger arguments the remainder counts. *)
Theorem C11_leaves_wrapped : forall ds cap minpart maxsplit t made ids,
  cap mod 256 <> 0 -> calls cap minpart maxsplit ds t made ids ->
  forall m n, In (m, n) (leaves_cnode (bt_root t)) -> (exists k, 0 < k /\ m = k * (cap mod 256)) /\ Z.of_nat n <= m.
Proof.
  intros ds cap minpart maxsplit t made ids P K m n I. pose proof (leaves_in_order _ _ _ _ _ _ _ P K) as F.
  rewrite Forall_forall in F. exact (F _ I).
Qed.
Print Assumptions C11_leaves_wrapped.
Definition wild_full : betree := Eval vm_compute in
  match insert_all (make_tree 2 0 3 wild_ds) (wild_log ++ map (fun n => mkE (20 + n) [] (XAtom (AEq QEq "i"%string (SInt 7)))) [1; 2; 3; 4; 5]) with
  | Ok t => t | _ => make_tree 2 0 3 wild_ds end.
Example C11_case :
  0 < 1 < 256 /\ calls 1 0 1000 wild_ds wild_t [] [1; 2; 3; 4; 5; 6; 7; 8; 9]
  /\ List.length (leaves_cnode (bt_root wild_t)) = 16%nat
  /\ leaves_cnode (bt_root wild_full) = [(12, 12%nat); (2, 2%nat)].
Proof. split; [easy|]. split; [exact wild_calls|]. vm_compute. auto. Qed.

(** ** C12 *)
Theorem C12_any_history : forall (G : Geo) ds cap minpart maxsplit t made ids ev r b r',
  calls cap minpart maxsplit ds t made ids -> betree_search t ev r = Ok (b, r') ->
  (b = true <-> complete ds ev) /\ (b = false -> r' = r).
Proof. exact @calls_required. Qed.
Print Assumptions C12_any_history.
Theorem C12_any_history_missing : forall (G : Geo) ds cap minpart maxsplit t made ids ev r p,
  calls cap minpart maxsplit ds t made ids -> make_env (bt_cfg t) ev = Ok p -> ~ complete ds ev ->
  betree_search t ev r = Ok (false, r).
Proof. exact @calls_missing. Qed.
Print Assumptions C12_any_history_missing.
Example C12_wild_case :
  betree_search wild_t [("b", Some (VBool false)); ("i", None)]%string (mkR 1 2 3 4 [5]) = Ok (false, mkR 1 2 3 4 [5])
  /\ complete wild_ds wild_ev.
Proof. split; [vm_compute; reflexivity|]. apply complete_b_ok. vm_compute. reflexivity. Qed.

(** ** C24 *)
Theorem C24_any_history : forall (G : Geo) ds cap minpart maxsplit t made ids ev b r,
  calls cap minpart maxsplit ds t made ids -> NoDup ids -> betree_search t ev make_report = Ok (b, r) ->
  exists cand, (exists rest, Permutation (cand ++ rest) ids) /\ (exists rest, Permutation (r_subs r ++ rest) cand)
    /\ r_evaluated r = Z.of_nat (List.length cand) /\ r_evaluated r <= Z.of_nat (List.length ids)
    /\ 0 <= r_matched r <= r_evaluated r /\ 0 <= r_shorted r <= r_evaluated r.
Proof. exact @calls_counters. Qed.
Print Assumptions C24_any_history.
Example C24_wild_case :
  match betree_search wild_t wild_ev make_report with Ok (true, r) => r | _ => make_report end = mkR 8 5 2 1 [1; 2; 7; 5; 9].
Proof. vm_compute. reflexivity. Qed.

(** ** C37 *)
Theorem C37_any_tree : forall (G : Geo) t evs,
  Forall (fun ev => exists b r, betree_search t ev make_report = Ok (b, r)) evs ->
  forall r, exists r' singles, search_all t evs r = Ok r'
    /\ Forall2 (fun ev ids => exists b r1, betree_search t ev make_report = Ok (b, r1) /\ r_subs r1 = ids) evs singles
    /\ r_subs r' = r_subs r ++ concat singles.
Proof. exact @search_many_any. Qed.
Print Assumptions C37_any_tree.
Example C37_wild_case :
  match search_all wild_t [wild_ev; [("b", Some (VBool false))]%string; wild_ev] (mkR 0 1 0 0 [77]) with
  | Ok r => r_subs r | _ => [] end = [77; 1; 2; 7; 5; 9; 1; 2; 7; 5; 9].
Proof. vm_compute. reflexivity. Qed.
