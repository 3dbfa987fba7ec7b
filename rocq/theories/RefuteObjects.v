(** Counterexample: an event object loses strings when it is searched. *)
From Coq Require Import ZArith NArith String Bool List Permutation.
From Verif Require Import Base Float Value Ast Config Assign Bound Special Match Tree PredMap Source Api EventObj.
From Verif Require Import Spec TreeSpec Hist ObjSpec Check Cases.
Import ListNotations.
Local Open Scope Z_scope.
Local Open Scope string_scope.

(** C45 without the condition on unknown strings: an object with the strings "x" and "y", both unknown to
    the tree, is searched; then a subscription to "y" is inserted.  A search with the object does not report
    it, a search with a fresh object does: the first search removed all unknown strings but one. *)
Definition lost_object : evobj :=
  [Some ("sl", VStrList [mkS "x" 0; mkS "y" 0]); Some ("i", VInt 1); Some ("now", VInt 1)].
Definition lost_t : betree := make_tree 3 0 1000 case_ds.
Definition lost_grown : betree := Eval vm_compute in
  match betree_insert_with_constants lost_t 1 [] (XAtom (AHas SIn (SStr "y") "sl")) with Ok (_, t) => t | _ => lost_t end.
Definition lost_used : evobj := Eval vm_compute in
  match search_object lost_t lost_object make_report with Ok (_, _, ev) => ev | _ => [] end.

Theorem C45_reuse_refuted :
  ~ (forall (G : Geo) t ev t' ev', session t ev t' ev' ->
       forall r, search_object t' ev' r = search_object t' ev r)
  /\ reach case_ds lost_grown [] [mkE 1 [] (XAtom (AHas SIn (SStr "y") "sl"))]
  /\ event_ok case_ds (vars lost_object) /\ complete case_ds (vars lost_object)
  /\ (forall G : Geo, session lost_t lost_object lost_grown lost_used)
  /\ (forall G : Geo, hits (vars lost_object) [mkE 1 [] (XAtom (AHas SIn (SStr "y") "sl"))] = [1])
  /\ (forall G : Geo, exists r ev', search_object lost_grown lost_object make_report = Ok (true, r, ev') /\ r_subs r = [1])
  /\ (forall G : Geo, exists r ev', search_object lost_grown lost_used make_report = Ok (true, r, ev') /\ r_subs r = []).
Proof.
  assert (S : forall G : Geo, session lost_t lost_object lost_grown lost_used).
  { intros G. eapply s_grow; [eapply (s_search _ _ lost_t lost_object make_report); [apply s_start|vm_compute; reflexivity]|].
    eapply (g_insert _ lost_t lost_grown 1 [] (build (XAtom (AHas SIn (SStr "y") "sl"))) true); [apply g_same|].
    vm_compute. reflexivity. }
  assert (A : forall G : Geo, exists r ev', search_object lost_grown lost_object make_report = Ok (true, r, ev') /\ r_subs r = [1])
    by (intros G; eexists; eexists; split; vm_compute; reflexivity).
  assert (B : forall G : Geo, exists r ev', search_object lost_grown lost_used make_report = Ok (true, r, ev') /\ r_subs r = [])
    by (intros G; eexists; eexists; split; vm_compute; reflexivity).
  split; [|split; [|split; [|split; [|split; [exact S|split; [|split; [exact A|exact B]]]]]]].
  - intros H. pose (G := (fun _ _ _ _ _ => true) : Geo).
    specialize (H G _ _ _ _ (S G) make_report). destruct (A G) as (r & e & E & R), (B G) as (r' & e' & E' & R').
    rewrite E', E in H. injection H as H _. rewrite <- H, R' in R. discriminate R.
  - apply (run_reach _ 3 0 1000 [OInsert 1 [] (XAtom (AHas SIn (SStr "y") "sl"))]). vm_compute. reflexivity.
  - apply event_ok_b_ok. vm_compute. reflexivity.
  - apply complete_b_ok. vm_compute. reflexivity.
  - intros G. vm_compute. reflexivity.
Qed.
Print Assumptions C45_reuse_refuted.
