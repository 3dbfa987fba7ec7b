(** Counterexamples about late declarations and emptied trees. *)
From Coq Require Import ZArith NArith String Ascii Bool List Permutation.
From Verif Require Import Base Float Value Ast Config Assign Special Match Bound Tree PredMap Source Api Spec TreeSpec Hist Check Cases.
Import ListNotations.
Local Open Scope Z_scope.
Local Open Scope string_scope.

(** 63 boolean variables v00, v01, ... *)
Definition digit (n : nat) : string := String (ascii_of_nat (48 + n)) EmptyString.
Definition many : list domain := Eval vm_compute in
  map (fun k => mkD (("v" ++ digit (k / 10)) ++ digit (k mod 10)) (BBool false true) true) (seq 0 63).
Definition many_t : betree := Eval vm_compute in
  match betree_insert_with_constants (make_tree 3 0 1000 many) 1 [] (XAtom (AVar "v00")) with Ok (_, t) => t | _ => case_t end.
Lemma many_reach : reach many many_t [] [mkE 1 [] (XAtom (AVar "v00"))].
Proof. apply (run_reach _ 3 0 1000 [OInsert 1 [] (XAtom (AVar "v00"))]). vm_compute. reflexivity. Qed.

(** C46 without the condition on the number of declarations: 63 variables, a subscription, a 64th variable.  The bit
    arrays of the subscription (tree.c 1595-1600, one word per 64 variables) are now shorter than those of an event, and
    every search reads behind their end (tree.c 48-63). *)
Theorem C46_word_refuted : exists ds t log d ev,
  reach ds t [] log /\ few_preds t /\ decls_ok (ds ++ [d]) /\ whole_floats (bt_cfg (betree_declare t d))
  /\ (forall d', In d' ds -> d_attr d' <> d_attr d) /\ event_ok (ds ++ [d]) ev /\ complete (ds ++ [d]) ev
  /\ betree_search (betree_declare t d) ev make_report = UB.
Proof.
  exists many, many_t, [mkE 1 [] (XAtom (AVar "v00"))], (mkD "w" (BBool false true) true), [("v00", Some (VBool true))].
  split; [exact many_reach|]. split; [apply few_preds_b_ok; vm_compute; reflexivity|].
  split; [apply decls_ok_b_ok; vm_compute; reflexivity|]. split; [apply whole_floats_b_ok; vm_compute; reflexivity|].
  split; [intros d' H; cbn [many In] in H; repeat (destruct H as [<-|H]; [discriminate|]); destruct H|].
  split; [apply event_ok_b_ok; vm_compute; reflexivity|]. split; [apply complete_b_ok; vm_compute; reflexivity|].
  vm_compute. reflexivity.
Qed.

(** A subscription made before the tree was emptied keeps the numbers of its predicates although the numbers start
    again.  Here `a and a` is made, the tree is emptied, the subscription is inserted, `b and b` is inserted and gets the
    same numbers: an event with only b true does not match it. *)
Definition stale_ds : list domain := [mkD "a" (BBool false true) false; mkD "b" (BBool false true) false].
Definition both (x : string) : src := XAnd (XAtom (AVar x)) (XAtom (AVar x)).
Definition stale_made : betree * sub := Eval vm_compute in
  match betree_make_sub (make_tree 3 0 1000 stale_ds) 1 [] (both "a") with
  | Ok (Some s, t) => (t, s)
  | _ => (case_t, mkSub 0 (ELeaf 0 (PLit true)) [] [] [])
  end.
Theorem C46_kept_sub_refuted : exists ds t pend log s e t1 x t2 ev r,
  reach ds t pend log /\ In (s, e) pend /\ betree_insert_sub (empty_tree t) s = Ok t1
  /\ accepts ds (bt_cfg t1) false [] x /\ betree_insert_with_constants t1 2 [] x = Ok (true, t2)
  /\ event_ok ds ev /\ complete ds ev /\ sem [] ev x = true
  /\ betree_search t2 ev make_report = Ok (true, r) /\ r_subs r = [].
Proof.
  exists stale_ds, (fst stale_made), [(snd stale_made, mkE 1 [] (both "a"))], [], (snd stale_made), (mkE 1 [] (both "a")).
  do 1 eexists. exists (both "b"). eexists. exists [("a", Some (VBool false)); ("b", Some (VBool true))]. eexists.
  split; [apply (run_reach _ 3 0 1000 [OMake 1 [] (both "a")]); vm_compute; reflexivity|].
  split; [left; reflexivity|]. split; [vm_compute; reflexivity|]. split; [apply accepts_b_ok; vm_compute; reflexivity|].
  split; [vm_compute; reflexivity|]. split; [apply event_ok_b_ok; vm_compute; reflexivity|].
  split; [apply complete_b_ok; vm_compute; reflexivity|]. split; [reflexivity|]. split; [vm_compute; reflexivity|reflexivity].
Qed.
Print Assumptions C46_word_refuted.
Print Assumptions C46_kept_sub_refuted.
