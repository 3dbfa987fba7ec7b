(** Variables declared after insertions, and emptied trees.  All properties about histories ([reach], Hist.v;
    [calls], Calls.v; [treach], TextHist.v) cover them; here is what they mean for the stored subscriptions. *)
From Coq Require Import ZArith NArith String Bool List Permutation.
From Verif Require Import Base Float Value Ast Config Assign Special Match Bound Tree PredMap Source Api Spec TreeSpec Hist Check Cases.
From Verif Require Import AnswerProofs LateProofs.
Import ListNotations.
Local Open Scope Z_scope.
Local Open Scope string_scope.

(** ** C46 *)
(** A further declaration changes no answer about the subscriptions inserted before: a search with any event answers as
    the tree before the declaration does for the event without the new variable. *)
Theorem C46_late_declaration : forall (G : Geo) m ds t pend log d ev,
  reach_in m ds t pend log -> few_preds t -> decls_ok (ds ++ [d]) -> 
  floats_ok m (bt_cfg (betree_declare t d)) (bt_cfg (betree_declare t d)) -> fair m (betree_declare t d) ev log ->
  (S (List.length ds) mod 64 <> 0)%nat -> (forall d', In d' ds -> d_attr d' <> d_attr d) ->
  event_ok (ds ++ [d]) ev -> complete (ds ++ [d]) ev ->
  exists r r', betree_search (betree_declare t d) ev make_report = Ok (true, r)
    /\ betree_search t (filter (fun p => negb (String.eqb (lower (fst p)) (d_attr d))) ev) make_report = Ok (true, r')
    /\ Permutation (r_subs r) (r_subs r').
Proof. exact @late_ignored. Qed.
Print Assumptions C46_late_declaration.

(** An emptied tree matches nothing. *)
Theorem C46_emptied : forall (G : Geo) m ds t pend log ev, reach_in m ds t pend log -> event_ok ds ev -> complete ds ev ->
  exists r, betree_search (empty_tree t) ev make_report = Ok (true, r) /\ r_subs r = [] /\ r_matched r = 0.
Proof. exact @emptied. Qed.
Print Assumptions C46_emptied.

(** A tree with 14 subscriptions, one more declared variable, two more subscriptions; emptied; one subscription. *)
Definition late_d : domain := mkD "late" (BInt false 0 100) false.
Definition late_ds : list domain := case_ds ++ [late_d].
Definition late_ops : list op :=
  [ OInsert 21 [] (XAnd (XAtom (ACmp CGt "late" (CInt 50))) (i_eq 9)); OInsert 22 [] (XAtom (ACmp CLe "late" (CInt 50)));
    OInsert 23 [] (XAtom (AEq QEq "Late" (SInt 70))) ].
Definition late_st : state := Eval vm_compute in
  match steps late_ds (betree_declare case_t late_d, [], case_log) late_ops with Some st => st | None => (case_t, [], []) end.
Definition late_t : betree := Eval vm_compute in fst (fst late_st).
Definition late_log : list entry := Eval vm_compute in snd late_st.
Definition again_st : state := Eval vm_compute in
  match steps late_ds (empty_tree late_t, [], []) [OInsert 1 [] (XAtom (AEq QEq "Late" (SInt 70))); OInsert 2 [] (XAtom (AVar "b"))] with
  | Some st => st | None => (case_t, [], []) end.
Definition again_t : betree := Eval vm_compute in fst (fst again_st).
Definition again_log : list entry := Eval vm_compute in snd again_st.
Definition late_ev : event := (("late", Some (VInt 70)) :: case_ev2)%list.

Lemma late_fine : decls_ok late_ds. Proof. apply decls_ok_b_ok. vm_compute. reflexivity. Qed.
Lemma late_reach : reach late_ds late_t [] late_log.
Proof.
  apply (steps_reach late_ds late_ops (betree_declare case_t late_d) [] case_log); [|vm_compute; reflexivity].
  apply r_declare; [exact case_reach|exact late_fine|apply whole_floats_b_ok; vm_compute; reflexivity|right; vm_compute; congruence].
Qed.
Lemma again_reach : reach late_ds again_t [] again_log.
Proof.
  apply (steps_reach late_ds [OInsert 1 [] (XAtom (AEq QEq "Late" (SInt 70))); OInsert 2 [] (XAtom (AVar "b"))] (empty_tree late_t) [] []);
    [|vm_compute; reflexivity].
  exact (r_empty _ _ _ _ late_reach).
Qed.
Example C46_case :
  reach case_ds case_t [] case_log /\ reach late_ds late_t [] late_log /\ reach late_ds again_t [] again_log
  /\ few_preds case_t /\ few_preds late_t /\ few_preds again_t /\ decls_ok late_ds
  /\ whole_floats (bt_cfg (betree_declare case_t late_d)) /\ (S (List.length case_ds) mod 64 <> 0)%nat
  /\ (forall d', In d' case_ds -> d_attr d' <> "late")
  /\ event_ok late_ds late_ev /\ complete late_ds late_ev
  /\ same_ids (answer (betree_search case_t case_ev2 make_report)) [4; 6; 7; 8; 9; 13; 15; 16; 12] = true
  /\ same_ids (answer (betree_search (betree_declare case_t late_d) late_ev make_report)) [4; 6; 7; 8; 9; 13; 15; 16; 12] = true
  /\ same_ids (answer (betree_search late_t late_ev make_report)) [4; 6; 7; 8; 9; 13; 15; 16; 12; 21; 23] = true
  /\ betree_search late_t case_ev2 make_report = Ok (false, make_report)
  /\ answer (betree_search (empty_tree late_t) late_ev make_report) = []
  /\ answer (betree_search again_t late_ev make_report) = [1].
Proof.
  split; [exact case_reach|]. split; [exact late_reach|]. split; [exact again_reach|].
  split; [apply few_preds_b_ok; vm_compute; reflexivity|].
  split; [apply few_preds_b_ok; vm_compute; reflexivity|].
  split; [apply few_preds_b_ok; vm_compute; reflexivity|].
  split; [exact late_fine|]. split; [apply whole_floats_b_ok; vm_compute; reflexivity|].
  split; [vm_compute; congruence|].
  split; [intros d' H; cbn [case_ds In] in H; repeat (destruct H as [<-|H]; [discriminate|]); destruct H|].
  split; [apply event_ok_b_ok; vm_compute; reflexivity|]. split; [apply complete_b_ok; vm_compute; reflexivity|].
  repeat split; vm_compute; reflexivity.
Qed.
