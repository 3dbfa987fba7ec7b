(** C75 needs different ids: [move] (tree.c 524-549) takes the first subscription with the id out of the node. *)
From Coq Require Import ZArith NArith String Bool List Permutation Lia.
From Verif Require Import Base Float Value Ast Config Assign Special Match Bound Tree PredMap Source Api Spec TreeSpec Hist Calls Check Cases Refute ShapeSpec.
From Verif Require Import CallProofs PropsCalls.
Import ListNotations.
Local Open Scope Z_scope.

(** `i = 7` and `b`, both with the id 1: the second is moved to a partition and kept in the node, the first is
    lost. *)
Definition twin_ds : list domain := [ mkD "b" (BBool false true) true; mkD "i" (BInt false 0 20) true ]%string.
Definition twin_log : list entry := [ mkE 1 [] (XAtom (AEq QEq "i" (SInt 7))); mkE 1 [] (XAtom (AVar "b")) ]%string.
Definition twin_t : betree := Eval vm_compute in
  match insert_all (make_tree 1 0 1000 twin_ds) twin_log with Ok t => t | _ => make_tree 1 0 1000 twin_ds end.
Lemma twin_calls : calls 1 0 1000 twin_ds twin_t [] [1; 1].
Proof.
  apply (insert_all_calls 1 0 1000 twin_ds [] twin_log (make_tree 1 0 1000 twin_ds) []); [apply k_start|]. vm_compute. reflexivity.
Qed.
Theorem C75_twins_refuted : exists cap minpart maxsplit ds t made ids,
  calls cap minpart maxsplit ds t made ids /\ ~ shaped_cnode about (List.length ds) (minpart mod 256) [] (bt_root t).
Proof.
  exists 1, 0, 1000, twin_ds, twin_t, [], [1; 1]. split; [exact twin_calls|].
  unfold twin_t. cbn [bt_root]. intros (_ & B & _). destruct (B 0%N (or_introl eq_refl)) as (_ & _ & C).
  eapply C; [now left|]. eexists. split; [now left|]. now left.
Qed.
Print Assumptions C75_twins_refuted.
