(** Programs whose trees are released wrongly. *)
From Coq Require Import ZArith NArith String Bool List Lia.
From Verif Require Import Base Float Value Ast Config Assign Special Match Bound Tree TreeSpec RbTree PredMap
  Source Api Cases Linked LinkedApi.
Import ListNotations.
Local Open Scope Z_scope.
Local Open Scope string_scope.

Definition ri_ds : list domain := [mkD "i" (BInt false 0 10) true].
Definition ri_start : vstate := mkV (make_tree 1 0 1000 ri_ds) [].
(** The tree after a program. *)
Definition after (l : list call) : result pstate :=
  (do q <- p_make_tree 1 0 1000 ri_ds; do '(_, q) <- p_run 40 q l; Ok q)%res.

(** Two accepted insertions with the same id: when the second is moved into a part, remove_sub takes the first one out
    of the leaf (tree.c 497-522 looks for the id). The second stands in two leaves then and betree_free releases
    it twice. *)
Definition twice_id : list call := [CInsert 1 [] (build (XAtom (ALit true))); CInsert 1 [] (build (i_eq 1)); CInsert 2 [] (build (i_eq 3))].
Theorem C57_repeated_id_refuted :
  (exists r st, v_run ri_start twice_id = Ok (r, st)) /\
  exists q, after twice_id = Ok q /\ forall n, p_free (40 + n) q = UB.
Proof.
  split; [do 2 eexists; vm_compute; reflexivity|].
  eexists. split; [vm_compute; reflexivity|]. intros n. vm_compute. reflexivity.
Qed.

(** A made subscription inserted twice. *)
Definition twice_made : list call := [CMake 1 [] (build (i_eq 1)); CInsertSub 0; CInsertSub 0].
Theorem C57_inserted_twice_refuted :
  (exists r st, v_run ri_start twice_made = Ok (r, st)) /\
  exists q, after twice_made = Ok q /\ forall n, p_free (40 + n) q = UB.
Proof.
  split; [do 2 eexists; vm_compute; reflexivity|].
  eexists. split; [vm_compute; reflexivity|]. intros n. vm_compute. reflexivity.
Qed.

(** A made subscription inserted, the tree emptied, the subscription inserted again: it was released with the tree. *)
Definition before_again : list call := [CMake 1 [] (build (i_eq 1)); CInsertSub 0; CEmpty].
Theorem C56_released_refuted :
  (exists r st, v_run ri_start (before_again ++ [CInsertSub 0]) = Ok (r, st)) /\
  exists q, after before_again = Ok q /\ forall n, p_call (40 + n) q (CInsertSub 0) = UB.
Proof.
  split; [do 2 eexists; vm_compute; reflexivity|].
  eexists. split; [vm_compute; reflexivity|]. intros n. vm_compute. reflexivity.
Qed.
Print Assumptions C57_repeated_id_refuted.
Print Assumptions C57_inserted_twice_refuted.
Print Assumptions C56_released_refuted.
