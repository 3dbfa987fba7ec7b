(** Counterexamples about acceptance. *)
From Coq Require Import ZArith NArith String Bool List.
From Verif Require Import Base Float Value Ast Config Assign Special Match Bound Tree PredMap Source Api Spec TreeSpec Hist Bounded Accept Check Cases.
Import ListNotations.
Local Open Scope Z_scope.
Local Open Scope string_scope.

(** C47 without the count of repetitions: a list that repeats one string is refused although the string fits. *)
Definition rep_ds : list domain := [mkD "s" (dom_bounded_s 2) true].
Theorem C47_repeated_refuted : exists ds cap minpart maxsplit id x,
  let t := make_tree cap minpart maxsplit ds in
  reach ds t [] [] /\ lower_names ds /\ narrow (bt_cfg t) /\ c_cap (bt_cfg t) <> 0 /\ src_ok ds [] x /\ fits (bt_cfg t) false x
  /\ constants_given [] x
  /\ (forall s, In s (src_strings "s" x) -> s = "a")
  /\ betree_insert_with_constants t id [] x = Ok (false, t)
  /\ exists t', betree_insert_with_constants t id [] (XAtom (AIn SIn "s" (SStrs ["a"]))) = Ok (true, t').
Proof.
  exists rep_ds, 3, 0, 1000, 1, (XAtom (AIn SIn "s" (SStrs ["a"; "a"; "a"]))). cbv zeta.
  split; [apply r_init; [apply decls_ok_b_ok; vm_compute; reflexivity|vm_compute; split; congruence|apply whole_floats_b_ok; vm_compute; reflexivity]|].
  split; [repeat constructor|].
  split; [intros d [<-|[]]; exact I|]. split; [vm_compute; congruence|].
  split; [apply src_ok_b_ok; vm_compute; reflexivity|]. split; [apply fits_b_ok; vm_compute; reflexivity|].
  split; [intros ty ns value window [H|[]]; discriminate H|].
  split; [intros s H; cbv in H; intuition congruence|].
  split; [vm_compute; reflexivity|]. eexists. vm_compute. reflexivity.
Qed.
Print Assumptions C47_repeated_refuted.
