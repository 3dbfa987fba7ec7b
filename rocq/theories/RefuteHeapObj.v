(** Claims about the memory of programs with event objects that fail. *)
From Coq Require Import ZArith NArith Ascii String Bool List Permutation.
From Verif Require Import Base Float Value Ast Config Assign Special Match Bound Tree PredMap Source Api EventObj
  Linked LinkedSpec LinkedApi BisonTables Machine ObjProgram Cases.
From Verif Require Import Ledger HeapExpr HeapSpec HeapConf HeapConfSpec HeapWorld HeapWorldSpec HeapObj HeapObjSpec PropsHeapObj.
Import ListNotations.
Local Open Scope Z_scope.
Local Open Scope string_scope.
Local Open Scope list_scope.

(** Clean calls on the tree are enough: not when an element of a list is added twice at one place.  betree_add_string
    (betree.c 775-779) does not release the string that was there. *)
Definition added_twice : list xcall := map XObj [OStrs 1; OAddStr 0 0 "a"; OAddStr 0 0 "b"; OFree 0].
Theorem C65_added_twice_refuted :
  ~ (forall cap minpart maxsplit ds n l rs q0 s h m r,
      p_make_tree cap minpart maxsplit ds = Ok q0 -> x_run n (q0, []) l = Ok (rs, s) -> p_free n (fst s) = Ok h -> h_cells h = [] ->
      x_roomy_run n (q0, []) l = true -> Forall (fun k => match k with XObj _ => True | _ => False end) l -> HeapSpec.holds m r ->
      exists w0 m0 x m1 m2 m3,
        w_make cap minpart maxsplit ds m = Ok (w0, m0) /\ hx_run n (w0, []) l m0 = Ok ((rs, x), m1) /\
        w_free n (fst x) m1 = Ok ((h, []), m2) /\ release (snd x) m2 = Ok (tt, m3) /\ HeapSpec.holds m3 r).
Proof.
  intros C. destruct (C 1 0 1000 case_ds 40%nat added_twice [RNone; RNone; RNone; RNone] (fst x_start) (fst x_start, [IGone])
    (match p_free 40 (fst x_start) with Ok h => h | _ => mkH 0 [] end) (mkLedger 1 []) []) as (w0 & m0 & x & m1 & m2 & m3 & E0 & E1 & E2 & E3 & H).
  - vm_compute. reflexivity.
  - vm_compute. reflexivity.
  - vm_compute. reflexivity.
  - vm_compute. reflexivity.
  - vm_compute. reflexivity.
  - repeat constructor.
  - repeat split; constructor.
  - vm_compute in E0. injection E0 as <- <-. vm_compute in E1. injection E1 as <- <-. vm_compute in E2. injection E2 as <-. vm_compute in E3. injection E3 as <-.
    destruct H as (_ & P & _). apply Permutation_length in P. discriminate P.
Qed.
Print Assumptions C65_added_twice_refuted.
