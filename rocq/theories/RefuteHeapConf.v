(** Claims about the memory of the configuration that fail. *)
From Coq Require Import ZArith NArith String Bool List Lia Permutation.
From Verif Require Import Base Value Ast Config HashMap Ledger HeapExpr HeapSpec HeapConf HeapConfSpec.
Import ListNotations.
Local Open Scope Z_scope.
Local Open Scope string_scope.
Local Open Scope list_scope.

(** The configuration can be released after any calls that ended well: not when a variable that may have no strings (bound 0)
    was the second to be given one.  The table made for it comes from brealloc and is not initialised, because
    no string is stored in it, but free_config releases what its fields point to. *)
Definition two_empty : list kop := [KDeclare (mkD "a" (dom_bounded_s 0) false); KDeclare (mkD "b" (dom_bounded_s 0) false);
  KString "a" 0 "x" false; KString "b" 1 "y" false].
Theorem C62_zero_refuted :
  ~ (forall cap minpart os nums c m l, c_run (make_config cap minpart) os = Ok (nums, c) -> holds m l ->
      exists k0 m0 k m1 m2, k_make cap minpart m = Ok (k0, m0) /\ k_run k0 os m0 = Ok ((nums, k), m1) /\ k_free k m1 = Ok (tt, m2)).
Proof.
  intros C. destruct (C 3 0 two_empty [0; 0; INVALID_STR; INVALID_STR] (snd (match c_run (make_config 3 0) two_empty with Ok x => x | _ => ([], make_config 3 0) end)) (mkLedger 1 []) [])
    as (k0 & m0 & k & m1 & m2 & E0 & E1 & E2).
  - vm_compute. reflexivity.
  - repeat split; constructor.
  - vm_compute in E0. injection E0 as <- <-. vm_compute in E1. injection E1 as <- <-. vm_compute in E2. discriminate E2.
Qed.
Print Assumptions C62_zero_refuted.
(** Neither can the next event with a string for the variable be looked at, nor the next expression read. *)
Example C62_zero_case : exists k0 m0 k m1,
  k_make 3 0 (mkLedger 1 []) = Ok (k0, m0) /\ k_run k0 two_empty m0 = Ok (([0; 0; INVALID_STR; INVALID_STR], k), m1) /\
  k_op k (KTryString 1 "y") m1 = UB /\ k_op k (KString "b" 1 "y" false) m1 = UB /\ k_free k m1 = UB /\
  (* the first table is cleared, so one such variable does no harm *)
  k_op k (KTryString 0 "x") m1 <> UB /\ c_roomy (make_config 3 0) (firstn 3 two_empty) = true /\ c_roomy (make_config 3 0) two_empty = false.
Proof. eexists _, _, _, _. split; [vm_compute; reflexivity|]. split; [vm_compute; reflexivity|]. repeat split; try (vm_compute; reflexivity). vm_compute. discriminate. Qed.
