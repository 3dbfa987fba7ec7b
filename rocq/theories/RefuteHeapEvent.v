(** Claims about the memory of searches that fail. *)
From Coq Require Import ZArith NArith Ascii String Bool List Lia Permutation.
From Verif Require Import Base Float Value Ast Config Assign Bound Special Match Tree PredMap Source Api EventObj.
From Verif Require Import Ledger HeapExpr HeapSpec HeapEvent HeapEventSpec Cases.
Import ListNotations.
Local Open Scope Z_scope.
Local Open Scope string_scope.

(** After a search only the report has memory: not if the event lacks a variable that must be there. *)
Theorem C61_refused_refuted :
  ~ (forall (G : Geo) t text r m l b r' m', holds m (bl_report r ++ l) -> report_ok r -> h_search t text r m = Ok ((b, r'), m') ->
      holds m' (bl_report r' ++ l)).
Proof.
  intros C.
  specialize (C _ case_t "{}" (mkHR 1 0 make_report) (mkLedger 2 [1]) [] false (mkHR 1 0 make_report) (mkLedger 4 [3; 1])).
  destruct C as (_ & P & _).
  - repeat split; repeat constructor; intros [].
  - split; [reflexivity|easy].
  - vm_compute. reflexivity.
  - apply Permutation_length in P. discriminate P.
Qed.
Print Assumptions C61_refused_refuted.
(** After releasing an event object everything that was made for it is released: not if a variable was set twice. *)
Theorem C61_replace_refuted :
  ~ (forall e i x m l e' m1, holds m (bl_event e ++ bl_slot x ++ l) -> h_set_variable e i x m = Ok (e', m1) ->
      exists m2, h_free_event e' m1 = Ok (tt, m2) /\ holds m2 l).
Proof.
  intros C. specialize (C (mkHE 1 2 [Some (mkHY 3 (mkHV (mkHS 4 "a") 0) (HWInt 5))]) 0%N None (mkLedger 5 [4; 3; 2; 1]) []
    (mkHE 1 2 [None]) (mkLedger 5 [4; 3; 2; 1])).
  destruct C as (m2 & E & _ & P & _).
  - split; [reflexivity|]. split; [|split].
    + apply NoDup_Permutation.
      1, 2: repeat (constructor; [cbn; intuition discriminate|]); constructor.
      intros x. cbn. intuition.
    + repeat (constructor; [cbn; intuition discriminate|]); constructor.
    + repeat (constructor; [cbn; lia|]); constructor.
  - reflexivity.
  - vm_compute in E. injection E as <-. apply Permutation_length in P. discriminate P.
Qed.
Print Assumptions C61_replace_refuted.
