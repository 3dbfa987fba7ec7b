(** Counterexamples about the texts of events. *)
From Coq Require Import ZArith NArith Ascii String Bool List.
From Verif Require Import Base Float Value Ast Printer Flex EventObj Ledger HeapExpr HeapEvent HeapSpec HeapEventSpec FlexBuffer HeapPrint HeapPrintSpec.
Import ListNotations.
Local Open Scope Z_scope.
Local Open Scope string_scope.
Local Open Scope list_scope.

(** Negative integers are printed as if they were unsigned. *)
Theorem C71_sign_refuted : exists e m m', h_event_parse "{""i"": -1}" (mkLedger 1 []) = Ok (Some e, m) /\ er_event e = [Some ("i", VInt (-1))] /\
  h_event_to_string e (repeat 0 25) m = Ok (bytes "i = 18446744073709551615" ++ [0], m').
Proof. eexists _, _, _. split; [vm_compute; reflexivity|]. split; vm_compute; reflexivity. Qed.
Print Assumptions C71_sign_refuted.
(** Events that can be read and searched but not printed: with an empty list, segments or caps, whatever the buffer; neither
    can the variable with the empty list. *)
Theorem C71_kinds_refuted buf :
  (exists e m, h_event_parse "{""il"": []}" (mkLedger 1 []) = Ok (Some e, m) /\ h_event_to_string e buf m = UB /\
    exists x, he_vars e = [x] /\ h_print_variable x m = UB) /\
  (exists e m, h_event_parse "{""sg"": [[1, 2]]}" (mkLedger 1 []) = Ok (Some e, m) /\ h_event_to_string e buf m = Abort) /\
  (exists e m, h_event_parse "{""fc"": [[[""flight"", 10, ""ns""], 20, 30]]}" (mkLedger 1 []) = Ok (Some e, m) /\ h_event_to_string e buf m = Abort).
Proof.
  split; [|split].
  - eexists _, _. split; [vm_compute; reflexivity|]. split; [reflexivity|]. eexists. split; reflexivity.
  - eexists _, _. split; [vm_compute; reflexivity|]. reflexivity.
  - eexists _, _. split; [vm_compute; reflexivity|]. reflexivity.
Qed.
Print Assumptions C71_kinds_refuted.
(** An event of betree_make_event of which a variable was not set. *)
Theorem C71_slot_refuted buf n : h_event_to_string (mkHE 1 2 (repeat None (S n))) buf (mkLedger 3 [1; 2]) = UB.
Proof. reflexivity. Qed.
Print Assumptions C71_slot_refuted.
