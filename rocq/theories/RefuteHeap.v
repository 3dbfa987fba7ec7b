(** Claims about memory that fail. *)
From Coq Require Import ZArith NArith Ascii String Bool List Lia Permutation.
From Verif Require Import Base Ast Lexer LexSpec Flex FlexTables Bison BisonTables Ledger HeapExpr HeapSpec.
Import ListNotations.
Local Open Scope Z_scope.
Local Open Scope string_scope.

(** After reading a text and releasing the result, if there is one, the memory is as before: not for texts that are refused.
    The first loses a name, the second a whole expression that was already stored in *root. *)
Theorem C60_unreadable_refuted :
  ~ (forall text m l o m1, all_chars (fun c => negb (Ascii.eqb c zero)) text = true -> holds m l -> h_parse text m = Ok (o, m1) ->
      exists m2, match o with Some e => h_free e m1 | None => Ok (tt, m1) end = Ok (tt, m2) /\ holds m2 l).
Proof.
  intros C. destruct (C "a >" (mkLedger 1 []) [] None (mkLedger 2 [1]) eq_refl) as (m2 & E & H).
  - repeat split; constructor.
  - vm_compute. reflexivity.
  - injection E as <-. destruct H as (_ & P & _). apply Permutation_length in P. discriminate P.
Qed.
Print Assumptions C60_unreadable_refuted.
Example C60_unreadable_case :
  (exists m lb e, h_xxparse (lex "a = 1 b") (mkLedger 1 []) = Ok (lb, m) /\ lb_out lb = Rejected /\ lb_root lb = Some e /\
     er_expr e = mk_leaf (PEq QEq (mk_var "a") (QInt 1)) /\ blocks e = [2; 3] /\ l_live m = [4; 3; 2]) /\
  parse_c "a = 1 b" = Ok None.
Proof. split; [|vm_compute; reflexivity]. eexists _, _, _. split; [vm_compute; reflexivity|]. repeat split. Qed.
