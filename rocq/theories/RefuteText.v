(** Statements about texts that the model refutes, each with a concrete text. *)
From Coq Require Import ZArith NArith Ascii String Bool List.
From Verif Require Import Base Float Value Ast Config Assign Special Match Bound Tree PredMap Source Api Spec TreeSpec Hist Check Cases.
From Verif Require Import Lexer LexSpec LexProofs Grammar EventText EventGrammar TextApi TextHist TextLink.
From Verif Require Parser.
From Verif Require Import PropsSearch PropsText.
Import ListNotations.
Local Open Scope Z_scope.
Local Open Scope string_scope.

Definition case_two : betree := Eval vm_compute in tree_of (insert_text case_x0 1 [] "i in il").
(** "A text whose insertion succeeds is a source expression, and searches go on working": one
    variable `in` another is inserted, and the search that evaluates it ends the process (ast.c
    808-810). *)
Theorem C43_two_variables_refuted :
  exists t t' s ev, insert_text t 1 [] s = Ok (true, t') /\ (forall x, ~ reads s (build x))
    /\ reads_event ev [("i", Some (VInt 9)); ("il", Some (VIntList [9])); ("now", Some (VInt 100))]
    /\ search_text t ev make_report = Ok (true, make_report)
    /\ search_text t' ev make_report = Abort.
Proof.
  exists case_x0.
  exists case_two, "i in il".
  exists "{""i"": 9, ""il"": [9], ""now"": 100}".
  split; [vm_compute; reflexivity|]. split.
  { intros x H. apply parse_reads in H.
    assert (Parser.parse "i in il" = Some (mk_leaf (PSet SIn (SLVar (mk_var "i")) (SRVar (mk_var "il"))))) as E
      by (vm_compute; reflexivity).
    rewrite E in H. injection H as H. discriminate (build_odd x (PSet SIn (SLVar (mk_var "i")) (SRVar (mk_var "il")))).
    rewrite <- H. now left. }
  split; [apply parse_reads_event; vm_compute; reflexivity|]. split; vm_compute; reflexivity.
Qed.
Print Assumptions C43_two_variables_refuted.

(** "A text that is accepted was read to its end": what follows a character that starts no token is
    ignored, so `i = 1 & b` is `i = 1` (lexer.l 73). *)
Theorem C39_text_read_to_its_end_refuted :
  exists s e, (forall e', reads (s ++ " & b") e' <-> e' = e) /\ reads s e
    /\ reads_event "{""i"":1}@}" [("i", Some (VInt 1))].
Proof.
  exists "i = 1", (build (i_eq 1)). split; [|split].
  - intros e'. split.
    + intros H. apply parse_reads in H. assert (Parser.parse ("i = 1" ++ " & b") = Some (build (i_eq 1))) as E
        by (vm_compute; reflexivity). congruence.
    + intros ->. apply parse_reads. vm_compute. reflexivity.
  - apply parse_reads. vm_compute. reflexivity.
  - apply parse_reads_event. vm_compute. reflexivity.
Qed.
Print Assumptions C39_text_read_to_its_end_refuted.

(** "Blanks between words do not matter": the keywords of two words have exactly one space in them
    (lexer.l 54-58, 64-66). *)
Theorem C39_blanks_in_keywords_refuted :
  exists s s' e, reads s e /\ (forall e', ~ reads s' e')
    /\ s = "i not in (1)" /\ s' = "i not  in (1)".
Proof.
  exists "i not in (1)", "i not  in (1)". eexists. split; [apply parse_reads; vm_compute; reflexivity|].
  split; [|easy]. apply parse_unread. vm_compute. reflexivity.
Qed.
Print Assumptions C39_blanks_in_keywords_refuted.

(** "`not` may stand before any variable": before one whose name starts with `in` it is read as `not in`. *)
Theorem C40_not_before_name_refuted :
  exists x e, ident_ok expr_lexicon x = true /\ reads x e
    /\ (forall e', ~ reads ("not " ++ x) e') /\ reads ("not (" ++ x ++ ")") (mk_not e).
Proof.
  exists "in_stock", (mk_leaf (PVar (mk_var "in_stock"))). split; [vm_compute; reflexivity|].
  split; [apply parse_reads; vm_compute; reflexivity|]. split; [apply parse_unread; vm_compute; reflexivity|].
  apply parse_reads. vm_compute. reflexivity.
Qed.
Print Assumptions C40_not_before_name_refuted.

(** "An integer literal has its value": strtoll saturates, before the sign is applied
    (lexer.l 12, parser.y 100-102). *)
Theorem C40_integer_values_refuted :
  reads "i = 9223372036854775808" (build (i_eq INT64_MAX))
  /\ reads "i = -9223372036854775808" (build (i_eq (- INT64_MAX)))
  /\ reads_event "{""i"": -9223372036854775808}" [("i", Some (VInt (- INT64_MAX)))].
Proof.
  split; [apply parse_reads; vm_compute; reflexivity|]. split; [apply parse_reads; vm_compute; reflexivity|].
  apply parse_reads_event. vm_compute. reflexivity.
Qed.
Print Assumptions C40_integer_values_refuted.

(** "A quote can be part of a string": the escape is accepted and the backslash stays in the string
    (lexer.l 6-10, 68-69). *)
Theorem C40_escaped_quote_refuted :
  exists s, s = String c_dq (String "a" (String c_bs (String c_dq (String "b" (String c_dq "")))))
    /\ lex s = [KStr (String "a" (String c_bs (String c_dq "b")))].
Proof. eexists. split; [reflexivity|]. vm_compute. reflexivity. Qed.
Print Assumptions C40_escaped_quote_refuted.

(** "An event that cannot be read is refused like an expression that cannot be read": it ends the
    process (tree.c 1814-1817). *)
Theorem C43_unreadable_event_refused_refuted :
  (forall ev, ~ reads_event "{""i"": 1,}" ev) /\ search_text case_x5 "{""i"": 1,}" make_report = Abort.
Proof. split; [apply parse_unread_event|]; vm_compute; reflexivity. Qed.
Print Assumptions C43_unreadable_event_refused_refuted.
