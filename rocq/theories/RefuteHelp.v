(** Counterexamples about definitions of variables. *)
From Coq Require Import ZArith NArith String Ascii Bool List.
From Verif Require Import Base Float Value Ast Config Assign Special Match Bound Tree PredMap Source Api Spec FloatSpec TreeSpec Hist Lexer LexSpec Helper HelpSpec.
Import ListNotations.
Local Open Scope Z_scope.
Local Open Scope string_scope.

(** An empty field does not count: without a lower end, the upper end is taken for the lower one. *)
Theorem C48_empty_field_refuted : forall t,
  add_variable_from_string t "i|integer|true||21" = Ok (betree_declare t (mkD "i" (BInt false 21 INT64_MAX) true)).
Proof. reflexivity. Qed.
Print Assumptions C48_empty_field_refuted.

(** At most no string: any number of strings. *)
Theorem C48_no_string_refuted : forall t,
  add_variable_from_string t "s|string|true|0" = Ok (betree_declare t (mkD "s" (BStr TStr 0 SIZE_MAX) true)).
Proof. reflexivity. Qed.
Print Assumptions C48_no_string_refuted.

(** A carriage return before the end of the line belongs to the field: the variable is required. *)
Theorem C48_carriage_return_refuted : forall t,
  add_variable_from_string t ("b|boolean|true" ++ String (ascii_of_N 13) (String c_nl "")) = Ok (betree_declare t (mkD "b" (BBool false true) false)).
Proof. reflexivity. Qed.
Print Assumptions C48_carriage_return_refuted.

(** An integer list with a lower end only has no ends at all. *)
Theorem C48_list_from_refuted : forall t,
  add_variable_from_string t "il|integer list|true|5" = Ok (betree_declare t (mkD "il" (BInt true INT64_MIN INT64_MAX) true)).
Proof. reflexivity. Qed.
Print Assumptions C48_list_from_refuted.

(** Text that is no number gives the end 0. *)
Theorem C48_no_number_refuted : forall t,
  add_variable_from_string t "i|integer|true|low|high" = Ok (betree_declare t (mkD "i" (BInt false 0 0) true)).
Proof. reflexivity. Qed.
Print Assumptions C48_no_number_refuted.
