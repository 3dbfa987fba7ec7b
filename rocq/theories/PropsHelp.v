(** Definitions of variables in text form: theorems. *)
From Coq Require Import ZArith NArith String Ascii Bool List Decimal DecimalString Floats.SpecFloat.
From Verif Require Import Base Float Value Ast Config Assign Special Match Bound Tree PredMap Source Api Spec FloatSpec TreeSpec Hist Check Cases.
From Verif Require Import Lexer LexSpec Helper HelpSpec HelpProofs.
Import ListNotations.
Local Open Scope Z_scope.
Local Open Scope string_scope.

(** ** C48 *)
(** A line of fields joined by bars, with or without an end of line, declares the variable it defines (HelpSpec.v). *)
Theorem C48_line : forall t l d e, defines_var l d -> e = "" \/ e = String c_nl "" ->
  add_variable_from_string t (fields l ++ e) = Ok (betree_declare t d).
Proof. exact line_ok. Qed.
Print Assumptions C48_line.

(** A tree set up from lines is the tree with the defined variables: all histories may start with it. *)
Theorem C48_setup : forall cap minpart maxsplit ls ds,
  Forall2 (fun s d => exists l e, s = fields l ++ e /\ (e = "" \/ e = String c_nl "") /\ defines_var l d) ls ds ->
  add_lines (make_tree cap minpart maxsplit []) ls = Ok (make_tree cap minpart maxsplit ds).
Proof. intros cap minpart maxsplit ls ds. exact (lines_ok cap minpart maxsplit ls [] ds). Qed.
Print Assumptions C48_setup.

(** An unknown type ends the process; a line with fewer than three fields is undefined behaviour. *)
Theorem C48_unknown_type : forall t name type u l e, Forall plain_field (name :: type :: u :: l) -> e = "" \/ e = String c_nl "" ->
  ~ In type ["integer"; "float"; "boolean"; "frequency"; "segments"; "string"; "integer enum"; "integer list"; "string list"] ->
  add_variable_from_string t (fields (name :: type :: u :: l) ++ e) = Abort.
Proof. exact unknown_type. Qed.
Print Assumptions C48_unknown_type.
Theorem C48_missing_field : forall t l e, Forall plain_field l -> (List.length l < 3)%nat -> e = "" \/ e = String c_nl "" ->
  add_variable_from_string t (fields l ++ e) = UB.
Proof. exact missing_field. Qed.
Print Assumptions C48_missing_field.

(** The nearest double is one double: the reading of a decimal text is fixed by its value. *)
Theorem C44_nearest_is_one : forall f g N D, 0 < D -> 0 <= N -> rounded f N D -> rounded g N D -> f = g.
Proof. exact rounded_unique. Qed.
Print Assumptions C44_nearest_is_one.

Ltac field_fact := split; [discriminate|reflexivity].
Lemma text_21 : int_text "21" 21. Proof. exact (it_plus (D2 (D1 Nil)) ltac:(discriminate) ltac:(vm_compute; congruence)). Qed.
Lemma text_m5 : int_text "-5" (-5). Proof. exact (it_minus (D5 Nil) ltac:(discriminate) ltac:(vm_compute; congruence)). Qed.
Lemma text_5 : int_text "5" 5. Proof. exact (it_plus (D5 Nil) ltac:(discriminate) ltac:(vm_compute; congruence)). Qed.
Lemma text_m2_5 : flt_text "-2.5" (S754_finite true 5629499534213120 (-51)).
Proof.
  refine (ft_minus "2.5" 25 10 (dec_flt 25 1) (dt_point (D2 Nil) (D5 Nil) ltac:(discriminate)) _ _).
  - reflexivity.
  - apply (dec_flt_rounded 25 1); [discriminate|reflexivity].
Qed.
Definition help_lines : list string :=
  [ "b|boolean|true" ++ String c_nl ""; "i|integer|false|-5|21" ++ String c_nl ""; "j|integer|true|21";
    "f|float|true|-2.5" ++ String c_nl ""; "s|string|true|5"; "ie|integer enum|false"; "il|integer list|true|-5|21"; "sl|string list|no|21";
    "frequency_caps|frequency|true"; "now|integer|false"; "segments_with_timestamp|segments|true" ++ String c_nl "" ].
Definition help_ds : list domain :=
  [ mkD "b" (BBool false true) true; mkD "i" (BInt false (-5) 21) false; mkD "j" (BInt false 21 INT64_MAX) true;
    mkD "f" (BFloat (S754_finite true 5629499534213120 (-51)) DBL_MAX) true; mkD "s" (BStr TStr 0 4) true;
    mkD "ie" (BStr TIEnum 0 (SIZE_MAX - 1)) false; mkD "il" (BInt true (-5) 21) true; mkD "sl" (BStr TStrList 0 20) false;
    mkD "frequency_caps" BFreqs true; mkD "now" (BInt false INT64_MIN INT64_MAX) false; mkD "segments_with_timestamp" BSegs true ].
Example C48_case :
  Forall2 (fun s d => exists l e, s = fields l ++ e /\ (e = "" \/ e = String c_nl "") /\ defines_var l d) help_lines help_ds
  /\ add_lines (make_tree 3 0 1000 []) help_lines = Ok (make_tree 3 0 1000 help_ds)
  /\ add_variable_from_string (make_tree 3 0 1000 []) "x|number|true" = Abort
  /\ add_variable_from_string (make_tree 3 0 1000 []) "x|integer" = UB.
Proof.
  split; [|repeat split; vm_compute; reflexivity].
  assert (forall name type u l b e s, s = fields (name :: type :: u :: l) ++ e -> (e = "" \/ e = String c_nl "") ->
    Forall plain_field (name :: type :: u :: l) -> (List.length l <= 2)%nat -> defines type l b ->
    exists l' e', s = fields l' ++ e' /\ (e' = "" \/ e' = String c_nl "") /\ defines_var l' (mkD name b (String.eqb u "true"))) as K.
  { intros name type u l b e s E He F N D. exists (name :: type :: u :: l)%list, e. split; [exact E|]. split; [exact He|]. now constructor. }
  unfold help_lines, help_ds. repeat apply Forall2_cons; try apply Forall2_nil.
  all: [> eapply (K "b" "boolean" "true" [] _ (String c_nl "")) | eapply (K "i" "integer" "false" ["-5"; "21"] _ (String c_nl ""))
        | eapply (K "j" "integer" "true" ["21"] _ "") | eapply (K "f" "float" "true" ["-2.5"] _ (String c_nl ""))
        | eapply (K "s" "string" "true" ["5"] _ "") | eapply (K "ie" "integer enum" "false" [] _ "")
        | eapply (K "il" "integer list" "true" ["-5"; "21"] _ "") | eapply (K "sl" "string list" "no" ["21"] _ "")
        | eapply (K "frequency_caps" "frequency" "true" [] _ "") | eapply (K "now" "integer" "false" [] _ "")
        | eapply (K "segments_with_timestamp" "segments" "true" [] _ (String c_nl "")) ].
  all: try reflexivity; try (now left); try (now right); try (repeat apply Forall_cons; try apply Forall_nil; field_fact);
    try (cbn [List.length]; auto; fail).
  - apply df_bool.
  - exact (df_int_between _ _ _ _ text_m5 text_21).
  - exact (df_int_from _ _ text_21).
  - exact (df_float_from _ _ text_m2_5).
  - exact (df_str_most "5" 5 [] text_5 eq_refl).
  - exact df_ienum.
  - exact (df_ints_between _ _ _ _ text_m5 text_21).
  - exact (df_strs_most "21" 21 [] text_21 eq_refl).
  - apply df_freq.
  - exact df_int.
  - apply df_segs.
Qed.
