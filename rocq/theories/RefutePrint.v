(** Counterexamples about texts and copies of expressions. *)
From Coq Require Import ZArith NArith String Ascii Bool List Permutation.
From Verif Require Import Base Float Value Ast Config Assign Special Match Bound Tree PredMap Source Api Spec FloatSpec TreeSpec Hist.
From Verif Require Import Lexer LexSpec Grammar Parser TextApi TextHist TextLink Printer PrintSpec Check Cases PropsText.
Import ListNotations.
Local Open Scope Z_scope.
Local Open Scope string_scope.

Lemma unread s : parse s = None -> forall e, ~ reads s e.
Proof. intros H e R. apply parse_reads in R. congruence. Qed.

(** Tests for null have a text that is no expression, and the same for all three. *)
Theorem C49_null_refuted : exists e1 e2 e3 s,
  reads "s is null" e1 /\ reads "s is not null" e2 /\ reads "s is empty" e3 /\ e1 <> e2 /\ e2 <> e3 /\ e1 <> e3
  /\ ast_to_string e1 = Ok s /\ ast_to_string e2 = Ok s /\ ast_to_string e3 = Ok s
  /\ forall e, ~ reads s e.
Proof.
  exists (build (XAtom (ANull NIsNull "s"))), (build (XAtom (ANull NIsNotNull "s"))), (build (XAtom (ANull NIsEmpty "s"))), "?s".
  split; [read|]. split; [read|]. split; [read|]. repeat (split; [discriminate || reflexivity|]).
  apply unread. vm_compute. reflexivity.
Qed.
Print Assumptions C49_null_refuted.

(** Two decimals: different bounds have the same text. *)
Theorem C49_decimals_refuted : exists a b s,
  reads "f < 0.125" a /\ reads "f < 0.12" b /\ a <> b /\ ast_to_string a = Ok s /\ ast_to_string b = Ok s.
Proof.
  exists (build (XAtom (ACmp CLt "f" (CFloat (fdiv (f_of_Z 1) (f_of_Z 8)))))),
    (build (XAtom (ACmp CLt "f" (CFloat (fdiv (f_of_Z 12) (f_of_Z 100)))))), "f < 0.12".
  split; [read|]. split; [read|]. split; [|split; vm_compute; reflexivity].
  intros E. vm_compute in E. discriminate E.
Qed.
Print Assumptions C49_decimals_refuted.

(** A string with double quotes (written between single quotes) ends at the first of them: the rest
    is read as part of the expression. *)
Theorem C49_quote_refuted : exists e e' s,
  e = build (XAtom (AEq QEq "s" (SStr "x"" or true or s = ""y")))
  /\ e' = build (XOr (XOr (XAtom (AEq QEq "s" (SStr "x"))) (XAtom (ALit true))) (XAtom (AEq QEq "s" (SStr "y"))))
  /\ reads "s = 'x"" or true or s = ""y'" e /\ ast_to_string e = Ok s /\ reads s e'.
Proof.
  eexists _, _, "s = ""x"" or true or s = ""y""". split; [reflexivity|]. split; [reflexivity|].
  split; [read|]. split; [reflexivity|]. read.
Qed.
Print Assumptions C49_quote_refuted.

(** A segment predicate without a variable is read back as one with a variable: another syntax tree. *)
Theorem C49_segment_variable_refuted : exists e e' s,
  reads "segment_within(3, 20)" e /\ ast_to_string e = Ok s /\ reads s e' /\ e <> e'.
Proof.
  exists (build (XAtom (ASeg SegWithin None 3 20))), (build (XAtom (ASeg SegWithin (Some "segments_with_timestamp") 3 20))),
    "segment_within(segments_with_timestamp, 3, 20)".
  split; [read|]. split; [reflexivity|]. split; [read|]. discriminate.
Qed.
Print Assumptions C49_segment_variable_refuted.

(** A negative segment number has the text of a large one, which is cut off when it is read. *)
Theorem C49_segment_number_refuted : exists e e' s,
  reads "segment_within(v, -1, 20)" e /\ ast_to_string e = Ok s /\ s = "segment_within(v, 18446744073709551615, 20)"
  /\ reads s e' /\ e <> e'.
Proof.
  exists (build (XAtom (ASeg SegWithin (Some "v") (-1) 20))), (build (XAtom (ASeg SegWithin (Some "v") INT64_MAX 20))),
    "segment_within(v, 18446744073709551615, 20)".
  split; [read|]. split; [vm_compute; reflexivity|]. split; [reflexivity|]. split; [read|].
  intros E. vm_compute in E. discriminate E.
Qed.
Print Assumptions C49_segment_number_refuted.

(** The least integer is read back as its successor. *)
Theorem C49_least_refuted : exists e e' s,
  ast_to_string e = Ok s /\ s = "i = -9223372036854775808" /\ e = build (XAtom (AEq QEq "i" (SInt INT64_MIN)))
  /\ reads s e' /\ e' = build (XAtom (AEq QEq "i" (SInt (INT64_MIN + 1)))).
Proof.
  eexists _, _, "i = -9223372036854775808". split; [|split; [reflexivity|]; split; [reflexivity|]; split; [|reflexivity]].
  - vm_compute. reflexivity.
  - read.
Qed.
Print Assumptions C49_least_refuted.

(** The copy of a frequency, segment or geo predicate takes the first variable for `now`, `latitude`
    and `longitude`: it can give another answer. *)
Definition copy_ds : list domain :=
  [ mkD "f" (BFloat (fopp DBL_MAX) DBL_MAX) false; mkD "latitude" (BFloat (fopp DBL_MAX) DBL_MAX) false;
    mkD "longitude" (BFloat (fopp DBL_MAX) DBL_MAX) false ].
Definition copy_ev : event := [("f", Some (VFloat (f_of_Z 50))); ("latitude", Some (VFloat (f_of_Z 1))); ("longitude", Some (VFloat (f_of_Z 1)))].
Definition copy_ops : list op := [OInsert 1 [] (XAtom (AGeo (f_of_Z 0) (f_of_Z 0) (f_of_Z 10)))].
Theorem C50_geo_refuted : exists t log s p,
  reach copy_ds t [] log /\ subs_cnode (bt_root t) = [s] /\ make_env (bt_cfg t) copy_ev = Ok p
  /\ match s_expr s with ELeaf _ l => match_leaf p l = Ok true | _ => False end
  /\ match clone_node (s_expr s) with ELeaf _ l => match_leaf p l = Ok false | _ => False end.
Proof.
  destruct (run copy_ds 3 0 1000 copy_ops) as [[[t pend] log]|] eqn:E; [|vm_compute in E; discriminate E].
  pose proof (run_reach _ _ _ _ _ _ _ _ E) as R. vm_compute in E. injection E as <- <- <-.
  eexists _, _, _, _. split; [exact R|]. split; [reflexivity|]. split; [vm_compute; reflexivity|]. split; vm_compute; reflexivity.
Qed.
Print Assumptions C50_geo_refuted.

Definition copy_now_ds : list domain :=
  [ mkD "i" (BInt false INT64_MIN INT64_MAX) false; mkD "now" (BInt false INT64_MIN INT64_MAX) false;
    mkD "segments_with_timestamp" BSegs false; mkD "frequency_caps" BFreqs false ].
Definition copy_now_ev : event :=
  [ ("i", Some (VInt 500)); ("now", Some (VInt 10)); ("segments_with_timestamp", Some (VSegs [mkSeg 3 90000000]));
    ("frequency_caps", Some (VFreqs [mkCap FTFlight 20 (str "ns") true 0 9])) ].
Definition copy_now_ops : list op := [OInsert 1 [] (XAtom (ASeg SegWithin None 3 20)); OInsert 2 [("flight_id", VInt 20)] (XAtom (AFreq "flight" "ns" 3 50))].
Theorem C50_now_refuted : exists t log s1 s2 p,
  reach copy_now_ds t [] log /\ Permutation (subs_cnode (bt_root t)) [s1; s2] /\ make_env (bt_cfg t) copy_now_ev = Ok p
  /\ match s_expr s1 with ELeaf _ l => match_leaf p l = Ok true | _ => False end
  /\ match clone_node (s_expr s1) with ELeaf _ l => match_leaf p l = Ok false | _ => False end
  /\ match s_expr s2 with ELeaf _ l => match_leaf p l = Ok false | _ => False end
  /\ match clone_node (s_expr s2) with ELeaf _ l => match_leaf p l = Ok true | _ => False end.
Proof.
  destruct (run copy_now_ds 3 0 1000 copy_now_ops) as [[[t pend] log]|] eqn:E; [|vm_compute in E; discriminate E].
  pose proof (run_reach _ _ _ _ _ _ _ _ E) as R. vm_compute in E. injection E as <- <- <-.
  eexists _, _, _, _, _. split; [exact R|]. split; [(apply Permutation_refl || apply perm_swap)|]. split; [vm_compute; reflexivity|]. repeat split; vm_compute; reflexivity.
Qed.
Print Assumptions C50_now_refuted.
