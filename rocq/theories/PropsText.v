(** Properties of the texts of expressions and events.

    [flex] (LexSpec.v) is what flex promises for a list of rules: longest match, then first rule.
    [derives] (Grammar.v) is the grammar of expressions with its precedences, [g_expr] without
    them; [e_event] (EventGrammar.v) the grammar of events.  [reads s e] (TextHist.v) says that the
    text s has tokens that derive e. *)
From Coq Require Import ZArith NArith Ascii String Bool List Permutation.
From Verif Require Import Base Float Value Ast Config Assign Special Match Bound Tree PredMap Source Api Spec TreeSpec Hist Check Cases.
From Verif Require Import AnswerProofs Lexer LexSpec LexProofs TextProofs Grammar EventText EventGrammar TextApi TextHist TextLink.
From Verif Require Parser ParseProofs EventProofs.
From Verif Require Import PropsSearch.
Import ListNotations.
Local Open Scope Z_scope.
Local Open Scope string_scope.

(** ** C39: the scanners *)
(** Every text has exactly one sequence of tokens, the one [lex] computes. *)
Theorem C39_expression_tokens : forall s ts, lex s = ts <-> flex expr_rules s ts.
Proof. exact lex_iff. Qed.
Print Assumptions C39_expression_tokens.
Theorem C39_event_tokens : forall s ts, elex s = ts <-> flex event_rules s ts.
Proof. exact elex_iff. Qed.
Print Assumptions C39_event_tokens.
(** Spelled tokens with any blanks between them are read back, up to the text z that follows. *)
Theorem C39_expression_spelling : forall z ts s,
  text_then expr_lexicon z ts s -> lex s = (ts ++ lex z)%list.
Proof. exact lex_text_then. Qed.
Print Assumptions C39_expression_spelling.
Theorem C39_event_spelling : forall z ts s,
  text_then event_lexicon z ts s -> elex s = (ts ++ elex z)%list.
Proof. exact elex_text_then. Qed.
Print Assumptions C39_event_spelling.
(** A character that starts no token ends the text: the rest is not read. *)
Theorem C39_foreign_character_ends : forall c s,
  (foreign expr_lexicon c = true -> lex (String c s) = []) /\
  (foreign event_lexicon c = true -> elex (String c s) = []).
Proof. split; [apply lex_foreign|apply elex_foreign]. Qed.
Print Assumptions C39_foreign_character_ends.
Example C39_case :
  lex "not in-stock<=-3.50 and x1 not in('a', ""b,"")"
    = [KNotIn; KMinus; KIdent "stock"; KLe; KMinus; KFlt (SpecFloat.binary_normalize prec64 emax64 7 (-1) false); KAnd; KIdent "x1"; KNotIn; KLParen;
       KStr "a"; KComma; KStr "b,"; KRParen]
  /\ elex "{ ""a"" : [1,-20] , 'b':null}"
    = [JLCu; JStr "a"; JColon; JLSq; JInt 1; JComma; JMinus; JInt 20; JRSq; JComma; JStr "b"; JColon; JNull; JRCu]
  /\ foreign expr_lexicon "@" = true /\ foreign event_lexicon "@" = true
  /\ lex "a = 1 @ b" = [KIdent "a"; KEq; KInt 1].
Proof. vm_compute. repeat split. Qed.

(** ** C40: the grammar of expressions *)
(** The parser accepts a sequence of tokens exactly when the grammar with its precedences derives
    a syntax tree, and returns that tree. *)
Theorem C40_parser_grammar : forall ts e, Parser.parse_tokens ts = Some e <-> derives LOr ts e.
Proof. exact ParseProofs.parse_tokens_iff. Qed.
Print Assumptions C40_parser_grammar.
Theorem C40_unambiguous : forall ts e e', derives LOr ts e -> derives LOr ts e' -> e = e'.
Proof. exact ParseProofs.derives_fun. Qed.
Print Assumptions C40_unambiguous.
(** The precedences refuse no sentence of the grammar and give one of its trees. *)
Theorem C40_sentences : forall ts,
  (exists e, g_expr ts e) <-> (exists e, Parser.parse_tokens ts = Some e /\ g_expr ts e).
Proof.
  intros ts. split.
  - intros [x H]. destruct (ParseProofs.expr_derives _ _ H) as [y Hy]. exists y.
    split; [now apply ParseProofs.parse_tokens_iff|]. eapply ParseProofs.derives_expr; eauto.
  - intros (e & _ & H). eauto.
Qed.
Print Assumptions C40_sentences.
(** `not` binds tighter than `and`, `and` tighter than `or`. *)
Theorem C40_precedence : forall a b c x y z,
  derives LUn a x -> derives LUn b y -> derives LUn c z ->
  Parser.parse_tokens (KNot :: a ++ KAnd :: b ++ KOr :: c) = Some (mk_or (mk_and (mk_not x) y) z)
  /\ Parser.parse_tokens (a ++ KOr :: KNot :: b ++ KAnd :: c) = Some (mk_or x (mk_and (mk_not y) z)).
Proof.
  intros a b c x y z Ha Hb Hc. split; apply ParseProofs.parse_tokens_iff.
  - replace (KNot :: a ++ KAnd :: b ++ KOr :: c)%list with (((KNot :: a) ++ KAnd :: b) ++ KOr :: c)%list
      by (cbn [app]; now rewrite <- app_assoc).
    apply d_or; [|now apply d_and_un]. apply d_or_and, d_and; [|easy]. now apply d_and_un, d_not.
  - change (a ++ KOr :: KNot :: b ++ KAnd :: c)%list with (a ++ KOr :: ((KNot :: b) ++ KAnd :: c))%list.
    apply d_or; [now apply d_or_and, d_and_un|]. apply d_and; [|easy]. now apply d_and_un, d_not.
Qed.
Print Assumptions C40_precedence.
Definition case_text : string := "i > 3 and (s = 'x' or not b) || 12 >= i and il one of (1, -2)".
Definition case_text_src : src :=
  XOr (XAnd (XAtom (ACmp CGt "i" (CInt 3))) (XOr (XAtom (AEq QEq "s" (SStr "x"))) (XNot (XAtom (AVar "b")))))
      (XAnd (XAtom (ACmp CLe "i" (CInt 12))) (XAtom (AList LOneOf "il" (SInts [1; -2])))).
Example C40_case :
  Parser.parse_tokens (lex case_text) = Some (build case_text_src)
  /\ Parser.parse_tokens (lex "i > 3 and") = None /\ Parser.parse_tokens (lex "i = ") = None
  /\ Parser.parse_tokens (lex "il one of ()") = None /\ Parser.parse_tokens (lex "a b") = None.
Proof. vm_compute. repeat split. Qed.

(** ** C41: the grammar of events *)
(** The parser of events accepts the sentences of the grammar and returns their variables without
    those that are null. *)
Theorem C41_event_grammar : forall ts vs,
  event_tokens ts = Some vs <->
  exists l, e_event ts l /\ vs = filter (fun p => match snd p with Some _ => true | None => false end) l.
Proof. exact EventProofs.event_tokens_iff. Qed.
Print Assumptions C41_event_grammar.
Theorem C41_event_text : forall s vs, event_parse s = Some vs <-> reads_event s vs.
Proof. exact parse_reads_event. Qed.
Print Assumptions C41_event_text.
Definition case_event_text : string :=
  "{""i"": 9, ""now"":100, ""s"":""x"", 'il':[5, -2], ""sl"": [], ""f"": null, ""segments_with_timestamp"": [[3, 90000000]]," ++
  " ""frequency_caps"": [[""flight"", 20, ""ns"", 9, 0], [[""flight"", 21, ""ns""], 1, 0]]}".
Definition case_event : event :=
  [("i", Some (VInt 9)); ("now", Some (VInt 100)); ("s", Some (VStr (mk_str "x"))); ("il", Some (VIntList [5; -2]));
   ("sl", Some (VIntList [])); ("segments_with_timestamp", Some (VSegs [mkSeg 3 90000000]));
   ("frequency_caps", Some (VFreqs [mkCap FTFlight 20 (mk_str "ns") true 0 9; mkCap FTFlight 21 (mk_str "ns") true 0 1]))].
Example C41_case :
  event_parse case_event_text = Some case_event
  /\ event_parse "{}" = Some [] /\ event_parse "{""a"": [1, ""b""]}" = None /\ event_parse "{""a"": }" = None
  /\ event_parse "" = None.
Proof. vm_compute. repeat split. Qed.

(** ** C42: calls with texts *)
(** A text that spells tokens of the source expression x, in any of the ways the grammar allows,
    does what x does. *)
Theorem C42_spelled : forall ts x s,
  derives LOr ts (build x) -> text_of expr_lexicon ts s -> reads s (build x).
Proof. intros ts x s Hd Ht. exists ts. split; [|easy]. apply lex_iff. now apply lex_text. Qed.
Print Assumptions C42_spelled.
Theorem C42_calls_with_texts : forall t id cs s x, reads s (build x) ->
  insert_text t id cs s = betree_insert_with_constants t id cs x
  /\ make_sub_text t id cs s = betree_make_sub t id cs x
  /\ change_boundaries_text t s = bind (betree_change_boundaries t x) (fun t' => Ok (true, t')).
Proof.
  intros. split; [|split]; [now apply insert_text_src|now apply make_text_src|now apply change_text_src].
Qed.
Print Assumptions C42_calls_with_texts.
(** Every history of calls with texts is a history of calls with source expressions. *)
Theorem C42_histories : forall m ds t pend log, treach_in m ds t pend log -> reach_in m ds t pend log.
Proof. exact @treach_reach. Qed.
Print Assumptions C42_histories.
(** The answers of C01 and C06 with texts all the way. *)
Theorem C42_search_text : forall (G : Geo) m ds t pend log s ev,
  treach_in m ds t pend log -> few_preds t -> reads_event s ev -> event_ok ds ev -> complete ds ev -> fair m t ev log ->
  exists r, search_text t s make_report = Ok (true, r) /\ Permutation (r_subs r) (hits ev log).
Proof.
  intros G m ds t pend log s ev HT HF HS HE HC FA. apply treach_reach in HT. apply parse_reads_event in HS.
  unfold search_text. rewrite HS. eapply search_exact; eauto.
Qed.
Print Assumptions C42_search_text.
Theorem C42_exists_text : forall (G : Geo) m ds t pend log s ev,
  treach_in m ds t pend log -> few_preds t -> reads_event s ev -> event_ok ds ev -> complete ds ev -> fair m t ev log ->
  exists b, exists_text t s = Ok b /\ (b = true <-> hits ev log <> []).
Proof.
  intros G m ds t pend log s ev HT HF HS HE HC FA. apply treach_reach in HT. apply parse_reads_event in HS.
  unfold exists_text. rewrite HS.
  destruct (exists_agrees ds t pend log ev HT HF HE HC) as (b & r & H1 & H2 & H3).
  destruct (search_exact ds t pend log ev HT HF HE HC FA) as (r' & H4 & H5).
  assert (r' = r) as -> by congruence. exists b. split; [easy|]. rewrite H3.
  split; intros H K; apply H.
  - rewrite K in H5. now apply Permutation_nil, Permutation_sym.
  - rewrite K in H5. now apply Permutation_nil.
Qed.
Print Assumptions C42_exists_text.

(** A history with texts: two insertions, a refused text, a subscription made and inserted, a
    widened range. *)
Definition tree_of {A} (r : result (A * betree)) : betree := match r with Ok (_, t) => t | _ => make_tree 0 0 0 [] end.
Definition case_x0 : betree := Eval vm_compute in make_tree 1 0 1000 case_ds.
Definition case_x1 : betree := Eval vm_compute in tree_of (insert_text case_x0 1 [] case_text).
Definition case_x2 : betree := Eval vm_compute in tree_of (insert_text case_x1 2 case_cs "within_frequency_cap('flight',""ns"", 10 ,100)").
Definition case_x3 : option sub * betree :=
  Eval vm_compute in match make_sub_text case_x2 3 [] "i=9 and 'a' not in sl" with Ok r => r | _ => (None, case_x2) end.
Definition case_x3s : sub := Eval vm_compute in match fst case_x3 with Some s => s | None => case_made_sub end.
Definition case_x3t : betree := Eval vm_compute in snd case_x3.
Definition case_x4 : betree := Eval vm_compute in tree_of (change_boundaries_text case_x3t "40 > i").
Definition case_x5 : betree := Eval vm_compute in match betree_insert_sub case_x4 case_x3s with Ok t => t | _ => case_x4 end.
Definition case_text_log : list entry :=
  [mkE 1 [] case_text_src; mkE 2 case_cs (XAtom (AFreq "flight" "ns" 10 100));
   mkE 3 [] (XAnd (XAtom (AEq QEq "i" (SInt 9))) (XAtom (AHas SNotIn (SStr "a") "sl")))].
Ltac read := apply parse_reads; vm_compute; reflexivity.
Lemma case_treach : treach case_ds case_x5 [] case_text_log.
Proof.
  apply (tr_insert_sub _ case_x4 [] [] [mkE 1 [] case_text_src; mkE 2 case_cs (XAtom (AFreq "flight" "ns" 10 100))] case_x3s
    (mkE 3 [] (XAnd (XAtom (AEq QEq "i" (SInt 9))) (XAtom (AHas SNotIn (SStr "a") "sl"))))); [|vm_compute; reflexivity].
  apply (tr_change _ case_x3t _ _ "40 > i" (XAtom (ACmp CLt "i" (CInt 40))) true); [|read|fact|fact|vm_compute; reflexivity|fact].
  apply (tr_make _ case_x2 [] _ 3 [] "i=9 and 'a' not in sl"); [|read|fact|fact|vm_compute; reflexivity|fact].
  apply (tr_refused _ case_x2 [] _ 7 [] "i = "); [|vm_compute; reflexivity].
  apply (tr_insert _ case_x1 [] [_] 2 case_cs "within_frequency_cap('flight',""ns"", 10 ,100)"); [|read|fact|fact|vm_compute; reflexivity].
  apply (tr_insert _ case_x0 [] [] 1 [] case_text); [|read|fact|fact|vm_compute; reflexivity].
  apply (tr_init _ 1 0 1000); [apply decls_ok_b_ok; vm_compute; reflexivity|split; vm_compute; congruence|fact].
Qed.
Example C42_case :
  treach case_ds case_x5 [] case_text_log /\ few_preds case_x5
  /\ reads_event case_event_text case_event /\ event_ok case_ds case_event /\ complete case_ds case_event
  /\ fair NoSplit case_x5 case_event case_text_log /\ hits case_event case_text_log = [1; 2; 3]
  /\ same_ids (answer (search_text case_x5 case_event_text make_report)) [1; 2; 3] = true
  /\ same_ids (answer (search_text case_x5 "{""i"":4,""now"":100,""b"":true,""frequency_caps"":[]}" make_report)) [2] = true.
Proof.
  split; [exact case_treach|]. split; [fact|]. split; [apply parse_reads_event; vm_compute; reflexivity|]. facts.
Qed.

(** ** C43: accepted and refused texts *)
(** A text the grammar does not derive is refused and changes nothing; an event the grammar does not
    derive ends the process. *)
Theorem C43_unreadable_text : forall t id cs s, (forall e, ~ reads s e) ->
  insert_text t id cs s = Ok (false, t) /\ make_sub_text t id cs s = Ok (None, t)
  /\ change_boundaries_text t s = Ok (false, t).
Proof.
  intros. split; [|split]; [now apply insert_text_unread|now apply make_text_unread|now apply change_text_unread].
Qed.
Print Assumptions C43_unreadable_text.
Theorem C43_unreadable_event : forall (G : Geo) t s r, (forall ev, ~ reads_event s ev) ->
  search_text t s r = Abort /\ exists_text t s = Abort.
Proof. intros G t s r H. apply parse_unread_event in H. unfold search_text, exists_text. now rewrite H. Qed.
Print Assumptions C43_unreadable_event.
(** Whatever the reason of a refusal, the tree is unchanged. *)
Theorem C43_refused_unchanged : forall t id cs s t', insert_text t id cs s = Ok (false, t') -> t' = t.
Proof. exact insert_text_refused. Qed.
Print Assumptions C43_refused_unchanged.
(** The text of a subscription that was made is a source expression. *)
Theorem C43_made_text : forall t id cs s m t', make_sub_text t id cs s = Ok (Some m, t') ->
  exists x, reads s (build x) /\ betree_make_sub t id cs x = Ok (Some m, t').
Proof. exact make_text_read. Qed.
Print Assumptions C43_made_text.
(** So is the text of a subscription that was inserted, unless it tests one variable for membership
    in another. *)
Theorem C43_inserted_text : forall t id cs s t', insert_text t id cs s = Ok (true, t') ->
  (exists x, reads s (build x) /\ betree_insert_with_constants t id cs x = Ok (true, t'))
  \/ (exists e op v w, reads s e /\ In (PSet op (SLVar v) (SRVar w)) (expr_leaves e)).
Proof.
  intros t id cs s t' H. apply insert_text_read in H. destruct H as [H|(e & p & H1 & H2 & H3)]; [now left|].
  right. destruct p; try discriminate. destruct l, r; try discriminate. eauto 6.
Qed.
Print Assumptions C43_inserted_text.
Example C43_case :
  (forall e, ~ reads "i = and" e) /\ (forall ev, ~ reads_event "{""i"": 1" ev)
  /\ insert_text case_x1 5 [] "unknown > 2" = Ok (false, case_x1)
  /\ match make_sub_text case_x1 5 [] "i in il" with Ok (None, _) => True | _ => False end
  /\ match make_sub_text case_x1 5 [] "i in (1)" with Ok (Some _, _) => True | _ => False end
  /\ make_sub_text case_x1 5 [] "1 in (1)" = Abort
  /\ match insert_text case_x1 5 [] "i in (1)" with Ok (true, _) => True | _ => False end.
Proof.
  split; [apply parse_unread; vm_compute; reflexivity|]. split; [apply parse_unread_event; vm_compute; reflexivity|].
  vm_compute. repeat split.
Qed.
