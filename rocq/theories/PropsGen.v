(** Properties of the generated scanners and parsers. *)
From Coq Require Import ZArith NArith Ascii String Bool List Floats.SpecFloat.
From Verif Require Import Base Float Value Ast Lexer LexSpec LexProofs Flex FlexTables FlexProofs Grammar Parser ParseProofs
  EventGrammar EventText EventProofs Bison BisonTables BisonSpec BisonData BisonProofs BisonExpr BisonEvent.
Import ListNotations.
Local Open Scope string_scope.

(** C54: the generated scanners return the tokens the rules of lexer.l and event_lexer.l call for, for every text: the loop of
    yylex never reads outside of its tables, never fails and never runs on. *)
Theorem C54_expr s ts : all_chars (fun c => negb (Ascii.eqb c zero)) s = true ->
  (x_lex s = Ok ts <-> flex expr_rules s ts).
Proof. intros N. rewrite (x_lex_ok s N), <- lex_iff. split; [congruence|intros ->; reflexivity]. Qed.
Print Assumptions C54_expr.
Theorem C54_event s ts : all_chars (fun c => negb (Ascii.eqb c zero)) s = true ->
  (e_lex s = Ok ts <-> flex event_rules s ts).
Proof. intros N. rewrite (e_lex_ok s N), <- elex_iff. split; [congruence|intros ->; reflexivity]. Qed.
Print Assumptions C54_event.
(** There is always a result, the one of the scanner the rest of the model uses. *)
Theorem C54_total s : all_chars (fun c => negb (Ascii.eqb c zero)) s = true -> x_lex s = Ok (lex s) /\ e_lex s = Ok (elex s).
Proof. intros N. split; [now apply x_lex_ok|now apply e_lex_ok]. Qed.
Print Assumptions C54_total.
Example C54_case :
  x_lex "not ina in ('b', 12)and is nulls 3.5 x-1 'open" =
    Ok [KNotIn; KIdent "a"; KIn; KLParen; KStr "b"; KComma; KInt 12; KRParen; KAnd; KIsNull; KIdent "s"; KFlt (dec_flt 35 1); KIdent "x-1"] /\
  e_lex "{""a"": [1, -2.5, nul" =
    Ok [JLCu; JStr "a"; JColon; JLSq; JInt 1; JComma; JMinus; JFlt (dec_flt 25 1); JComma] /\
  x_lex "" = Ok [] /\
  (* The tables matter: with one transition changed the scanner answers differently. *)
  yylex_all (mkTables x_accept x_ec x_meta x_base x_def (map (fun q => if Z.eqb q 41 then 42%Z else q) x_nxt) x_chk 197 175 41) x_actions 20 "a<>b"
    <> Ok [KIdent "a"; KNe; KIdent "b"] /\
  x_lex "a<>b" = Ok [KIdent "a"; KNe; KIdent "b"].
Proof. vm_compute. repeat split; try reflexivity. intros H; discriminate H. Qed.

(** C55: the generated parsers accept what the grammars derive.  For every list of tokens the loop of yyparse ends, reads
    nothing outside of its tables and stacks and no other member of a value than the one written.  If it accepts, the stored
    expression is the one the grammar derives with its precedences; if it rejects, there is none; it runs out of stack only on
    deep nesting. *)
Theorem C55_expr_tokens ts : exists o, xxparse ts = Ok o /\
  match o with
  | Accepted r => exists e, r = Some e /\ derives LOr ts e
  | Rejected => forall e, ~ derives LOr ts e
  | Exhausted => ~ shallow ts \/ forall e, ~ derives LOr ts e
  end.
Proof. apply xxparse_ok. Qed.
Print Assumptions C55_expr_tokens.
(** Events do not nest: their stack always suffices. *)
Theorem C55_event_tokens ts : exists o, zzparse ts = Ok o /\
  match o with
  | Accepted r => exists l, e_event ts l /\
      r = Some (flat_map (fun p => match snd p with Some v => [(fst p, v)] | None => [] end) l)
  | Rejected | Exhausted => forall l, ~ e_event ts l
  end.
Proof. destruct (zzparse_ok ts) as (o & E & H). exists o. split; [exact E|]. destruct o; exact H. Qed.
Print Assumptions C55_event_tokens.
(** Texts through the generated scanner and the generated parser: the answers of the parsers the rest of the model uses. *)
Theorem C55_parse s : all_chars (fun c => negb (Ascii.eqb c zero)) s = true -> shallow (lex s) -> parse_c s = Ok (parse s).
Proof.
  intros N D. unfold parse_c. rewrite (x_lex_ok s N). cbn [bind].
  destruct (xxparse_ok (lex s)) as (o & E & H). rewrite E. cbn [bind]. unfold parse. f_equal.
  destruct o as [r| |].
  - destruct H as (e & -> & H). symmetry. now apply parse_tokens_iff.
  - destruct (parse_tokens (lex s)) as [e|] eqn:P; [|reflexivity]. apply parse_tokens_iff in P. now apply H in P.
  - destruct H as [H|H]; [contradiction|].
    destruct (parse_tokens (lex s)) as [e|] eqn:P; [|reflexivity]. apply parse_tokens_iff in P. now apply H in P.
Qed.
Print Assumptions C55_parse.
(** At any depth an accepted text gets the expression of its grammar. *)
Theorem C55_parse_sound s e : all_chars (fun c => negb (Ascii.eqb c zero)) s = true -> parse_c s = Ok (Some e) ->
  parse s = Some e.
Proof.
  intros N P. unfold parse_c in P. rewrite (x_lex_ok s N) in P. cbn [bind] in P.
  destruct (xxparse_ok (lex s)) as (o & E & H). rewrite E in P. cbn [bind] in P.
  destruct o as [r| |]; [|discriminate P|discriminate P]. destruct H as (e' & -> & H). injection P as <-.
  unfold parse. now apply parse_tokens_iff.
Qed.
Print Assumptions C55_parse_sound.
Theorem C55_event_parse s : all_chars (fun c => negb (Ascii.eqb c zero)) s = true ->
  exists r, event_parse_c s = Ok r /\
    match r with
    | Some l => event_parse s = Some (map (fun p => (fst p, Some (snd p))) l)
    | None => event_parse s = None
    end.
Proof.
  intros N. unfold event_parse_c. rewrite (e_lex_ok s N). cbn [bind].
  destruct (zzparse_ok (elex s)) as (o & E & H). rewrite E. cbn [bind]. eexists. split; [reflexivity|].
  assert (Z : (forall l, ~ e_event (elex s) l) -> event_parse s = None).
  { intros Q. unfold event_parse. destruct (event_tokens (elex s)) as [l|] eqn:P; [|reflexivity].
    apply event_tokens_iff in P. destruct P as (l' & P & _). now apply Q in P. }
  destruct o as [r| |]; [|now apply Z|now apply Z].
  destruct H as (l & H & ->). unfold event_parse. apply event_tokens_iff. exists l. split; [exact H|].
  clear H Z E. induction l as [|(x, [v|]) l IH]; [reflexivity| |]; cbn [somes flat_map add_vars filter fst snd app map] in *.
  - f_equal. exact IH.
  - exact IH.
Qed.
Print Assumptions C55_event_parse.
(** No state has a transition on the error token: after an error the stack is emptied. *)
Theorem C55_no_recovery : ~ In 1%Z xp_check /\ ~ In 1%Z ep_check.
Proof.
  split; intros H; apply has_in in H; vm_compute in H; discriminate H.
Qed.
Print Assumptions C55_no_recovery.
Example C55_case :
  xxparse (lex "not a or b and not (c > 1)") =
    Ok (Accepted (Some (mk_or (mk_not (mk_leaf (PVar (mk_var "a"))))
      (mk_and (mk_leaf (PVar (mk_var "b"))) (mk_not (mk_leaf (PCmp CGt (mk_var "c") (CInt 1)))))))) /\
  xxparse (lex "a or (b") = Ok Rejected /\ xxparse (lex "(1, 2) in a") = Ok Rejected /\
  xxparse [] = Ok Rejected /\
  parse_c "a in ('x', 'y')" = Ok (Some (mk_leaf (PSet SIn (SLVar (mk_var "a")) (SRStrs [mk_str "x"; mk_str "y"])))) /\
  event_parse_c "{""a"": [1, -2], ""b"": null, ""c"": true}" =
    Ok (Some [("a", VIntList [1; -2]%Z); ("c", VBool true)]) /\
  event_parse_c "{""a"": [1, true]}" = Ok None /\
  shallow (lex "not a or b and not (c > 1)") /\ nesting (lex "((a or (b)) and (c))") = 3%nat.
Proof. vm_compute. repeat split; try reflexivity; intros H; discriminate H. Qed.
