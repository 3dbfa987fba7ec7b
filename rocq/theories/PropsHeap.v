(** Properties of the memory of expressions. *)
From Coq Require Import ZArith NArith Ascii String Bool List Lia Permutation.
From Verif Require Import Base Float Value Ast Printer Lexer LexSpec Flex FlexTables FlexProofs Grammar Bison BisonTables BisonExpr.
From Verif Require Import Ledger HeapExpr HeapSpec PermTac LedgerProofs HeapProofs HeapParse HeapRules HeapText.
Import ListNotations.
Local Open Scope Z_scope.
Local Open Scope string_scope.
Local Open Scope list_scope.

(** C60: reading an expression uses memory as it should, for every text and every state of the memory: no released block is
    used or released again.  If the text is accepted, what is allocated afterwards is what was before and the blocks of the
    expression, each of them once; the names, lists and strings the parser made on the way are released. *)
Theorem C60_read text m l : all_chars (fun c => negb (Ascii.eqb c zero)) text = true -> holds m l ->
  exists o m', h_parse text m = Ok (o, m') /\ parse_c text = Ok (option_map er_expr o) /\
    match o with
    | Some e => holds m' (blocks e ++ l)
    | None => exists lost, holds m' (lost ++ l)
    end.
Proof.
  intros N H. destruct (h_parse_ok text (lex text) m l (x_lex_ok _ N) H) as (o & m' & E & P & Q).
  exists o, m'. split; [exact E|]. split; [exact P|]. destruct o as [e|]; [apply Q|].
  destruct Q as (lost & _ & _ & _ & Q & _). now exists lost.
Qed.
Print Assumptions C60_read.
(** Releasing it gives all of this back, whatever else happened to the memory in between. *)
Theorem C60_release e m l : holds m (blocks e ++ l) -> exists m', h_free e m = Ok (tt, m') /\ holds m' l.
Proof.
  intros H.
  destruct (free_ok e m (blocks e ++ l) l (fun _ m' => holds m' l) H ltac:(reflexivity) ltac:(intros m' H'; exact H')) as ([] & m' & E & Q).
  now exists m'.
Qed.
Print Assumptions C60_release.
Theorem C60_read_release text m l e m1 : all_chars (fun c => negb (Ascii.eqb c zero)) text = true -> holds m l ->
  h_parse text m = Ok (Some e, m1) -> exists m2, h_free e m1 = Ok (tt, m2) /\ holds m2 l.
Proof.
  intros N H E. destruct (C60_read text m l N H) as (o & m' & E' & _ & Q). rewrite E in E'. injection E' as <- <-.
  now apply C60_release.
Qed.
Print Assumptions C60_read_release.
(** A copy shares nothing: it consists of new blocks, and either of the two can be released without the other. *)
Theorem C60_copy text m l e m1 : all_chars (fun c => negb (Ascii.eqb c zero)) text = true -> holds m l ->
  h_parse text m = Ok (Some e, m1) ->
  exists x m2, h_clone e m1 = Ok (x, m2) /\ er_expr x = clone_node (er_expr e) /\ holds m2 (blocks x ++ blocks e ++ l) /\
    (forall a, In a (blocks x) -> ~ In a (blocks e ++ l)) /\
    (exists m3, h_free e m2 = Ok (tt, m3) /\ holds m3 (blocks x ++ l)) /\
    (exists m3, h_free x m2 = Ok (tt, m3) /\ holds m3 (blocks e ++ l)).
Proof.
  intros N H E. destruct (h_parse_ok text (lex text) m l (x_lex_ok _ N) H) as (o & m' & E' & _ & Q). rewrite E in E'. injection E' as <- <-.
  destruct Q as (Ne & H1). destruct (clone_ok e Ne m1 (blocks e ++ l) l H1 ltac:(reflexivity)) as (x & m2 & Ex & (Rx & Nx) & H2).
  exists x, m2. split; [exact Ex|]. split; [exact Rx|]. split; [exact H2|]. split.
  - intros a Ia Ja. destruct H2 as (_ & _ & D & _). clear - D Ia Ja. induction (blocks x) as [|b t IH]; [easy|].
    cbn [app] in D. inversion D as [|? ? D1 D2]; subst. destruct Ia as [->|Ia]; [|now apply IH]. apply D1, in_or_app. now right.
  - split; [|now apply C60_release]. apply C60_release. eapply holds_perm; [exact H2|perm].
Qed.
Print Assumptions C60_copy.
(** A text that is refused leaves blocks behind that nothing points to as soon as an identifier or a string was read: the
    tokens up to the one that does not fit.  The grammar has no %destructor. *)
Theorem C60_lost text m l : all_chars (fun c => negb (Ascii.eqb c zero)) text = true -> holds m l -> parse_c text = Ok None ->
  exists m' lost read rest, h_parse text m = Ok (None, m') /\ holds m' (lost ++ l) /\ lex text = (read ++ rest)%list /\
    (forall s, In (KStr s) read \/ In (KIdent s) read -> lost <> []) /\
    (forall t ts, xxparse (lex text) = Ok Rejected -> rest = t :: ts -> (exists s, t = KStr s \/ t = KIdent s) -> lost <> []).
Proof.
  intros N H P. destruct (h_parse_ok text (lex text) m l (x_lex_ok _ N) H) as (o & m' & E & P' & Q). rewrite P in P'.
  destruct o as [e|]; [discriminate P'|]. destruct Q as (lost & read & rest & L & H' & V1 & V2).
  exists m', lost, read, rest. split; [exact E|]. split; [exact H'|]. split; [exact L|]. split.
  - intros s I. apply V1, Exists_exists. destruct I as [I|I]; eexists; (split; [exact I|exact Logic.I]).
  - intros t ts Rj -> (s & T). apply (V2 Rj). cbn. constructor. destruct T as [-> | ->]; exact Logic.I.
Qed.
Print Assumptions C60_lost.
(** In particular when the text begins with one. *)
Theorem C60_lost_first text m l s ts : all_chars (fun c => negb (Ascii.eqb c zero)) text = true -> holds m l ->
  xxparse (lex text) = Ok Rejected -> lex text = KIdent s :: ts \/ lex text = KStr s :: ts ->
  exists m', h_parse text m = Ok (None, m') /\ (List.length l < List.length (l_live m'))%nat.
Proof.
  intros N H Rj L.
  assert (P : parse_c text = Ok None) by (unfold parse_c; rewrite (x_lex_ok _ N); cbn [bind]; rewrite Rj; reflexivity).
  destruct (C60_lost text m l N H P) as (m' & lost & read & rest & E & H' & A & V1 & V2). exists m'. split; [exact E|].
  assert (X : lost <> []).
  { destruct read as [|t read]; cbn [app] in A.
    - destruct L as [L|L]; rewrite L in A; symmetry in A; (eapply V2; [exact Rj|exact A|exists s]); [now right|now left].
    - apply (V1 s). destruct L as [L|L]; rewrite L in A; injection A as <- _; [right|left]; now left. }
  destruct H' as (_ & Pm & _). rewrite (Permutation_length Pm), app_length. destruct lost; [easy|]. cbn. lia.
Qed.
Print Assumptions C60_lost_first.

Example C60_case :
  (* three nodes, two names, a list, its array and two strings remain of 14 blocks *)
  (exists e m, h_parse "a > 1 and b in ('x', 'y')" (mkLedger 1 []) = Ok (Some e, m) /\
    holds m (blocks e) /\ List.length (blocks e) = 9%nat /\ l_next m = 15 /\
    h_free e m = Ok (tt, mkLedger 15 []) /\
    (* released twice, or used after it was released *)
    h_free e (mkLedger 15 []) = UB /\
    (exists x m2, h_clone e m = Ok (x, m2) /\ List.length (l_live m2) = 18%nat)) /\
  (* the name is lost, and the node of the comparison is *)
  (exists m, h_parse "a > 1 and" (mkLedger 1 []) = Ok (None, m) /\ l_live m = [3; 2]) /\
  (* nothing was allocated *)
  h_parse "1 >" (mkLedger 1 []) = Ok (None, mkLedger 1 []).
Proof.
  split; [|split; [eexists; split; vm_compute; reflexivity|vm_compute; reflexivity]].
  eexists _, _. split; [vm_compute; reflexivity|]. split; [|split; [reflexivity|split; [reflexivity|split; [reflexivity|split; [reflexivity|]]]]].
  - split; [reflexivity|]. cbn [l_live l_next]. match goal with |- Permutation _ ?b /\ _ => let c := eval vm_compute in b in change b with c end.
    split; [|split].
    + apply NoDup_Permutation.
      1, 2: repeat (constructor; [cbn; intuition discriminate|]); constructor.
      intros x. cbn. intuition.
    + repeat (constructor; [cbn; intuition discriminate|]); constructor.
    + repeat (constructor; [lia|]); constructor.
  - eexists _, _. split; vm_compute; reflexivity.
Qed.
