(** Properties of the buffer of the scanners and of its memory.

    [flex] (LexSpec.v) is what flex promises for a list of rules; [holds m l] (HeapSpec.v): l are the allocated blocks. *)
From Coq Require Import ZArith NArith Ascii String Bool List Lia Permutation.
From Verif Require Import Base Float Value Ast Lexer LexSpec LexProofs Flex FlexTables FlexProofs Grammar Bison BisonTables BisonEvent.
From Verif Require Import Ledger HeapExpr HeapEvent HeapSpec HeapEventSpec HeapRules HeapEventRules LedgerProofs FlexBuffer FlexBufferProofs HeapBuffer.
Import ListNotations.
Local Open Scope Z_scope.
Local Open Scope string_scope.
Local Open Scope list_scope.

(** C68: for every text, of every length the scanner takes, and whatever the memory of the buffer contained: the calls of
    yylex read and write only inside of the buffer and return the tokens flex promises. *)
Theorem C68_expression junk s ts : all_chars (fun c => negb (Ascii.eqb c zero)) s = true -> Z.of_nat (String.length s) <= INT_MAX - 2 ->
  (exists g g', scan_string junk s = Ok g /\ buf_all x_tables x_actions (S (String.length s)) g = Ok (ts, g')) <-> flex expr_rules s ts.
Proof.
  intros N B. destruct (x_scan_all junk s N B) as (g & g' & E1 & _ & E2). rewrite <- lex_iff. split.
  - intros (h & h' & F1 & F2). congruence.
  - intros <-. exists g, g'. now split.
Qed.
Print Assumptions C68_expression.
Theorem C68_event junk s ts : all_chars (fun c => negb (Ascii.eqb c zero)) s = true -> Z.of_nat (String.length s) <= INT_MAX - 2 ->
  (exists g g', scan_string junk s = Ok g /\ buf_all e_tables e_actions (S (String.length s)) g = Ok (ts, g')) <-> flex event_rules s ts.
Proof.
  intros N B. destruct (e_scan_all junk s N B) as (g & g' & E1 & _ & E2). rewrite <- elex_iff. split.
  - intros (h & h' & F1 & F2). congruence.
  - intros <-. exists g, g'. now split.
Qed.
Print Assumptions C68_event.
(** Reading an expression with its scanner: the four blocks of the scanner are released, whatever the parser did. *)
Theorem C68_read junk text m l : all_chars (fun c => negb (Ascii.eqb c zero)) text = true -> Z.of_nat (String.length text) <= INT_MAX - 2 ->
  holds m l ->
  exists o m', scan_and_parse junk text m = Ok (o, m') /\ parse_c text = Ok (option_map er_expr o) /\
    match o with
    | Some e => holds m' (blocks e ++ l)
    | None => exists lost read rest, holds m' (lost ++ l) /\ lex text = read ++ rest /\
        (forall s, In (KStr s) read \/ In (KIdent s) read -> lost <> [])
    end.
Proof.
  intros N B H. destruct (scan_and_parse_ok junk text m l N B H) as (o & m' & E & P & Q).
  exists o, m'. split; [exact E|]. split; [exact P|]. destruct o as [e|]; [exact Q|].
  destruct Q as (lost & read & rest & L & Hl & V & _). exists lost, read, rest. split; [exact Hl|]. split; [exact L|].
  intros s I. apply V, Exists_exists. destruct I as [I|I]; eexists; (split; [exact I|exact Logic.I]).
Qed.
Print Assumptions C68_read.
Theorem C68_read_event junk text m l : all_chars (fun c => negb (Ascii.eqb c zero)) text = true -> Z.of_nat (String.length text) <= INT_MAX - 2 ->
  holds m l ->
  exists o m', scan_and_parse_event junk text m = Ok (o, m') /\
    match o with
    | Some e => (exists vs, event_parse_c text = Ok (Some vs) /\ er_event e = map Some vs) /\ holds m' (bl_event e ++ l)
    | None => event_parse_c text = Ok None /\
        exists lost read rest, holds m' (lost ++ l) /\ elex text = read ++ rest /\
          (forall s, zzparse (elex text) = Ok Rejected -> In (JStr s) (read ++ firstn 1 rest) -> lost <> [])
    end.
Proof.
  intros N B H. destruct (scan_and_parse_event_ok junk text m l N B H) as (o & m' & E & Q).
  exists o, m'. split; [exact E|]. destruct o as [e|]; [exact Q|]. destruct Q as (P & lost & read & rest & L & H' & V). split; [exact P|].
  exists lost, read, rest. split; [exact H'|]. split; [exact L|]. intros s Rj I. apply V; [exact Rj|]. apply Exists_exists. exists (JStr s). now split.
Qed.
Print Assumptions C68_read_event.
(** The limit is exact: a longer text makes the size of the buffer overflow before anything is parsed. *)
Theorem C68_length junk text m l : holds m l -> INT_MAX - 2 < Z.of_nat (String.length text) ->
  scan_and_parse junk text m = UB /\ scan_and_parse_event junk text m = UB.
Proof.
  intros H B.
  assert (X : scan_string junk text = UB) by (unfold scan_string; now rewrite (proj2 (Z.ltb_lt _ _) B)).
  assert (Y : forall K A (T : tables) (acts : list (act K)) (p : list K -> cmd A), h_scanned T acts p junk text m = UB).
  { intros K A T acts p. unfold h_scanned, h_lex_init, then_.
    destruct (wp_malloc m l (fun a m' => holds m' (a :: l)) H ltac:(intros; assumption)) as (a & m1 & -> & H1). cbn [bind].
    destruct (wp_use m1 (a :: l) a (fun _ m' => holds m' (a :: l)) H1 ltac:(now left) H1) as ([] & m2 & -> & H2).
    cbn [bind]. unfold ret, h_scan_string, then_. cbn [bind].
    destruct (wp_malloc m2 _ (fun b m' => holds m' (b :: a :: l)) H2 ltac:(intros; assumption)) as (b & m3 & -> & H3). cbn [bind].
    destruct (wp_use m3 (b :: a :: l) b (fun _ m' => holds m' (b :: a :: l)) H3 ltac:(now left) H3) as ([] & m4 & -> & H4).
    cbn [bind]. unfold fail. rewrite X. reflexivity. }
  unfold scan_and_parse, scan_and_parse_event, then_. rewrite !Y. now split.
Qed.
Print Assumptions C68_length.

Example C68_case :
  (* the tokens, from a buffer that contained sevens; afterwards it contains the text again, before the two zeros *)
  (exists g g', scan_string 7 "ab >= -10" = Ok g /\ buf_all x_tables x_actions 10 g = Ok ([KIdent "ab"; KGe; KMinus; KInt 10], g') /\
    y_buf g' = bytes "ab >= -10" ++ [0; 0] /\ lex "ab >= -10" = [KIdent "ab"; KGe; KMinus; KInt 10]) /\
  (* between the calls the character after the last token is a zero *)
  (exists g g', scan_string 7 "ab>1" = Ok g /\ buf_lex x_tables x_actions g = Ok (Some (KIdent "ab"), g') /\
    y_buf g' = [97; 98; 0; 49; 0; 0] /\ y_hold g' = 62 /\ y_leng g' = 2%nat) /\
  (* with one zero at its end the scanner would leave the buffer *)
  buf_token x_tables (mkYY true [97; 0] 1 0 0 0 97 None) = UB /\
  buf_token x_tables (mkYY true [97; 0; 0] 1 0 0 0 97 None) = Ok (36, mkYY true [97; 0; 0] 1 1 0 1 0 (Some (3, 2%nat))) /\
  (* four blocks of the scanner and the name; the node and the copy of its name remain *)
  (exists e m, scan_and_parse 7 "a > 1" (mkLedger 1 []) = Ok (Some e, m) /\ l_next m = 8 /\ l_live m = [7; 6]) /\
  (* refused: the name is lost, the scanner is not *)
  (exists m, scan_and_parse 7 "a > " (mkLedger 1 []) = Ok (None, m) /\ l_next m = 6 /\ l_live m = [5]) /\
  (exists e m, scan_and_parse_event 7 "{'a': 1}" (mkLedger 1 []) = Ok (Some e, m) /\ Forall (fun a => 4 < a) (l_live m)).
Proof.
  split; [eexists _, _; split; [vm_compute; reflexivity|]; split; [vm_compute; reflexivity|]; split; vm_compute; reflexivity|].
  split; [eexists _, _; split; [vm_compute; reflexivity|]; split; [vm_compute; reflexivity|]; split; [vm_compute; reflexivity|]; split; vm_compute; reflexivity|].
  split; [vm_compute; reflexivity|].
  split; [vm_compute; reflexivity|].
  split; [eexists _, _; split; [vm_compute; reflexivity|]; split; vm_compute; reflexivity|].
  split; [eexists _; split; [vm_compute; reflexivity|]; split; vm_compute; reflexivity|].
  eexists _, _. split; [vm_compute; reflexivity|]. cbn. repeat constructor.
Qed.
