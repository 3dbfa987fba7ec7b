(** Properties of the scanners and the parsers running together.

    [full_parse] and [full_event_parse] (BisonStack.v) read all tokens before the parser starts, [live_parse] and
    [live_event_parse] (BisonLive.v) as the program does; [lex] and [elex] (Lexer.v) are the tokens of a text, [holds m l] (HeapSpec.v):
    l are the allocated blocks. *)
From Coq Require Import ZArith NArith Ascii String Bool List Lia Permutation.
From Verif Require Import Base Float Value Ast Lexer LexSpec Flex FlexTables FlexProofs Grammar Bison BisonTables BisonExpr BisonEvent.
From Verif Require Import Ledger HeapExpr HeapEvent HeapSpec HeapEventSpec LedgerProofs HeapRules HeapEventRules FlexBuffer FlexBufferProofs BisonStack BisonStackProofs HeapStack.
From Verif Require Import BisonLive BisonLiveProofs.
Import ListNotations.
Local Open Scope Z_scope.
Local Open Scope string_scope.
Local Open Scope list_scope.

(** C72: it makes no difference when the tokens are read, down to the addresses of the blocks. *)
Theorem C72_same value union junk text m l sm s : 0 <= value <= 2 ^ 32 -> 0 < union <= 2 ^ 32 ->
  all_chars (fun c => negb (Ascii.eqb c zero)) text = true -> Z.of_nat (String.length text) <= INT_MAX - 2 -> holds m l -> holds sm s ->
  live_parse (x_sizes value union) junk text sm m = full_parse (x_sizes value union) junk text sm m.
Proof.
  intros Bv Bu N B H Hs. destruct (full_parse_ok value union junk text m l sm s (conj Bv Bu) N B H Hs) as (x & m' & E & _).
  rewrite E. exact (live_parse_same _ junk text sm m l x m' H E).
Qed.
Print Assumptions C72_same.
Theorem C72_event_same value union junk text m l sm s : 0 <= value <= 2 ^ 32 -> 0 < union <= 2 ^ 32 ->
  all_chars (fun c => negb (Ascii.eqb c zero)) text = true -> Z.of_nat (String.length text) <= INT_MAX - 2 -> holds m l -> holds sm s ->
  live_event_parse (e_sizes value union) junk text sm m = full_event_parse (e_sizes value union) junk text sm m.
Proof.
  intros Bv Bu N B H Hs. destruct (full_event_parse_ok value union junk text m l sm s (conj Bv Bu) N B H Hs) as (x & m' & E & _).
  rewrite E. exact (live_event_parse_same _ junk text sm m l x m' H E).
Qed.
Print Assumptions C72_event_same.
(** Reading a text: the result is that of the grammar, and only its blocks are new. *)
Theorem C72_read value union junk text m l sm s : 0 <= value <= 2 ^ 32 -> 0 < union <= 2 ^ 32 ->
  all_chars (fun c => negb (Ascii.eqb c zero)) text = true -> Z.of_nat (String.length text) <= INT_MAX - 2 -> holds m l -> holds sm s ->
  exists o sm' m', live_parse (x_sizes value union) junk text sm m = Ok ((o, sm'), m') /\ holds sm' s /\
    parse_c text = Ok (option_map er_expr o) /\
    match o with
    | Some e => holds m' (blocks e ++ l)
    | None => exists lost, holds m' (lost ++ l)
    end.
Proof.
  intros Bv Bu N B H Hs. rewrite (C72_same value union junk text m l sm s Bv Bu N B H Hs).
  destruct (full_parse_ok value union junk text m l sm s (conj Bv Bu) N B H Hs) as ((o & sm') & m' & E & Hs' & P & Q).
  cbn [fst snd] in *. exists o, sm', m'. split; [exact E|]. split; [exact Hs'|]. split; [exact P|]. destruct o as [e|]; [exact (proj2 Q)|].
  destruct Q as (lost & _ & _ & _ & Hl & _). now exists lost.
Qed.
Print Assumptions C72_read.
Theorem C72_read_event value union junk text m l sm s : 0 <= value <= 2 ^ 32 -> 0 < union <= 2 ^ 32 ->
  all_chars (fun c => negb (Ascii.eqb c zero)) text = true -> Z.of_nat (String.length text) <= INT_MAX - 2 -> holds m l -> holds sm s ->
  exists o sm' m', live_event_parse (e_sizes value union) junk text sm m = Ok ((o, sm'), m') /\ holds sm' s /\
    match o with
    | Some e => (exists vs, event_parse_c text = Ok (Some vs) /\ er_event e = map Some vs) /\ holds m' (bl_event e ++ l)
    | None => event_parse_c text = Ok None /\ exists lost, holds m' (lost ++ l)
    end.
Proof.
  intros Bv Bu N B H Hs. rewrite (C72_event_same value union junk text m l sm s Bv Bu N B H Hs).
  destruct (full_event_parse_ok value union junk text m l sm s (conj Bv Bu) N B H Hs) as ((o & sm') & m' & E & Hs' & Q).
  cbn [fst snd] in *. exists o, sm', m'. split; [exact E|]. split; [exact Hs'|]. destruct o as [e|]; [exact Q|].
  destruct Q as (P & lost & _ & _ & _ & Hl & _). split; [exact P|]. now exists lost.
Qed.
Print Assumptions C72_read_event.
(** How far the scanner gets when a text is refused: it has returned the tokens up to the one the parser stopped at, and
    would go on behind it. *)
Theorem C72_stops value union junk text g m l sm s guts stack buffer chars : 0 <= value <= 2 ^ 32 -> 0 < union <= 2 ^ 32 ->
  all_chars (fun c => negb (Ascii.eqb c zero)) text = true -> Z.of_nat (String.length text) <= INT_MAX - 2 ->
  holds m l -> holds sm s -> scan_string junk text = Ok g -> incl [guts; stack; buffer; chars] l ->
  exists f m', live_xxparse (x_sizes value union) sm (mkScanner guts stack buffer chars buffer g) m = Ok (f, m') /\
    ((exists e, le_out f = Accepted (Some e)) \/
     exists read rest, lex text = read ++ rest /\
       match le_la f with
       | Next t _ => exists rest', rest = t :: rest' /\ exists n g', buf_all x_tables x_actions n (le_guts f) = Ok (rest', g')
       | End => rest = []
       | Empty => rest = [] \/ exists n g', buf_all x_tables x_actions n (le_guts f) = Ok (rest, g')
       end).
Proof.
  intros Bv Bu N B H Hs Eg I. destruct (x_scan_all junk text N B) as (g0 & g' & E1 & E2 & E3). rewrite Eg in E1. injection E1 as <-.
  destruct (xxparse_ok (lex text)) as (o & E & _).
  destruct (s_xxparse_ok value union (lex text) o m l sm s (conj Bv Bu) Hs H E) as (e & m' & Ee & _ & own & Ho & Q).
  set (c := mkScanner guts stack buffer chars buffer g).
  assert (Old : forall a, In a [guts; stack; buffer; chars] -> a < l_next m).
  { intros a Ia. destruct H as (_ & _ & _ & F). rewrite Forall_forall in F. apply (F a), I, Ia. }
  assert (Alive : forall a, In a [guts; stack; buffer; chars] -> is_live m' a = true).
  { intros a Ia. apply (holds_live m' (own ++ l)); [exact Ho|]. apply in_or_app. right. apply I, Ia. }
  assert (El : buf_all x_tables x_actions (S (y_n (sc_state c))) (sc_state c) = Ok (lex text, g')) by (cbn [sc_state c]; rewrite E2; exact E3).
  destruct (live_xxparse_ok (x_sizes value union) sm c (lex text) g' m e m' El) as (f & q & Ef & F1 & F2 & F3 & A).
  - unfold older, c. cbn. repeat split; apply Old; cbn; auto.
  - unfold kept, c. cbn. repeat split; apply Alive; cbn; auto.
  - exact Ee.
  - exists f, m'. split; [exact Ef|]. destruct Q as [(a & b & _ & Eo & _)|(_ & read & Er & _)]; [left; exists a; congruence|right].
    exists read, (en_rest e). split; [exact Er|]. unfold ahead, yields in A. destruct (le_la f) as [| |t v].
    + destruct A as (_ & [(_ & A)|A]); [now left|now right].
    + exact (proj2 A).
    + exact (proj2 A).
Qed.
Print Assumptions C72_stops.
Theorem C72_event_stops value union junk text g m l sm s guts stack buffer chars : 0 <= value <= 2 ^ 32 -> 0 < union <= 2 ^ 32 ->
  all_chars (fun c => negb (Ascii.eqb c zero)) text = true -> Z.of_nat (String.length text) <= INT_MAX - 2 ->
  holds m l -> holds sm s -> scan_string junk text = Ok g -> incl [guts; stack; buffer; chars] l ->
  exists f m', live_zzparse (e_sizes value union) sm (mkScanner guts stack buffer chars buffer g) m = Ok (f, m') /\
    ((exists e, le_out f = Accepted (Some e)) \/
     exists read rest, elex text = read ++ rest /\
       match le_la f with
       | Next t _ => exists rest', rest = t :: rest' /\ exists n g', buf_all e_tables e_actions n (le_guts f) = Ok (rest', g')
       | End => rest = []
       | Empty => rest = [] \/ exists n g', buf_all e_tables e_actions n (le_guts f) = Ok (rest, g')
       end).
Proof.
  intros Bv Bu N B H Hs Eg I. destruct (e_scan_all junk text N B) as (g0 & g' & E1 & E2 & E3). rewrite Eg in E1. injection E1 as <-.
  destruct (zzparse_ok (elex text)) as (o & E & _).
  destruct (s_zzparse_ok value union (elex text) o m l sm s (conj Bv Bu) Hs H E) as (e & m' & Ee & _ & own & Ho & Q).
  set (c := mkScanner guts stack buffer chars buffer g).
  assert (Old : forall a, In a [guts; stack; buffer; chars] -> a < l_next m).
  { intros a Ia. destruct H as (_ & _ & _ & F). rewrite Forall_forall in F. apply (F a), I, Ia. }
  assert (Alive : forall a, In a [guts; stack; buffer; chars] -> is_live m' a = true).
  { intros a Ia. apply (holds_live m' (own ++ l)); [exact Ho|]. apply in_or_app. right. apply I, Ia. }
  assert (El : buf_all e_tables e_actions (S (y_n (sc_state c))) (sc_state c) = Ok (elex text, g')) by (cbn [sc_state c]; rewrite E2; exact E3).
  destruct (live_zzparse_ok (e_sizes value union) sm c (elex text) g' m e m' El) as (f & q & Ef & F1 & F2 & F3 & A).
  - unfold older, c. cbn. repeat split; apply Old; cbn; auto.
  - unfold kept, c. cbn. repeat split; apply Alive; cbn; auto.
  - exact Ee.
  - exists f, m'. split; [exact Ef|]. destruct Q as [(a & b & _ & Eo & _)|(_ & read & Er & _)]; [left; exists a; congruence|right].
    exists read, (en_rest e). split; [exact Er|]. unfold ahead, yields in A. destruct (le_la f) as [| |t v].
    + destruct A as (_ & [(_ & A)|A]); [now left|now right].
    + exact (proj2 A).
    + exact (proj2 A).
Qed.
Print Assumptions C72_event_stops.

(** The outcome, the next token, where the scanner is in its buffer, and what is allocated. *)
Definition live_view (text : string) : option (option (option token) * nat * list Z) :=
  match scan_string 7 text with
  | Ok g =>
      match live_xxparse (x_sizes 8 8) (mkLedger 1 []) (mkScanner 1 2 3 4 3 g) (mkLedger 5 [1; 2; 3; 4]) with
      | Ok (f, m) => Some (match le_la f with Empty => None | End => Some None | Next t _ => Some (Some t) end, y_p (le_guts f), l_live m)
      | _ => None
      end
  | _ => None
  end.
Example C72_case :
  (* the parser stops at the second name; the rest is not read.  The second name and the node and name of the variable are lost. *)
  live_view "a b c d e ""f""" = Some (Some (Some (KIdent "b")), 3%nat, [8; 7; 6; 1; 2; 3; 4]) /\
  (* the end was shifted *)
  (exists m, live_view "a = 1" = Some (None, 5%nat, m) /\ List.length m = 6%nat) /\
  (exists x m, live_parse (x_sizes 8 8) 7 "a = 1" (mkLedger 1 []) (mkLedger 1 []) = Ok (x, m) /\
     full_parse (x_sizes 8 8) 7 "a = 1" (mkLedger 1 []) (mkLedger 1 []) = Ok (x, m) /\ fst x <> None).
Proof.
  split; [vm_compute; reflexivity|]. split; [eexists; split; [vm_compute; reflexivity|reflexivity]|].
  eexists _, _. split; [vm_compute; reflexivity|]. split; [vm_compute; reflexivity|discriminate].
Qed.
