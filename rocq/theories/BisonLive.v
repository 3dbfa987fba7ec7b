(** The scanners and the parsers together, as they run: the parser calls yylex when it needs a token.

    FlexBuffer.v and BisonStack.v read all tokens before the parser starts.  Here the parser keeps yychar and yylval and the
    scanner its buffer, and a token is read only where parser.c 1363-1371 reads one.  Line numbers are those of parser.c;
    event_parser.c has the same code at 1396-1460. *)
From Coq Require Import ZArith NArith String Bool List.
From Verif Require Import Base Lexer Flex FlexTables Bison BisonTables Ledger HeapExpr HeapEvent FlexBuffer BisonStack.
Import ListNotations.
Local Open Scope Z_scope.
Local Open Scope led_scope.

Section Live.
Context {K V R : Type}.
Variables (P : ptables) (code : K -> Z) (scan : K -> cmd V) (garbage : V).
Variables (T : tables) (acts : list (act K)) (c : scanner).
Variable act : Z -> list V -> cmd (V * option R).
Variable z : sizes.

(** yychar and yylval: YYEMPTY, YYEOF, or a token with its value. *)
Inductive look := Empty | End | Next (t : K) (v : V).

(** lexer.c 1015-1446 [yylex], one call, up to the action. *)
Definition live_lex (g : yyguts) : cmd (option K * yyguts) :=
  on _ <- use (sc_guts c);
  on _ <- use (sc_stack c);
  on _ <- use (sc_current c);
  on _ <- use (sc_chars c);
  fail (buf_lex T acts g).
(** parser.c 1358-1382: a token is read if the state needs one and there is none.  [scan] is what the action of the scanner
    allocates for yylval. *)
Definition live_fetch (q : Z) (la : look) (g : yyguts) : cmd (look * yyguts) :=
  on p <- fail (at_ (p_pact P) q);
  if p =? p_ninf P then ret (la, g) else
  match la with
  | Empty =>
      on '(o, g) <- live_lex g;
      match o with None => ret (End, g) | Some t => on v <- scan t; ret (Next t v, g) end
  | _ => ret (la, g)
  end.
(** parser.c 1373-1382: yytoken. *)
Definition symbol (la : look) : result Z :=
  match la with Empty => UB | End => Ok 0 | Next t _ => at_ (p_translate P) (code t) end.

(** What yyparse returns and leaves: the outcome, *root, yychar with yylval, the scanner; the ledger of the stacks. *)
Record live_ended := mkLE {
  le_out : outcome (R := R); le_root : option R; le_la : look; le_guts : yyguts; le_mem : ledger }.
(** One round from yysetstate: parser.c 1282-2062. *)
Definition live_step (q : Z) (k : stacks) (la : look) (g : yyguts) (r : option R) :
  cmd (live_ended + Z * stacks * look * yyguts * option R) :=
  on k <- fail (set_state z k q);
  on w <- fail (grow z k);
  match w with
  | NoMemory k => on m <- fail (return_ k); ret (inl (mkLE Exhausted r la g m))
  | StillFull k => on m <- fail (return_ k); ret (inl (mkLE Rejected r la g m))
  | Grown k =>
      if q =? p_final P then on m <- fail (return_ k); ret (inl (mkLE (Accepted r) r la g m)) else
      on '(la, g) <- live_fetch q la g;
      on mv <- fail (move_of P q (symbol la));
      match mv with
      | Error =>
          on k <- fail (pop_errors P (S (k_sp k)) q k); on m <- fail (return_ k);
          ret (inl (mkLE Rejected r la g m))
      | Shift q' =>
          match la with
          | Empty => fail UB
          | End => on k <- fail (push_value k garbage); ret (inr (q', next_state_slot k, Empty, g, r))
          | Next _ v => on k <- fail (push_value k v); ret (inr (q', next_state_slot k, Empty, g, r))
          end
      | Reduce n => on '(k, q', r') <- s_reduce P act n k r; ret (inr (q', k, la, g, r'))
      end
  end.
Fixpoint live_run (n : nat) (q : Z) (k : stacks) (la : look) (g : yyguts) (r : option R) : cmd live_ended :=
  match n with
  | O => fail Fuel
  | S n' => on x <- live_step q k la g r;
            match x with inl e => ret e | inr (q', k', la', g', r') => live_run n' q' k' la' g' r' end
  end.
(** parser.c 1203-2128 [yyparse], from 1262 on, with a memory [m] for the stacks. *)
Definition live_yyparse (n : nat) (m : ledger) : cmd live_ended :=
  live_run n 0 (mkStacks (repeat None (Z.to_nat YYINITDEPTH)) 0 (repeat None (Z.to_nat YYINITDEPTH)) 0 YYINITDEPTH 0 m)
    Empty (sc_state c) None.
End Live.

(** ** The two parsers *)
(** parser.c 1203-2128 [yyparse] (xxparse), event_parser.c 1259-1973 [yyparse] (zzparse). *)
Definition live_xxparse (z : sizes) (m : ledger) (c : scanner) : cmd (live_ended (K := token) (V := hval) (R := hexpr)) :=
  live_yyparse xp_tables xp_code xp_scan HTok x_tables x_actions c hx_act z (10 * y_n (sc_state c) + 10) m.
Definition live_zzparse (z : sizes) (m : ledger) (c : scanner) : cmd (live_ended (K := etoken) (V := heval) (R := hevent)) :=
  live_yyparse ep_tables ep_code ep_scan GTok e_tables e_actions c he_act z (10 * y_n (sc_state c) + 10) m.
(** What [parse] and [event_parse] do around their parser. *)
Definition live_scanned {A} (parser : scanner -> cmd A) (junk : Z) (text : string) : cmd A :=
  on g <- h_lex_init;
  on c <- h_scan_string g junk text;
  on o <- parser c;
  on c <- h_delete_buffer c;
  on _ <- h_lex_destroy c;
  ret o.
(** parser.y 237-255 [parse], event_parser.y 179-198 [event_parse]; the ledger of the stacks. *)
Definition live_parse (z : sizes) (junk : Z) (text : string) (m : ledger) : cmd (option hexpr * ledger) :=
  on e <- live_scanned (live_xxparse z m) junk text;
  ret (match le_out e with Accepted r => r | _ => None end, le_mem e).
Definition live_event_parse (z : sizes) (junk : Z) (text : string) (m : ledger) : cmd (option hevent * ledger) :=
  on e <- live_scanned (live_zzparse z m) junk text;
  ret (match le_out e with Accepted r => r | _ => None end, le_mem e).
