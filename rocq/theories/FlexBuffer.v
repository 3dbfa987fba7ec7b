(** The scanners flex generated with their buffer and the memory they use.

    Flex.v scans the rest of the text from the start of each token.  Here the text is copied into the buffer of the scanner,
    the scanner reads and writes this buffer through its pointers, which are kept from one token to the next, and the token
    is what the action finds at yytext.  Reading or writing outside of the buffer is undefined.  Line numbers are those of
    lexer.c; event_lexer.c has the same code 82 lines earlier, after the actions 197 lines earlier.  What the scanner prints
    is left out. *)
From Coq Require Import ZArith NArith Ascii String Bool List.
From Verif Require Import Base Lexer Flex FlexTables Bison BisonTables Ledger HeapExpr HeapEvent.
Import ListNotations.
Local Open Scope Z_scope.
Local Open Scope res_scope.

(** limits.h, 32-bit int. *)
Definition INT_MAX : Z := 2 ^ 31 - 1.

(** Writing to an array. *)
Fixpoint put (l : list Z) (i : nat) (x : Z) : result (list Z) :=
  match l, i with
  | [], _ => UB
  | _ :: t, O => Ok (x :: t)
  | y :: t, S i => do t' <- put t i x; Ok (y :: t')
  end.
(** Reading an array. *)
Definition get (l : list Z) (i : nat) : result Z := match nth_error l i with Some x => Ok x | None => UB end.

(** lexer.c 793-827 (struct yyguts_t) and the current buffer, 421-476 (struct yy_buffer_state): yy_init, yy_ch_buf with its
    bytes, yy_n_chars, and as positions in the buffer yy_c_buf_p and yytext_ptr, then yyleng, yy_hold_char, and
    yy_last_accepting_state with yy_last_accepting_cpos.  yy_start is 1 from the first call on. *)
Record yyguts := mkYY {
  y_init : bool; y_buf : list Z; y_n : nat; y_p : nat; y_text : nat; y_leng : nat; y_hold : Z; y_last : last }.

(** lexer.c 1824-1831 [yy_load_buffer_state]: yy_buf_pos is the start of the buffer. *)
Definition load_buffer_state (g : yyguts) : result yyguts :=
  do h <- get (y_buf g) 0;
  Ok (mkYY (y_init g) (y_buf g) (y_n g) 0 0 (y_leng g) h (y_last g)).

(** lexer.c 2110-2111: the copy. *)
Fixpoint copy_in (buf : list Z) (i : nat) (l : list Z) : result (list Z) :=
  match l with [] => Ok buf | b :: t => do buf <- put buf i b; copy_in buf (S i) t end.
(** lexer.c 2084-2125 [yy_scan_string, yy_scan_bytes], 2047-2074 [yy_scan_buffer], 1792-1822 [yy_switch_to_buffer] for a
    scanner without buffer.  The length of the text is converted to an int and 2 is added to it: undefined if this does not
    fit (from 2^31 on the conversion itself depends on the compiler).  [junk] is what the memory contained. *)
Definition scan_string (junk : Z) (s : string) : result yyguts :=
  let len := String.length s in
  if INT_MAX - 2 <? Z.of_nat len then UB else
  do buf <- copy_in (repeat junk (len + 2)) 0 (bytes s);
  do buf <- put buf (S len) 0;
  do buf <- put buf len 0;
  do x <- get buf len;
  do y <- get buf (S len);
  if negb (x =? 0) || negb (y =? 0) then Abort else
  load_buffer_state (mkYY false buf len 0 0 0 0 None).

Section Scanner.
Variable T : tables.

(** lexer.c 1070-1087 (yy_match).  [n] bounds the number of characters. *)
Fixpoint buf_match (n : nat) (buf : list Z) (q : Z) (cp : nat) (l : last) : result (Z * nat * last) :=
  match n with
  | O => UB
  | S n =>
      do b <- get buf cp;
      do c <- at_ (t_ec T) b;
      do l' <- remember T q cp l;
      do q' <- next_state T chain q c;
      do j <- at_ (t_base T) q';
      if j =? t_jam T then Ok (q', S cp, l') else buf_match n buf q' (S cp) l'
  end.
(** lexer.c 1593-1620 [yy_get_previous_state]: the [n] characters from yytext to yy_c_buf_p. *)
Fixpoint buf_previous (n : nat) (buf : list Z) (q : Z) (cp : nat) (l : last) : result (Z * last) :=
  match n with
  | O => Ok (q, l)
  | S n =>
      do b <- get buf cp;
      do c <- (if b =? 0 then Ok 1 else at_ (t_ec T) b);
      do l' <- remember T q cp l;
      do q' <- next_state T chain q c;
      buf_previous n buf q' (S cp) l'
  end.

(** lexer.c 1089-1098 (yy_find_action) and 558-563 (YY_DO_BEFORE_ACTION): the number of the action; the character after the
    text is kept and replaced by a NUL. *)
Definition set_up (g : yyguts) (q : Z) (cp bp : nat) (l : last) : result (Z * yyguts) :=
  do '(a, cp) <- find_action T q cp l;
  do h <- get (y_buf g) cp;
  do buf <- put (y_buf g) cp 0;
  Ok (a, mkYY (y_init g) buf (y_n g) cp bp (cp - bp) h l).

(** lexer.c 1056-1098, 1318-1437, 1455-1484: one token.  The kept character is put back (1061) and the match begins.  At the
    end of the buffer: 1324, 1350-1384 a NUL before the end of the text is not possible (the length is that of strlen, 2087),
    1463-1465 a fatal error, 1467-1484 and 1386-1407 the end, from where the next call starts again, or 1427-1435 the last
    match. *)
Definition buf_token (g : yyguts) : result (Z * yyguts) :=
  let bp := y_p g in
  do buf <- put (y_buf g) bp (y_hold g);
  do '(q, cp, l) <- buf_match (List.length buf) buf 1 bp (y_last g);
  do '(a, g) <- set_up (mkYY (y_init g) buf (y_n g) bp (y_text g) (y_leng g) (y_hold g) l) q cp bp l;
  if a =? t_eob T then
    do buf <- put (y_buf g) (y_p g) (y_hold g);
    if Nat.leb (y_p g) (y_n g) then UB
    else if Nat.ltb (y_n g + 1) (y_p g) then Abort
    else if Nat.eqb (y_p g - y_text g) 1 then
      Ok (t_eob T + 1, mkYY (y_init g) buf (y_n g) (y_text g) (y_text g) (y_leng g) (y_hold g) (y_last g))
    else
      do '(q, l) <- buf_previous (y_n g - y_text g) buf 1 (y_text g) (y_last g);
      set_up (mkYY (y_init g) buf (y_n g) (y_n g) (y_text g) (y_leng g) (y_hold g) l) q (y_n g) (y_text g) l
  else Ok (a, g).

(** A string up to its NUL. *)
Fixpoint c_string (n : nat) (buf : list Z) (p : nat) : result (list Z) :=
  match n with
  | O => UB
  | S n => do b <- get buf p; if b =? 0 then Ok [] else do t <- c_string n buf (S p); Ok (b :: t)
  end.
(** yytext as the actions use it: lexer.l 6-14 up to the NUL (bstrdup, strtoll, atof) or with yyleng characters (memcpy);
    undefined if these were different. *)
Definition yytext (g : yyguts) : result string :=
  do l <- c_string (List.length (y_buf g)) (y_buf g) (y_text g);
  if Nat.eqb (List.length l) (y_leng g) then
    Ok (string_of_list_ascii (map (fun b => ascii_of_N (Z.to_N b)) l))
  else UB.

(** lexer.c 1015-1446 [yylex] after its initialisation: the tokens up to one that is returned; none at the end (YY_NULL). *)
Fixpoint buf_next {K} (acts : list (act K)) (n : nat) (g : yyguts) : result (option K * yyguts) :=
  match n with
  | O => Fuel
  | S n =>
      do '(a, g) <- buf_token g;
      if a =? t_eob T + 1 then Ok (None, g) else
      if (a =? 0) || (a =? t_eob T) then Fuel else
      match action acts a with
      | None => Abort
      | Some ASkip => buf_next acts n g
      | Some (ATok f) => do s <- yytext g; Ok (Some (f s), g)
      | Some AStop => do _ <- yytext g; Ok (None, g)
      end
  end.
(** lexer.c 1015-1446 [yylex]: the first call (1024-1048) loads the buffer again. *)
Definition buf_lex {K} (acts : list (act K)) (g : yyguts) : result (option K * yyguts) :=
  do g <- (if y_init g then Ok g
           else load_buffer_state (mkYY true (y_buf g) (y_n g) (y_p g) (y_text g) (y_leng g) (y_hold g) (y_last g)));
  buf_next acts (S (y_n g)) g.
(** The calls of yylex up to the end.  The parser makes them one by one and may stop before. *)
Fixpoint buf_all {K} (acts : list (act K)) (n : nat) (g : yyguts) : result (list K * yyguts) :=
  match n with
  | O => Fuel
  | S n =>
      do '(o, g) <- buf_lex acts g;
      match o with
      | None => Ok ([], g)
      | Some t => do '(ts, g) <- buf_all acts n g; Ok (t :: ts, g)
      end
  end.
End Scanner.

(** ** The memory *)
Local Open Scope led_scope.

(** A scanner with a text: the addresses of struct yyguts_t, of the stack of buffers, of struct yy_buffer_state and of its
    characters, and the only entry of the stack (YY_CURRENT_BUFFER). *)
Record scanner := mkScanner { sc_guts : Z; sc_stack : Z; sc_buffer : Z; sc_chars : Z; sc_current : Z; sc_state : yyguts }.

(** lexer.c 2320-2338 [yylex_init]. *)
Definition h_lex_init : cmd Z := on g <- malloc; on _ <- use g; ret g.
(** lexer.c 2084-2125 [yy_scan_string, yy_scan_bytes]: the characters, 2047-2074 [yy_scan_buffer]: the buffer, 1997-2020
    [yyensure_buffer_stack]: the stack with one entry. *)
Definition h_scan_string (g : Z) (junk : Z) (s : string) : cmd scanner :=
  on chars <- malloc;
  on _ <- use chars;
  on st <- fail (scan_string junk s);
  on b <- malloc;
  on _ <- use b;
  on _ <- use g;
  on stack <- malloc;
  on _ <- use stack;
  ret (mkScanner g stack b chars b st).
(** lexer.c 1015-1446 [yylex], all calls. *)
Definition h_lex_all {K} (T : tables) (acts : list (act K)) (c : scanner) : cmd (list K) :=
  on _ <- use (sc_guts c);
  on _ <- use (sc_stack c);
  on _ <- use (sc_current c);
  on _ <- use (sc_chars c);
  on '(ts, _) <- fail (buf_all T acts (S (y_n (sc_state c))) (sc_state c));
  ret ts.
(** lexer.c 1867-1881 [yy_delete_buffer]; yy_is_our_buffer is set (2122). *)
Definition h_delete_buffer (c : scanner) : cmd scanner :=
  on _ <- use (sc_guts c);
  on _ <- use (sc_stack c);
  on _ <- use (sc_buffer c);
  on _ <- free (sc_chars c);
  on _ <- free (sc_buffer c);
  ret (mkScanner (sc_guts c) (sc_stack c) (sc_buffer c) (sc_chars c)
         (if sc_buffer c =? sc_current c then 0 else sc_current c) (sc_state c)).
(** lexer.c 2408-2435 [yylex_destroy]; there is no stack of start conditions. *)
Definition h_lex_destroy (c : scanner) : cmd unit :=
  on _ <- use (sc_guts c);
  on _ <- use (sc_stack c);
  on _ <- (if sc_current c =? 0 then ret c else h_delete_buffer c);
  on _ <- free (sc_stack c);
  on _ <- free 0;
  on _ <- use (sc_guts c);
  free (sc_guts c).

(** What [parse] and [event_parse] do around their parser.  The tokens are read before the parser runs. *)
Definition h_scanned {K A} (T : tables) (acts : list (act K)) (parser : list K -> cmd A) (junk : Z) (text : string) : cmd A :=
  on g <- h_lex_init;
  on c <- h_scan_string g junk text;
  on ts <- h_lex_all T acts c;
  on o <- parser ts;
  on c <- h_delete_buffer c;
  on _ <- h_lex_destroy c;
  ret o.
(** parser.y 237-255 [parse]. *)
Definition scan_and_parse (junk : Z) (text : string) : cmd (option hexpr) :=
  on o <- h_scanned x_tables x_actions h_xxparse junk text;
  ret (match lb_out o with Accepted r => r | _ => None end).
(** event_parser.y 179-198 [event_parse]. *)
Definition scan_and_parse_event (junk : Z) (text : string) : cmd (option hevent) :=
  on o <- h_scanned e_tables e_actions h_zzparse junk text;
  ret (match lb_out o with Accepted r => r | _ => None end).
