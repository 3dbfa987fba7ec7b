(** The scanners flex generated (lexer.c, event_lexer.c): the loop of yylex on the compressed tables.

    A text is scanned from a copy followed by two NULs (lexer.c 2094-2123 [yy_scan_bytes]); it contains no NUL itself and
    is shorter than 2^31 (its length is kept in an int).  Positions are counted from the start of the current token
    (yytext_ptr).  Line numbers are those of lexer.c; event_lexer.c has the same code 82 lines earlier, after the actions
    197 lines earlier.  What the scanner prints is left out. *)
From Coq Require Import ZArith NArith Ascii String Bool List.
From Verif Require Import Base Lexer.
Import ListNotations.
Local Open Scope Z_scope.
Local Open Scope res_scope.

(** lexer.c 565-742: the arrays and the constants in the code: the yy_base of states without transitions, the first
    template state, YY_END_OF_BUFFER. *)
Record tables := mkTables {
  t_accept : list Z; t_ec : list Z; t_meta : list Z; t_base : list Z; t_def : list Z; t_nxt : list Z; t_chk : list Z;
  t_jam : Z; t_template : Z; t_eob : Z }.

(** Reading an array; outside of its bounds the behaviour is undefined. *)
Definition at_ (l : list Z) (i : Z) : result Z :=
  if i <? 0 then UB else match nth_error l (Z.to_nat i) with Some x => Ok x | None => UB end.

Section Scanner.
Variable T : tables.

(** lexer.c 1078-1084: the next state.  [n] bounds the length of the chain of yy_def. *)
Fixpoint next_state (n : nat) (q c : Z) : result Z :=
  do b <- at_ (t_base T) q;
  do k <- at_ (t_chk T) (b + c);
  if k =? q then at_ (t_nxt T) (b + c)
  else match n with
       | O => Fuel
       | S n' =>
           do q' <- at_ (t_def T) q;
           do c' <- (if q' >=? t_template T then at_ (t_meta T) c else Ok c);
           next_state n' q' c'
       end.
(** Longest chain of yy_def that is followed. *)
Definition chain : nat := 4.

(** yy_last_accepting_state and yy_last_accepting_cpos; unset at first. *)
Definition last := option (Z * nat).
(** lexer.c 1073-1077. *)
Definition remember (q : Z) (k : nat) (l : last) : result last :=
  do a <- at_ (t_accept T) q; Ok (if a =? 0 then l else Some (q, k)).

(** lexer.c 1070-1087 (yy_match): the characters from yy_cp on, yy_cp, the last accepting state. *)
Fixpoint yy_match (q : Z) (s : list Z) (k : nat) (l : last) : result (Z * nat * last) :=
  match s with
  | [] => UB
  | b :: s' =>
      do c <- at_ (t_ec T) b;
      do l' <- remember q k l;
      do q' <- next_state chain q c;
      do j <- at_ (t_base T) q';
      if j =? t_jam T then Ok (q', S k, l') else yy_match q' s' (S k) l'
  end.

(** lexer.c 1089-1096 (yy_find_action): the number of the action and yy_cp. *)
Definition find_action (q : Z) (k : nat) (l : last) : result (Z * nat) :=
  do a <- at_ (t_accept T) q;
  if a =? 0 then
    match l with
    | None => UB
    | Some (q', k') => do a' <- at_ (t_accept T) q'; Ok (a', k')
    end
  else Ok (a, k).

(** lexer.c 1593-1620 [yy_get_previous_state]: the state before the end of the buffer was read. *)
Fixpoint previous_state (q : Z) (s : list Z) (k : nat) (l : last) : result (Z * last) :=
  match s with
  | [] => Ok (q, l)
  | b :: s' =>
      do c <- (if b =? 0 then Ok 1 else at_ (t_ec T) b);
      do l' <- remember q k l;
      do q' <- next_state chain q c;
      previous_state q' s' (S k) l'
  end.

(** lexer.c 1057-1105, 1318-1440, 1455-1490: the number of the action for the next token and the length of its text.
    The action YY_END_OF_BUFFER (1318) looks whether the text is at its end (1352): a NUL inside the text is not possible
    (the length is that of strlen, lexer.c 2084).  If only the end was read the result is YY_STATE_EOF (1401), else the
    last match is used (1425-1435). *)
Definition yylex1 (s : list Z) : result (Z * nat) :=
  do '(q, k, l) <- yy_match 1 (s ++ [0; 0]) 0 None;
  do '(a, k) <- find_action q k l;
  if a =? t_eob T then
    if Nat.leb k (List.length s) then UB
    else if Nat.ltb (List.length s + 1) k then Abort
    else if Nat.eqb k 1 then Ok (t_eob T + 1, O)
    else do '(q, l) <- previous_state 1 s 0 l; find_action q (List.length s) l
  else Ok (a, k).

(** The actions by number (lexer.c 1102-1313), from 1 on. *)
Definition action {K} (acts : list (act K)) (a : Z) : option (act K) :=
  if a <=? 0 then None else nth_error acts (Z.to_nat (a - 1)).

(** The bytes of a text. *)
Definition bytes (s : string) : list Z := map (fun c => Z.of_N (N_of_ascii c)) (list_ascii_of_string s).

(** Repeated calls of yylex up to the end of the input (0, YY_NULL).  Action 0 (1106-1111) and YY_END_OF_BUFFER after
    [yy_find_action] would go on forever; another number without action is a fatal error (1437). *)
Fixpoint yylex_all {K} (acts : list (act K)) (n : nat) (s : string) : result (list K) :=
  match n with
  | O => Fuel
  | S n' =>
      do '(a, k) <- yylex1 (bytes s);
      if a =? t_eob T + 1 then Ok [] else
      if (a =? 0) || (a =? t_eob T) then Fuel else
      match action acts a with
      | None => Abort
      | Some ASkip => yylex_all acts n' (drop k s)
      | Some (ATok f) => do ts <- yylex_all acts n' (drop k s); Ok (f (take k s) :: ts)
      | Some AStop => Ok []
      end
  end.
End Scanner.
