(** The parsers bison generated (parser.c, event_parser.c): the loop of yyparse on the tables.

    Line numbers are those of parser.c; event_parser.c has the same code at 1306-1960.  The scanner is a list of tokens.
    What the parser prints is left out. *)
From Coq Require Import ZArith NArith String Bool List.
From Verif Require Import Base Flex.
Import ListNotations.
Local Open Scope Z_scope.
Local Open Scope res_scope.

(** parser.c 492-770: the tables, YYPACT_NINF, YYLAST, YYNTOKENS, YYFINAL. *)
Record ptables := mkPtables {
  p_translate : list Z; p_pact : list Z; p_defact : list Z; p_pgoto : list Z; p_defgoto : list Z;
  p_table : list Z; p_check : list Z; p_r1 : list Z; p_r2 : list Z;
  p_ninf : Z; p_last : Z; p_ntokens : Z; p_final : Z }.

(** parser.c 949-951 YYMAXDEPTH. *)
Definition YYMAXDEPTH : Z := 10000.

Section Parser.
(** Tokens, semantic values (YYSTYPE), what the parser returns through its argument or a global variable. *)
Context {K V R : Type}.
Variables (P : ptables) (code : K -> Z) (yylval : K -> V) (garbage : V).
(** The actions: the number of the rule and the values of its right side; the value of the left side and a new result. *)
Variable act : Z -> list V -> result (V * option R).

Inductive move := Shift (q : Z) | Reduce (k : Z) | Error.

(** parser.c 1401-1409 (yydefault). *)
Definition yydefault (q : Z) : result move :=
  do k <- at_ (p_defact P) q; Ok (if k =? 0 then Error else Reduce k).
(** parser.c 1373-1382: the symbol of the next token, 0 at the end. *)
Definition lookahead (ts : list K) : result Z :=
  match ts with [] => Ok 0 | t :: _ => at_ (p_translate P) (code t) end.
(** parser.c 1354-1398 (yybackup): what to do in state q before the symbol la. *)
Definition move_of (q : Z) (la : result Z) : result move :=
  do p <- at_ (p_pact P) q;
  if p =? p_ninf P then yydefault q else
  do t <- la;
  let n := p + t in
  if (n <? 0) || (p_last P <? n) then yydefault q else
  do c <- at_ (p_check P) n;
  if negb (c =? t) then yydefault q else
  do a <- at_ (p_table P) n;
  Ok (if a <=? 0 then Reduce (- a) else Shift a).
(** parser.c 1927-1933: the state after a reduction to the symbol x. *)
Definition goto_of (q x : Z) : result Z :=
  do g <- at_ (p_pgoto P) (x - p_ntokens P);
  let n := g + q in
  if (0 <=? n) && (n <=? p_last P) then
    do c <- at_ (p_check P) n;
    if c =? q then at_ (p_table P) n else at_ (p_defgoto P) (x - p_ntokens P)
  else at_ (p_defgoto P) (x - p_ntokens P).

(** The two stacks, the top first. *)
Definition stack := list (Z * V).
(** parser.c 1919 YYPOPSTACK: the values of the popped entries in the order of the right side. *)
Fixpoint pop (n : nat) (st : stack) (vs : list V) : result (list V * stack) :=
  match n with
  | O => Ok (vs, st)
  | S n' => match st with [] => UB | (_, v) :: st' => pop n' st' (v :: vs) end
  end.
(** parser.c 1415-1936 (yyreduce). *)
Definition reduce (k : Z) (st : stack) (r : option R) : result (stack * option R) :=
  do n <- at_ (p_r2 P) k;
  do '(vs, st') <- pop (Z.to_nat n) st [];
  do '(v, o) <- act k vs;
  do x <- at_ (p_r1 P) k;
  match st' with
  | [] => UB
  | (q, _) :: _ =>
      do q' <- goto_of q x;
      Ok ((q', v) :: st', match o with Some r' => Some r' | None => r end)
  end.

(** The result of yyparse: 0 with what was stored, 1, 2. *)
Inductive outcome := Accepted (r : option R) | Rejected | Exhausted.
(** One round.  The stacks grow by doubling up to YYMAXDEPTH entries (parser.c 1284-1348); only that limit shows (C69).  After an
    error states are popped as long as they have no transition on the error token (2035-2060); no entry of yycheck is that
    token ([C55_no_recovery]), so all are, and the result is 1. *)
Definition step (st : stack) (ts : list K) (r : option R) : result (outcome + stack * list K * option R) :=
  match st with
  | [] => UB
  | (q, _) :: _ =>
      if YYMAXDEPTH <=? Z.of_nat (List.length st) then Ok (inl Exhausted) else
      if q =? p_final P then Ok (inl (Accepted r)) else
      do m <- move_of q (lookahead ts);
      match m with
      | Error => Ok (inl Rejected)
      | Shift q' =>
          match ts with
          | [] => Ok (inr ((q', garbage) :: st, [], r))
          | t :: ts' => Ok (inr ((q', yylval t) :: st, ts', r))
          end
      | Reduce k => do '(st', r') <- reduce k st r; Ok (inr (st', ts, r'))
      end
  end.
Fixpoint run (n : nat) (st : stack) (ts : list K) (r : option R) : result outcome :=
  match n with
  | O => Fuel
  | S n' => do x <- step st ts r; match x with inl o => Ok o | inr (st', ts', r') => run n' st' ts' r' end
  end.
(** parser.c 1205-2130 [yyparse]. *)
Definition yyparse (n : nat) (ts : list K) : result outcome := run n [(0, garbage)] ts None.
End Parser.
Arguments Accepted {R} r. Arguments Rejected {R}. Arguments Exhausted {R}.
