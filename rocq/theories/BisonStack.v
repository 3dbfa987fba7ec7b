(** The parsers bison generated with their stacks as arrays.

    Bison.v and HeapExpr.v have the two stacks as one list without limit.  Here they are the arrays yyss and yyvs with the
    pointers yyssp and yyvsp (positions in the arrays): first two local arrays of YYINITDEPTH entries, then two parts of an
    allocated block, which is replaced by a larger one when it is full.  Reading or writing outside of the arrays or in a
    released block is undefined.  Line numbers are those of parser.c; event_parser.c has the same code at 1262-1970 (the
    states are signed chars there, 309).  yydestruct (1180-1196) does nothing and is left out, with the names of the symbols it is
    given (yystos).  The blocks of the stacks have a ledger of their own; no semantic value points to them. *)
From Coq Require Import ZArith NArith String Bool List.
From Verif Require Import Base Lexer Flex FlexTables Bison BisonTables Ledger HeapExpr HeapEvent FlexBuffer.
Import ListNotations.
Local Open Scope Z_scope.
Local Open Scope res_scope.

(** parser.c 938-940 YYINITDEPTH. *)
Definition YYINITDEPTH : Z := 200.
(** parser.c 799-800 YYTERROR: the symbol of the error token. *)
Definition YYTERROR : Z := 1.

(** An array of values that may not have been written. *)
Definition array (A : Type) := list (option A).
Definition a_get {A} (l : array A) (i : nat) : result A :=
  match nth_error l i with Some (Some x) => Ok x | _ => UB end.
Fixpoint a_put {A} (l : array A) (i : nat) (x : A) : result (array A) :=
  match l, i with
  | [], _ => UB
  | _ :: t, O => Ok (Some x :: t)
  | y :: t, S i => do t' <- a_put t i x; Ok (y :: t')
  end.
(** An array of [n] entries of which the first [k] are copied. *)
Definition a_copy {A} (l : array A) (k n : nat) : result (array A) :=
  if Nat.ltb (List.length l) k || Nat.ltb n k then UB else Ok (firstn k l ++ repeat None (n - k)).

(** The sizes of a state, a semantic value and union yyalloc in bytes; the least and greatest state that can be stored. *)
Record sizes := mkSizes { z_state : Z; z_value : Z; z_union : Z; z_min : Z; z_max : Z }.
(** parser.c 443-450 YYSTACK_GAP_MAXIMUM, YYSTACK_BYTES. *)
Definition gap (z : sizes) : Z := z_union z - 1.
Definition stack_bytes (z : sizes) (n : Z) : Z := n * (z_state z + z_value z) + gap z.
(** parser.c 454-468 YYSTACK_RELOCATE: by how much yyptr is advanced behind an array of [n] entries of [b] bytes. *)
Definition advance (z : sizes) (n b : Z) : Z := z_union z * ((n * b + gap z) / z_union z).

Section Stacks.
Context {K V R : Type}.
Variables (P : ptables) (code : K -> Z) (scan : K -> cmd V) (garbage : V).
Variable act : Z -> list V -> cmd (V * option R).
Variable z : sizes.

(** parser.c 1229-1238: yyss, yyssp, yyvs, yyvsp, yystacksize; the address of the block, 0 for yyssa and yyvsa; the ledger. *)
Record stacks := mkStacks {
  k_ss : array Z; k_sp : nat; k_vs : array V; k_vp : nat; k_size : Z; k_at : Z; k_mem : ledger }.

(** The arrays can be used. *)
Definition in_reach (k : stacks) : bool := (k_at k =? 0) || is_live (k_mem k) (k_at k).
Definition state_at (k : stacks) (i : nat) : result Z := if in_reach k then a_get (k_ss k) i else UB.
Definition value_at (k : stacks) (i : nat) : result V := if in_reach k then a_get (k_vs k) i else UB.
(** parser.c 1283 [*yyssp = yystate]: the state is converted to the type of the entries. *)
Definition set_state (k : stacks) (q : Z) : result stacks :=
  if negb (in_reach k) || (q <? z_min z) || (z_max z <? q) then UB else
  do ss <- a_put (k_ss k) (k_sp k) q;
  Ok (mkStacks ss (k_sp k) (k_vs k) (k_vp k) (k_size k) (k_at k) (k_mem k)).
(** parser.c 1413, 1921 [*++yyvsp = v]. *)
Definition push_value (k : stacks) (v : V) : result stacks :=
  if negb (in_reach k) then UB else
  do vs <- a_put (k_vs k) (S (k_vp k)) v;
  Ok (mkStacks (k_ss k) (k_sp k) vs (S (k_vp k)) (k_size k) (k_at k) (k_mem k)).
(** parser.c 1280 (yynewstate) [yyssp++]. *)
Definition next_state_slot (k : stacks) : stacks :=
  mkStacks (k_ss k) (S (k_sp k)) (k_vs k) (k_vp k) (k_size k) (k_at k) (k_mem k).
(** parser.c 1256 YYPOPSTACK: a pointer before its array is undefined. *)
Definition pop_stack (k : stacks) (n : nat) : result stacks :=
  if Nat.ltb (k_sp k) n || Nat.ltb (k_vp k) n then UB else
  Ok (mkStacks (k_ss k) (k_sp k - n) (k_vs k) (k_vp k - n) (k_size k) (k_at k) (k_mem k)).

(** How growing ends. *)
Inductive grown := Grown (k : stacks) | NoMemory (k : stacks) | StillFull (k : stacks).
(** parser.c 1321-1332: a block for [n] entries, the two parts of it, the old block.  The parts must lie in the block one
    after the other, the second aligned as the union, and the size must fit. *)
Definition relocate (k : stacks) (n : Z) (used : nat) : result stacks :=
  do '(a, m) <- malloc (k_mem k);
  if SIZE_MAX <? stack_bytes z n then UB else
  let second := advance z n (z_state z) in
  if (second <? n * z_state z) || (stack_bytes z n <? second + n * z_value z) then UB else
  if negb (in_reach k) then UB else
  do ss <- a_copy (k_ss k) used (Z.to_nat n);
  do vs <- a_copy (k_vs k) used (Z.to_nat n);
  do '(_, m) <- (if k_at k =? 0 then Ok (tt, m) else free (k_at k) m);
  Ok (mkStacks ss (used - 1) vs (used - 1) n a m).
(** parser.c 1285-1344. *)
Definition grow (k : stacks) : result grown :=
  if k_size k - 1 <=? Z.of_nat (k_sp k) then
    let used := S (k_sp k) in
    if YYMAXDEPTH <=? k_size k then Ok (NoMemory k) else
    let n := if YYMAXDEPTH <? k_size k * 2 then YYMAXDEPTH else k_size k * 2 in
    do k <- relocate k n used;
    Ok (if n - 1 <=? Z.of_nat (k_sp k) then StillFull k else Grown k)
  else Ok (Grown k).

(** $1 to $n: yyvsp[i - n]. *)
Fixpoint values_at (k : stacks) (i : nat) (n : nat) : result (list V) :=
  match n with
  | O => Ok []
  | S n => do v <- value_at k i; do vs <- values_at k (S i) n; Ok (v :: vs)
  end.
(** parser.c 1432-1936 (yyreduce).  yyvsp[1 - yylen] (1444) is the first value of the rule, or the entry after the last one,
    which need not have been written; the actions say what they do with $1. *)
Definition s_reduce (n : Z) (k : stacks) (r : option R) : cmd (stacks * Z * option R) :=
  (on len <- fail (at_ (p_r2 P) n);
   let len := Z.to_nat len in
   on _ <- (if Nat.ltb (S (k_vp k)) len || negb (Nat.ltb (S (k_vp k) - len) (List.length (k_vs k))) then fail UB else ret tt);
   on vs <- fail (values_at k (S (k_vp k) - len) len);
   on '(v, o) <- act n vs;
   on k <- fail (pop_stack k len);
   on k <- fail (push_value k v);
   on x <- fail (at_ (p_r1 P) n);
   on top <- fail (state_at k (k_sp k));
   on q <- fail (goto_of P top x);
   ret (next_state_slot k, q, match o with Some r' => Some r' | None => r end))%led.

(** parser.c 2035-2062 (yyerrlab1): the states that have no transition on the error token are popped.  None: all were and
    the parser stops; what follows a transition on it is left out. *)
Fixpoint pop_errors (n : nat) (q : Z) (k : stacks) : result stacks :=
  match n with
  | O => Fuel
  | S n' =>
      do p <- at_ (p_pact P) q;
      do shifts <- (if p =? p_ninf P then Ok false else
        if (p + YYTERROR <? 0) || (p_last P <? p + YYTERROR) then Ok false else
        do c <- at_ (p_check P) (p + YYTERROR);
        if negb (c =? YYTERROR) then Ok false else
        do a <- at_ (p_table P) (p + YYTERROR); Ok (0 <? a));
      if (shifts : bool) then Fuel else
      if Nat.eqb (k_sp k) 0 then Ok k else
      do k <- pop_stack k 1;
      do q <- state_at k (k_sp k);
      pop_errors n' q k
  end.
(** parser.c 2100-2122 (yyreturn). *)
Fixpoint pop_all (n : nat) (k : stacks) : result stacks :=
  match n with
  | O => Fuel
  | S n' => if Nat.eqb (k_sp k) 0 then Ok k else do _ <- state_at k (k_sp k); do k <- pop_stack k 1; pop_all n' k
  end.
Definition return_ (k : stacks) : result ledger :=
  do k <- pop_all (S (k_sp k)) k;
  do '(_, m) <- (if k_at k =? 0 then Ok (tt, k_mem k) else free (k_at k) (k_mem k));
  Ok m.

(** What yyparse returns and leaves: the outcome, *root, yylval, the tokens not shifted; the ledger of the stacks. *)
Record ended := mkEnded {
  en_out : outcome (R := R); en_root : option R; en_la : option V; en_rest : list K; en_mem : ledger }.
(** One round from yysetstate: parser.c 1282-2062. *)
Definition s_step (q : Z) (k : stacks) (la : option V) (ts : list K) (r : option R) :
  cmd (ended + Z * stacks * option V * list K * option R) :=
  (on k <- fail (set_state k q);
   on g <- fail (grow k);
   match g with
   | NoMemory k => on m <- fail (return_ k); ret (inl (mkEnded Exhausted r la ts m))
   | StillFull k => on m <- fail (return_ k); ret (inl (mkEnded Rejected r la ts m))
   | Grown k =>
       if q =? p_final P then on m <- fail (return_ k); ret (inl (mkEnded (Accepted r) r la ts m)) else
       on la <- fetch P scan q la ts;
       on mv <- fail (move_of P q (lookahead P code ts));
       match mv with
       | Error =>
           on k <- fail (pop_errors (S (k_sp k)) q k); on m <- fail (return_ k);
           ret (inl (mkEnded Rejected r la ts m))
       | Shift q' =>
           match ts, la with
           | [], _ => on k <- fail (push_value k garbage); ret (inr (q', next_state_slot k, None, [], r))
           | _ :: ts', Some v => on k <- fail (push_value k v); ret (inr (q', next_state_slot k, None, ts', r))
           | _, _ => fail UB
           end
       | Reduce n => on '(k, q', r') <- s_reduce n k r; ret (inr (q', k, la, ts, r'))
       end
   end)%led.
Fixpoint s_run (n : nat) (q : Z) (k : stacks) (la : option V) (ts : list K) (r : option R) : cmd ended :=
  match n with
  | O => fail Fuel
  | S n' => (on x <- s_step q k la ts r;
             match x with inl e => ret e | inr (q', k', la', ts', r') => s_run n' q' k' la' ts' r' end)%led
  end.
(** parser.c 1203-2128 [yyparse], from 1262 on, with a memory [m] for the stacks. *)
Definition s_yyparse (n : nat) (ts : list K) (m : ledger) : cmd ended :=
  s_run n 0 (mkStacks (repeat None (Z.to_nat YYINITDEPTH)) 0 (repeat None (Z.to_nat YYINITDEPTH)) 0 YYINITDEPTH 0 m) None ts None.
End Stacks.

(** ** The two parsers *)
Local Open Scope led_scope.

(** parser.c 437-441: short states; the sizes of YYSTYPE and the union are not fixed. *)
Definition x_sizes (value union : Z) : sizes := mkSizes 2 value union (-32768) 32767.
(** event_parser.c 309, 457-463: signed chars. *)
Definition e_sizes (value union : Z) : sizes := mkSizes 1 value union (-128) 127.
(** parser.c 1203-2128 [yyparse] (xxparse), event_parser.c 1259-1973 [yyparse] (zzparse). *)
Definition s_xxparse (z : sizes) (ts : list token) (m : ledger) : cmd (ended (K := token) (V := hval) (R := hexpr)) :=
  s_yyparse xp_tables xp_code xp_scan HTok hx_act z (10 * List.length ts + 10) ts m.
Definition s_zzparse (z : sizes) (ts : list etoken) (m : ledger) : cmd (ended (K := etoken) (V := heval) (R := hevent)) :=
  s_yyparse ep_tables ep_code ep_scan GTok he_act z (10 * List.length ts + 10) ts m.
(** parser.y 237-255 [parse], event_parser.y 179-198 [event_parse] with the scanner and the stacks; the ledger of the stacks. *)
Definition full_parse (z : sizes) (junk : Z) (text : string) (m : ledger) : cmd (option hexpr * ledger) :=
  on e <- h_scanned x_tables x_actions (fun ts => s_xxparse z ts m) junk text;
  ret (match en_out e with Accepted r => r | _ => None end, en_mem e).
Definition full_event_parse (z : sizes) (junk : Z) (text : string) (m : ledger) : cmd (option hevent * ledger) :=
  on e <- h_scanned e_tables e_actions (fun ts => s_zzparse z ts m) junk text;
  ret (match en_out e with Accepted r => r | _ => None end, en_mem e).
