(** Properties of the stacks of the generated parsers.

    [xxparse] and [zzparse] (BisonTables.v) are the parsers with a list as their stack, [holds m l] (HeapSpec.v): l are the allocated
    blocks.  [value] and [union] are the sizes of YYSTYPE and union yyalloc. *)
From Coq Require Import ZArith NArith Ascii String Bool List Lia Permutation.
From Verif Require Import Base Float Value Ast Lexer LexSpec Flex FlexTables FlexProofs Grammar Bison BisonTables BisonExpr BisonEvent.
From Verif Require Import Ledger HeapExpr HeapEvent HeapSpec HeapEventSpec LedgerProofs HeapRules HeapEventRules FlexBuffer BisonStack BisonStackProofs HeapStack.
Import ListNotations.
Local Open Scope Z_scope.
Local Open Scope string_scope.
Local Open Scope list_scope.

(** C69: for every sequence of tokens the parser with its arrays ends with the outcome of the parser with a list.  It reads
    and writes only inside of its arrays and only what was written, and the blocks it allocates for them are released. *)
Theorem C69_expression value union ts m l sm s : 0 <= value <= 2 ^ 32 -> 0 < union <= 2 ^ 32 -> holds m l -> holds sm s ->
  exists e m', s_xxparse (x_sizes value union) ts sm m = Ok (e, m') /\ holds (en_mem e) s /\
    xxparse ts = Ok (match en_out e with Accepted r => Accepted (option_map er_expr r) | Rejected => Rejected | Exhausted => Exhausted end).
Proof.
  intros Bv Bu H Hs. destruct (xxparse_ok ts) as (o & E & _).
  destruct (s_xxparse_ok value union ts o m l sm s (conj Bv Bu) Hs H E) as (e & m' & Ee & He & own & _ & Q). exists e, m'. split; [exact Ee|]. split; [exact He|].
  rewrite E. f_equal. destruct Q as [(a & b & -> & -> & (Ea & _) & _)|([(-> & ->)|(-> & ->)] & _)]; [|reflexivity|reflexivity].
  cbn. now rewrite Ea.
Qed.
Print Assumptions C69_expression.
Theorem C69_event value union ts m l sm s : 0 <= value <= 2 ^ 32 -> 0 < union <= 2 ^ 32 -> holds m l -> holds sm s ->
  exists e m', s_zzparse (e_sizes value union) ts sm m = Ok (e, m') /\ holds (en_mem e) s /\
    match en_out e with
    | Accepted r => exists ev vs, r = Some ev /\ er_event ev = map Some vs /\ zzparse ts = Ok (Accepted (Some vs))
    | Rejected => zzparse ts = Ok Rejected
    | Exhausted => zzparse ts = Ok Exhausted
    end.
Proof.
  intros Bv Bu H Hs. destruct (zzparse_ok ts) as (o & E & _).
  destruct (s_zzparse_ok value union ts o m l sm s (conj Bv Bu) Hs H E) as (e & m' & Ee & He & own & _ & Q). exists e, m'. split; [exact Ee|]. split; [exact He|].
  rewrite E. destruct Q as [(a & b & -> & -> & Ea & _)|([(-> & ->)|(-> & ->)] & _)]; [|reflexivity|reflexivity].
  now exists a, b.
Qed.
Print Assumptions C69_event.
(** Reading a text with the buffer of the scanner and the stacks of the parser. *)
Theorem C69_read value union junk text m l sm s : 0 <= value <= 2 ^ 32 -> 0 < union <= 2 ^ 32 ->
  all_chars (fun c => negb (Ascii.eqb c zero)) text = true -> Z.of_nat (String.length text) <= INT_MAX - 2 -> holds m l -> holds sm s ->
  exists o sm' m', full_parse (x_sizes value union) junk text sm m = Ok ((o, sm'), m') /\ holds sm' s /\
    parse_c text = Ok (option_map er_expr o) /\
    match o with
    | Some e => holds m' (blocks e ++ l)
    | None => exists lost read rest, holds m' (lost ++ l) /\ lex text = read ++ rest /\
        (forall s, In (KStr s) read \/ In (KIdent s) read -> lost <> [])
    end.
Proof.
  intros Bv Bu N B H Hs. destruct (full_parse_ok value union junk text m l sm s (conj Bv Bu) N B H Hs) as ((o & sm') & m' & E & Hs' & P & Q).
  cbn [fst snd] in *. exists o, sm', m'. split; [exact E|]. split; [exact Hs'|]. split; [exact P|]. destruct o as [e|]; [exact (proj2 Q)|].
  destruct Q as (lost & read & rest & L & Hl & V & _). exists lost, read, rest. split; [exact Hl|]. split; [exact L|].
  intros t I. apply V, Exists_exists. destruct I as [I|I]; eexists; (split; [exact I|exact Logic.I]).
Qed.
Print Assumptions C69_read.
Theorem C69_read_event value union junk text m l sm s : 0 <= value <= 2 ^ 32 -> 0 < union <= 2 ^ 32 ->
  all_chars (fun c => negb (Ascii.eqb c zero)) text = true -> Z.of_nat (String.length text) <= INT_MAX - 2 -> holds m l -> holds sm s ->
  exists o sm' m', full_event_parse (e_sizes value union) junk text sm m = Ok ((o, sm'), m') /\ holds sm' s /\
    match o with
    | Some e => (exists vs, event_parse_c text = Ok (Some vs) /\ er_event e = map Some vs) /\ holds m' (bl_event e ++ l)
    | None => event_parse_c text = Ok None /\
        exists lost read rest, holds m' (lost ++ l) /\ elex text = read ++ rest /\
          (forall s, zzparse (elex text) = Ok Rejected -> In (JStr s) (read ++ firstn 1 rest) -> lost <> [])
    end.
Proof.
  intros Bv Bu N B H Hs. destruct (full_event_parse_ok value union junk text m l sm s (conj Bv Bu) N B H Hs) as ((o & sm') & m' & E & Hs' & Q).
  cbn [fst snd] in *. exists o, sm', m'. split; [exact E|]. split; [exact Hs'|]. destruct o as [e|]; [exact Q|].
  destruct Q as (P & lost & read & rest & L & H' & V). split; [exact P|].
  exists lost, read, rest. split; [exact H'|]. split; [exact L|]. intros t Rj I. apply V; [exact Rj|]. apply Exists_exists. exists (JStr t). now split.
Qed.
Print Assumptions C69_read_event.
(** The two arrays in a block of YYSTACK_BYTES: the second begins after the first, at a multiple of the size of the union, and
    ends inside of the block. *)
Theorem C69_layout z n : 0 < z_union z ->
  n * z_state z <= advance z n (z_state z) /\ (z_union z | advance z n (z_state z)) /\
  advance z n (z_state z) + n * z_value z <= stack_bytes z n.
Proof.
  intros U. pose proof (advance_ok z n (z_state z) U). split; [lia|]. split; [apply Z.divide_factor_l|]. unfold stack_bytes. lia.
Qed.
Print Assumptions C69_layout.

Fixpoint deep (n : nat) : list token := match n with O => [KIdent "a"] | S n => KNot :: deep n end.
Definition deep_case (n : nat) := match s_xxparse (x_sizes 40 40) (deep n) (mkLedger 1 []) (mkLedger 1 []) with Ok (e, _) => Some (en_mem e) | _ => None end.
Example C69_case :
  (* up to 199 entries no block is allocated, then one for each doubling *)
  deep_case 3 = Some (mkLedger 1 []) /\
  deep_case 197 = Some (mkLedger 1 []) /\
  deep_case 198 = Some (mkLedger 2 []) /\
  (* refused at the end, with a large stack *)
  (exists e m, s_xxparse (x_sizes 40 40) (deep 198 ++ [KAnd]) (mkLedger 1 []) (mkLedger 1 []) = Ok (e, m) /\ en_out e = Rejected /\ en_mem e = mkLedger 2 []) /\
  (* an array that is full *)
  a_put (repeat (Some 0) 3) 3 5 = UB /\ a_get [Some 5; None] 1 = UB /\
  (* 400 short states, 400 values of 40 bytes: the values begin at byte 800 *)
  advance (x_sizes 40 40) 400 2 = 800 /\ stack_bytes (x_sizes 40 40) 400 = 16839 /\
  (* 401 of them: at byte 840 *)
  advance (x_sizes 40 40) 401 2 = 840.
Proof.
  split; [vm_compute; reflexivity|]. split; [vm_compute; reflexivity|]. split; [vm_compute; reflexivity|].
  split; [eexists _, _; split; [vm_compute; reflexivity|]; split; reflexivity|]. repeat split.
Qed.
