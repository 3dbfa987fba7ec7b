(** Properties of the memory and the buffers of printing.

    [ast_to_string] (Printer.v) is the text of an expression, [event_text] and [line_text] (HeapPrintSpec.v) those of an event and of
    a variable; [holds m l] (HeapSpec.v): l are the allocated blocks. *)
From Coq Require Import ZArith NArith Ascii String Bool List Lia Permutation.
From Verif Require Import Base Float Value Ast Lexer LexSpec Flex FlexTables FlexProofs Grammar Bison BisonTables Printer EventObj.
From Verif Require Import Ledger HeapExpr HeapEvent HeapSpec HeapEventSpec LedgerProofs HeapProofs HeapEventProofs HeapRules FlexBuffer BisonStack HeapStack BisonLive BisonLiveProofs.
From Verif Require Import HeapPrint HeapPrintSpec HeapPrintProofs HeapPrintOnly HeapPrintEvent.
Import ListNotations.
Local Open Scope Z_scope.
Local Open Scope string_scope.
Local Open Scope list_scope.

(** ** C70 *)
(** The text is one new block; all others made on the way are released, and only the blocks of the expression are read. *)
Theorem C70_text e t m l : ast_to_string (er_expr e) = Ok t -> Z.of_nat (String.length t) < INT_MAX -> named e -> holds m (blocks e ++ l) ->
  exists s m', h_ast_to_string e m = Ok (s, m') /\ hs_text s = t /\ holds m' (hs_at s :: blocks e ++ l).
Proof.
  intros E B N H. destruct (ast_ok e t N E B m _ H (incl_appl l (incl_refl _))) as (s & m' & Es & X & _ & H'). now exists s, m'.
Qed.
Print Assumptions C70_text.
(** There is no other way to succeed.  A name or a literal alone is copied, which has no limit. *)
Theorem C70_only e m s m' : h_ast_to_string e m = Ok (s, m') ->
  ast_to_string (er_expr e) = Ok (hs_text s) /\
  (Z.of_nat (String.length (hs_text s)) < INT_MAX \/ match e with HLeaf _ _ (HPLit _) | HLeaf _ _ (HPVar _) => True | _ => False end).
Proof.
  intros E. destruct (ast_only e m s m' E) as (A & [B|B]); (split; [exact A|]); [now left|right].
  destruct e as [a g p|a g x y|a g x y|a g x]; try contradiction. now destruct p.
Qed.
Print Assumptions C70_only.
(** Longer texts: 1 is added to INT_MAX, or the program ends. *)
Theorem C70_limit s m : INT_MAX <= Z.of_nat (String.length s) ->
  basprintf s m = if (Z.of_nat (String.length s) =? INT_MAX)%Z then UB else Abort.
Proof.
  intros B. unfold basprintf. destruct (Z.ltb_spec INT_MAX (Z.of_nat (String.length s))); destruct (Z.eqb_spec (Z.of_nat (String.length s)) INT_MAX); try reflexivity; lia.
Qed.
Print Assumptions C70_limit.
(** A text is read, printed, and both are released: nothing remains. *)
Theorem C70_session value union junk text x t m l sm s : 0 <= value <= 2 ^ 32 -> 0 < union <= 2 ^ 32 ->
  all_chars (fun c => negb (Ascii.eqb c zero)) text = true -> Z.of_nat (String.length text) <= INT_MAX - 2 -> holds m l -> holds sm s ->
  parse_c text = Ok (Some x) -> ast_to_string x = Ok t -> Z.of_nat (String.length t) < INT_MAX ->
  exists e sm' m1 p m2 m3 m4,
    live_parse (x_sizes value union) junk text sm m = Ok ((Some e, sm'), m1) /\ holds sm' s /\ er_expr e = x /\
    h_ast_to_string e m1 = Ok (p, m2) /\ hs_text p = t /\ holds m2 (hs_at p :: blocks e ++ l) /\
    free (hs_at p) m2 = Ok (tt, m3) /\ h_free e m3 = Ok (tt, m4) /\ holds m4 l.
Proof.
  intros Bv Bu N B H Hs Ex Et Bt. destruct (full_parse_ok value union junk text m l sm s (conj Bv Bu) N B H Hs) as ((o & sm') & m1 & E & Hs' & P & Q).
  apply (live_parse_same _ junk text sm m l _ _ H) in E.
  cbn [fst snd] in *. rewrite Ex in P. destruct o as [e|]; [|discriminate P]. injection P as P. destruct Q as (Fe & H1). rewrite P in Et.
  destruct (C70_text e t m1 l Et Bt (full_named e Fe) H1) as (p & m2 & E2 & Ep & H2).
  destruct (wp_drop (hs_at p) m2 (blocks e ++ l) (fun _ m' => holds m' (blocks e ++ l)) H2 (fun m' K => K)) as ([] & m3 & E3 & H3).
  destruct (HeapProofs.free_ok e m3 (blocks e ++ l) l (fun _ m' => holds m' l) H3 (Permutation_refl _) (fun m' K => K)) as ([] & m4 & E4 & H4).
  exists e, sm', m1, p, m2, m3, m4. now repeat (split; [assumption || symmetry; assumption|]).
Qed.
Print Assumptions C70_session.

Definition printed_of {A} (r : result (A * ledger)) : option (A * list Z) := match r with Ok (x, m) => Some (x, l_live m) | _ => None end.
Example C70_case :
  (* nine blocks are made for the text, eight of them are released *)
  (exists e m, h_parse "a > 1 and not b in ('x', 'y')" (mkLedger 1 []) = Ok (Some e, m) /\ List.length (blocks e) = 10%nat /\ l_next m = 16 /\
    exists m', h_ast_to_string e m = Ok (mkHS 24 "((a > 1) and ((not (b in (""x"", ""y"")))))", m') /\ l_next m' = 25 /\ l_live m' = 24 :: l_live m) /\
  (* an empty list, a name that is NULL, a type of caps that is not known *)
  h_ast_to_string (HLeaf 1 0 (HPSet SIn (HLInt 1) (HRInts (mkHI 2 0 [])))) (mkLedger 3 [1; 2]) = UB /\
  h_ast_to_string (HLeaf 1 0 (HPCmp CLt (mkHV NULL 0) (CInt 1))) (mkLedger 2 [1]) = UB /\
  h_ast_to_string (HLeaf 1 0 (HPFreq (mkHV NULL 0) FTInvalid (mkHSV (mkHS 2 "ns") 0) 1 1 (mkHV NULL 0) 0)) (mkLedger 3 [1; 2]) = Abort /\
  (* a node that was released *)
  h_ast_to_string (HLeaf 1 0 (HPLit true)) (mkLedger 2 []) = UB.
Proof.
  split; [eexists _, _; split; [vm_compute; reflexivity|]; split; [reflexivity|]; split; [reflexivity|]; eexists; split; [vm_compute; reflexivity|]; now split|].
  split; [reflexivity|]. split; [reflexivity|]. split; reflexivity.
Qed.

(** ** C71 *)
(** The text of the event and a NUL are written to the buffer, which stays as it is from there on; memory is as before. *)
Theorem C71_event e buf t m l : event_text (er_event e) = Some t -> Z.of_nat (String.length t) < INT_MAX -> (String.length t < List.length buf)%nat ->
  holds m (bl_event e ++ l) ->
  exists m', h_event_to_string e buf m = Ok (bytes t ++ [0] ++ skipn (String.length t + 1) buf, m') /\ holds m' (bl_event e ++ l).
Proof.
  intros E B F H. destruct (event_ok e buf t m _ E B F H (incl_appl l (incl_refl _))) as (b & m' & Eb & -> & H'). exists m'.
  rewrite Nat.add_1_r. now split.
Qed.
Print Assumptions C71_event.
(** It succeeds for no other event and in no smaller buffer. *)
Theorem C71_event_only e buf m b m' : h_event_to_string e buf m = Ok (b, m') ->
  exists t, event_text (er_event e) = Some t /\ (String.length t < List.length buf)%nat /\ b = bytes t ++ [0] ++ skipn (String.length t + 1) buf.
Proof.
  intros E. destruct (event_only e buf m b m' E) as (t & Et & F & ->). exists t. rewrite Nat.add_1_r. now split.
Qed.
Print Assumptions C71_event_only.
(** The line of a variable. *)
Theorem C71_line x t m l : line_text (option_map er_variable x) = Some t -> Z.of_nat (String.length t) < INT_MAX -> holds m (bl_slot x ++ l) ->
  exists m', h_print_variable x m = Ok (t, m') /\ holds m' (bl_slot x ++ l).
Proof.
  intros E B H. destruct (line_ok x t m _ E B H (incl_appl l (incl_refl _))) as (s & m' & Es & -> & H'). now exists m'.
Qed.
Print Assumptions C71_line.
Theorem C71_line_only x m t m' : h_print_variable x m = Ok (t, m') -> line_text (option_map er_variable x) = Some t.
Proof. exact (line_only x m t m'). Qed.
Print Assumptions C71_line_only.
(** The text of an event is read, the event printed into a buffer, and released: nothing remains. *)
Theorem C71_session value union junk text vs t buf m l sm s : 0 <= value <= 2 ^ 32 -> 0 < union <= 2 ^ 32 ->
  all_chars (fun c => negb (Ascii.eqb c zero)) text = true -> Z.of_nat (String.length text) <= INT_MAX - 2 -> holds m l -> holds sm s ->
  event_parse_c text = Ok (Some vs) -> event_text (map Some vs) = Some t -> Z.of_nat (String.length t) < INT_MAX ->
  (String.length t < List.length buf)%nat ->
  exists e sm' m1 m2 m3,
    live_event_parse (e_sizes value union) junk text sm m = Ok ((Some e, sm'), m1) /\ holds sm' s /\
    h_event_to_string e buf m1 = Ok (bytes t ++ [0] ++ skipn (String.length t + 1) buf, m2) /\
    h_free_event e m2 = Ok (tt, m3) /\ holds m3 l.
Proof.
  intros Bv Bu N B H Hs Ex Et Bt F. destruct (full_event_parse_ok value union junk text m l sm s (conj Bv Bu) N B H Hs) as ((o & sm') & m1 & E & Hs' & Q).
  apply (live_event_parse_same _ junk text sm m l _ _ H) in E.
  cbn [fst snd] in *. destruct o as [e|]; [|destruct Q as (Q & _); congruence]. destruct Q as ((b & Eb & Ee) & H1).
  assert (b = vs) by congruence. subst b. rewrite <- Ee in Et.
  destruct (C71_event e buf t m1 l Et Bt F H1) as (m2 & E2 & H2).
  destruct (free_event_ok e m2 (bl_event e ++ l) l (fun _ m' => holds m' l) H2 (Permutation_refl _) (fun m' K => K)) as ([] & m3 & E3 & H3).
  exists e, sm', m1, m2, m3. now repeat (split; [assumption|]).
Qed.
Print Assumptions C71_session.

Definition print_text (text : string) (n : nat) : option (list Z * nat) :=
  match h_event_parse text (mkLedger 1 []) with
  | Ok (Some e, m) => match h_event_to_string e (repeat 7 n) m with Ok (b, m') => Some (b, List.length (l_live m')) | _ => None end
  | _ => None
  end.
Definition line_of (text : string) : option string :=
  match h_event_parse text (mkLedger 1 []) with
  | Ok (Some e, m) => match he_vars e with x :: _ => match h_print_variable x m with Ok (t, m') => if (List.length (l_live m) =? List.length (l_live m'))%nat then Some t else None | _ => None end | [] => None end
  | _ => None
  end.
Example C71_case :
  (* 37 characters and the NUL *)
  print_text "{""b"": true, ""i"": 5, ""il"": [1,2], ""s"": ""x""}" 38 = Some (bytes "b = true, i = 5, il = (1, 2), s = ""x""" ++ [0], 13%nat) /\
  print_text "{""b"": true, ""i"": 5, ""il"": [1,2], ""s"": ""x""}" 40 = Some (bytes "b = true, i = 5, il = (1, 2), s = ""x""" ++ [0; 7; 7], 13%nat) /\
  print_text "{""b"": true, ""i"": 5, ""il"": [1,2], ""s"": ""x""}" 37 = None /\
  print_text "{}" 1 = Some ([0], 1%nat) /\
  line_of "{""fc"": [[[""flight"", 10, ""ns""], 20, 30], [[""flight"", 11, ""ns""], 21, 31]]}" =
    Some "frequency_caps fc = [[""flight"", 10, ""ns""], 20, 30], [[""flight"", 11, ""ns""], 21, 31]" /\
  line_of "{""sg"": [[1, 2], [3, 4]]}" = Some "segments sg = [1, 2], [3, 4]" /\
  line_of "{""i"": -5}" = Some "integer i = -5".
Proof. do 6 (split; [vm_compute; reflexivity|]). vm_compute. reflexivity. Qed.
