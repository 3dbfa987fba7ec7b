(** The two parsers with their stacks and scanners. *)
From Coq Require Import ZArith NArith Ascii String Bool List Lia Permutation ZifyBool ZifyNat.
From Verif Require Import Base Float Value Ast Lexer LexSpec Flex FlexTables FlexProofs Grammar Parser Bison BisonTables BisonProofs BisonExpr BisonEvent EventText.
From Verif Require Import Ledger HeapExpr HeapEvent HeapSpec PermTac LedgerProofs HeapProofs HeapParse HeapRules HeapText HeapEventSpec HeapEventProofs HeapEventRules HeapEventText HeapSearch.
From Verif Require Import FlexBuffer FlexBufferProofs HeapBuffer BisonStack BisonStackProofs.
Import ListNotations.
Local Open Scope Z_scope.
Local Open Scope list_scope.

(** Sizes of YYSTYPE and the union that make sense. *)
Definition sizes_ok (value union : Z) : Prop := 0 <= value <= 2 ^ 32 /\ 0 < union <= 2 ^ 32.

Lemma at_all (f : Z -> bool) (l : list Z) : forallb f l = true -> forall i x, at_ l i = Ok x -> f x = true.
Proof.
  intros F i x E. unfold at_ in E. destruct (i <? 0); [discriminate E|]. destruct (nth_error l (Z.to_nat i)) as [y|] eqn:N; [|discriminate E].
  injection E as ->. rewrite forallb_forall in F. apply F. now apply nth_error_In in N.
Qed.
Lemma at_within (l : list Z) i : 0 <= i < Z.of_nat (List.length l) -> exists x, at_ l i = Ok x.
Proof.
  intros B. unfold at_. replace (i <? 0) with false by lia. destruct (nth_error l (Z.to_nat i)) as [y|] eqn:N; [now exists y|].
  apply nth_error_None in N. lia.
Qed.
Lemma check_ok P : p_last P < Z.of_nat (List.length (p_check P)) -> forallb (fun c => negb (c =? YYTERROR)) (p_check P) = true ->
  forall i, 0 <= i <= p_last P -> exists c, at_ (p_check P) i = Ok c /\ c <> YYTERROR.
Proof.
  intros L F i B. destruct (at_within (p_check P) i ltac:(lia)) as (c & E). exists c. split; [exact E|].
  apply (at_all _ _ F) in E. lia.
Qed.
Lemma range_ok lo hi l : forallb (fun x => (lo <=? x) && (x <=? hi)) l = true -> forall i x, at_ l i = Ok x -> lo <= x <= hi.
Proof. intros F i x E. apply (at_all _ _ F) in E. lia. Qed.

Lemma x_stack_sim value union ts m lb m' sm l : sizes_ok value union -> holds sm l -> h_xxparse ts m = Ok (lb, m') ->
  exists e, s_xxparse (x_sizes value union) ts sm m = Ok (e, m') /\
    en_out e = lb_out lb /\ en_root e = lb_root lb /\ en_la e = lb_la lb /\ en_rest e = lb_rest lb /\ holds (en_mem e) l.
Proof.
  intros (Bv & Bu) H E. unfold s_xxparse. unfold h_xxparse in E. eapply yyparse_sim; [| | | | | |exact H|exact E].
  - cbn. lia.
  - unfold stack_bytes, gap, YYMAXDEPTH, SIZE_MAX, UINT64_MAX, x_sizes, e_sizes. cbn [z_state z_value z_union].
    change (2 ^ 32) with 4294967296 in *. change (2 ^ 64) with 18446744073709551616. lia.
  - cbn. lia.
  - apply range_ok. vm_compute. reflexivity.
  - apply range_ok. vm_compute. reflexivity.
  - apply check_ok; vm_compute; reflexivity.
Qed.
Lemma e_stack_sim value union ts m lb m' sm l : sizes_ok value union -> holds sm l -> h_zzparse ts m = Ok (lb, m') ->
  exists e, s_zzparse (e_sizes value union) ts sm m = Ok (e, m') /\
    en_out e = lb_out lb /\ en_root e = lb_root lb /\ en_la e = lb_la lb /\ en_rest e = lb_rest lb /\ holds (en_mem e) l.
Proof.
  intros (Bv & Bu) H E. unfold s_zzparse. unfold h_zzparse in E. eapply yyparse_sim; [| | | | | |exact H|exact E].
  - cbn. lia.
  - unfold stack_bytes, gap, YYMAXDEPTH, SIZE_MAX, UINT64_MAX, x_sizes, e_sizes. cbn [z_state z_value z_union].
    change (2 ^ 32) with 4294967296 in *. change (2 ^ 64) with 18446744073709551616. lia.
  - cbn. lia.
  - apply range_ok. vm_compute. reflexivity.
  - apply range_ok. vm_compute. reflexivity.
  - apply check_ok; vm_compute; reflexivity.
Qed.

(** The parsers of tokens. *)
Lemma s_xxparse_ok value union ts o m l sm s : sizes_ok value union -> holds sm s -> holds m l -> xxparse ts = Ok o ->
  wp (s_xxparse (x_sizes value union) ts sm) m (fun e m' => holds (en_mem e) s /\ exists own, holds m' (own ++ l) /\
    ((exists a b, o = Accepted (Some b) /\ en_out e = Accepted (Some a) /\ likeR a b /\ own = blocks a) \/
     ((en_out e = Rejected /\ o = Rejected \/ en_out e = Exhausted /\ o = Exhausted) /\
      (exists read, ts = read ++ en_rest e /\ (Exists heavy (read ++ x_seen (en_rest e) (en_out e)) -> own <> []))))).
Proof.
  intros Z Hs H E. destruct (h_xxparse_ok ts o m l H E) as (lb & m' & Eh & Q).
  destruct (x_stack_sim value union ts m lb m' sm s Z Hs Eh) as (e & Ee & E1 & E2 & E3 & E4 & He).
  exists e, m'. split; [exact Ee|]. split; [exact He|]. rewrite E1, E4.
  destruct Q as [(a & b & X1 & X2 & X3 & X4)|(X1 & X2 & X3)].
  - exists (blocks a). split; [exact X4|]. left. now exists a, b.
  - exists (x_lost lb). split; [exact X3|]. right. now split.
Qed.
Lemma s_zzparse_ok value union ts o m l sm s : sizes_ok value union -> holds sm s -> holds m l -> zzparse ts = Ok o ->
  wp (s_zzparse (e_sizes value union) ts sm) m (fun e m' => holds (en_mem e) s /\ exists own, holds m' (own ++ l) /\
    ((exists a b, o = Accepted (Some b) /\ en_out e = Accepted (Some a) /\ e_likeR a b /\ own = bl_event a) \/
     ((en_out e = Rejected /\ o = Rejected \/ en_out e = Exhausted /\ o = Exhausted) /\
      (exists read, ts = read ++ en_rest e /\
        (en_out e = Rejected -> Exists e_heavy (read ++ firstn 1 (en_rest e)) -> own <> []))))).
Proof.
  intros Z Hs H E. destruct (h_zzparse_ok ts o m l H E) as (lb & m' & Eh & Q).
  destruct (e_stack_sim value union ts m lb m' sm s Z Hs Eh) as (e & Ee & E1 & E2 & E3 & E4 & He).
  exists e, m'. split; [exact Ee|]. split; [exact He|]. rewrite E1, E4.
  destruct Q as [(a & b & X1 & X2 & X3 & X4)|(X1 & X2 & X3)].
  - exists (bl_event a). split; [exact X4|]. left. now exists a, b.
  - exists (e_lost lb). split; [exact X3|]. right. now split.
Qed.

(** With the scanner. *)
Lemma full_parse_ok value union junk text m l sm s : sizes_ok value union -> no_nul text = true ->
  Z.of_nat (String.length text) <= INT_MAX - 2 -> holds m l -> holds sm s ->
  wp (full_parse (x_sizes value union) junk text sm) m (fun p m' => holds (snd p) s /\ parse_c text = Ok (option_map er_expr (fst p)) /\
    match fst p with
    | Some e => full e /\ holds m' (blocks e ++ l)
    | None => exists lost read rest, lex text = read ++ rest /\ holds m' (lost ++ l) /\
        (Exists heavy read -> lost <> []) /\ (xxparse (lex text) = Ok Rejected -> Exists heavy (firstn 1 rest) -> lost <> [])
    end).
Proof.
  intros Z N B H Hs. destruct (x_scan_all junk text N B) as (g & g' & E1 & E2 & E3). pose proof (x_lex_ok text N) as L.
  destruct (xxparse_ok (lex text)) as (o & E & _). unfold parse_c. rewrite L. cbn [bind]. rewrite E. cbn [bind].
  unfold full_parse. lstep. eapply wp_mono; [eapply h_scanned_ok with (R := fun e own => holds (en_mem e) s /\
    ((exists a b, o = Accepted (Some b) /\ en_out e = Accepted (Some a) /\ likeR a b /\ own = blocks a) \/
     ((en_out e = Rejected /\ o = Rejected \/ en_out e = Exhausted /\ o = Exhausted) /\
      (exists read, lex text = read ++ en_rest e /\ (Exists heavy (read ++ x_seen (en_rest e) (en_out e)) -> own <> [])))));
    [exact E1|exact E2|exact E3| |exact H]|].
  - intros m0 l0 H0. eapply wp_mono; [exact (s_xxparse_ok value union (lex text) o m0 l0 sm s Z Hs H0 E)|].
    intros e m' (He & own & Ho & Q). exists own. auto.
  - intros e m' (own & (He & Q) & H'). lstep. cbn [fst snd]. split; [exact He|].
    destruct Q as [(a & b & -> & Eo & (Ea & Nn) & ->)|(Eo & (read & Er & Hv))].
    + rewrite Eo. split; [cbn; now rewrite Ea|]. now split.
    + assert (Eo' : match en_out e with Accepted r => r | _ => None end = None) by (destruct Eo as [(-> & _)|(-> & _)]; reflexivity).
      rewrite Eo'. split; [destruct Eo as [(_ & ->)|(_ & ->)]; reflexivity|].
      exists own, read, (en_rest e). split; [exact Er|]. split; [exact H'|].
      split; [intros X; apply Hv, Exists_app; now left|]. intros Rj X. apply Hv, Exists_app. right. unfold fetched.
      destruct Eo as [(-> & _)|(_ & ->)]; [exact X|congruence].
Qed.
Lemma full_event_parse_ok value union junk text m l sm s : sizes_ok value union -> no_nul text = true ->
  Z.of_nat (String.length text) <= INT_MAX - 2 -> holds m l -> holds sm s ->
  wp (full_event_parse (e_sizes value union) junk text sm) m (fun p m' => holds (snd p) s /\
    match fst p with
    | Some e => (exists b, event_parse_c text = Ok (Some b) /\ er_event e = map Some b) /\ holds m' (bl_event e ++ l)
    | None => event_parse_c text = Ok None /\ exists lost read rest, elex text = read ++ rest /\ holds m' (lost ++ l) /\
        (zzparse (elex text) = Ok Rejected -> Exists e_heavy (read ++ firstn 1 rest) -> lost <> [])
    end).
Proof.
  intros Z N B H Hs. destruct (e_scan_all junk text N B) as (g & g' & E1 & E2 & E3). pose proof (e_lex_ok text N) as L.
  destruct (zzparse_ok (elex text)) as (o & E & _). unfold event_parse_c. rewrite L. cbn [bind]. rewrite E. cbn [bind].
  unfold full_event_parse. lstep. eapply wp_mono; [eapply h_scanned_ok with (R := fun e own => holds (en_mem e) s /\
    ((exists a b, o = Accepted (Some b) /\ en_out e = Accepted (Some a) /\ e_likeR a b /\ own = bl_event a) \/
     ((en_out e = Rejected /\ o = Rejected \/ en_out e = Exhausted /\ o = Exhausted) /\
      (exists read, elex text = read ++ en_rest e /\
        (en_out e = Rejected -> Exists e_heavy (read ++ firstn 1 (en_rest e)) -> own <> [])))));
    [exact E1|exact E2|exact E3| |exact H]|].
  - intros m0 l0 H0. eapply wp_mono; [exact (s_zzparse_ok value union (elex text) o m0 l0 sm s Z Hs H0 E)|].
    intros e m' (He & own & Ho & Q). exists own. auto.
  - intros e m' (own & (He & Q) & H'). lstep. cbn [fst snd]. split; [exact He|].
    destruct Q as [(a & b & -> & Eo & Ea & ->)|(Eo & (read & Er & Hv))].
    + rewrite Eo. split; [|exact H']. exists b. now split.
    + assert (Eo' : match en_out e with Accepted r => r | _ => None end = None) by (destruct Eo as [(-> & _)|(-> & _)]; reflexivity).
      rewrite Eo'. split; [destruct Eo as [(_ & ->)|(_ & ->)]; reflexivity|].
      exists own, read, (en_rest e). split; [exact Er|]. split; [exact H'|].
      intros Rj X. apply Hv; [|exact X]. destruct Eo as [(Eq & _)|(_ & ->)]; [exact Eq|congruence].
Qed.
