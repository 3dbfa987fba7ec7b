(** The blocks of the scanners are released whatever the parser does. *)
From Coq Require Import ZArith NArith Ascii String Bool List Lia Permutation.
From Verif Require Import Base Float Value Ast Lexer LexSpec Flex FlexTables FlexProofs Grammar Parser Bison BisonTables BisonProofs BisonExpr BisonEvent EventText.
From Verif Require Import Ledger HeapExpr HeapEvent HeapSpec PermTac LedgerProofs HeapProofs HeapParse HeapRules HeapText HeapEventSpec HeapEventProofs HeapEventRules HeapEventText HeapSearch.
From Verif Require Import FlexBuffer FlexBufferProofs.
Import ListNotations.
Local Open Scope Z_scope.
Local Open Scope list_scope.

Lemma h_scanned_ok {K A} (T : tables) (acts : list (act K)) (parser : list K -> cmd A) junk text g g' ts m l (R : A -> list Z -> Prop) :
  scan_string junk text = Ok g -> y_n g = String.length text -> buf_all T acts (S (String.length text)) g = Ok (ts, g') ->
  (forall m l, holds m l -> wp (parser ts) m (fun o m' => exists own, R o own /\ holds m' (own ++ l))) ->
  holds m l -> wp (h_scanned T acts parser junk text) m (fun o m' => exists own, R o own /\ holds m' (own ++ l)).
Proof.
  intros E1 E2 E3 P H. unfold h_scanned, h_lex_init, h_scan_string, h_lex_all, h_delete_buffer, h_lex_destroy.
  repeat lstep. eapply wp_fail; [exact E1|]. repeat lstep. cbn [sc_guts sc_stack sc_buffer sc_chars sc_current sc_state]. repeat lstep.
  rewrite E2. eapply wp_fail; [exact E3|]. cbn beta iota. repeat lstep.
  match goal with H : holds ?m ?l |- _ => eapply wp_mono; [exact (P m l H)|]; clear H end.
  intros o m' (own & Ro & H). repeat lstep. cbn [sc_guts sc_stack sc_buffer sc_chars sc_current sc_state]. rewrite Z.eqb_refl. cbn [Z.eqb].
  repeat lstep. cbn [sc_guts sc_stack sc_buffer sc_chars sc_current sc_state]. repeat lstep.
  match goal with H : holds ?m ?l |- wp (free 0) ?m _ => apply wp_free_opt with l l; [exact H|reflexivity|]; intros ? ?; clear H end.
  repeat lstep. exists own. split; [exact Ro|]. eapply holds_perm; [eassumption|perm].
Qed.

(** ** Reading texts with the buffer and its memory *)
Lemma scan_and_parse_ok junk text m l : no_nul text = true -> Z.of_nat (String.length text) <= INT_MAX - 2 -> holds m l ->
  wp (scan_and_parse junk text) m (fun o m' => parse_c text = Ok (option_map er_expr o) /\
    match o with
    | Some e => holds m' (blocks e ++ l)
    | None => exists lost read rest, lex text = read ++ rest /\ holds m' (lost ++ l) /\
        (Exists heavy read -> lost <> []) /\ (xxparse (lex text) = Ok Rejected -> Exists heavy (firstn 1 rest) -> lost <> [])
    end).
Proof.
  intros N B H. destruct (x_scan_all junk text N B) as (g & g' & E1 & E2 & E3). pose proof (x_lex_ok text N) as L.
  destruct (xxparse_ok (lex text)) as (o & E & _). unfold parse_c. rewrite L. cbn [bind]. rewrite E. cbn [bind].
  unfold scan_and_parse. lstep. eapply wp_mono; [eapply h_scanned_ok with (R := fun lb own =>
    (exists a b, o = Accepted (Some b) /\ lb_out lb = Accepted (Some a) /\ likeR a b /\ own = blocks a) \/
    ((lb_out lb = Rejected /\ o = Rejected \/ lb_out lb = Exhausted /\ o = Exhausted) /\
      (exists read, lex text = read ++ lb_rest lb /\ (Exists heavy (read ++ x_seen (lb_rest lb) (lb_out lb)) -> own <> []))));
    [exact E1|exact E2|exact E3| |exact H]|].
  - intros m0 l0 H0. eapply wp_mono; [exact (h_xxparse_ok (lex text) o m0 l0 H0 E)|].
    intros lb m' [(a & b & X1 & X2 & X3 & X4)|(X1 & X2 & X3)]; eexists; (split; [|eassumption]); [left|right; now split].
    exists a, b. auto.
  - intros lb m' (own & [(a & b & -> & Eo & (Ea & Nn) & ->)|(Eo & (read & Er & Hv))] & H'); lstep.
    + rewrite Eo. split; [cbn; now rewrite Ea|]. exact H'.
    + assert (Eo' : match lb_out lb with Accepted r => r | _ => None end = None) by (destruct Eo as [(-> & _)|(-> & _)]; reflexivity).
      rewrite Eo'. split; [destruct Eo as [(_ & ->)|(_ & ->)]; reflexivity|].
      exists own, read, (lb_rest lb). split; [exact Er|]. split; [exact H'|].
      split; [intros X; apply Hv, Exists_app; now left|]. intros Rj X. apply Hv, Exists_app. right. unfold fetched.
      destruct Eo as [(-> & _)|(_ & ->)]; [exact X|congruence].
Qed.
Lemma scan_and_parse_event_ok junk text m l : no_nul text = true -> Z.of_nat (String.length text) <= INT_MAX - 2 -> holds m l ->
  wp (scan_and_parse_event junk text) m (fun o m' =>
    match o with
    | Some e => (exists b, event_parse_c text = Ok (Some b) /\ er_event e = map Some b) /\ holds m' (bl_event e ++ l)
    | None => event_parse_c text = Ok None /\ exists lost read rest, elex text = read ++ rest /\ holds m' (lost ++ l) /\
        (zzparse (elex text) = Ok Rejected -> Exists e_heavy (read ++ firstn 1 rest) -> lost <> [])
    end).
Proof.
  intros N B H. destruct (e_scan_all junk text N B) as (g & g' & E1 & E2 & E3). pose proof (e_lex_ok text N) as L.
  destruct (zzparse_ok (elex text)) as (o & E & _). unfold event_parse_c. rewrite L. cbn [bind]. rewrite E. cbn [bind].
  unfold scan_and_parse_event. lstep. eapply wp_mono; [eapply h_scanned_ok with (R := fun lb own =>
    (exists a b, o = Accepted (Some b) /\ lb_out lb = Accepted (Some a) /\ e_likeR a b /\ own = bl_event a) \/
    ((lb_out lb = Rejected /\ o = Rejected \/ lb_out lb = Exhausted /\ o = Exhausted) /\
      (exists read, elex text = read ++ lb_rest lb /\
        (lb_out lb = Rejected -> Exists e_heavy (read ++ firstn 1 (lb_rest lb)) -> own <> []))));
    [exact E1|exact E2|exact E3| |exact H]|].
  - intros m0 l0 H0. eapply wp_mono; [exact (h_zzparse_ok (elex text) o m0 l0 H0 E)|].
    intros lb m' [(a & b & X1 & X2 & X3 & X4)|(X1 & X2 & X3)]; eexists; (split; [|eassumption]); [left|right; now split].
    exists a, b. auto.
  - intros lb m' (own & [(a & b & -> & Eo & Ea & ->)|(Eo & (read & Er & Hv))] & H'); lstep.
    + rewrite Eo. split; [|exact H']. exists b. now split.
    + assert (Eo' : match lb_out lb with Accepted r => r | _ => None end = None) by (destruct Eo as [(-> & _)|(-> & _)]; reflexivity).
      rewrite Eo'. split; [destruct Eo as [(_ & ->)|(_ & ->)]; reflexivity|].
      exists own, read, (lb_rest lb). split; [exact Er|]. split; [exact H'|].
      intros Rj X. apply Hv; [|exact X]. destruct Eo as [(Eq & _)|(_ & ->)]; [exact Eq|congruence].
Qed.
