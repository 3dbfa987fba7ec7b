(** Reading and releasing the text of an expression. *)
From Coq Require Import ZArith NArith String Bool List Lia Permutation ZifyBool ZifyNat.
From Verif Require Import Base Float Value Ast Lexer Grammar Parser Flex FlexTables Bison BisonTables BisonData BisonProofs BisonExpr.
From Verif Require Import Ledger HeapExpr HeapSpec PermTac LedgerProofs HeapProofs HeapParse HeapRules.
Import ListNotations.
Local Open Scope Z_scope.
Local Open Scope list_scope.

Lemma x_no_prog k x : at_ (p_r1 xp_tables) k = Ok x -> 2 <= k -> ~ In 38 (right xp_rhs k).
Proof.
  intros E B I.
  assert (C : forallb (fun k => negb (existsb (Z.eqb 38) (right xp_rhs (Z.of_nat k)))) (seq 2 75) = true) by (vm_compute; reflexivity).
  rewrite forallb_forall in C. specialize (C (Z.to_nat k)).
  unfold at_ in E. destruct (k <? 0); [discriminate E|].
  destruct (nth_error (p_r1 xp_tables) (Z.to_nat k)) eqn:N; [|discriminate E].
  assert (Z.to_nat k < List.length (p_r1 xp_tables))%nat by (apply nth_error_Some; congruence).
  change (List.length (p_r1 xp_tables)) with 77%nat in *. rewrite Z2Nat.id in C by lia.
  assert (X : negb (existsb (Z.eqb 38) (right xp_rhs k)) = true) by (apply C, in_seq; lia).
  apply negb_true_iff in X. assert (Y : existsb (Z.eqb 38) (right xp_rhs k) = true) by (apply existsb_exists; exists 38; easy).
  congruence.
Qed.
Lemma x_prog_only q : 0 <= q < Z.of_nat 168 -> stos xp_stos q = 38 -> q = 17.
Proof.
  intros B E.
  assert (C : forallb (fun q => negb (stos xp_stos q =? 38) || (q =? 17)) (range 168) = true) by (vm_compute; reflexivity).
  rewrite forallb_forall in C. specialize (C q (in_range _ _ B)). lia.
Qed.
Lemma x_prog_end t : 0 <= t < p_ntokens xp_tables ->
  move_of xp_tables 17 (Ok t) = Ok Error \/ t = 0 /\ move_of xp_tables 17 (Ok t) = Ok (Shift (p_final xp_tables)).
Proof.
  intros B.
  assert (C : forallb (fun t => match move_of xp_tables 17 (Ok t) with
      | Ok Error => true | Ok (Shift q) => (t =? 0) && (q =? p_final xp_tables) | _ => false end)
    (range (Z.to_nat (p_ntokens xp_tables))) = true) by (vm_compute; reflexivity).
  rewrite forallb_forall in C. assert (I : In t (range (Z.to_nat (p_ntokens xp_tables)))).
  { apply in_range. change (p_ntokens xp_tables) with 37 in *. lia. }
  specialize (C t I).
  destruct (move_of xp_tables 17 (Ok t)) as [[q|k|]| | |]; try discriminate C; [right|now left].
  apply andb_true_iff in C. destruct C as (C1 & C2). apply Z.eqb_eq in C1, C2. subst. easy.
Qed.
Lemma x_prog_low q : 0 <= q < p_ntokens xp_tables -> q <> 38.
Proof. change (p_ntokens xp_tables) with 37. lia. Qed.
Lemma x_err_reads q p : 0 <= q < Z.of_nat 168 -> at_ (p_pact xp_tables) q = Ok p -> p = p_ninf xp_tables -> at_ (p_defact xp_tables) q <> Ok 0.
Proof.
  intros B E Ep.
  assert (C : forallb (fun q => match at_ (p_pact xp_tables) q, at_ (p_defact xp_tables) q with
      | Ok p, Ok d => negb (p =? p_ninf xp_tables) || negb (d =? 0) | _, _ => true end) (range 168) = true) by (vm_compute; reflexivity).
  rewrite forallb_forall in C. specialize (C q (in_range _ _ B)). rewrite E in C.
  destruct (at_ (p_defact xp_tables) q) as [d| | |]; try discriminate. rewrite (proj2 (Z.eqb_eq _ _) Ep) in C. cbn [negb orb] in C.
  intros X. injection X as ->. discriminate C.
Qed.

(** The values that are followed have blocks. *)
Definition x_hv (v : hval) : Prop := bl_val v <> [].
Definition x_hvR (e : hexpr) : Prop := blocks e <> [].
Lemma hv_flat {A} (f : A -> list Z) l : Exists (fun v => f v <> []) l -> flat_map f l <> [].
Proof.
  induction 1 as [v l H|v l _ IH]; cbn [flat_map]; intros E; apply app_eq_nil in E; destruct E as (E1 & E2); [now apply H|now apply IH].
Qed.
Lemma x_act_hv k x w vs vs' m l : at_ (p_r1 xp_tables) k = Ok x -> specs xspec (right xp_rhs k) w vs -> 2 <= k ->
  Forall2 like vs' vs -> holds m (flat_map bl_val vs' ++ l) ->
  wp (hx_act k vs') m (fun vo m' => exists v o, xp_act k vs = Ok (v, o) /\ like (fst vo) v /\
    if x =? 38 then exists r r', o = Some r /\ snd vo = Some r' /\ likeR r' r /\ (Exists x_hv vs' -> x_hvR r') /\ holds m' (blocks r' ++ l)
    else o = None /\ snd vo = None /\ (Exists x_hv vs' -> x_hv (fst vo)) /\ holds m' (bl_val (fst vo) ++ l)).
Proof.
  intros E S B L H. eapply wp_mono; [exact (x_act_ok k x w vs vs' m l E S B L H)|].
  intros vo m' (v & o & Ea & Lv & X). exists v, o. split; [exact Ea|]. split; [exact Lv|]. destruct (x =? 38).
  - destruct X as (r & r' & X1 & X2 & X3 & X4 & X5). exists r, r'. repeat (split; [easy|]).
    split; [intros Y; apply X4; now apply hv_flat|exact X5].
  - destruct X as (X1 & X2 & X3 & X4). repeat (split; [easy|]). split; [intros Y; apply X3; now apply hv_flat|exact X4].
Qed.

Notation x_lost := (leaks (K := token) xp_stos 38 bl_val blocks).
Notation x_seen := (fetched (K := token) (R' := hexpr)).
Lemma h_xxparse_ok ts o m l : holds m l -> xxparse ts = Ok o ->
  wp (h_xxparse ts) m (fun lb m' =>
    (exists a b, o = Accepted (Some b) /\ lb_out lb = Accepted (Some a) /\ likeR a b /\ holds m' (blocks a ++ l)) \/
    ((lb_out lb = Rejected /\ o = Rejected \/ lb_out lb = Exhausted /\ o = Exhausted) /\
      (exists read, ts = read ++ lb_rest lb /\ (Exists heavy (read ++ x_seen (lb_rest lb) (lb_out lb)) -> x_lost lb <> [])) /\
      holds m' (x_lost lb ++ l))).
Proof.
  intros H E. unfold h_xxparse, xxparse in *.
  eapply wp_mono; [eapply parse_like with (hv := x_hv) (hvR := x_hvR) (own := bl_val) (ownR := blocks) (heavy := heavy) (yylval := xp_lval) (garbage := XTok) (act := xp_act) (like := like) (likeR := likeR) (Spec := xspec) (Goal := g_expr)|].
  - exact xsym_ok.
  - exact x_sound_checked.
  - exact xspec_token.
  - exact xspec_rule.
  - now split.
  - exact x_scan_ok.
  - exact x_act_hv.
  - exact x_no_prog.
  - exact x_prog_only.
  - exact x_prog_end.
  - exact x_prog_low.
  - exact x_err_reads.
  - exact H.
  - exact E.
  - intros lb m' [X|(X1 & (read & X2 & X3) & _ & X4)]; [now left|right]. split; [exact X1|]. split; [|exact X4].
    exists read. split; [exact X2|]. intros Y. specialize (X3 Y). unfold leaks. intros Z0. apply app_eq_nil in Z0. destruct Z0 as (Z1 & Z0).
    apply app_eq_nil in Z0. destruct Z0 as (Z2 & Z3). destruct X3 as [X|[X|X]].
    + apply (hv_flat (own_entry xp_stos 38 bl_val)) in Z1; [exact Z1|]. eapply Exists_impl; [|exact X]. intros e (Ne & He).
      unfold own_entry. now rewrite (proj2 (Z.eqb_neq _ _) Ne).
    + destruct (lb_la lb); [now apply X|exact X].
    + destruct (lb_root lb); [now apply X|exact X].
Qed.

(** parse: an expression and its blocks, or what is lost. *)
Lemma h_parse_full text ts m l : x_lex text = Ok ts -> holds m l ->
  wp (h_parse text) m (fun o m' => parse_c text = Ok (option_map er_expr o) /\
    match o with
    | Some e => full e /\ holds m' (blocks e ++ l)
    | None => exists lost read rest, ts = read ++ rest /\ holds m' (lost ++ l) /\
        (Exists heavy read -> lost <> []) /\ (xxparse ts = Ok Rejected -> Exists heavy (firstn 1 rest) -> lost <> [])
    end).
Proof.
  intros L H. unfold h_parse, parse_c. rewrite L. cbn [bind]. destruct (xxparse_ok ts) as (o & E & _). rewrite E. cbn [bind].
  repeat lstep. eapply wp_mono; [exact (h_xxparse_ok ts o m l H E)|].
  intros lb m' [(a & b & -> & Eo & (Ea & N) & H')|(Eo & (read & Er & Hv) & H')]; lstep.
  - rewrite Eo. split; [cbn; now rewrite Ea|]. now split.
  - assert (Eo' : match lb_out lb with Accepted r => r | _ => None end = None) by (destruct Eo as [(-> & _)|(-> & _)]; reflexivity).
    rewrite Eo'. split; [destruct Eo as [(_ & ->)|(_ & ->)]; reflexivity|].
    exists (x_lost lb), read, (lb_rest lb). split; [exact Er|]. split; [exact H'|].
    split; [intros X; apply Hv, Exists_app; now left|]. intros Rj X. apply Hv, Exists_app. right. unfold fetched.
    destruct Eo as [(-> & _)|(_ & ->)]; [exact X|congruence].
Qed.
Lemma h_parse_ok text ts m l : x_lex text = Ok ts -> holds m l ->
  wp (h_parse text) m (fun o m' => parse_c text = Ok (option_map er_expr o) /\
    match o with
    | Some e => named e /\ holds m' (blocks e ++ l)
    | None => exists lost read rest, ts = read ++ rest /\ holds m' (lost ++ l) /\
        (Exists heavy read -> lost <> []) /\ (xxparse ts = Ok Rejected -> Exists heavy (firstn 1 rest) -> lost <> [])
    end).
Proof.
  intros L H. eapply wp_mono; [exact (h_parse_full text ts m l L H)|]. intros [e|] m' (E & X); (split; [exact E|]); [|exact X].
  destruct X as (F & X). split; [now apply full_named|exact X].
Qed.
