(** Reading and releasing the text of an event. *)
From Coq Require Import ZArith NArith String Bool List Lia Permutation ZifyBool ZifyNat.
From Verif Require Import Base Float Value Ast Lexer EventGrammar Flex FlexTables Bison BisonTables BisonData BisonProofs BisonEvent EventObj.
From Verif Require Import Ledger HeapExpr HeapSpec HeapEvent HeapEventSpec PermTac LedgerProofs HeapProofs HeapParse HeapRules HeapText HeapEventProofs HeapEventRules.
Import ListNotations.
Local Open Scope Z_scope.
Local Open Scope list_scope.

Lemma e_no_prog k x : at_ (p_r1 ep_tables) k = Ok x -> 2 <= k -> ~ In 17 (right ep_rhs k).
Proof.
  intros E B I.
  assert (C : forallb (fun k => negb (existsb (Z.eqb 17) (right ep_rhs (Z.of_nat k)))) (seq 2 38) = true) by (vm_compute; reflexivity).
  rewrite forallb_forall in C. specialize (C (Z.to_nat k)).
  unfold at_ in E. destruct (k <? 0); [discriminate E|].
  destruct (nth_error (p_r1 ep_tables) (Z.to_nat k)) eqn:N; [|discriminate E].
  assert (Z.to_nat k < List.length (p_r1 ep_tables))%nat by (apply nth_error_Some; congruence).
  change (List.length (p_r1 ep_tables)) with 40%nat in *. rewrite Z2Nat.id in C by lia.
  assert (X : negb (existsb (Z.eqb 17) (right ep_rhs k)) = true) by (apply C, in_seq; lia).
  apply negb_true_iff in X. assert (Y : existsb (Z.eqb 17) (right ep_rhs k) = true) by (apply existsb_exists; exists 17; easy).
  congruence.
Qed.
Lemma e_prog_only q : 0 <= q < Z.of_nat 83 -> stos ep_stos q = 17 -> q = 2.
Proof.
  intros B E.
  assert (C : forallb (fun q => negb (stos ep_stos q =? 17) || (q =? 2)) (range 83) = true) by (vm_compute; reflexivity).
  rewrite forallb_forall in C. specialize (C q (in_range _ _ B)). lia.
Qed.
Lemma e_prog_end t : 0 <= t < p_ntokens ep_tables ->
  move_of ep_tables 2 (Ok t) = Ok Error \/ t = 0 /\ move_of ep_tables 2 (Ok t) = Ok (Shift (p_final ep_tables)).
Proof.
  intros B.
  assert (C : forallb (fun t => match move_of ep_tables 2 (Ok t) with
      | Ok Error => true | Ok (Shift q) => (t =? 0) && (q =? p_final ep_tables) | _ => false end)
    (range (Z.to_nat (p_ntokens ep_tables))) = true) by (vm_compute; reflexivity).
  rewrite forallb_forall in C. assert (I : In t (range (Z.to_nat (p_ntokens ep_tables)))).
  { apply in_range. change (p_ntokens ep_tables) with 16 in *. lia. }
  specialize (C t I).
  destruct (move_of ep_tables 2 (Ok t)) as [[q|k|]| | |]; try discriminate C; [right|now left].
  apply andb_true_iff in C. destruct C as (C1 & C2). apply Z.eqb_eq in C1, C2. subst. easy.
Qed.
Lemma e_prog_low q : 0 <= q < p_ntokens ep_tables -> q <> 17.
Proof. change (p_ntokens ep_tables) with 16. lia. Qed.
Lemma e_err_reads q p : 0 <= q < Z.of_nat 83 -> at_ (p_pact ep_tables) q = Ok p -> p = p_ninf ep_tables -> at_ (p_defact ep_tables) q <> Ok 0.
Proof.
  intros B E Ep.
  assert (C : forallb (fun q => match at_ (p_pact ep_tables) q, at_ (p_defact ep_tables) q with
      | Ok p, Ok d => negb (p =? p_ninf ep_tables) || negb (d =? 0) | _, _ => true end) (range 83) = true) by (vm_compute; reflexivity).
  rewrite forallb_forall in C. specialize (C q (in_range _ _ B)). rewrite E in C.
  destruct (at_ (p_defact ep_tables) q) as [d| | |]; try discriminate. rewrite (proj2 (Z.eqb_eq _ _) Ep) in C. cbn [negb orb] in C.
  intros X. injection X as ->. discriminate C.
Qed.

(** A variable is reduced further before another token is read, so none is on the stack when a token is refused. *)
Lemma e_var_top q : 0 <= q < Z.of_nat 83 -> stos ep_stos q = 19 -> at_ (p_pact ep_tables) q = Ok (p_ninf ep_tables).
Proof.
  intros B E.
  assert (C : forallb (fun q => negb (stos ep_stos q =? 19) ||
      match at_ (p_pact ep_tables) q with Ok p => p =? p_ninf ep_tables | _ => false end) (range 83) = true) by (vm_compute; reflexivity).
  rewrite forallb_forall in C. specialize (C q (in_range _ _ B)). rewrite E in C. cbn [negb Z.eqb Pos.eqb orb] in C.
  destruct (at_ (p_pact ep_tables) q) as [p| | |]; try discriminate C. f_equal. lia.
Qed.
Lemma e_var_last q q' : 0 <= q' < Z.of_nat 83 -> In q (nthz ep_preds q' []) -> stos ep_stos q <> 19.
Proof.
  intros B I E.
  assert (C : forallb (fun q => forallb (fun p => negb (stos ep_stos p =? 19)) (nthz ep_preds q [])) (range 83) = true) by (vm_compute; reflexivity).
  rewrite forallb_forall in C. specialize (C q' (in_range _ _ B)). rewrite forallb_forall in C. specialize (C q I). lia.
Qed.
Lemma espec_var x w v : espec x w (YVariable v) -> x = 19.
Proof.
  intros H. destruct x as [|x|x]; try contradiction H.
  do 6 (destruct x as [x|x|]; try contradiction H; try reflexivity; cbn in H; try (unfold epunct in H);
    repeat match goal with H : exists _, _ |- _ => destruct H as (? & H) end; try (destruct H as (_ & H); discriminate H)).
Qed.
Notation e_stk := (stk ep_tables 83 ep_stos ep_preds espec).
Lemma e_no_var st : forall st' w, e_stk st w -> Forall2 (like_entry e_like) st' st -> List.last st' (0, GTok) = (0, GTok) ->
  (forall q v st0, st = (q, v) :: st0 -> at_ (p_pact ep_tables) q <> Ok (p_ninf ep_tables)) ->
  forall e, In e st' -> snd e <> GVariable None.
Proof.
  intros st' w S. revert st'. induction S as [v|q v st w q' v' w' S IH E X]; intros st' F L T e I Ee.
  - inversion F as [|e0 ? ? ? (Q & _) F0]; subst. inversion F0; subst. cbn in L. subst e0. destruct I as [<-|[]]. discriminate Ee.
  - inversion F as [|e0 ? st0' ? (Q & Lk) F0]; subst. apply edge_ok in E. destruct E as (Bq & _ & Ip & _).
    destruct I as [<-|I].
    + rewrite Ee in Lk. cbn in Lk. destruct v'; try contradiction. apply espec_var in X.
      eapply T; [reflexivity|]. now apply e_var_top.
    + assert (L' : List.last st0' (0, GTok) = (0, GTok)) by (inversion F0; subst; exact L).
      assert (G : forall st'' , Forall2 (like_entry e_like) st'' ((q, v) :: st) -> List.last st'' (0, GTok) = (0, GTok) ->
        forall e, In e st'' -> snd e <> GVariable None); [|exact (G st0' F0 L' e I Ee)].
      clear - IH S Bq Ip. intros st'' F L e I Ee. clear IH.
      revert F I L Ip Bq. generalize q' as p. revert st''.
      remember ((q, v) :: st) as s0 eqn:Es. revert q v st Es. induction S as [v0|q1 v1 st1 w1 q2 v2 w2 S IH E X]; intros q v st Es st'' p F I L Ip Bp.
      * injection Es as <- <- <-. inversion F as [|e0 ? ? ? (Q & _) F0]; subst. inversion F0; subst. cbn in L. subst e0. destruct I as [<-|[]]. discriminate Ee.
      * injection Es as <- <- <-. inversion F as [|e0 ? st0' ? (Q & Lk) F0]; subst. pose proof E as E'. apply edge_ok in E'. destruct E' as (Bq & _ & Ip' & _).
        destruct I as [<-|I].
        -- rewrite Ee in Lk. cbn in Lk. destruct v2; try contradiction. apply espec_var in X. now apply (e_var_last _ _ Bp Ip).
        -- eapply (IH _ _ _ eq_refl st0' q2 F0 I); [inversion F0; subst; exact L|exact Ip'|exact Bq].
Qed.

Notation e_lost := (leaks (K := etoken) ep_stos 17 bl_eval bl_event).
Notation e_seen := (fetched (K := etoken) (R' := hevent)).
Lemma h_zzparse_ok ts o m l : holds m l -> zzparse ts = Ok o ->
  wp (h_zzparse ts) m (fun lb m' =>
    (exists a b, o = Accepted (Some b) /\ lb_out lb = Accepted (Some a) /\ e_likeR a b /\ holds m' (bl_event a ++ l)) \/
    ((lb_out lb = Rejected /\ o = Rejected \/ lb_out lb = Exhausted /\ o = Exhausted) /\
      (exists read, ts = read ++ lb_rest lb /\
        (lb_out lb = Rejected -> Exists e_heavy (read ++ firstn 1 (lb_rest lb)) -> e_lost lb <> [])) /\
      holds m' (e_lost lb ++ l))).
Proof.
  intros H E. unfold h_zzparse, zzparse in *.
  eapply wp_mono; [eapply parse_like with (hv := e_hv) (hvR := e_hvR) (own := bl_eval) (ownR := bl_event) (heavy := e_heavy) (yylval := ep_lval) (garbage := YTok) (act := ep_act) (like := e_like) (likeR := e_likeR) (Spec := espec) (Goal := event_of)|].
  - exact esym_ok.
  - exact e_sound_checked.
  - exact espec_token.
  - exact espec_rule.
  - now split.
  - exact e_scan_ok.
  - exact e_act_ok.
  - exact e_no_prog.
  - exact e_prog_only.
  - exact e_prog_end.
  - exact e_prog_low.
  - exact e_err_reads.
  - exact H.
  - exact E.
  - intros lb m' [X|(X1 & (read & X2 & X3) & (st & w & S & F & Lb & La & T) & X4)]; [now left|right]. split; [exact X1|]. split; [|exact X4].
    exists read. split; [exact X2|]. intros Rj Y. rewrite Rj in X3. specialize (X3 Y). unfold leaks. intros Z0. apply app_eq_nil in Z0. destruct Z0 as (Z1 & Z0).
    apply app_eq_nil in Z0. destruct Z0 as (Z2 & Z3). destruct X3 as [X|[X|X]].
    + apply (hv_flat (own_entry ep_stos 17 bl_eval)) in Z1; [exact Z1|].
      pose proof (e_no_var st _ w S F Lb (T Rj)) as NV. apply Exists_exists in X. destruct X as (e & Ie & Ne & He).
      apply Exists_exists. exists e. split; [exact Ie|]. unfold own_entry. rewrite (proj2 (Z.eqb_neq _ _) Ne).
      specialize (NV e Ie). destruct (snd e) as [| | | | | | | | | | | | |[x|]|]; try exact He. now elim NV.
    + destruct (lb_la lb) as [v|]; [|exact X]. cbn in Z2, X. destruct (La v eq_refl) as (t & Lt).
      destruct v as [| | | | | | | | | | | | |[x|]|]; try now apply X. destruct t; contradiction Lt.
    + destruct (lb_root lb); [now apply X|exact X].
Qed.
