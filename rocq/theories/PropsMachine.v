(** From the texts of the calls through the generated scanners and parsers and the linked index to the answers. *)
From Coq Require Import ZArith NArith Ascii String Bool List Permutation Lia ZifyBool ZifyNat ZifyN.
From Verif Require Import Base Float Value Ast Config Assign Special Match Bound Tree PredMap Source Api Spec TreeSpec Hist TreeProofs
  HistProofs AnswerProofs CountProofs Lexer LexSpec Grammar EventText EventGrammar TextApi TextHist TextLink BisonSpec BisonTables PropsGen PropsText
  Linked LinkedSpec LinkedHeap LinkedGrow LinkedApi LinkedRun PropsLinked Machine MachineSpec Check Cases PropsSearch.
Import ListNotations.
Local Open Scope Z_scope.
Local Open Scope res_scope.

Lemma free_id_intro t id : ~ In id (map s_id (subs_cnode (bt_root t))) -> free_id t id = true.
Proof.
  intros H. unfold free_id. destruct (existsb (Z.eqb id) _) eqn:E; [|reflexivity].
  apply existsb_exists in E as (x & I & Q). apply Z.eqb_eq in Q. now subst x.
Qed.
Lemma mark_take k m : mark k (map fst m) = map fst (take k m).
Proof. revert k. induction m as [|((s, b), o) m IH]; intros [|k]; cbn; [reflexivity..|]. now rewrite IH. Qed.
Lemma forget_fst m : map fst (forget m) = map fst m.
Proof. unfold forget. rewrite map_map. reflexivity. Qed.
Lemma waiting_forget m : waiting (forget m) = [].
Proof. induction m as [|((s, b), o) m IH]; [reflexivity|]. cbn. destruct b; exact IH. Qed.
Lemma waiting_app m m' : waiting (m ++ m') = waiting m ++ waiting m'.
Proof. apply flat_map_app. Qed.
Lemma waiting_take k m b e : nth_error m k = Some (b, false, Some e) ->
  exists l1 l2, waiting m = l1 ++ (b, e) :: l2 /\ waiting (take k m) = l1 ++ l2.
Proof.
  revert k. induction m as [|((s, f), o) m IH]; intros [|k] E; cbn in E; try discriminate.
  - injection E as -> -> ->. exists [], (waiting m). split; reflexivity.
  - destruct (IH k E) as (l1 & l2 & E1 & E2). cbn [take]. unfold waiting in *. cbn [flat_map]. rewrite E1, E2.
    destruct f; [exists l1, l2; split; reflexivity|]. destruct o as [e'|]; [|exists l1, l2; split; reflexivity].
    exists ((s, e') :: l1), l2. split; reflexivity.
Qed.

Section Run.
  Context {G : Geo}.

  Lemma m_snoc n l : forall q r q1 k a q2,
    m_run n q l = Ok (r, q1) -> m_call n q1 k = Ok (a, q2) -> m_run n q (l ++ [k]) = Ok (r ++ [a], q2).
  Proof.
    induction l as [|k0 l IH]; intros q r q1 k a q2 R K; cbn [m_run app] in *.
    - injection R as <- <-. rewrite K. reflexivity.
    - destruct (m_call n q k0) as [(a0, q3)| | |]; cbn [bind] in *; try discriminate.
      destruct (m_run n q3 l) as [(r0, q4)| | |] eqn:E; cbn [bind] in *; try discriminate.
      injection R as <- <-. now rewrite (IH _ _ _ _ _ _ E K).
  Qed.

  (** The program ran and memory is exactly what the tree and the caller have. *)
  Definition ran (cap minpart maxsplit : Z) (ds0 : list domain) (l : list tcall) (rs : list reply) (t : betree) (m : made) : Prop :=
    exists q0 q, p_make_tree cap minpart maxsplit ds0 = Ok q0 /\ fin (fun n => m_run n q0 l) (rs, q)
      /\ exact (mkV t (map fst m)) q.

  Lemma ran_step cap minpart maxsplit ds0 l rs t m k tk a a' t' m' :
    ran cap minpart maxsplit ds0 l rs t m ->
    careful_call (mkV t (map fst m)) k = true -> v_call (mkV t (map fst m)) k = Ok (a, mkV t' (map fst m')) ->
    (forall n q q', p_call n q k = Ok (a, q') -> m_call n q tk = Ok (a', q')) ->
    ran cap minpart maxsplit ds0 (l ++ [tk]) (rs ++ [a']) t' m'.
  Proof.
    intros (q0 & q & M & (N1 & R) & X) CF V EQ.
    destruct (exact_call _ _ _ _ _ X CF V) as (q' & (N2 & RC) & X').
    exists q0, q'. split; [exact M|]. split; [|exact X']. exists (N1 + N2)%nat. intros n LE.
    eapply m_snoc; [apply R; lia|]. apply EQ, RC. lia.
  Qed.
  Lemma ran_same cap minpart maxsplit ds0 l rs t m tk a :
    ran cap minpart maxsplit ds0 l rs t m -> (forall n q, m_call n q tk = Ok (a, q)) ->
    ran cap minpart maxsplit ds0 (l ++ [tk]) (rs ++ [a]) t m.
  Proof.
    intros (q0 & q & M & (N1 & R) & X) EQ. exists q0, q. split; [exact M|]. split; [|exact X].
    exists N1. intros n LE. eapply m_snoc; [now apply R|apply EQ].
  Qed.
  Lemma parsed s : readable s -> parse_c s = Ok (Parser.parse s).
  Proof. intros (N & D). now apply C55_parse. Qed.
  Lemma event_parsed s ev : c_text s -> event_parse s = Some ev ->
    exists l, event_parse_c s = Ok (Some l) /\ ev = map (fun p => (fst p, Some (snd p))) l.
  Proof.
    intros N E. destruct (C55_event_parse s N) as (o & P & H). destruct o as [l|]; [|congruence].
    exists l. split; [exact P|congruence].
  Qed.

  Lemma supported_ran fm cap minpart maxsplit ds0 l rs ds t m log :
    supported fm cap minpart maxsplit ds0 l rs ds t m log ->
    treach_in fm ds t (waiting m) log /\ ran cap minpart maxsplit ds0 l rs t m.
  Proof.
    induction 1 as [D MS F
      |l rs ds t m log id cs s x t' SU (TR & RN) RD RS AC NI IT
      |l rs ds t m log id cs s t' SU (TR & RN) RD IT
      |l rs ds t m log id cs s x b t' SU (TR & RN) RD RS AC NI MK FO
      |l rs ds t m log id cs s x t' SU (TR & RN) RD RS FI MK
      |l rs ds t m log id cs s SU (TR & RN) RD UR
      |l rs ds t m log k b e t' SU (TR & RN) NK IS
      |l rs ds t m log s x b t' SU (TR & RN) RD RS SO FI CH FO
      |l rs ds t m log s SU (TR & RN) RD UR
      |l rs ds t m log d SU (TR & RN) DO FO C
      |l rs ds t m log SU (TR & RN)
      |l rs ds t m log s b r SU (TR & RN) CT SE
      |l rs ds t m log s b SU (TR & RN) CT EX].
    - split; [now constructor|]. destruct (start_ok cap minpart maxsplit ds0) as (q & M & X & _).
      exists q, q. split; [exact M|]. split; [now apply fin_ok|exact X].
    - split; [eapply tr_insert; eassumption|]. pose proof RS as P. apply parse_reads in P.
      unfold insert_text in IT. rewrite P in IT.
      eapply (ran_step _ _ _ _ _ _ _ _ (CInsert id cs (build x))); [exact RN| | |].
      + cbn [careful_call v_tree]. rewrite IT. apply free_id_intro. intros I. apply NI.
        apply treach_reach in TR. pose proof (inv_subs_ids (m := fm) _ _ _ _ (reach_inv (FM := fm) _ _ _ _ TR)) as PI.
        unfold ids_of. apply in_or_app. left. eapply Permutation_in; [exact PI|exact I].
      + cbn [v_call v_tree v_made]. rewrite IT. reflexivity.
      + intros n q q' E. cbn [m_call]. rewrite (parsed _ RD), P. exact E.
    - pose proof (insert_text_refused _ _ _ _ _ IT) as T.
      split; [eapply tr_refused; eassumption|]. unfold insert_text in IT. destruct (Parser.parse s) as [e|] eqn:P.
      + eapply (ran_step _ _ _ _ _ _ _ _ (CInsert id cs e)); [exact RN| | |].
        * cbn [careful_call v_tree]. rewrite IT. reflexivity.
        * cbn [v_call v_tree v_made]. rewrite IT. reflexivity.
        * intros n q q' E. cbn [m_call]. rewrite (parsed _ RD), P. exact E.
      + subst t'. apply ran_same; [exact RN|]. intros n q. cbn [m_call]. rewrite (parsed _ RD), P. reflexivity.
    - split; [rewrite waiting_app; cbn; eapply tr_make; eassumption|]. pose proof RS as P. apply parse_reads in P.
      unfold make_sub_text in MK. rewrite P in MK.
      eapply (ran_step _ _ _ _ _ _ _ _ (CMake id cs (build x))); [exact RN|reflexivity| |].
      + cbn [v_call v_tree v_made]. rewrite MK. cbn [bind]. rewrite map_app. reflexivity.
      + intros n q q' E. cbn [m_call]. rewrite (parsed _ RD), P. exact E.
    - split; [eapply tr_make_refused; eassumption|]. pose proof RS as P. apply parse_reads in P.
      unfold make_sub_text in MK. rewrite P in MK.
      eapply (ran_step _ _ _ _ _ _ _ _ (CMake id cs (build x))); [exact RN|reflexivity| |].
      + cbn [v_call v_tree v_made]. rewrite MK. reflexivity.
      + intros n q q' E. cbn [m_call]. rewrite (parsed _ RD), P. exact E.
    - split; [exact TR|]. apply parse_unread in UR. apply ran_same; [exact RN|].
      intros n q. cbn [m_call]. rewrite (parsed _ RD), UR. reflexivity.
    - destruct (waiting_take _ _ _ _ NK) as (l1 & l2 & W1 & W2). rewrite W1 in TR. split.
      + rewrite W2. eapply tr_insert_sub; eassumption.
      + assert (NK' : nth_error (map fst m) k = Some (b, false)) by (rewrite (map_nth_error fst _ _ NK); reflexivity).
        eapply (ran_step _ _ _ _ _ _ _ _ (CInsertSub k)); [exact RN| | |intros n q q' E; exact E].
        * cbn [careful_call v_tree v_made]. rewrite NK'. apply free_id_intro. intros I.
          apply treach_reach in TR. pose proof (inv_ids_NoDup (FM := fm) _ _ _ _ (reach_inv (FM := fm) _ _ _ _ TR)) as ND.
          unfold ids in ND. rewrite map_app, !map_app in ND. cbn [map fst] in ND. rewrite app_assoc in ND.
          apply NoDup_remove_2 in ND. apply ND. apply in_or_app. left. apply in_or_app. left. exact I.
        * cbn [v_call v_tree v_made]. rewrite NK', IS. cbn [bind]. rewrite mark_take. reflexivity.
    - split; [eapply tr_change; eassumption|]. pose proof RS as P. apply parse_reads in P.
      unfold change_boundaries_text in CH. rewrite P in CH.
      destruct (change_boundaries_expr t (build x)) as [t1| | |] eqn:CE; cbn [bind] in CH; try discriminate.
      apply Ok_inj in CH. injection CH as <- <-.
      eapply (ran_step _ _ _ _ _ _ _ _ (CChange (build x))); [exact RN|reflexivity| |].
      + cbn [v_call v_tree v_made]. rewrite CE. reflexivity.
      + intros n q q' E. cbn [m_call]. rewrite (parsed _ RD), P. cbn [bind]. rewrite E. reflexivity.
    - split; [exact TR|]. apply parse_unread in UR. apply ran_same; [exact RN|].
      intros n q. cbn [m_call]. rewrite (parsed _ RD), UR. reflexivity.
    - split; [now eapply tr_declare|].
      eapply (ran_step _ _ _ _ _ _ _ _ (CDeclare d)); [exact RN|reflexivity|reflexivity|intros n q q' E; exact E].
    - split; [rewrite waiting_forget; eapply tr_empty; eassumption|].
      eapply (ran_step _ _ _ _ _ _ _ _ CEmpty); [exact RN|reflexivity| |intros n q q' E; exact E].
      cbn [v_call v_tree v_made]. rewrite forget_fst. reflexivity.
    - split; [exact TR|]. unfold search_text in SE. destruct (event_parse s) as [ev|] eqn:P; [|discriminate].
      destruct (event_parsed _ _ CT P) as (el & PC & ->).
      eapply (ran_step _ _ _ _ _ _ _ _ (CSearch _)); [exact RN|reflexivity| |].
      + cbn [v_call v_tree v_made]. rewrite SE. reflexivity.
      + intros n q q' E. cbn [m_call]. rewrite PC. exact E.
    - split; [exact TR|]. unfold exists_text in EX. destruct (event_parse s) as [ev|] eqn:P; [|discriminate].
      destruct (event_parsed _ _ CT P) as (el & PC & ->).
      eapply (ran_step _ _ _ _ _ _ _ _ (CExists _)); [exact RN|reflexivity| |].
      + cbn [v_call v_tree v_made]. rewrite EX. reflexivity.
      + intros n q q' E. cbn [m_call]. rewrite PC. exact E.
  Qed.
End Run.

(** *** C58: from texts to answers *)

(** A supported program runs on the machine with the answers of the calls with texts. *)
Theorem C58_answers {G : Geo} fm cap minpart maxsplit ds0 l rs ds t m log :
  supported fm cap minpart maxsplit ds0 l rs ds t m log ->
  exists q0 q fuel, p_make_tree cap minpart maxsplit ds0 = Ok q0 /\ forall n, (fuel <= n)%nat -> m_run n q0 l = Ok (rs, q).
Proof.
  intros SU. destruct (supported_ran _ _ _ _ _ _ _ _ _ _ _ SU) as (_ & q0 & q & M & (N & R) & _). now exists q0, q, N.
Qed.
Print Assumptions C58_answers.

(** A search after it reports, once each, the subscriptions whose texts are true of the event: whose expressions, as the
    scanner rules and the grammar read them, hold. *)
Theorem C58_search {G : Geo} fm cap minpart maxsplit ds0 l rs ds t m log s ev :
  supported fm cap minpart maxsplit ds0 l rs ds t m log -> few_preds t ->
  c_text s -> reads_event s ev -> event_ok ds ev -> complete ds ev -> fair fm t ev log ->
  exists q0 q r fuel, p_make_tree cap minpart maxsplit ds0 = Ok q0
    /\ (forall n, (fuel <= n)%nat -> m_run n q0 (l ++ [TSearch s]) = Ok (rs ++ [RReport true r], q))
    /\ Permutation (r_subs r) (hits ev log).
Proof.
  intros SU FP CT RE EO CO FA. destruct (supported_ran _ _ _ _ _ _ _ _ _ _ _ SU) as (TR & _).
  destruct (C42_search_text _ _ _ _ _ _ _ _ TR FP RE EO CO FA) as (r & SE & P).
  destruct (C58_answers _ _ _ _ _ _ _ _ _ _ _ (s_search _ _ _ _ _ _ _ _ _ _ _ _ _ _ SU CT SE)) as (q0 & q & fuel & M & R).
  now exists q0, q, r, fuel.
Qed.
Print Assumptions C58_search.
Theorem C58_exists {G : Geo} fm cap minpart maxsplit ds0 l rs ds t m log s ev :
  supported fm cap minpart maxsplit ds0 l rs ds t m log -> few_preds t ->
  c_text s -> reads_event s ev -> event_ok ds ev -> complete ds ev -> fair fm t ev log ->
  exists q0 q b fuel, p_make_tree cap minpart maxsplit ds0 = Ok q0
    /\ (forall n, (fuel <= n)%nat -> m_run n q0 (l ++ [TExists s]) = Ok (rs ++ [RBool b], q))
    /\ (b = true <-> hits ev log <> []).
Proof.
  intros SU FP CT RE EO CO FA. destruct (supported_ran _ _ _ _ _ _ _ _ _ _ _ SU) as (TR & _).
  destruct (C42_exists_text _ _ _ _ _ _ _ _ TR FP RE EO CO FA) as (b & SE & P).
  destruct (C58_answers _ _ _ _ _ _ _ _ _ _ _ (s_exists _ _ _ _ _ _ _ _ _ _ _ _ _ SU CT SE)) as (q0 & q & fuel & M & R).
  now exists q0, q, b, fuel.
Qed.
Print Assumptions C58_exists.

(** A search after it with an event the grammar does not derive ends the process. *)
Theorem C58_unreadable_event {G : Geo} fm cap minpart maxsplit ds0 l rs ds t m log s :
  supported fm cap minpart maxsplit ds0 l rs ds t m log -> c_text s -> (forall ev, ~ reads_event s ev) ->
  exists q0 fuel, p_make_tree cap minpart maxsplit ds0 = Ok q0
    /\ forall n, (fuel <= n)%nat -> m_run n q0 (l ++ [TSearch s]) = Abort /\ m_run n q0 (l ++ [TExists s]) = Abort.
Proof.
  intros SU CT NR. destruct (supported_ran _ _ _ _ _ _ _ _ _ _ _ SU) as (_ & q0 & q & M & (N & R) & _). exists q0, N. split; [exact M|].
  apply parse_unread_event in NR. destruct (C55_event_parse s CT) as (o & P & H). destruct o as [x|]; [congruence|].
  assert (K : forall n l q0 rs q k, m_run n q0 l = Ok (rs, q) -> m_call n q k = Abort -> m_run n q0 (l ++ [k]) = Abort).
  { intros n. induction l0 as [|k0 l0 IH]; intros q1 rs1 q2 k R1 A; cbn [m_run app] in *.
    - injection R1 as <- <-. now rewrite A.
    - destruct (m_call n q1 k0) as [(a0, q3)| | |]; cbn [bind] in *; try discriminate.
      destruct (m_run n q3 l0) as [(r0, q4)| | |] eqn:E; cbn [bind] in *; try discriminate. injection R1 as <- <-. now rewrite (IH _ _ _ k E A). }
  intros n LE. split; (eapply K; [exact (R n LE)|]); cbn [m_call]; now rewrite P.
Qed.
Print Assumptions C58_unreadable_event.

(** betree_free after it leaves the subscriptions that were made and not inserted. *)
Theorem C58_free {G : Geo} fm cap minpart maxsplit ds0 l rs ds t m log :
  supported fm cap minpart maxsplit ds0 l rs ds t m log ->
  exists q0 q h fuel, p_make_tree cap minpart maxsplit ds0 = Ok q0
    /\ (forall n, (fuel <= n)%nat -> m_run n q0 l = Ok (rs, q) /\ p_free n q = Ok h)
    /\ Permutation (map snd (h_cells h)) (map (fun x => OSub (fst (fst x))) (filter (fun x => negb (snd (fst x))) m)).
Proof.
  intros SU. destruct (supported_ran _ _ _ _ _ _ _ _ _ _ _ SU) as (_ & q0 & q & M & (N1 & R) & X).
  destruct (exact_free _ _ X) as (h & (N2 & F) & H). exists q0, q, h, (N1 + N2)%nat. split; [exact M|]. split.
  - intros n LE. split; [apply R; lia|apply F; lia].
  - destruct X as (T & _ & LN & _). cbn [v_made] in *. rewrite (Permutation_map snd (proj2 (proj2 H))).
    rewrite (pending_kept _ _ LN). clear. induction m as [|((s, b), o) m IH]; [reflexivity|]. cbn. destruct b; cbn; [exact IH|].
    now constructor.
Qed.
Print Assumptions C58_free.

(** A program: two insertions, a refused text, a subscription made, a search, a widened range, the subscription inserted,
    a search. *)
Definition mc_1 := [] ++ [TInsert 1 [] case_text].
Definition mc_2 := mc_1 ++ [TInsert 2 case_cs "within_frequency_cap('flight',""ns"", 10 ,100)"].
Definition mc_3 := mc_2 ++ [TInsert 7 [] "i = "].
Definition mc_4 := mc_3 ++ [TMake 3 [] "i=9 and 'a' not in sl"].
Definition mc_5 := mc_4 ++ [TSearch case_event_text].
Definition mc_6 := mc_5 ++ [TChange "40 > i"].
Definition mc_7 := mc_6 ++ [TInsertSub 0].
Definition mc_report : bool * report :=
  Eval vm_compute in match search_text case_x3t case_event_text make_report with Ok r => r | _ => (false, make_report) end.
Definition mc_replies : list reply := Eval cbv in
  [RBool true; RBool true; RBool false; RBool true; RReport (fst mc_report) (snd mc_report); RBool true; RNone].
Definition mc_e3 : entry := mkE 3 [] (XAnd (XAtom (AEq QEq "i" (SInt 9))) (XAtom (AHas SNotIn (SStr "a") "sl"))).
Ltac readable := split; [vm_compute; reflexivity|vm_compute; discriminate].
Lemma mc_supported : supported NoSplit 1 0 1000 case_ds mc_7 mc_replies case_ds case_x5 [(case_x3s, true, Some mc_e3)] case_text_log.
Proof.
  pose proof (s_start NoSplit 1 0 1000 case_ds ltac:(apply decls_ok_b_ok; vm_compute; reflexivity) ltac:(split; vm_compute; congruence) ltac:(fact)) as S0.
  pose proof (s_insert _ _ _ _ _ _ _ _ _ _ _ 1 [] case_text case_text_src case_x1 S0 ltac:(readable) ltac:(read) ltac:(fact) ltac:(fact) ltac:(vm_compute; reflexivity)) as S1.
  pose proof (s_insert _ _ _ _ _ _ _ _ _ _ _ 2 case_cs "within_frequency_cap('flight',""ns"", 10 ,100)" (XAtom (AFreq "flight" "ns" 10 100)) case_x2
    S1 ltac:(readable) ltac:(read) ltac:(fact) ltac:(fact) ltac:(vm_compute; reflexivity)) as S2.
  pose proof (s_refused _ _ _ _ _ _ _ _ _ _ _ 7 [] "i = " case_x2 S2 ltac:(readable) ltac:(vm_compute; reflexivity)) as S3.
  pose proof (s_make _ _ _ _ _ _ _ _ _ _ _ 3 [] "i=9 and 'a' not in sl" (e_src mc_e3) case_x3s case_x3t
    S3 ltac:(readable) ltac:(read) ltac:(fact) ltac:(fact) ltac:(vm_compute; reflexivity) ltac:(fact)) as S4.
  pose proof (s_search _ _ _ _ _ _ _ _ _ _ _ case_event_text (fst mc_report) (snd mc_report) S4 ltac:(vm_compute; reflexivity) ltac:(vm_compute; reflexivity)) as S5.
  pose proof (s_change _ _ _ _ _ _ _ _ _ _ _ "40 > i" (XAtom (ACmp CLt "i" (CInt 40))) true case_x4
    S5 ltac:(readable) ltac:(read) ltac:(fact) ltac:(fact) ltac:(vm_compute; reflexivity) ltac:(fact)) as S6.
  pose proof (s_insert_sub _ _ _ _ _ _ _ _ _ _ _ 0%nat case_x3s mc_e3 case_x5 S6 ltac:(reflexivity) ltac:(vm_compute; reflexivity)) as S7.
  exact S7.
Qed.
(** The machine runs it, computed; the last search is the one of C58_search. *)
Example C58_case :
  supported NoSplit 1 0 1000 case_ds mc_7 mc_replies case_ds case_x5 [(case_x3s, true, Some mc_e3)] case_text_log /\
  few_preds case_x5 /\ c_text case_event_text /\ reads_event case_event_text case_event /\
  event_ok case_ds case_event /\ complete case_ds case_event /\ fair NoSplit case_x5 case_event case_text_log /\
  hits case_event case_text_log = [1; 2; 3] /\
  match p_make_tree 1 0 1000 case_ds with
  | Ok q0 =>
      match m_run 40 q0 (mc_7 ++ [TSearch case_event_text]) with
      | Ok (r, q) => map (fun a => match a with RReport _ r => r_subs r | _ => [] end) r = [[]; []; []; []; [2; 1]; []; []; [2; 1; 3]]
                     /\ match p_free 40 q with Ok h => h_cells h = [] | _ => False end
      | _ => False
      end
  | _ => False
  end /\
  (forall ev, ~ reads_event "{""i"": }" ev) /\ c_text "{""i"": }".
Proof.
  split; [exact mc_supported|]. split; [fact|]. split; [vm_compute; reflexivity|]. split; [apply parse_reads_event; vm_compute; reflexivity|].
  split; [fact|]. split; [fact|]. split; [fact|]. split; [vm_compute; reflexivity|]. split; [vm_compute; split; reflexivity|].
  split; [apply parse_unread_event; vm_compute; reflexivity|vm_compute; reflexivity].
Qed.
