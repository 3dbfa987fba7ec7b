(** Valid programs end, with the right answers, and give their memory back: theorems. *)
From Coq Require Import ZArith NArith Ascii String Bool List Permutation Lia ZifyBool ZifyNat ZifyN.
From Verif Require Import Base Float FloatSpec Value Ast Config Assign Special Match Bound Tree PredMap Source Api Spec TreeSpec Hist Accept
  Lexer LexSpec Grammar EventText EventGrammar TextApi TextHist TextLink
  Linked LinkedSpec LinkedApi LinkedHeap LinkedRun LinkedFrame BisonTables Machine MachineSpec PropsLinked PropsMachine Check Cases PropsSearch PropsText.
From Verif Require Import Ledger HeapExpr HeapSpec HeapConf HeapConfSpec HeapWorld HeapWorldSpec LedgerProofs HeapWorldProofs PropsHeapWorld.
From Verif Require Import BaseProofs ResProofs HistProofs ObjSpec ObjProofs SplitProofs ProgramSpec ProgramProofs.
Import ListNotations.
Local Open Scope Z_scope.
Local Open Scope string_scope.
Local Open Scope list_scope.

Section Run.
  Context {G : Geo}.
  Definition known (x : sub * bool * option entry) : bool * option entry := (snd (fst x), snd x).
  Lemma waiting_known ms : map (fun p : sub * entry => e_id (snd p)) (waiting ms) = map e_id (pv_waiting (map known ms)).
  Proof.
    induction ms as [|((s, b), o) ms IH]; [reflexivity|]. unfold waiting, pv_waiting in *. cbn [map flat_map known fst snd].
    destruct b; [exact IH|]. destruct o as [e|]; [|exact IH]. cbn [app map snd]. now rewrite IH.
  Qed.
  Lemma waiting_none ms : pv_waiting (map known ms) = [] -> waiting ms = [].
  Proof. intros E. pose proof (waiting_known ms) as K. rewrite E in K. destruct (waiting ms); [reflexivity|discriminate]. Qed.
  Lemma ids_known ds ms log n : pv_ids (mkPV ds (map known ms) log n) = ids_of (waiting ms) log.
  Proof. unfold pv_ids, ids_of. cbn [pv_log pv_made]. now rewrite waiting_known. Qed.
  Lemma take_known k ms : map known (take k ms) = pv_take k (map known ms).
  Proof. revert k. induction ms as [|((s, b), o) ms IH]; intros [|k]; cbn; try reflexivity. now rewrite IH. Qed.
  Lemma forget_known ms : map known (forget ms) = pv_forget (map known ms).
  Proof. unfold forget, pv_forget. rewrite !map_map. reflexivity. Qed.

  Lemma m_snoc_inv n l : forall q rs k r q2, m_run n q (l ++ [k]) = Ok (r, q2) -> forall q1, m_run n q l = Ok (rs, q1) ->
    exists a, m_call n q1 k = Ok (a, q2).
  Proof.
    induction l as [|k0 l IH]; intros q rs k r q2 E q1 R; cbn [m_run app] in *.
    - injection R as <- <-. destruct (m_call n q k) as [(a, q3)| | |]; cbn [bind] in E; try discriminate. injection E as _ <-. eauto.
    - destruct (m_call n q k0) as [(a0, q3)| | |]; cbn [bind] in *; try discriminate.
      destruct (m_run n q3 l) as [(r0, q4)| | |] eqn:R1; cbn [bind] in *; try discriminate.
      destruct (m_run n q3 (l ++ [k])) as [(r1, q5)| | |] eqn:R2; cbn [bind] in *; try discriminate.
      injection R as <- <-. injection E as _ <-. eapply IH; eauto.
  Qed.
  Lemma roomy_snoc n l : forall q rs q1 k a q2, m_run n q l = Ok (rs, q1) -> m_call n q1 k = Ok (a, q2) ->
    roomy_run n q l = true -> HeapConfSpec.roomy (p_cfg q2) = true -> roomy_run n q (l ++ [k]) = true.
  Proof.
    induction l as [|k0 l IH]; intros q rs q1 k a q2 R K H1 H2; cbn [m_run roomy_run app] in *.
    - injection R as <- <-. rewrite K. rewrite andb_true_r in H1. now rewrite H1, H2.
    - apply andb_prop in H1. destruct H1 as (H0 & H1). rewrite H0.
      destruct (m_call n q k0) as [(a0, q3)| | |]; cbn [bind] in *; try discriminate.
      destruct (m_run n q3 l) as [(r0, q4)| | |] eqn:R1; cbn [bind] in *; try discriminate. injection R as <- <-. cbn. eapply IH; eauto.
  Qed.
  Lemma clean_snoc n l : forall q rs q1 k a q2, m_run n q l = Ok (rs, q1) -> m_call n q1 k = Ok (a, q2) ->
    clean_run n q l = true -> clean_call n q1 k = true -> clean_run n q (l ++ [k]) = true.
  Proof.
    induction l as [|k0 l IH]; intros q rs q1 k a q2 R K H1 H2; cbn [m_run clean_run app] in *.
    - injection R as <- <-. now rewrite K, H2.
    - apply andb_prop in H1. destruct H1 as (H0 & H1). rewrite H0.
      destruct (m_call n q k0) as [(a0, q3)| | |]; cbn [bind] in *; try discriminate.
      destruct (m_run n q3 l) as [(r0, q4)| | |] eqn:R1; cbn [bind] in *; try discriminate. injection R as <- <-. cbn. eapply IH; eauto.
  Qed.

  Section Params.
    Variables (W : vocabulary) (cap minpart maxsplit : Z) (ds0 : list domain).
    Hypothesis CAP : to_uint 8 cap <> 0.
    Hypothesis MS : 0 <= maxsplit < SIZE_MAX - 1.

    Record sound (l : list tcall) (A : list (reply -> Prop)) (c : bool) (p : pview) (rs : list reply) (t : betree) (ms : made) : Prop := {
      so_sup : supported WholeSplits cap minpart maxsplit ds0 l rs (pv_ds p) t ms (pv_log p);
      so_made : map known ms = pv_made p;
      so_vars : variables_ok W (pv_ds p);
      so_tidy : tidy W cap (pv_ds p) t (pv_nodes p);
      so_ans : Forall2 (fun P a => P a) A rs;
      so_mem : forall q0, p_make_tree cap minpart maxsplit ds0 = Ok q0 -> exists N, forall n, (N <= n)%nat ->
        roomy_run n q0 l = true /\ (c = true -> clean_run n q0 l = true) }.

    (** One more call. *)
    Lemma sound_then l A c p rs t ms k a (P : reply -> Prop) c' p' t' ms' :
      sound l A c p rs t ms ->
      supported WholeSplits cap minpart maxsplit ds0 (l ++ [k]) (rs ++ [a]) (pv_ds p') t' ms' (pv_log p') ->
      map known ms' = pv_made p' -> variables_ok W (pv_ds p') -> tidy W cap (pv_ds p') t' (pv_nodes p') -> P a ->
      (forall n q q', p_cfg q = bt_cfg t -> m_call n q k = Ok (a, q') -> c' = true -> clean_call n q k = true) ->
      more (bt_cfg t) (bt_cfg t') ->
      sound (l ++ [k]) (A ++ [P]) (c && c') p' (rs ++ [a]) t' ms' /\ P a /\ more (bt_cfg t) (bt_cfg t') /\
      (forall n q q', p_cfg q = bt_cfg t -> m_call n q k = Ok (a, q') -> c' = true -> clean_call n q k = true).
    Proof.
      intros SO SU MD VO TD PA CL MO. split; [|now repeat split; try apply MO]. split; auto.
      - apply Forall2_app; [apply SO|now constructor].
      - intros q0 M0. destruct (supported_ran _ _ _ _ _ _ _ _ _ _ _ (so_sup _ _ _ _ _ _ _ SO)) as (_ & q1 & q & M1 & (N1 & R1) & X1).
        destruct (supported_ran _ _ _ _ _ _ _ _ _ _ _ SU) as (TR & q2 & q' & M2 & (N2 & R2) & X2).
        assert (q1 = q0) as -> by congruence. assert (q2 = q0) as -> by congruence.
        destruct (so_mem _ _ _ _ _ _ _ SO q0 M0) as (N3 & K). exists (N1 + N2 + N3)%nat. intros n LE.
        specialize (R1 n ltac:(lia)). specialize (R2 n ltac:(lia)). destruct (K n ltac:(lia)) as (K1 & K2). cbv beta in R1, R2.
        destruct (m_snoc_inv _ _ _ _ _ _ _ R2 _ R1) as (a' & C).
        assert (a' = a) as ->.
        { pose proof (m_snoc _ _ _ _ _ _ _ _ R1 C) as E. rewrite R2 in E. injection E as E. apply app_inj_tail in E. destruct E as (_ & E). now rewrite E. }
        destruct X1 as (T1 & (E1 & _) & _). destruct X2 as (T2 & (E2 & _) & _). cbn [v_tree] in *. split.
        + eapply roomy_snoc; eauto. rewrite E2. eapply tidy_roomy; [exact VO|apply treach_reach in TR; exact TR|exact TD].
        + intros CC. apply andb_prop in CC. destruct CC as (C1 & C2). eapply clean_snoc; eauto.
    Qed.

    Lemma grown_more t t' : grown t t' -> more (bt_cfg t) (bt_cfg t').
    Proof. intros H. apply ext_more. now apply grown_ext. Qed.
    Lemma same_more t : more (bt_cfg t) (bt_cfg t).
    Proof. apply grown_more, g_same. Qed.
    Lemma call_read s x : readable s -> reads s (build x) -> parse_c s = Ok (Some (build x)).
    Proof. intros RD RS. rewrite (parsed _ RD). apply parse_reads in RS. now rewrite RS. Qed.

    Lemma step_sound l A c p rs t ms k P c' p' : sound l A c p rs t ms -> step W p k P c' p' ->
      exists a t' ms', sound (l ++ [k]) (A ++ [P]) (c && c') p' (rs ++ [a]) t' ms' /\ P a /\ more (bt_cfg t) (bt_cfg t') /\
        (forall n q q', p_cfg q = bt_cfg t -> m_call n q k = Ok (a, q') -> c' = true -> clean_call n q k = true).
    Proof.
      intros SO ST. pose proof SO as [SU MD VO TD _ _].
      destruct (supported_ran _ _ _ _ _ _ _ _ _ _ _ SU) as (TR & _). apply treach_reach in TR.
      destruct ST as [ds m log nn id cs s x RD RS HS SP LO CG NI|ds m log nn id cs s x RD RS HS SP LO CG|p id cs s RD UR
        |ds m log nn id cs s x RD RS HS SP SY CG NT NI|ds m log nn id cs s x RD RS HS SP NO|p id cs s RD UR
        |ds m log nn k e NK|ds m log nn s x RD RS HS SP SY|p s RD UR|ds m log nn d VO' MO|ds m log nn
        |ds m log nn s ev CT RV EO CO NP|ds m log nn s ev CT RV EO CO|ds m log nn s ev CT RV EO CO NP];
        cbn [pv_ds pv_made pv_log pv_nodes] in *; try subst m.
      - (* insert *) rewrite ids_known in NI.
        destruct (insert_good W cap ds t _ log nn CAP VO TR TD id cs x HS SP LO CG NI) as (t' & E & TD').
        exists (RBool true), t', ms. pose proof RS as PS. apply parse_reads in PS.
        assert (IT : insert_text t id cs s = Ok (true, t')) by (unfold insert_text; rewrite PS; exact E).
        eapply sound_then; [exact SO| |reflexivity|exact VO|exact TD'|reflexivity| |].
        + eapply s_insert; eauto. split; [exact HS|]. eapply words_fit; eauto. apply (td_wordy _ _ _ _ _ TD).
        + intros n q q' EC _ _. cbn [clean_call]. rewrite (call_read _ _ RD RS), EC.
          unfold betree_insert_with_constants, insert_expr in E.
          destruct (is_valid _ _) as [[|]| | |]; cbn [bind negb] in E; try reflexivity.
          destruct (assign_constants _ _); [reflexivity|discriminate].
        + apply grown_more. eapply g_insert; [apply g_same|exact E].
      - (* insert refused *) pose proof (insert_poor W cap ds t _ log nn CAP VO TR TD id cs x HS SP CG) as E.
        exists (RBool false), t, ms. pose proof RS as PS. apply parse_reads in PS.
        eapply sound_then; [exact SO| |reflexivity|exact VO|exact TD|reflexivity|discriminate|apply same_more].
        eapply s_refused; eauto. unfold insert_text. rewrite PS. exact E.
      - (* insert unread *) exists (RBool false), t, ms. apply parse_unread in UR.
        eapply sound_then; [exact SO| |exact MD|exact VO|exact TD|reflexivity|discriminate|apply same_more].
        eapply s_refused; eauto. unfold insert_text. now rewrite UR.
      - (* make *) rewrite ids_known in NI.
        destruct (make_good W cap ds t _ log nn VO TR TD id cs x HS SP SY CG NT) as (b & t' & E & TD' & FL).
        exists (RBool true), t', (ms ++ [(b, false, Some (mkE id cs x))]). pose proof RS as PS. apply parse_reads in PS.
        eapply sound_then; [exact SO| |rewrite map_app; reflexivity|exact VO|exact TD'|reflexivity| |].
        + eapply s_make; eauto.
          * split; [exact HS|]. eapply words_fit; eauto. apply (td_wordy _ _ _ _ _ TD).
          * unfold make_sub_text. rewrite PS. exact E.
        + intros n q q' EC _ _. cbn [clean_call]. now rewrite (call_read _ _ RD RS).
        + apply grown_more. eapply g_make; [apply g_same|exact E].
      - (* make refused *) destruct (make_poor W cap ds t _ log nn VO TR TD id cs x HS SP NO) as (t' & E & TD').
        exists (RBool false), t', ms. pose proof RS as PS. apply parse_reads in PS.
        eapply sound_then; [exact SO| |reflexivity|exact VO|exact TD'|reflexivity| |].
        + eapply s_make_refused; eauto.
          * eapply words_fit; eauto. apply (td_wordy _ _ _ _ _ TD).
          * unfold make_sub_text. rewrite PS. exact E.
        + intros n q q' EC _ _. cbn [clean_call]. now rewrite (call_read _ _ RD RS).
        + apply grown_more. eapply g_make; [apply g_same|exact E].
      - (* make unread *) exists (RBool false), t, ms.
        eapply sound_then; [exact SO| |exact MD|exact VO|exact TD|reflexivity|discriminate|apply same_more].
        eapply s_make_unread; eauto.
      - (* insert_sub *)
        assert (exists b, nth_error ms k = Some (b, false, Some e)) as (b & NK').
        { clear - NK. revert k NK. induction ms as [|((s, f), o) ms IH]; intros [|k] NK; cbn in *; try discriminate; [|eauto]. injection NK as -> ->. eauto. }
        destruct (waiting_take _ _ _ _ NK') as (l1 & l2 & W1 & W2). rewrite W1 in TR.
        destruct (PassTotal.insert_sub_total (FM := WholeSplits) (WM := TotalProofs.whole_only) ds t l1 b e l2 log TR) as (t' & E).
        { eapply wordy_narrow; [apply (td_wordy _ _ _ _ _ TD)|exact VO]. }
        { rewrite (td_cap _ _ _ _ _ TD). exact CAP. }
        exists RNone, t', (take k ms).
        eapply sound_then; [exact SO| |apply take_known|exact VO|eapply insert_sub_good; eauto|reflexivity|reflexivity|].
        + eapply s_insert_sub; eauto.
        + apply grown_more. eapply g_insert_sub; [apply g_same|exact E].
      - (* change *) destruct (change_good W cap ds t _ log nn VO TR TD x HS SP SY) as (t' & E & TD' & FL).
        exists (RBool true), t', ms. pose proof RS as PS. apply parse_reads in PS.
        eapply sound_then; [exact SO| |reflexivity|exact VO|exact TD'|reflexivity| |].
        + eapply s_change; eauto.
          * eapply words_fit; eauto. apply (td_wordy _ _ _ _ _ TD).
          * unfold change_boundaries_text. rewrite PS. unfold betree_change_boundaries in E. now rewrite E.
        + intros n q q' EC _ _. cbn [clean_call]. now rewrite (call_read _ _ RD RS).
        + apply grown_more. eapply g_change; [apply g_same|exact E].
      - (* change unread *) exists (RBool false), t, ms.
        eapply sound_then; [exact SO| |exact MD|exact VO|exact TD|reflexivity|discriminate|apply same_more].
        eapply s_change_unread; eauto.
      - (* declare *) destruct (declare_good W cap ds t nn TD d VO') as (TD' & FL).
        exists RNone, (betree_declare t d), ms.
        eapply sound_then; [exact SO| |reflexivity|exact VO'|exact TD'|reflexivity|reflexivity|].
        + eapply s_declare; eauto; [eapply variables_decls; eauto|]. destruct MO as [(M1 & M2)|M]; [left; split; [now apply waiting_none|exact M2]|now right].
        + split; cbn [betree_declare bt_cfg]; [apply keeps_app|auto|auto].
      - (* empty *) exists RNone, (empty_tree t), (forget ms).
        eapply sound_then; [exact SO| |apply forget_known|exact VO|eapply empty_good; eauto|reflexivity|reflexivity|exact (same_more t)].
        eapply s_empty; eauto.
      - (* search *) destruct (search_good W cap ds t _ log nn TR TD ev NP EO CO) as (r & E & FD).
        exists (RReport true r), t, ms. apply parse_reads_event in RV.
        eapply sound_then; [exact SO| |reflexivity|exact VO|exact TD|exact FD| |].
        + eapply MachineSpec.s_search; eauto. unfold search_text. now rewrite RV.
        + intros n q q' EC MC _. cbn [clean_call]. now rewrite MC.
        + apply same_more.
      - (* search refused *) exists (RReport false make_report), t, ms. apply parse_reads_event in RV.
        eapply sound_then; [exact SO| |reflexivity|exact VO|exact TD|reflexivity|discriminate|apply same_more].
        eapply MachineSpec.s_search; eauto. unfold search_text. rewrite RV. eapply split_refuses; eauto. apply whole_reach. exact TR.
      - (* exists *) destruct (exists_good W cap ds t _ log nn TR TD ev NP EO CO) as (b & E & FD).
        exists (RBool b), t, ms. apply parse_reads_event in RV.
        eapply sound_then; [exact SO| |reflexivity|exact VO|exact TD|exact FD|reflexivity|apply same_more].
        eapply MachineSpec.s_exists; eauto. unfold exists_text. now rewrite RV.
    Qed.
    Lemma program_sound l A c p : program W ds0 l A c p -> exists rs t ms, sound l A c p rs t ms.
    Proof.
      induction 1 as [VO|l A c p k a c' p' PR (rs & t & ms & SO) ST].
      - exists [], (make_tree cap minpart maxsplit ds0), [].
        assert (WD : wordy W ds0 (bt_cfg (make_tree cap minpart maxsplit ds0))).
        { split; cbn [make_tree bt_cfg c_domains].
          - destruct VO as (_ & F). induction F as [|d ds (_ & _ & V) F IH]; constructor; [|exact IH].
            split; [reflexivity|]. split; [reflexivity|]. destruct (d_bound d) as [ |tt lo hi| | | |]; auto. exists lo, hi. tauto.
          - intros v s []. 
          - intros v z []. }
        assert (SU : supported WholeSplits cap minpart maxsplit ds0 [] [] ds0 (make_tree cap minpart maxsplit ds0) [] []).
        { constructor; [eapply variables_decls; eauto|exact MS|eapply wordy_floats; eauto]. }
        assert (TD : tidy W cap ds0 (make_tree cap minpart maxsplit ds0) 0) by (split; [exact WD|cbn; lia|reflexivity]).
        split; auto. intros q0 M. destruct (supported_ran _ _ _ _ _ _ _ _ _ _ _ SU) as (TR & q1 & q & M1 & (N1 & R1) & X1).
        assert (q1 = q0) as -> by congruence. specialize (R1 N1 ltac:(lia)). cbn in R1. injection R1 as <-.
        destruct X1 as (T1 & (E1 & _) & _). cbn [v_tree] in E1. exists 0%nat. intros n _. cbn [roomy_run clean_run]. split; [|reflexivity].
        rewrite andb_true_r, E1. eapply tidy_roomy; [exact VO|apply treach_reach in TR; exact TR|exact TD].
      - destruct (step_sound _ _ _ _ _ _ _ _ _ _ _ SO ST) as (r & t' & ms' & SO' & _). eauto.
    Qed.
  End Params.
End Run.

Section WithGeo.
Context {G : Geo}.

Lemma left_made (ms : made) us h pm : map known ms = pm ->
  Permutation (map snd (h_cells h)) (map (fun x => OSub (fst (fst x))) (filter (fun x : sub * bool * option entry => negb (snd (fst x))) ms)) -> paired us h ->
  List.length us = List.length (filter (fun x => negb (fst x)) pm) /\ List.length (h_cells h) = List.length (filter (fun x => negb (fst x)) pm).
Proof.
  intros MD P PD.
  assert (LM : List.length (filter (fun x : sub * bool * option entry => negb (snd (fst x))) ms) = List.length (filter (fun x => negb (fst x)) pm)).
  { rewrite <- MD. clear. induction ms as [|((s, b), o) ms IH]; [reflexivity|]. cbn. destruct b; cbn; [exact IH|]. now rewrite IH. }
  rewrite <- LM. pose proof (Permutation_length P) as PL. rewrite !map_length in PL.
  pose proof (Permutation_length PD) as PL2. unfold view, sview in PL2. rewrite !map_length in PL2. rewrite PL2. split; [|exact PL].
  assert (AS : Forall (fun x : BinNums.N * obj => exists s, snd x = OSub s) (h_cells h)).
  { rewrite Forall_forall. intros x I. apply (in_map snd) in I. rewrite P in I. apply in_map_iff in I. destruct I as (y & <- & _). eauto. }
  rewrite <- PL. clear - AS. induction AS as [|(x, o) l (s & E) F IH]; [reflexivity|]. cbn [snd] in E. subst o. unfold subs_of in *. cbn [flat_map sub_cell app fst snd List.length]. now rewrite IH.
Qed.

(** Every call of a valid program ends, and its answer is as it should be. *)
Theorem C64_answers W cap minpart maxsplit ds0 l A c p :
  program W ds0 l A c p -> cap mod 256 <> 0 -> 0 <= maxsplit < SIZE_MAX - 1 ->
  exists q0 q rs fuel, p_make_tree cap minpart maxsplit ds0 = Ok q0 /\ Forall2 (fun P a => P a) A rs /\
    forall n, (fuel <= n)%nat -> m_run n q0 l = Ok (rs, q).
Proof.
  intros PR CAP MS. destruct (program_sound W cap minpart maxsplit ds0 CAP MS l A c p PR) as (rs & t & ms & SO).
  destruct (C58_answers _ _ _ _ _ _ _ _ _ _ _ (so_sup _ _ _ _ _ _ _ _ _ _ _ _ SO)) as (q0 & q & fuel & M & R).
  exists q0, q, rs, fuel. split; [exact M|]. split; [apply SO|exact R].
Qed.
(** Its memory: nothing is used after its release, nothing is released twice; after betree_free what is left are the
    subscriptions that were made and not inserted, and nothing else if no call loses memory. *)
Theorem C64_memory W cap minpart maxsplit ds0 l A c p :
  program W ds0 l A c p -> cap mod 256 <> 0 -> 0 <= maxsplit < SIZE_MAX - 1 ->
  exists rs fuel, Forall2 (fun P a => P a) A rs /\ forall n, (fuel <= n)%nat -> forall m r, HeapSpec.holds m r ->
    exists w0 m0 w m1 h us m2 lost,
      w_make cap minpart maxsplit ds0 m = Ok (w0, m0) /\ w_run n w0 l m0 = Ok ((rs, w), m1) /\ w_free n w m1 = Ok ((h, us), m2) /\
      HeapSpec.holds m2 (bl_subs us ++ lost ++ r) /\ (c = true -> lost = []) /\
      (Forall (fun x => fst x = true) (pv_made p) -> us = [] /\ h_cells h = []) /\
      List.length us = List.length (filter (fun x => negb (fst x)) (pv_made p)).
Proof.
  intros PR CAP MS. destruct (program_sound W cap minpart maxsplit ds0 CAP MS l A c p PR) as (rs & t & ms & SO).
  destruct (C63_supported _ _ _ _ _ _ _ _ _ _ _ (so_sup _ _ _ _ _ _ _ _ _ _ _ _ SO)) as (q0 & fuel & M & K).
  destruct (so_mem _ _ _ _ _ _ _ _ _ _ _ _ SO q0 M) as (N & RC).
  exists rs, (fuel + N)%nat. split; [apply SO|]. intros n LE m r H.
  destruct (RC n ltac:(lia)) as (RM & CL). destruct (K n ltac:(lia) RM m r H) as (w0 & m0 & w & m1 & h & us & m2 & lost & X0 & X1 & X2 & P & PD & H2 & L).
  exists w0, m0, w, m1, h, us, m2, lost. repeat (split; [assumption|]). split; [auto|].
  pose proof (left_made ms us h (pv_made p) (so_made _ _ _ _ _ _ _ _ _ _ _ _ SO) P PD) as LN.
  destruct LN as (L1 & L2). split; [|exact L1]. intros F.
  assert (filter (fun x => negb (fst x)) (pv_made p) = []) as E0.
  { clear - F. induction F as [|(b, o) l E F IH]; [reflexivity|]. cbn [fst] in E. subst b. exact IH. }
  rewrite E0 in *. split; [destruct us|destruct (h_cells h)]; easy.
Qed.
End WithGeo.
Print Assumptions C64_answers.
Print Assumptions C64_memory.

(** A program: subscriptions by text, two of them about a range of floats that is split, one made and inserted later, a range
    adapted, a variable declared on the way, searches; then betree_empty. *)
Definition pg_ds : list domain := case_ds ++ [mkD "price" (BFloat (f_of_Z 0) (f_of_Z 16)) true].
Definition pg_late : domain := mkD "late" (BBool false true) true.
Definition pg_words : vocabulary :=
  mkVoc (fun y => if String.eqb y "s" then ["x"; "y"] else if String.eqb y "sl" then ["a"] else if String.eqb y "frequency_caps" then ["ns"] else [])
        (fun y => if String.eqb y "ie" then [7; 9] else []).
Definition pg_price op z := XAtom (ACmp op "price" (CFloat (fdiv (f_of_Z z) (f_of_Z 2)))).
Definition pg_e1 := mkE 1 [] case_text_src.
Definition pg_e2 := mkE 2 case_cs (XAtom (AFreq "flight" "ns" 10 100)).
Definition pg_e3 := mkE 3 [] (XAnd (XAtom (AEq QEq "i" (SInt 9))) (XAtom (AHas SNotIn (SStr "a") "sl"))).
Definition pg_e4 := mkE 4 [] (pg_price CLt 7).
Definition pg_e5 := mkE 5 [] (pg_price CGt 19).
Definition pg_e6 := mkE 6 [] (XAnd (pg_price CGt 1) (XAtom (AEq QEq "ie" (SInt 7)))).
Definition pg_e7 := mkE 7 [] (XOr (XAtom (AVar "late")) (XAtom (AIn SIn "s" (SStrs ["y"; "x"])))).
Definition pg_event_text : string :=
  "{""i"": 9, ""now"":100, ""s"":""x"", 'il':[5, -2], ""sl"": [], ""price"": 2.5, ""ie"": 7, ""frequency_caps"": [[""flight"", 20, ""ns"", 9, 0]]}".
Definition pg_event : event := Eval vm_compute in match event_parse pg_event_text with Some ev => ev | None => [] end.

Definition pg_clean : list tcall :=
  [] ++ [TInsert 1 [] case_text] ++ [TInsert 2 case_cs "within_frequency_cap('flight',""ns"", 10 ,100)"] ++ [TMake 3 [] "i=9 and 'a' not in sl"]
  ++ [TInsert 4 [] "price < 3.5"] ++ [TInsert 5 [] "price > 9.5"] ++ [TInsert 6 [] "price > 0.5 and ie = 7"] ++ [TSearch pg_event_text]
  ++ [TChange "40 > i"] ++ [TDeclare pg_late] ++ [TInsertSub 0] ++ [TInsert 7 [] "late or s in ('y', 'x')"] ++ [TSearch pg_event_text].
Definition pg_all : list tcall :=
  pg_clean ++ [TInsert 8 [] "i = "] ++ [TEmpty] ++ [TMake 1 [] "i = 1"] ++ [TExists pg_event_text].
Definition pg_log0 := [pg_e1; pg_e2; pg_e4; pg_e5; pg_e6].
Definition pg_log := [pg_e1; pg_e2; pg_e4; pg_e5; pg_e6; pg_e3; pg_e7].
Definition pg_as : list (reply -> Prop) :=
  [eq (RBool true); eq (RBool true); eq (RBool true); eq (RBool true); eq (RBool true); eq (RBool true); found pg_ds pg_log0 pg_event;
   eq (RBool true); eq RNone; eq RNone; eq (RBool true); found (pg_ds ++ [pg_late]) pg_log pg_event].
Definition pg_view := mkPV (pg_ds ++ [pg_late]) [(true, Some pg_e3)] pg_log 22.
Definition pg_view' := mkPV (pg_ds ++ [pg_late]) [(true, None); (false, Some (mkE 1 [] (i_eq 1)))] [] 23.

Ltac in_list H := repeat (destruct H as [H|H]; [injection H; intros; subst; vm_compute; repeat (first [left; reflexivity|right])|]); destruct H.
Ltac speak := split; [intros ? ? H; cbn in H; in_list H|intros ? ? H I; cbn in H;
  repeat (destruct H as [H|H]; [injection H; intros; subst; first [vm_compute in I; discriminate I|vm_compute; repeat (first [left; reflexivity|right])]|]); destruct H].
Ltac no_twice := repeat constructor; cbn; intuition discriminate.
Ltac given := intros ? ? ? ? H; cbn in H; repeat (destruct H as [H|H]; [try discriminate; injection H; intros; subst; vm_compute; discriminate|]); destruct H.
Ltac new_id := cbn; intuition discriminate.
Ltac case_insert x := apply (k_insert pg_words _ _ _ _ _ _ _ x); [readable|read|fact|speak|no_twice|given|new_id].

Lemma pg_vars : variables_ok pg_words (pg_ds ++ [pg_late]).
Proof.
  split; [vm_compute; discriminate|]. unfold pg_ds, case_ds, pg_late.
  repeat (apply Forall_cons; [|]); try apply Forall_nil; (split; [reflexivity|]); (split; [vm_compute; discriminate|]); cbn [d_bound].
  all: try (split; reflexivity).
  all: try (left; vm_compute; reflexivity).
  all: try exact I.
  all: try (unfold tame, SIZE_MAX, INT64_MIN, INT64_MAX in *; intuition lia).
  all: try (split; [first [left; reflexivity|right; left; reflexivity|right; right; reflexivity]|split; [reflexivity|split; [discriminate|reflexivity]]]).
  right; right. split; [apply finite_range_b_iff; vm_compute; reflexivity|]. split; [apply coarse_b_ok; vm_compute; reflexivity|].
  split; [apply coarse_b_ok; vm_compute; reflexivity|]. exists 16. vm_compute. reflexivity.
Qed.
Lemma pg_vars0 : variables_ok pg_words pg_ds.
Proof. destruct pg_vars as (_ & F). split; [vm_compute; discriminate|]. apply Forall_app in F. apply F. Qed.
Ltac then_insert S id cs s x := eapply p_then in S; [|apply (k_insert pg_words _ _ _ _ id cs s x); [readable|read|fact|speak|no_twice|given|new_id]].
Ltac then_do S t := eapply p_then in S; [|t].
Ltac null_tests := intros ? ? H; cbn in H; repeat (destruct H as [H|H]; [discriminate|]); destruct H.
Ltac event := apply parse_reads_event; vm_compute; reflexivity.
Lemma pg_1 : program pg_words pg_ds pg_clean pg_as true pg_view.
Proof.
  pose proof (p_start pg_words pg_ds pg_vars0) as P.
  then_insert P 1 ([] : constants) case_text case_text_src.
  then_insert P 2 case_cs "within_frequency_cap('flight',""ns"", 10 ,100)" (e_src pg_e2).
  eapply p_then in P; [|apply (k_make pg_words _ _ _ _ 3 [] "i=9 and 'a' not in sl" (e_src pg_e3)); [readable|read|fact|speak| |given|null_tests|new_id]].
  2: { apply Forall_cons; [|apply Forall_cons; [|apply Forall_nil]].
       - left. split; [do 2 eexists; split; vm_compute; reflexivity|unfold modest, tame; lia].
       - do 5 eexists. split; [vm_compute; reflexivity|]. split; reflexivity. }
  then_insert P 4 ([] : constants) "price < 3.5" (e_src pg_e4).
  then_insert P 5 ([] : constants) "price > 9.5" (e_src pg_e5).
  then_insert P 6 ([] : constants) "price > 0.5 and ie = 7" (e_src pg_e6).
  eapply p_then in P; [|apply (k_search pg_words _ _ _ _ pg_event_text pg_event); [vm_compute; reflexivity|event|fact|fact|vm_compute; discriminate]].
  eapply p_then in P; [|apply (k_change pg_words _ _ _ _ "40 > i" (XAtom (ACmp CLt "i" (CInt 40)))); [readable|read|fact|speak|]].
  2: { apply Forall_cons; [|apply Forall_nil]. split; [do 2 eexists; split; vm_compute; reflexivity|unfold modest, tame; lia]. }
  eapply p_then in P; [|apply (k_declare pg_words _ _ _ _ pg_late); [exact pg_vars|right; vm_compute; discriminate]].
  eapply p_then in P; [|apply (k_insert_sub pg_words _ _ _ _ 0%nat pg_e3); reflexivity].
  then_insert P 7 ([] : constants) "late or s in ('y', 'x')" (e_src pg_e7).
  eapply p_then in P; [|apply (k_search pg_words _ _ _ _ pg_event_text pg_event); [vm_compute; reflexivity|event|fact|fact|vm_compute; discriminate]].
  exact P.
Qed.
Lemma pg_2 : program pg_words pg_ds pg_all (pg_as ++ [eq (RBool false)] ++ [eq RNone] ++ [eq (RBool true)] ++ [exists_answer (pg_ds ++ [pg_late]) [] pg_event])
  false pg_view'.
Proof.
  pose proof pg_1 as P.
  eapply p_then in P; [|apply (k_insert_unread pg_words _ 8 [] "i = "); [readable|apply parse_unread; vm_compute; reflexivity]].
  eapply p_then in P; [|apply (k_empty pg_words)].
  eapply p_then in P; [|apply (k_make pg_words _ _ _ _ 1 [] "i = 1" (i_eq 1)); [readable|read|fact|speak| |given|null_tests|new_id]].
  2: { apply Forall_cons; [|apply Forall_nil]. left. split; [do 2 eexists; split; vm_compute; reflexivity|unfold modest, tame; lia]. }
  eapply p_then in P; [|apply (k_exists pg_words _ _ _ _ pg_event_text pg_event); [vm_compute; reflexivity|event|fact|fact|vm_compute; discriminate]].
  exact P.
Qed.
(** The answers of the machine, computed: the first search, the second, and all the blocks before the calls, after them and after
    betree_free; with the refused text and the subscription that is not inserted, something is left. *)
Definition pg_run (l : list tcall) : option (list (list Z) * list nat * nat) :=
  match w_make 1 0 1000 pg_ds (mkLedger 1 []) with
  | Ok (w0, m0) =>
      match w_run 40 w0 l m0 with
      | Ok (rs, w, m1) =>
          match w_free 40 w m1 with
          | Ok (h, us, m2) => Some (map (fun a => match a with RReport true r => r_subs r | _ => [] end) rs,
                                    map (fun m => List.length (l_live m)) [m0; m1; m2], List.length us)
          | _ => None
          end
      | _ => None
      end
  | _ => None
  end.
Ltac fair_log := intros e I; repeat (destruct I as [<-|I];
  [split; [apply short_ok_b_ok; vm_compute; reflexivity|split; [apply range_ok_b_ok; vm_compute; reflexivity|apply clear_b_ok; vm_compute; reflexivity]]|]); destruct I.
Example C64_case :
  program pg_words pg_ds pg_clean pg_as true pg_view /\ Forall (fun x => fst x = true) (pv_made pg_view) /\
  Forall (fair_in pg_ds pg_event) pg_log0 /\ Forall (fair_in (pg_ds ++ [pg_late]) pg_event) pg_log /\
  hits pg_event pg_log0 = [1; 2; 4; 6] /\ hits pg_event pg_log = [1; 2; 4; 6; 3; 7] /\
  pg_run pg_clean = Some ([[]; []; []; []; []; []; [2; 1; 6; 4]; []; []; []; []; [2; 1; 6; 4; 3; 7]], [31; 136; 0]%nat, 0%nat) /\
  program pg_words pg_ds pg_all (pg_as ++ [eq (RBool false)] ++ [eq RNone] ++ [eq (RBool true)] ++ [exists_answer (pg_ds ++ [pg_late]) [] pg_event])
    false pg_view' /\
  option_map (fun x => (snd (fst x), snd x)) (pg_run pg_all) = Some ([31; 54; 6]%nat, 1%nat).
Proof.
  split; [exact pg_1|]. split; [now repeat constructor|].
  split; [apply Forall_forall; fair_log|]. split; [apply Forall_forall; fair_log|].
  split; [vm_compute; reflexivity|]. split; [vm_compute; reflexivity|]. split; [vm_compute; reflexivity|]. split; [exact pg_2|vm_compute; reflexivity].
Qed.
