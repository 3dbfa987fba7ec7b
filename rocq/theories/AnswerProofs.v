(** Consequences for the answers of searches. *)
From Coq Require Import ZArith NArith String Bool List Lia Permutation Sorted.
From Coq Require Import ZifyBool ZifyNat ZifyN.
From Verif Require Import Base Float Value Special Ast Match Config Assign Source Bound Tree PredMap RbTree Api Spec TreeSpec Hist.
From Verif Require Import BaseProofs ListProofs EvalProofs InternProofs ExtProofs ResProofs PassProofs PredProofs ShortProofs GvbProofs TreeProofs WideProofs HistProofs SearchProofs.
Import ListNotations.
Local Open Scope Z_scope.

Section WithGeo.
  Context {G : Geo}.

  Lemma hits_perm ev l l' : Permutation l l' -> Permutation (hits ev l) (hits ev l').
  Proof. intros P. unfold hits. apply Permutation_map. now apply filter_perm. Qed.
  Lemma hits_app ev l l' : hits ev (l ++ l') = hits ev l ++ hits ev l'.
  Proof. unfold hits. now rewrite filter_app, map_app. Qed.
  Lemma hits_none ev l : Forall (fun e => sem (e_cs e) ev (e_src e) = false) l -> hits ev l = [].
  Proof. intros F. unfold hits. now rewrite filter_false. Qed.

  Lemma filter_true {A} (f : A -> bool) l : Forall (fun x => f x = true) l -> filter f l = l.
  Proof. induction 1; cbn [filter]; [easy|]. rewrite H. congruence. Qed.

  Section Modes.
  Context {m : floats}.
  #[local] Instance FM : Floats := m.

  Section Tree.
    Variables (ds : list domain) (t : betree) (pend : list (sub * entry)) (log : list entry) (ev : event).
    Hypotheses (R : reach_in m ds t pend log) (HP : few_preds t) (HO : event_ok ds ev).

    Lemma tree_any : complete ds ev ->
      exists rep silent rest n, Permutation (rep ++ silent ++ rest) log
        /\ Forall (fun e => calm t ev e -> sem (e_cs e) ev (e_src e) = true) rep
        /\ Forall (fun e => calm t ev e -> sem (e_cs e) ev (e_src e) = false) silent
        /\ Forall (fun e => fair_one m t ev e -> sem (e_cs e) ev (e_src e) = false) rest
        /\ 0 <= n <= Z.of_nat (length (rep ++ silent))
        /\ (forall r, exists r', betree_search t ev r = Ok (true, r')
        /\ r_subs r' = r_subs r ++ map e_id rep
        /\ r_matched r' = r_matched r + Z.of_nat (length rep)
        /\ r_evaluated r' = r_evaluated r + Z.of_nat (length (rep ++ silent))
        /\ r_shorted r' = r_shorted r + n)
        /\ betree_exists t ev = Ok (match rep with [] => false | _ => true end).
    Proof.
      intros HC. destruct (search_any _ _ _ _ _ (reach_inv _ _ _ _ R) HP HO HC) as (rep & silent & rest & n & PL & F1 & F2 & FR & K).
      exists rep, silent, rest, n. split; [exact PL|]. split; [exact F1|]. split; [exact F2|]. split; [|exact K].
      eapply Forall_impl; [|exact FR]. cbv beta. intros e H F. apply H. now apply fair_seen.
    Qed.
    Lemma log_NoDup : NoDup (map e_id log).
    Proof.
      pose proof (iv_ids _ _ _ _ (reach_inv _ _ _ _ R)) as N. unfold ids_of in N. now apply NoDup_app_l in N.
    Qed.
    Lemma search_exact : complete ds ev -> fair m t ev log ->
      exists r, betree_search t ev make_report = Ok (true, r) /\ Permutation (r_subs r) (hits ev log).
    Proof.
      intros HC HF. destruct (tree_any HC) as (rep & silent & rest & n & PL & F1 & F2 & FR & _ & K & _).
      destruct (K make_report) as (r & E & S & _). exists r. split; [exact E|]. rewrite S. cbn [make_report r_subs app].
      assert (forall l, (forall e, In e l -> In e (rep ++ silent ++ rest)) -> Forall (fair_one m t ev) l) as HI.
      { intros l H. apply Forall_forall. intros e He. apply (fair_in _ _ log); [exact HF|]. apply (Permutation_in _ PL). auto. }
      assert (Forall (fun e => sem (e_cs e) ev (e_src e) = true) rep) as H1.
      { rewrite Forall_forall in *. intros e He. apply F1; [exact He|]. apply (@fair_calm m).
        assert (Forall (fair_one m t ev) rep) as Q by (apply HI; intros; apply in_or_app; now left). rewrite Forall_forall in Q. auto. }
      assert (Forall (fun e => sem (e_cs e) ev (e_src e) = false) silent) as H2.
      { rewrite Forall_forall in *. intros e He. apply F2; [exact He|]. apply (@fair_calm m).
        assert (Forall (fair_one m t ev) silent) as Q by (apply HI; intros; apply in_or_app; right; apply in_or_app; now left).
        rewrite Forall_forall in Q. auto. }
      assert (Forall (fun e => sem (e_cs e) ev (e_src e) = false) rest) as H3.
      { rewrite Forall_forall in *. intros e He. apply FR; [exact He|].
        assert (Forall (fair_one m t ev) rest) as Q by (apply HI; intros; apply in_or_app; right; apply in_or_app; now right).
        rewrite Forall_forall in Q. auto. }
      rewrite <- (hits_perm ev _ _ PL), !hits_app, (hits_none ev silent), (hits_none ev rest), !app_nil_r by assumption.
      unfold hits. rewrite filter_true by exact H1. reflexivity.
    Qed.
    (** The answer about one subscription depends on that subscription only. *)
    Lemma search_each e : complete ds ev -> In e log -> fair_one m t ev e ->
      exists r, betree_search t ev make_report = Ok (true, r) /\ (In (e_id e) (r_subs r) <-> sem (e_cs e) ev (e_src e) = true).
    Proof.
      intros HC HI HF. destruct (tree_any HC) as (rep & silent & rest & n & PL & F1 & F2 & FR & _ & K & _).
      destruct (K make_report) as (r & E & S & _). exists r. split; [exact E|]. rewrite S. cbn [make_report r_subs app].
      pose proof log_NoDup as ND. rewrite Forall_forall in F1, F2, FR. split.
      - intros H. apply in_map_iff in H. destruct H as (e' & E' & H).
        rewrite (NoDup_eq log e e' ND HI); auto.
        + apply F1; [exact H|]. apply (@fair_calm m). rewrite (NoDup_eq log e' e ND); auto.
          apply (Permutation_in _ PL). apply in_or_app. now left.
        + apply (Permutation_in _ PL). apply in_or_app. now left.
      - intros T. apply (Permutation_in _ (Permutation_sym PL)) in HI. apply in_app_or in HI. destruct HI as [HI|HI]; [now apply in_map|].
        exfalso. apply in_app_or in HI. destruct HI as [HI|HI].
        + rewrite (F2 e HI (fair_calm _ _ _ HF)) in T. discriminate T.
        + rewrite (FR e HI HF) in T. discriminate T.
    Qed.

    (** Searches end with an answer; it is [false] exactly for incomplete events. *)
    Lemma search_refuses r : ~ complete ds ev -> betree_search t ev r = Ok (false, r).
    Proof.
      intros HC. destruct (inv_env _ _ _ _ _ (reach_inv _ _ _ _ R) HO) as (p & E & HV).
      unfold betree_search. rewrite E. cbn [bind]. destruct (validate_variables _ p); [|easy]. exfalso. apply HC, HV. easy.
    Qed.
    Lemma search_decides r : (complete ds ev /\ exists r', betree_search t ev r = Ok (true, r'))
      \/ (~ complete ds ev /\ betree_search t ev r = Ok (false, r)).
    Proof.
      destruct (inv_env _ _ _ _ _ (reach_inv _ _ _ _ R) HO) as (p & E & HV).
      destruct (validate_variables (c_domains (bt_cfg t)) p) eqn:EV.
      - left. assert (complete ds ev) as HC by now apply HV. split; [exact HC|].
        destruct (tree_any HC) as (rep & silent & rest & n & _ & _ & _ & _ & _ & K & _).
        destruct (K r) as (r' & E' & _). eauto.
      - right. assert (~ complete ds ev) as HC by (intros K; apply HV in K; congruence). split; [exact HC|].
        now apply search_refuses.
    Qed.

    Lemma search_sound b r id : betree_search t ev make_report = Ok (b, r) -> In id (r_subs r) ->
      exists e, In e log /\ e_id e = id /\ (calm t ev e -> sem (e_cs e) ev (e_src e) = true).
    Proof.
      intros E H. destruct (search_decides make_report) as [[HC _]|[_ E']].
      - destruct (tree_any HC) as (rep & silent & rest & n & PL & F1 & _ & _ & _ & K & _).
        destruct (K make_report) as (r' & E' & S & _). rewrite E in E'. injection E' as -> ->.
        rewrite S in H. cbn [make_report r_subs app] in H. apply in_map_iff in H. destruct H as (e & <- & H).
        exists e. rewrite Forall_forall in F1. sp; auto. apply (Permutation_in _ PL). apply in_or_app. tauto.
      - rewrite E in E'. injection E' as -> ->. destruct H.
    Qed.

    Lemma search_once b r : betree_search t ev make_report = Ok (b, r) ->
      NoDup (r_subs r) /\ r_matched r = Z.of_nat (length (r_subs r)).
    Proof.
      intros E. destruct (search_decides make_report) as [[HC _]|[_ E']].
      - destruct (tree_any HC) as (rep & silent & rest & n & PL & _ & _ & _ & _ & K & _).
        destruct (K make_report) as (r' & E' & S & M & _). rewrite E in E'. injection E' as -> ->.
        rewrite S, M. cbn [make_report r_subs r_matched app]. rewrite map_length. split; [|lia].
        pose proof log_NoDup as N. rewrite <- PL, map_app in N. now apply NoDup_app_l in N.
      - rewrite E in E'. injection E' as -> ->. split; [constructor|reflexivity].
    Qed.

    Lemma counters b r : betree_search t ev make_report = Ok (b, r) ->
      exists rep silent, (exists rest, Permutation (rep ++ silent ++ rest) log)
        /\ r_evaluated r = Z.of_nat (length (rep ++ silent)) /\ r_evaluated r <= Z.of_nat (length log)
        /\ r_subs r = map e_id rep
        /\ Forall (fun e => calm t ev e -> sem (e_cs e) ev (e_src e) = true) rep
        /\ Forall (fun e => calm t ev e -> sem (e_cs e) ev (e_src e) = false) silent
        /\ 0 <= r_matched r <= r_evaluated r /\ 0 <= r_shorted r <= r_evaluated r.
    Proof.
      intros E. destruct (search_decides make_report) as [[HC _]|[_ E']].
      - destruct (tree_any HC) as (rep & silent & rest & n & PL & F1 & F2 & FR & NB & K & _).
        destruct (K make_report) as (r' & E' & S & M & EV & SH). rewrite E in E'. injection E' as -> ->.
        cbn [make_report r_subs r_matched r_evaluated r_shorted app] in *.
        exists rep, silent. rewrite EV, M, SH, S. pose proof (Permutation_length PL) as L. rewrite !app_length in *.
        sp; try lia; eauto.
      - rewrite E in E'. injection E' as -> ->. exists [], []. cbn. sp; try lia; eauto.
    Qed.

    Lemma exists_agrees : complete ds ev ->
      exists b r, betree_exists t ev = Ok b /\ betree_search t ev make_report = Ok (true, r)
        /\ (b = true <-> r_subs r <> []).
    Proof.
      intros HC. destruct (tree_any HC) as (rep & silent & rest & n & _ & _ & _ & _ & _ & K & EX). destruct (K make_report) as (r & E & S & _).
      eexists _, r. split; [exact EX|]. split; [exact E|]. rewrite S. cbn [make_report r_subs app].
      destruct rep; cbn [map]; split; easy.
    Qed.

    (** Searches with the same report append their answers. *)
    Lemma search_appends : exists ids b, forall r, exists r', betree_search t ev r = Ok (b, r') /\ r_subs r' = r_subs r ++ ids.
    Proof.
      destruct (search_decides make_report) as [[HC _]|[HC _]].
      - destruct (tree_any HC) as (rep & silent & rest & n & _ & _ & _ & _ & _ & K & _).
        exists (map e_id rep), true. intros r0. destruct (K r0) as (r' & E & S & _). eauto.
      - exists [], false. intros r0. exists r0. rewrite app_nil_r. split; [|easy]. now apply search_refuses.
    Qed.
  End Tree.

  Lemma search_many ds t pend log evs : reach_in m ds t pend log -> few_preds t -> Forall (event_ok ds) evs ->
    forall r, exists r' singles, search_all t evs r = Ok r'
      /\ Forall2 (fun ev ids => exists b r1, betree_search t ev make_report = Ok (b, r1) /\ r_subs r1 = ids) evs singles
      /\ r_subs r' = r_subs r ++ concat singles.
  Proof.
    intros R HP. induction 1 as [|ev evs HO F IH]; intros r; cbn [search_all].
    - exists r, []. rewrite app_nil_r. sp; auto.
    - destruct (search_appends ds t pend log ev R HP HO) as (ids & b & K).
      destruct (K r) as (r1 & E1 & S1). rewrite E1. cbn [bind snd].
      destruct (IH r1) as (r' & singles & E' & F' & S'). exists r', (ids :: singles). sp; auto.
      + constructor; [|exact F']. destruct (K make_report) as (r2 & E2 & S2). eauto.
      + rewrite S', S1. cbn [concat]. now rewrite app_assoc.
  Qed.

  Lemma builds_reach ds cap minpart maxsplit l t : builds_in m ds cap minpart maxsplit l t -> reach_in m ds t [] l.
  Proof.
    induction 1; [now apply r_init|]. eapply r_insert; eauto. unfold ids_of. cbn [map]. now rewrite app_nil_r.
  Qed.
  End Modes.

  Lemma same_answers m m' ds t pend log t' pend' log' ev :
    reach_in m ds t pend log -> reach_in m' ds t' pend' log' -> Permutation log log' -> few_preds t -> few_preds t' ->
    event_ok ds ev -> complete ds ev -> fair m t ev log -> fair m' t' ev log' ->
    exists r r', betree_search t ev make_report = Ok (true, r) /\ betree_search t' ev make_report = Ok (true, r')
      /\ Permutation (r_subs r) (r_subs r').
  Proof.
    intros R R' P HP HP' HO HC F F'.
    destruct (search_exact ds t pend log ev R HP HO HC F) as (r & E & Q).
    destruct (search_exact ds t' pend' log' ev R' HP' HO HC F') as (r' & E' & Q').
    exists r, r'. sp; auto. rewrite Q, Q'. now apply hits_perm.
  Qed.

  Lemma built_same m m' ds cap minpart maxsplit l t cap' minpart' maxsplit' l' t' ev :
    builds_in m ds cap minpart maxsplit l t -> builds_in m' ds cap' minpart' maxsplit' l' t' -> Permutation l l' ->
    few_preds t -> few_preds t' -> event_ok ds ev -> complete ds ev -> fair m t ev l -> fair m' t' ev l' ->
    exists r r', betree_search t ev make_report = Ok (true, r) /\ betree_search t' ev make_report = Ok (true, r')
      /\ Permutation (r_subs r) (r_subs r').
  Proof. intros B B' P. eapply same_answers; eauto using builds_reach. Qed.

  Section Modes2.
  Context {m : floats}.
  #[local] Instance FM2 : Floats := m.
  (** One more subscription. *)
  Lemma insert_answers ds t pend log id cs x t' ev :
    reach_in m ds t pend log -> accepts ds (bt_cfg t) false cs x -> ~ In id (ids_of pend log) ->
    betree_insert_with_constants t id cs x = Ok (true, t') ->
    few_preds t -> few_preds t' -> event_ok ds ev -> complete ds ev -> fair m t ev log -> fair m t' ev (log ++ [mkE id cs x]) ->
    exists r r', betree_search t ev make_report = Ok (true, r) /\ betree_search t' ev make_report = Ok (true, r')
      /\ Permutation (r_subs r') (r_subs r ++ if sem cs ev x then [id] else []).
  Proof.
    intros R HA HN HI HP HP' HO HC HF HF'. pose proof (r_insert _ _ _ _ _ _ _ _ R HA HN HI) as R'.
    destruct (search_exact ds t pend log ev R HP HO HC HF) as (r & E & Q).
    destruct (search_exact ds t' _ _ ev R' HP' HO HC HF') as (r' & E' & Q').
    exists r, r'. sp; auto. rewrite Q, Q', hits_app. apply Permutation_app_head.
    unfold hits. cbn [filter e_cs e_src]. now destruct (sem cs ev x).
  Qed.

  Lemma inv_subs_ids ds t pend log : inv ds t pend log -> Permutation (map s_id (subs_cnode (bt_root t))) (map e_id log).
  Proof.
    intros [_ _ _ _ _ (V & l & _ & PS & EL & FS)]. apply Forall_app in FS. destruct FS as [FS _].
    rewrite (Permutation_map s_id PS), <- EL. fold (ids (map fst l)). now rewrite (ids_snd _ _ _ _ FS).
  Qed.

  Lemma find_unique id l s : NoDup (map s_id l) -> In s l -> s_id s = id -> find (fun s => s_id s =? id) l = Some s.
  Proof.
    induction l as [|x l IH]; cbn [map find In]; intros N H E; [easy|]. inversion N; subst.
    destruct H as [->|H]; [now rewrite Z.eqb_refl|]. destruct (Z.eqb_spec (s_id x) (s_id s)) as [K|K]; [|auto].
    exfalso. apply H2. rewrite K. now apply in_map.
  Qed.

  Lemma insert_keeps ds t pend log id cs x t' :
    reach_in m ds t pend log -> accepts ds (bt_cfg t) false cs x -> ~ In id (ids_of pend log) ->
    betree_insert_with_constants t id cs x = Ok (true, t') ->
    exists s, s_id s = id /\ Permutation (subs_cnode (bt_root t')) (s :: subs_cnode (bt_root t))
      /\ NoDup (map s_id (subs_cnode (bt_root t')))
      /\ forall s', In s' (s :: subs_cnode (bt_root t)) -> find_sub_id (s_id s') (bt_root t') = Some s'.
  Proof.
    intros R HA HN HI. pose proof (reach_inv _ _ _ _ R) as IV.
    pose proof (reach_inv _ _ _ _ (r_insert _ _ _ _ _ _ _ _ R HA HN HI)) as IV'.
    assert (NoDup (map s_id (subs_cnode (bt_root t')))) as ND.
    { rewrite (inv_subs_ids _ _ _ _ IV'). pose proof (iv_ids _ _ _ _ IV') as N. unfold ids_of in N. now apply NoDup_app_l in N. }
    assert (exists s, s_id s = id /\ Permutation (subs_cnode (bt_root t')) (s :: subs_cnode (bt_root t))) as (s & E & P).
    { destruct HA as (HS & HF). pose proof IV as [ISG IC IF IT IN _].
      unfold betree_insert_with_constants, insert_expr in HI. apply bind_ok in HI. destruct HI as (ok & _ & H).
      destruct (negb ok); [discriminate|].
      destruct (assign_constants cs _) as [e2|] eqn:E2; [|discriminate].
      apply bind_ok in H. destruct H as ([e3 c3] & E3 & H). apply bind_ok in H. destruct H as ([e4 c4] & E4 & H).
      apply bind_ok in H. destruct H as ([e6 c6] & E6 & H). apply bind_ok in H. destruct H as ([e7 m7] & E7 & H).
      apply bind_ok in H. destruct H as (s & E8 & H). apply bind_ok in H. destruct H as (t1 & E9 & [= <-]).
      assert (src_ok (c_domains (bt_cfg t)) cs x) as HS' by (eapply src_ok_sig; [|exact HS]; auto).
      destruct (insert_passes (bt_cfg t) cs x false IC HS' HF _ _ _ _ _ _ _ E2 E3 E4 E6) as [B _].
      unfold insert_sub in E9. cbn [bt_cfg bt_root bt_pm] in E9. apply bind_ok in E9. destruct E9 as (root' & E9 & [= <-]).
      apply make_sub_sc in E8. destruct E8 as (ID & _). pose proof (bz_doms _ _ _ _ B) as ED.
      exists s. split; [exact ID|]. cbn [bt_root]. eapply insert_root_ok; [| | |exact E9].
      - eapply fine_same; [exact ED|apply (bz_ext _ _ _ _ B)|exact IF].
      - now rewrite ED.
      - unfold ids. cbn [map]. rewrite ID, (inv_subs_ids _ _ _ _ IV). unfold ids_of in *. constructor.
        + intros K. apply HN. apply in_or_app. now left.
        + now apply NoDup_app_l in IN. }
    exists s. sp; auto. intros s' Hs. rewrite find_sub_ok. apply find_unique; auto.
    apply (Permutation_in _ (Permutation_sym P)). exact Hs.
  Qed.

  Lemma make_insert_answers ds t pend log id cs x s t1 t2 t' ev :
    reach_in m ds t pend log -> ~ In id (ids_of pend log) ->
    accepts ds (bt_cfg t) false cs x -> betree_insert_with_constants t id cs x = Ok (true, t') ->
    accepts ds (bt_cfg t) true cs x -> betree_make_sub t id cs x = Ok (Some s, t1) -> floats_ok m (bt_cfg t) (bt_cfg t1) ->
    betree_insert_sub t1 s = Ok t2 ->
    few_preds t' -> few_preds t2 -> event_ok ds ev -> complete ds ev ->
    fair m t' ev (log ++ [mkE id cs x]) -> fair m t2 ev (log ++ [mkE id cs x]) ->
    exists r r', betree_search t' ev make_report = Ok (true, r) /\ betree_search t2 ev make_report = Ok (true, r')
      /\ Permutation (r_subs r) (r_subs r').
  Proof.
    intros R HN HA HI HA' HM HW HS. pose proof (r_insert _ _ _ _ _ _ _ _ R HA HN HI) as R1.
    pose proof (r_make _ _ _ _ _ _ _ _ _ R HA' HN HM HW) as R2.
    pose proof (r_insert_sub _ _ _ _ _ _ _ _ R2 HS) as R3. eapply same_answers; eauto.
  Qed.

  Lemma change_answers ds t pend log x t' ev :
    reach_in m ds t pend log -> src_ok ds [] x -> fits (bt_cfg t) true x ->
    betree_change_boundaries t x = Ok t' -> floats_ok m (bt_cfg t) (bt_cfg t') ->
    few_preds t -> few_preds t' -> event_ok ds ev -> complete ds ev -> fair m t ev log -> fair m t' ev log ->
    exists r r', betree_search t ev make_report = Ok (true, r) /\ betree_search t' ev make_report = Ok (true, r')
      /\ Permutation (r_subs r) (r_subs r').
  Proof.
    intros R HS HF HC HW. eapply same_answers; eauto. eapply r_change; eauto.
  Qed.
  Lemma make_answers ds t pend log id cs x s t' ev :
    reach_in m ds t pend log -> accepts ds (bt_cfg t) true cs x -> ~ In id (ids_of pend log) ->
    betree_make_sub t id cs x = Ok (s, t') -> floats_ok m (bt_cfg t) (bt_cfg t') ->
    few_preds t -> few_preds t' -> event_ok ds ev -> complete ds ev -> fair m t ev log -> fair m t' ev log ->
    exists r r', betree_search t ev make_report = Ok (true, r) /\ betree_search t' ev make_report = Ok (true, r')
      /\ Permutation (r_subs r) (r_subs r').
  Proof.
    intros R HA HN HM HW. destruct s as [s|].
    - eapply same_answers; [exact R|eapply r_make; eauto|reflexivity].
    - eapply same_answers; [exact R|eapply r_make_refused; eauto; apply HA|reflexivity].
  Qed.

  (** Refused insertions. *)
  Lemma refused_same t id cs x t' : betree_insert_with_constants t id cs x = Ok (false, t') -> t' = t.
  Proof.
    unfold betree_insert_with_constants, insert_expr. intros H.
    apply bind_ok in H. destruct H as (ok & _ & H). destruct (negb ok); [now injection H as <-|].
    destruct (assign_constants cs _) as [e2|]; [|now injection H as <-].
    repeat (apply bind_ok in H; destruct H as (? & _ & H); try (match type of H with context [let (_, _) := ?y in _] => destruct y end)).
    discriminate.
  Qed.
  Lemma refused_make_answers ds t pend log id cs x t' ev :
    reach_in m ds t pend log -> fits (bt_cfg t) true x -> betree_make_sub t id cs x = Ok (None, t') ->
    few_preds t -> few_preds t' -> event_ok ds ev -> complete ds ev -> fair m t ev log -> fair m t' ev log ->
    exists r r', betree_search t ev make_report = Ok (true, r) /\ betree_search t' ev make_report = Ok (true, r')
      /\ Permutation (r_subs r) (r_subs r').
  Proof. intros R HF HM. eapply same_answers; eauto. eapply r_make_refused; eauto. Qed.

  (** Shared results. *)
  Lemma shared_loop p ms V l : mids_inj ms -> Forall (fun s => ready p V s) l -> forall st, memo_ok V ms st ->
    eval_shared p ms l st = Ok (map (truth p) l).
  Proof.
    intros INJ. induction 1 as [|s l (NB & EV & _) F IH]; intros st M; cbn [eval_shared map]; [easy|].
    pose proof (match_node_eval V p ms (s_expr s) st INJ NB M) as A. rewrite EV in A. cbn [agrees] in A.
    destruct A as (st' & -> & M'). cbn [bind snd fst]. rewrite (IH st' M'). reflexivity.
  Qed.
  Lemma shared_alone ds t pend log ev p l :
    reach_in m ds t pend log -> few_preds t -> event_ok ds ev -> make_env (bt_cfg t) ev = Ok p ->
    incl l (subs_cnode (bt_root t) ++ map fst pend) ->
    exists bs, eval_shared p (pm_mids (bt_pm t)) l (make_memoize (pm_mcount (bt_pm t)) 0) = Ok bs
      /\ Forall2 (fun s b => eval p (s_expr s) = Ok b) l bs
      /\ Forall2 (fun s b => eval_shared p (pm_mids (bt_pm t)) [s] (make_memoize (pm_mcount (bt_pm t)) 0) = Ok [b]) l bs.
  Proof.
    intros R HP HO HE HI. destruct (all_ready _ _ _ _ _ _ (reach_inv _ _ _ _ R) HP HO HE) as (V & l0 & PS & EL & F & INJ & M).
    assert (Forall (fun s => ready p V s) l) as FR.
    { apply Forall_forall. intros s Hs. apply HI in Hs. rewrite Forall_forall in F. apply in_app_or in Hs.
      assert (In s (map fst (l0 ++ pend))) as K.
      { rewrite map_app. apply in_or_app. destruct Hs as [Hs|Hs]; [left; now apply (Permutation_in _ PS)|now right]. }
      apply in_map_iff in K. destruct K as (x & <- & K). apply (F x K). }
    exists (map (truth p) l). split; [now apply (shared_loop _ _ V)|]. clear HI. induction FR as [|s l R1 F1 [IH1 IH2]]; cbn [map].
    - split; constructor.
    - split; constructor; auto; [apply R1|]. rewrite (shared_loop _ _ V); auto.
  Qed.
  (** The shortcut. *)
  Lemma shortcut_right ds t pend log ev p s :
    reach_in m ds t pend log -> few_preds t -> event_ok ds ev -> make_env (bt_cfg t) ev = Ok p ->
    In s (subs_cnode (bt_root t)) ->
    exists e k, In e log /\ e_id e = s_id s /\ try_short_circuit (s_pass s) (s_fail s) (make_undefined p) = Ok k
      /\ (calm t ev e -> (k = ScPass -> sem (e_cs e) ev (e_src e) = true) /\ (k = ScFail -> sem (e_cs e) ev (e_src e) = false))
      /\ eval p (s_expr s) = Ok (sem (e_cs e) ev (e_src e)).
  Proof.
    intros R HP HO HE HI. destruct (all_ready _ _ _ _ _ _ (reach_inv _ _ _ _ R) HP HO HE) as (V & l0 & PS & EL & F & _ & _).
    apply (Permutation_in _ PS) in HI. apply in_map_iff in HI. destruct HI as ([s' e] & <- & HI). cbn [fst].
    rewrite Forall_forall in F. destruct (F (s', e)) as ((_ & EV & k & K) & ID & T & D); [apply in_or_app; now left|]. cbn [fst snd] in *.
    exists e, k. rewrite T in *. sp; auto.
    - rewrite <- EL. apply in_map_iff. exists (s', e). auto.
    - intros CA. specialize (D CA). unfold says in D. rewrite K in D. split; intros ->; now symmetry.
  Qed.

  (** Ranges only widen. *)
  Lemma wider_widened b b' : dom_fine b -> dom_fine b' -> wider b b' -> widened b b'.
  Proof.
    destruct b as [lo hi|w lo hi|lo hi|w lo hi| | ]; cbn [dom_fine widened]; intros F F' W; auto.
    - destruct (W F) as (S & T & G' & _). destruct b' as [lo' hi'|w' lo' hi'|lo' hi'|w' lo' hi'| | ]; cbn [same_tag] in G'; try contradiction.
      cbn [dom_fine] in F'. destruct F as [-> ->], F' as [-> ->]. reflexivity.
    - intros L H. destruct W as (S & T & G' & L' & H'). { cbn [splits]. lia. }
      destruct b' as [lo' hi'|w' lo' hi'|lo' hi'|w' lo' hi'| | ]; cbn [same_tag blo bhi] in *; try contradiction. subst w'. eauto.
    - intros H. destruct W as (S & T & G' & L' & H'). { cbn [splits]. tauto. }
      destruct b' as [lo' hi'|w' lo' hi'|lo' hi'|w' lo' hi'| | ]; cbn [same_tag blo bhi] in *; try contradiction. subst w'. eauto.
  Qed.

  Lemma all_widened_of c c' : ext c c' -> cfg_fine c -> cfg_fine c' ->
    (forall v d, nthN (c_domains c) v = Some d ->
        exists d', nthN (c_domains c') v = Some d' /\ wider (d_bound d) (d_bound d')) -> all_widened c c'.
  Proof.
    intros X F F' W v d N. destruct (W v d N) as (d' & N' & W'). exists d'. split; [exact N'|].
    pose proof (fine_all _ F) as FA. pose proof (fine_all _ F') as FA'. rewrite Forall_forall in FA, FA'.
    destruct (ext_dom _ _ _ _ X N) as (d2 & N2 & E). rewrite N' in N2. injection N2 as <-. injection E as E1 E2 E3.
    rewrite nthN_nth in N, N'.
    sp; auto. apply wider_widened; auto; [eapply FA|eapply FA']; eapply nth_error_In; eauto.
  Qed.
  Lemma change_widens ds t pend log x t' :
    reach_in m ds t pend log -> src_ok ds [] x -> fits (bt_cfg t) true x ->
    betree_change_boundaries t x = Ok t' -> floats_ok m (bt_cfg t) (bt_cfg t') -> all_widened (bt_cfg t) (bt_cfg t').
  Proof.
    intros R HS HF H HW. pose proof (reach_inv _ _ _ _ R) as [ISG IC IF IT IN _].
    unfold betree_change_boundaries, change_boundaries_expr in H.
    apply bind_ok in H. destruct H as ([e3 c3] & E3 & H). apply bind_ok in H. destruct H as ([e4 c4] & E4 & H).
    apply bind_ok in H. destruct H as ([e5 c5] & E5 & H). apply bind_ok in H. destruct H as (c6 & E6 & [= <-]).
    assert (src_ok (c_domains (bt_cfg t)) [] x) as HS' by (eapply src_ok_sig; [|exact HS]; auto).
    destruct (change_passes (bt_cfg t) [] x true IC HS' HF _ _ _ _ _ _ E3 E4 E5) as [B Q].
    destruct (change_step (bt_cfg t) c5 [] x _ _ e5 c6 IC IF B) as (_ & X & C' & F' & W'); auto.
    { now rewrite (bz_doms _ _ _ _ B). }
    apply all_widened_of; auto.
  Qed.
  Lemma make_widens ds t pend log id cs x s t' :
    reach_in m ds t pend log -> accepts ds (bt_cfg t) true cs x ->
    betree_make_sub t id cs x = Ok (Some s, t') -> floats_ok m (bt_cfg t) (bt_cfg t') -> all_widened (bt_cfg t) (bt_cfg t').
  Proof.
    intros R (HS & HF) H HW. pose proof (reach_inv _ _ _ _ R) as [ISG IC IF IT IN _].
    unfold betree_make_sub, make_sub_expr in H. apply bind_ok in H. destruct H as (ok & _ & H). destruct (negb ok); [discriminate|].
    apply bind_ok in H. destruct H as ([e3 c3] & E3 & H). apply bind_ok in H. destruct H as ([e4 c4] & E4 & H).
    apply bind_ok in H. destruct H as ([e5 c5] & E5 & H). apply bind_ok in H. destruct H as (ok2 & _ & H).
    destruct (negb ok2); [discriminate|]. destruct (assign_constants cs e5) as [e6|] eqn:E6; [|discriminate].
    apply bind_ok in H. destruct H as (c7 & E7 & H). apply bind_ok in H. destruct H as ([e8 m8] & E8 & H).
    apply bind_ok in H. destruct H as (s' & E9 & H). injection H as -> <-. cbn [bt_cfg] in *.
    assert (src_ok (c_domains (bt_cfg t)) cs x) as HS' by (eapply src_ok_sig; [|exact HS]; auto).
    destruct (make_passes (bt_cfg t) cs x true IC HS' HF _ _ _ _ _ _ E3 E4 E5) as [B Q]. specialize (Q e6 E6).
    destruct (change_step (bt_cfg t) c5 cs x _ _ (sort_lists e6) c7 IC IF B) as (X5 & X & C' & F' & W'); auto.
    { now rewrite (bz_doms _ _ _ _ B). }
    { eapply rel_src_impl; [exact Q|]. auto. }
    apply all_widened_of; auto.
  Qed.
  End Modes2.
End WithGeo.
