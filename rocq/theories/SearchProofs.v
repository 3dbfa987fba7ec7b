(** Searching a reachable tree. *)
From Coq Require Import ZArith NArith String Bool List Lia Permutation Sorted.
From Coq Require Import ZifyBool ZifyNat ZifyN.
From Verif Require Import Base Float Value Special Ast Match Config Assign Source Bound Tree PredMap RbTree Api Spec TreeSpec Hist.
From Verif Require Import BaseProofs ListProofs EvalProofs InternProofs ExtProofs ResProofs PassProofs PredProofs ShortProofs FloatSpec GvbProofs TreeProofs WideProofs HistProofs.
Import ListNotations.
Local Open Scope Z_scope.

(** *** The environment made from an event *)
Lemma fill_event_named c ev : forall p0 p, fill_event c ev p0 = Ok p -> forall v y, nthN p v = Some (Some y) ->
  nthN p0 v = Some (Some y) \/ exists x d, decl (c_domains c) x = Some (v, d).
Proof.
  induction ev as [|[n [y|]] t IH]; cbn [fill_event]; intros p0 p H v z HV.
  - injection H as ->. now left.
  - apply bind_ok in H. destruct H as ([w y'] & E & H). destruct (IH _ _ H v z HV) as [K|K]; [|now right].
    apply fill_variable_ok in E. destruct E as (d & y0 & D & _ & _).
    destruct (N.eq_dec w v) as [->|NE]; [right; eauto|]. rewrite nthN_updN_neq in K by easy. now left.
  - eapply IH; eauto.
Qed.
Lemma make_env_named c ev p v y : make_env c ev = Ok p -> nthN p v = Some (Some y) -> exists x d, decl (c_domains c) x = Some (v, d).
Proof.
  intros H K. destruct (fill_event_named _ _ _ _ H _ _ K) as [L|L]; [|exact L].
  rewrite nthN_repeat in L. destruct (_ <? _)%N; discriminate.
Qed.

Lemma env_value c ev p v y : make_env c ev = Ok p -> event_ok (c_domains c) ev -> nthN p v = Some (Some y) ->
  exists x d y0, decl (c_domains c) x = Some (v, d) /\ lookup ev x = Some y0
    /\ y = stored c v (btype (d_bound d)) y0 /\ value_ok (btype (d_bound d)) y0.
Proof.
  intros H HO K. destruct (make_env_named _ _ _ _ _ H K) as (x & d & D).
  pose proof (read_at c ev p x v (btype (d_bound d)) (make_env_ok _ _ _ H) HO (ex_intro _ d (conj D eq_refl))) as R.
  unfold read_var in R. rewrite K in R. destruct (lookup ev x) as [y0|] eqn:E; [|discriminate].
  destruct R as [R V]. injection R as ->. exists x, d, y0. auto.
Qed.

(** Events are accepted exactly when they are complete. *)
Lemma validate_nth ds : forall p, length p = length ds -> (validate_variables ds p = true <->
  forall i d, nthN ds i = Some d -> d_undef d = false -> exists y, nthN p i = Some (Some y)).
Proof.
  induction ds as [|d t IH]; intros [|o p] L; try discriminate.
  - split; [|easy]. intros _ i d H. unfold nthN in H. destruct (N.to_nat i); discriminate.
  - cbn [length] in L. injection L as L. cbn [validate_variables]. rewrite andb_true_iff, (IH p L). clear IH. split.
    + intros [H1 H2] i d' N U. rewrite nthN_nth in N. rewrite nthN_nth. destruct (N.to_nat i) as [|k] eqn:E in *; cbn [nth_error] in *.
      * injection N as ->. rewrite U in H1. cbn in H1. destruct o; [eauto|discriminate].
      * specialize (H2 (N.of_nat k) d'). rewrite !nthN_nth, Nnat.Nat2N.id in H2. auto.
    + intros H. split.
      * specialize (H 0%N d). rewrite !nthN_nth in H. cbn in H. destruct (d_undef d); [easy|].
        destruct H as [y H]; auto. injection H as ->. easy.
      * intros i d' N U. specialize (H (i + 1)%N d'). rewrite !nthN_nth in H. rewrite nthN_nth in N. rewrite nthN_nth. replace (N.to_nat (i + 1)) with (S (N.to_nat i)) in H by lia.
        cbn [nth_error] in H. auto.
Qed.
Lemma validate_complete c ev p : make_env c ev = Ok p -> event_ok (c_domains c) ev ->
  (validate_variables (c_domains c) p = true <-> complete (c_domains c) ev).
Proof.
  intros H HO. pose proof (make_env_ok _ _ _ H) as [L E]. rewrite (validate_nth _ _ L). split; intros K i d N U.
  - destruct (K i d N U) as [y Y]. destruct (env_value _ _ _ _ _ H HO Y) as (x & d' & y0 & D & LK & _).
    exists x. split; [|now rewrite LK]. rewrite D. apply decl_spec in D. destruct D as [D _]. congruence.
  - destruct (K i d N U) as (n & D & LK). specialize (E n i d D). destruct (lookup ev n); [|easy].
    destruct E as (y0 & _ & E). eauto.
Qed.

Lemma id_range {A} (index : list A -> A -> option Z) T v s :
  (forall l x, match index l x with
               | Some i => 0 <= i < Z.of_nat (length l) /\ nth_error l (Z.to_nat i) = Some x
               | None => ~ In x l end) ->
  tab_ok T -> 0 <= match index (T v) s with Some i => i | None => SIZE_MAX end <= SIZE_MAX.
Proof.
  intros HI HT. specialize (HI (T v) s). destruct (HT v) as [_ HL]. unfold SIZE_MAX, UINT64_MAX in *. destruct (index (T v) s); lia.
Qed.

Lemma stored_val_ok c v t y : tabs_ok c -> value_ok t y -> val_ok t (stored c v t y).
Proof.
  intros [TS TI] H.
  assert (forall s, 0 <= try_get_str c v s <= SIZE_MAX) as KS.
  { intros s. rewrite try_get_str_alt. exact (id_range str_index (strs c) v s str_index_spec TS). }
  assert (forall z, 0 <= try_get_ie c v z <= SIZE_MAX) as KI.
  { intros z. rewrite try_get_ie_alt. exact (id_range int_index (ints c) v z int_index_spec TI). }
  destruct t, y; cbn [value_ok stored val_ok] in *; try exact I; try (exfalso; exact H); auto.
  - cbn. apply KS.
  - destruct H as [H1 H2]. split; [apply sincr_incr, sort_ints_sincr|]. rewrite Forall_forall in *.
    intros k. rewrite sort_ints_In. auto.
  - destruct l as [|z l]; [|exfalso; exact H]. split; constructor.
  - split; [apply sincr_incr, sort_strs_sincr|]. apply Forall_forall. intros s Hs. apply sort_strs_sub in Hs.
    apply in_map_iff in Hs. destruct Hs as (s' & <- & _). cbn [istr sv_str]. apply KS.
  - cbn. apply KI.
Qed.

Section WithGeo.
  Context {G : Geo} {FM : Floats}.

  (** *** The candidates of a search *)
  Definition truth (p : env) (s : sub) : bool := match eval p (s_expr s) with Ok b => b | _ => false end.
  (** What a search says of a candidate: the shortcut, or else the expression. *)
  Definition says (p : env) (s : sub) : bool :=
    match try_short_circuit (s_pass s) (s_fail s) (make_undefined p) with
    | Ok ScPass => true | Ok ScFail => false | _ => truth p s end.
  Section Loop.
    Variables (p : env) (m : mids) (V : N -> result bool).
    Hypothesis INJ : mids_inj m.

    (** What is known of one candidate. *)
    Definition ready (s : sub) : Prop :=
      numbered V p (s_expr s) /\ eval p (s_expr s) = Ok (truth p s)
      /\ exists k, try_short_circuit (s_pass s) (s_fail s) (make_undefined p) = Ok k.

    Lemma match_sub_ok s st : ready s -> memo_ok V m st ->
      exists st' sh, match_sub p m (make_undefined p) s st = Ok (says p s, st', sh) /\ memo_ok V m st'.
    Proof.
      intros (HN & HE & k & HK) HM. unfold match_sub, says. rewrite HK. cbn [bind]. destruct k.
      - now exists st, true.
      - now exists st, true.
      - pose proof (match_node_eval V p m (s_expr s) st INJ HN HM) as A. rewrite HE in A. cbn [agrees] in A.
        destruct A as (s' & E & M'). rewrite E. cbn [bind]. eauto.
    Qed.

    Definition shorts (s : sub) : bool :=
      match try_short_circuit (s_pass s) (s_fail s) (make_undefined p) with Ok ScNone => false | _ => true end.
    Lemma match_sub_shorts s st b st' sh : match_sub p m (make_undefined p) s st = Ok (b, st', sh) -> sh = shorts s.
    Proof.
      unfold match_sub, shorts. destruct (try_short_circuit _ _ _) as [k| | |]; cbn [bind]; try discriminate.
      destruct k; intros H; [congruence|congruence|]. apply bind_ok in H. destruct H as ([b' s'] & _ & H). congruence.
    Qed.

    Lemma search_loop_ok l : forall st r, Forall ready l -> memo_ok V m st ->
      exists r', search_loop p m (make_undefined p) l st r = Ok r'
        /\ r_subs r' = r_subs r ++ map s_id (filter (says p) l)
        /\ r_matched r' = r_matched r + Z.of_nat (length (filter (says p) l))
        /\ r_evaluated r' = r_evaluated r + Z.of_nat (length l)
        /\ r_shorted r' = r_shorted r + Z.of_nat (length (filter shorts l)).
    Proof.
      induction l as [|s l IH]; intros st r F HM; cbn [search_loop].
      - eexists. split; [reflexivity|]. cbn. rewrite app_nil_r. sp; auto; lia.
      - inversion F as [|? ? R F']; subst. destruct (match_sub_ok s st R HM) as (st' & sh & E & M'). rewrite E. cbn [bind].
        rewrite (match_sub_shorts _ _ _ _ _ E). clear E.
        match goal with |- context [search_loop _ _ _ _ _ ?r0] => destruct (IH st' r0 F' M') as (r' & E' & A1 & A2 & A3 & A4) end.
        exists r'. split; [exact E'|]. rewrite A1, A2, A3, A4. clear. cbn [filter].
        destruct (says p s), (shorts s); cbn [r_subs r_evaluated r_shorted r_matched add_sub length map app];
          sp; try lia; try reflexivity; now rewrite <- app_assoc.
    Qed.

    Lemma exists_loop_ok l : forall st, Forall ready l -> memo_ok V m st ->
      exists_loop p m (make_undefined p) l st = Ok (existsb (says p) l).
    Proof.
      induction l as [|s l IH]; intros st F HM; cbn [exists_loop existsb]; [easy|].
      inversion F as [|? ? R F']; subst. destruct (match_sub_ok s st R HM) as (st' & sh & E & M'). rewrite E. cbn [bind].
      destruct (says p s); [easy|]. cbn [orb]. now apply IH.
    Qed.
  End Loop.

  Lemma filter_perm {A} (f : A -> bool) l l' : Permutation l l' -> Permutation (filter f l) (filter f l').
  Proof.
    induction 1; cbn [filter]; auto.
    - destruct (f x); auto.
    - destruct (f x), (f y); auto. apply perm_swap.
    - eapply perm_trans; eauto.
  Qed.
  Lemma filter_false {A} (f : A -> bool) l : Forall (fun x => f x = false) l -> filter f l = [].
  Proof. induction 1; cbn [filter]; [easy|]. now rewrite H. Qed.

  (** A stored subscription on an event. *)
  Lemma stored_ready c V n s e ev p :
    make_env c ev = Ok p -> event_ok (c_domains c) ev -> tabs_ok c -> stored_as c V n s e ->
    ready p (V p) s /\ truth p s = sem (e_cs e) ev (e_src e)
    /\ (short_ok (c_domains c) ev false (e_src e) -> says p s = sem (e_cs e) ev (e_src e)).
  Proof.
    intros HE HO TB [st_id0 st_res0 st_src0 st_good0 st_lp0 st_lf0 st_pass0 st_fail0].
    pose proof (make_env_ok _ _ _ HE) as EO.
    pose proof (res_expr_sem c _ ev p _ _ EO HO TB st_src0 st_res0) as EV.
    assert (truth p s = sem (e_cs e) ev (e_src e)) as HV by (unfold truth; now rewrite EV).
    destruct (make_undefined_ok p) as (UL & UW & UB). destruct EO as [EOL EO].
    unfold ndomains in st_lp0, st_lf0. rewrite <- EOL, <- UL in st_lp0, st_lf0.
    destruct (tsc_ok (make_undefined p) (s_pass s) (s_fail s) st_lp0 st_lf0 UW) as (k & K1 & K2).
    split; [|split; [exact HV|]].
    - split; [apply st_good0|]. split; [rewrite EV; now rewrite HV|eauto].
    - intros SO. unfold says. rewrite K1. destruct k; [| |exact HV].
      + destruct K2 as (i & B1 & B2). destruct (st_pass0 i B1) as (d & N & U & S). apply UB in B2.
        pose proof (sc_node_sem c (e_cs e) ev p (conj EOL EO) i d N U B2 (e_src e) (s_expr s) st_res0 st_src0 false SO) as C.
        rewrite S in C. now symmetry.
      + destruct K2 as (i & B1 & B2). destruct (st_fail0 i B1) as (d & N & U & S). apply UB in B2.
        pose proof (sc_node_sem c (e_cs e) ev p (conj EOL EO) i d N U B2 (e_src e) (s_expr s) st_res0 st_src0 false SO) as C.
        rewrite S in C. now symmetry.
  Qed.
  Lemma all_ready ds t pend log ev p :
    inv ds t pend log -> few_preds t -> event_ok ds ev -> make_env (bt_cfg t) ev = Ok p ->
    exists V l, Permutation (subs_cnode (bt_root t)) (map fst l) /\ map snd l = log
      /\ Forall (fun x => ready p (V : N -> result bool) (fst x) /\ s_id (fst x) = e_id (snd x)
                          /\ truth p (fst x) = sem (e_cs (snd x)) ev (e_src (snd x))
                          /\ (calm t ev (snd x) -> says p (fst x) = sem (e_cs (snd x)) ev (e_src (snd x)))) (l ++ pend)
      /\ mids_inj (pm_mids (bt_pm t))
      /\ (forall n, memo_ok V (pm_mids (bt_pm t)) (make_memoize (pm_mcount (bt_pm t)) n)).
  Proof.
    intros [ISG IC IF IT IN (V & l & PM & PS & EL & FS)] HP HO HE.
    assert (event_ok (c_domains (bt_cfg t)) ev) as HO' by (eapply event_ok_sig; [|exact HO]; auto).
    exists (V p), l. sp; auto.
    - eapply Forall_impl; [|exact FS]. intros [s e] S. cbn [fst snd] in *.
      destruct (stored_ready _ _ _ _ _ _ _ HE HO' (ok_tabs _ IC) S) as (A & B & C). sp; auto. apply S.
    - eapply pm_mids_inj; eauto.
    - intros n. apply memo_make. intros g. eapply pm_mids_lt; eauto.
  Qed.

  Lemma NoDup_eq l e e' : NoDup (map e_id l) -> In e l -> In e' l -> e_id e = e_id e' -> e = e'.
  Proof.
    induction l as [|x l IH]; cbn [map]; intros N H H' E; [destruct H|]. inversion N; subst.
    destruct H as [<-|H], H' as [<-|H']; auto.
    - exfalso. apply H2. rewrite E. now apply in_map.
    - exfalso. apply H2. rewrite <- E. now apply in_map.
  Qed.

  (** Everything one search needs: subscriptions that are left out are false, or nearly missed. *)
  Definition seen (c : config) (ev : event) (e : entry) : Prop :=
    range_ok false (e_src e) /\ (may_split = true -> clear (c_domains c) ev (e_src e)).
  Theorem candidates_any ds t pend log ev p :
    inv ds t pend log -> few_preds t -> event_ok ds ev -> complete ds ev -> make_env (bt_cfg t) ev = Ok p ->
    exists V l rest, let hit := truth p in
      Permutation (map fst l ++ map fst rest) (subs_cnode (bt_root t))
      /\ match_cnode (c_domains (bt_cfg t)) p (bt_root t) = Ok (map fst l)
      /\ Permutation (map snd (l ++ rest)) log
      /\ Forall (fun x => ready p (V : N -> result bool) (fst x) /\ s_id (fst x) = e_id (snd x)
                          /\ hit (fst x) = sem (e_cs (snd x)) ev (e_src (snd x))
                          /\ (calm t ev (snd x) -> says p (fst x) = sem (e_cs (snd x)) ev (e_src (snd x)))) (l : list (sub * entry))
      /\ Forall (fun x => s_id (fst x) = e_id (snd x) /\ hit (fst x) = sem (e_cs (snd x)) ev (e_src (snd x))
                          /\ (seen (bt_cfg t) ev (snd x) -> hit (fst x) = false)) rest
      /\ mids_inj (pm_mids (bt_pm t))
      /\ (forall n, memo_ok V (pm_mids (bt_pm t)) (make_memoize (pm_mcount (bt_pm t)) n)).
  Proof.
    intros [ISG IC IF IT IN (V & l & PM & PS & EL & FS)] HP HO HCP HE.
    destruct t as [c m root]. cbn [bt_cfg bt_pm bt_root] in *. unfold few_preds in HP. cbn [bt_pm] in HP.
    assert (event_ok (c_domains c) ev) as HO' by (eapply event_ok_sig; [|exact HO]; auto).
    assert (complete (c_domains c) ev) as HC' by (eapply complete_sig; [|exact HCP]; auto).
    pose proof (make_env_ok _ _ _ HE) as EO. pose proof (ok_tabs _ IC) as TB.
    set (hit := truth p).
    apply Forall_app in FS. destruct FS as [FS _]. rewrite Forall_forall in FS.
    assert (forall s e, In (s, e) l -> eval p (s_expr s) = Ok (sem (e_cs e) ev (e_src e))) as EV.
    { intros s e H. specialize (FS (s, e) H). cbn [fst snd] in FS. destruct FS as [st_id0 st_res0 st_src0 st_good0 st_lp0 st_lf0 st_pass0 st_fail0].
      exact (res_expr_sem c _ ev p _ _ EO HO' TB st_src0 st_res0). }
    assert (forall s e, In (s, e) l -> hit s = sem (e_cs e) ev (e_src e)) as HV.
    { intros s e H. unfold hit, truth. now rewrite (EV s e H). }
    assert (forall s, In s (subs_cnode root) -> exists e, In (s, e) l) as HL.
    { intros s H. apply (Permutation_in _ PS) in H. apply in_map_iff in H. destruct H as ([s' e] & <- & H). eauto. }
    assert (forall f, (forall s e, In (s, e) l -> f s = true -> hit s = true /\ seen c ev e) ->
      exists L, match_cnode (c_domains c) p root = Ok L /\ covers f L (subs_cnode root)) as MO.
    { intros f HF. apply (match_ok (c_domains c) p f); [|exact IT|].
      - intros v d N. destruct EO as [EOL EO]. destruct (nthN_lt p v) as [o O]; [rewrite EOL; eapply nthN_Some_lt; eauto|].
        exists o. unfold read_var. rewrite O. sp; auto.
        + intros U. destruct (HC' v d N U) as (n & D & LK). specialize (EO n v d D).
          destruct (lookup ev n); [|easy]. destruct EO as (y0 & _ & E). rewrite O in E. congruence.
        + destruct o as [y|]; [|easy]. destruct (env_value _ _ _ _ _ HE HO' O) as (x & d' & y0 & D & _ & -> & VO).
          apply decl_spec in D. destruct D as [D _]. rewrite N in D. injection D as <-.
          now apply stored_val_ok.
      - apply Forall_forall. intros s Hs HH v d x pb N NF RD GV. destruct (HL s Hs) as [e He].
        destruct (HF s e He HH) as [HT [HRG HCL]].
        pose proof (HV s e He) as E. rewrite HT in E. specialize (FS _ He). cbn [fst snd] in FS. destruct FS as [st_id0 st_res0 st_src0 st_good0 st_lp0 st_lf0 st_pass0 st_fail0].
        refine (gvb_sound c (e_cs e) ev p v d x EO HO' TB N RD (e_src e) (s_expr s) st_res0 st_src0 _ false pb HRG (eq_sym E) GV).
        apply Forall_forall. intros a Ha n k f' CO D LK. destruct D as (d' & D & BT). pose proof (decl_spec _ _ _ _ D) as [N' _].
        rewrite N in N'. injection N' as <-.
        destruct (d_bound d) as [ |[] ? ?|lo hi|w ? ?| | ] eqn:ED; cbn [btype] in BT; try discriminate BT.
        + destruct NF as [MS FR]. specialize (HCL MS). unfold clear in HCL. rewrite Forall_forall in HCL. eapply HCL; eauto. now rewrite ED.
        + subst w. destruct NF as ([K|[K|K]] & _); discriminate K. }
    destruct (MO (fun _ => false)) as (L & ML & rest & PL & _); [discriminate|].
    assert (forall s e, In (s, e) l -> In s rest -> seen c ev e -> hit s = false) as RF.
    { intros s e He Hs SE. destruct (hit s) eqn:HT; [|reflexivity]. exfalso.
      destruct (MO (fun s' => hit s' && (s_id s' =? s_id s))) as (L' & ML' & rest' & PL' & RF').
      - intros s' e' He' HH. apply andb_prop in HH. destruct HH as [HH HI]. apply Z.eqb_eq in HI. split; [exact HH|].
        assert (e' = e) as ->; [|exact SE].
        apply (NoDup_eq log).
        + unfold ids_of in IN. now apply NoDup_app_l in IN.
        + rewrite <- EL. apply in_map_iff. now exists (s', e').
        + rewrite <- EL. apply in_map_iff. now exists (s, e).
        + pose proof (FS _ He) as F1. pose proof (FS _ He') as F2. cbn [fst snd] in F1, F2.
          destruct F1 as [st_id1 _ _ _ _ _ _ _], F2 as [st_id2 _ _ _ _ _ _ _]. congruence.
      - rewrite ML in ML'. injection ML' as <-.
        assert (Permutation rest rest') as PR.
        { apply (Permutation_app_inv_l L). now rewrite PL, PL'. }
        rewrite Forall_forall in RF'. specialize (RF' s (Permutation_in _ PR Hs)). rewrite HT, Z.eqb_refl in RF'. discriminate RF'. }
    destruct (Permutation_map_inv _ _ (Permutation_trans PL PS)) as (l3 & E3 & P3).
    symmetry in E3. apply map_eq_app in E3. destruct E3 as (l1 & l2 & -> & E1 & E2). subst L rest.
    assert (forall s e, In (s, e) l1 -> In (s, e) l) as I1.
    { intros s e H. apply (Permutation_in _ (Permutation_sym P3)). apply in_or_app. now left. }
    assert (forall s e, In (s, e) l2 -> In (s, e) l) as I2.
    { intros s e H. apply (Permutation_in _ (Permutation_sym P3)). apply in_or_app. now right. }
    exists (V p), l1, l2. cbv zeta. sp; auto.
    - rewrite <- EL. symmetry. now apply Permutation_map.
    - apply Forall_forall. intros [s e] H. apply I1 in H. cbn [fst snd].
      pose proof (FS _ H) as F. cbn [fst snd] in F. destruct F as [st_id0 st_res0 st_src0 st_good0 st_lp0 st_lf0 st_pass0 st_fail0].
      destruct (stored_ready _ _ _ _ _ _ _ HE HO' TB (FS _ H)) as (A & B & C). sp; auto.
    - apply Forall_forall. intros [s e] H. cbn [fst snd]. split; [|split; [now apply HV, I2|]].
      { pose proof (FS _ (I2 _ _ H)) as F. cbn [fst snd] in F. now destruct F. }
      intros SE.
      apply (RF s e); auto. apply in_map_iff. now exists (s, e).
    - eapply pm_mids_inj; eauto.
    - intros n. apply memo_make. intros g. eapply pm_mids_lt; eauto.
  Qed.
  Lemma inv_env ds t pend log ev : inv ds t pend log -> event_ok ds ev ->
    exists p, make_env (bt_cfg t) ev = Ok p /\ (validate_variables (c_domains (bt_cfg t)) p = true <-> complete ds ev).
  Proof.
    intros I HO. assert (event_ok (c_domains (bt_cfg t)) ev) as HO'.
    { eapply event_ok_sig; [|exact HO]. apply (iv_sig _ _ _ _ I). }
    destruct (make_env_total (bt_cfg t) ev (ok_few _ (iv_cfg _ _ _ _ I)) HO') as [p E]. exists p. split; [exact E|].
    rewrite (validate_complete _ _ _ E HO'). pose proof (iv_sig _ _ _ _ I) as S.
    split; eapply complete_sig; congruence.
  Qed.

  Lemma filter_split {A} (f : A -> bool) l : Permutation (filter f l ++ filter (fun x => negb (f x)) l) l.
  Proof.
    induction l as [|x l IH]; cbn [filter]; [reflexivity|]. destruct (f x); cbn [negb app].
    - now constructor.
    - rewrite <- Permutation_middle. now constructor.
  Qed.
  Lemma pairs_filter (f : sub -> bool) (l : list (sub * entry)) : Forall (fun x => s_id (fst x) = e_id (snd x)) l ->
    map s_id (filter f (map fst l)) = map e_id (map snd (filter (fun x => f (fst x)) l)).
  Proof.
    induction 1 as [|[s e] l H1 F IH]; cbn [map filter fst snd] in *; [easy|].
    destruct (f s); cbn [map fst snd]; congruence.
  Qed.

  (** What a search does with any event: the stored subscriptions are those reported, those visited and not
      reported, and those not visited.  The answer is right for each of them whose [not] nodes allow the
      shortcuts, and for the last kind if the ranges found under [not] are sound and the event is not near them. *)
  Theorem search_any ds t pend log ev :
    inv ds t pend log -> few_preds t -> event_ok ds ev -> complete ds ev ->
    exists rep silent rest n, Permutation (rep ++ silent ++ rest) log
      /\ Forall (fun e => calm t ev e -> sem (e_cs e) ev (e_src e) = true) rep
      /\ Forall (fun e => calm t ev e -> sem (e_cs e) ev (e_src e) = false) silent
      /\ Forall (fun e => seen (bt_cfg t) ev e -> sem (e_cs e) ev (e_src e) = false) rest
      /\ 0 <= n <= Z.of_nat (length (rep ++ silent))
      /\ (forall r, exists r', betree_search t ev r = Ok (true, r')
      /\ r_subs r' = r_subs r ++ map e_id rep
      /\ r_matched r' = r_matched r + Z.of_nat (length rep)
      /\ r_evaluated r' = r_evaluated r + Z.of_nat (length (rep ++ silent))
      /\ r_shorted r' = r_shorted r + n)
      /\ betree_exists t ev = Ok (match rep with [] => false | _ => true end).
  Proof.
    intros I HP HO HC. destruct (inv_env _ _ _ _ _ I HO) as (p & E & HV).
    destruct (candidates_any _ _ _ _ _ _ I HP HO HC E) as (V & l & rest & _ & MC & PL & FL & FR & INJ & ME).
    set (f := fun x : sub * entry => says p (fst x)).
    exists (map snd (filter f l)), (map snd (filter (fun x => negb (f x)) l)), (map snd rest),
      (Z.of_nat (length (filter (shorts p) (map fst l)))).
    pose proof (filter_short (shorts p) (map fst l)) as FSH.
    pose proof (filter_split f l) as SP.
    assert (length (map snd (filter f l) ++ map snd (filter (fun x => negb (f x)) l)) = length l) as LN.
    { rewrite <- map_app, map_length. now apply Permutation_length. }
    assert (Forall (ready p V) (map fst l)) as FS.
    { apply Forall_forall. intros s H. apply in_map_iff in H. destruct H as (x & <- & H).
      rewrite Forall_forall in FL. now apply FL. }
    assert (map s_id (filter (says p) (map fst l)) = map e_id (map snd (filter f l))) as PF.
    { apply pairs_filter. eapply Forall_impl; [|exact FL]. cbv beta. tauto. }
    assert (length (filter (says p) (map fst l)) = length (map snd (filter f l))) as LF.
    { rewrite <- (map_length s_id), PF, map_length. reflexivity. }
    rewrite LN. rewrite !map_length in FSH. sp; auto; try lia.
    - rewrite app_assoc, <- map_app, <- map_app, SP. exact PL.
    - rewrite Forall_forall in *. intros e He. apply in_map_iff in He. destruct He as (x & <- & Hx).
      apply filter_In in Hx. destruct Hx as [Hx HF]. destruct (FL x Hx) as (_ & _ & _ & CL). intros K. rewrite <- (CL K). exact HF.
    - rewrite Forall_forall in *. intros e He. apply in_map_iff in He. destruct He as (x & <- & Hx).
      apply filter_In in Hx. destruct Hx as [Hx HF]. destruct (FL x Hx) as (_ & _ & _ & CL). intros K. rewrite <- (CL K).
      now apply negb_true_iff in HF.
    - rewrite Forall_forall in *. intros e He. apply in_map_iff in He. destruct He as (x & <- & Hx).
      destruct (FR x Hx) as (_ & E1 & E2). intros K. rewrite <- E1. now apply E2.
    - intros r. unfold betree_search. rewrite E. cbn [bind]. apply HV in HC. rewrite HC. cbn [negb].
      unfold search_with_preds. rewrite MC. cbn [bind].
      destruct (search_loop_ok p (pm_mids (bt_pm t)) V INJ (map fst l) (make_memoize (pm_mcount (bt_pm t)) (r_memoized r)) r)
        as (r' & E' & A1 & A2 & A3 & A4); auto.
      exists r'. rewrite E'. cbn [bind]. rewrite A1, A2, A3, A4, PF, LF, !map_length. sp; auto.
    - unfold betree_exists. rewrite E. cbn [bind]. unfold exists_with_preds. rewrite MC. cbn [bind].
      rewrite (exists_loop_ok p (pm_mids (bt_pm t)) V INJ (map fst l)); auto.
      f_equal. clear. induction l as [|x l IH]; cbn [map existsb filter]; [easy|]. subst f. cbv beta.
      destruct (says p (fst x)); [easy|]. exact IH.
  Qed.
  Lemma fair_seen t ev e : fair_one mode t ev e -> seen (bt_cfg t) ev e.
  Proof.
    intros (_ & RG & [K|K]); split; auto; unfold may_split.
    - rewrite K. discriminate.
  Qed.
  Lemma fair_calm {fm} t ev e : fair_one fm t ev e -> calm t ev e.
  Proof. now intros (H & _). Qed.
  Lemma fair_in {fm} t ev l e : fair fm t ev l -> In e l -> fair_one fm t ev e.
  Proof. intros F. now apply Forall_forall. Qed.
  Lemma fair_single {fm} t ev e : fair_one fm t ev e -> fair fm t ev [e].
  Proof. intros F. constructor; [exact F|constructor]. Qed.
End WithGeo.

(** *** Looking a subscription up *)
Lemma find_app {A} (f : A -> bool) l l' : find f (l ++ l') = match find f l with Some x => Some x | None => find f l' end.
Proof. induction l as [|x l IH]; cbn [find app]; [easy|]. now destruct (f x). Qed.
Scheme cnode_ind3 := Induction for cnode Sort Prop
  with pdir_ind3 := Induction for pdir Sort Prop
  with cdir_ind3 := Induction for cdir Sort Prop.
Lemma find_sub_ok id cn : find_sub_id id cn = find (fun s => s_id s =? id) (subs_cnode cn).
Proof.
  revert cn. apply (cnode_ind3 (fun cn => find_sub_id id cn = find (fun s => s_id s =? id) (subs_cnode cn))
    (fun ps => find_sub_id_pdir id ps = find (fun s => s_id s =? id) (subs_pdir ps))
    (fun cd => find_sub_id_cdir id cd = find (fun s => s_id s =? id) (subs_cdir cd)));
    intros; cbn [find_sub_id find_sub_id_pdir find_sub_id_cdir subs_cnode subs_pdir subs_cdir]; rewrite ?find_app;
    repeat match goal with H : _ = find _ _ |- _ => rewrite H; clear H end; reflexivity.
Qed.
