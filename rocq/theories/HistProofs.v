(** What every reachable tree satisfies. *)
From Coq Require Import ZArith NArith String Bool List Lia Permutation Sorted.
From Coq Require Import ZifyBool ZifyNat ZifyN.
From Verif Require Import Base Float Value Special Ast Match Config Assign Source Bound Tree PredMap RbTree Api Spec TreeSpec Hist.
From Verif Require Import BaseProofs ListProofs EvalProofs InternProofs ExtProofs ResProofs PassProofs CmpProofs PredProofs ShortProofs GvbProofs TreeProofs WideProofs.
Import ListNotations.
Local Open Scope Z_scope.

Lemma Forall_dom_sig_attr ds ds' name : map dom_sig ds' = map dom_sig ds -> forall i, find_attr ds' name i = find_attr ds name i.
Proof.
  revert ds'. induction ds as [|d t IH]; intros [|d' t'] H; cbn in H; try discriminate; [easy|].
  injection H as E1 E2 E3 H. intros i. cbn [find_attr]. rewrite E1. now rewrite IH.
Qed.
Lemma ext_now c c' : ext c c' -> now_var (c_domains c') = now_var (c_domains c).
Proof.
  intros X. unfold now_var, decl. pose proof (decl_from_sig _ _ (lower "now") (ext_doms _ _ X) 0%N) as K.
  destruct (decl_from (c_domains c) _ _) as [[v d]|], (decl_from (c_domains c') _ _) as [[v' d']|]; try contradiction; [|easy].
  now destruct K as [-> _].
Qed.
Lemma ext_ndomains c c' : ext c c' -> ndomains c' = ndomains c.
Proof. intros X. unfold ndomains. now rewrite (ext_length _ _ X). Qed.

Section WithGeo.
  Context {G : Geo} {FM : Floats}.

  (** A stored subscription belongs to an entry. *)
  Record stored_as (c : config) (V : vals) (n : N) (s : sub) (e : entry) : Prop := {
    st_id : s_id s = e_id e;
    st_res : res_expr c (e_cs e) (e_src e) (s_expr s);
    st_src : src_ok (c_domains c) (e_cs e) (e_src e);
    st_good : good V n (s_expr s);
    st_lp : length (s_pass s) = length (make_bits (ndomains c));
    st_lf : length (s_fail s) = length (make_bits (ndomains c));
    st_pass : forall k, bit (s_pass s) k = true ->
      exists d, nthN (c_domains c) k = Some d /\ d_undef d = true /\ sc_node k false (s_expr s) = ScPass;
    st_fail : forall k, bit (s_fail s) k = true ->
      exists d, nthN (c_domains c) k = Some d /\ d_undef d = true /\ sc_node k false (s_expr s) = ScFail }.

  Lemma stored_as_ext c c' V V' n n' s e : ext c c' -> (n <= n')%N -> upto n V V' ->
    stored_as c V n s e -> stored_as c' V' n' s e.
  Proof.
    intros X L U [A1 A2 A3 A5 A6 A7 A8 A9]. split; auto.
    - eapply res_expr_ext; eauto.
    - eapply src_ok_sig; [apply X|easy].
    - eapply good_upto; eauto.
    - now rewrite (ext_ndomains _ _ X).
    - now rewrite (ext_ndomains _ _ X).
    - intros k H. destruct (A8 k H) as (d & N & U' & S). destruct (ext_dom _ _ _ _ X N) as (d' & N' & E).
      exists d'. unfold dom_sig in E. injection E as _ _ E. rewrite E. auto.
    - intros k H. destruct (A9 k H) as (d & N & U' & S). destruct (ext_dom _ _ _ _ X N) as (d' & N' & E).
      exists d'. unfold dom_sig in E. injection E as _ _ E. rewrite E. auto.
  Qed.

  Record inv (ds : list domain) (t : betree) (pend : list (sub * entry)) (log : list entry) : Prop := {
    iv_sig : map dom_sig (c_domains (bt_cfg t)) = map dom_sig ds;
    iv_cfg : cfg_ok (bt_cfg t);
    iv_fine : cfg_fine (bt_cfg t);
    iv_tree : ok_cnode (c_domains (bt_cfg t)) (bt_root t);
    iv_ids : NoDup (ids_of pend log);
    iv_subs : exists V l,
      pm_ok (now_var (c_domains (bt_cfg t))) V (bt_pm t)
      /\ Permutation (subs_cnode (bt_root t)) (map fst l) /\ map snd l = log
      /\ Forall (fun p => stored_as (bt_cfg t) V (pm_count (bt_pm t)) (fst p) (snd p)) (l ++ pend) }.

  Lemma fine_all c : cfg_fine c -> Forall (fun d => dom_fine (d_bound d)) (c_domains c).
  Proof. intros F. apply Forall_forall. apply (cf_dom _ F). Qed.
  Lemma splitable_same c c' b : c_maxsplit c' = c_maxsplit c -> splitable c' b = splitable c b.
  Proof. intros M. unfold splitable. now rewrite M. Qed.
  Lemma fine_same c c' : c_domains c' = c_domains c -> c_maxsplit c' = c_maxsplit c -> cfg_fine c -> cfg_fine c'.
  Proof.
    intros D M [A B C]. split; rewrite ?D, ?M; auto. unfold floats_ok in *. destruct (can_split mode) eqn:CS.
    - intros v d d' lo hi. rewrite D, (splitable_same c c') by exact M. apply B.
    - intros d lo hi. rewrite D, (splitable_same c c') by exact M. apply B.
  Qed.
  (** The condition on floats after a change. *)
  Lemma floats_after c c' : ext c c' -> floats_ok mode c c' -> floats_ok mode c' c'.
  Proof.
    intros X. unfold floats_ok. destruct (can_split mode) eqn:CS; [|easy]. intros H v d d' lo hi N N' E. rewrite N in N'. injection N' as <-.
    split; [easy|]. destruct (nthN_lt (c_domains c) v) as [d0 N0].
    { rewrite <- (ext_length _ _ X). eapply nthN_Some_lt; eauto. }
    exact (proj2 (H v d0 d lo hi N0 N E)).
  Qed.
  Lemma floats_kept c c' v d d' : floats_ok mode c c' -> nthN (c_domains c) v = Some d -> nthN (c_domains c') v = Some d' ->
    kept_float (d_bound d) (d_bound d').
  Proof.
    intros H N N'. unfold kept_float. destruct (d_bound d') as [ | |lo hi| | | ] eqn:E; try exact I. intros M. unfold floats_ok in H. unfold may_split in M; rewrite M in H.
    rewrite <- E. exact (proj1 (H v d d' lo hi N N' E)).
  Qed.

  Lemma inv_init ds cap minpart maxsplit :
    decls_ok ds -> 0 <= maxsplit < SIZE_MAX - 1 ->
    floats_ok mode (bt_cfg (make_tree cap minpart maxsplit ds)) (bt_cfg (make_tree cap minpart maxsplit ds)) ->
    inv ds (make_tree cap minpart maxsplit ds) [] [].
  Proof.
    intros [HF HD] HM HW. rewrite Forall_forall in HD.
    split; cbn [make_tree bt_cfg bt_pm bt_root c_domains c_strs] in *.
    - reflexivity.
    - split.
      + split; intros v; split; try constructor; cbn; unfold SIZE_MAX, UINT64_MAX; lia.
      + exact HF.
      + intros d Hd. specialize (HD d Hd). destruct (d_bound d); cbn in *; tauto.
      + split; intros v m; discriminate.
    - split; cbn [c_domains c_maxsplit]; auto. lia.
    - exact I.
    - constructor.
    - exists (fun _ _ => UB), []. cbn. sp; auto. apply pm_ok_empty.
  Qed.

  Lemma busy_cfg c0 S SI c : cfg_ok c0 -> busy c0 S SI c -> cfg_ok c.
  Proof.
    intros [A B C D] [X E T _ _ P]. split; auto; rewrite ?E; auto.
  Qed.

  (** Numbering the predicates and making the subscription. *)
  Lemma make_stored c cs x e V m id e' m' s :
    pm_ok (now_var (c_domains c)) V m -> src_ok (c_domains c) cs x ->
    res_expr c cs x e -> assign_pred m e = Ok (e', m') -> make_sub c id e' = Ok s ->
    exists V', pm_ok (now_var (c_domains c)) V' m' /\ upto (pm_count m) V V' /\ (pm_count m <= pm_count m')%N
      /\ stored_as c V' (pm_count m') s (mkE id cs x).
  Proof.
    intros PM HS HR HA HM.
    destruct (assign_pred_ok _ e V m PM (res_expr_leaves _ _ _ _ HS HR)) as (e1 & m1 & V' & E & PM' & GD & UP & LE & ER & _).
    rewrite HA in E. injection E as <- <-. apply make_sub_sc in HM. destruct HM as (H1 & H2 & H3 & H4 & H5 & H6).
    exists V'. sp; auto. split; cbn [e_id e_cs e_src]; rewrite ?H2; auto.
    eapply rel_src_erase; [exact HR|exact ER].
  Qed.

  Lemma ids_snd V c n l : Forall (fun p : sub * entry => stored_as c V n (fst p) (snd p)) l ->
    ids (map fst l) = map e_id (map snd l).
  Proof.
    induction 1 as [|[s e] l H F IH]; [easy|]. cbn [map ids fst snd] in *. unfold ids in *. rewrite IH. now rewrite (st_id _ _ _ _ _ H).
  Qed.

  (** Adding a stored subscription to the tree. *)
  Lemma add_stored ds c m root pend pend' log log' s e t' V l :
    map dom_sig (c_domains c) = map dom_sig ds -> cfg_ok c -> cfg_fine c -> ok_cnode (c_domains c) root ->
    NoDup (ids_of pend' log') ->
    Permutation (ids_of pend' log') (e_id e :: ids_of pend log) ->
    Permutation pend' pend -> log' = log ++ [e] ->
    pm_ok (now_var (c_domains c)) V m ->
    Permutation (subs_cnode root) (map fst l) -> map snd l = log ->
    Forall (fun p => stored_as c V (pm_count m) (fst p) (snd p)) (l ++ pend) ->
    stored_as c V (pm_count m) s e ->
    insert_sub (mkBT c m root) s = Ok t' ->
    inv ds t' pend' log'.
  Proof.
    intros HSG HC HF HT ND PI PP -> PM PS EL FS ST H. unfold insert_sub in H. cbn [bt_cfg bt_root bt_pm] in H.
    apply bind_ok in H. destruct H as (r & ER & [= <-]).
    rewrite Forall_app in FS. destruct FS as [FL FP].
    apply insert_root_ok in ER; auto.
    - destruct ER as [OT PR]. split; cbn [bt_cfg bt_pm bt_root]; auto.
      exists V, (l ++ [(s, e)]). sp; auto.
      + rewrite PR, map_app. cbn [map fst]. rewrite PS. apply Permutation_cons_append.
      + rewrite map_app. cbn [map snd]. now rewrite EL.
      + rewrite !Forall_app. sp; auto. now rewrite PP.
    - assert (Permutation (ids (subs_cnode root)) (map e_id log)) as PE.
      { rewrite <- EL, <- (ids_snd _ _ _ _ FL). unfold ids. now apply Permutation_map. }
      pose proof (Permutation_NoDup PI ND) as N1. inversion N1 as [|? ? N2 N3]; subst.
      unfold ids. cbn [map]. fold (ids (subs_cnode root)). constructor.
      + rewrite (st_id _ _ _ _ _ ST), PE. intros K. apply N2. unfold ids_of. apply in_or_app. now left.
      + rewrite PE. unfold ids_of in N3. now apply NoDup_app_l in N3.
  Qed.

  Lemma stored_all c c' V V' n n' l : ext c c' -> (n <= n')%N -> upto n V V' ->
    Forall (fun p => stored_as c V n (fst p) (snd p)) l -> Forall (fun p => stored_as c' V' n' (fst p) (snd p)) l.
  Proof. intros X L U. apply Forall_impl. intros p. now apply stored_as_ext. Qed.

  Lemma inv_insert ds t pend log id cs x t' :
    inv ds t pend log -> accepts ds (bt_cfg t) false cs x -> ~ In id (ids_of pend log) ->
    betree_insert_with_constants t id cs x = Ok (true, t') -> inv ds t' pend (log ++ [mkE id cs x]).
  Proof.
    intros [ISG IC IF IT IN (V & l & PM & PS & EL & FS)] (HS & HF) HI H.
    unfold betree_insert_with_constants, insert_expr in H. apply bind_ok in H. destruct H as (ok & _ & H).
    destruct (negb ok); [discriminate|].
    destruct (assign_constants cs _) as [e2|] eqn:E2; [|discriminate].
    apply bind_ok in H. destruct H as ([e3 c3] & E3 & H). apply bind_ok in H. destruct H as ([e4 c4] & E4 & H).
    apply bind_ok in H. destruct H as ([e6 c6] & E6 & H). apply bind_ok in H. destruct H as ([e7 m7] & E7 & H).
    apply bind_ok in H. destruct H as (s & E8 & H). apply bind_ok in H. destruct H as (t1 & E9 & [= <-]).
    assert (src_ok (c_domains (bt_cfg t)) cs x) as HS' by (eapply src_ok_sig; [|exact HS]; auto).
    destruct (insert_passes (bt_cfg t) cs x false IC HS' HF _ _ _ _ _ _ _ E2 E3 E4 E6) as [B R].
    pose proof (bz_ext _ _ _ _ B) as X. pose proof (bz_doms _ _ _ _ B) as ED.
    assert (map dom_sig (c_domains c6) = map dom_sig ds) as SG by (now rewrite ED).
    rewrite <- (ext_now _ _ X) in PM.
    destruct (make_stored c6 cs x e6 V (bt_pm t) id e7 m7 s PM) as (V' & PM' & UP & LE & ST); auto.
    { now rewrite ED. }
    eapply (add_stored ds c6 m7 (bt_root t) pend pend log _ s (mkE id cs x) t1 V' l); eauto.
    - eapply busy_cfg; eauto.
    - eapply fine_same; [exact ED|apply X|exact IF].
    - now rewrite ED.
    - unfold ids_of in *. rewrite map_app. cbn [map e_id].
      apply (Permutation_NoDup (l := id :: map e_id log ++ map (fun p => e_id (snd p)) pend)).
      + rewrite <- app_assoc. cbn [app]. apply Permutation_middle.
      + now constructor.
    - unfold ids_of. rewrite map_app, <- app_assoc. cbn [map app e_id]. symmetry. apply Permutation_middle.
    - eapply stored_all; eauto.
  Qed.

  Lemma inv_insert_sub ds t pend pend' log s e t' :
    inv ds t (pend ++ (s, e) :: pend') log -> betree_insert_sub t s = Ok t' -> inv ds t' (pend ++ pend') (log ++ [e]).
  Proof.
    intros [ISG IC IF IT IN (V & l & PM & PS & EL & FS)] H. destruct t as [c m root]. cbn [bt_cfg bt_pm bt_root] in *.
    assert (Permutation (ids_of (pend ++ pend') (log ++ [e])) (ids_of (pend ++ (s, e) :: pend') log)) as PI.
    { unfold ids_of. rewrite !map_app. cbn [map]. rewrite <- !app_assoc. cbn [app]. apply Permutation_app_head.
      cbn [snd]. rewrite <- Permutation_middle. easy. }
    eapply (add_stored ds c m root (pend ++ pend') _ log _ s e t' V l); eauto.
    - eapply Permutation_NoDup; [symmetry; exact PI|exact IN].
    - rewrite PI. unfold ids_of. rewrite !map_app. cbn [map snd]. rewrite !app_assoc. symmetry. apply Permutation_middle.
    - rewrite Forall_app in *. destruct FS as [F1 F2]. split; [easy|]. rewrite Forall_app in *. destruct F2 as [F2 F3].
      inversion F3; subst. auto.
    - rewrite !Forall_app in FS. destruct FS as [_ [_ F3]]. now inversion F3.
  Qed.

  (** Changing only the configuration. *)
  Lemma inv_cfg ds t pend log c' :
    inv ds t pend log -> ext (bt_cfg t) c' -> cfg_ok c' -> cfg_fine c' ->
    (forall v d, nthN (c_domains (bt_cfg t)) v = Some d ->
        exists d', nthN (c_domains c') v = Some d' /\ wider (d_bound d) (d_bound d')) ->
    inv ds (set_cfg t c') pend log.
  Proof.
    intros [ISG IC IF IT IN (V & l & PM & PS & EL & FS)] X HC HF HW.
    split; cbn [set_cfg bt_cfg bt_pm bt_root]; auto.
    - rewrite <- ISG. apply X.
    - now apply (ok_wider _ _ HW).
    - exists V, l. sp; auto.
      + now rewrite (ext_now _ _ X).
      + eapply stored_all; eauto using N.le_refl, upto_refl.
  Qed.

  Lemma wider_same c c' : c_domains c' = c_domains c -> forall v d, nthN (c_domains c) v = Some d ->
    exists d', nthN (c_domains c') v = Some d' /\ wider (d_bound d) (d_bound d').
  Proof.
    intros E v d N. rewrite E. exists d. split; [easy|]. intros S. sp; auto; try lia. destruct (d_bound d); cbn in *; easy.
  Qed.

  Lemma rel_lits c cs x e : src_ok (c_domains c) cs x -> rel_src (fun a q => is_freq q = true \/ res_leaf c cs a q) x e ->
    Forall lits_ok (expr_leaves e).
  Proof.
    intros HS R. eapply rel_src_leaves; [exact R|]. intros a q Ha [K|K]; [now apply freq_lits|].
    eapply res_leaf_lits; [|exact K]. unfold src_ok in HS. rewrite Forall_forall in HS. auto.
  Qed.

  (** The configuration after the ranges were adapted. *)
  Lemma change_step c0 c5 cs x S SI e c' : cfg_ok c0 -> cfg_fine c0 -> busy c0 S SI c5 -> src_ok (c_domains c5) cs x ->
    rel_src (fun a q => is_freq q = true \/ res_leaf c5 cs a q) x e -> change_boundaries c5 e = Ok c' -> floats_ok mode c0 c' ->
    ext c5 c' /\ ext c0 c' /\ cfg_ok c' /\ cfg_fine c'
    /\ (forall v d, nthN (c_domains c0) v = Some d ->
        exists d', nthN (c_domains c') v = Some d' /\ wider (d_bound d) (d_bound d')).
  Proof.
    intros HC HF B HS R H HW. pose proof (bz_doms _ _ _ _ B) as ED. pose proof (bz_ext _ _ _ _ B) as X.
    destruct (change_ok c5 e c') as (X' & C' & F' & _ & _ & W'); auto.
    - eapply busy_cfg; eauto.
    - rewrite ED. now apply fine_all.
    - eapply rel_lits; eauto.
    - sp; auto.
      + eapply ext_trans; eauto.
      + split; [now rewrite Forall_forall in F'|eapply (floats_after c0); [eapply ext_trans; eauto|exact HW]|]. rewrite (ext_maxsplit _ _ X'), (ext_maxsplit _ _ X). apply HF.
      + intros v d N. pose proof N as N0. rewrite <- ED in N0. destruct (W' v d N0) as (d' & N' & K). exists d'. split; [exact N'|].
        apply K. eapply floats_kept; eauto.
  Qed.

  Lemma inv_change ds t pend log x t' :
    inv ds t pend log -> src_ok ds [] x -> fits (bt_cfg t) true x ->
    betree_change_boundaries t x = Ok t' -> floats_ok mode (bt_cfg t) (bt_cfg t') -> inv ds t' pend log.
  Proof.
    intros HI HS HF H HW. pose proof HI as [ISG IC IF IT IN _].
    unfold betree_change_boundaries, change_boundaries_expr in H.
    apply bind_ok in H. destruct H as ([e3 c3] & E3 & H). apply bind_ok in H. destruct H as ([e4 c4] & E4 & H).
    apply bind_ok in H. destruct H as ([e5 c5] & E5 & H). apply bind_ok in H. destruct H as (c6 & E6 & [= <-]).
    assert (src_ok (c_domains (bt_cfg t)) [] x) as HS' by (eapply src_ok_sig; [|exact HS]; auto).
    destruct (change_passes (bt_cfg t) [] x true IC HS' HF _ _ _ _ _ _ E3 E4 E5) as [B R].
    destruct (change_step (bt_cfg t) c5 [] x _ _ e5 c6 IC IF B) as (_ & X & C' & F' & W'); auto.
    { now rewrite (bz_doms _ _ _ _ B). }
    apply inv_cfg; auto.
  Qed.

  Lemma inv_make ds t pend log id cs x s t' :
    inv ds t pend log -> accepts ds (bt_cfg t) true cs x -> ~ In id (ids_of pend log) ->
    betree_make_sub t id cs x = Ok (Some s, t') -> floats_ok mode (bt_cfg t) (bt_cfg t') ->
    inv ds t' (pend ++ [(s, mkE id cs x)]) log.
  Proof.
    intros HI (HS & HF) HNI H HW. pose proof HI as [ISG IC IF IT IN _].
    unfold betree_make_sub, make_sub_expr in H. apply bind_ok in H. destruct H as (ok & _ & H). destruct (negb ok); [discriminate|].
    apply bind_ok in H. destruct H as ([e3 c3] & E3 & H). apply bind_ok in H. destruct H as ([e4 c4] & E4 & H).
    apply bind_ok in H. destruct H as ([e5 c5] & E5 & H). apply bind_ok in H. destruct H as (ok2 & _ & H).
    destruct (negb ok2); [discriminate|]. destruct (assign_constants cs e5) as [e6|] eqn:E6; [|discriminate].
    apply bind_ok in H. destruct H as (c7 & E7 & H). apply bind_ok in H. destruct H as ([e8 m8] & E8 & H).
    apply bind_ok in H. destruct H as (s' & E9 & H). injection H as -> <-. cbn [bt_cfg] in HW.
    assert (src_ok (c_domains (bt_cfg t)) cs x) as HS' by (eapply src_ok_sig; [|exact HS]; auto).
    destruct (make_passes (bt_cfg t) cs x true IC HS' HF _ _ _ _ _ _ E3 E4 E5) as [B R]. specialize (R e6 E6).
    destruct (change_step (bt_cfg t) c5 cs x _ _ (sort_lists e6) c7 IC IF B) as (X5 & X & C' & F' & W'); auto.
    { now rewrite (bz_doms _ _ _ _ B). }
    { eapply rel_src_impl; [exact R|]. auto. }
    pose proof (inv_cfg ds t pend log c7 HI X C' F' W') as [JSG JC JF JT JN (V & l & PM & PS & EL & FS)].
    cbn [set_cfg bt_cfg bt_pm bt_root] in *.
    destruct (make_stored c7 cs x (sort_lists e6) V (bt_pm t) id e8 m8 s PM) as (V' & PM' & UP & LE & ST); auto.
    { eapply src_ok_sig; [|exact HS]. auto. }
    { exact (res_expr_ext _ _ _ _ _ X5 R). }
    split; cbn [bt_cfg bt_pm bt_root]; auto.
    - unfold ids_of in *. rewrite map_app. cbn [map snd e_id]. rewrite app_assoc.
      apply (Permutation_NoDup (Permutation_cons_append _ id)). now constructor.
    - exists V', l. sp; auto. rewrite app_assoc. apply Forall_app. split; [|now constructor].
      eapply stored_all; [apply ext_refl|exact LE|exact UP|exact FS].
  Qed.

  (** *** Refused betree_make_sub *)
  Lemma all_leaves_true f e : all_leaves f e = Ok true -> Forall (fun p => f p = Ok true) (expr_leaves e).
  Proof.
    induction e as [g p|g a IHa b IHb|g a IHa b IHb|g a IHa]; cbn [all_leaves expr_leaves]; intros H; [auto| | |auto].
    - apply bind_ok in H. destruct H as (y & E & H). destruct y; [|discriminate]. apply Forall_app. auto.
    - apply bind_ok in H. destruct H as (y & E & H). destruct y; [|discriminate]. apply Forall_app. auto.
  Qed.
  Lemma valid_decl c x : var_valid (set_var c (mk_var x)) = true ->
    exists d, decl (c_domains c) x = Some (av_var (set_var c (mk_var x)), d).
  Proof.
    unfold var_valid. cbn [set_var mk_var av_var av_attr]. intros H. apply find_attr_decl.
    intros K. unfold try_get_id_for_attr in H. rewrite K in H. discriminate.
  Qed.
  Lemma leaf_strs_src' c x a : In a (src_atoms x) -> vars_leaf (assign_var_leaf c (build_atom a)) = Ok true ->
    incl (leaf_strs (assign_var_leaf c (build_atom a))) (src_strs (c_domains c) x).
  Proof.
    intros Ha HA [v s] H.
    assert (forall y, var_valid (set_var c (mk_var y)) = true -> v = av_var (set_var c (mk_var y)) ->
      In (y, s) (atom_strs a) -> In (v, s) (src_strs (c_domains c) x)) as K.
    { intros y HV -> H1. destruct (valid_decl c y HV) as (d & D). unfold src_strs. apply at_var_In. exists y, d. split; [|easy].
      apply in_flat_map. eauto. }
    destruct a as [y|b|op y [z|f]|op y [z|f|s']|op y [l|l]|op [z|f|s'] y|op y [l|l]|op y|t ns value len|op [y|] id s'|a b r|op y pat];
      cbn [build_atom assign_var_leaf leaf_strs mk_freq mk_seg mk_geo atom_strs vars_leaf] in *; try contradiction.
    - injection HA as HA. destruct H as [[= <- <-]|[]]. apply (K y); auto. now left.
    - injection HA as HA. apply in_map_iff in H. destruct H as (y' & [= <- <-] & H). apply (K y); auto.
      unfold build_strs in H. apply in_map_iff in H. destruct H as (s' & <- & H). apply in_map_iff. exists s'. easy.
    - injection HA as HA. destruct H as [[= <- <-]|[]]. apply (K y); auto. now left.
    - injection HA as HA. apply in_map_iff in H. destruct H as (y' & [= <- <-] & H). apply (K y); auto.
      unfold build_strs in H. apply in_map_iff in H. destruct H as (s' & <- & H). apply in_map_iff. exists s'. easy.
    - injection HA as HA. apply andb_prop in HA. destruct HA as [HA _]. destruct H as [[= <- <-]|[]].
      apply (K "frequency_caps"%string); auto. now left.
  Qed.
  Lemma leaf_ints_src' c x a : In a (src_atoms x) -> vars_leaf (assign_var_leaf c (build_atom a)) = Ok true ->
    incl (leaf_ints c (assign_var_leaf c (build_atom a))) (src_ints (c_domains c) x).
  Proof.
    intros Ha HA [v z'] H.
    destruct a as [y|b|op y [z|f]|op y [z|f|s']|op y [l|l]|op [z|f|s'] y|op y [l|l]|op y|t ns value len|op [y|] id s'|a b r|op y pat];
      cbn [build_atom assign_var_leaf leaf_ints mk_freq mk_seg mk_geo vars_leaf] in *; try contradiction.
    injection HA as HA. destruct (valid_decl c y HA) as (d & D). pose proof (decl_spec _ _ _ _ D) as [N _]. rewrite N in H.
    destruct (btype (d_bound d)) eqn:E; try contradiction. destruct H as [[= <- <-]|[]].
    unfold src_ints. apply at_var_In. exists y, d. split; [|easy]. apply filter_In. split.
    - apply in_flat_map. exists (AEq op y (SInt z)). split; [easy|now left].
    - cbn [fst]. unfold is_ienum. now rewrite D, E.
  Qed.

  Lemma any_passes c0 x e3 c3 e4 c4 e5 c5 : cfg_ok c0 -> fits c0 true x ->
    all_variables_in_config (assign_variable_id c0 (build x)) = Ok true ->
    assign_str_id c0 (assign_variable_id c0 (build x)) true = Ok (e3, c3) ->
    assign_ienum_id c3 e3 true = Ok (e4, c4) -> fix_float c4 e4 = Ok (e5, c5) ->
    busy c0 (src_strs (c_domains c0) x) (src_ints (c_domains c0) x) c5.
  Proof.
    intros HC HF HV H3 H4 H5. apply all_leaves_true in HV.
    assert (Forall (fun p => vars_leaf (assign_var_leaf c0 p) = Ok true) (expr_leaves (build x))) as HV'.
    { revert HV. unfold assign_variable_id. generalize (build x). intros e. induction e; cbn [map_leaves expr_leaves]; rewrite ?Forall_app; try tauto.
      intros K. inversion K; subst. now constructor. }
    pose proof (rel_src_shape _ _ _ _ (rel_src_build x) _ (shape_restrict _ _ _ _ (shape_map (assign_var_leaf c0) (build x)) HV')) as R1.
    cbv beta in R1. fold (assign_variable_id c0 (build x)) in R1.
    destruct (str_pass c0 x true HF c0 (assign_variable_id c0 (build x)) e3 c3 (bz_start c0 x HC)) as (B3 & X3 & S3); auto.
    { eapply rel_src_leaves; [exact R1|]. intros a q Ha (p & -> & HA & ->). cbv beta. now apply leaf_strs_src'. }
    pose proof (rel_src_shape _ _ _ _ R1 _ S3) as R3. cbv beta in R3.
    destruct (ie_pass c0 x true HF c3 e3 e4 c4 B3) as (B4 & X4 & S4); auto.
    { eapply rel_src_leaves; [exact R3|]. intros a q Ha (q' & (p & -> & HA & ->) & E3). cbv beta.
      rewrite (R_str_ints c0 _ _ _ E3). now apply leaf_ints_src'. }
    destruct (fix_pass c0 x HC c4 _ e5 c5 B4 H5) as (-> & S6). easy.
  Qed.

  Lemma inv_make_refused ds t pend log id cs x t' :
    inv ds t pend log -> fits (bt_cfg t) true x -> betree_make_sub t id cs x = Ok (None, t') -> inv ds t' pend log.
  Proof.
    intros HI HF H. pose proof HI as [ISG IC IF IT IN _].
    unfold betree_make_sub, make_sub_expr in H. apply bind_ok in H. destruct H as (ok & EO & H). destruct ok; cbn [negb] in H.
    2:{ now injection H as <-. }
    apply bind_ok in H. destruct H as ([e3 c3] & E3 & H). apply bind_ok in H. destruct H as ([e4 c4] & E4 & H).
    apply bind_ok in H. destruct H as ([e5 c5] & E5 & H). apply bind_ok in H. destruct H as (ok2 & _ & H).
    pose proof (any_passes _ _ _ _ _ _ _ _ IC HF EO E3 E4 E5) as B.
    assert (inv ds (set_cfg t c5) pend log) as K.
    { pose proof (bz_doms _ _ _ _ B) as ED. pose proof (bz_ext _ _ _ _ B) as X. apply inv_cfg; auto.
      - eapply busy_cfg; eauto.
      - eapply fine_same; [exact ED|apply X|exact IF].
      - now apply wider_same. }
    destruct ok2; cbn [negb] in H; [|now injection H as <-].
    destruct (assign_constants cs e5) as [e6|]; [|now injection H as <-].
    apply bind_ok in H. destruct H as (c7 & E7 & H). apply bind_ok in H. destruct H as ([e8 m8] & E8 & H).
    apply bind_ok in H. destruct H as (s' & E9 & H). discriminate.
  Qed.

  (** *** Declarations, emptying *)
  Lemma stored_as_more c c' V n s e : more c c' ->
    (forall k d, nthN (c_domains c) k = Some d -> nthN (c_domains c') k = Some d) ->
    length (make_bits (ndomains c')) = length (make_bits (ndomains c)) ->
    stored_as c V n s e -> stored_as c' V n s e.
  Proof.
    intros X D W [A1 A2 A3 A5 A6 A7 A8 A9]. split; auto.
    - eapply res_expr_more; eauto.
    - eapply src_ok_keeps; [apply X|easy].
    - congruence.
    - congruence.
    - intros k H. destruct (A8 k H) as (d & N & U' & S). eauto.
    - intros k H. destruct (A9 k H) as (d & N & U' & S). eauto.
  Qed.
  Lemma leaves_now w w' e : (forall v, w = Some v -> w' = Some v) -> leaves_ok w e -> leaves_ok w' e.
  Proof.
    intros W. induction e as [g l|g a IHa b IHb|g a IHa b IHb|g a IHa]; cbn [leaves_ok]; try tauto.
    intros [F S]. split; [easy|]. destruct l; cbn [leaf_std] in *; auto; symmetry; apply W; auto.
  Qed.
  Lemma pm_now w w' V m : (forall v, w = Some v -> w' = Some v) -> pm_ok w V m -> pm_ok w' V m.
  Proof.
    intros W [A B C D E F]. split; auto. eapply Forall_impl; [|exact D]. intros e. now apply leaves_now.
  Qed.
  Lemma add_more c d : more c (add_domain c d).
  Proof. split; cbn [add_domain c_domains]; [apply keeps_app|easy|easy]. Qed.
  Lemma add_now c d : forall v, now_var (c_domains c) = Some v -> now_var (c_domains (add_domain c d)) = Some v.
  Proof.
    intros v. unfold now_var. destruct (decl (c_domains c) "now") as [[v' d']|] eqn:E; [|discriminate].
    cbn [add_domain c_domains]. unfold decl in *. now rewrite (decl_from_app [d] _ _ _ _ _ E).
  Qed.
  Lemma same_words (n : nat) : (S n mod 64 <> 0)%nat ->
    length (make_bits (N.of_nat (S n))) = length (make_bits (N.of_nat n)).
  Proof.
    intros H. apply Nnat.Nat2N.inj. rewrite !length_make_bits.
    assert (N.of_nat (S n) / 64 = N.of_nat n / 64)%N; [|lia].
    pose proof (Nat.div_mod n 64 ltac:(lia)) as D. pose proof (Nat.mod_upper_bound n 64 ltac:(lia)) as M.
    pose proof (Nat.div_mod (S n) 64 ltac:(lia)) as D'. pose proof (Nat.mod_upper_bound (S n) 64 ltac:(lia)) as M'.
    assert (S n / 64 = n / 64)%nat as E by lia.
    change 64%N with (N.of_nat 64). rewrite <- !Nnat.Nat2N.inj_div. now rewrite E.
  Qed.
  Lemma inv_declare ds t pend log d : inv ds t pend log -> decls_ok (ds ++ [d]) ->
    floats_ok mode (bt_cfg (betree_declare t d)) (bt_cfg (betree_declare t d)) ->
    (pend = [] /\ log = [] \/ (S (List.length ds) mod 64 <> 0)%nat) ->
    inv (ds ++ [d]) (betree_declare t d) pend log.
  Proof.
    intros [ISG [C1 C2 C3 C4] [F1 F2 F3] IT IN (V & l & PM & PS & EL & FS)] [DL DF] HW HB.
    pose proof (f_equal (@length _) ISG) as LD. rewrite !map_length in LD.
    rewrite Forall_app in DF. destruct DF as [_ DF]. inversion_clear DF as [|? ? DF' _].
    unfold betree_declare in *. cbn [set_cfg bt_cfg bt_pm bt_root] in *.
    assert (forall k d0, nthN (c_domains (bt_cfg t)) k = Some d0 -> nthN (c_domains (add_domain (bt_cfg t) d)) k = Some d0) as KN.
    { intros k d0 H. cbn [add_domain c_domains]. rewrite nthN_app_last. pose proof (nthN_Some_lt _ _ _ H) as L.
      destruct (N.eqb_spec k (N.of_nat (length (c_domains (bt_cfg t))))); [lia|easy]. }
    split; cbn [set_cfg bt_cfg bt_pm bt_root].
    - cbn [add_domain c_domains]. rewrite !map_app. now rewrite ISG.
    - split; cbn [add_domain c_domains]; auto.
      + unfold few in *. rewrite app_length in *. cbn [length] in *. now rewrite LD.
      + intros d0 Hd. apply in_app_or in Hd. destruct Hd as [Hd|[<-|[]]]; [auto|].
        destruct (d_bound d); cbn in *; tauto.
    - split; cbn [add_domain c_domains]; auto.
      intros d0 Hd. apply in_app_or in Hd. destruct Hd as [Hd|[<-|[]]]; auto.
    - eapply (ok_wider (c_domains (bt_cfg t))); [|exact IT]. intros v d0 N. exists d0. split; [auto|].
      intros S. sp; auto; try lia. destruct (d_bound d0); cbn in *; easy.
    - exact IN.
    - exists V, l. sp; auto.
      + eapply pm_now; [|exact PM]. apply add_now.
      + destruct HB as [[P0 L0]|HB].
        * rewrite P0 in *. destruct l; [constructor|]. rewrite L0 in EL. discriminate EL.
        * eapply Forall_impl; [|exact FS]. intros p. apply stored_as_more; [apply add_more|exact KN|].
          unfold ndomains. cbn [add_domain c_domains]. rewrite app_length. cbn [length].
          rewrite LD, Nat.add_1_r. now apply same_words.
  Qed.
  Lemma inv_empty ds t pend log : inv ds t pend log -> inv ds (empty_tree t) [] [].
  Proof.
    intros [ISG IC IF IT IN _]. split; cbn [empty_tree bt_cfg bt_pm bt_root]; auto.
    - exact I.
    - constructor.
    - exists (fun _ _ => UB), []. cbn. sp; auto. apply pm_ok_empty.
  Qed.

  Theorem reach_inv ds t pend log : reach_in mode ds t pend log -> inv ds t pend log.
  Proof.
    induction 1; eauto using inv_init, inv_insert, inv_make, inv_make_refused, inv_insert_sub, inv_change, inv_declare, inv_empty.
    unfold betree_insert_with_constants, insert_expr in H0.
    apply bind_ok in H0. destruct H0 as (ok & _ & H0). destruct (negb ok); [now injection H0 as <-|].
    destruct (assign_constants cs _) as [e2|]; [|now injection H0 as <-].
    repeat (apply bind_ok in H0; destruct H0 as (? & _ & H0); try (match type of H0 with context [let (_, _) := ?y in _] => destruct y end)).
    discriminate.
  Qed.
End WithGeo.
