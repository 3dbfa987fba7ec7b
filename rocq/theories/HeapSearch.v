(** Searching with events in memory. *)
From Coq Require Import ZArith NArith String Bool List Lia Permutation.
From Verif Require Import Base Float Value Ast Config Assign Bound Special Match Tree PredMap Source Api EventObj ObjSpec ListProofs ObjProofs.
From Verif Require Import Flex FlexTables Bison BisonTables BisonEvent EventGrammar.
From Verif Require Import Ledger HeapExpr HeapSpec HeapEvent HeapEventSpec PermTac LedgerProofs HeapProofs HeapParse HeapEventProofs HeapEventRules HeapEventText HeapFill.
Import ListNotations.
Local Open Scope Z_scope.
Local Open Scope list_scope.

(** event_parse: an event and its blocks, or what is lost. *)
Lemma h_event_parse_ok text ts m l : e_lex text = Ok ts -> holds m l ->
  wp (h_event_parse text) m (fun o m' =>
    match o with
    | Some e => (exists b, event_parse_c text = Ok (Some b) /\ er_event e = map Some b) /\ holds m' (bl_event e ++ l)
    | None => event_parse_c text = Ok None /\ exists lost read rest, ts = read ++ rest /\ holds m' (lost ++ l) /\
        (zzparse ts = Ok Rejected -> Exists e_heavy (read ++ firstn 1 rest) -> lost <> [])
    end).
Proof.
  intros L H. unfold h_event_parse, event_parse_c. rewrite L. cbn [bind]. destruct (zzparse_ok ts) as (o & E & _). rewrite E. cbn [bind].
  repeat lstep. eapply wp_mono; [exact (h_zzparse_ok ts o m l H E)|].
  intros lb m' [(a & b & -> & Eo & Ea & H')|(Eo & (read & Er & Hv) & H')]; lstep.
  - rewrite Eo. split; [|exact H']. exists b. now split.
  - assert (Eo' : match lb_out lb with Accepted r => r | _ => None end = None) by (destruct Eo as [(-> & _)|(-> & _)]; reflexivity).
    rewrite Eo'. split; [destruct Eo as [(_ & ->)|(_ & ->)]; reflexivity|].
    exists (e_lost lb), read, (lb_rest lb). split; [exact Er|]. split; [exact H'|].
    intros Rj X. apply Hv; [|exact X]. destruct Eo as [(Eq & _)|(_ & ->)]; [exact Eq|congruence].
Qed.

(** fill_event and sort_event_lists, as fill_object. *)
Lemma er_named x : named_seen (seen_of x) = er_variable x.
Proof. reflexivity. Qed.
Lemma er_slots l : map (option_map er_variable) l = map (option_map named_seen) (map slot_of l).
Proof. rewrite map_map. apply map_ext. intros [x|]; reflexivity. Qed.
Lemma env_slots n l : env_of n l = fold_left upd_seen (map slot_of l) (repeat None n).
Proof.
  unfold env_of. generalize (repeat (@None value) n) as p. induction l as [|[x|] l IH]; intros p; cbn [fold_left map slot_of option_map upd_seen seen_of]; [reflexivity| |]; apply IH.
Qed.
Lemma fill_sort_sim {A B} c e m l (f : evobj * env -> result A) (k : hevent -> cmd B) Q : holds m (bl_event e ++ l) ->
  (forall e' m', holds m' (bl_event e' ++ l) -> sim (f (er_event e', env_of (List.length (c_domains c)) (he_vars e'))) (k e') m' Q) ->
  sim (bind (fill_object c (er_event e) (repeat None (List.length (c_domains c)))) f)
      (then_ (h_fill_event c e) (fun e => then_ (h_sort_event e) k)) m Q.
Proof.
  intros H K. rewrite fill_object_split.
  assert (R : forall (r : result (list (option seen))) (g : list (option seen) -> evobj * env) , bind (bind r (fun x => Ok (g x))) f = bind r (fun x => f (g x)))
    by (intros [ | | |]; reflexivity).
  cbv zeta. rewrite (R _ (fun l0 => (map (option_map named_seen) (map (option_map sorted) l0), fold_left upd_seen (map (option_map sorted) l0) (repeat None (List.length (c_domains c)))))).
  eapply sim_then; [exact (fill_event_sim c e m l H)|]. intros zs e1 m1 (<- & H1). cbv beta. apply sim_step.
  eapply wp_mono; [exact (sort_event_ok e1 m1 l H1)|]. intros e2 m2 (E2 & H2). rewrite <- E2.
  specialize (K e2 m2 H2). unfold er_event in K. rewrite er_slots, env_slots in K. exact K.
Qed.

(** make_environment. *)
Lemma in_event_var (e : hevent) y : In (Some y) (he_vars e) -> In (hy_at y) (bl_event e).
Proof.
  intros I. unfold bl_event. right. apply in_or_app. right. apply in_flat_map. exists (Some y). split; [exact I|]. now left.
Qed.
Lemma make_environment_ok c e m l : holds m (bl_event e ++ l) ->
  wp (h_make_environment c e) m (fun x m' => snd x = env_of (List.length (c_domains c)) (he_vars e) /\ holds m' (fst x :: bl_event e ++ l)).
Proof.
  intros H. unfold h_make_environment. lstep. lstep. lstep.
  assert (W : forall s, incl s (he_vars e) -> wp (each (fun x => match x with Some y => then_ (use (hy_at y)) (fun _ => use a) | None => ret tt end) s) m0 (fun _ m' => m' = m0)).
  { induction s as [|x s IH]; intros I; cbn [each]; [now lstep|]. lstep.
    assert (W : wp match x with Some y => then_ (use (hy_at y)) (fun _ => use a) | None => ret tt end m0 (fun _ m' => m' = m0)).
    { destruct x as [x|]; [|now lstep]. lstep. eapply wp_use; [exact H0| |eapply wp_use; [exact H0|now left|reflexivity]].
      right. apply in_or_app. left. apply in_event_var, I. now left. }
    eapply wp_mono; [exact W|]. intros _ m' ->. apply IH. intros y Iy. apply I. now right. }
  eapply wp_mono; [exact (W _ (incl_refl _))|]. intros _ m' ->. lstep. now split.
Qed.

(** The array of candidates. *)
Lemma candidates_ok s : forall a cap count m l, holds m (a :: l) -> wp (h_candidates a cap count s) m (fun b m' => holds m' (b :: l)).
Proof.
  induction s as [|x s IH]; intros a cap count m l H; cbn [h_candidates]; [now lstep|].
  lstep. destruct (Nat.eqb cap count).
  - lstep. lstep. lstep. cbv beta iota. lstep. lstep. now apply IH.
  - lstep. cbv beta iota. lstep. lstep. now apply IH.
Qed.

(** Reading the event. *)
Lemma value_reads_in v : incl (value_reads v) (bl_value v).
Proof.
  destruct v as [y|y|y|s|y|y|y|y|y]; cbn [value_reads bl_value]; try apply incl_refl; intros a I.
  - unfold bl_ints. destruct I as [<-|I]; [now left|]. right. destruct (hi_items y); [contradiction|]. exact I.
  - unfold bl_strs. destruct I as [<-|I]; [now left|]. right. destruct (hl_items y) as [|z t]; [contradiction|].
    destruct I as [<-|I]; [now left|]. right. rewrite map_flat in I. exact I.
  - unfold bl_segs. destruct I as [<-|I]; [now left|]. right. destruct (hgs_items y) as [|z t]; [contradiction|]. exact I.
  - unfold bl_caps. destruct I as [<-|I]; [now left|]. right. destruct (hcs_items y) as [|z t]; [contradiction|].
    destruct I as [<-|I]; [now left|]. right. exact I.
Qed.
Lemma event_reads_in e : incl (event_reads e) (bl_event e).
Proof.
  intros a I. unfold event_reads in I. apply in_flat_map in I. destruct I as ([x|] & Ix & Ia); [|contradiction].
  unfold bl_event. right. apply in_or_app. right. apply in_flat_map. exists (Some x). split; [exact Ix|].
  cbn [bl_slot]. unfold bl_variable. destruct Ia as [<-|Ia]; [now left|]. right. right. now apply value_reads_in.
Qed.

Section WithGeo.
Context {G : Geo}.

Lemma search_loop_sim arrays e p ms u subs : forall st r m l, holds m (bl_report r ++ l) -> incl arrays l -> incl (event_reads e) l -> report_ok r ->
  sim (search_loop p ms u subs st (hp_report r)) (h_search_loop arrays e p ms u subs st r) m
    (fun x y m' => hp_report y = x /\ report_ok y /\ holds m' (bl_report y ++ l)).
Proof.
  induction subs as [|s subs IH]; intros st r m l H Ia Ie Ro; cbn [search_loop h_search_loop].
  - cbn [sim]. lstep. split; [reflexivity|]. split; [exact Ro|exact H].
  - apply sim_step. apply wp_use with (bl_report r ++ l); [exact H|now left|].
    apply sim_step. apply each_use_ok with (bl_report r ++ l); [exact H|intros x Ix; apply in_or_app; right; now apply Ia|].
    apply sim_step. apply each_use_ok with (bl_report r ++ l); [exact H|intros x Ix; apply in_or_app; right; now apply Ie|].
    apply sim_pure. intros [[b st'] sh] _. cbv zeta.
    set (r' := mkHR (hp_at r) (hp_subs r) _). change (mkR (r_evaluated (hp_report r) + 1) _ _ _ _) with (hp_report r').
    assert (Ro' : report_ok r') by exact Ro. assert (H' : holds m (bl_report r' ++ l)) by exact H.
    destruct b.
    + apply sim_step. unfold h_add_sub. unfold bl_report in H'. cbn [app] in H'. lstep. lstep. lstep.
      destruct Ro' as (Po & Zo). destruct (Z.eqb_spec (r_matched (hp_report r')) 0) as [M|M].
      * rewrite (proj1 Zo M) in H'. change (opt_at 0) with (@nil Z) in H'. cbn [app] in H'. lstep. lstep.
        change (add_sub (s_id s) (hp_report r')) with (hp_report (mkHR (hp_at r') a (add_sub (s_id s) (hp_report r')))) at 1.
        apply IH; [|exact Ia|exact Ie|].
        -- unfold bl_report. cbn [hp_at hp_subs]. rewrite (opt_at_some _ N). cbn [app]. eapply holds_perm; [exact H0|perm].
        -- unfold report_ok. cbn [hp_report hp_subs add_sub r_matched]. split; [lia|]. split; [lia|easy].
      * assert (Ns : hp_subs r' <> 0) by (intros X; now apply M, Zo). rewrite (opt_at_some _ Ns) in H'. cbn [app] in H'. lstep. lstep.
        change (add_sub (s_id s) (hp_report r')) with (hp_report (mkHR (hp_at r') b (add_sub (s_id s) (hp_report r')))) at 1.
        apply IH; [|exact Ia|exact Ie|].
        -- unfold bl_report. cbn [hp_at hp_subs]. rewrite (opt_at_some _ N). cbn [app]. eapply holds_perm; [exact H0|perm].
        -- unfold report_ok. cbn [hp_report hp_subs add_sub r_matched]. split; [lia|]. split; [lia|easy].
    + apply sim_step. lstep. now apply IH.
Qed.
Lemma exists_loop_sim arrays e p ms u subs : forall st m l, holds m l -> incl arrays l -> incl (event_reads e) l ->
  sim (exists_loop p ms u subs st) (h_exists_loop arrays e p ms u subs st) m (fun x y m' => y = x /\ holds m' l).
Proof.
  induction subs as [|s subs IH]; intros st m l H Ia Ie; cbn [exists_loop h_exists_loop].
  - cbn [sim]. lstep. now split.
  - apply sim_step. apply each_use_ok with l; [exact H|exact Ia|].
    apply sim_step. apply each_use_ok with l; [exact H|exact Ie|].
    apply sim_pure. intros [[b st'] sh] _. destruct b; [|now apply IH]. cbn [sim]. lstep. now split.
Qed.

Lemma search_with_preds_sim c ms n a p e cn r m l : holds m (a :: bl_event e ++ bl_report r ++ l) -> report_ok r ->
  sim (search_with_preds c ms n p cn (hp_report r)) (h_search_with_preds c ms n a p e cn r) m
    (fun x y m' => hp_report y = x /\ report_ok y /\ holds m' (bl_event e ++ bl_report y ++ l)).
Proof.
  intros H Ro. unfold search_with_preds, h_search_with_preds.
  apply sim_step. lstep. apply sim_step. lstep. apply sim_step. lstep. apply sim_step. lstep.
  apply sim_pure. intros subs _. apply sim_step.
  match goal with H : holds m3 _ |- _ => eapply wp_mono; [exact (candidates_ok subs a3 10 0 m3 _ H)|]; clear H end. intros s m4 H4.
  assert (R : forall (r : result report), bind r (fun a => Ok a) = r) by (intros [ | | |]; reflexivity).
  rewrite <- (R (search_loop _ _ _ _ _ _)). clear R.
  eapply sim_then; [apply (search_loop_sim [s; a0; a1; a2; a] e p ms (make_undefined p) subs _ r m4 (s :: a2 :: a1 :: a0 :: a :: bl_event e ++ l))|].
  - eapply holds_perm; [exact H4|perm].
  - intros x. cbn [In]. tauto.
  - intros x I. do 5 right. apply in_or_app. left. now apply event_reads_in.
  - exact Ro.
  - intros x y m5 (Ex & Ry & H5). cbn [sim]. repeat lstep. split; [exact Ex|]. split; [exact Ry|].
    match goal with H : holds ?m _ |- holds ?m _ => eapply holds_perm; [exact H|perm] end.
Qed.
Lemma exists_with_preds_sim c ms n a p e cn m l : holds m (a :: bl_event e ++ l) ->
  sim (exists_with_preds c ms n p cn) (h_exists_with_preds c ms n a p e cn) m
    (fun x y m' => y = x /\ holds m' (bl_event e ++ l)).
Proof.
  intros H. unfold exists_with_preds, h_exists_with_preds.
  apply sim_step. lstep. apply sim_step. lstep. apply sim_step. lstep. apply sim_step. lstep.
  apply sim_pure. intros subs _. apply sim_step.
  match goal with H : holds m3 _ |- _ => eapply wp_mono; [exact (candidates_ok subs a3 10 0 m3 _ H)|]; clear H end. intros s m4 H4.
  assert (R : forall (r : result bool), bind r (fun a => Ok a) = r) by (intros [ | | |]; reflexivity).
  rewrite <- (R (exists_loop _ _ _ _ _)). clear R.
  eapply sim_then; [apply (exists_loop_sim [s; a0; a1; a2; a] e p ms (make_undefined p) subs _ m4 (s :: a2 :: a1 :: a0 :: a :: bl_event e ++ l))|].
  - eapply holds_perm; [exact H4|perm].
  - intros x. cbn [In]. tauto.
  - intros x I. do 5 right. apply in_or_app. left. now apply event_reads_in.
  - intros x y m5 (Ex & H5). cbn [sim]. repeat lstep. split; [exact Ex|].
    match goal with H : holds ?m _ |- holds ?m _ => eapply holds_perm; [exact H|perm] end.
Qed.

(** What is left of the event filled in: nothing when it was refused. *)
Definition kept_env (b : bool) (lost : list Z) : Prop := if b then lost = [] else exists a, lost = [a].

Lemma search_filled_sim {A B} t e r m l (f : bool * report -> result A) (k : bool * hreport -> cmd B) Q : holds m (bl_event e ++ bl_report r ++ l) -> report_ok r ->
  let p := env_of (List.length (c_domains (bt_cfg t))) (he_vars e) in
  (forall b r' lost m', kept_env b lost -> report_ok r' -> holds m' (lost ++ bl_event e ++ bl_report r' ++ l) -> sim (f (b, hp_report r')) (k (b, r')) m' Q) ->
  sim (bind (if negb (validate_variables (c_domains (bt_cfg t)) p) then Ok (false, hp_report r) else
       bind (search_with_preds (bt_cfg t) (pm_mids (bt_pm t)) (pm_mcount (bt_pm t)) p (bt_root t) (hp_report r)) (fun r' => Ok (true, r'))) f)
      (then_ (h_search_filled t e r) k) m Q.
Proof.
  intros H Ro p K.
  eapply sim_then with (P := fun x y m' => exists lost, fst y = fst x /\ hp_report (snd y) = snd x /\ kept_env (fst y) lost /\ report_ok (snd y) /\
    holds m' (lost ++ bl_event e ++ bl_report (snd y) ++ l)).
  - unfold h_search_filled. apply sim_step. eapply wp_mono; [exact (make_environment_ok (bt_cfg t) e m _ H)|].
    intros [a p'] m1 (Ep & H1). cbn [fst snd] in *. subst p'. fold p. destruct (negb _).
    + cbn [sim]. lstep. exists [a]. repeat (split; [first [reflexivity|exact Ro|now exists a]|]). exact H1.
    + eapply sim_then; [exact (search_with_preds_sim _ _ _ a p e _ r m1 l H1 Ro)|].
      intros x y m2 (Ex & Ry & H2). cbn [sim]. lstep. exists []. repeat (split; [first [reflexivity|exact Ry|exact Ex]|]). exact H2.
  - intros [b x] [b' y] m1 (lost & Eb & Er & Kl & Ry & H1). cbn [fst snd] in *. subst b' x. now apply K with lost.
Qed.

Lemma search_event_sim t e r m l : holds m (bl_event e ++ bl_report r ++ l) -> report_ok r ->
  sim (search_object t (er_event e) (hp_report r)) (h_search_event t e r) m
    (fun x y m' => let '(b, r1, ev1) := x in let '(b', r', e') := y in
      b' = b /\ hp_report r' = r1 /\ er_event e' = ev1 /\ report_ok r' /\
      exists lost, kept_env b lost /\ holds m' (lost ++ bl_event e' ++ bl_report r' ++ l)).
Proof.
  intros H Ro. unfold search_object, h_search_event. apply (fill_sort_sim (bt_cfg t) e m _ _ _ _ H).
  intros e1 m1 H1. cbv beta iota.
  assert (R : (if negb (validate_variables (c_domains (bt_cfg t)) (env_of (List.length (c_domains (bt_cfg t))) (he_vars e1)))
    then Ok (false, hp_report r, er_event e1)
    else bind (search_with_preds (bt_cfg t) (pm_mids (bt_pm t)) (pm_mcount (bt_pm t)) (env_of (List.length (c_domains (bt_cfg t))) (he_vars e1)) (bt_root t) (hp_report r))
      (fun r' => Ok (true, r', er_event e1))) =
    bind (if negb (validate_variables (c_domains (bt_cfg t)) (env_of (List.length (c_domains (bt_cfg t))) (he_vars e1)))
    then Ok (false, hp_report r)
    else bind (search_with_preds (bt_cfg t) (pm_mids (bt_pm t)) (pm_mcount (bt_pm t)) (env_of (List.length (c_domains (bt_cfg t))) (he_vars e1)) (bt_root t) (hp_report r))
      (fun r' => Ok (true, r'))) (fun x => Ok (fst x, snd x, er_event e1))).
  { destruct (negb _); [reflexivity|]. destruct (search_with_preds _ _ _ _ _ _); reflexivity. }
  rewrite R. clear R. apply search_filled_sim with (l := l); [exact H1|exact Ro|].
  intros b r' lost m2 Kl Rr H2. cbn [sim fst snd]. lstep. repeat (split; [first [reflexivity|exact Rr]|]). now exists lost.
Qed.
Lemma exists_event_sim t e m l : holds m (bl_event e ++ l) ->
  sim (exists_object t (er_event e)) (h_exists_event t e) m
    (fun x y m' => fst y = fst x /\ er_event (snd y) = snd x /\ holds m' (bl_event (snd y) ++ l)).
Proof.
  intros H. unfold exists_object, h_exists_event. apply (fill_sort_sim (bt_cfg t) e m _ _ _ _ H).
  intros e1 m1 H1. cbv beta iota.
  eapply sim_then with (P := fun x y m' => y = x /\ holds m' (bl_event e1 ++ l)).
  - assert (R : forall (r : result bool), bind r (fun a => Ok a) = r) by (intros [ | | |]; reflexivity).
    unfold h_exists_filled. apply sim_step. eapply wp_mono; [exact (make_environment_ok (bt_cfg t) e1 m1 _ H1)|].
    intros [a p'] m2 (Ep & H2). cbn [fst snd] in *. subst p'. exact (exists_with_preds_sim _ _ _ a _ e1 _ m2 l H2).
  - intros x y m2 (-> & H2). cbn [sim]. lstep. easy.
Qed.

Lemma vars_some l : vars (map Some l) = map (fun p => (fst p, Some (snd p))) l.
Proof. unfold vars. induction l as [|[n x] l IH]; cbn; [reflexivity|]. now rewrite IH. Qed.

Lemma event_from_string_sim {A B} c text m l (f : evobj * env -> result A) (k : hevent -> cmd B) Q : holds m l ->
  (forall e' m', holds m' (bl_event e' ++ l) -> sim (f (er_event e', env_of (List.length (c_domains c)) (he_vars e'))) (k e') m' Q) ->
  sim (bind (event_parse_c text) (fun o => match o with None => Abort | Some b =>
         bind (fill_object c (map Some b) (repeat None (List.length (c_domains c)))) f end))
      (then_ (h_event_from_string c text) k) m Q.
Proof.
  intros H K. unfold h_event_from_string.
  destruct (e_lex text) as [ts| | |] eqn:L.
  2-4: unfold event_parse_c, h_event_parse; rewrite L; reflexivity.
  destruct (h_event_parse_ok text ts m l L H) as (o & m1 & Eo & Ho). destruct o as [e|].
  - destruct Ho as ((b & Eb & Ee) & H1). rewrite Eb. cbn [bind]. rewrite <- Ee.
    pose proof (fill_sort_sim c e m1 l f k Q H1 K) as S.
    unfold sim, wp, then_ in *. rewrite Eo. cbn [bind].
    assert (R : forall (r : result (hevent * ledger)) (g : hevent -> cmd hevent), 
      bind (bind r (fun x => let '(a, m') := x in g a m')) (fun x => let '(a, m') := x in k a m') =
      bind r (fun x => let '(a, m') := x in bind (g a m') (fun y => let '(a0, m'0) := y in k a0 m'0))) by (intros [[? ?]| | |] g; reflexivity).
    rewrite (R _ h_sort_event). exact S.
  - destruct Ho as (Eb & _). rewrite Eb. cbn [bind sim]. unfold then_. rewrite Eo. reflexivity.
Qed.
Lemma search_text_sim t text r m l : holds m (bl_report r ++ l) -> report_ok r ->
  sim (bind (text_event text) (fun ev => betree_search t ev (hp_report r))) (h_search t text r) m
    (fun x y m' => fst y = fst x /\ hp_report (snd y) = snd x /\ report_ok (snd y) /\
      exists lost, kept_env (fst x) lost /\ holds m' (lost ++ bl_report (snd y) ++ l)).
Proof.
  intros H Ro. unfold h_search.
  assert (R : bind (text_event text) (fun ev => betree_search t ev (hp_report r)) =
    bind (event_parse_c text) (fun o => match o with None => Abort | Some b =>
         bind (fill_object (bt_cfg t) (map Some b) (repeat None (List.length (c_domains (bt_cfg t))))) (fun x => 
           bind (if negb (validate_variables (c_domains (bt_cfg t)) (snd x)) then Ok (false, hp_report r) else
       bind (search_with_preds (bt_cfg t) (pm_mids (bt_pm t)) (pm_mcount (bt_pm t)) (snd x) (bt_root t) (hp_report r)) (fun r' => Ok (true, r')))
           (fun y => Ok y)) end)).
  { unfold text_event. destruct (event_parse_c text) as [[b|]| | |]; try reflexivity. cbn [bind]. unfold betree_search, make_env.
    rewrite <- vars_some, fill_object_env. destruct (fill_object _ _ _) as [[e' p']| | |]; try reflexivity. cbn [bind snd].
    destruct (negb _); [reflexivity|]. destruct (search_with_preds _ _ _ _ _ _); reflexivity. }
  rewrite R. clear R. apply (event_from_string_sim (bt_cfg t) text m _ _ _ _ H).
  intros e1 m1 H1. cbn [snd]. apply search_filled_sim with (l := l); [exact H1|exact Ro|].
  intros b r' lost m2 Kl Rr H2. cbn [sim fst snd]. cbv beta iota. lstep.
  eapply free_event_ok with (l' := lost ++ bl_report r' ++ l); [exact H2|perm|]. intros m3 H3. lstep.
  repeat (split; [first [reflexivity|exact Rr]|]). now exists lost.
Qed.
Lemma exists_text_sim t text m l : holds m l ->
  sim (bind (text_event text) (fun ev => betree_exists t ev)) (h_exists t text) m (fun x y m' => y = x /\ holds m' l).
Proof.
  intros H. unfold h_exists.
  assert (R : bind (text_event text) (fun ev => betree_exists t ev) =
    bind (event_parse_c text) (fun o => match o with None => Abort | Some b =>
         bind (fill_object (bt_cfg t) (map Some b) (repeat None (List.length (c_domains (bt_cfg t))))) (fun x => 
           bind (exists_with_preds (bt_cfg t) (pm_mids (bt_pm t)) (pm_mcount (bt_pm t)) (snd x) (bt_root t)) (fun y => Ok y)) end)).
  { unfold text_event. destruct (event_parse_c text) as [[b|]| | |]; try reflexivity. cbn [bind]. unfold betree_exists, make_env.
    rewrite <- vars_some, fill_object_env. destruct (fill_object _ _ _) as [[e' p']| | |]; try reflexivity. cbn [bind snd].
    destruct (exists_with_preds _ _ _ _ _); reflexivity. }
  rewrite R. clear R. apply (event_from_string_sim (bt_cfg t) text m _ _ _ _ H).
  intros e1 m1 H1. cbn [snd].
  eapply sim_then with (P := fun x y m' => y = x /\ holds m' (bl_event e1 ++ l)).
  - unfold h_exists_filled. apply sim_step. eapply wp_mono; [exact (make_environment_ok (bt_cfg t) e1 m1 _ H1)|].
    intros [a p'] m2 (Ep & H2). cbn [fst snd] in *. subst p'. exact (exists_with_preds_sim _ _ _ a _ e1 _ m2 l H2).
  - intros x y m2 (-> & H2). cbn [sim]. lstep. eapply free_event_ok with (l' := l); [exact H2|perm|]. intros m3 H3. lstep. now split.
Qed.
End WithGeo.
