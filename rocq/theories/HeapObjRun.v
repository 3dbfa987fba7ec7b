(** Programs with event objects keep their memory in order. *)
From Coq Require Import ZArith NArith String Bool List Lia Permutation Morphisms.
From Coq Require Import ZifyBool ZifyNat ZifyN.
From Verif Require Import Base Float Value Ast Config Assign Special Match Bound Tree PredMap Source Api EventObj Linked LinkedApi BisonTables Machine ObjProgram.
From Verif Require Import Ledger HeapExpr HeapSpec HeapEvent HeapEventSpec HeapConf HeapConfSpec HeapWorld HeapWorldSpec HeapObj HeapObjSpec.
From Verif Require Import ObjProofs BaseProofs PermTac LedgerProofs HeapProofs HeapEventProofs HeapFill HeapConfProofs HeapSearch HeapSubs HeapPasses HeapWorldProofs.
From Verif Require Import HeapText HeapRules HeapObjProofs.
Import ListNotations.
Local Open Scope Z_scope.

Section WithGeo.
Context {G : Geo}.

(** The index is searched with an object. *)
Lemma search_event_ok n w e ev1 b r1 r m l :
  p_search_object n (er_world w) (er_event e) (hp_report r) = Ok (b, r1, ev1) -> w_ok w ->
  HeapSpec.holds m (bl_event e ++ bl_report r ++ bl_world w ++ l) -> report_ok r ->
  wp (w_search_event n w e r) m (fun y m' => let '(b', r', e') := y in b' = b /\ hp_report r' = r1 /\ er_event e' = ev1 /\ report_ok r' /\
    exists lost, kept_env b lost /\ HeapSpec.holds m' (lost ++ bl_event e' ++ bl_report r' ++ bl_world w ++ l)).
Proof.
  intros E W H Ro. destruct w as [at_ k rb keys pm root h made us]. pose proof W as (OK & WH & PR & IK). cbn [w_conf w_heap w_subs w_keys] in *.
  set (W0 := mkW at_ k rb keys pm root h made us) in *. set (L := bl_world W0 ++ l) in *.
  assert (IL : incl (bl_conf k) L /\ incl (bl_subs us) L /\ In at_ L).
  { split; [|split; [|now left]]; intros z Z; (eapply Permutation_in; [symmetry; apply world_split|]); rewrite !in_app_iff; cbn [In]; rewrite !in_app_iff; tauto. }
  destruct IL as (IL1 & IL2 & IL3).
  unfold w_search_event. cbn [W0 w_at w_conf w_rb w_keys w_pm w_root w_heap w_made w_subs].
  lstep. eapply wp_use; [exact H|rewrite !in_app_iff; tauto|]. lstep. apply (conf_read_all_ok k m _ _ OK H); [intros z Z; rewrite !in_app_iff; right; right; now apply IL1|].
  lstep. apply (read_subs_ok us m _ _ H); [intros z Z; rewrite !in_app_iff; right; right; now apply IL2|].
  set (c := er_conf k). unfold p_search_object in E. cbn [er_world W0 p_cfg p_pm p_root p_heap p_made w_conf w_pm w_root w_heap w_made] in E. fold c in E.
  refine (sim_ok _ _ m (fun x y m' => let '(b, r1, ev1) := x in let '(b', r', e') := y in b' = b /\ hp_report r' = r1 /\ er_event e' = ev1 /\ report_ok r' /\
    exists lost, kept_env b lost /\ HeapSpec.holds m' (lost ++ bl_event e' ++ bl_report r' ++ L)) _ _ E).
  apply (fill_sort_sim c e m _ _ _ _ H). intros e1 m1 H1. cbv beta iota.
  apply sim_step. eapply wp_mono; [exact (make_environment_ok c e1 m1 _ H1)|]. intros [a p'] m2 (Ep & H2). cbn [fst snd] in Ep, H2. subst p'. cbv beta iota.
  set (p := env_of (List.length (c_domains c)) (he_vars e1)) in *.
  destruct (negb _).
  - cbn [sim]. lstep. repeat (split; [first [reflexivity|exact Ro]|]). exists [a]. split; [now exists a|]. exact H2.
  - apply sim_step. eapply wp_malloc; [exact H2|]. intros a0 m3 _ H3. apply sim_step. eapply wp_malloc; [exact H3|]. intros a1 m4 _ H4.
    apply sim_step. eapply wp_malloc; [exact H4|]. intros a2 m5 _ H5. apply sim_step. eapply wp_malloc; [exact H5|]. intros a3 m6 _ H6. clear H3 H4 H5.
    apply sim_pure. intros cand _. apply sim_pure. intros subs _. apply sim_step.
    eapply wp_mono; [exact (candidates_ok subs a3 10 0 m6 _ H6)|]. intros s m7 H7.
    eapply sim_then; [apply (search_loop_sim [s; a0; a1; a2; a] e1 p (pm_mids pm) (make_undefined p) subs _ r m7 (s :: a2 :: a1 :: a0 :: a :: bl_event e1 ++ L))|].
    + eapply HeapSpec_perm; [exact H7|perm].
    + intros x. cbn [In]. tauto.
    + intros x I. do 5 right. apply in_or_app. left. now apply event_reads_in.
    + exact Ro.
    + intros x y m8 (Ex & Ry & H8). cbn [sim].
      lstep. eapply wp_free; [exact H8|instantiate (1 := a1 :: a2 :: a0 :: a :: bl_event e1 ++ bl_report y ++ L); perm|]. intros m9 H9.
      lstep. eapply wp_free; [exact H9|reflexivity|]. intros m10 H10. lstep. eapply wp_free; [exact H10|reflexivity|]. intros m11 H11.
      lstep. eapply wp_free; [exact H11|reflexivity|]. intros m12 H12. lstep. eapply wp_free; [exact H12|reflexivity|]. intros m13 H13. lstep.
      repeat (split; [first [reflexivity|exact Ry|exact Ex]|]). now exists [].
Qed.
Lemma exists_event_ok n w e ev1 b m l :
  p_exists_object n (er_world w) (er_event e) = Ok (b, ev1) -> w_ok w -> HeapSpec.holds m (bl_event e ++ bl_world w ++ l) ->
  wp (w_exists_event n w e) m (fun y m' => fst y = b /\ er_event (snd y) = ev1 /\ HeapSpec.holds m' (bl_event (snd y) ++ bl_world w ++ l)).
Proof.
  intros E W H. destruct w as [at_ k rb keys pm root h made us]. pose proof W as (OK & WH & PR & IK). cbn [w_conf w_heap w_subs w_keys] in *.
  set (W0 := mkW at_ k rb keys pm root h made us) in *. set (L := bl_world W0 ++ l) in *.
  assert (IL : incl (bl_conf k) L /\ incl (bl_subs us) L /\ In at_ L).
  { split; [|split; [|now left]]; intros z Z; (eapply Permutation_in; [symmetry; apply world_split|]); rewrite !in_app_iff; cbn [In]; rewrite !in_app_iff; tauto. }
  destruct IL as (IL1 & IL2 & IL3).
  unfold w_exists_event. cbn [W0 w_at w_conf w_rb w_keys w_pm w_root w_heap w_made w_subs].
  lstep. eapply wp_use; [exact H|rewrite !in_app_iff; tauto|]. lstep. apply (conf_read_all_ok k m _ _ OK H); [intros z Z; rewrite !in_app_iff; right; now apply IL1|].
  lstep. apply (read_subs_ok us m _ _ H); [intros z Z; rewrite !in_app_iff; right; now apply IL2|].
  set (c := er_conf k). unfold p_exists_object in E. cbn [er_world W0 p_cfg p_pm p_root p_heap p_made w_conf w_pm w_root w_heap w_made] in E. fold c in E.
  refine (sim_ok _ _ m (fun x y m' => fst y = fst x /\ er_event (snd y) = snd x /\ HeapSpec.holds m' (bl_event (snd y) ++ L)) _ _ E).
  apply (fill_sort_sim c e m _ _ _ _ H). intros e1 m1 H1. cbv beta iota.
  apply sim_step. eapply wp_mono; [exact (make_environment_ok c e1 m1 _ H1)|]. intros [a p'] m2 (Ep & H2). cbn [fst snd] in Ep, H2. subst p'. cbv beta iota.
  set (p := env_of (List.length (c_domains c)) (he_vars e1)) in *.
  apply sim_step. eapply wp_malloc; [exact H2|]. intros a0 m3 _ H3. apply sim_step. eapply wp_malloc; [exact H3|]. intros a1 m4 _ H4.
  apply sim_step. eapply wp_malloc; [exact H4|]. intros a2 m5 _ H5. apply sim_step. eapply wp_malloc; [exact H5|]. intros a3 m6 _ H6. clear H3 H4 H5.
  apply sim_pure. intros cand _. apply sim_pure. intros subs _. apply sim_step.
  eapply wp_mono; [exact (candidates_ok subs a3 10 0 m6 _ H6)|]. intros s m7 H7.
  eapply sim_then; [apply (exists_loop_sim [s; a0; a1; a2; a] e1 p (pm_mids pm) (make_undefined p) subs _ m7 (s :: a2 :: a1 :: a0 :: a :: bl_event e1 ++ L))|].
  - eapply HeapSpec_perm; [exact H7|perm].
  - intros x. cbn [In]. tauto.
  - intros x I. do 5 right. apply in_or_app. left. now apply event_reads_in.
  - intros x y m8 (-> & H8). cbn [sim].
    lstep. eapply wp_free; [exact H8|instantiate (1 := a1 :: a2 :: a0 :: a :: bl_event e1 ++ L); perm|]. intros m9 H9.
    lstep. eapply wp_free; [exact H9|reflexivity|]. intros m10 H10. lstep. eapply wp_free; [exact H10|reflexivity|]. intros m11 H11.
    lstep. eapply wp_free; [exact H11|reflexivity|]. intros m12 H12. lstep. eapply wp_free; [exact H12|reflexivity|]. intros m13 H13. lstep.
    now split; [|split].
Qed.

(** The pointers of the caller and the tree. *)
Definition x_ok (s : xheap) : Prop := w_ok (fst s) /\ Forall item_ok (snd s).
Definition bl_x (s : xheap) : list Z := bl_world (fst s) ++ bl_items (snd s).
Definition x_done (clean : bool) (s : xstate) (l : list Z) (x : xheap) (m : ledger) : Prop :=
  er_x x = s /\ x_ok x /\ exists lost, (clean = true -> lost = []) /\ HeapSpec.holds m (bl_x x ++ lost ++ l).

Lemma consts_ok its hs : forall cs m l (Q : constants -> ledger -> Prop), consts_at (map er_item its) hs = Ok cs -> HeapSpec.holds m l -> incl (bl_items its) l ->
  Q cs m -> wp (h_consts_at its hs) m Q.
Proof.
  induction hs as [|h t IH]; intros cs m l Q E H I HQ; cbn [consts_at h_consts_at] in *; [injection E as <-; now apply wp_ret|].
  bd E x X. apply item_at_ok in X. destruct X as (y & Hy & <-). bd E cs' E1. lstep. apply (hitem_at_ok its h _ _ _ Hy). lstep. apply (IH cs' m l _ E1 H I).
  assert (Iy : incl (bl_item y) l).
  { intros z Z. apply I. eapply Permutation_in; [symmetry; exact (at_split its h y Hy)|]. apply in_or_app. now left. }
  destruct y; cbn [er_item] in E; try discriminate E. injection E as <-. cbn [bl_item] in Iy.
  lstep. eapply wp_use; [exact H|apply Iy; now left|]. lstep. eapply wp_use; [exact H|apply Iy; right; now left|]. lstep. exact HQ.
Qed.
Lemma report_at_ok its h r : report_at (map er_item its) h = Ok r -> exists y, nth_error its h = Some (JReport y) /\ hp_report y = r.
Proof.
  intros E. unfold report_at in E. bd E x X. apply item_at_ok in X. destruct X as (y & Hy & <-). destruct y; try discriminate E. injection E as <-. eauto.
Qed.
Lemma event_at_ok its h r : event_at (map er_item its) h = Ok r -> exists y, nth_error its h = Some (JEvent y) /\ er_event y = r.
Proof.
  intros E. unfold event_at in E. bd E x X. apply item_at_ok in X. destruct X as (y & Hy & <-). destruct y; try discriminate E. injection E as <-. eauto.
Qed.
Lemma h_report_at_ok its h y m (Q : hreport -> ledger -> Prop) : nth_error its h = Some (JReport y) -> Q y m -> wp (h_report_at its h) m Q.
Proof. intros E H. unfold h_report_at. lstep. apply (hitem_at_ok its h _ _ _ E). now apply wp_ret. Qed.
Lemma h_event_at_ok its h y m (Q : hevent -> ledger -> Prop) : nth_error its h = Some (JEvent y) -> Q y m -> wp (h_event_at its h) m Q.
Proof. intros E H. unfold h_event_at. lstep. apply (hitem_at_ok its h _ _ _ E). now apply wp_ret. Qed.
Lemma ok_at (P : hitem -> Prop) its h x : Forall P its -> nth_error its h = Some x -> P x.
Proof. intros F E. rewrite Forall_forall in F. apply F. exact (nth_error_In _ _ E). Qed.

(** One call. *)
Lemma x_call_ok n s k a s' m l : x_call n (er_x s) k = Ok (a, s') ->
  roomy (p_cfg (fst (er_x s))) = true -> roomy (p_cfg (fst s')) = true -> x_ok s -> HeapSpec.holds m (bl_x s ++ l) ->
  wp (hx_call n s k) m (fun x m' => fst x = a /\ x_done (x_clean n (er_x s) k) s' l (snd x) m').
Proof.
  destruct s as (w, its). unfold er_x, x_ok, bl_x. cbn [fst snd]. intros E R R' (W & F) H.
  pose proof (HeapSpec_perm _ _ (bl_world w ++ bl_items its ++ l) H ltac:(perm)) as H0. clear H.
  pose proof E as EE. destruct k as [k|k|id hs t|id hs t|t h|e h|e]; cbn [hx_call]; cbn [x_call] in E.
  - bd E x E1. destruct x as (a', q). injection E as <- <-. cbn [fst] in R'. lstep.
    eapply wp_mono; [exact (call_ok n w k a' q m _ E1 R R' W H0)|]. intros [a1 w1] m1 (<- & E2 & W1 & lost & L1 & H1). cbn [fst snd] in *. cbv beta iota. lstep.
    split; [reflexivity|]. cbn [snd]. split; [unfold er_x; cbn [fst snd]; now rewrite E2|]. split; [now split|]. exists lost. split; [exact L1|].
    unfold bl_x. cbn [fst snd]. eapply HeapSpec_perm; [exact H1|perm].
  - bd E t E1. injection E as <- <-. lstep.
    assert (U : wp (match k with OEvent => then_ (use (w_at w)) (fun _ => use (k_at (w_conf w))) | _ => ret tt end) m (fun _ m' => m' = m)).
    { destruct k; try (now apply wp_ret). lstep. eapply wp_use; [exact H0|now left|]. eapply wp_use; [exact H0| |reflexivity].
      unfold bl_world, bl_conf. rewrite !in_app_iff. left. right. right. rewrite !in_app_iff. right. left. now left. }
    eapply wp_mono; [exact U|]. intros _ m' ->. cbv beta. clear U. lstep.
    eapply wp_mono; [apply (ocall_ok _ its k t m (bl_world w ++ l) E1 F); eapply HeapSpec_perm; [exact H0|perm]|].
    intros its1 m1 (E2 & F1 & lost & L1 & H1). lstep. split; [reflexivity|]. cbn [snd]. split; [unfold er_x; cbn [fst snd]; now rewrite E2|]. split; [now split|].
    exists lost. split; [exact L1|]. unfold bl_x. cbn [fst snd]. eapply HeapSpec_perm; [exact H1|perm].
  - bd E cs E0. bd E x E1. destruct x as (a', q). injection E as <- <-. cbn [fst] in R'. lstep.
    apply (consts_ok its hs cs m _ _ E0 H0); [intros z Z; rewrite !in_app_iff; tauto|]. lstep.
    eapply wp_mono; [exact (call_ok n w (TInsert id cs t) a' q m _ E1 R R' W H0)|]. intros [a1 w1] m1 (<- & E2 & W1 & lost & L1 & H1). cbn [fst snd] in *. cbv beta iota. lstep.
    split; [reflexivity|]. cbn [snd]. split; [unfold er_x; cbn [fst snd]; now rewrite E2|]. split; [now split|]. exists lost. split.
    + cbn [x_clean fst snd]. rewrite E0. exact L1.
    + unfold bl_x. cbn [fst snd]. eapply HeapSpec_perm; [exact H1|perm].
  - bd E cs E0. bd E x E1. destruct x as (a', q). injection E as <- <-. cbn [fst] in R'. lstep.
    apply (consts_ok its hs cs m _ _ E0 H0); [intros z Z; rewrite !in_app_iff; tauto|]. lstep.
    eapply wp_mono; [exact (call_ok n w (TMake id cs t) a' q m _ E1 R R' W H0)|]. intros [a1 w1] m1 (<- & E2 & W1 & lost & L1 & H1). cbn [fst snd] in *. cbv beta iota. lstep.
    split; [reflexivity|]. cbn [snd]. split; [unfold er_x; cbn [fst snd]; now rewrite E2|]. split; [now split|]. exists lost. split.
    + cbn [x_clean fst snd]. rewrite E0. exact L1.
    + unfold bl_x. cbn [fst snd]. eapply HeapSpec_perm; [exact H1|perm].
  - bd E r E0. apply report_at_ok in E0. destruct E0 as (y & Hy & <-). bd E o P. destruct o as [ev|]; [|discriminate]. bd E x X. destruct x as (b, r). injection E as <- <-.
    lstep. apply (h_report_at_ok its h y _ _ Hy). lstep.
    eapply wp_mono; [apply (search_text_ok n w t ev b r y m (rest its h ++ l) P X W); [|exact (ok_at _ _ _ _ F Hy)]|].
    { eapply HeapSpec_perm; [exact H0|]. rewrite (at_split its h _ Hy). cbn [bl_item]. perm. }
    intros [b' y'] m2 (Eb & Er & Ry & lost & KE & H2). cbn [fst snd] in *. subst b' r. cbv beta iota. lstep. split; [reflexivity|]. cbn [snd].
    split; [unfold er_x; cbn [fst snd]; now rewrite map_put|]. split; [split; [exact W|now apply put_Forall]|]. exists lost. split.
    + cbn [x_clean]. rewrite EE. intros ->. exact KE.
    + unfold bl_x. cbn [fst snd]. eapply HeapSpec_perm; [exact H2|]. rewrite (put_split its h _ (JReport y') Hy). cbn [bl_item]. perm.
  - bd E ev E0. apply event_at_ok in E0. destruct E0 as (v & Hv & <-). bd E r E0. apply report_at_ok in E0. destruct E0 as (y & Hy & <-).
    bd E x X. destruct x as ((b, r), ev). injection E as <- <-. assert (N : h <> e) by (intros ->; congruence).
    lstep. apply (h_event_at_ok its e v _ _ Hv). lstep. apply (h_report_at_ok its h y _ _ Hy). lstep.
    eapply wp_mono; [apply (search_event_ok n w v ev b r y m (rest (put its e JGone) h ++ l) X W); [|exact (ok_at _ _ _ _ F Hy)]|].
    { eapply HeapSpec_perm; [exact H0|]. rewrite (given_split its h e _ _ N Hy Hv). cbn [bl_item]. perm. }
    intros [[b' y'] v'] m2 (Eb & Er & Ev & Ry & lost & KE & H2). subst b' r ev. cbv beta iota. lstep. split; [reflexivity|]. cbn [snd].
    split; [unfold er_x; cbn [fst snd]; now rewrite !map_put|]. split; [split; [exact W|]|].
    { apply put_Forall; [apply put_Forall; [exact F|exact Logic.I]|exact Ry]. }
    exists lost. split.
    + cbn [x_clean]. rewrite EE. intros ->. exact KE.
    + unfold bl_x. cbn [fst snd]. eapply HeapSpec_perm; [exact H2|].
      assert (Hy' : nth_error (put its e (JEvent v')) h = Some (JReport y)) by now rewrite put_other.
      rewrite (put_split _ h _ (JReport y') Hy'). cbn [bl_item].
      assert (Q : Permutation (rest (put its e (JEvent v')) h) (bl_event v' ++ rest (put its e JGone) h)).
      { apply Permutation_app_inv_l with (l := bl_report y). change (bl_report y) with (bl_item (JReport y)). rewrite <- (at_split _ h _ Hy').
        rewrite (put_split its e _ (JEvent v') Hv). unfold rest at 1. rewrite (at_split (put its e JGone) h (JReport y)) by now rewrite put_other. cbn [bl_item]. perm. }
      rewrite Q. perm.
  - bd E ev E0. apply event_at_ok in E0. destruct E0 as (v & Hv & <-). bd E x X. destruct x as (b, ev). injection E as <- <-.
    lstep. apply (h_event_at_ok its e v _ _ Hv). lstep.
    eapply wp_mono; [apply (exists_event_ok n w v ev b m (rest its e ++ l) X W)|].
    { eapply HeapSpec_perm; [exact H0|]. rewrite (at_split its e _ Hv). cbn [bl_item]. perm. }
    intros [b' v'] m2 (Eb & Ev & H2). cbn [fst snd] in *. subst b' ev. cbv beta iota. lstep. split; [reflexivity|]. cbn [snd].
    split; [unfold er_x; cbn [fst snd]; now rewrite map_put|]. split; [split; [exact W|]|].
    { apply put_Forall; [exact F|exact Logic.I]. }
    exists []. split; [reflexivity|]. unfold bl_x. cbn [fst snd]. eapply HeapSpec_perm; [exact H2|]. rewrite (put_split its e _ (JEvent v') Hv). cbn [bl_item]. perm.
Qed.

(** A program. *)
Lemma x_run_ok n : forall t s r s' m l, x_run n (er_x s) t = Ok (r, s') -> x_roomy_run n (er_x s) t = true -> x_ok s -> HeapSpec.holds m (bl_x s ++ l) ->
  wp (hx_run n s t) m (fun x m' => fst x = r /\ x_done (x_clean_run n (er_x s) t) s' l (snd x) m').
Proof.
  induction t as [|k t IH]; intros s r s' m l E R W H; cbn [x_run hx_run x_roomy_run x_clean_run] in *.
  - injection E as <- <-. lstep. split; [reflexivity|]. split; [reflexivity|]. split; [exact W|]. exists []. split; [reflexivity|exact H].
  - apply andb_true_iff in R. destruct R as (R & R'). bd E x1 E1. destruct x1 as (a, s1). rewrite E1 in R' |- *.
    assert (R1 : roomy (p_cfg (fst s1)) = true) by (destruct t; apply andb_true_iff in R'; exact (proj1 R')).
    lstep. eapply wp_mono; [exact (x_call_ok n s k a s1 m l E1 R R1 W H)|]. intros [a' w1] m1 (<- & E2 & W1 & lost & L1 & H1). cbn [fst snd] in *. cbv beta iota.
    bd E x2 E3. destruct x2 as (r2, q2). injection E as <- <-. rewrite <- E2 in E3, R' |- *.
    lstep. eapply wp_mono; [exact (IH w1 r2 q2 m1 (lost ++ l) E3 R' W1 H1)|]. intros [r' w2] m2 (<- & E4 & W2 & lost2 & L2 & H2). cbn [fst snd] in *. cbv beta iota. lstep.
    split; [reflexivity|]. split; [exact E4|]. split; [exact W2|]. exists (lost2 ++ lost). split.
    + intros C. apply andb_true_iff in C. destruct C as (C1 & C2). now rewrite (L1 C1), (L2 C2).
    + cbn [snd]. eapply HeapSpec_perm; [exact H2|perm].
Qed.
End WithGeo.
