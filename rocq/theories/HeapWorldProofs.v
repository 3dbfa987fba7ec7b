(** Every call of the public interface keeps the memory of the program in order. *)
From Coq Require Import ZArith NArith String Bool List Lia Permutation Morphisms.
From Coq Require Import ZifyBool ZifyNat ZifyN.
From Verif Require Import Base Float Value Ast Config Assign Special Match Bound Tree RbTree PredMap Source Api Linked LinkedApi.
From Verif Require Import FlexTables BisonTables Machine Ledger HeapExpr HeapSpec HeapEvent HeapEventSpec HeapConf HeapConfSpec HeapWorld HeapWorldSpec.
From Verif Require Import EventObj ObjProofs BaseProofs PermTac LedgerProofs HeapProofs HeapEventProofs HeapRules HeapText HeapFill HeapConfProofs HeapSearch.
From Verif Require Import LinkedSpec LinkedHeap LinkedFrame HeapPasses HeapSubs.
Import ListNotations.
Local Open Scope Z_scope.

Local Instance holds_proper m : Proper (Permutation (A := Z) ==> iff) (HeapSpec.holds m).
Proof. intros l l' P. split; intros H; [exact (HeapSpec_perm _ _ _ H P)|exact (HeapSpec_perm _ _ _ H (Permutation_sym P))]. Qed.

(** The blocks of a state, in the order the calls use them. *)
Lemma world_split at_ k rb keys pm root h made us l :
  Permutation (bl_world (mkW at_ k rb keys pm root h made us) ++ l) (bl_conf k ++ at_ :: rb :: map fst keys ++ bl_subs us ++ l).
Proof. unfold bl_world. cbn [w_at w_conf w_rb w_keys w_subs]. perm. Qed.

Definition done (clean : bool) (q : pstate) (l : list Z) (w : wstate) (m : ledger) : Prop :=
  er_world w = q /\ w_ok w /\ exists lost, (clean = true -> lost = []) /\ HeapSpec.holds m (bl_world w ++ lost ++ l).

(** A new subscription. *)
Lemma paired_new us h s u : paired us h -> er_expr (hu_expr u) = s_expr s ->
  paired (us ++ [(fst (alloc (OSub s) h), u)]) (snd (alloc (OSub s) h)).
Proof.
  intros P E. unfold paired, view, sview. rewrite map_app. cbn [map alloc fst snd h_cells subs_of flat_map]. unfold sub_cell at 1. cbn [fst snd app].
  cbn [map fst snd]. rewrite E. rewrite <- Permutation_cons_append. apply perm_skip. exact P.
Qed.
Lemma wfh_new h o : wfh h -> wfh (snd (alloc o h)).
Proof. intros W. exact (holds_alloc _ o W). Qed.
Lemma paired_kept S us h h' : kept S h -> kept S h' -> paired us h -> paired us h'.
Proof. intros (_ & E) (_ & E') P. unfold paired, sview in *. rewrite E'. now rewrite E in P. Qed.

Lemma parse_ok_lex s o : parse_c s = Ok o -> exists ts, x_lex s = Ok ts.
Proof. unfold parse_c. intros E. apply bind_ok in E. destruct E as (ts & E & _). now exists ts. Qed.

Lemma parsing s o m l (Q : option hexpr -> ledger -> Prop) : parse_c s = Ok o -> HeapSpec.holds m l ->
  (forall m' lost, o = None -> HeapSpec.holds m' (lost ++ l) -> Q None m') ->
  (forall e m', o = Some (er_expr e) -> full e -> HeapSpec.holds m' (blocks e ++ l) -> Q (Some e) m') -> wp (h_parse s) m Q.
Proof.
  intros E H Q1 Q2. destruct (parse_ok_lex _ _ E) as (ts & L). eapply wp_mono; [exact (h_parse_full s ts m l L H)|].
  intros [e|] m' (F & D); rewrite E in F; cbn in F; injection F as ->.
  - apply (Q2 e m' eq_refl); tauto.
  - destruct D as (lost & rd & rest & _ & D & _). exact (Q1 m' lost eq_refl D).
Qed.

Section WithGeo.
Context {G : Geo}.

Ltac bk E x H := apply bind_ok in E; destruct E as (x & H & E).

Lemma refused at_ k rb keys pm root h made us k' q l lost m b :
  q = er_world (mkW at_ k rb keys pm root h made us) -> er_conf k' = er_conf k -> conf_ok k' -> w_ok (mkW at_ k rb keys pm root h made us) -> (b = true -> lost = []) ->
  HeapSpec.holds m (bl_conf k' ++ at_ :: rb :: map fst keys ++ bl_subs us ++ lost ++ l) ->
  done b q l (set_conf (mkW at_ k rb keys pm root h made us) k') m.
Proof.
  intros -> E OK (_ & W) L H. split; [unfold er_world, set_conf; cbn [w_conf w_pm w_root w_heap w_made]; now rewrite E|].
  split; [exact (conj OK W)|]. exists lost. split; [exact L|]. eapply HeapSpec_perm; [exact H|]. symmetry. exact (world_split at_ k' rb keys pm root h made us (lost ++ l)).
Qed.

Lemma insert_text_ok n w id cs s o b q m l : parse_c s = Ok o ->
  match o with None => Ok (false, er_world w) | Some e => p_insert_expr n (er_world w) id cs e end = Ok (b, q) ->
  roomy (er_conf (w_conf w)) = true -> roomy (p_cfg q) = true -> w_ok w -> HeapSpec.holds m (bl_world w ++ l) ->
  wp (w_insert_text n w id cs s) m (fun x m' => fst x = b /\ done (clean_call n (er_world w) (TInsert id cs s)) q l (snd x) m').
Proof.
  intros P E R R' W H. cbn [clean_call]. rewrite P. destruct w as [at_ k rb keys pm root h made us]. pose proof W as (OK & WH & PR & IK). cbn [w_conf w_heap w_subs w_keys] in *.
  apply (HeapSpec_perm _ _ _) with (2 := world_split at_ k rb keys pm root h made us l) in H. set (F := at_ :: rb :: map fst keys ++ bl_subs us ++ l) in H.
  unfold w_insert_text. cbn [w_at w_conf w_rb w_keys w_pm w_root w_heap w_made w_subs].
  lstep. eapply wp_use; [exact H|apply in_or_app; right; now left|]. lstep. apply (parsing s o m _ _ P H); [intros m1 lost -> H1|intros e m1 -> FU H1].
  { injection E as <- <-. lstep. split; [reflexivity|]. cbn [fst snd]. split; [reflexivity|]. split; [exact W|]. exists lost. split; [discriminate|].
    eapply HeapSpec_perm; [exact H1|]. unfold F. rewrite (world_split at_ k rb keys pm root h made us (lost ++ l)). perm. }
  unfold p_insert_expr in E. cbn [er_world p_cfg p_pm p_root p_heap p_made w_conf w_pm w_root w_heap w_made] in E. cbn [er_world p_cfg w_conf].
  lstep. apply (assign_variable_id_ok k e m1 F); try assumption; [eapply HeapSpec_perm; [exact H1|perm]|].
  intros k2 e2 m2 E2 C2 OK2 FU2 P2 H2. rewrite <- E2 in E |- *. rewrite <- C2 in E. rewrite <- C2. assert (H2' : HeapSpec.holds m2 (bl_conf k2 ++ blocks e2 ++ F)) by (eapply HeapSpec_perm; [exact H2|now rewrite P2]).
  clear H H1 H2. cbv beta iota. bk E ok EV. rewrite EV.
  lstep. apply (conf_read_all_ok k2 m2 _ _ OK2 H2'); [intros z Z; apply in_or_app; now left|].
  lstep. apply (read_ok e2 m2 _ _ H2'); [intros z Z; apply in_or_app; right; apply in_or_app; now left|].
  lstep. eapply wp_fail; [reflexivity|]. destruct ok; cbn [negb] in E |- *.
  2:{ injection E as <- <-. lstep. eapply HeapProofs.free_ok; [exact H2'|instantiate (1 := bl_conf k2 ++ F); perm|]. intros m3 H3. lstep.
      split; [reflexivity|]. cbn [snd]. apply (refused at_ k rb keys pm root h made us k2 _ l []); [unfold er_world; reflexivity|assumption..|reflexivity|exact H3]. }
  lstep. apply (constants_ok cs e2 m2 _ _ FU2 H2'); [intros z Z; apply in_or_app; right; apply in_or_app; now left|].
  intros o3 E3 D3. rewrite <- E3 in E |- *. destruct o3 as [e3|]; cbn [option_map] in E |- *.
  2:{ injection E as <- <-. lstep. split; [reflexivity|]. cbn [snd].
      apply (refused at_ k rb keys pm root h made us k2 _ l (blocks e2)); [reflexivity|assumption..|discriminate|].
      eapply HeapSpec_perm; [exact H2'|]. unfold F. perm. }
  destruct D3 as (FU3 & B3). rewrite <- B3 in H2'. clear E2 P2 FU2 EV E3 B3 e2 FU P e.
  bk E x4 E4. destruct x4 as (e4', c4). bk E x5 E5. destruct x5 as (e5', c5). bk E x6 E6. destruct x6 as (e6', c6). bk E x7 E7. destruct x7 as (e7', pm7). bk E s8 E8.
  destruct (alloc (OSub s8) h) as (x8, h8) eqn:A. bk E h9 E9. injection E as <- <-. cbn [p_cfg] in R'.
  assert (R5 := fix_back _ _ _ _ E6 R'). assert (R4 := ienum_back _ _ _ _ _ E5 R5). rewrite <- C2 in R.
  lstep. apply (assign_str_ok false k2 e3 e4' c4 m2 F _ E4 (roomy_stuck false _ R) R4 OK2 FU3 H2').
  intros k4 e4 m4 X4 C4 OK4 FU4 P4 H4. subst e4' c4. rewrite <- P4 in H4. clear H2'. cbv beta iota.
  lstep. apply (assign_ienum_ok false k4 e4 e5' c5 m4 F _ E5 R5 OK4 FU4 H4).
  intros k5 e5 m5 X5 C5 OK5 FU5 P5 H5. subst e5' c5. rewrite <- P5 in H5. clear H4. cbv beta iota.
  lstep. apply (sort_lists_ok k5 e5 m5 F _ R5 OK5 FU5 H5).
  intros k5' e5' m5' X5 C5 OK5' FU5' P5' H5'. rewrite <- P5' in H5'. clear H5. cbv beta iota. rewrite <- X5, <- C5 in E6.
  lstep. apply (fix_float_ok k5' e5' e6' c6 m5' F _ E6 R' OK5' FU5' H5').
  intros k6 e6 m6 X6 C6 OK6 FU6 P6 H6. subst e6' c6. rewrite <- P6 in H6. clear H5'. cbv beta iota.
  lstep. apply (assign_pred_ok rb e6 pm keys e7' pm7 m6 (bl_conf k6 ++ at_ :: bl_subs us ++ l) (bl_subs us) _ E7).
  { eapply HeapSpec_perm; [exact H6|]. unfold F. perm. }
  { intros z Z. apply in_or_app. right. exact (IK z Z). }
  { intros z Z. apply in_or_app. right. right. apply in_or_app. now left. }
  intros e7 keys7 m7 X7 B7 H7 I7. subst e7'. rewrite <- B7 in H7, I7. clear H6. cbv beta iota.
  lstep. apply (make_sub_ok k6 id e7 s8 h m7 (at_ :: rb :: map fst keys7 ++ bl_subs us ++ l) _ E8 OK6); [eapply HeapSpec_perm; [exact H7|perm]|].
  intros v p f m8 H8. rewrite A. cbn [fst snd]. cbv beta iota. set (u := mkHU e7 v p f) in *.
  assert (PR8 : paired (us ++ [(x8, u)]) h8) by (pose proof (paired_new us h s8 u PR (eq_sym (make_sub_expr_is _ _ _ _ E8))) as Z; now rewrite A in Z).
  assert (W8 : wfh h8) by (pose proof (wfh_new h (OSub s8) WH) as Z; now rewrite A in Z).
  assert (BS : Permutation (bl_subs (us ++ [(x8, u)])) (bl_hsub u ++ bl_subs us)).
  { unfold bl_subs. rewrite flat_map_app. cbn [flat_map snd]. perm. }
  assert (H9 : HeapSpec.holds m8 (bl_world (mkW at_ k6 rb keys7 pm7 root h9 made (us ++ [(x8, u)])) ++ [] ++ l)).
  { eapply HeapSpec_perm; [exact H8|]. symmetry. cbn [app]. etransitivity; [apply (world_split at_ k6 rb keys7 pm7 root h9 made)|]. rewrite BS. perm. }
  lstep. apply (insert_ok n k6 (us ++ [(x8, u)]) x8 root h8 h9 m8 _ _ E9 OK6 H9).
  { intros z Z. eapply Permutation_in; [symmetry; apply world_split|]. apply in_or_app. now left. }
  { intros z Z. eapply Permutation_in; [symmetry; apply world_split|]. apply in_or_app. right. right. right. apply in_or_app. right. apply in_or_app. now left. }
  lstep. split; [reflexivity|]. cbn [snd]. destruct (insert_frame n (er_conf k6) x8 root NULL h8 (conj W8 eq_refl) h9 E9) as (W9 & K9).
  split; [reflexivity|]. split.
  - split; [exact OK6|]. split; [exact W9|]. split; [exact (paired_kept _ _ _ _ (conj W8 eq_refl) (conj W9 K9) PR8)|]. cbn [w_keys w_subs].
    intros z Z. eapply Permutation_in; [symmetry; exact BS|]. specialize (I7 z Z). unfold bl_hsub, u. cbn [hu_expr]. rewrite !in_app_iff in *. tauto.
  - exists []. split; [reflexivity|exact H9].
Qed.

Lemma make_text_ok n w id cs s o b q m l : parse_c s = Ok o ->
  match o with None => Ok (false, er_world w) | Some e => p_make_sub (er_world w) id cs e end = Ok (b, q) ->
  roomy (er_conf (w_conf w)) = true -> roomy (p_cfg q) = true -> w_ok w -> HeapSpec.holds m (bl_world w ++ l) ->
  wp (w_make_text w id cs s) m (fun x m' => fst x = b /\ done (clean_call n (er_world w) (TMake id cs s)) q l (snd x) m').
Proof.
  intros P E R R' W H. cbn [clean_call]. rewrite P. destruct w as [at_ k rb keys pm root h made us]. pose proof W as (OK & WH & PR & IK). cbn [w_conf w_heap w_subs w_keys] in *.
  apply (HeapSpec_perm _ _ _) with (2 := world_split at_ k rb keys pm root h made us l) in H. set (F := at_ :: rb :: map fst keys ++ bl_subs us ++ l) in H.
  unfold w_make_text. cbn [w_at w_conf w_rb w_keys w_pm w_root w_heap w_made w_subs].
  lstep. eapply wp_use; [exact H|apply in_or_app; right; now left|]. lstep. apply (parsing s o m _ _ P H); [intros m1 lost -> H1|intros e m1 -> FU H1].
  { injection E as <- <-. lstep. split; [reflexivity|]. cbn [fst snd]. split; [reflexivity|]. split; [exact W|]. exists lost. split; [discriminate|].
    eapply HeapSpec_perm; [exact H1|]. unfold F. rewrite (world_split at_ k rb keys pm root h made us (lost ++ l)). perm. }
  unfold p_make_sub in E. cbn [er_world p_cfg p_pm p_root p_heap p_made w_conf w_pm w_root w_heap w_made] in E.
  lstep. apply (assign_variable_id_ok k e m1 F); try assumption; [eapply HeapSpec_perm; [exact H1|perm]|].
  intros k2 e2 m2 E2 C2 OK2 FU2 P2 H2. rewrite <- E2 in E. rewrite <- C2 in E. rewrite <- P2 in H2.
  clear H H1. cbv beta iota. bk E ok EV.
  lstep. apply (conf_read_all_ok k2 m2 _ _ OK2 H2); [intros z Z; apply in_or_app; now left|].
  lstep. apply (read_ok e2 m2 _ _ H2); [intros z Z; apply in_or_app; right; apply in_or_app; now left|].
  lstep. eapply wp_fail; [exact EV|]. destruct ok; cbn [negb] in E |- *.
  2:{ injection E as <- <-. lstep. eapply HeapProofs.free_ok; [exact H2|instantiate (1 := bl_conf k2 ++ F); perm|]. intros m3 H3. lstep.
      split; [reflexivity|]. cbn [snd]. apply (refused at_ k rb keys pm root h made us k2 _ l []); [unfold er_world; reflexivity|assumption..|reflexivity|exact H3]. }
  bk E x4 E4. destruct x4 as (e4', c4). bk E x5 E5. destruct x5 as (e5', c5). bk E x6 E6. destruct x6 as (e6', c6). bk E ok EA.
  clear E2 P2 FU EV P e. rewrite <- C2 in R.
  assert (R6 : roomy c6 = true).
  { destruct ok; cbn [negb] in E; [|now injection E as _ <-]. destruct (assign_constants cs e6') as [y|]; [|now injection E as _ <-].
    bk E c7 E7. unfold change_boundaries in E7. bk E7 ds D. injection E7 as <-. bk E x8 E8. destruct x8 as (e8, pm8). bk E s8 E9.
    destruct (alloc (OSub s8) h). injection E as _ <-. exact R'. }
  assert (R5 := fix_back _ _ _ _ E6 R6). assert (R4 := ienum_back _ _ _ _ _ E5 R5).
  lstep. apply (assign_str_ok true k2 e2 e4' c4 m2 F _ E4 (roomy_stuck true _ R) R4 OK2 FU2 H2).
  intros k4 e4 m4 X4 C4 OK4 FU4 P4 H4. subst e4' c4. rewrite <- P4 in H4. clear H2. cbv beta iota.
  lstep. apply (assign_ienum_ok true k4 e4 e5' c5 m4 F _ E5 R5 OK4 FU4 H4).
  intros k5 e5 m5 X5 C5 OK5 FU5 P5 H5. subst e5' c5. rewrite <- P5 in H5. clear H4. cbv beta iota.
  lstep. apply (fix_float_ok k5 e5 e6' c6 m5 F _ E6 R6 OK5 FU5 H5).
  intros k6 e6 m6 X6 C6 OK6 FU6 P6 H6. subst e6' c6. rewrite <- P6 in H6. clear H5. cbv beta iota.
  lstep. apply (conf_read_all_ok k6 m6 _ _ OK6 H6); [intros z Z; apply in_or_app; now left|].
  lstep. apply (read_ok e6 m6 _ _ H6); [intros z Z; apply in_or_app; right; apply in_or_app; now left|].
  lstep. eapply wp_fail; [exact EA|].
  assert (REF : forall m', HeapSpec.holds m' (bl_conf k6 ++ F) ->
    done true (mkP (er_conf k6) pm root h made) l (set_conf (mkW at_ k rb keys pm root h made us) k6) m').
  { intros m' H'. split; [reflexivity|]. split; [exact (conj OK6 (proj2 W))|]. exists []. split; [reflexivity|].
    eapply HeapSpec_perm; [exact H'|]. symmetry. exact (world_split at_ k6 rb keys pm root h made us l). }
  destruct ok; cbn [negb] in E |- *.
  2:{ injection E as <- <-. lstep. eapply HeapProofs.free_ok; [exact H6|instantiate (1 := bl_conf k6 ++ F); perm|]. intros m7 H7. lstep.
      split; [reflexivity|]. exact (REF m7 H7). }
  lstep. apply (constants_ok cs e6 m6 _ _ FU6 H6); [intros z Z; apply in_or_app; right; apply in_or_app; now left|].
  intros o7 E7 D7. rewrite <- E7 in E. destruct o7 as [e7|]; cbn [option_map] in E.
  2:{ injection E as <- <-. lstep. eapply HeapProofs.free_ok; [exact H6|instantiate (1 := bl_conf k6 ++ F); perm|]. intros m7 H7. lstep.
      split; [reflexivity|]. exact (REF m7 H7). }
  destruct D7 as (FU7 & B7). rewrite <- B7 in H6. clear REF.
  lstep. apply (sort_lists_ok k6 e7 m6 F _ R6 OK6 FU7 H6).
  intros k8 e8 m8 X8 C8 OK8 FU8 P8 H8. rewrite <- P8 in H8. clear H6. cbv beta iota. rewrite <- X8, <- C8 in E.
  bk E c9 E9. lstep. apply (change_ok k8 e8 c9 m8 (blocks e8 ++ F) _ E9 OK8 H8); [intros z Z; apply in_or_app; now left|].
  intros k9 C9 OK9 B9. rewrite <- B9 in H8. rewrite <- C9 in E.
  bk E x10 E10. destruct x10 as (e10', pm10). bk E s11 E11. destruct (alloc (OSub s11) h) as (x11, h11) eqn:A. injection E as <- <-.
  lstep. apply (assign_pred_ok rb e8 pm keys e10' pm10 m8 (bl_conf k9 ++ at_ :: bl_subs us ++ l) (bl_subs us) _ E10).
  { eapply HeapSpec_perm; [exact H8|]. unfold F. perm. }
  { intros z Z. apply in_or_app. right. exact (IK z Z). }
  { intros z Z. apply in_or_app. right. right. apply in_or_app. now left. }
  intros e10 keys10 m10 X10 B10 H10 I10. subst e10'. rewrite <- B10 in H10, I10. clear H8. cbv beta iota.
  lstep. apply (make_sub_ok k9 id e10 s11 h m10 (at_ :: rb :: map fst keys10 ++ bl_subs us ++ l) _ E11 OK9); [eapply HeapSpec_perm; [exact H10|perm]|].
  intros v p f m11 H11. rewrite A. cbn [fst snd]. cbv beta iota. set (u := mkHU e10 v p f) in *. lstep. split; [reflexivity|]. cbn [snd].
  assert (BS : Permutation (bl_subs (us ++ [(x11, u)])) (bl_hsub u ++ bl_subs us)).
  { unfold bl_subs. rewrite flat_map_app. cbn [flat_map snd]. perm. }
  split; [reflexivity|]. split.
  - split; [exact OK9|]. split; [pose proof (wfh_new h (OSub s11) WH) as Z; now rewrite A in Z|].
    split; [pose proof (paired_new us h s11 u PR (eq_sym (make_sub_expr_is _ _ _ _ E11))) as Z; now rewrite A in Z|]. cbn [w_keys w_subs].
    intros z Z. eapply Permutation_in; [symmetry; exact BS|]. specialize (I10 z Z). unfold bl_hsub, u. cbn [hu_expr]. rewrite !in_app_iff in *. tauto.
  - exists []. split; [reflexivity|]. eapply HeapSpec_perm; [exact H11|]. symmetry. cbn [app]. etransitivity; [apply (world_split at_ k9 rb keys10 pm10 root h11)|]. rewrite BS. perm.
Qed.

Lemma change_text_ok n w s o b q m l : parse_c s = Ok o ->
  match o with None => Ok (false, er_world w) | Some e => bind (p_change (er_world w) e) (fun q => Ok (true, q)) end = Ok (b, q) ->
  roomy (er_conf (w_conf w)) = true -> roomy (p_cfg q) = true -> w_ok w -> HeapSpec.holds m (bl_world w ++ l) ->
  wp (w_change_text w s) m (fun x m' => fst x = b /\ done (clean_call n (er_world w) (TChange s)) q l (snd x) m').
Proof.
  intros P E R R' W H. cbn [clean_call]. rewrite P. destruct w as [at_ k rb keys pm root h made us]. pose proof W as (OK & WH & PR & IK). cbn [w_conf w_heap w_subs w_keys] in *.
  apply (HeapSpec_perm _ _ _) with (2 := world_split at_ k rb keys pm root h made us l) in H. set (F := at_ :: rb :: map fst keys ++ bl_subs us ++ l) in H.
  unfold w_change_text. cbn [w_at w_conf w_rb w_keys w_pm w_root w_heap w_made w_subs].
  lstep. eapply wp_use; [exact H|apply in_or_app; right; now left|]. lstep. apply (parsing s o m _ _ P H); [intros m1 lost -> H1|intros e m1 -> FU H1].
  { injection E as <- <-. lstep. split; [reflexivity|]. cbn [fst snd]. split; [reflexivity|]. split; [exact W|]. exists lost. split; [discriminate|].
    eapply HeapSpec_perm; [exact H1|]. unfold F. rewrite (world_split at_ k rb keys pm root h made us (lost ++ l)). perm. }
  bk E q0 E0. injection E as <- <-. rename E0 into E.
  unfold p_change in E. cbn [er_world p_cfg p_pm p_root p_heap p_made w_conf w_pm w_root w_heap w_made] in E.
  lstep. apply (assign_variable_id_ok k e m1 F); try assumption; [eapply HeapSpec_perm; [exact H1|perm]|].
  intros k2 e2 m2 E2 C2 OK2 FU2 P2 H2. rewrite <- E2 in E. rewrite <- C2 in E. rewrite <- P2 in H2.
  clear H H1. cbv beta iota.
  bk E x4 E4. destruct x4 as (e4', c4). bk E x5 E5. destruct x5 as (e5', c5). bk E x6 E6. destruct x6 as (e6', c6). bk E c7 E7. injection E as <-. cbn [p_cfg] in R'.
  clear E2 P2 FU P e. rewrite <- C2 in R.
  assert (R6 : roomy c6 = true). { pose proof E7 as X. unfold change_boundaries in X. bk X ds D. injection X as <-. exact R'. }
  assert (R5 := fix_back _ _ _ _ E6 R6). assert (R4 := ienum_back _ _ _ _ _ E5 R5).
  lstep. apply (assign_str_ok true k2 e2 e4' c4 m2 F _ E4 (roomy_stuck true _ R) R4 OK2 FU2 H2).
  intros k4 e4 m4 X4 C4 OK4 FU4 P4 H4. subst e4' c4. rewrite <- P4 in H4. clear H2. cbv beta iota.
  lstep. apply (assign_ienum_ok true k4 e4 e5' c5 m4 F _ E5 R5 OK4 FU4 H4).
  intros k5 e5 m5 X5 C5 OK5 FU5 P5 H5. subst e5' c5. rewrite <- P5 in H5. clear H4. cbv beta iota.
  lstep. apply (sort_lists_ok k5 e5 m5 F _ R5 OK5 FU5 H5).
  intros k5' e5' m5' X5 C5 OK5' FU5' P5' H5'. rewrite <- P5' in H5'. clear H5. cbv beta iota. rewrite <- X5, <- C5 in E6.
  lstep. apply (fix_float_ok k5' e5' e6' c6 m5' F _ E6 R6 OK5' FU5' H5').
  intros k6 e6 m6 X6 C6 OK6 FU6 P6 H6. subst e6' c6. rewrite <- P6 in H6. clear H5'. cbv beta iota.
  lstep. apply (change_ok k6 e6 c7 m6 (blocks e6 ++ F) _ E7 OK6 H6); [intros z Z; apply in_or_app; now left|].
  intros k7 C7 OK7 B7. rewrite <- B7 in H6. lstep. eapply HeapProofs.free_ok; [exact H6|instantiate (1 := bl_conf k7 ++ F); perm|]. intros m8 H8. lstep.
  split; [reflexivity|]. cbn [snd]. split; [unfold er_world, set_conf; cbn [w_conf w_pm w_root w_heap w_made]; now rewrite C7|]. split; [exact (conj OK7 (proj2 W))|]. exists []. split; [reflexivity|].
  eapply HeapSpec_perm; [exact H8|]. symmetry. exact (world_split at_ k7 rb keys pm root h made us l).
Qed.

Lemma insert_made_ok n w i q m l : p_insert_made n (er_world w) i = Ok q -> w_ok w -> HeapSpec.holds m (bl_world w ++ l) ->
  wp (w_insert_made n w i) m (done true q l).
Proof.
  intros E W H. destruct w as [at_ k rb keys pm root h made us]. pose proof W as (OK & WH & PR & IK). cbn [w_conf w_heap w_subs w_keys] in *.
  unfold p_insert_made in E. cbn [er_world p_cfg p_pm p_root p_heap p_made w_conf w_pm w_root w_heap w_made] in E.
  unfold w_insert_made. cbn [w_at w_conf w_rb w_keys w_pm w_root w_heap w_made w_subs].
  lstep. eapply wp_use; [exact H|now left|]. destruct (nth_error made i) as [x|]; [|discriminate]. bk E h' E'. injection E as <-.
  lstep. apply (insert_ok n k us x root h h' m _ _ E' OK H).
  { intros z Z. eapply Permutation_in; [symmetry; apply world_split|]. apply in_or_app. now left. }
  { intros z Z. eapply Permutation_in; [symmetry; apply world_split|]. apply in_or_app. right. right. right. apply in_or_app. right. apply in_or_app. now left. }
  lstep. destruct (insert_frame n (er_conf k) x root NULL h (conj WH eq_refl) h' E') as (W' & K').
  split; [reflexivity|]. split.
  - split; [exact OK|]. split; [exact W'|]. split; [exact (paired_kept _ _ _ _ (conj WH eq_refl) (conj W' K') PR)|exact IK].
  - exists []. split; [reflexivity|exact H].
Qed.

Lemma world_declare_ok w d m l : w_ok w -> HeapSpec.holds m (bl_world w ++ l) ->
  wp (on k <- k_declare (w_conf w) d; ret (RNone, set_conf w k))%led m
    (fun x m' => fst x = RNone /\ done true (mkP (add_domain (er_conf (w_conf w)) d) (w_pm w) (w_root w) (w_heap w) (w_made w)) l (snd x) m').
Proof.
  intros W H. destruct w as [at_ k rb keys pm root h made us]. pose proof W as (OK & WH & PR & IK). cbn [w_conf w_pm w_root w_heap w_made w_subs w_keys] in *.
  apply (HeapSpec_perm _ _ _) with (2 := world_split at_ k rb keys pm root h made us l) in H. lstep.
  apply (declare_ok k d m _ _ OK H). intros k' m' C' OK' H'. lstep. split; [reflexivity|]. cbn [snd].
  split; [unfold er_world, set_conf; cbn [w_conf w_pm w_root w_heap w_made]; now rewrite C'|]. split; [exact (conj OK' (proj2 W))|]. exists []. split; [reflexivity|].
  eapply HeapSpec_perm; [exact H'|]. symmetry. exact (world_split at_ k' rb keys pm root h made us l).
Qed.

Lemma empty_ok n w q m l : p_empty n (er_world w) = Ok q -> w_ok w -> HeapSpec.holds m (bl_world w ++ l) -> wp (w_empty n w) m (done true q l).
Proof.
  intros E W H. destruct w as [at_ k rb keys pm root h made us]. pose proof W as (OK & WH & PR & IK). cbn [w_conf w_heap w_subs w_keys] in *.
  apply (HeapSpec_perm _ _ _) with (2 := world_split at_ k rb keys pm root h made us l) in H.
  unfold p_empty in E. cbn [er_world p_cfg p_pm p_root p_heap p_made w_conf w_pm w_root w_heap w_made] in E.
  bk E h1 E1. bk E x2 E2. destruct x2 as (a2, h2). injection E as <-.
  unfold w_empty. cbn [w_at w_conf w_rb w_keys w_pm w_root w_heap w_made w_subs].
  lstep. eapply wp_use; [exact H|apply in_or_app; right; now left|]. lstep.
  set (F := at_ :: rb :: map fst keys ++ bl_conf k ++ l).
  apply (proj1 (frees_nodes F n) root h us m h1 _ E1 WH PR); [eapply HeapSpec_perm; [exact H|unfold F; perm]|].
  intros us1 m1 W1 PR1 H1. cbv beta iota. lstep. eapply wp_use; [exact H1|unfold F, bl_conf; apply in_or_app; right; right; right; apply in_or_app; right; now left|].
  lstep. eapply wp_fail; [exact E2|]. cbv beta iota. destruct (new_cnode_frame (er_conf k) NULL h1 (conj W1 eq_refl) _ E2) as (W2 & K2). cbn [snd] in W2, K2.
  lstep. apply (free_keys_ok rb keys m1 _ (bl_subs us1 ++ at_ :: bl_conf k ++ l) _ H1); [unfold F; perm|]. intros m2 H2.
  set (REST := bl_arr (k_doms k) (k_doms_at k) ++ flat_map bl_kdom (k_doms k)
  ++ bl_arr (k_strs k) (k_strs_at k) ++ flat_map bl_kstrs (k_strs k)
  ++ bl_arr (k_ints k) (k_ints_at k) ++ flat_map bl_kints (k_ints k)).
  assert (B : bl_conf k = k_at k :: k_pm k :: REST) by reflexivity. rewrite B in H2.
  lstep. eapply wp_free; [exact H2|instantiate (1 := bl_subs us1 ++ at_ :: k_at k :: REST ++ l); perm|]. intros m3 H3.
  lstep. eapply wp_malloc; [exact H3|]. intros p m4 _ H4. lstep. eapply wp_malloc; [exact H4|]. intros rb' m5 _ H5. lstep.
  split; [reflexivity|]. split.
  - split; [|split; [exact W2|split; [|intros z []]]]; [destruct OK as (O1 & O2); exact (conj O1 O2)|].
    exact (paired_kept _ _ _ _ (conj W1 eq_refl) (conj W2 K2) PR1).
  - exists []. split; [reflexivity|]. cbn [app]. eapply HeapSpec_perm; [exact H5|]. symmetry. etransitivity; [apply world_split|].
    match goal with |- Permutation (bl_conf ?x ++ _) _ => change (bl_conf x) with (k_at k :: p :: REST) end. cbn [map app]. perm.
Qed.

(** The index is searched in memory. *)
Lemma search_text_ok n w text ev b r1 r m l : event_parse_c text = Ok (Some ev) ->
  p_query n (er_world w) (map (fun p => (fst p, Some (snd p))) ev) (hp_report r) = Ok (b, r1) -> w_ok w ->
  HeapSpec.holds m (bl_report r ++ bl_world w ++ l) -> report_ok r ->
  wp (w_search_text n w text r) m (fun y m' => fst y = b /\ hp_report (snd y) = r1 /\ report_ok (snd y) /\
    exists lost, kept_env b lost /\ HeapSpec.holds m' (lost ++ bl_report (snd y) ++ bl_world w ++ l)).
Proof.
  intros P E W H Ro. destruct w as [at_ k rb keys pm root h made us]. pose proof W as (OK & WH & PR & IK). cbn [w_conf w_heap w_subs w_keys] in *.
  set (W0 := mkW at_ k rb keys pm root h made us) in *. set (L := bl_world W0 ++ l) in *.
  assert (IL : incl (bl_conf k) L /\ incl (bl_subs us) L /\ In at_ L).
  { split; [|split; [|now left]]; intros z Z; (eapply Permutation_in; [symmetry; apply world_split|]); rewrite !in_app_iff; cbn [In]; rewrite !in_app_iff; tauto. }
  destruct IL as (IL1 & IL2 & IL3).
  unfold w_search_text. cbn [W0 w_at w_conf w_rb w_keys w_pm w_root w_heap w_made w_subs].
  lstep. eapply wp_use; [exact H|apply in_or_app; now right|]. lstep. apply (conf_read_all_ok k m _ _ OK H); [intros z Z; apply in_or_app; right; now apply IL1|].
  lstep. apply (read_subs_ok us m _ _ H); [intros z Z; apply in_or_app; right; now apply IL2|].
  set (c := er_conf k). unfold p_query in E. cbn [er_world W0 p_cfg p_pm p_root p_heap p_made w_conf w_pm w_root w_heap w_made] in E. fold c in E.
  refine (sim_ok (bind (event_parse_c text) (fun o => match o with None => Abort | Some b =>
         bind (fill_object c (map Some b) (repeat None (List.length (c_domains c)))) (fun x =>
           let p := snd x in
           bind (if negb (validate_variables (c_domains c) p) then Ok (false, hp_report r) else
             bind (p_match n (c_domains c) p root h) (fun a => bind (get_subs h a) (fun subs =>
             bind (search_loop p (pm_mids pm) (make_undefined p) subs (make_memoize (pm_mcount pm) (r_memoized (hp_report r))) (hp_report r)) (fun r' => Ok (true, r')))))
           (fun y => Ok y)) end)) _ m (fun x y m' => fst y = fst x /\ hp_report (snd y) = snd x /\ report_ok (snd y) /\
      exists lost, kept_env (fst x) lost /\ HeapSpec.holds m' (lost ++ bl_report (snd y) ++ L)) (b, r1) _ _).
  2:{ rewrite P. cbn [bind]. unfold make_env in E. rewrite <- vars_some, fill_object_env in E. fold c in E.
      destruct (fill_object c _ _) as [[e' p']| | |]; try discriminate E. cbn [bind snd] in E |- *. destruct (negb _); cbn [bind]; [exact E|].
      destruct (p_match n (c_domains c) p' root h) as [a| | |]; try discriminate E. cbn [bind] in E |- *.
      destruct (get_subs h a) as [subs| | |]; try discriminate E. cbn [bind] in E |- *.
      destruct (search_loop _ _ _ _ _ _) as [r'| | |]; try discriminate E. exact E. }
  apply (event_from_string_sim c text m _ _ _ _ H). intros e1 m1 H1. cbn [snd].
  apply sim_step. eapply wp_mono; [exact (make_environment_ok c e1 m1 _ H1)|]. intros [a p'] m2 (Ep & H2). cbn [fst snd] in Ep, H2. subst p'. cbv beta iota.
  set (p := env_of (List.length (c_domains c)) (he_vars e1)) in *.
  eapply sim_then with (P := fun x y m' => exists lost, fst y = fst x /\ hp_report (snd y) = snd x /\ kept_env (fst y) lost /\ report_ok (snd y) /\
    HeapSpec.holds m' (lost ++ bl_event e1 ++ bl_report (snd y) ++ L)).
  - destruct (negb _).
    + cbn [sim]. lstep. exists [a]. repeat (split; [first [reflexivity|exact Ro|now exists a]|]). exact H2.
    + apply sim_step. eapply wp_malloc; [exact H2|]. intros a0 m3 _ H3. apply sim_step. eapply wp_malloc; [exact H3|]. intros a1 m4 _ H4.
      apply sim_step. eapply wp_malloc; [exact H4|]. intros a2 m5 _ H5. apply sim_step. eapply wp_malloc; [exact H5|]. intros a3 m6 _ H6. clear H3 H4 H5.
      apply sim_pure. intros cand _. apply sim_pure. intros subs _. apply sim_step.
      eapply wp_mono; [exact (candidates_ok subs a3 10 0 m6 _ H6)|]. intros s m7 H7.
      eapply sim_then; [apply (search_loop_sim [s; a0; a1; a2; a] e1 p (pm_mids pm) (make_undefined p) subs _ r m7 (s :: a2 :: a1 :: a0 :: a :: bl_event e1 ++ L))|].
      * eapply HeapSpec_perm; [exact H7|perm].
      * intros x. cbn [In]. tauto.
      * intros x I. do 5 right. apply in_or_app. left. now apply event_reads_in.
      * exact Ro.
      * intros x y m8 (Ex & Ry & H8). cbn [sim].
        lstep. eapply wp_free; [exact H8|instantiate (1 := a1 :: a2 :: a0 :: a :: bl_event e1 ++ bl_report y ++ L); perm|]. intros m9 H9.
        lstep. eapply wp_free; [exact H9|reflexivity|]. intros m10 H10. lstep. eapply wp_free; [exact H10|reflexivity|]. intros m11 H11.
        lstep. eapply wp_free; [exact H11|reflexivity|]. intros m12 H12. lstep. eapply wp_free; [exact H12|reflexivity|]. intros m13 H13. lstep.
        exists []. repeat (split; [first [reflexivity|exact Ry|exact Ex]|]). exact H13.
  - intros [b1 x] [b' y] m3 (lost & Eb & Er & Kl & Ry & H3). cbn [fst snd] in *. subst b' x. cbn [sim]. cbv beta iota. lstep.
    eapply free_event_ok with (l' := lost ++ bl_report y ++ L); [exact H3|perm|]. intros m4 H4. lstep.
    repeat (split; [first [reflexivity|exact Ry]|]). now exists lost.
Qed.
Lemma exists_text_ok n w text ev b m l : event_parse_c text = Ok (Some ev) ->
  p_exists n (er_world w) (map (fun p => (fst p, Some (snd p))) ev) = Ok b -> w_ok w -> HeapSpec.holds m (bl_world w ++ l) ->
  wp (w_exists_text n w text) m (fun y m' => y = b /\ HeapSpec.holds m' (bl_world w ++ l)).
Proof.
  intros P E W H. destruct w as [at_ k rb keys pm root h made us]. pose proof W as (OK & WH & PR & IK). cbn [w_conf w_heap w_subs w_keys] in *.
  set (W0 := mkW at_ k rb keys pm root h made us) in *. set (L := bl_world W0 ++ l) in *.
  assert (IL : incl (bl_conf k) L /\ incl (bl_subs us) L /\ In at_ L).
  { split; [|split; [|now left]]; intros z Z; (eapply Permutation_in; [symmetry; apply world_split|]); rewrite !in_app_iff; cbn [In]; rewrite !in_app_iff; tauto. }
  destruct IL as (IL1 & IL2 & IL3).
  unfold w_exists_text. cbn [W0 w_at w_conf w_rb w_keys w_pm w_root w_heap w_made w_subs].
  lstep. eapply wp_use; [exact H|exact IL3|]. lstep. apply (conf_read_all_ok k m _ _ OK H IL1). lstep. apply (read_subs_ok us m _ _ H IL2).
  set (c := er_conf k). unfold p_exists in E. cbn [er_world W0 p_cfg p_pm p_root p_heap p_made w_conf w_pm w_root w_heap w_made] in E. fold c in E.
  refine (sim_ok (bind (event_parse_c text) (fun o => match o with None => Abort | Some b =>
         bind (fill_object c (map Some b) (repeat None (List.length (c_domains c)))) (fun x =>
           let p := snd x in
             bind (p_match n (c_domains c) p root h) (fun a => bind (get_subs h a) (fun subs =>
             bind (exists_loop p (pm_mids pm) (make_undefined p) subs (make_memoize (pm_mcount pm) 0)) (fun y => Ok y)))) end))
      _ m (fun x y m' => y = x /\ HeapSpec.holds m' L) b _ _).
  2:{ rewrite P. cbn [bind]. unfold make_env in E. rewrite <- vars_some, fill_object_env in E. fold c in E.
      destruct (fill_object c _ _) as [[e' p']| | |]; try discriminate E. cbn [bind snd] in E |- *.
      destruct (p_match n (c_domains c) p' root h) as [a| | |]; try discriminate E. cbn [bind] in E |- *.
      destruct (get_subs h a) as [subs| | |]; try discriminate E. cbn [bind] in E |- *. rewrite E. reflexivity. }
  apply (event_from_string_sim c text m _ _ _ _ H). intros e1 m1 H1. cbn [snd].
  apply sim_step. eapply wp_mono; [exact (make_environment_ok c e1 m1 _ H1)|]. intros [a p'] m2 (Ep & H2). cbn [fst snd] in Ep, H2. subst p'. cbv beta iota.
  set (p := env_of (List.length (c_domains c)) (he_vars e1)) in *.
  apply sim_step. eapply wp_malloc; [exact H2|]. intros a0 m3 _ H3. apply sim_step. eapply wp_malloc; [exact H3|]. intros a1 m4 _ H4.
  apply sim_step. eapply wp_malloc; [exact H4|]. intros a2 m5 _ H5. apply sim_step. eapply wp_malloc; [exact H5|]. intros a3 m6 _ H6. clear H3 H4 H5.
  apply sim_pure. intros cand _. apply sim_pure. intros subs _. apply sim_step.
  eapply wp_mono; [exact (candidates_ok subs a3 10 0 m6 _ H6)|]. intros s m7 H7.
  eapply sim_then; [apply (exists_loop_sim [s; a0; a1; a2; a] e1 p (pm_mids pm) (make_undefined p) subs _ m7 (s :: a2 :: a1 :: a0 :: a :: bl_event e1 ++ L))|].
  - eapply HeapSpec_perm; [exact H7|perm].
  - intros x. cbn [In]. tauto.
  - intros x I. do 5 right. apply in_or_app. left. now apply event_reads_in.
  - intros x y m8 (-> & H8). cbn [sim].
    lstep. eapply wp_free; [exact H8|instantiate (1 := a1 :: a2 :: a0 :: a :: bl_event e1 ++ L); perm|]. intros m9 H9.
    lstep. eapply wp_free; [exact H9|reflexivity|]. intros m10 H10. lstep. eapply wp_free; [exact H10|reflexivity|]. intros m11 H11.
    lstep. eapply wp_free; [exact H11|reflexivity|]. intros m12 H12. lstep. eapply wp_free; [exact H12|reflexivity|]. intros m13 H13. lstep.
    eapply free_event_ok with (l' := L); [exact H13|reflexivity|]. intros m14 H14. lstep. now split.
Qed.

(** One call. *)
Lemma call_ok n w k a q m l : m_call n (er_world w) k = Ok (a, q) -> roomy (er_conf (w_conf w)) = true -> roomy (p_cfg q) = true ->
  w_ok w -> HeapSpec.holds m (bl_world w ++ l) ->
  wp (w_call n w k) m (fun x m' => fst x = a /\ done (clean_call n (er_world w) k) q l (snd x) m').
Proof.
  intros E R R' W H. destruct k as [id cs s|id cs s|i|s|d| |s|s]; cbn [w_call].
  - cbn [m_call] in E. bk E o P. assert (D : exists b, match o with None => Ok (false, er_world w) | Some e => p_insert_expr n (er_world w) id cs e end = Ok (b, q) /\ a = RBool b).
    { destruct o as [e|]; [|injection E as <- <-; now exists false]. cbn [p_call] in E. bk E x X. destruct x as (b, q'). injection E as <- <-. now exists b. }
    destruct D as (b & D & ->). lstep. eapply wp_mono; [exact (insert_text_ok n w id cs s o b q m l P D R R' W H)|]. intros [b' w'] m' (<- & X). cbv beta iota. lstep. now split.
  - cbn [m_call] in E. bk E o P. assert (D : exists b, match o with None => Ok (false, er_world w) | Some e => p_make_sub (er_world w) id cs e end = Ok (b, q) /\ a = RBool b).
    { destruct o as [e|]; [|injection E as <- <-; now exists false]. cbn [p_call] in E. bk E x X. destruct x as (b, q'). injection E as <- <-. now exists b. }
    destruct D as (b & D & ->). lstep. eapply wp_mono; [exact (make_text_ok n w id cs s o b q m l P D R R' W H)|]. intros [b' w'] m' (<- & X). cbv beta iota. lstep. now split.
  - cbn [m_call p_call] in E. bk E q' P. injection E as <- <-. lstep. eapply wp_mono; [exact (insert_made_ok n w i q' m l P W H)|]. intros w' m' X. lstep. now split.
  - cbn [m_call] in E. bk E o P. assert (D : exists b, match o with None => Ok (false, er_world w) | Some e => bind (p_change (er_world w) e) (fun q => Ok (true, q)) end = Ok (b, q) /\ a = RBool b).
    { destruct o as [e|]; [|injection E as <- <-; now exists false]. cbn [p_call] in E. bk E x X. destruct x as (b, q'). injection E as <- <-. exists true.
      bk X q1 X1. injection X as <- <-. rewrite X1. now split. }
    destruct D as (b & D & ->). lstep. eapply wp_mono; [exact (change_text_ok n w s o b q m l P D R R' W H)|]. intros [b' w'] m' (<- & X). cbv beta iota. lstep. now split.
  - cbn [m_call p_call] in E. injection E as <- <-. exact (world_declare_ok w d m l W H).
  - cbn [m_call p_call] in E. bk E q' P. injection E as <- <-. lstep. eapply wp_mono; [exact (empty_ok n w q' m l P W H)|]. intros w' m' X. lstep. now split.
  - pose proof E as E'. cbn [m_call] in E. bk E o P. destruct o as [ev|]; [|discriminate]. cbn [p_call] in E. bk E x X. destruct x as (b, r). injection E as <- <-.
    unfold h_make_report. lstep. lstep. eapply wp_malloc; [exact H|]. intros a m1 _ H1. lstep. lstep.
    eapply wp_mono; [apply (search_text_ok n w s ev b r (mkHR a 0 make_report) m1 l P X W)|].
    { exact H1. }
    { split; [cbn; lia|now cbn]. }
    intros [b' y] m2 (Eb & Er & Ry & lost & KE & H2). cbn [fst snd] in *. subst b' r. cbv beta iota zeta. unfold h_free_report.
    lstep. lstep. eapply wp_use; [exact H2|apply in_or_app; right; now left|]. lstep.
    unfold bl_report in H2. eapply wp_free_opt with (l' := hp_at y :: lost ++ bl_world w ++ l); [exact H2|perm|]. intros m3 H3. eapply wp_free; [exact H3|reflexivity|]. intros m4 H4. lstep.
    split; [reflexivity|]. cbn [snd]. split; [reflexivity|]. split; [exact W|]. exists lost. split.
    + cbn [clean_call]. rewrite E'. intros ->. exact KE.
    + eapply HeapSpec_perm; [exact H4|perm].
  - cbn [m_call] in E. bk E o P. destruct o as [ev|]; [|discriminate]. cbn [p_call] in E. bk E b X. injection E as <- <-.
    lstep. eapply wp_mono; [exact (exists_text_ok n w s ev b m l P X W H)|]. intros b' m' (-> & H'). lstep. split; [reflexivity|]. split; [reflexivity|]. split; [exact W|].
    exists []. split; [reflexivity|exact H'].
Qed.

(** A program. *)
Lemma run_ok n : forall t w r q m l, m_run n (er_world w) t = Ok (r, q) -> roomy_run n (er_world w) t = true -> w_ok w -> HeapSpec.holds m (bl_world w ++ l) ->
  wp (w_run n w t) m (fun x m' => fst x = r /\ done (clean_run n (er_world w) t) q l (snd x) m').
Proof.
  induction t as [|k t IH]; intros w r q m l E R W H; cbn [m_run w_run roomy_run clean_run] in *.
  - injection E as <- <-. lstep. split; [reflexivity|]. split; [reflexivity|]. split; [exact W|]. exists []. split; [reflexivity|exact H].
  - apply andb_true_iff in R. destruct R as (R & R'). bk E x1 E1. destruct x1 as (a, q1). rewrite E1 in R' |- *.
    assert (R1 : roomy (p_cfg q1) = true) by (destruct t; apply andb_true_iff in R'; exact (proj1 R')).
    lstep. eapply wp_mono; [exact (call_ok n w k a q1 m l E1 R R1 W H)|]. intros [a' w1] m1 (<- & E2 & W1 & lost & L1 & H1). cbn [fst snd] in *. cbv beta iota.
    bk E x2 E3. destruct x2 as (r2, q2). injection E as <- <-. rewrite <- E2 in E3, R' |- *.
    lstep. eapply wp_mono; [exact (IH w1 r2 q2 m1 (lost ++ l) E3 R' W1 H1)|]. intros [r' w2] m2 (<- & E4 & W2 & lost2 & L2 & H2). cbn [fst snd] in *. cbv beta iota. lstep.
    split; [reflexivity|]. split; [exact E4|]. split; [exact W2|]. exists (lost2 ++ lost). split.
    + intros C. apply andb_true_iff in C. destruct C as (C1 & C2). now rewrite (L1 C1), (L2 C2).
    + cbn [snd]. eapply HeapSpec_perm; [exact H2|perm].
Qed.

(** Releasing the tree. *)
Lemma world_free_ok n w h m l : p_free n (er_world w) = Ok h -> w_ok w -> HeapSpec.holds m (bl_world w ++ l) ->
  wp (w_free n w) m (fun x m' => fst x = h /\ paired (snd x) h /\ HeapSpec.holds m' (bl_subs (snd x) ++ l)).
Proof.
  intros E W H. destruct w as [at_ k rb keys pm root h0 made us]. pose proof W as (OK & WH & PR & IK). cbn [w_conf w_heap w_subs w_keys] in *.
  apply (HeapSpec_perm _ _ _) with (2 := world_split at_ k rb keys pm root h0 made us l) in H.
  unfold p_free in E. cbn [er_world p_cfg p_pm p_root p_heap p_made w_conf w_pm w_root w_heap w_made] in E.
  unfold w_free. cbn [w_at w_conf w_rb w_keys w_pm w_root w_heap w_made w_subs].
  lstep. eapply wp_use; [exact H|apply in_or_app; right; now left|]. lstep.
  apply (proj1 (frees_nodes (at_ :: rb :: map fst keys ++ bl_conf k ++ l) n) root h0 us m h _ E WH PR); [eapply HeapSpec_perm; [exact H|perm]|].
  intros us1 m1 W1 PR1 H1. lstep. apply (free_keys_ok rb keys m1 _ (bl_conf k ++ at_ :: bl_subs us1 ++ l) _ H1); [perm|]. intros m2 H2.
  lstep. apply (conf_free_ok k m2 _ _ OK H2). intros m3 H3. lstep. eapply wp_free; [exact H3|reflexivity|]. intros m4 H4. lstep. cbn [fst snd]. now split; [|split].
Qed.

(** A new tree. *)
Lemma declare_all_ok ds : forall k m l (Q : kconf -> ledger -> Prop), conf_ok k -> HeapSpec.holds m (bl_conf k ++ l) ->
  (forall k' m', er_conf k' = fold_left add_domain ds (er_conf k) -> conf_ok k' -> HeapSpec.holds m' (bl_conf k' ++ l) -> Q k' m') -> wp (w_declare_all k ds) m Q.
Proof.
  induction ds as [|d t IH]; intros k m l Q OK H HQ; cbn [w_declare_all]; [lstep; now apply HQ|]. lstep. apply (declare_ok k d m l _ OK H).
  intros k1 m1 E1 OK1 H1. apply (IH k1 m1 l Q OK1 H1). intros k2 m2 E2. apply HQ. cbn [fold_left]. now rewrite <- E1.
Qed.
Lemma add_all ds : forall c, fold_left add_domain ds c = set_domains c (c_domains c ++ ds).
Proof.
  induction ds as [|d t IH]; intros c; cbn [fold_left]; [rewrite app_nil_r; now destruct c|]. rewrite IH. unfold add_domain, set_domains. cbn. now rewrite <- app_assoc.
Qed.
Lemma world_make_ok cap minpart maxsplit ds q m l : p_make_tree cap minpart maxsplit ds = Ok q -> HeapSpec.holds m l ->
  wp (w_make cap minpart maxsplit ds) m (done true q l).
Proof.
  intros E H. unfold p_make_tree in E. bk E x1 E1. destruct x1 as (r, h). injection E as <-.
  unfold w_make. lstep. apply (HeapConfProofs.make_ok cap minpart m l _ H). intros k m1 C1 OK1 H1.
  lstep. eapply wp_malloc; [exact H1|]. intros rb m2 _ H2. lstep. eapply wp_malloc; [exact H2|]. intros a m3 _ H3.
  lstep. eapply wp_fail; [rewrite C1; exact E1|]. cbv beta iota zeta.
  set (k0 := mkKC _ _ _ _ _ _ _ _ _ _ _).
  assert (B0 : bl_conf k0 = bl_conf k) by reflexivity. assert (OK0 : conf_ok k0) by exact OK1.
  lstep. apply (declare_all_ok ds k0 m3 (a :: rb :: l) _ OK0); [eapply HeapSpec_perm; [exact H3|rewrite B0; perm]|].
  intros k1 m4 C4 OK4 H4. lstep.
  assert (W1 : LinkedFrame.kept [] h).
  { refine (proj1 (conj (new_cnode_frame _ NULL (mkH 1 []) _ _ E1) I)). split; [|reflexivity]. repeat split; constructor. }
  destruct W1 as (W1 & K1). split; [|split].
  - unfold er_world. cbn [w_conf w_pm w_root w_heap w_made]. rewrite C4, add_all.
    assert (C0 : er_conf k0 = mkC (c_domains (er_conf k)) (c_cap (er_conf k)) (c_minpart (er_conf k)) maxsplit (c_strs (er_conf k)) (c_ints (er_conf k))) by reflexivity.
    rewrite C0, C1. reflexivity.
  - split; [exact OK4|]. split; [exact W1|]. split; [|intros z []]. unfold paired, sview. cbn [w_subs w_heap]. rewrite K1. constructor.
  - exists []. split; [reflexivity|]. eapply HeapSpec_perm; [exact H4|]. symmetry. cbn [app]. etransitivity; [apply world_split|]. cbn [map app bl_subs flat_map]. perm.
Qed.
End WithGeo.
