(** Calls with texts are the calls with the source expressions and events the texts spell. *)
From Coq Require Import ZArith NArith String Bool List.
From Verif Require Import Base Float Value Ast Config Assign Special Match Bound Tree PredMap Source Api Spec TreeSpec Hist.
From Verif Require Import Lexer LexSpec LexProofs TextProofs Grammar EventText EventGrammar TextApi TextHist.
From Verif Require Parser ParseProofs EventProofs.
Import ListNotations.

Lemma parse_reads s e : Parser.parse s = Some e <-> reads s e.
Proof.
  unfold Parser.parse, reads. split.
  - intros H. exists (lex s). split; [now apply lex_iff|now apply ParseProofs.parse_tokens_iff].
  - intros (ts & Hl & Hd). apply lex_iff in Hl. rewrite Hl. now apply ParseProofs.parse_tokens_iff.
Qed.
Lemma parse_unread s : Parser.parse s = None <-> forall e, ~ reads s e.
Proof.
  split.
  - intros H e He. apply parse_reads in He. congruence.
  - intros H. destruct (Parser.parse s) as [e|] eqn:E; [|easy]. apply parse_reads in E. now apply H in E.
Qed.
Lemma parse_reads_event s ev : event_parse s = Some ev <-> reads_event s ev.
Proof.
  unfold event_parse, reads_event. rewrite EventProofs.event_tokens_iff. split.
  - intros (l & H & ->). exists (elex s), l. split; [now apply elex_iff|easy].
  - intros (ts & l & Hl & H & ->). apply elex_iff in Hl. rewrite Hl. now exists l.
Qed.
Lemma parse_unread_event s : event_parse s = None <-> forall ev, ~ reads_event s ev.
Proof.
  split.
  - intros H e He. apply parse_reads_event in He. congruence.
  - intros H. destruct (event_parse s) as [e|] eqn:E; [|easy]. apply parse_reads_event in E. now apply H in E.
Qed.

Lemma insert_text_src t id cs s x : reads s (build x) ->
  insert_text t id cs s = betree_insert_with_constants t id cs x.
Proof. intros H. apply parse_reads in H. unfold insert_text. now rewrite H. Qed.
Lemma make_text_src t id cs s x : reads s (build x) ->
  make_sub_text t id cs s = betree_make_sub t id cs x.
Proof. intros H. apply parse_reads in H. unfold make_sub_text. now rewrite H. Qed.
Lemma change_text_src t s x : reads s (build x) ->
  change_boundaries_text t s = bind (betree_change_boundaries t x) (fun t' => Ok (true, t')).
Proof. intros H. apply parse_reads in H. unfold change_boundaries_text. now rewrite H. Qed.

Lemma insert_text_unread t id cs s : (forall e, ~ reads s e) -> insert_text t id cs s = Ok (false, t).
Proof. intros H. apply parse_unread in H. unfold insert_text. now rewrite H. Qed.
Lemma make_text_unread t id cs s : (forall e, ~ reads s e) -> make_sub_text t id cs s = Ok (None, t).
Proof. intros H. apply parse_unread in H. unfold make_sub_text. now rewrite H. Qed.
Lemma change_text_unread t s : (forall e, ~ reads s e) -> change_boundaries_text t s = Ok (false, t).
Proof. intros H. apply parse_unread in H. unfold change_boundaries_text. now rewrite H. Qed.

(** A refused insertion leaves the tree as it was. *)
Lemma insert_text_refused t id cs s t' : insert_text t id cs s = Ok (false, t') -> t' = t.
Proof.
  unfold insert_text, insert_expr. destruct (Parser.parse s) as [e|]; [|congruence]. intros H.
  destruct (is_valid _ _) as [b| | |]; try discriminate. cbn [bind] in H.
  destruct b; cbn [negb] in H; [|congruence].
  destruct (assign_constants _ _); [|congruence].
  repeat match type of H with bind ?a _ = _ => destruct a as [?v| | |]; try discriminate H; cbn [bind] in H;
    try match type of H with context [let '(_, _) := ?p in _] => destruct p end end.
Qed.

Lemma treach_reach {fm} ds t pend log : treach_in fm ds t pend log -> reach_in fm ds t pend log.
Proof.
  induction 1 as [ds cap mp ms HD HM HW|ds t pend log id cs s x t' _ IH HR HA HI HT|ds t pend log id cs s t' _ IH HT
    |ds t pend log id cs s x m t' _ IH HR HA HI HT HW|ds t pend log id cs s x t' _ IH HR HF HT
    |ds t pend log id cs s m t' _ IH HR HT|ds t pend pend' log m e t' _ IH HT|ds t pend log s x b t' _ IH HR HS HF HT HW
    |ds t pend log s b t' _ IH HR HT|ds t pend log d _ IH HD HW HB|ds t pend log _ IH].
  - now constructor.
  - rewrite (insert_text_src _ _ _ _ x HR) in HT. eapply r_insert; eauto.
  - apply insert_text_refused in HT. now subst.
  - rewrite (make_text_src _ _ _ _ x HR) in HT. eapply r_make; eauto.
  - rewrite (make_text_src _ _ _ _ x HR) in HT. eapply r_make_refused; eauto.
  - rewrite make_text_unread in HT by easy. now injection HT as <- <-.
  - eapply r_insert_sub; eauto.
  - rewrite (change_text_src _ _ x HR) in HT.
    destruct (betree_change_boundaries t x) as [t1| | |] eqn:E; try discriminate. injection HT as <- <-.
    eapply r_change; eauto.
  - rewrite change_text_unread in HT by easy. now injection HT as <- <-.
  - now apply r_declare.
  - eapply r_empty; eauto.
Qed.

(** ** Accepted texts *)

Lemma atom_src ts l : g_atom ts l -> odd_leaf l = false -> exists a, build_atom a = l.
Proof.
  intros [].
  all: try solve [intros _; (eexists (ANull _ _) + eexists (AVar _) + eexists (ALit _) + eexists (AFreq _ _ _ _)
     + eexists (ASeg _ _ _ _) + eexists (AGeo _ _ _) + eexists (AStr _ _ _) + eexists (ACmp _ _ _)); reflexivity].
  1-4: destruct H; intros _; [eexists (AEq _ _ (SInt _))|eexists (AEq _ _ (SFlt _))|eexists (AEq _ _ (SStr _))]; reflexivity.
  1-2: destruct H, H0; try discriminate; intros _;
    try (eexists (AIn _ _ (SInts _)); reflexivity); try (eexists (AIn _ _ (SStrs _)); reflexivity);
    try (eexists (AHas _ (SInt _) _); reflexivity); eexists (AHas _ (SStr _) _); reflexivity.
  all: destruct H; intros _; [eexists (AList _ _ (SInts _))|eexists (AList _ _ (SStrs _))]; reflexivity.
Qed.

Lemma mk_and_leaves a b p : In p (expr_leaves (mk_and a b)) <-> In p (expr_leaves a) \/ In p (expr_leaves b).
Proof. unfold mk_and. destruct (_ <? _)%Z; cbn; rewrite in_app_iff; tauto. Qed.
Lemma mk_or_leaves a b p : In p (expr_leaves (mk_or a b)) <-> In p (expr_leaves a) \/ In p (expr_leaves b).
Proof. unfold mk_or. destruct (_ <? _)%Z; cbn; rewrite in_app_iff; tauto. Qed.

Lemma derives_src lv ts e : derives lv ts e -> (forall p, In p (expr_leaves e) -> odd_leaf p = false) ->
  exists x, build x = e.
Proof.
  induction 1 as [a x b y Ha IHa Hb IHb|a x Ha IHa|a x b y Ha IHa Hb IHb|a x Ha IHa|a x Ha IHa|a x Ha IHa|a l Ha];
    intros HO; auto.
  - destruct IHa as [sx <-]; [intros; apply HO, mk_or_leaves; now left|].
    destruct IHb as [sy <-]; [intros; apply HO, mk_or_leaves; now right|]. now exists (XOr sx sy).
  - destruct IHa as [sx <-]; [intros; apply HO, mk_and_leaves; now left|].
    destruct IHb as [sy <-]; [intros; apply HO, mk_and_leaves; now right|]. now exists (XAnd sx sy).
  - destruct IHa as [sx <-]; [intros; now apply HO|]. now exists (XNot sx).
  - destruct (atom_src _ _ Ha) as [at' <-]; [apply HO; now left|]. now exists (XAtom at').
Qed.

(** All predicates pass a test the whole expression passes. *)
Lemma all_leaves_true f e : all_leaves f e = Ok true -> forall p, In p (expr_leaves e) -> f p = Ok true.
Proof.
  induction e as [g p|g a IHa b IHb|g a IHa b IHb|g a IHa]; cbn [all_leaves expr_leaves]; intros H q Hq; auto.
  - destruct Hq as [<-|[]]. easy.
  - destruct (all_leaves f a) as [[]| | |]; try discriminate. cbn [bind] in H. apply in_app_iff in Hq. destruct Hq; auto.
  - destruct (all_leaves f a) as [[]| | |]; try discriminate. cbn [bind] in H. apply in_app_iff in Hq. destruct Hq; auto.
Qed.

(** A test that the passes over the predicates do not change. *)
Lemma trav_test (k : leaf -> bool) f : (forall c p p' c', f c p = Ok (p', c') -> k p' = k p) ->
  forall e c e' c', trav f c e = Ok (e', c') -> map k (expr_leaves e') = map k (expr_leaves e).
Proof.
  intros Hf. induction e as [g p|g a IHa b IHb|g a IHa b IHb|g a IHa]; intros c e' c' H; cbn [trav] in H.
  - destruct (f c p) as [[p' c1]| | |] eqn:E; try discriminate. injection H as <- <-. cbn. f_equal. eauto.
  - destruct (trav f c a) as [[a' c1]| | |] eqn:Ea; try discriminate. cbn [bind] in H.
    destruct (trav f c1 b) as [[b' c2]| | |] eqn:Eb; try discriminate. injection H as <- <-.
    cbn. rewrite !map_app. f_equal; eauto.
  - destruct (trav f c a) as [[a' c1]| | |] eqn:Ea; try discriminate. cbn [bind] in H.
    destruct (trav f c1 b) as [[b' c2]| | |] eqn:Eb; try discriminate. injection H as <- <-.
    cbn. rewrite !map_app. f_equal; eauto.
  - destruct (trav f c a) as [[a' c1]| | |] eqn:Ea; try discriminate. injection H as <- <-. cbn. eauto.
Qed.
Lemma map_leaves_leaves f e : expr_leaves (map_leaves f e) = map f (expr_leaves e).
Proof. induction e; cbn; rewrite ?map_app; congruence. Qed.

(** Unfold one successful step. *)
Ltac step1 H := match type of H with
  | bind ?a _ = Ok _ => let v := fresh "v" in let E := fresh "E" in
      destruct a as [v| | |] eqn:E; try discriminate H; cbn [bind] in H;
      try match type of v with prod _ _ => destruct v end
  end.

Lemma str_leaf_odd always c p p' c' : assign_str_leaf always c p = Ok (p', c') -> odd_leaf p' = odd_leaf p.
Proof.
  destruct p as [b|v|op v x|op v x|op l r|op v x|op v|v ty ns vl w now id|op h v id s now|h la lo r x y|op v pat];
    cbn [assign_str_leaf]; intros H; try (injection H as <- <-; reflexivity).
  - destruct x; try (injection H as <- <-; reflexivity). repeat step1 H. now injection H as <- <-.
  - destruct l, r; try discriminate; try (injection H as <- <-; reflexivity); repeat step1 H; now injection H as <- <-.
  - destruct x; try (injection H as <- <-; reflexivity). repeat step1 H. now injection H as <- <-.
  - repeat step1 H. now injection H as <- <-.
Qed.
Lemma ie_leaf_odd always c p p' c' : assign_ie_leaf always c p = Ok (p', c') -> odd_leaf p' = odd_leaf p.
Proof.
  destruct p; cbn [assign_ie_leaf]; intros H; try (injection H as <- <-; reflexivity).
  destruct q; try (injection H as <- <-; reflexivity). step1 H. destruct (d_bound v0); try (injection H as <- <-; reflexivity).
  destruct t; try (injection H as <- <-; reflexivity). step1 H. now injection H as <- <-.
Qed.
Lemma var_leaf_odd c p : odd_leaf (assign_var_leaf c p) = odd_leaf p.
Proof. destruct p; try reflexivity. destruct l, r; reflexivity. Qed.
Lemma fix_leaf_odd c p p' c' : fix_leaf c p = Ok (p', c') -> odd_leaf p' = odd_leaf p.
Proof.
  destruct p; cbn [fix_leaf]; intros H; try (injection H as <- <-; reflexivity); step1 H.
  - destruct c0; injection H as <- <-; [|reflexivity]. now destruct (is_float_bound _).
  - destruct q; injection H as <- <-; try reflexivity. now destruct (is_float_bound _).
Qed.

(** A successful make rejects every odd set expression. *)
Lemma exprs_leaf_odd c p : exprs_leaf c p = Ok true -> odd_leaf p = false.
Proof.
  destruct p; try reflexivity. cbn [exprs_leaf]. destruct l, r; try reflexivity; try discriminate.
  intros H. now step1 H.
Qed.
Lemma vars_leaf_odd p : vars_leaf p = Ok true -> odd_leaf p = two_vars p.
Proof. destruct p; try reflexivity. destruct l, r; try reflexivity; discriminate. Qed.

Lemma make_text_read t id cs s m t' : make_sub_text t id cs s = Ok (Some m, t') ->
  exists x, reads s (build x) /\ betree_make_sub t id cs x = Ok (Some m, t').
Proof.
  intros H. destruct (Parser.parse s) as [e|] eqn:EP.
  2:{ unfold make_sub_text in H. rewrite EP in H. discriminate. }
  apply parse_reads in EP. pose proof EP as (ts & _ & Hd).
  assert (HO : forall p, In p (expr_leaves e) -> odd_leaf p = false).
  { apply parse_reads in EP. unfold make_sub_text in H. rewrite EP in H. unfold make_sub_expr in H.
    step1 H. destruct v; cbn [negb] in H; [|discriminate]. do 4 step1 H. destruct v; cbn [negb] in H; [|discriminate].
    assert (K : map odd_leaf (expr_leaves e2) = map odd_leaf (expr_leaves e)).
    { rewrite (trav_test odd_leaf _ fix_leaf_odd _ _ _ _ E2).
      rewrite (trav_test odd_leaf _ (ie_leaf_odd true) _ _ _ _ E1).
      rewrite (trav_test odd_leaf _ (str_leaf_odd true) _ _ _ _ E0).
      unfold assign_variable_id. rewrite map_leaves_leaves, map_map. apply map_ext. intros. apply var_leaf_odd. }
    assert (F : forall p, In p (expr_leaves e2) -> odd_leaf p = false).
    { intros p Hp. eapply exprs_leaf_odd. eapply all_leaves_true; eauto. }
    intros p Hp. apply (in_map odd_leaf) in Hp. rewrite <- K in Hp. apply in_map_iff in Hp.
    destruct Hp as (q & <- & Hq). now apply F. }
  destruct (derives_src _ _ _ Hd HO) as [x <-]. exists x. split; [easy|].
  now rewrite <- (make_text_src _ _ _ _ x EP).
Qed.

Lemma insert_text_read t id cs s t' : insert_text t id cs s = Ok (true, t') ->
  (exists x, reads s (build x) /\ betree_insert_with_constants t id cs x = Ok (true, t'))
  \/ (exists e p, reads s e /\ In p (expr_leaves e) /\ two_vars p = true).
Proof.
  intros H. destruct (Parser.parse s) as [e|] eqn:EP.
  2:{ unfold insert_text in H. rewrite EP in H. discriminate. }
  apply parse_reads in EP. pose proof EP as (ts & _ & Hd).
  assert (HO : forall p, In p (expr_leaves e) -> odd_leaf p = two_vars p).
  { apply parse_reads in EP. unfold insert_text in H. rewrite EP in H. unfold insert_expr in H.
    step1 H. destruct v; cbn [negb] in H; [|discriminate]. clear H. unfold is_valid in E. step1 E.
    destruct v; [|discriminate]. intros p Hp.
    assert (K : In (assign_var_leaf (bt_cfg t) p) (expr_leaves (assign_variable_id (bt_cfg t) e))).
    { unfold assign_variable_id. rewrite map_leaves_leaves. now apply in_map. }
    apply (all_leaves_true _ _ E0) in K. apply vars_leaf_odd in K. rewrite var_leaf_odd in K. rewrite K.
    clear. destruct p; try reflexivity. destruct l, r; reflexivity. }
  destruct (existsb two_vars (expr_leaves e)) eqn:EX.
  - right. apply existsb_exists in EX. destruct EX as (p & Hp & H2). now exists e, p.
  - left. destruct (derives_src _ _ _ Hd) as [x <-].
    + intros p Hp. rewrite HO by easy. destruct (two_vars p) eqn:E2; [|easy].
      assert (existsb two_vars (expr_leaves e) = true) by (apply existsb_exists; eauto). congruence.
    + exists x. split; [easy|]. now rewrite <- (insert_text_src _ _ _ _ x EP).
Qed.

(** No source expression has an odd set expression. *)
Lemma build_atom_odd a : odd_leaf (build_atom a) = false.
Proof. destruct a as [| | |op v []|op v []|op [] v|op v []| | |op []| |]; reflexivity. Qed.
Lemma build_odd x : forall p, In p (expr_leaves (build x)) -> odd_leaf p = false.
Proof.
  induction x as [a|a IHa|a IHa b IHb|a IHa b IHb]; cbn [build]; intros p H.
  - destruct H as [<-|[]]. apply build_atom_odd.
  - now apply IHa.
  - apply mk_and_leaves in H. destruct H; auto.
  - apply mk_or_leaves in H. destruct H; auto.
Qed.
