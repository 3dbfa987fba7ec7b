(** Event objects: relation with plain events, and what a second search finds in them. *)
From Coq Require Import ZArith NArith String Bool List Lia Permutation.
From Verif Require Import Base Float Value Ast Config Assign Bound Special Match Tree PredMap Source Api EventObj ObjSpec.
From Verif Require Import Spec BaseProofs ListProofs InternProofs ExtProofs HistProofs.
Import ListNotations.
Local Open Scope Z_scope.
Local Open Scope res_scope.

Lemma fill_object_env c : forall ev p,
  fill_event c (vars ev) p = do '(_, p') <- fill_object c ev p; Ok p'.
Proof.
  induction ev as [|[[n x]|] ev IH]; intros p; cbn [vars flat_map app fill_event fill_object]; [reflexivity| |].
  - destruct (fill_variable c n x) as [[v y]| | |]; cbn [bind]; try reflexivity.
    fold (vars ev). rewrite IH. now destruct (fill_object c ev (updN p v (Some y))) as [[e' p']| | |].
  - fold (vars ev). rewrite IH. now destruct (fill_object c ev p) as [[e' p']| | |].
Qed.

Lemma sincr_unique (l : list sval) : forall l', sincr (map sv_str l) -> sincr (map sv_str l') ->
  (forall x, In x l <-> In x l') -> l = l'.
Proof.
  induction l as [|x l IH]; intros [|y l'] S S' E.
  - reflexivity.
  - destruct (proj2 (E y) (or_introl eq_refl)).
  - destruct (proj1 (E x) (or_introl eq_refl)).
  - inversion S as [|? ? S1 F]; subst. inversion S' as [|? ? S1' F']; subst. rewrite Forall_forall in F, F'.
    assert (x = y) as <-.
    { destruct (proj1 (E x) (or_introl eq_refl)) as [->|Hx]; [reflexivity|].
      destruct (proj2 (E y) (or_introl eq_refl)) as [->|Hy]; [reflexivity|].
      specialize (F _ (in_map sv_str _ _ Hy)). specialize (F' _ (in_map sv_str _ _ Hx)). lia. }
    f_equal. apply IH; [exact S1|exact S1'|]. intros z. specialize (E z). cbn in E.
    assert (N : forall m, (forall k, In k (map sv_str m) -> sv_str x < k) -> ~ In x m).
    { intros m Hm Hx. specialize (Hm _ (in_map sv_str _ _ Hx)). lia. }
    pose proof (N l F). pose proof (N l' F').
    split; intros Hz.
    + destruct (proj1 E (or_intror Hz)) as [->|]; [contradiction|assumption].
    + destruct (proj2 E (or_intror Hz)) as [->|]; [contradiction|assumption].
Qed.

(** Filling a list of strings with ids and sorting it. *)
Definition num_strs (f : string -> Z) (l : list sval) : list sval :=
  sort_strs (map (fun s => mkS (sv_string s) (f (sv_string s))) l).

Lemma num_strs_In f l y : (forall s s', In s l -> In s' l -> f (sv_string s) = f (sv_string s') -> sv_string s = sv_string s') ->
  In y (num_strs f l) <-> exists s, In s l /\ y = mkS (sv_string s) (f (sv_string s)).
Proof.
  intros Inj. unfold num_strs. split.
  - intros H. apply sort_strs_sub in H. apply in_map_iff in H. destruct H as (s & <- & H). now exists s.
  - intros (s & Hs & ->).
    assert (K : In (f (sv_string s)) (map sv_str (sort_strs (map (fun s => mkS (sv_string s) (f (sv_string s))) l)))).
    { apply sort_strs_key. rewrite map_map. cbn. apply in_map_iff. now exists s. }
    apply in_map_iff in K. destruct K as (y & Ey & Hy). pose proof (sort_strs_sub _ _ Hy) as Hy'.
    apply in_map_iff in Hy'. destruct Hy' as (s' & <- & Hs'). cbn in Ey.
    assert (sv_string s' = sv_string s) as E' by (apply Inj; assumption). rewrite E' in Hy. exact Hy.
Qed.

Lemma num_strs_again f g l :
  (forall s s', In s l -> In s' l -> f (sv_string s) = f (sv_string s') -> sv_string s = sv_string s') ->
  (forall s s', In s l -> In s' l -> g (sv_string s) = g (sv_string s') -> sv_string s = sv_string s') ->
  num_strs g (num_strs f l) = num_strs g l.
Proof.
  intros If Ig.
  assert (St : forall s, In s (num_strs f l) -> exists s', In s' l /\ sv_string s' = sv_string s).
  { intros s H. apply num_strs_In in H; [|exact If]. destruct H as (s' & H & ->). now exists s'. }
  apply sincr_unique; [apply sort_strs_sincr|apply sort_strs_sincr|].
  intros y. rewrite !num_strs_In; [|exact Ig|].
  - split; intros (s & H & ->).
    + destruct (St s H) as (s' & H' & <-). now exists s'.
    + exists (mkS (sv_string s) (f (sv_string s))). split; [|reflexivity]. apply num_strs_In; [exact If|]. now exists s.
  - intros s s' H H' E. destruct (St s H) as (a & Ha & Ea), (St s' H') as (b & Hb & Eb).
    rewrite <- Ea, <- Eb in *. now apply Ig.
Qed.

Lemma num_strs_same f l : num_strs f (num_strs f l) = num_strs f l.
Proof.
  unfold num_strs at 1. rewrite map_ext_in with (g := fun s => s).
  2:{ intros s H. unfold num_strs in H. apply sort_strs_sub in H. apply in_map_iff in H. destruct H as (s' & <- & _). reflexivity. }
  rewrite map_id. assert (sort_idem : forall m, sincr (map sv_str m) -> sort_strs m = m).
  { intros m Hm. apply sincr_unique; [apply sort_strs_sincr|exact Hm|]. intros x. split; [apply sort_strs_sub|].
    intros H. assert (K : In (sv_str x) (map sv_str (sort_strs m))) by (apply sort_strs_key; now apply in_map).
    apply in_map_iff in K. destruct K as (y & Ey & Hy).
    assert (x = y) as ->; [|exact Hy]. apply sort_strs_sub in Hy.
    clear - Hm H Hy Ey. induction m as [|z m IH]; [destruct H|]. inversion Hm as [|? ? S F]; subst. rewrite Forall_forall in F.
    destruct H as [->|H], Hy as [->|Hy]; [reflexivity| | |now apply IH].
    - specialize (F _ (in_map sv_str _ _ Hy)). lia.
    - specialize (F _ (in_map sv_str _ _ H)). lia. }
  apply sort_idem, sort_strs_sincr.
Qed.

Lemma sort_ints_again l : sort_ints (sort_ints l) = sort_ints l.
Proof.
  assert (U : forall m m', sincr m -> sincr m' -> (forall x, In x m <-> In x m') -> m = m').
  { intros m m' S S' E.
    assert (K : map (fun z => mkS "" z) m = map (fun z => mkS "" z) m').
    { apply sincr_unique; rewrite ?map_map, ?map_id; try assumption.
      intros x. rewrite !in_map_iff. split; intros (z & <- & H); exists z; (split; [reflexivity|now apply E]). }
    apply (f_equal (map sv_str)) in K. now rewrite !map_map, !map_id in K. }
  apply U; try apply sort_ints_sincr. intros x. apply sort_ints_In.
Qed.

(** Names and types of the declarations. *)
Definition same_decls (c c' : config) : Prop := map dom_sig (c_domains c') = map dom_sig (c_domains c).
(** Strings known to [c] are known to [c']. *)
Definition keeps_strings (c c' : config) : Prop :=
  forall v s, try_get_str c v s <> INVALID_STR -> try_get_str c' v s <> INVALID_STR.

Lemma same_decls_attr c c' x : same_decls c c' -> try_get_id_for_attr c' x = try_get_id_for_attr c x.
Proof. intros E. unfold try_get_id_for_attr. now rewrite (Forall_dom_sig_attr _ _ (lower x) E 0%N). Qed.
Lemma same_decls_dom c c' v d : same_decls c c' -> get_domain c v = Ok d ->
  exists d', get_domain c' v = Ok d' /\ btype (d_bound d') = btype (d_bound d).
Proof.
  unfold same_decls, get_domain. generalize (c_domains c) (c_domains c'). intros l. revert v.
  induction l as [|a l IH]; intros v [|b l'] E H; cbn in *; try discriminate.
  injection E as Es E'. destruct (v =? 0)%N; [|now apply IH].
  injection H as <-. exists b. split; [reflexivity|]. unfold dom_sig in Es. congruence.
Qed.

Lemma str_inj c v s s' : try_get_str c v s = try_get_str c v s' -> try_get_str c v s <> INVALID_STR -> s = s'.
Proof.
  rewrite !try_get_str_alt. intros E N.
  pose proof (str_index_spec (strs c v) s) as A. pose proof (str_index_spec (strs c v) s') as B.
  destruct (str_index (strs c v) s) as [i|]; [|contradiction].
  destruct (str_index (strs c v) s') as [j|]; [|contradiction].
  subst j. destruct A as [_ A], B as [_ B]. congruence.
Qed.

Lemma fill_value_again c c' v b b' x y : btype b' = btype b -> fill_value c v b x = Ok y ->
  (forall l, x = VStrList l -> num_strs (try_get_str c' v) (num_strs (try_get_str c v) l) = num_strs (try_get_str c' v) l) ->
  exists z, fill_value c' v b' (sort_value y) = Ok z /\ exists z', fill_value c' v b' x = Ok z' /\ sort_value z = sort_value z'.
Proof.
  intros Eb F SL. unfold fill_value in *. rewrite Eb.
  destruct (btype b), x as [bb|z|f|s|l|l|l|l|e]; try discriminate F;
    try (destruct l; [|discriminate F]); injection F as <-; cbn [sort_value map];
    try (eexists; split; [reflexivity|]; eexists; split; [reflexivity|]; reflexivity).
  - eexists; split; [reflexivity|]; eexists; split; [reflexivity|]. cbn [sort_value]. now rewrite sort_ints_again.
  - eexists; split; [reflexivity|]; eexists; split; [reflexivity|]. cbn [sort_value]. f_equal. apply (SL l eq_refl).
  - eexists; split; [reflexivity|]; eexists; split; [reflexivity|]. cbn [sort_value]. f_equal. rewrite map_map. reflexivity.
Qed.

Lemma fill_variable_again c c' n x v y :
  same_decls c c' -> fill_variable c n x = Ok (v, y) ->
  (forall l, x = VStrList l -> num_strs (try_get_str c' v) (num_strs (try_get_str c v) l) = num_strs (try_get_str c' v) l) ->
  exists z, fill_variable c' n y = Ok (v, z) /\ fill_variable c' n x = Ok (v, z).
Proof.
  intros E F SL. unfold fill_variable in *. rewrite (same_decls_attr c c' n E).
  destruct (try_get_id_for_attr c n =? INVALID_VAR)%N; [discriminate|].
  destruct (get_domain c (try_get_id_for_attr c n)) as [d| | |] eqn:D; try discriminate. cbn [bind] in F.
  destruct (fill_value c (try_get_id_for_attr c n) (d_bound d) x) as [w| | |] eqn:W; try discriminate. cbn [bind] in F.
  injection F as <- <-. destruct (same_decls_dom c c' _ _ E D) as (d' & -> & Ed). cbn [bind].
  destruct (fill_value_again c c' _ _ _ _ _ Ed W SL) as (z & -> & z' & -> & Ez). cbn [bind].
  eexists. split; [reflexivity|]. now rewrite Ez.
Qed.

Lemma fill_object_again c c' : same_decls c c' -> forall ev p ev' p' q,
  fill_object c ev p = Ok (ev', p') ->
  (forall n l, In (Some (n, VStrList l)) ev -> let v := try_get_id_for_attr c n in
     num_strs (try_get_str c' v) (num_strs (try_get_str c v) l) = num_strs (try_get_str c' v) l) ->
  fill_object c' ev' q = fill_object c' ev q.
Proof.
  intros E. induction ev as [|[[n x]|] ev IH]; intros p ev' p' q F SL; cbn [fill_object] in *.
  - injection F as <- <-. reflexivity.
  - destruct (fill_variable c n x) as [[v y]| | |] eqn:V; try discriminate. cbn [bind] in F.
    destruct (fill_object c ev (updN p v (Some y))) as [[e1 p1]| | |] eqn:F1; try discriminate. cbn [bind] in F.
    injection F as <- <-. cbn [fill_object].
    assert (Ev : try_get_id_for_attr c n = v).
    { unfold fill_variable in V. destruct (_ =? _)%N in V; [discriminate|].
      destruct (get_domain c _) in V; try discriminate. cbn [bind] in V.
      destruct (fill_value _ _ _ _) in V; try discriminate. cbn [bind] in V. congruence. }
    destruct (fill_variable_again c c' n x v y E V) as (z & -> & ->).
    { intros l ->. rewrite <- Ev. apply SL. now left. }
    cbn [bind]. rewrite (IH _ _ _ (updN q v (Some z)) F1); [reflexivity|]. intros n' l' H. apply SL. now right.
  - destruct (fill_object c ev p) as [[e1 p1]| | |] eqn:F1; try discriminate. cbn [bind] in F.
    injection F as <- <-. cbn [fill_object]. rewrite (IH _ _ _ q F1); [reflexivity|]. intros n' l' H. apply SL. now right.
Qed.

Lemma one_unknown_again c c' ev : same_decls c c' -> keeps_strings c c' -> one_unknown c ev ->
  forall n l, In (Some (n, VStrList l)) ev -> let v := try_get_id_for_attr c n in
     num_strs (try_get_str c' v) (num_strs (try_get_str c v) l) = num_strs (try_get_str c' v) l.
Proof.
  intros E K O n l H v. apply num_strs_again.
  - intros s s' Hs Hs' Eq. destruct (Z.eq_dec (try_get_str c v (sv_string s)) INVALID_STR) as [I|I].
    + apply (O n l s s' H Hs Hs' I). fold v. now rewrite <- Eq.
    + now apply (str_inj c v).
  - intros s s' Hs Hs' Eq. destruct (Z.eq_dec (try_get_str c' v (sv_string s)) INVALID_STR) as [I|I].
    + apply (O n l s s' H Hs Hs').
      * destruct (Z.eq_dec (try_get_str c v (sv_string s)) INVALID_STR) as [?|J]; [assumption|]. now destruct (K _ _ J).
      * rewrite Eq in I. destruct (Z.eq_dec (try_get_str c v (sv_string s')) INVALID_STR) as [?|J]; [assumption|]. now destruct (K _ _ J).
    + now apply (str_inj c' v).
Qed.

(** *** Calls between two searches *)

Lemma ext_of_strs c c' : same_but_strs c c' -> (forall v, exists l, strs c' v = strs c v ++ l) -> ext c c'.
Proof.
  intros (D & A & B & C & I) S. split; auto.
  - now rewrite D.
  - intros v. exists []. unfold ints. now rewrite I, app_nil_r.
Qed.
Lemma ext_of_ints c c' : same_but_ints c c' -> (forall v, exists l, ints c' v = ints c v ++ l) -> ext c c'.
Proof.
  intros (D & A & B & C & I) S. split; auto.
  - now rewrite D.
  - intros v. exists []. unfold strs. now rewrite I, app_nil_r.
Qed.
Lemma interned_app {A} (T T' : N -> list A) v s rm inv i index : interned T T' v s rm inv i index ->
  forall w, exists l, T' w = T w ++ l.
Proof.
  intros [[_ H]|[(_ & _ & _ & H)|(_ & _ & _ & H)]] w; rewrite H; try (exists []; now rewrite app_nil_r).
  destruct (N.eqb_spec v w) as [->|]; [now exists [s]|exists []; now rewrite app_nil_r].
Qed.
Lemma get_str_ext c v s always i c' : get_id_for_string c v s always = Ok (i, c') -> ext c c'.
Proof. intros H. apply get_id_for_string_ok in H. destruct H as [S I]. apply (ext_of_strs _ _ S), (interned_app _ _ _ _ _ _ _ _ I). Qed.
Lemma get_ie_ext c v s always i c' : get_id_for_ienum c v s always = Ok (i, c') -> ext c c'.
Proof. intros H. apply get_id_for_ienum_ok in H. destruct H as [S I]. apply (ext_of_ints _ _ S), (interned_app _ _ _ _ _ _ _ _ I). Qed.
Lemma assign_strs_ext v always l : forall c l' c', assign_strs c v l always = Ok (l', c') -> ext c c'.
Proof.
  induction l as [|s l IH]; intros c l' c' H; cbn in H; [injection H as <- <-; apply ext_refl|].
  destruct (get_id_for_string c v (sv_string s) always) as [[i c1]| | |] eqn:G; try discriminate. cbn in H.
  destruct (assign_strs c1 v l always) as [[l2 c2]| | |] eqn:A; try discriminate. cbn in H. injection H as <- <-.
  eapply ext_trans; [eapply get_str_ext; eauto|eapply IH; eauto].
Qed.
Lemma trav_ext (f : config -> leaf -> result (leaf * config)) :
  (forall c p q c', f c p = Ok (q, c') -> ext c c') ->
  forall e c e' c', trav f c e = Ok (e', c') -> ext c c'.
Proof.
  intros Hf e c e' c' H.
  refine (proj1 (proj2 (trav_shape f (fun _ => True) (fun _ => True) (fun _ _ _ => True) _ _ e c e' c' I _ H))); auto.
  - intros. split; [exact I|]. split; [eapply Hf; eauto|exact I].
  - apply Forall_forall. auto.
Qed.
Lemma assign_str_ext c e always e' c' : assign_str_id c e always = Ok (e', c') -> ext c c'.
Proof.
  apply trav_ext. clear. intros c p q c' H. unfold assign_str_leaf in H.
  repeat match type of H with
  | context [match ?X with _ => _ end] => match type of X with leaf => destruct X | qval => destruct X | set_left => destruct X | set_right => destruct X | lval => destruct X end
  end; try discriminate; try (injection H as <- <-; apply ext_refl);
  (match type of H with
   | context [get_id_for_string ?a ?b ?d ?e] => destruct (get_id_for_string a b d e) as [[i c1]| | |] eqn:G; try discriminate; cbn in H; injection H as <- <-; eapply get_str_ext; eauto
   | context [assign_strs ?a ?b ?d ?e] => destruct (assign_strs a b d e) as [[i c1]| | |] eqn:G; try discriminate; cbn in H; injection H as <- <-; eapply assign_strs_ext; eauto
   end).
Qed.
Lemma assign_ie_ext c e always e' c' : assign_ienum_id c e always = Ok (e', c') -> ext c c'.
Proof.
  apply trav_ext. clear. intros c p q c' H. unfold assign_ie_leaf in H.
  destruct p as [b|v|op v x|op v x|op l r|op v x|op v|v ty ns vl w now id|op h v id s now|h la lo r x y|op v pat]; try (injection H as <- <-; apply ext_refl).
  destruct x; try (injection H as <- <-; apply ext_refl).
  destruct (get_domain c (av_var v)) as [d| | |]; try discriminate. cbn in H.
  destruct (d_bound d) as [| | |t lo hi| |]; try (injection H as <- <-; apply ext_refl).
  destruct t; try (injection H as <- <-; apply ext_refl).
  destruct (get_id_for_ienum c v z always) as [[i c1]| | |] eqn:G; try discriminate. cbn in H. injection H as <- <-.
  eapply get_ie_ext; eauto.
Qed.
Lemma fix_ext c e e' c' : fix_float c e = Ok (e', c') -> ext c c'.
Proof.
  apply trav_ext. clear. intros c p q c' H. unfold fix_leaf in H.
  destruct p as [b|v|op v x|op v x|op l r|op v x|op v|v ty ns vl w now id|op h v id s now|h la lo r x y|op v pat]; try (injection H as <- <-; apply ext_refl);
  (destruct (get_domain c (av_var v)) as [d| | |]; try discriminate; cbn in H; destruct x; injection H as <- <-; apply ext_refl).
Qed.
Lemma widen_type c v dom b b' : widen c v dom b = Ok b' -> btype b' = btype dom.
Proof.
  unfold widen. destruct dom as [lo hi|w lo hi|lo hi|w lo hi| | ]; intros H; try (injection H as <-; reflexivity).
  - destruct b; try discriminate. injection H as <-. reflexivity.
  - destruct b; try discriminate. injection H as <-. reflexivity.
  - destruct w; injection H as <-; reflexivity.
Qed.
Lemma change_from_sig c e : forall ds v ds', change_from c v ds e = Ok ds' -> map dom_sig ds' = map dom_sig ds.
Proof.
  induction ds as [|d ds IH]; intros v ds' H; cbn in H; [injection H as <-; reflexivity|].
  match type of H with bind ?X _ = _ => destruct X as [d'| | |] eqn:D; try discriminate end. cbn in H.
  destruct (change_from c (v + 1) ds e) as [t'| | |] eqn:T; try discriminate. cbn in H. injection H as <-.
  cbn [map]. f_equal; [|eapply IH; eauto].
  destruct (skip_domain (d_bound d)); [injection D as <-; reflexivity|].
  destruct (simple_bound v false e) as [[b|]| | |]; try discriminate; cbn in D; [|injection D as <-; reflexivity].
  destruct (widen c v (d_bound d) b) as [b'| | |] eqn:W; try discriminate. cbn in D. injection D as <-.
  unfold dom_sig. cbn. now rewrite (widen_type _ _ _ _ _ W).
Qed.
Lemma change_ext c e c' : change_boundaries c e = Ok c' -> ext c c'.
Proof.
  unfold change_boundaries. destruct (change_from c 0 (c_domains c) e) as [ds| | |] eqn:D; try discriminate. cbn. intros H. injection H as <-.
  split; try reflexivity; [now apply change_from_sig in D|..]; intros v; exists []; rewrite app_nil_r; reflexivity.
Qed.

Lemma grown_ext t t' : grown t t' -> ext (bt_cfg t) (bt_cfg t').
Proof.
  induction 1 as [t|t t' t'' id cs e b H IH E|t t' t'' id cs e o H IH E|t t' t'' s H IH E|t t' t'' e H IH E|t t' H IH];
    [apply ext_refl|..|exact IH]; (eapply ext_trans; [exact IH|]).
  - unfold insert_expr in E.
    destruct (is_valid _ _) as [[]| | |] in E; try discriminate; cbn [bind negb] in E; [|injection E as <- <-; apply ext_refl].
    destruct (assign_constants _ _) as [e1|] in E; [|injection E as <- <-; apply ext_refl].
    destruct (assign_str_id _ _ _) as [[e2 c2]| | |] eqn:E2 in E; try discriminate; cbn [bind] in E.
    destruct (assign_ienum_id _ _ _) as [[e3 c3]| | |] eqn:E3 in E; try discriminate; cbn [bind] in E.
    destruct (fix_float _ _) as [[e4 c4]| | |] eqn:E4 in E; try discriminate; cbn [bind] in E.
    destruct (assign_pred _ _) as [[e5 m]| | |] in E; try discriminate; cbn [bind] in E.
    destruct (make_sub _ _ _) as [s| | |] in E; try discriminate; cbn [bind] in E.
    unfold insert_sub in E. cbn [bt_cfg bt_root bt_pm] in E.
    destruct (insert_root _ _ _ _) as [r| | |] in E; try discriminate; cbn [bind] in E. injection E as <- <-.
    cbn [bt_cfg]. eapply ext_trans; [eapply assign_str_ext; eauto|]. eapply ext_trans; [eapply assign_ie_ext; eauto|]. eapply fix_ext; eauto.
  - unfold make_sub_expr in E.
    destruct (all_variables_in_config _) as [[]| | |] in E; try discriminate; cbn [bind negb] in E; [|injection E as <- <-; apply ext_refl].
    destruct (assign_str_id _ _ _) as [[e2 c2]| | |] eqn:E2 in E; try discriminate; cbn [bind] in E.
    destruct (assign_ienum_id _ _ _) as [[e3 c3]| | |] eqn:E3 in E; try discriminate; cbn [bind] in E.
    destruct (fix_float _ _) as [[e4 c4]| | |] eqn:E4 in E; try discriminate; cbn [bind] in E.
    assert (X : ext (bt_cfg t') c4).
    { eapply ext_trans; [eapply assign_str_ext; eauto|]. eapply ext_trans; [eapply assign_ie_ext; eauto|]. eapply fix_ext; eauto. }
    destruct (all_exprs_valid _ _) as [[]| | |] in E; try discriminate; cbn [bind negb] in E; [|injection E as <- <-; exact X].
    destruct (assign_constants _ _) as [e5|] in E; [|injection E as <- <-; exact X].
    destruct (change_boundaries _ _) as [c6| | |] eqn:E6 in E; try discriminate; cbn [bind] in E.
    destruct (assign_pred _ _) as [[e7 m]| | |] in E; try discriminate; cbn [bind] in E.
    destruct (make_sub _ _ _) as [s| | |] in E; try discriminate; cbn [bind] in E. injection E as <- <-.
    cbn [bt_cfg]. eapply ext_trans; [exact X|]. eapply change_ext; eauto.
  - unfold betree_insert_sub, insert_sub in E.
    destruct (insert_root _ _ _ _) as [r| | |] in E; try discriminate; cbn [bind] in E. injection E as <-. apply ext_refl.
  - unfold change_boundaries_expr in E.
    destruct (assign_str_id _ _ _) as [[e2 c2]| | |] eqn:E2 in E; try discriminate; cbn [bind] in E.
    destruct (assign_ienum_id _ _ _) as [[e3 c3]| | |] eqn:E3 in E; try discriminate; cbn [bind] in E.
    destruct (fix_float _ _) as [[e4 c4]| | |] eqn:E4 in E; try discriminate; cbn [bind] in E.
    destruct (change_boundaries _ _) as [c6| | |] eqn:E6 in E; try discriminate; cbn [bind] in E. injection E as <-.
    cbn [bt_cfg set_cfg].
    eapply ext_trans; [eapply assign_str_ext; eauto|]. eapply ext_trans; [eapply assign_ie_ext; eauto|].
    eapply ext_trans; [eapply fix_ext; eauto|]. eapply change_ext; eauto.
Qed.

Lemma ext_keeps c c' : ext c c' -> keeps_strings c c'.
Proof.
  intros X v s. rewrite !try_get_str_alt. destruct (str_index (strs c v) s) as [i|] eqn:I; [|congruence].
  now rewrite (ext_str_index _ _ _ _ _ X I).
Qed.

Lemma grown_trans t1 t2 t3 : grown t2 t3 -> grown t1 t2 -> grown t1 t3.
Proof. induction 1; intros H1; eauto using grown. Qed.

Lemma one_unknown_ext c c' ev : ext c c' -> one_unknown c ev -> one_unknown c' ev.
Proof.
  intros X O n l s s' H Hs Hs' I I'. rewrite (same_decls_attr c c' n (ext_doms _ _ X)) in I, I'.
  pose proof (ext_keeps _ _ X (try_get_id_for_attr c n)) as K.
  apply (O n l s s' H Hs Hs').
  - destruct (Z.eq_dec (try_get_str c (try_get_id_for_attr c n) (sv_string s)) INVALID_STR) as [?|J]; [assumption|]. now destruct (K _ J).
  - destruct (Z.eq_dec (try_get_str c (try_get_id_for_attr c n) (sv_string s')) INVALID_STR) as [?|J]; [assumption|]. now destruct (K _ J).
Qed.

Section WithGeo.
  Context {G : Geo}.

  Lemma search_object_fill t ev r b r' ev' : search_object t ev r = Ok (b, r', ev') ->
    exists p, fill_object (bt_cfg t) ev (repeat None (length (c_domains (bt_cfg t)))) = Ok (ev', p).
  Proof.
    unfold search_object. destruct (fill_object _ _ _) as [[e p]| | |]; try discriminate. cbn [bind].
    destruct (negb _); [intros H; injection H as <- <- <-; eauto|].
    destruct (search_with_preds _ _ _ _ _ _); try discriminate. cbn [bind]. intros H; injection H as <- <- <-; eauto.
  Qed.
  Lemma exists_object_fill t ev b ev' : exists_object t ev = Ok (b, ev') ->
    exists p, fill_object (bt_cfg t) ev (repeat None (length (c_domains (bt_cfg t)))) = Ok (ev', p).
  Proof.
    unfold exists_object. destruct (fill_object _ _ _) as [[e p]| | |]; try discriminate. cbn [bind].
    destruct (exists_with_preds _ _ _ _ _); try discriminate. cbn [bind]. intros H; injection H as <- <-; eauto.
  Qed.

  Lemma session_ext t ev t' ev' : session t ev t' ev' -> grown t t'.
  Proof. induction 1; try assumption; [apply g_same|]. eapply grown_trans; eauto. Qed.

  Lemma session_fill t ev t1 ev1 : session t ev t1 ev1 -> one_unknown (bt_cfg t) ev ->
    forall t', grown t1 t' -> forall q, fill_object (bt_cfg t') ev1 q = fill_object (bt_cfg t') ev q.
  Proof.
    intros S O. induction S as [|t1 ev1 t2 S IH Gr|t1 ev1 r b r' ev2 S IH F|t1 ev1 b ev2 S IH F]; intros t' G' q.
    - reflexivity.
    - apply IH. eapply grown_trans; eauto.
    - apply search_object_fill in F. destruct F as [p F].
      rewrite (IH t1 (g_same _)) in F. pose proof (grown_ext _ _ G') as X.
      eapply fill_object_again; [exact (ext_doms _ _ X)|exact F|].
      apply one_unknown_again; [exact (ext_doms _ _ X)|now apply ext_keeps|].
      eapply one_unknown_ext; [|exact O]. eapply grown_ext, session_ext; eauto.
    - apply exists_object_fill in F. destruct F as [p F].
      rewrite (IH t1 (g_same _)) in F. pose proof (grown_ext _ _ G') as X.
      eapply fill_object_again; [exact (ext_doms _ _ X)|exact F|].
      apply one_unknown_again; [exact (ext_doms _ _ X)|now apply ext_keeps|].
      eapply one_unknown_ext; [|exact O]. eapply grown_ext, session_ext; eauto.
  Qed.
End WithGeo.

(** *** Building an object *)

Lemma vars_upd : forall ev i x, nthN ev i = Some None -> Permutation (vars (updN ev i (Some x))) ((fst x, Some (snd x)) :: vars ev).
Proof.
  induction ev as [|o ev IH]; intros i [n x] H; cbn in H; [discriminate|]. cbn [updN].
  destruct (N.eqb_spec i 0) as [->|Hi].
  - injection H as ->. reflexivity.
  - unfold vars in *. cbn [flat_map]. specialize (IH (N.pred i) (n, x) H). cbn [fst snd] in *.
    rewrite IH. symmetry. apply Permutation_middle.
Qed.
Lemma nthN_updN_other {A} (l : list A) i j x : i <> j -> nthN (updN l i x) j = nthN l j.
Proof.
  revert i j; induction l as [|a l IH]; intros i j H; [reflexivity|]. cbn [updN].
  destruct (N.eqb_spec i 0) as [->|Hi]; cbn [nthN].
  - destruct (N.eqb_spec j 0) as [->|]; [contradiction|reflexivity].
  - destruct (N.eqb_spec j 0); [reflexivity|]. apply IH. lia.
Qed.
Lemma length_upd {A} (l : list A) i x : length (updN l i x) = length l.
Proof. revert i; induction l as [|a l IH]; intros i; [reflexivity|]. cbn [updN]. destruct (i =? 0)%N; cbn; auto. Qed.

Lemma set_all_vars : forall l ev,
  NoDup (map fst l) -> Forall (fun p => nthN ev (fst p) = Some None) l ->
  exists ev', set_all ev l = Ok ev'
    /\ Permutation (vars ev') (map (fun p => (fst (snd p), Some (snd (snd p)))) l ++ vars ev).
Proof.
  induction l as [|[i x] l IH]; intros ev ND F; [exists ev; now split|].
  inversion ND as [|? ? NI ND']; subst. inversion F as [|? ? Fi F']; subst. cbn [fst] in *.
  cbn [set_all]. unfold set_variable.
  assert (L : (i <? N.of_nat (length ev))%N = true).
  { apply N.ltb_lt. apply nthN_Some_lt in Fi. exact Fi. }
  rewrite L. cbn [bind]. destruct (IH (updN ev i (Some x)) ND') as (ev' & E & P).
  { rewrite Forall_forall in *. intros [j y] H. cbn [fst]. rewrite nthN_updN_other; [exact (F' _ H)|].
    intros <-. apply NI. apply in_map_iff. now exists (i, y). }
  exists ev'. split; [exact E|]. rewrite P. cbn [map app fst snd]. rewrite (vars_upd _ _ _ Fi).
  symmetry. apply Permutation_middle.
Qed.
Lemma nthN_repeat {A} (x : A) n i : (i < N.of_nat n)%N -> nthN (repeat x n) i = Some x.
Proof.
  revert i; induction n as [|n IH]; intros i H; [lia|]. cbn [repeat nthN]. destruct (N.eqb_spec i 0); [reflexivity|]. apply IH. lia.
Qed.
Lemma vars_empty n : vars (repeat None n) = [].
Proof. induction n; [reflexivity|]. exact IHn. Qed.
