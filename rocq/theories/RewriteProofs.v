(** Names, literals, event order, constants, reordering and interning. *)
From Coq Require Import ZArith NArith String Ascii Bool List Lia Permutation Sorted.
From Coq Require Import ZifyBool ZifyNat ZifyN.
From Verif Require Import Base Float Value Special Ast Match Config Assign Source Bound Tree PredMap RbTree Api Spec TreeSpec Hist.
From Verif Require Import BaseProofs ListProofs SpecialProofs EvalProofs InternProofs ExtProofs ResProofs PassProofs PredProofs ShortProofs GvbProofs TreeProofs WideProofs HistProofs SearchProofs AnswerProofs ExprProofs.
Import ListNotations.
Local Open Scope Z_scope.

Lemma list_ext_nth {A} (l l' : list A) : (forall i, nth_error l i = nth_error l' i) -> l = l'.
Proof.
  revert l'. induction l as [|x l IH]; intros [|y l'] H; [easy|specialize (H O); discriminate|specialize (H O); discriminate|].
  pose proof (H O) as [= ->]. f_equal. apply IH. intros i. exact (H (S i)).
Qed.
Lemma tolower_idem c : tolower (tolower c) = tolower c.
Proof. destruct c as [[] [] [] [] [] [] [] []]; reflexivity. Qed.
Lemma lower_idem s : lower (lower s) = lower s.
Proof. induction s as [|c s IH]; cbn [lower]; [easy|]. now rewrite tolower_idem, IH. Qed.

Section WithGeo.
  Context {G : Geo}.

  Lemma lookup_name ev x y : lower x = lower y -> lookup ev x = lookup ev y.
  Proof. intros E. induction ev as [|[n o] ev IH]; cbn [lookup]; [easy|]. now rewrite IH, E. Qed.
  Lemma lookup_lower ev x : lookup ev (lower x) = lookup ev x.
  Proof. apply lookup_name, lower_idem. Qed.
  Lemma lookup_lower_event ev x : lookup (lower_event ev) x = lookup ev x.
  Proof. unfold lower_event. induction ev as [|[n o] ev IH]; cbn [lookup map fst snd]; [easy|]. now rewrite IH, lower_idem. Qed.
  Lemma lower_atom_sem cs ev a : sem_atom cs ev (lower_atom a) = sem_atom cs ev a.
  Proof. destruct a; cbn [sem_atom lower_atom]; rewrite ?lookup_lower; auto. destruct x as [x|]; cbn [option_map]; now rewrite ?lookup_lower. Qed.
  Lemma sem_atom_ext cs ev ev' a : (forall x, lookup ev x = lookup ev' x) -> sem_atom cs ev a = sem_atom cs ev' a.
  Proof.
    intros H. destruct a; cbn [sem_atom]; rewrite ?H; auto; try (destruct x; rewrite ?H; auto).
  Qed.
  Theorem names_same {fm fm'} ds t pend log ev t' pend' log' ev' :
    searchable_in fm ds t pend log ev -> searchable_in fm' ds t' pend' log' ev' -> fair fm t ev log -> fair fm' t' ev' log' ->
    entries_alike (fun a a' => lower_atom a = lower_atom a') log log' -> lower_event ev = lower_event ev' ->
    same_reports t ev t' ev'.
  Proof.
    intros S S' FR FR' F E. eapply same_hits; eauto. eapply alike_hits; [exact F|]. intros cs a a' A.
    rewrite <- (lower_atom_sem cs ev), <- (lower_atom_sem cs ev'), A. apply sem_atom_ext. intros x.
    rewrite <- (lookup_lower_event ev), <- (lookup_lower_event ev'), E. reflexivity.
  Qed.

  (** Undeclared names. *)
  Lemma find_attr_none ds name : forall i, (forall d, In d ds -> d_attr d <> name) -> find_attr ds name i = INVALID_VAR.
  Proof.
    induction ds as [|d ds IH]; intros i H; cbn [find_attr]; [easy|].
    destruct (String.eqb_spec (d_attr d) name) as [E|E]; [exfalso; eapply H; [now left|exact E]|].
    apply IH. intros d' K. apply H. now right.
  Qed.
  Definition unknown (ds : list domain) (x : string) : Prop := forall d, In d ds -> d_attr d <> lower x.
  Lemma unknown_var c x : unknown (c_domains c) x -> var_valid (set_var c (mk_var x)) = false.
  Proof.
    intros H. unfold var_valid, set_var, mk_var, try_get_id_for_attr. cbn [av_attr av_var].
    rewrite find_attr_none by exact H. reflexivity.
  Qed.
  (** Every attribute except those of geo predicates is checked. *)
  Definition checked_attrs (a : atom) : list string :=
    match a with AGeo _ _ _ | AHas _ (SFlt _) _ => [] | _ => atom_attrs a end.
  Lemma vars_leaf_unknown c a x : In x (checked_attrs a) -> unknown (c_domains c) x ->
    vars_leaf (assign_var_leaf c (build_atom a)) = Ok false.
  Proof.
    intros HI U. pose proof (unknown_var c x U) as F.
    destruct a; cbn [checked_attrs atom_attrs In] in HI; try tauto.
    all: try (match type of HI with context [match ?z with _ => _ end] => destruct z end); cbn [checked_attrs atom_attrs In] in HI; try tauto.
    all: try (match type of HI with _ \/ False => destruct HI as [->|HF]; [|destruct HF] end).
    all: cbn [build_atom]; try destruct c0; try destruct l; cbn [assign_var_leaf vars_leaf]; rewrite ?F; auto.
    all: unfold mk_freq, mk_seg; cbn [assign_var_leaf vars_leaf]; destruct HI as [->|[->|[]]]; rewrite F, ?andb_false_r; reflexivity.
  Qed.
  Lemma vars_leaf_total c a : exists b, vars_leaf (assign_var_leaf c (build_atom a)) = Ok b.
  Proof.
    destruct a; cbn [build_atom]; try destruct c0; try destruct l; cbn [assign_var_leaf vars_leaf]; eauto;
      unfold mk_freq, mk_seg, mk_geo; try destruct x; cbn; eauto.
  Qed.
  Lemma all_leaves_false f x e : rel_src (fun a q => q = build_atom a) x e -> (forall a, exists b, f (build_atom a) = Ok b) ->
    exists b, all_leaves f e = Ok b /\ (b = true -> forall a, In a (src_atoms x) -> f (build_atom a) = Ok true).
  Proof.
    intros R T. induction R as [a g q ->|x g e R IH|x y g e e' R (b & E & H) R' (b' & E' & H')|x y g e e' R (b & E & H) R' (b' & E' & H')|x y g e e' R (b & E & H) R' (b' & E' & H')|x y g e e' R (b & E & H) R' (b' & E' & H')]; cbn [all_leaves src_atoms].
    1: { destruct (T a) as [b E]. exists b. split; [exact E|]. intros -> a' [<-|[]]. exact E. }
    1: exact IH.
    all: rewrite ?E, ?E'; cbn [bind]; exists (b && b'); destruct b, b'; (split; [reflexivity|]); try discriminate.
    all: intros _ a HA; apply in_app_or in HA; destruct HA; auto.
  Qed.
  Lemma all_leaves_map f g e : all_leaves f (map_leaves g e) = all_leaves (fun p => f (g p)) e.
  Proof. induction e; cbn [all_leaves map_leaves]; auto; now rewrite IHe1, IHe2. Qed.
  Theorem unknown_refused t id cs x a y : In a (src_atoms x) -> In y (checked_attrs a) ->
    unknown (c_domains (bt_cfg t)) y -> betree_insert_with_constants t id cs x = Ok (false, t)
    /\ betree_make_sub t id cs x = Ok (None, t).
  Proof.
    intros HA HY U.
    assert (all_variables_in_config (assign_variable_id (bt_cfg t) (build x)) = Ok false) as E.
    { unfold all_variables_in_config, assign_variable_id. rewrite all_leaves_map.
      destruct (all_leaves_false (fun p => vars_leaf (assign_var_leaf (bt_cfg t) p)) x _ (rel_src_build x) (vars_leaf_total (bt_cfg t))) as (b & -> & H).
      destruct b; [|easy]. exfalso. pose proof (H eq_refl a HA) as K. cbn beta in K.
      rewrite (vars_leaf_unknown (bt_cfg t) a y HY U) in K. discriminate. }
    unfold betree_insert_with_constants, insert_expr, betree_make_sub, make_sub_expr, is_valid. rewrite E. cbn [bind negb]. auto.
  Qed.

  (** *** Integer literals for float variables *)
  Lemma decimal_sem ds cs ev a : event_ok ds ev -> sem_atom cs ev (decimal_atom ds a) = sem_atom cs ev a.
  Proof.
    intros HO. destruct a; try reflexivity.
    - destruct c as [z|f]; [|reflexivity]. cbn [decimal_atom]. destruct (decl ds x) as [[i [n b u]]|] eqn:D; [|easy].
      destruct b; try easy. cbn [sem_atom]. destruct (lookup ev x) as [y|] eqn:L; [|easy].
      pose proof (lookup_typed _ _ _ _ _ _ HO D L) as V. cbn in V. destruct y; try contradiction. easy.
    - destruct c as [z|f|s]; try reflexivity. cbn [decimal_atom]. destruct (decl ds x) as [[i [n b u]]|] eqn:D; [|easy].
      destruct b; try easy. cbn [sem_atom]. destruct (lookup ev x) as [y|] eqn:L; [|easy].
      pose proof (lookup_typed _ _ _ _ _ _ HO D L) as V. cbn in V. destruct y; try contradiction. easy.
  Qed.
  Theorem decimals_same {fm fm'} ds t pend log t' pend' log' ev :
    searchable_in fm ds t pend log ev -> searchable_in fm' ds t' pend' log' ev -> fair fm t ev log -> fair fm' t' ev log' ->
    entries_alike (fun a a' => decimal_atom ds a = decimal_atom ds a') log log' -> same_reports t ev t' ev.
  Proof.
    intros S S' FR FR' F. eapply same_hits; eauto. eapply alike_hits; [exact F|]. intros cs a a' A.
    destruct S as (_ & _ & HO & _). rewrite <- (decimal_sem ds cs ev a HO), <- (decimal_sem ds cs ev a' HO), A. reflexivity.
  Qed.

  (** *** Order of the variables of an event *)
  Lemma env_same c ev ev' p p' : make_env c ev = Ok p -> make_env c ev' = Ok p' ->
    (forall x, lookup ev x = lookup ev' x) -> p = p'.
  Proof.
    intros E E' L. pose proof (make_env_ok _ _ _ E) as [LE O]. pose proof (make_env_ok _ _ _ E') as [LE' O'].
    assert (forall v x d, decl (c_domains c) x = Some (v, d) -> nthN p v = nthN p' v) as K.
    { intros v x d D. specialize (O x v d D). specialize (O' x v d D). rewrite <- L in O'.
      destruct (lookup ev x); [|congruence]. destruct O as (y & A & ->), O' as (y' & A' & ->). congruence. }
    apply list_ext_nth. intros i. specialize (K (N.of_nat i)). rewrite !nthN_nth, !Nat2N.id in K.
    destruct (nth_error p i) as [o|] eqn:N1.
    - assert (nth_error p' i <> None) as N2.
      { apply nth_error_Some. rewrite LE', <- LE. apply nth_error_Some. congruence. }
      destruct (nth_error p' i) as [o'|] eqn:N3; [|congruence].
      assert (nthN p (N.of_nat i) = Some o) as M1 by (now rewrite nthN_nth, Nat2N.id).
      assert (nthN p' (N.of_nat i) = Some o') as M2 by (now rewrite nthN_nth, Nat2N.id).
      destruct o as [y|].
      + destruct (make_env_named _ _ _ _ _ E M1) as (x & d & D). apply (K x d D).
      + destruct o' as [y'|]; [|easy]. destruct (make_env_named _ _ _ _ _ E' M2) as (x & d & D). apply (K x d D).
    - symmetry. apply nth_error_None. rewrite LE', <- LE. now apply nth_error_None.
  Qed.
  Theorem lookup_same {fm} ds t pend log ev ev' r : reach_in fm ds t pend log -> event_ok ds ev -> event_ok ds ev' ->
    (forall x, lookup ev x = lookup ev' x) ->
    betree_search t ev r = betree_search t ev' r /\ betree_exists t ev = betree_exists t ev'.
  Proof.
    intros R HO HO' L. pose proof (reach_inv _ _ _ _ R) as I.
    destruct (inv_env _ _ _ _ _ I HO) as (p & E & _). destruct (inv_env _ _ _ _ _ I HO') as (p' & E' & _).
    assert (p = p') as <- by exact (env_same _ _ _ _ _ E E' L).
    unfold betree_search, betree_exists. now rewrite E, E'.
  Qed.
  Lemma lookup_app ev ev' x : lookup (ev ++ ev') x = match lookup ev' x with Some v => Some v | None => lookup ev x end.
  Proof.
    induction ev as [|[n o] ev IH]; cbn [lookup app]; [now destruct (lookup ev' x)|]. rewrite IH. now destruct (lookup ev' x).
  Qed.
  Lemma lookup_In ev x v : lookup ev x = Some v -> exists n, In (n, Some v) ev /\ lower n = lower x.
  Proof.
    induction ev as [|[n o] ev IH]; cbn [lookup]; [discriminate|]. destruct (lookup ev x) as [w|].
    - intros [= ->]. destruct IH as (m & H & E); auto. exists m. split; [now right|exact E].
    - destruct (String.eqb_spec (lower n) (lower x)) as [E|E]; [|discriminate]. intros ->. exists n. split; [now left|exact E].
  Qed.
  Lemma lookup_unique ev x v n : NoDup (map (fun e => lower (fst e)) ev) -> In (n, Some v) ev -> lower n = lower x -> lookup ev x = Some v.
  Proof.
    induction ev as [|[m o] ev IH]; cbn [lookup map fst]; intros N H E; [destruct H|]. inversion N; subst. destruct H as [[= -> ->]|H].
    - destruct (lookup ev x) as [w|] eqn:L.
      + exfalso. apply lookup_In in L. destruct L as (n' & H' & E'). apply H2. rewrite E, <- E'.
        apply (in_map (fun e => lower (fst e)) ev (n', Some w) H').
      + now rewrite E, String.eqb_refl.
    - now rewrite IH.
  Qed.
  Lemma lookup_perm ev ev' x : Permutation ev ev' -> NoDup (map (fun e => lower (fst e)) ev) -> lookup ev x = lookup ev' x.
  Proof.
    intros P N. assert (NoDup (map (fun e => lower (fst e)) ev')) as N'.
    { eapply Permutation_NoDup; [|exact N]. now apply Permutation_map. }
    destruct (lookup ev x) as [v|] eqn:L.
    - apply lookup_In in L. destruct L as (n & H & E). symmetry. eapply lookup_unique; eauto. now apply (Permutation_in _ P).
    - destruct (lookup ev' x) as [v|] eqn:L'; [|easy]. apply lookup_In in L'. destruct L' as (n & H & E).
      rewrite (lookup_unique ev x v n) in L; auto. now apply (Permutation_in _ (Permutation_sym P)).
  Qed.
  Theorem order_same {fm} ds t pend log ev ev' r : reach_in fm ds t pend log -> event_ok ds ev -> Permutation ev ev' ->
    NoDup (map (fun e => lower (fst e)) ev) ->
    betree_search t ev r = betree_search t ev' r /\ betree_exists t ev = betree_exists t ev'.
  Proof.
    intros R HO P N. eapply lookup_same; eauto.
    - intros n v H. apply HO. now apply (Permutation_in _ (Permutation_sym P)).
    - intros x. now apply lookup_perm.
  Qed.
  Lemma fill_event_null c n ev2 ev1 : forall p, fill_event c (ev1 ++ (n, None) :: ev2) p = fill_event c (ev1 ++ ev2) p.
  Proof.
    induction ev1 as [|[m [y|]] ev1 IH]; intros p; cbn [fill_event app]; auto.
    destruct (fill_variable c m y) as [[v z]| | |]; cbn [bind]; auto.
  Qed.
  Theorem null_same t ev1 n ev2 r :
    betree_search t (ev1 ++ (n, None) :: ev2) r = betree_search t (ev1 ++ ev2) r
    /\ betree_exists t (ev1 ++ (n, None) :: ev2) = betree_exists t (ev1 ++ ev2).
  Proof. unfold betree_search, betree_exists, make_env. now rewrite fill_event_null. Qed.
  Theorem last_same {fm} ds t pend log ev1 n v ev2 n' v' ev3 r : reach_in fm ds t pend log ->
    event_ok ds (ev1 ++ (n, Some v) :: ev2 ++ (n', Some v') :: ev3) -> lower n = lower n' ->
    betree_search t (ev1 ++ (n, Some v) :: ev2 ++ (n', Some v') :: ev3) r
    = betree_search t (ev1 ++ ev2 ++ (n', Some v') :: ev3) r
    /\ betree_exists t (ev1 ++ (n, Some v) :: ev2 ++ (n', Some v') :: ev3)
       = betree_exists t (ev1 ++ ev2 ++ (n', Some v') :: ev3).
  Proof.
    intros R HO E. eapply lookup_same; eauto.
    - intros m w H. apply HO. apply in_app_or in H. apply in_or_app. destruct H; auto. right. now right.
    - intros x. rewrite !lookup_app. f_equal. cbn [lookup]. rewrite lookup_app. cbn [lookup].
      destruct (lookup ev3 x) as [w|]; [easy|]. rewrite <- E. destruct (String.eqb _ _); [easy|]. now destruct (lookup ev2 x).
  Qed.

  (** *** Constants of frequency caps *)
  Theorem missing_constant t id cs x ty ns value window t' : In (AFreq ty ns value window) (src_atoms x) ->
    const_int cs (freq_const (get_type_from_string ty)) = None ->
    betree_insert_with_constants t id cs x <> Ok (true, t') /\ (forall s, betree_make_sub t id cs x <> Ok (Some s, t')).
  Proof.
    intros HI HC.
    assert (forall p, assign_const_leaf cs p = None <-> exists v ty ns value len now id, p = PFreq v ty ns value len now id
       /\ match constant_name ty with Some n => get_integer_constant n cs | None => None end = None) as K.
    { intros p. destruct p; cbn [assign_const_leaf]; try (split; [discriminate|now intros (? & ? & ? & ? & ? & ? & ? & [=] & _)]).
      split; [|intros (? & ? & ? & ? & ? & ? & ? & [=] & E); subst; destruct (constant_name _); [now rewrite E|easy]].
      intros E. do 7 eexists. split; [reflexivity|]. destruct (constant_name ty0); [|easy]. now destruct (get_integer_constant s cs). }
    assert (forall e, (exists p, In p (expr_leaves e) /\ assign_const_leaf cs p = None) -> assign_constants cs e = None) as A.
    { induction e as [g p|g a IHa b IHb|g a IHa b IHb|g a IHa]; cbn [expr_leaves assign_constants]; intros (q & HQ & HN).
      - destruct HQ as [<-|[]]. now rewrite HN.
      - apply in_app_or in HQ. destruct HQ; [rewrite IHa by eauto; easy|rewrite IHb by eauto; now destruct (assign_constants cs a)].
      - apply in_app_or in HQ. destruct HQ; [rewrite IHa by eauto; easy|rewrite IHb by eauto; now destruct (assign_constants cs a)].
      - now rewrite IHa by eauto. }
    (* The passes keep the predicate and its type. *)
    set (isf := fun q => exists v ns value len now id, q = PFreq v (get_type_from_string ty) ns value len now id).
    assert (forall q, isf q -> assign_const_leaf cs q = None) as D.
    { intros q (v & ns' & va & le & no & i & ->). apply K. do 7 eexists. split; [reflexivity|].
      destruct (constant_name _) as [nm|] eqn:E; [|easy]. rewrite get_integer_constant_eq.
      replace nm with (freq_const (get_type_from_string ty)); [exact HC|].
      destruct (get_type_from_string ty); cbn in E |- *; congruence. }
    assert (exists q, In q (expr_leaves (build x)) /\ isf q) as (q & HQ & IQ).
    { pose proof (rel_src_build x) as RB. clear - HI RB. induction RB as [a g q ->|x g e R IH|x y g e e' R IH R' IH'|x y g e e' R IH R' IH'|x y g e e' R IH R' IH'|x y g e e' R IH R' IH'];
        cbn [src_atoms expr_leaves] in *;
        try (apply in_app_or in HI; destruct HI as [HI|HI]; [destruct (IH HI) as (q & A & B)|destruct (IH' HI) as (q & A & B)]; exists q; split; auto; apply in_or_app; auto).
      - destruct HI as [->|[]]. eexists. split; [now left|]. unfold isf, mk_freq. cbn [build_atom]. do 6 eexists. reflexivity.
      - auto. }
    assert (forall f e, (forall p, isf p -> isf (f p)) -> (exists q, In q (expr_leaves e) /\ isf q) ->
       exists q, In q (expr_leaves (map_leaves f e)) /\ isf q) as M.
    { intros f e HF. induction e as [g p|g a IHa b IHb|g a IHa b IHb|g a IHa]; cbn [expr_leaves map_leaves]; intros (p0 & H & I).
      - destruct H as [<-|[]]. exists (f p). split; [now left|auto].
      - apply in_app_or in H. destruct H as [H|H]; [destruct IHa as (z & Z1 & Z2)|destruct IHb as (z & Z1 & Z2)]; eauto; exists z; split; auto; apply in_or_app; auto.
      - apply in_app_or in H. destruct H as [H|H]; [destruct IHa as (z & Z1 & Z2)|destruct IHb as (z & Z1 & Z2)]; eauto; exists z; split; auto; apply in_or_app; auto.
      - apply IHa. eauto. }
    assert (forall f, (forall c p p' c', f c p = Ok (p', c') -> isf p -> isf p') -> forall e c e' c', trav f c e = Ok (e', c') ->
       (exists q, In q (expr_leaves e) /\ isf q) -> exists q, In q (expr_leaves e') /\ isf q) as T.
    { intros f HF. induction e as [g p|g a IHa b IHb|g a IHa b IHb|g a IHa]; intros c e' c' H (p0 & HP & I); cbn [trav expr_leaves] in *.
      - apply bind_ok in H. destruct H as ([p' c1] & E & H). injection H as <- <-. destruct HP as [<-|[]]. exists p'. split; [now left|eauto].
      - apply bind_ok in H. destruct H as ([a' c1] & E & H). apply bind_ok in H. destruct H as ([b' c2] & E' & H). injection H as <- <-. cbn [expr_leaves].
        apply in_app_or in HP. destruct HP as [HP|HP]; [destruct (IHa _ _ _ E) as (z & Z1 & Z2)|destruct (IHb _ _ _ E') as (z & Z1 & Z2)]; eauto; exists z; split; auto; apply in_or_app; auto.
      - apply bind_ok in H. destruct H as ([a' c1] & E & H). apply bind_ok in H. destruct H as ([b' c2] & E' & H). injection H as <- <-. cbn [expr_leaves].
        apply in_app_or in HP. destruct HP as [HP|HP]; [destruct (IHa _ _ _ E) as (z & Z1 & Z2)|destruct (IHb _ _ _ E') as (z & Z1 & Z2)]; eauto; exists z; split; auto; apply in_or_app; auto.
      - apply bind_ok in H. destruct H as ([a' c1] & E & H). injection H as <- <-. cbn [expr_leaves]. eauto. }
    destruct (M (assign_var_leaf (bt_cfg t)) (build x)) as (q1 & H1 & I1); eauto.
    { intros p (v & ns' & va & le & no & i & ->). cbn [assign_var_leaf]. unfold isf. do 6 eexists. reflexivity. }
    fold (assign_variable_id (bt_cfg t) (build x)) in H1. split.
    - unfold betree_insert_with_constants, insert_expr. intros H. apply bind_ok in H. destruct H as (ok & _ & H).
      destruct (negb ok); [discriminate|]. rewrite A in H by eauto. discriminate.
    - intros s H. unfold betree_make_sub, make_sub_expr in H. apply bind_ok in H. destruct H as (ok & _ & H). destruct (negb ok); [discriminate|].
      apply bind_ok in H. destruct H as ([e3 c3] & E3 & H). apply bind_ok in H. destruct H as ([e4 c4] & E4 & H).
      apply bind_ok in H. destruct H as ([e5 c5] & E5 & H). apply bind_ok in H. destruct H as (ok2 & _ & H).
      destruct (negb ok2); [discriminate|]. rewrite A in H; [discriminate|].
      assert (exists q, In q (expr_leaves e5) /\ isf q) as (q5 & H5 & I5); [|eauto].
      eapply T; [|exact E5|].
      { intros c p p' c' HF (v & ns' & va & le & no & i & ->). cbn [fix_leaf] in HF. injection HF as <- <-. unfold isf. do 6 eexists. reflexivity. }
      eapply T; [|exact E4|].
      { intros c p p' c' HF (v & ns' & va & le & no & i & ->). cbn [assign_ie_leaf] in HF. injection HF as <- <-. unfold isf. do 6 eexists. reflexivity. }
      eapply T; [|exact E3|eauto].
      { intros c p p' c' HF (v & ns' & va & le & no & i & ->). cbn [assign_str_leaf] in HF. apply bind_ok in HF. destruct HF as ([j c1] & _ & HF).
        injection HF as <- <-. unfold isf. do 6 eexists. reflexivity. }
  Qed.
  Theorem freq_reported {fm} ds t pend log ev e ty ns value window id caps now : searchable_in fm ds t pend log ev -> In e log ->
    e_src e = XAtom (AFreq ty ns value window) -> const_int (e_cs e) (freq_const (get_type_from_string ty)) = Some id ->
    lookup ev "frequency_caps" = Some (VFreqs caps) -> lookup ev "now" = Some (VInt now) ->
    (reports t ev (e_id e) <->
     match find (fun k => (fc_id k =? id) && String.eqb (sv_string (fc_ns k)) ns
                          && (ftype_num (fc_type k) =? ftype_num (get_type_from_string ty))) caps with
     | None => True
     | Some k => fc_value k < value
                 \/ (0 < window /\ (fc_tsdef k = false \/ window < now - Z.quot (fc_ts k) 1000000))
     end).
  Proof.
    intros S HI E C L1 L2. rewrite (reported _ _ _ _ _ e S HI (fair_atom _ _ _ _ _ E eq_refl)), E. cbn [sem sem_atom]. rewrite L1, L2, C. cbn [caps_in].
    assert (sem_freq caps (get_type_from_string ty) id ns value window now = true <->
       match find (fun k => (fc_id k =? id) && String.eqb (sv_string (fc_ns k)) ns
                          && (ftype_num (fc_type k) =? ftype_num (get_type_from_string ty))) caps with
     | None => True
     | Some k => fc_value k < value
                 \/ (0 < window /\ (fc_tsdef k = false \/ window < now - Z.quot (fc_ts k) 1000000))
     end) as K.
    { unfold sem_freq. destruct (find _ caps) as [k|]; [|easy]. destruct (fc_tsdef k); cbn; lia. }
    destruct caps as [|k caps]; [easy|exact K].
  Qed.

  (** *** Equality with constants *)
  Theorem eq_str_reported {fm} ds t pend log ev e op x s y : searchable_in fm ds t pend log ev -> In e log ->
    e_src e = XAtom (AEq op x (SStr s)) -> lookup ev x = Some (VStr y) ->
    (reports t ev (e_id e) <-> match op with QEq => sv_string y = s | QNe => sv_string y <> s end).
  Proof.
    intros S HI E L. rewrite (reported _ _ _ _ _ e S HI (fair_atom _ _ _ _ _ E eq_refl)), E. cbn [sem sem_atom]. rewrite L.
    destruct op; unfold eq_res; destruct (String.eqb_spec (sv_string y) s); cbn [negb]; intuition congruence.
  Qed.
  Lemma fair_eq_int fm t ev e op x z y : e_src e = XAtom (AEq op x (SInt z)) -> lookup ev x = Some (VInt y) -> fair fm t ev [e].
  Proof.
    intros E L. apply (fair_clear_atom _ _ _ _ _ E). constructor; [|constructor]. intros n k f v d K _ _ LK.
    cbn [constant_of] in K. injection K as <- _. congruence.
  Qed.
  Theorem eq_int_reported {fm} ds t pend log ev e op x z y : searchable_in fm ds t pend log ev -> In e log ->
    e_src e = XAtom (AEq op x (SInt z)) -> lookup ev x = Some (VInt y) ->
    (reports t ev (e_id e) <-> match op with QEq => y = z | QNe => y <> z end).
  Proof.
    intros S HI E L. rewrite (reported _ _ _ _ _ e S HI (fair_eq_int _ _ _ _ _ _ _ _ E L)), E. cbn [sem sem_atom]. rewrite L.
    destruct op; unfold eq_res; destruct (Z.eqb_spec y z); cbn [negb]; intuition congruence.
  Qed.

  (** *** Reordering by cost *)
  Lemma rel_plain x : rel_src (fun a q => q = build_atom a) x (plain x).
  Proof. induction x; cbn [plain]; constructor; auto. Qed.
  Lemma rel_value (V : leaf -> bool) p f x e : rel_src (fun a q => q = build_atom a) x e ->
    (forall a, In a (src_atoms x) -> match_leaf p (f (build_atom a)) = Ok (V (build_atom a))) ->
    eval p (map_leaves f e) = Ok ((fix val x := match x with XAtom a => V (build_atom a) | XNot a => negb (val a) | XAnd a b => val a && val b | XOr a b => val a || val b end) x).
  Proof.
    induction 1 as [a g q ->|x g e R IH|x y g e e' R IH R' IH'|x y g e e' R IH R' IH'|x y g e e' R IH R' IH'|x y g e e' R IH R' IH'];
      cbn [src_atoms map_leaves eval]; intros K; [apply K; now left|rewrite IH by auto; easy| | | |];
      rewrite IH, IH' by (intros; apply K, in_or_app; auto); cbn [bind];
      match goal with |- context [if ?u then _ else _] => destruct u eqn:? end; cbn [bind];
      rewrite ?andb_true_r, ?andb_false_r, ?orb_true_r, ?orb_false_r; reflexivity.
  Qed.
  Theorem reorder_same p f x : (forall a, In a (src_atoms x) -> exists b, match_leaf p (f (build_atom a)) = Ok b) ->
    eval p (map_leaves f (build x)) = eval p (map_leaves f (plain x)).
  Proof.
    intros H. set (V := fun q => match match_leaf p (f q) with Ok b => b | _ => false end).
    assert (forall a, In a (src_atoms x) -> match_leaf p (f (build_atom a)) = Ok (V (build_atom a))) as K.
    { intros a HA. destruct (H a HA) as [b E]. unfold V. now rewrite E. }
    now rewrite (rel_value V p f x _ (rel_src_build x) K), (rel_value V p f x _ (rel_plain x) K).
  Qed.
End WithGeo.

(** *** Interning *)
Definition grows {A} (T T' : N -> list A) : Prop := forall v, exists l, T' v = T v ++ l.
Lemma grows_refl {A} (T : N -> list A) : grows T T.
Proof. intros v. exists []. now rewrite app_nil_r. Qed.
Lemma grows_trans {A} (T T' T'' : N -> list A) : grows T T' -> grows T' T'' -> grows T T''.
Proof. intros H H' v. destruct (H v) as [l E], (H' v) as [l' E']. exists (l ++ l'). now rewrite E', E, app_assoc. Qed.
Lemma interned_grows {A} (T T' : N -> list A) v s rm inv i index : interned T T' v s rm inv i index -> grows T T'.
Proof.
  intros [[_ H]|[(_ & _ & _ & H)|(_ & _ & _ & H)]] w; rewrite H; try (exists []; now rewrite app_nil_r).
  destruct (N.eqb_spec v w) as [->|]; [now exists [s]|exists []; now rewrite app_nil_r].
Qed.

Lemma ask_strs_grows l : forall c ids c', ask_strs c l = Ok (ids, c') -> grows (strs c) (strs c') /\ c_domains c' = c_domains c.
Proof.
  induction l as [|[[v s] a] l IH]; intros c ids c' H; cbn [ask_strs] in H; [injection H as <- <-; split; [apply grows_refl|easy]|].
  apply bind_ok in H. destruct H as ([i c1] & E & H). apply bind_ok in H. destruct H as ([ids1 c2] & E1 & H). injection H as <- <-. cbn [fst snd] in *.
  destruct (get_id_for_string_ok _ _ _ _ _ _ E) as [SB I]. destruct (IH _ _ _ E1) as [G1 D1]. split; [|rewrite D1; apply SB].
  eapply grows_trans; [eapply interned_grows; eauto|exact G1].
Qed.
Lemma ask_strs_index l : forall c ids c', ask_strs c l = Ok (ids, c') ->
  forall k v s a i, nth_error l k = Some (v, s, a) -> nth_error ids k = Some i -> i <> INVALID_STR ->
  str_index (strs c' (av_var v)) s = Some i.
Proof.
  induction l as [|[[v s] a] l IH]; intros c ids c' H k v' s' a' i' HK HI NI; [destruct k; discriminate|]. cbn [ask_strs] in H.
  apply bind_ok in H. destruct H as ([i c1] & E & H). apply bind_ok in H. destruct H as ([ids1 c2] & E1 & H). injection H as <- <-. cbn [fst snd] in *.
  destruct k as [|k]; cbn [nth_error] in HK, HI; [|eapply IH; eauto]. injection HK as -> -> ->. injection HI as ->.
  destruct (get_id_for_string_ok _ _ _ _ _ _ E) as [_ I]. destruct (ask_strs_grows _ _ _ _ E1) as [GR _]. destruct (GR (av_var v')) as [m ->].
  apply index_of_app. destruct I as [[I H]|[(_ & _ & I & _)|(N & _ & -> & H)]]; rewrite ?H; auto; [contradiction|].
  rewrite N.eqb_refl. apply index_of_last; auto. apply String.eqb_eq.
Qed.
Lemma ask_strs_In l : forall c ids c', ask_strs c l = Ok (ids, c') -> forall v s, In s (strs c' v) ->
  In s (strs c v) \/ exists v' a, In (v', s, a) l /\ av_var v' = v.
Proof.
  induction l as [|[[v s] a] l IH]; intros c ids c' H v' s' HI; cbn [ask_strs] in H; [injection H as <- <-; now left|].
  apply bind_ok in H. destruct H as ([i c1] & E & H). apply bind_ok in H. destruct H as ([ids1 c2] & E1 & H). injection H as <- <-. cbn [fst snd] in *.
  destruct (IH _ _ _ E1 _ _ HI) as [K|(w & b & K & EW)]; [|right; exists w, b; split; [now right|exact EW]].
  destruct (get_id_for_string_ok _ _ _ _ _ _ E) as [_ I]. destruct I as [[_ H]|[(_ & _ & _ & H)|(_ & _ & _ & H)]]; rewrite H in K; auto.
  destruct (N.eqb_spec (av_var v) v') as [<-|]; [|now left]. apply in_app_or in K. destruct K as [K|[<-|[]]]; [now left|].
  right. exists v, a. split; [now left|easy].
Qed.
Lemma ask_strs_length l : forall c ids c', ask_strs c l = Ok (ids, c') -> forall v,
  (length (strs c' v) <= length (strs c v) + length l)%nat.
Proof.
  induction l as [|[[v s] a] l IH]; intros c ids c' H w; cbn [ask_strs] in H; [injection H as <- <-; cbn; lia|].
  apply bind_ok in H. destruct H as ([i c1] & E & H). apply bind_ok in H. destruct H as ([ids1 c2] & E1 & H). injection H as <- <-. cbn [fst snd] in *.
  specialize (IH _ _ _ E1 w). cbn [length]. destruct (get_id_for_string_ok _ _ _ _ _ _ E) as [_ I].
  destruct I as [[_ H]|[(_ & _ & _ & H)|(_ & _ & _ & H)]]; rewrite H in IH; try lia. destruct (N.eqb_spec (av_var v) w) as [EW|]; [|lia].
  rewrite app_length in IH. cbn [length] in IH. rewrite <- EW in IH |- *. lia.
Qed.
Lemma ask_strs_valid l : forall c ids c', ask_strs c l = Ok (ids, c') ->
  forall k v s i, nth_error l k = Some (v, s, true) -> nth_error ids k = Some i ->
  (forall v, Z.of_nat (length (strs c v) + length l) < INVALID_STR) -> i <> INVALID_STR.
Proof.
  induction l as [|[[v s] a] l IH]; intros c ids c' H k v' s' i' HK HI B; [destruct k; discriminate|]. cbn [ask_strs] in H.
  apply bind_ok in H. destruct H as ([i c1] & E & H). apply bind_ok in H. destruct H as ([ids1 c2] & E1 & H). injection H as <- <-. cbn [fst snd] in *.
  destruct (get_id_for_string_ok _ _ _ _ _ _ E) as [_ I]. destruct k as [|k]; cbn [nth_error] in HK, HI.
  - injection HK as -> -> ->. injection HI as ->. specialize (B (av_var v')). cbn [length] in B.
    destruct I as [[I _]|[(_ & R & _ & _)|(_ & _ & -> & _)]]; [|discriminate R|unfold INVALID_STR in *; lia].
    pose proof (str_index_spec (strs c (av_var v')) s') as K. rewrite I in K. unfold INVALID_STR in *. lia.
  - eapply IH; eauto. intros w. specialize (B w). cbn [length] in B.
    pose proof (ask_strs_length [(v, s, a)] c [i] c1) as LN. cbn [ask_strs] in LN. rewrite E in LN. cbn [bind fst snd] in LN.
    specialize (LN eq_refl w). cbn [length] in LN. lia.
Qed.
Theorem string_ids c l ids c' : c_strs c = [] -> ask_strs c l = Ok (ids, c') ->
  (forall k k' v v' s s' a a' i i',
     nth_error l k = Some (v, s, a) -> nth_error ids k = Some i -> i <> INVALID_STR ->
     nth_error l k' = Some (v', s', a') -> nth_error ids k' = Some i' -> i' <> INVALID_STR ->
     av_var v = av_var v' -> (i = i' <-> s = s'))
  /\ (forall k v s a i, nth_error l k = Some (v, s, a) -> nth_error ids k = Some i -> i <> INVALID_STR ->
        try_get_str c' (av_var v) s = i)
  /\ (forall v s, (forall v' a, In (v', s, a) l -> av_var v' <> v) -> try_get_str c' v s = INVALID_STR)
  /\ (Z.of_nat (length l) < INVALID_STR -> forall k v s i, nth_error l k = Some (v, s, true) -> nth_error ids k = Some i -> i <> INVALID_STR).
Proof.
  intros C0 H. assert (forall v, strs c v = []) as T0 by (intros v; unfold strs; now rewrite C0). sp.
  - intros k k' v v' s s' a a' i i' K1 K2 K3 K1' K2' K3' EV.
    pose proof (ask_strs_index _ _ _ _ H _ _ _ _ _ K1 K2 K3) as I. pose proof (ask_strs_index _ _ _ _ H _ _ _ _ _ K1' K2' K3') as I'.
    rewrite <- EV in I'. split; [intros <-|intros <-; congruence]. eapply index_of_inj; [apply String.eqb_eq|exact I|exact I'].
  - intros k v s a i K1 K2 K3. rewrite try_get_str_alt. now rewrite (ask_strs_index _ _ _ _ H _ _ _ _ _ K1 K2 K3).
  - intros v s K. rewrite try_get_str_alt. pose proof (str_index_spec (strs c' v) s) as I. destruct (str_index (strs c' v) s) as [i|]; [|easy].
    destruct I as [_ I]. apply nth_error_In in I. destruct (ask_strs_In _ _ _ _ H _ _ I) as [X|(v' & a & X & Y)]; [rewrite T0 in X; destruct X|].
    now destruct (K v' a X).
  - intros B k v s i K1 K2. eapply ask_strs_valid; eauto. intros w. rewrite T0. exact B.
Qed.

Lemma ask_ints_grows l : forall c ids c', ask_ints c l = Ok (ids, c') -> grows (ints c) (ints c') /\ c_domains c' = c_domains c.
Proof.
  induction l as [|[[v s] a] l IH]; intros c ids c' H; cbn [ask_ints] in H; [injection H as <- <-; split; [apply grows_refl|easy]|].
  apply bind_ok in H. destruct H as ([i c1] & E & H). apply bind_ok in H. destruct H as ([ids1 c2] & E1 & H). injection H as <- <-. cbn [fst snd] in *.
  destruct (get_id_for_ienum_ok _ _ _ _ _ _ E) as [SB I]. destruct (IH _ _ _ E1) as [G1 D1]. split; [|rewrite D1; apply SB].
  eapply grows_trans; [eapply interned_grows; eauto|exact G1].
Qed.
Lemma ask_ints_index l : forall c ids c', ask_ints c l = Ok (ids, c') ->
  forall k v s a i, nth_error l k = Some (v, s, a) -> nth_error ids k = Some i -> i <> INVALID_IENUM ->
  int_index (ints c' (av_var v)) s = Some i.
Proof.
  induction l as [|[[v s] a] l IH]; intros c ids c' H k v' s' a' i' HK HI NI; [destruct k; discriminate|]. cbn [ask_ints] in H.
  apply bind_ok in H. destruct H as ([i c1] & E & H). apply bind_ok in H. destruct H as ([ids1 c2] & E1 & H). injection H as <- <-. cbn [fst snd] in *.
  destruct k as [|k]; cbn [nth_error] in HK, HI; [|eapply IH; eauto]. injection HK as -> -> ->. injection HI as ->.
  destruct (get_id_for_ienum_ok _ _ _ _ _ _ E) as [_ I]. destruct (ask_ints_grows _ _ _ _ E1) as [GR _]. destruct (GR (av_var v')) as [m ->].
  apply index_of_app. destruct I as [[I H]|[(_ & _ & I & _)|(N & _ & -> & H)]]; rewrite ?H; auto; [contradiction|].
  rewrite N.eqb_refl. apply index_of_last; auto. apply Z.eqb_eq.
Qed.
Lemma ask_ints_In l : forall c ids c', ask_ints c l = Ok (ids, c') -> forall v s, In s (ints c' v) ->
  In s (ints c v) \/ exists v' a, In (v', s, a) l /\ av_var v' = v.
Proof.
  induction l as [|[[v s] a] l IH]; intros c ids c' H v' s' HI; cbn [ask_ints] in H; [injection H as <- <-; now left|].
  apply bind_ok in H. destruct H as ([i c1] & E & H). apply bind_ok in H. destruct H as ([ids1 c2] & E1 & H). injection H as <- <-. cbn [fst snd] in *.
  destruct (IH _ _ _ E1 _ _ HI) as [K|(w & b & K & EW)]; [|right; exists w, b; split; [now right|exact EW]].
  destruct (get_id_for_ienum_ok _ _ _ _ _ _ E) as [_ I]. destruct I as [[_ H]|[(_ & _ & _ & H)|(_ & _ & _ & H)]]; rewrite H in K; auto.
  destruct (N.eqb_spec (av_var v) v') as [<-|]; [|now left]. apply in_app_or in K. destruct K as [K|[<-|[]]]; [now left|].
  right. exists v, a. split; [now left|easy].
Qed.
Lemma ask_ints_length l : forall c ids c', ask_ints c l = Ok (ids, c') -> forall v,
  (length (ints c' v) <= length (ints c v) + length l)%nat.
Proof.
  induction l as [|[[v s] a] l IH]; intros c ids c' H w; cbn [ask_ints] in H; [injection H as <- <-; cbn; lia|].
  apply bind_ok in H. destruct H as ([i c1] & E & H). apply bind_ok in H. destruct H as ([ids1 c2] & E1 & H). injection H as <- <-. cbn [fst snd] in *.
  specialize (IH _ _ _ E1 w). cbn [length]. destruct (get_id_for_ienum_ok _ _ _ _ _ _ E) as [_ I].
  destruct I as [[_ H]|[(_ & _ & _ & H)|(_ & _ & _ & H)]]; rewrite H in IH; try lia. destruct (N.eqb_spec (av_var v) w) as [EW|]; [|lia].
  rewrite app_length in IH. cbn [length] in IH. rewrite <- EW in IH |- *. lia.
Qed.
Lemma ask_ints_valid l : forall c ids c', ask_ints c l = Ok (ids, c') ->
  forall k v s i, nth_error l k = Some (v, s, true) -> nth_error ids k = Some i ->
  (forall v, Z.of_nat (length (ints c v) + length l) < INVALID_IENUM) -> i <> INVALID_IENUM.
Proof.
  induction l as [|[[v s] a] l IH]; intros c ids c' H k v' s' i' HK HI B; [destruct k; discriminate|]. cbn [ask_ints] in H.
  apply bind_ok in H. destruct H as ([i c1] & E & H). apply bind_ok in H. destruct H as ([ids1 c2] & E1 & H). injection H as <- <-. cbn [fst snd] in *.
  destruct (get_id_for_ienum_ok _ _ _ _ _ _ E) as [_ I]. destruct k as [|k]; cbn [nth_error] in HK, HI.
  - injection HK as -> -> ->. injection HI as ->. specialize (B (av_var v')). cbn [length] in B.
    destruct I as [[I _]|[(_ & R & _ & _)|(_ & _ & -> & _)]]; [|discriminate R|unfold INVALID_IENUM in *; lia].
    pose proof (int_index_spec (ints c (av_var v')) s') as K. rewrite I in K. unfold INVALID_IENUM in *. lia.
  - eapply IH; eauto. intros w. specialize (B w). cbn [length] in B.
    pose proof (ask_ints_length [(v, s, a)] c [i] c1) as LN. cbn [ask_ints] in LN. rewrite E in LN. cbn [bind fst snd] in LN.
    specialize (LN eq_refl w). cbn [length] in LN. lia.
Qed.
Theorem ienum_ids c l ids c' : c_ints c = [] -> ask_ints c l = Ok (ids, c') ->
  (forall k k' v v' s s' a a' i i',
     nth_error l k = Some (v, s, a) -> nth_error ids k = Some i -> i <> INVALID_IENUM ->
     nth_error l k' = Some (v', s', a') -> nth_error ids k' = Some i' -> i' <> INVALID_IENUM ->
     av_var v = av_var v' -> (i = i' <-> s = s'))
  /\ (forall k v s a i, nth_error l k = Some (v, s, a) -> nth_error ids k = Some i -> i <> INVALID_IENUM ->
        try_get_ie c' (av_var v) s = i)
  /\ (forall v s, (forall v' a, In (v', s, a) l -> av_var v' <> v) -> try_get_ie c' v s = INVALID_IENUM)
  /\ (Z.of_nat (length l) < INVALID_IENUM -> forall k v s i, nth_error l k = Some (v, s, true) -> nth_error ids k = Some i -> i <> INVALID_IENUM).
Proof.
  intros C0 H. assert (forall v, ints c v = []) as T0 by (intros v; unfold ints; now rewrite C0). sp.
  - intros k k' v v' s s' a a' i i' K1 K2 K3 K1' K2' K3' EV.
    pose proof (ask_ints_index _ _ _ _ H _ _ _ _ _ K1 K2 K3) as I. pose proof (ask_ints_index _ _ _ _ H _ _ _ _ _ K1' K2' K3') as I'.
    rewrite <- EV in I'. split; [intros <-|intros <-; congruence]. eapply index_of_inj; [apply Z.eqb_eq|exact I|exact I'].
  - intros k v s a i K1 K2 K3. rewrite try_get_ie_alt. now rewrite (ask_ints_index _ _ _ _ H _ _ _ _ _ K1 K2 K3).
  - intros v s K. rewrite try_get_ie_alt. pose proof (int_index_spec (ints c' v) s) as I. destruct (int_index (ints c' v) s) as [i|]; [|easy].
    destruct I as [_ I]. apply nth_error_In in I. destruct (ask_ints_In _ _ _ _ H _ _ I) as [X|(v' & a & X & Y)]; [rewrite T0 in X; destruct X|].
    now destruct (K v' a X).
  - intros B k v s i K1 K2. eapply ask_ints_valid; eauto. intros w. rewrite T0. exact B.
Qed.
