(** Proofs about unrestricted histories. *)
From Coq Require Import ZArith NArith String Bool List Permutation Lia.
From Verif Require Import Base Float Value Ast Config Assign Special Match Bound Tree PredMap Source Api Spec TreeSpec Calls.
From Verif Require Import BaseProofs InternProofs ExtProofs TreeProofs ResProofs ShortProofs SearchProofs AnswerProofs BoundedProofs.
From Verif Require Import Hist.
Import ListNotations.
Local Open Scope Z_scope.

(** *** What no call changes in a configuration *)
Definition same_cfg (c c' : config) : Prop :=
  c_cap c' = c_cap c /\ c_minpart c' = c_minpart c /\ c_maxsplit c' = c_maxsplit c
  /\ map dom_sig (c_domains c') = map dom_sig (c_domains c).
Lemma same_cfg_refl c : same_cfg c c. Proof. now repeat split. Qed.
Lemma same_cfg_trans a b c : same_cfg a b -> same_cfg b c -> same_cfg a c.
Proof. intros (A1 & A2 & A3 & A4) (B1 & B2 & B3 & B4). repeat split; congruence. Qed.
Lemma get_str_cfg c v s always i c' : get_id_for_string c v s always = Ok (i, c') -> same_cfg c c'.
Proof. intros H. apply get_id_for_string_ok in H. destruct H as [(A & B & C & D & _) _]. repeat split; congruence. Qed.
Lemma get_ie_cfg c v s always i c' : get_id_for_ienum c v s always = Ok (i, c') -> same_cfg c c'.
Proof. intros H. apply get_id_for_ienum_ok in H. destruct H as [(A & B & C & D & _) _]. repeat split; congruence. Qed.
Lemma assign_strs_cfg v always : forall l c l' c', assign_strs c v l always = Ok (l', c') -> same_cfg c c'.
Proof.
  induction l as [|s l IH]; intros c l' c' H; cbn [assign_strs] in H; [injection H as <- <-; apply same_cfg_refl|].
  apply bind_ok in H. destruct H as ([i c1] & H1 & H). apply bind_ok in H. destruct H as ([t c2] & H2 & H).
  injection H as <- <-. eapply same_cfg_trans; [eapply get_str_cfg; eauto|eapply IH; eauto].
Qed.
Lemma str_cfg c e always e' c' : assign_str_id c e always = Ok (e', c') -> same_cfg c c'.
Proof.
  unfold assign_str_id. apply (trav_keeps _ same_cfg same_cfg_refl same_cfg_trans). clear. intros c p q c' H.
  destruct p as [b|v|op v x|op v x|op l r|op v x|op v|v ty ns vl w now id|op h v id s now|h la lo r x y|op v pat]; cbn [assign_str_leaf] in H;
    try (injection H as <- <-; apply same_cfg_refl).
  - destruct x; try (injection H as <- <-; apply same_cfg_refl).
    apply bind_ok in H. destruct H as ([i c1] & H1 & H). injection H as <- <-. eapply get_str_cfg; eauto.
  - destruct l; destruct r; try discriminate; try (injection H as <- <-; apply same_cfg_refl);
      apply bind_ok in H; destruct H as ([i c1] & H1 & H); injection H as <- <-; eauto using get_str_cfg, assign_strs_cfg.
  - destruct x; try (injection H as <- <-; apply same_cfg_refl).
    apply bind_ok in H; destruct H as ([i c1] & H1 & H); injection H as <- <-; eauto using assign_strs_cfg.
  - apply bind_ok in H. destruct H as ([i c1] & H1 & H). injection H as <- <-. eapply get_str_cfg; eauto.
Qed.
Lemma ie_cfg c e always e' c' : assign_ienum_id c e always = Ok (e', c') -> same_cfg c c'.
Proof.
  unfold assign_ienum_id. apply (trav_keeps _ same_cfg same_cfg_refl same_cfg_trans). clear. intros c p q c' H.
  destruct p as [b|v|op v x|op v x|op l r|op v x|op v|v ty ns vl w now id|op h v id s now|h la lo r x y|op v pat]; cbn [assign_ie_leaf] in H;
    try (injection H as <- <-; apply same_cfg_refl).
  destruct x as [z| | | ]; try (injection H as <- <-; apply same_cfg_refl).
  apply bind_ok in H. destruct H as (d & _ & H).
  destruct (d_bound d) as [lo hi|w lo hi|lo hi|w lo hi| | ]; try (injection H as <- <-; apply same_cfg_refl).
  destruct w; try (injection H as <- <-; apply same_cfg_refl).
  apply bind_ok in H. destruct H as ([i c1] & H1 & H). injection H as <- <-. eapply get_ie_cfg; eauto.
Qed.
Lemma fix_same c e e' c' : fix_float c e = Ok (e', c') -> c' = c.
Proof.
  revert e'. intros e'. unfold fix_float.
  apply (trav_keeps fix_leaf (fun c c' => c' = c)); [easy|congruence|]. clear. intros c p q c' H.
  destruct p as [b|v|op v x|op v x|op l r|op v x|op v|v ty ns vl w now id|op h v id s now|h la lo r x y|op v pat]; cbn [fix_leaf] in H;
    try (now injection H as <- <-);
    apply bind_ok in H; destruct H as (d & _ & H); destruct x; now injection H as <- <-.
Qed.
Lemma widen_type c v dom b b' : widen c v dom b = Ok b' -> btype b' = btype dom.
Proof.
  destruct dom as [lo hi|w lo hi|lo hi|w lo hi| | ]; cbn [widen]; intros H.
  - now injection H as <-.
  - destruct b; try discriminate. now injection H as <-.
  - destruct b; try discriminate. now injection H as <-.
  - destruct w; now injection H as <-.
  - now injection H as <-.
  - now injection H as <-.
Qed.
Lemma change_cfg c e c' : change_boundaries c e = Ok c' -> same_cfg c c'.
Proof.
  unfold change_boundaries. intros H. apply bind_ok in H. destruct H as (ds & H & [= <-]).
  repeat split. cbn [set_domains c_domains]. revert ds H. generalize 0%N as v. generalize (c_domains c) as l.
  induction l as [|d l IH]; intros v ds H; cbn [change_from] in H; [now injection H as <-|].
  apply bind_ok in H. destruct H as (d' & Hd & H). apply bind_ok in H. destruct H as (t' & Ht & [= <-]).
  cbn [map]. f_equal; [|eapply IH; eauto].
  destruct (skip_domain (d_bound d)); [now injection Hd as <-|].
  apply bind_ok in Hd. destruct Hd as (o & _ & Hd). destruct o as [b|]; [|now injection Hd as <-].
  apply bind_ok in Hd. destruct Hd as (b' & Hb & [= <-]). unfold dom_sig. cbn [d_attr d_bound d_undef].
  now rewrite (widen_type _ _ _ _ _ Hb).
Qed.

(** *** What the calls do *)
Lemma insert_parts t id cs x t' : betree_insert_with_constants t id cs x = Ok (true, t') ->
  exists c m s, same_cfg (bt_cfg t) c /\ s_id s = id /\ insert_sub (mkBT c m (bt_root t)) s = Ok t'.
Proof.
  unfold betree_insert_with_constants, insert_expr. intros H. apply bind_ok in H. destruct H as (ok & V & H).
  destruct ok; cbn [negb] in H; [|discriminate].
  destruct (assign_constants cs _) as [e2|]; [|discriminate].
  apply bind_ok in H. destruct H as ([e3 c3] & H3 & H). apply bind_ok in H. destruct H as ([e4 c4] & H4 & H).
  apply bind_ok in H. destruct H as ([e5 c5] & H5 & H). apply bind_ok in H. destruct H as ([e6 m] & H6 & H).
  apply bind_ok in H. destruct H as (s & H7 & H). apply bind_ok in H. destruct H as (t1 & H8 & H). injection H as <-.
  apply make_sub_sc in H7. apply fix_same in H5. subst c5. exists c4, m, s. split; [|tauto].
  eapply same_cfg_trans; [eapply str_cfg; eauto|eapply ie_cfg; eauto].
Qed.
Lemma make_parts t id cs x o t' : betree_make_sub t id cs x = Ok (o, t') ->
  same_cfg (bt_cfg t) (bt_cfg t') /\ bt_root t' = bt_root t
  /\ match o with Some s => s_id s = id | None => bt_pm t' = bt_pm t end.
Proof.
  unfold betree_make_sub, make_sub_expr. intros H. apply bind_ok in H. destruct H as (ok & V & H).
  destruct ok; cbn [negb] in H; [|injection H as <- <-; repeat split; auto].
  apply bind_ok in H. destruct H as ([e3 c3] & H3 & H). apply bind_ok in H. destruct H as ([e4 c4] & H4 & H).
  apply bind_ok in H. destruct H as ([e5 c5] & H5 & H). apply fix_same in H5. subst c5.
  assert (same_cfg (bt_cfg t) c4) as K by (eapply same_cfg_trans; [eapply str_cfg; eauto|eapply ie_cfg; eauto]).
  apply bind_ok in H. destruct H as (ok & V' & H).
  destruct ok; cbn [negb] in H; [|injection H as <- <-; auto].
  destruct (assign_constants cs _) as [e6|]; [|injection H as <- <-; auto].
  apply bind_ok in H. destruct H as (c7 & H7 & H). apply bind_ok in H. destruct H as ([e8 m] & H8 & H).
  apply bind_ok in H. destruct H as (s & H9 & H). injection H as <- <-. apply make_sub_sc in H9.
  split; [|split; [reflexivity|tauto]]. cbn [bt_cfg]. eapply same_cfg_trans; [exact K|eapply change_cfg; eauto].
Qed.
Lemma change_parts t x t' : betree_change_boundaries t x = Ok t' ->
  same_cfg (bt_cfg t) (bt_cfg t') /\ bt_root t' = bt_root t /\ bt_pm t' = bt_pm t.
Proof.
  unfold betree_change_boundaries, change_boundaries_expr. intros H.
  apply bind_ok in H. destruct H as ([e3 c3] & H3 & H). apply bind_ok in H. destruct H as ([e4 c4] & H4 & H).
  apply bind_ok in H. destruct H as ([e5 c5] & H5 & H). apply fix_same in H5. subst c5.
  apply bind_ok in H. destruct H as (c7 & H7 & H). injection H as <-. cbn [set_cfg bt_cfg bt_root bt_pm].
  split; [|auto]. eapply same_cfg_trans; [eapply str_cfg; eauto|]. eapply same_cfg_trans; [eapply ie_cfg; eauto|eapply change_cfg; eauto].
Qed.
Lemma insert_sub_parts t s t' : insert_sub t s = Ok t' ->
  bt_cfg t' = bt_cfg t /\ bt_pm t' = bt_pm t
  /\ insert_root (insert_fuel (bt_cfg t)) (bt_cfg t) s (bt_root t) = Ok (bt_root t').
Proof. unfold insert_sub. intros H. apply bind_ok in H. destruct H as (r & H & [= <-]). auto. Qed.

(** *** Capacities *)
Section Capacity.
  Variables (c : config) (P : c_cap c > 0).
  Let good := leaf_ok (c_cap c).
  Let fit (m : Z) : Prop := exists k, 0 < k /\ m = k * c_cap c.
  Lemma fit_cap : fit (c_cap c).
  Proof. exists 1. lia. Qed.
  Lemma update_good cn cn' : update_capacity c cn = Ok cn' ->
    match cn with CNode _ _ ps => Forall good (leaves_pdir ps) end -> Forall good (leaves_cnode cn').
  Proof.
    intros H F. apply update_capacity_ok in H. destruct H as (m & m' & subs & ps & -> & -> & H).
    cbn [leaves_cnode]. constructor; [|exact F]. unfold cluster_capacity in H.
    destruct (Z.eqb_spec (c_cap c) 0) as [Hz|Hz]; [lia|]. injection H as <-. unfold good, leaf_ok. cbn [fst snd].
    set (n := Z.of_nat (length subs)).
    pose proof (Z.div_mod (n + c_cap c - 1) (c_cap c) ltac:(lia)) as D.
    pose proof (Z.mod_pos_bound (n + c_cap c - 1) (c_cap c) ltac:(lia)) as M.
    assert (0 <= (n + c_cap c - 1) / c_cap c) by (apply Z.div_pos; lia).
    split; [|nia].
    destruct (Z.le_ge_cases ((n + c_cap c - 1) / c_cap c * c_cap c) (c_cap c)) as [L|L].
    - exists 1. lia.
    - exists ((n + c_cap c - 1) / c_cap c). split; [nia|]. lia.
  Qed.
  Lemma pdir_app_leaves v sc cd : forall ps, leaves_pdir (pdir_app ps v sc cd) = leaves_pdir ps ++ leaves_cdir cd.
  Proof. induction ps; cbn [pdir_app leaves_pdir app]; [now rewrite app_nil_r|]. now rewrite IHps, app_assoc. Qed.
  Lemma not_over m subs ps : negb (overflowed (CNode m subs ps)) = true -> Z.of_nat (length subs) <= m.
  Proof. cbn [overflowed]. rewrite negb_true_iff. lia. Qed.

  Definition rest_good (cd : cdir) : Prop :=
    match cd with
    | CLeaf _ (CNode m _ ps) => fit m /\ Forall good (leaves_pdir ps)
    | CSplit _ (CNode m _ ps) l r =>
        fit m /\ Forall good (leaves_pdir ps) /\ Forall good (leaves_cdir l) /\ Forall good (leaves_cdir r)
    end.
  Lemma space_good : forall fuel,
    (forall used m subs ps cn', Forall good (leaves_pdir ps) ->
       space_partitioning fuel c used (CNode m subs ps) = Ok cn' -> Forall good (leaves_cnode cn'))
    /\ (forall used v cd cd', rest_good cd -> space_clustering fuel c used v cd = Ok cd' -> Forall good (leaves_cdir cd')).
  Proof.
    induction fuel as [|fuel [IHp IHc]]; [split; intros; discriminate|]. split.
    - intros used m subs ps cn' F H. cbn [space_partitioning] in H.
      destruct (negb _); [eapply update_good; eauto|].
      apply bind_ok in H. destruct H as (o & Eo & H). destruct o as [v|]; [|eapply update_good; eauto].
      destruct (_ <? _); [eapply update_good; eauto|].
      apply bind_ok in H. destruct H as (d & _ & H).
      apply bind_ok in H. destruct H as ([[stay moved] ?] & ED & H).
      apply bind_ok in H. destruct H as (cd & EC & H). apply IHp in H; [exact H|].
      rewrite pdir_app_leaves. apply Forall_app. split; [exact F|]. eapply IHc; [|exact EC].
      cbn [rest_good make_cnode leaves_pdir]. split; [exact fit_cap|constructor].
    - intros used v cd cd' R H. cbn [space_clustering] in H.
      destruct (negb (overflowed (cd_cnode cd))) eqn:EO.
      { injection H as <-. destruct cd as [b [m subs ps]|b [m subs ps] l r]; cbn [rest_good cd_cnode leaves_cdir leaves_cnode] in *;
          apply not_over in EO.
        - constructor; [|tauto]. split; cbn [fst snd]; [apply R|exact EO].
        - destruct R as (R1 & R2 & R3 & R4). constructor; [split; cbn [fst snd]; [exact R1|exact EO]|].
          apply Forall_app; split; [exact R2|]. apply Forall_app; split; [exact R3|exact R4]. }
      assert (forall cn2, bind (space_partitioning fuel c used (cd_cnode cd)) (fun cn1 => update_capacity c cn1) = Ok cn2 ->
        Forall good (leaves_cnode cn2)) as PU.
      { intros cn2 E. apply bind_ok in E. destruct E as (cn1 & E1 & E2). eapply update_good; [exact E2|].
        destruct cd as [b [m subs ps]|b [m subs ps] l r]; cbn [cd_cnode rest_good] in *;
          apply IHp in E1; try tauto; destruct cn1; now inversion E1. }
      destruct cd as [b cn|b cn l r]; cbn [cd_cnode] in *.
      + apply bind_ok in H. destruct H as (a & Ea & H). destruct a.
        * apply bind_ok in H. destruct H as (cn1 & E1 & H). apply bind_ok in H. destruct H as (cn2 & E2 & [= <-]).
          cbn [leaves_cdir]. apply PU. now rewrite E1.
        * apply bind_ok in H. destruct H as ([lb rb] & ES & H). destruct cn as [m subs ps].
          apply bind_ok in H. destruct H as ([[stay ls] rs] & ED & H).
          apply bind_ok in H. destruct H as (cn1 & E1 & H). apply bind_ok in H. destruct H as (l & El & H).
          apply bind_ok in H. destruct H as (r & Er & H). apply bind_ok in H. destruct H as (cn2 & E2 & [= <-]).
          cbn [leaves_cdir]. cbn [rest_good] in R.
          apply IHc in El; [|cbn [rest_good make_cnode leaves_pdir]; split; [exact fit_cap|constructor]].
          apply IHc in Er; [|cbn [rest_good make_cnode leaves_pdir]; split; [exact fit_cap|constructor]].
          apply IHp in E1; [|tauto]. destruct cn1 as [m1 s1 ps1]. apply update_good in E2; [|now inversion E1].
          apply Forall_app; split; [exact E2|]. now apply Forall_app.
      + apply bind_ok in H. destruct H as (cn1 & E1 & H). apply bind_ok in H. destruct H as (cn2 & E2 & [= <-]).
        cbn [leaves_cdir]. apply Forall_app; split; [apply PU; now rewrite E1|].
        destruct cn as [m subs ps]. cbn [rest_good] in R. apply Forall_app. tauto.
  Qed.

  Lemma good_fit m n l : Forall good ((m, n) :: l) -> fit m /\ Forall good l.
  Proof. intros F. inversion F; subst. split; [|easy]. now destruct H1. Qed.
  Lemma ins_good fuel s :
    (forall cn, match cn with CNode _ _ ps =>
       forall used w ps', Forall good (leaves_pdir ps) -> ins_pdir fuel c s used w ps = Ok ps' -> Forall good (leaves_pdir ps') end)
    /\ (forall ps used w ps', Forall good (leaves_pdir ps) -> ins_pdir fuel c s used w ps = Ok ps' -> Forall good (leaves_pdir ps'))
    /\ (forall cd used v cd', Forall good (leaves_cdir cd) -> ins_cdir fuel c s used v cd = Ok cd' -> Forall good (leaves_cdir cd')).
  Proof.
    apply tree_mut.
    - intros m subs ps IH. exact IH.
    - intros used w ps' _ H. discriminate.
    - intros v sc cd IHcd rest IHr used w ps' F H. cbn [ins_pdir] in H. cbn [leaves_pdir] in F. apply Forall_app in F. destruct F as [F1 F2].
      destruct (w =? v)%N.
      + apply bind_ok in H. destruct H as (cd' & E & H). apply bind_ok in H. destruct H as (sc' & _ & [= <-]).
        cbn [leaves_pdir]. apply Forall_app. eauto.
      + apply bind_ok in H. destruct H as (rest' & E & [= <-]). cbn [leaves_pdir]. apply Forall_app. eauto.
    - intros b [m subs ps] IHcn used v cd' F H. cbn [ins_cdir] in H. cbn [leaves_cdir leaves_cnode] in F.
      apply bind_ok in H. destruct H as (o & _ & H). destruct o as [w|].
      + apply bind_ok in H. destruct H as (ps' & E & [= <-]). cbn [leaves_cdir leaves_cnode].
        inversion F; subst. constructor; eauto.
      + apply good_fit in F. eapply (proj2 (space_good fuel)); [|exact H]. exact F.
    - intros b [m subs ps] IHcn l IHl r IHr used v cd' F H. cbn [ins_cdir] in H. cbn [leaves_cdir] in F.
      apply Forall_app in F. destruct F as [F1 F2]. apply Forall_app in F2. destruct F2 as [F2 F3].
      apply bind_ok in H. destruct H as (el & EL & H). destruct el.
      { apply bind_ok in H. destruct H as (l' & E & [= <-]). cbn [leaves_cdir]. rewrite !Forall_app. eauto. }
      apply bind_ok in H. destruct H as (er & ER & H). destruct er.
      { apply bind_ok in H. destruct H as (r' & E & [= <-]). cbn [leaves_cdir]. rewrite !Forall_app. eauto. }
      apply bind_ok in H. destruct H as (o & _ & H). cbn [leaves_cnode] in F1. destruct o as [w|].
      + apply bind_ok in H. destruct H as (ps' & E & [= <-]). cbn [leaves_cdir leaves_cnode]. rewrite !Forall_app.
        split; [|easy]. inversion F1; subst. constructor; eauto.
      + apply good_fit in F1. eapply (proj2 (space_good fuel)); [|exact H]. cbn [rest_good]. tauto.
  Qed.
  Lemma insert_root_good fuel s cn cn' : Forall good (leaves_cnode cn) -> insert_root fuel c s cn = Ok cn' ->
    Forall good (leaves_cnode cn').
  Proof.
    intros F H. destruct cn as [m subs ps]. cbn [insert_root leaves_cnode] in *.
    apply bind_ok in H. destruct H as (o & _ & H). destruct o as [w|].
    - apply bind_ok in H. destruct H as (ps' & E & [= <-]). cbn [leaves_cnode].
      inversion F; subst. constructor; [easy|]. eapply (proj1 (proj2 (ins_good fuel s))); eauto.
    - apply good_fit in F. eapply (proj1 (space_good fuel)); [|exact H]. tauto.
  Qed.
End Capacity.

Lemma calls_cfg ds cap minpart maxsplit t made ids : calls cap minpart maxsplit ds t made ids ->
  same_cfg (bt_cfg (make_tree cap minpart maxsplit ds)) (bt_cfg t).
Proof.
  induction 1 as [ds|ds t made ids id cs x t' _ IH H|ds t made ids id cs x t' _ IH H|ds t made ids id cs x s t' _ IH H
    |ds t made ids id cs x t' _ IH H|ds t made ids s t' _ IH HI H|ds t made ids x t' _ IH H|ds t made ids d _ IH|ds t made ids _ IH].
  - apply same_cfg_refl.
  - apply insert_parts in H. destruct H as (c & m & s & S & _ & H). apply insert_sub_parts in H.
    destruct H as (E & _). cbn [bt_cfg] in E. rewrite E. eapply same_cfg_trans; eauto.
  - apply refused_steps in H. now subst.
  - apply make_parts in H. eapply same_cfg_trans; [exact IH|tauto].
  - apply make_parts in H. eapply same_cfg_trans; [exact IH|tauto].
  - apply insert_sub_parts in H. destruct H as (E & _). now rewrite E.
  - apply change_parts in H. eapply same_cfg_trans; [exact IH|tauto].
  - destruct IH as (A & B & C & D). repeat split; [exact A|exact B|exact C|].
    cbn [betree_declare set_cfg bt_cfg add_domain c_domains make_tree] in *. rewrite !map_app. now rewrite D.
  - exact IH.
Qed.

Theorem leaves_in_order ds cap minpart maxsplit t made ids :
  to_uint 8 cap <> 0 -> calls cap minpart maxsplit ds t made ids ->
  Forall (leaf_ok (to_uint 8 cap)) (leaves_cnode (bt_root t)).
Proof.
  intros P0 K. assert (to_uint 8 cap > 0) as P.
  { unfold to_uint in *. pose proof (Z.mod_pos_bound cap (2 ^ 8) ltac:(lia)). lia. }
  assert (forall ds t made ids, calls cap minpart maxsplit ds t made ids -> c_cap (bt_cfg t) = to_uint 8 cap) as C.
  { intros ds0 t0 m0 i0 K0. apply calls_cfg in K0. destruct K0 as (E & _). exact E. }
  induction K as [ds|ds t made ids id cs x t' K IH H|ds t made ids id cs x t' K IH H|ds t made ids id cs x s t' K IH H
    |ds t made ids id cs x t' K IH H|ds t made ids s t' K IH HI H|ds t made ids x t' K IH H|ds t made ids d K IH|ds t made ids K IH].
  - cbn [make_tree bt_root make_cnode leaves_cnode c_cap leaves_pdir]. constructor; [|constructor]. split; cbn [fst snd length].
    + exists 1. lia.
    + lia.
  - apply insert_parts in H. destruct H as (c & m & s & S & _ & H). apply insert_sub_parts in H.
    destruct H as (_ & _ & H). cbn [bt_cfg bt_root] in H. destruct S as (E & _). rewrite (C _ _ _ _ K) in E. rewrite <- E in *.
    eapply insert_root_good; eauto.
  - apply refused_steps in H. now subst.
  - apply make_parts in H. destruct H as (_ & E & _). now rewrite E.
  - apply make_parts in H. destruct H as (_ & E & _). now rewrite E.
  - apply insert_sub_parts in H. destruct H as (_ & _ & H). rewrite <- (C _ _ _ _ K) in *. eapply insert_root_good; eauto.
  - apply change_parts in H. destruct H as (_ & E & _). now rewrite E.
  - exact IH.
  - cbn [empty_tree bt_root make_cnode leaves_cnode leaves_pdir]. rewrite (C _ _ _ _ K). constructor; [|constructor].
    split; cbn [fst snd length]; [exists 1|]; lia.
Qed.

(** *** Insertion moves subscriptions but loses and repeats none *)
Lemma space_perm c : forall fuel,
  (forall used m subs ps cn', NoDup (ids subs) -> space_partitioning fuel c used (CNode m subs ps) = Ok cn' ->
     Permutation (subs_cnode cn') (subs ++ subs_pdir ps))
  /\ (forall used v cd cd', NoDup (ids (cn_subs (cd_cnode cd))) -> space_clustering fuel c used v cd = Ok cd' ->
     Permutation (subs_cdir cd') (subs_cdir cd)).
Proof.
  assert (forall m subs ps cn', update_capacity c (CNode m subs ps) = Ok cn' -> subs_cnode cn' = subs ++ subs_pdir ps) as UC.
  { intros m subs ps cn' H. apply update_capacity_ok in H. destruct H as (m0 & m' & subs' & ps' & E & -> & _). now injection E as _ <- <-. }
  induction fuel as [|fuel [IHp IHc]]; [split; intros; discriminate|]. split.
  - intros used m subs ps cn' ND H. cbn [space_partitioning] in H.
    destruct (negb _); [apply UC in H; now rewrite H|].
    apply bind_ok in H. destruct H as (o & Eo & H). destruct o as [v|]; [|apply UC in H; now rewrite H].
    destruct (_ <? _); [apply UC in H; now rewrite H|].
    apply bind_ok in H. destruct H as (d & _ & H).
    apply bind_ok in H. destruct H as ([[stay moved] other] & ED & H). apply bind_ok in H. destruct H as (cd & EC & H).
    apply distribute_ok in ED; [|exact ND]. destruct ED as (S' & L & R & -> & -> & -> & P & _ & _ & FR).
    cbn [app] in *.
    assert (R = []) as ->.
    { destruct R as [|x R]; [easy|]. inversion FR; subst. destruct (has_attr v x); discriminate. }
    rewrite app_nil_r in P.
    pose proof (NoDup_perm_ids _ _ (Permutation_sym P) ND) as ND'. rewrite ids_app in ND'.
    apply IHc in EC; [|cbn [cd_cnode cn_subs make_cnode]; eapply NoDup_app_r; eauto].
    apply IHp in H; [|eapply NoDup_app_l; eauto]. rewrite H, pdir_app_subs, EC.
    cbn [subs_cdir subs_cnode make_cnode subs_pdir]. rewrite app_nil_r, <- P, <- !app_assoc.
    apply Permutation_app_head. apply Permutation_app_comm.
  - intros used v cd cd' ND H. cbn [space_clustering] in H.
    destruct (negb _); [injection H as <-; auto|].
    assert (forall m subs ps cn2, NoDup (ids subs) ->
      bind (space_partitioning fuel c used (CNode m subs ps)) (fun cn1 => update_capacity c cn1) = Ok cn2 ->
      Permutation (subs_cnode cn2) (subs ++ subs_pdir ps)) as PU.
    { intros m subs ps cn2 K E. apply bind_ok in E. destruct E as (cn1 & E1 & E2). apply IHp in E1; auto.
      destruct cn1 as [m1 s1 ps1]. apply UC in E2. rewrite E2. exact E1. }
    destruct cd as [b [m subs ps]|b [m subs ps] l r]; cbn [cd_cnode cn_subs] in *.
    + apply bind_ok in H. destruct H as (a & Ea & H). destruct a.
      * apply bind_ok in H. destruct H as (cn1 & E1 & H). apply bind_ok in H. destruct H as (cn2 & E2 & [= <-]).
        cbn [subs_cdir subs_cnode]. apply (PU m); auto. now rewrite E1.
      * apply bind_ok in H. destruct H as ([lb rb] & ES & H).
        apply bind_ok in H. destruct H as ([[stay ls] rs] & ED & H).
        apply bind_ok in H. destruct H as (cn1 & E1 & H). apply bind_ok in H. destruct H as (l & El & H).
        apply bind_ok in H. destruct H as (r & Er & H). apply bind_ok in H. destruct H as (cn2 & E2 & [= <-]).
        apply distribute_ok in ED; [|exact ND]. destruct ED as (S' & L & R & -> & -> & -> & P & _ & FL & FR).
        cbn [app] in *.
        pose proof (NoDup_perm_ids _ _ (Permutation_sym P) ND) as ND'. rewrite !ids_app in ND'.
        assert (Permutation (subs_cnode cn2) (S' ++ subs_pdir ps)) as PC.
        { apply (PU m); [eapply NoDup_app_l; eauto|]. now rewrite E1. }
        apply IHc in El; [|cbn [cd_cnode cn_subs make_cnode]; eapply NoDup_app_l, NoDup_app_r; eauto].
        apply IHc in Er; [|cbn [cd_cnode cn_subs make_cnode]; eapply NoDup_app_r, NoDup_app_r; eauto].
        cbn [subs_cdir subs_cnode subs_pdir make_cnode] in *. rewrite app_nil_r in El, Er.
        rewrite PC, El, Er, <- P, <- !app_assoc.
        apply Permutation_app_head. rewrite (app_assoc L R (subs_pdir ps)). apply Permutation_app_comm.
    + apply bind_ok in H. destruct H as (cn1 & E1 & H). apply bind_ok in H. destruct H as (cn2 & E2 & [= <-]).
      cbn [subs_cdir subs_cnode]. apply Permutation_app_tail. apply (PU m); auto. now rewrite E1.
Qed.

Lemma ins_perm c fuel s :
  (forall cn, match cn with CNode _ _ ps =>
     forall used w ps', NoDup (ids (s :: subs_pdir ps)) -> ins_pdir fuel c s used w ps = Ok ps' ->
       Permutation (subs_pdir ps') (s :: subs_pdir ps) end)
  /\ (forall ps used w ps', NoDup (ids (s :: subs_pdir ps)) -> ins_pdir fuel c s used w ps = Ok ps' ->
       Permutation (subs_pdir ps') (s :: subs_pdir ps))
  /\ (forall cd used v cd', NoDup (ids (s :: subs_cdir cd)) -> ins_cdir fuel c s used v cd = Ok cd' ->
       Permutation (subs_cdir cd') (s :: subs_cdir cd)).
Proof.
  apply tree_mut.
  - intros m subs ps IH. exact IH.
  - intros used w ps' _ H. discriminate.
  - intros v sc cd IHcd rest IHr used w ps' ND H. cbn [ins_pdir] in H. cbn [subs_pdir] in *.
    destruct (w =? v)%N.
    + apply bind_ok in H. destruct H as (cd' & E & H). apply bind_ok in H. destruct H as (sc' & _ & [= <-]).
      apply IHcd in E; [cbn [subs_pdir]; now rewrite E|].
      rewrite app_comm_cons, ids_app in ND. eapply NoDup_app_l; eauto.
    + apply bind_ok in H. destruct H as (rest' & E & [= <-]). apply IHr in E.
      * cbn [subs_pdir]. rewrite E. symmetry. apply Permutation_middle.
      * eapply NoDup_app_r. rewrite <- ids_app. eapply NoDup_perm_ids; [|exact ND]. rewrite <- Permutation_middle. reflexivity.
  - intros b [m subs ps] IHcn used v cd' ND H. cbn [ins_cdir] in H. cbn [subs_cdir subs_cnode] in *.
    apply bind_ok in H. destruct H as (o & _ & H). destruct o as [w|].
    + apply bind_ok in H. destruct H as (ps' & E & [= <-]). apply IHcn in E.
      * cbn [subs_cdir subs_cnode]. rewrite E. symmetry. apply Permutation_middle.
      * eapply NoDup_app_r. rewrite <- ids_app. eapply NoDup_perm_ids; [|exact ND]. rewrite <- Permutation_middle. reflexivity.
    + apply (proj2 (space_perm c fuel)) in H.
      * cbn [subs_cdir subs_cnode] in *. rewrite H. apply perm_last.
      * cbn [cd_cnode cn_subs]. eapply NoDup_app_l. rewrite <- ids_app. eapply NoDup_perm_ids; [|exact ND].
        symmetry. apply perm_last.
  - intros b [m subs ps] IHcn l IHl r IHr used v cd' ND H. cbn [ins_cdir] in H. cbn [subs_cdir subs_cnode] in *.
    assert (NoDup (ids (s :: subs_cdir l)) /\ NoDup (ids (s :: subs_cdir r)) /\ NoDup (ids (s :: subs ++ subs_pdir ps))) as (ND1 & ND2 & ND3).
    { assert (NoDup (ids ((s :: subs_cdir l) ++ (subs ++ subs_pdir ps) ++ subs_cdir r))) as K1.
      { eapply NoDup_perm_ids; [|exact ND]. cbn [app]. apply perm_skip. rewrite !app_assoc. apply Permutation_app_tail.
        rewrite Permutation_app_comm. now rewrite !app_assoc. }
      assert (NoDup (ids ((s :: subs_cdir r) ++ (subs ++ subs_pdir ps) ++ subs_cdir l))) as K2.
      { eapply NoDup_perm_ids; [|exact ND]. cbn [app]. apply perm_skip. rewrite !app_assoc.
        rewrite Permutation_app_comm. now rewrite !app_assoc. }
      rewrite ids_app in K1, K2. rewrite app_comm_cons, ids_app in ND. repeat split; eapply NoDup_app_l; eauto. }
    apply bind_ok in H. destruct H as (el & EL & H). destruct el.
    { apply bind_ok in H. destruct H as (l' & E & [= <-]). apply IHl in E; auto.
      cbn [subs_cdir]. rewrite E. cbn [app]. symmetry. apply Permutation_middle. }
    apply bind_ok in H. destruct H as (er & ER & H). destruct er.
    { apply bind_ok in H. destruct H as (r' & E & [= <-]). apply IHr in E; auto.
      cbn [subs_cdir]. rewrite E, !app_assoc. symmetry. apply Permutation_middle. }
    apply bind_ok in H. destruct H as (o & _ & H). destruct o as [w|].
    + apply bind_ok in H. destruct H as (ps' & E & [= <-]). apply IHcn in E.
      * cbn [subs_cdir subs_cnode]. rewrite E. rewrite <- Permutation_middle. reflexivity.
      * eapply NoDup_app_r. rewrite <- ids_app. eapply NoDup_perm_ids; [|exact ND3]. rewrite <- Permutation_middle. reflexivity.
    + apply (proj2 (space_perm c fuel)) in H.
      * cbn [subs_cdir subs_cnode] in *. rewrite H.
        rewrite !app_assoc. rewrite <- (app_assoc subs). cbn [app]. do 3 (rewrite <- ?app_assoc). symmetry. cbn [app]. apply Permutation_middle.
      * cbn [cd_cnode cn_subs]. eapply NoDup_app_l. rewrite <- ids_app. eapply NoDup_perm_ids; [|exact ND3].
        symmetry. apply perm_last.
Qed.
Lemma insert_root_perm c fuel s cn cn' : NoDup (ids (s :: subs_cnode cn)) ->
  insert_root fuel c s cn = Ok cn' -> Permutation (subs_cnode cn') (s :: subs_cnode cn).
Proof.
  intros ND H. destruct cn as [m subs ps]. cbn [insert_root] in H. cbn [subs_cnode] in *.
  apply bind_ok in H. destruct H as (o & _ & H). destruct o as [w|].
  - apply bind_ok in H. destruct H as (ps' & E & [= <-]). apply (proj1 (proj2 (ins_perm c fuel s))) in E.
    + cbn [subs_cnode]. rewrite E. symmetry. apply Permutation_middle.
    + eapply NoDup_app_r. rewrite <- ids_app. eapply NoDup_perm_ids; [|exact ND]. rewrite <- Permutation_middle. reflexivity.
  - apply (proj1 (space_perm c fuel)) in H.
    + rewrite H. apply perm_last.
    + eapply NoDup_app_l. rewrite <- ids_app. eapply NoDup_perm_ids; [|exact ND].
      symmetry. apply perm_last.
Qed.

Lemma calls_subs ds cap minpart maxsplit t made l : calls cap minpart maxsplit ds t made l -> NoDup l ->
  Permutation (map s_id (subs_cnode (bt_root t))) l.
Proof.
  induction 1 as [ds|ds t made l id cs x t' K IH H|ds t made l id cs x t' K IH H|ds t made l id cs x s t' K IH H
    |ds t made l id cs x t' K IH H|ds t made l s t' K IH HI H|ds t made l x t' K IH H|ds t made l d K IH|ds t made l K IH]; intros ND.
  - constructor.
  - pose proof (NoDup_app_l _ _ ND) as NL. specialize (IH NL).
    apply insert_parts in H. destruct H as (c & m & s & _ & I & H). apply insert_sub_parts in H.
    destruct H as (_ & _ & H). cbn [bt_cfg bt_root] in H. apply insert_root_perm in H.
    + rewrite H. cbn [map]. rewrite I, IH. apply Permutation_cons_append.
    + cbn [ids map]. rewrite I. eapply Permutation_NoDup; [|exact ND].
      rewrite <- Permutation_cons_append. apply perm_skip. now symmetry.
  - apply refused_steps in H. subst. auto.
  - apply make_parts in H. destruct H as (_ & E & _). rewrite E. auto.
  - apply make_parts in H. destruct H as (_ & E & _). rewrite E. auto.
  - pose proof (NoDup_app_l _ _ ND) as NL. specialize (IH NL).
    apply insert_sub_parts in H. destruct H as (_ & _ & H). apply insert_root_perm in H.
    + rewrite H. cbn [map]. rewrite IH. apply Permutation_cons_append.
    + cbn [ids map]. eapply Permutation_NoDup; [|exact ND].
      rewrite <- Permutation_cons_append. apply perm_skip. now symmetry.
  - apply change_parts in H. destruct H as (_ & E & _). rewrite E. auto.
  - auto.
  - constructor.
Qed.

Definition keeps_all (s : sub) (t t' : betree) : Prop :=
  Permutation (subs_cnode (bt_root t')) (s :: subs_cnode (bt_root t))
  /\ NoDup (map s_id (subs_cnode (bt_root t')))
  /\ forall s', In s' (s :: subs_cnode (bt_root t)) -> find_sub_id (s_id s') (bt_root t') = Some s'.
Lemma root_keeps_all c fuel s cn cn' : NoDup (ids (s :: subs_cnode cn)) -> insert_root fuel c s cn = Ok cn' ->
  Permutation (subs_cnode cn') (s :: subs_cnode cn)
  /\ NoDup (map s_id (subs_cnode cn'))
  /\ forall s', In s' (s :: subs_cnode cn) -> find_sub_id (s_id s') cn' = Some s'.
Proof.
  intros ND H. apply insert_root_perm in H; [|exact ND].
  assert (NoDup (map s_id (subs_cnode cn'))) as ND' by (eapply NoDup_perm_ids; [symmetry; exact H|exact ND]).
  split; [exact H|]. split; [exact ND'|]. intros s' I. rewrite find_sub_ok. apply find_unique; auto.
  apply (Permutation_in _ (Permutation_sym H)). exact I.
Qed.
Lemma calls_insert ds cap minpart maxsplit t made l id cs x t' :
  calls cap minpart maxsplit ds t made l -> NoDup l -> ~ In id l ->
  betree_insert_with_constants t id cs x = Ok (true, t') -> exists s, s_id s = id /\ keeps_all s t t'.
Proof.
  intros K ND NI H. pose proof (calls_subs _ _ _ _ _ _ _ K ND) as P. apply insert_parts in H.
  destruct H as (c & m & s & _ & I & H). apply insert_sub_parts in H. destruct H as (_ & _ & H). cbn [bt_cfg bt_root] in H.
  exists s. split; [exact I|]. eapply root_keeps_all; [|exact H]. cbn [ids map]. rewrite I.
  eapply Permutation_NoDup; [apply perm_skip; symmetry; exact P|]. now constructor.
Qed.
Lemma calls_insert_sub ds cap minpart maxsplit t made l s t' :
  calls cap minpart maxsplit ds t made l -> NoDup l -> ~ In (s_id s) l ->
  betree_insert_sub t s = Ok t' -> keeps_all s t t'.
Proof.
  intros K ND NI H. pose proof (calls_subs _ _ _ _ _ _ _ K ND) as P. apply insert_sub_parts in H. destruct H as (_ & _ & H).
  eapply root_keeps_all; [|exact H]. cbn [ids map].
  eapply Permutation_NoDup; [apply perm_skip; symmetry; exact P|]. now constructor.
Qed.

(** *** Candidates *)
Definition part_of {A} (l all : list A) : Prop := exists rest, Permutation (l ++ rest) all.
Lemma part_refl {A} (l : list A) : part_of l l. Proof. exists []. now rewrite app_nil_r. Qed.
Lemma part_nil {A} (l : list A) : part_of [] l. Proof. exists l. reflexivity. Qed.
Lemma part_app {A} (l l' a a' : list A) : part_of l a -> part_of l' a' -> part_of (l ++ l') (a ++ a').
Proof.
  intros [r P] [r' P']. exists (r ++ r'). rewrite <- P, <- P', <- !app_assoc. apply Permutation_app_head.
  rewrite !app_assoc. apply Permutation_app_tail. apply Permutation_app_comm.
Qed.
Lemma part_trans {A} (a b c : list A) : part_of a b -> part_of b c -> part_of a c.
Proof. intros [r P] [r' P']. exists (r ++ r'). now rewrite app_assoc, P, P'. Qed.
Lemma part_perm {A} (a b c : list A) : part_of a b -> Permutation b c -> part_of a c.
Proof. intros [r P] P'. exists r. now rewrite P. Qed.
Lemma part_map {A B} (f : A -> B) a b : part_of a b -> part_of (map f a) (map f b).
Proof. intros [r P]. exists (map f r). rewrite <- map_app. now apply Permutation_map. Qed.
Lemma part_length {A} (a b : list A) : part_of a b -> (length a <= length b)%nat.
Proof. intros [r P]. apply Permutation_length in P. rewrite app_length in P. lia. Qed.
Lemma part_NoDup {A} (a b : list A) : part_of a b -> NoDup b -> NoDup a.
Proof. intros [r P] N. apply (Permutation_NoDup (Permutation_sym P)) in N. now apply NoDup_app_l in N. Qed.
Lemma part_incl {A} (a b : list A) : part_of a b -> incl a b.
Proof. intros [r P] x H. apply (Permutation_in _ P). apply in_or_app. now left. Qed.
Lemma match_part ds p :
  (forall cn l, match_cnode ds p cn = Ok l -> part_of l (subs_cnode cn))
  /\ (forall ps l, match_pdir ds p ps = Ok l -> part_of l (subs_pdir ps))
  /\ (forall cd v ol orr l, match_cdir ds p v ol orr cd = Ok l -> part_of l (subs_cdir cd)).
Proof.
  apply tree_mut; cbn [match_cnode match_pdir match_cdir subs_cnode subs_pdir subs_cdir].
  - intros m subs ps IH l H. apply bind_ok in H. destruct H as (r & H & [= <-]). apply part_app; [apply part_refl|auto].
  - intros l [= <-]. apply part_nil.
  - intros v sc cd IHcd rest IHr l H. destruct (nthN ds v) as [d|]; [|discriminate].
    apply bind_ok in H. destruct H as (go & _ & H). apply bind_ok in H. destruct H as (a & Ha & H).
    apply bind_ok in H. destruct H as (b & Hb & [= <-]). apply part_app; [|auto].
    destruct go; [eauto|]. injection Ha as <-. apply part_nil.
  - intros b cn IH v ol orr l H. auto.
  - intros b cn IH l IHl r IHr v ol orr o H. apply bind_ok in H. destruct H as (a & Ha & H).
    apply bind_ok in H. destruct H as (el & _ & H). apply bind_ok in H. destruct H as (x & Hx & H).
    apply bind_ok in H. destruct H as (er & _ & H). apply bind_ok in H. destruct H as (y & Hy & [= <-]).
    apply part_app; [auto|]. apply part_app.
    + destruct el; [eauto|]. injection Hx as <-. apply part_nil.
    + destruct er; [eauto|]. injection Hy as <-. apply part_nil.
Qed.

Section WithGeo.
  Context {G : Geo}.

  Lemma search_loop_part p m u : forall l st r r', search_loop p m u l st r = Ok r' ->
    exists hit n, part_of hit l /\ 0 <= n <= Z.of_nat (length l)
      /\ r_subs r' = r_subs r ++ map s_id hit /\ r_matched r' = r_matched r + Z.of_nat (length hit)
      /\ r_evaluated r' = r_evaluated r + Z.of_nat (length l) /\ r_shorted r' = r_shorted r + n.
  Proof.
    induction l as [|s l IH]; intros st r r' H; cbn [search_loop] in H.
    - injection H as <-. exists [], 0. cbn [map app length r_subs r_matched r_evaluated r_shorted]. rewrite app_nil_r.
      sp; try lia; [apply part_nil|reflexivity].
    - apply bind_ok in H. destruct H as ([[b st'] shorted] & _ & H). apply IH in H.
      destruct H as (hit & n & P & N & A1 & A2 & A3 & A4).
      exists (if b then s :: hit else hit), (if shorted then n + 1 else n).
      destruct b; cbn [add_sub r_subs r_matched r_evaluated r_shorted map length] in *.
      + sp; try lia; try (destruct shorted; lia).
        * destruct P as [rest P]. exists rest. cbn [app]. now apply perm_skip.
        * rewrite A1, <- app_assoc. reflexivity.
      + sp; try lia; try (destruct shorted; lia); [|exact A1].
        destruct P as [rest P]. exists (s :: rest). rewrite <- Permutation_middle. now apply perm_skip.
  Qed.

  Lemma search_part t ev r b r' : betree_search t ev r = Ok (b, r') ->
    (b = false /\ r' = r) \/
    (b = true /\ exists cand hit n, part_of cand (subs_cnode (bt_root t)) /\ part_of hit cand
      /\ 0 <= n <= Z.of_nat (length cand)
      /\ r_subs r' = r_subs r ++ map s_id hit /\ r_matched r' = r_matched r + Z.of_nat (length hit)
      /\ r_evaluated r' = r_evaluated r + Z.of_nat (length cand) /\ r_shorted r' = r_shorted r + n).
  Proof.
    unfold betree_search. intros H. apply bind_ok in H. destruct H as (p & _ & H).
    destruct (validate_variables _ _); cbn [negb] in H; [|injection H as <- <-; now left].
    apply bind_ok in H. destruct H as (r1 & H & [= <- <-]). right. split; [reflexivity|].
    unfold search_with_preds in H. apply bind_ok in H. destruct H as (cand & Hc & H).
    apply (proj1 (match_part _ _)) in Hc. apply search_loop_part in H. destruct H as (hit & n & H). exists cand, hit, n. tauto.
  Qed.

  Theorem calls_once ds cap minpart maxsplit t made l ev b r :
    calls cap minpart maxsplit ds t made l -> NoDup l -> betree_search t ev make_report = Ok (b, r) ->
    NoDup (r_subs r) /\ incl (r_subs r) l /\ r_matched r = Z.of_nat (length (r_subs r)).
  Proof.
    intros K ND H. pose proof (calls_subs _ _ _ _ _ _ _ K ND) as P. apply search_part in H.
    destruct H as [[-> ->]|(-> & cand & hit & n & P1 & P2 & _ & E1 & E2 & _)].
    - cbn. split; [constructor|]. split; [intros x []|reflexivity].
    - cbn [make_report r_subs r_matched app] in E1, E2.
      assert (part_of (r_subs r) l) as Q.
      { rewrite E1. eapply part_perm; [|exact P]. apply part_map. eapply part_trans; eauto. }
      split; [eapply part_NoDup; eauto|]. split; [now apply part_incl|]. rewrite E2, E1, map_length. lia.
  Qed.

  Theorem calls_counters ds cap minpart maxsplit t made l ev b r :
    calls cap minpart maxsplit ds t made l -> NoDup l -> betree_search t ev make_report = Ok (b, r) ->
    exists cand, part_of cand l /\ part_of (r_subs r) cand
      /\ r_evaluated r = Z.of_nat (length cand) /\ r_evaluated r <= Z.of_nat (length l)
      /\ 0 <= r_matched r <= r_evaluated r /\ 0 <= r_shorted r <= r_evaluated r.
  Proof.
    intros K ND H. pose proof (calls_subs _ _ _ _ _ _ _ K ND) as P. apply search_part in H.
    destruct H as [[-> ->]|(-> & cand & hit & n & P1 & P2 & N & E1 & E2 & E3 & E4)].
    - exists []. cbn. sp; try lia; try apply part_nil.
    - cbn [make_report r_subs r_matched r_evaluated r_shorted app] in *. exists (map s_id cand).
      assert (part_of (map s_id cand) l) as Q by (eapply part_perm; [|exact P]; now apply part_map).
      pose proof (part_length _ _ Q) as L1. pose proof (part_length _ _ P2) as L2. rewrite map_length in *.
      sp; try lia; [exact Q|]. rewrite E1. now apply part_map.
  Qed.

  (** *** Existence and search *)
  Lemma loops_agree p m u : forall l st r r', search_loop p m u l st r = Ok r' ->
    exists b, exists_loop p m u l st = Ok b /\ (exists h, r_subs r' = r_subs r ++ h /\ (b = true <-> h <> [])).
  Proof.
    induction l as [|s l IH]; intros st r r' H; cbn [search_loop exists_loop] in *.
    - injection H as <-. exists false. split; [reflexivity|]. exists []. cbn [r_subs]. rewrite app_nil_r. split; [reflexivity|easy].
    - destruct (match_sub p m u s st) as [[[b st'] sh]| | |]; cbn [bind] in *; try discriminate.
      destruct b.
      + exists true. split; [reflexivity|]. apply IH in H. destruct H as (b & _ & h & E & _).
        cbn [add_sub r_subs] in E. exists (s_id s :: h). rewrite E, <- app_assoc. split; [reflexivity|]. split; [discriminate|reflexivity].
      + apply IH in H. exact H.
  Qed.
  Theorem search_then_exists t ev r : betree_search t ev make_report = Ok (true, r) ->
    exists b, betree_exists t ev = Ok b /\ (b = true <-> r_subs r <> []).
  Proof.
    unfold betree_search, betree_exists. intros H. apply bind_ok in H. destruct H as (p & Ep & H). rewrite Ep. cbn [bind].
    destruct (validate_variables _ _); cbn [negb] in H; [|discriminate].
    apply bind_ok in H. destruct H as (r1 & H & [= <-]).
    unfold search_with_preds in H. unfold exists_with_preds. apply bind_ok in H. destruct H as (cand & Hc & H).
    rewrite Hc. cbn [bind]. cbn [make_report r_memoized] in H. apply loops_agree in H. destruct H as (b & E & h & E' & I).
    exists b. split; [exact E|]. cbn [make_report r_subs app] in E'. now rewrite E'.
  Qed.

  (** *** Searches with a report in use *)
  Definition shift (d : Z) (s : mstate) : mstate := mkM (ms_pass s) (ms_fail s) (ms_memoized s + d).
  Lemma lookup_shift m g d s : lookup_result m g (shift d s) = lookup_result m g s.
  Proof. reflexivity. Qed.
  Lemma record_shift m g r d s s' : record_result m g r s = Ok s' -> record_result m g r (shift d s) = Ok (shift d s').
  Proof.
    unfold record_result. cbn [shift ms_pass ms_fail ms_memoized]. destruct (_ =? _)%N; [now intros [= <-]|].
    destruct r; destruct (bit_in _ _); try discriminate; now intros [= <-].
  Qed.
  Lemma node_shift p m d : forall e s b s', match_node p m e s = Ok (b, s') -> match_node p m e (shift d s) = Ok (b, shift d s').
  Proof.
    assert (forall e s, match_node p m e s =
      bind (lookup_result m (gid e) s) (fun o => match o with
      | Some b => Ok (b, bump s)
      | None => bind (match e with
          | ELeaf _ l => bind (match_leaf p l) (fun b => Ok (b, s))
          | EAnd _ a b => bind (match_node p m a s) (fun '(ra, s1) => if ra then match_node p m b s1 else Ok (false, s1))
          | EOr _ a b => bind (match_node p m a s) (fun '(ra, s1) => if ra then Ok (true, s1) else match_node p m b s1)
          | ENot _ a => bind (match_node p m a s) (fun '(ra, s1) => Ok (negb ra, s1))
          end) (fun '(r, s') => bind (record_result m (gid e) r s') (fun s2 => Ok (r, s2)))
      end)) as EQ by (destruct e; reflexivity).
    induction e as [g l|g a IHa b IHb|g a IHa b IHb|g a IHa]; intros s r s' H; rewrite EQ in *; rewrite lookup_shift;
      apply bind_ok in H; destruct H as (o & -> & H); cbn [bind]; destruct o as [v|];
      try (injection H as <- <-; unfold bump, shift; cbn [ms_pass ms_fail ms_memoized]; rewrite <- !Z.add_assoc, (Z.add_comm 1 d); reflexivity);
      apply bind_ok in H; destruct H as ([r1 s1] & H1 & H); apply bind_ok in H; destruct H as (s2 & H2 & [= <- <-]);
      apply record_shift with (d := d) in H2.
    - apply bind_ok in H1. destruct H1 as (x & -> & [= <- <-]). cbn [bind]. now rewrite H2.
    - apply bind_ok in H1. destruct H1 as ([ra sa] & Ha & H1). apply IHa in Ha. rewrite Ha. cbn [bind].
      destruct ra; [apply IHb in H1|injection H1 as <- <-]; rewrite ?H1; cbn [bind]; now rewrite H2.
    - apply bind_ok in H1. destruct H1 as ([ra sa] & Ha & H1). apply IHa in Ha. rewrite Ha. cbn [bind].
      destruct ra; [injection H1 as <- <-|apply IHb in H1]; rewrite ?H1; cbn [bind]; now rewrite H2.
    - apply bind_ok in H1. destruct H1 as ([ra sa] & Ha & H1). apply IHa in Ha. rewrite Ha. cbn [bind].
      injection H1 as <- <-. cbn [bind]. now rewrite H2.
  Qed.
  Lemma loop_shift p m u d : forall l st r r' r0, search_loop p m u l st r = Ok r' ->
    exists r1 h, search_loop p m u l (shift d st) r0 = Ok r1 /\ r_subs r' = r_subs r ++ h /\ r_subs r1 = r_subs r0 ++ h.
  Proof.
    induction l as [|s l IH]; intros st r r' r0 H; cbn [search_loop] in *.
    - injection H as <-. eexists _, []. split; [reflexivity|]. cbn [r_subs]. now rewrite !app_nil_r.
    - apply bind_ok in H. destruct H as ([[b st'] sh] & H1 & H).
      assert (match_sub p m u s (shift d st) = Ok (b, shift d st', sh)) as ->.
      { unfold match_sub in *. destruct (try_short_circuit _ _ _) as [k| | |]; cbn [bind] in *; try discriminate.
        destruct k; try (injection H1 as <- <- <-; reflexivity).
        apply bind_ok in H1. destruct H1 as ([b1 s1] & H1 & [= <- <- <-]). apply node_shift with (d := d) in H1. now rewrite H1. }
      cbn [bind]. match goal with |- context [search_loop _ _ _ _ _ ?q] => destruct (IH _ _ _ q H) as (r1 & h & E & A & B) end.
      exists r1. rewrite E. destruct b; cbn [add_sub r_subs] in *.
      + exists (s_id s :: h). rewrite A, B, <- !app_assoc. auto.
      + exists h. auto.
  Qed.
  Lemma search_shift t ev b r1 : betree_search t ev make_report = Ok (b, r1) ->
    forall r, exists r', betree_search t ev r = Ok (b, r') /\ r_subs r' = r_subs r ++ r_subs r1.
  Proof.
    unfold betree_search. intros H r. apply bind_ok in H. destruct H as (p & Ep & H). rewrite Ep. cbn [bind].
    destruct (validate_variables _ _); cbn [negb] in *.
    2:{ injection H as <- <-. exists r. split; [reflexivity|]. cbn. now rewrite app_nil_r. }
    apply bind_ok in H. destruct H as (r2 & H & [= <- <-]).
    unfold search_with_preds in *. apply bind_ok in H. destruct H as (cand & Hc & H). rewrite Hc. cbn [bind].
    destruct (loop_shift _ _ _ (r_memoized r) _ _ _ _ r H) as (r3 & h & E & A & B).
    replace (shift (r_memoized r) (make_memoize (pm_mcount (bt_pm t)) (r_memoized make_report)))
      with (make_memoize (pm_mcount (bt_pm t)) (r_memoized r)) in E
      by (unfold shift, make_memoize; cbn; reflexivity).
    rewrite E. cbn [bind]. exists r3. split; [reflexivity|]. cbn [make_report r_subs app] in A. congruence.
  Qed.

  Theorem search_many_any t evs :
    Forall (fun ev => exists b r, betree_search t ev make_report = Ok (b, r)) evs ->
    forall r, exists r' singles, search_all t evs r = Ok r'
      /\ Forall2 (fun ev l => exists b r1, betree_search t ev make_report = Ok (b, r1) /\ r_subs r1 = l) evs singles
      /\ r_subs r' = r_subs r ++ concat singles.
  Proof.
    induction 1 as [|ev evs (b & r1 & E) F IH]; intros r; cbn [search_all].
    - exists r, []. rewrite app_nil_r. sp; auto.
    - destruct (search_shift _ _ _ _ E r) as (r2 & E2 & S2). rewrite E2. cbn [bind snd].
      destruct (IH r2) as (r' & singles & E' & F' & S'). exists r', (r_subs r1 :: singles). sp; auto.
      + constructor; eauto.
      + rewrite S', S2. cbn [concat]. now rewrite app_assoc.
  Qed.

  (** *** Required variables *)
  Lemma validate_any c ev p : make_env c ev = Ok p ->
    (validate_variables (c_domains c) p = true <-> complete (c_domains c) ev).
  Proof.
    intros H. pose proof (make_env_ok _ _ _ H) as [L E]. rewrite (validate_nth _ _ L). split; intros K i d N U.
    - destruct (K i d N U) as [y Y]. destruct (make_env_named _ _ _ _ _ H Y) as (x & d' & D).
      pose proof (E _ _ _ D) as K'. exists x. split.
      + rewrite D. apply decl_spec in D. destruct D as [D _]. congruence.
      + intros LK. rewrite LK in K'. congruence.
    - destruct (K i d N U) as (n & D & LK). specialize (E n i d D). destruct (lookup ev n); [|easy].
      destruct E as (y0 & _ & E). eauto.
  Qed.
  Theorem calls_required ds cap minpart maxsplit t made l ev r b r' :
    calls cap minpart maxsplit ds t made l -> betree_search t ev r = Ok (b, r') ->
    (b = true <-> complete ds ev) /\ (b = false -> r' = r).
  Proof.
    intros K H. apply calls_cfg in K. destruct K as (_ & _ & _ & S). cbn [make_tree bt_cfg c_domains] in S.
    unfold betree_search in H. apply bind_ok in H. destruct H as (p & Ep & H). apply validate_any in Ep.
    assert (complete (c_domains (bt_cfg t)) ev <-> complete ds ev) as C by (split; apply complete_sig; congruence).
    rewrite <- C, <- Ep. destruct (validate_variables _ _); cbn [negb] in H.
    - apply bind_ok in H. destruct H as (r2 & H & [= <- <-]). split; [easy|discriminate].
    - injection H as <- <-. split; [easy|reflexivity].
  Qed.
  (** Events missing a required variable are refused whatever else is in the tree or the event. *)
  Theorem calls_missing ds cap minpart maxsplit t made l ev r p :
    calls cap minpart maxsplit ds t made l -> make_env (bt_cfg t) ev = Ok p -> ~ complete ds ev ->
    betree_search t ev r = Ok (false, r).
  Proof.
    intros K E N. apply calls_cfg in K. destruct K as (_ & _ & _ & S). cbn [make_tree bt_cfg c_domains] in S.
    unfold betree_search. rewrite E. cbn [bind]. destruct (validate_variables _ _) eqn:V; [|reflexivity].
    exfalso. apply N. apply (validate_any _ _ _ E) in V. eapply complete_sig; [|exact V]. congruence.
  Qed.
End WithGeo.
