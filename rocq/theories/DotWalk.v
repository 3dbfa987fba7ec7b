(** The three walks of the drawing: nodes, edges, levels. *)
From Coq Require Import ZArith NArith String Ascii Bool List Permutation Lia ZifyBool ZifyNat ZifyN.
From Verif Require Import Base Float Value Ast Config Tree Printer Api Linked LinkedApi DotFile.
From Verif Require Import LinkedSpec PermTac LinkedHeap LinkedNode LinkedGrow LinkedInsert LinkedUse DotSpec DotNames DotProofs.
Import ListNotations.
Local Open Scope list_scope.
Local Open Scope string_scope.
Local Open Scope res_scope.
Local Open Scope dot_scope.

Section Draw.
  Context (c : config).

  (** *** Parts *)
  Lemma table_ok L p v D s :
    incl (blocks_cdir true p v D) L -> names L (fun n => path_pnode n c p) s -> fine_cdir c (er_cdir D) ->
    draws L (fun n => cdir_table n c (cd_at D) 1)
      (item_text (ITable ("cdir_" ++ to_range s (cd_bound (er_cdir D))) (rows_of s (er_cdir D)))).
  Proof.
    intros I U F. pose proof (ranged_top c _ F) as B.
    assert (U' : names L (fun n => up c n true p) s) by exact U.
    assert (FT : fits c L s (Some D)) by (exists true, p, v; now split).
    destruct (rows_ok c L s D FT (height (er_cdir D)) 0) as (N1 & RW).
    destruct (depth_ok L D true p v O I eq_refl) as (N2 & DP). cbn [Nat.add] in DP.
    unfold cdir_table. eapply draws_with; [apply (name_in c _ _ _ _ _ _ I U' B)|]. exists (N1 + N2)%nat. intros a M h J H.
    apply runs_bind, runs_say. apply runs_bind, (runs_text _ _ _ _ _ H); [now left|]. cbn [snd].
    do 3 (apply runs_bind, runs_say). apply runs_bind, runs_say.
    apply runs_bind, (runs_text _ _ _ _ _ H); [now left|]. cbn [snd].
    do 3 (apply runs_bind, runs_say).
    apply runs_bind. eapply runs_mono; [apply (DP ((a, OStr) :: M) h); [now apply incl_tl|exact H]|lia|].
    intros d s1 h1 (-> & -> & H1).
    apply runs_bind. eapply (runs_draws L _ _ _ ((a, OStr) :: M)); [exact RW|now apply incl_tl|exact H1| |lia]. intros h2 H2.
    do 6 (apply runs_bind, runs_say).
    eapply runs_free; [exact H2|reflexivity|]. intros h' H'. split; [|exact H'].
    rewrite er_bound. unfold item_text, rows_of. txt.
  Qed.
  Lemma label_ok L a pd v sa cd sc t :
    In (a, OPnode pd v sa cd sc) L -> In (sa, OStr) L -> known c v -> names L (fun n => path_pnode n c a) t ->
    draws L (fun n => pnode_label n c a 1)
      (show [INode ("pnode_" ++ t) (pnode_style c v); INode ("pnode_" ++ t ++ "_fake") fake_style]).
  Proof.
    intros I1 I2 V K. destruct (attr_ok c L v sa V I2) as (N & AT). unfold pnode_label.
    eapply draws_with; [apply name_pnode_ok; exact K|]. exists N. intros x M h J H.
    apply runs_bind, runs_say. apply runs_bind. eapply runs_peek; [eapply at_pnode; [exact H|right; apply J; exact I1]|].
    cbv beta iota. apply runs_bind, (runs_text _ _ _ _ _ H); [now left|]. cbn [snd].
    apply runs_bind. eapply runs_mono; [apply (AT ((x, OStr) :: M) h); [now apply incl_tl|exact H]|lia|].
    intros y s1 h1 (-> & -> & H1). do 2 (apply runs_bind, runs_say).
    apply runs_bind, (runs_text _ _ _ _ _ H1); [now left|]. cbn [snd]. apply runs_bind, runs_say.
    eapply runs_free; [exact H1|reflexivity|]. intros h' H'. split; [|exact H'].
    rewrite !show_cons, show_nil. unfold item_text, pnode_style, fake_style. txt.
  Qed.
  Definition inner_text (x : string * string) : string :=
    node_text 8 (fst x) ("label=""" ++ snd x ++ """, color=cyan2, fillcolor=cyan2, style=filled, shape=record").
  Lemma inner_ok L pd cn k pa t P :
    incl (blocks_pdir pd P) L -> In (pd, OPdir cn k pa) L -> fine_pdir c (er_pdir P) -> names L (fun n => path_cnode n c cn) t ->
    draws L (fun n => pdir_inner n c (pn_at P) 2)
      (String.concat "" (map inner_text (map (fun v => ("pnode_" ++ to_pnode c t v, var_name c v)) (pnodes_of t (er_pdir P))))).
  Proof.
    intros I IP F K. induction P as [|a sa v sc D rest IH]; cbn [pn_at pdir_inner er_pdir pnodes_of map]; [apply draws_nil|].
    cbn in F. destruct F as (V & _ & FR). cbn [blocks_pdir] in I.
    assert (I1 := I _ (or_introl eq_refl)). assert (I2 := I _ (or_intror (or_introl eq_refl))).
    destruct (attr_ok c L v sa V I2) as (N & AT).
    destruct IH as (N2 & IH); [inl I|exact FR|].
    rewrite concat_cons.
    eapply draws_with; [apply name_pnode_ok; eapply path_pnode_ok; [exact I1|exact I2|exact IP|exact V|exact K]|].
    exists (N + N2)%nat. intros x M h J H.
    apply runs_bind, runs_say. apply runs_bind. eapply runs_peek; [eapply at_pnode; [exact H|right; apply J; exact I1]|].
    cbv beta iota. apply runs_bind, (runs_text _ _ _ _ _ H); [now left|]. cbn [snd].
    apply runs_bind. eapply runs_mono; [apply (AT ((x, OStr) :: M) h); [now apply incl_tl|exact H]|lia|].
    intros y s1 h1 (-> & -> & H1). apply runs_bind, runs_say.
    apply runs_bind. eapply runs_free; [exact H1|reflexivity|]. intros h2 H2.
    eapply (runs_draws L _ _ _ M); [exact IH|exact J|exact H2| |lia]. intros h' H'. split; [|exact H'].
    unfold inner_text at 2. cbn [fst snd]. txt.
  Qed.
  Lemma cluster_ok L pd cn k pa t P :
    incl (blocks_pdir pd P) L -> In (pd, OPdir cn k pa) L -> fine_pdir c (er_pdir P) -> names L (fun n => path_cnode n c cn) t ->
    draws L (fun n => pdir_cluster n c pd (pn_at P) 1)
      (item_text (IPdir ("pdir_" ++ t) (map (fun v => ("pnode_" ++ to_pnode c t v, var_name c v)) (pnodes_of t (er_pdir P))))).
  Proof.
    intros I IP F K. destruct (inner_ok L pd cn k pa t P I IP F K) as (N & IN). unfold pdir_cluster.
    eapply draws_with; [eapply name_pdir_ok; [exact IP|exact K]|]. exists N. intros a M h J H.
    apply runs_bind, runs_say. apply runs_bind, (runs_text _ _ _ _ _ H); [now left|]. cbn [snd].
    do 3 (apply runs_bind, runs_say).
    apply runs_bind. eapply (runs_draws L _ _ _ ((a, OStr) :: M)); [exact IN|now apply incl_tl|exact H| |lia]. intros h2 H2.
    do 2 (apply runs_bind, runs_say).
    eapply runs_free; [exact H2|reflexivity|]. intros h' H'. split; [|exact H'].
    unfold item_text. fold inner_text.
    change (fun x : string * string => node_text 8 (fst x) ("label=""" ++ snd x ++ """, color=cyan2, fillcolor=cyan2, style=filled, shape=record")) with inner_text.
    txt.
  Qed.

  Lemma drawn_ok L p T : incl (blocks_cnode p T) L -> gives L (fun _ => should_print (cn_at T)) (drawn (er_cnode T)).
  Proof.
    intros I. destruct T as [a la sa m subs pd pa ps]. cbn [blocks_cnode cn_at er_cnode] in *. apply gives_peek. intros M h J H.
    rewrite (at_cnode _ a p la _ H) by (apply J, I; now left). cbn [bind]. destruct ps as [|pn s v sc D rest].
    - cbn [pn_at arr_ptr N.eqb NULL negb]. rewrite (at_lnode _ la _ _ _ _ H) by (apply J, I; right; left; reflexivity). cbn [bind].
      destruct subs as [|x subs]; reflexivity.
    - cbn [pn_at arr_ptr pd_cells] in *. rewrite (holds_pos M pd (OPdir a (List.length (pn :: pn_at rest)) pa) H) by (apply J; inb I). cbn [negb er_pdir drawn].
      now destruct (map snd subs).
  Qed.
  Lemma in_cnode p T : exists la d, In (cn_at T, OCnode p la d) (blocks_cnode p T).
  Proof. destruct T; cbn. do 2 eexists. now left. Qed.

  (** *** Nodes *)
  Definition nodes_cnode_ok (T : acnode) : Prop := forall L root p t,
    incl (blocks_cnode p T) L -> incl (sub_blocks (asubs_cnode T)) L -> hangs L root p ->
    names L (fun n => path_cnode n c (cn_at T)) t -> fine_cnode c (er_cnode T) ->
    draws L (fun n => cnode_names n c (cn_at T) 1) (show (nodes_cnode c root t (er_cnode T))).
  Definition nodes_pdir_ok (P : apdir) : Prop := forall L pd cn k pa t,
    incl (blocks_pdir pd P) L -> incl (sub_blocks (asubs_pdir P)) L -> In (pd, OPdir cn k pa) L ->
    names L (fun n => path_cnode n c cn) t -> fine_pdir c (er_pdir P) ->
    draws L (fun n => pnodes_names n c (pn_at P) 1) (show (nodes_pdir c t (er_pdir P))).
  Definition nodes_cdir_ok (D : acdir) : Prop := forall L k p v s,
    incl (blocks_cdir k p v D) L -> incl (sub_blocks (asubs_cdir D)) L ->
    names L (fun n => up c n k p) s -> fine_cdir c (er_cdir D) ->
    draws L (fun n => cdir_names n c (cd_at D) 1) (show (nodes_cdir c s (er_cdir D))).

  Lemma blocks_head p a la sa m subs pd pa ps :
    In (a, OCnode p la (arr_ptr pd (pn_at ps))) (blocks_cnode p (AC a la sa m subs pd pa ps)).
  Proof. now left. Qed.

  (** The cnode of a cdir, if it is drawn. *)
  Lemma at_cdir_cnode (f : nat -> config -> N -> dot unit) (X : string -> cnode -> list item) L k p v sa b T l r a s :
    In (a, OCdir k p v sa b (cn_at T) l r) L -> incl (blocks_cnode a T) L -> ranged b -> names L (fun n => up c n k p) s ->
    (forall t, names L (fun n => path_cnode n c (cn_at T)) t -> draws L (fun n => f n c (cn_at T)) (show (X t (er_cnode T)))) ->
    gives L (fun _ => if (cn_at T =? NULL)%N then dret false else should_print (cn_at T)) (drawn (er_cnode T))
    /\ draws L (fun n => if drawn (er_cnode T) then f n c (cn_at T) else dret tt)
         (show (if drawn (er_cnode T) then X (to_range s b) (er_cnode T) else [])).
  Proof.
    intros I IT B U K. destruct (in_cnode a T) as (la & d & J). split.
    - eapply gives_if; [apply IT, J|]. now apply (drawn_ok L a).
    - destruct (drawn (er_cnode T)); [|apply draws_nil]. apply K. eapply path_sub; [apply IT, J|exact I|exact B|].
      exact (path_up c _ _ _ _ _ _ _ _ _ _ _ I U).
  Qed.

  Lemma nodes_ok : (forall T, nodes_cnode_ok T) /\ (forall P, nodes_pdir_ok P) /\ (forall D, nodes_cdir_ok D).
  Proof.
    apply atree_ind.
    - intros a la sa m subs pd pa ps IH L root p t I IS R K F. cbn [blocks_cnode asubs_cnode cn_at er_cnode nodes_cnode fine_cnode] in *.
      assert (I1 := I _ (or_introl eq_refl)). rewrite sub_blocks_app in IS.
      assert (IL : incl (ln_cells a la sa m (map fst subs)) L) by inl I.
      assert (ISS : incl (sub_blocks subs) L) by inl IS.
      eapply draws_step; [reflexivity|]. cbn [cnode_names].
      assert (PD : exists t2, draws L (fun n => if (arr_ptr pd (pn_at ps) =? NULL)%N then dret tt else
          on (_, k, pa0) <- peek (fun h => get_pdir h (arr_ptr pd (pn_at ps)));
          on l <- peek (fun h => entries h k pa0);
          pdir_cluster n c (arr_ptr pd (pn_at ps)) l 1;; pnodes_names n c l 1) t2
          /\ t2 = show (match er_pdir ps with
               | PNil => []
               | _ => IPdir ("pdir_" ++ t) (map (fun v => ("pnode_" ++ to_pnode c t v, var_name c v)) (pnodes_of t (er_pdir ps)))
                  :: nodes_pdir c t (er_pdir ps)
               end)).
      { destruct ps as [|pn s v sc D rest].
        - exists "". split; [cbn [pn_at arr_ptr N.eqb NULL]; apply draws_nil|reflexivity].
        - set (P := ACons pn s v sc D rest) in *. change (arr_ptr pd (pn_at P)) with pd in *.
          assert (IP : In (pd, OPdir a (List.length (pn_at P)) pa) L) by (apply I; right; apply in_or_app; right; apply in_or_app; left; now left).
          assert (IA : In (pa, OArr (pn_at P)) L) by (apply I; right; apply in_or_app; right; apply in_or_app; left; right; now left).
          assert (IB : incl (blocks_pdir pd P) L) by inl I.
          assert (IBS : incl (sub_blocks (asubs_pdir P)) L) by inl IS.
          eexists. split.
          + eapply draws_if; [exact IP|]. eapply (draws_get _ (fun _ => _)); [reads|]. cbv beta iota.
            eapply (draws_get _ (fun _ => _)); [apply gives_peek; intros M h J H; eapply at_entries; [exact H|apply J; exact IA]|].
            eapply draws_seq; [apply (cluster_ok _ _ _ _ _ _ _ IB IP F K)|apply (IH _ _ _ _ _ _ IB IBS IP K F)].
          + cbn [er_pdir P]. now rewrite show_cons. }
      destruct PD as (t2 & PD & E2).
      assert (LN := lnode_ok c L a la sa m subs t IL ISS K).
      destruct LN as (N1 & LN). destruct PD as (N2 & PD).
      eapply draws_with; [eapply name_cnode_ok; [exact I1|exact R|exact K]|]. exists (N1 + N2)%nat. intros x M h J H.
      apply runs_bind, runs_say. apply runs_bind, (runs_text _ _ _ _ _ H); [now left|]. cbn [snd].
      apply runs_bind, runs_say. apply runs_bind. eapply runs_free; [exact H|reflexivity|]. intros h1 H1.
      apply runs_bind. eapply runs_peek; [eapply at_cnode; [exact H1|apply J; exact I1]|]. cbv beta iota.
      apply runs_bind. rewrite (holds_pos _ la _ H1 (J _ (IL _ (or_introl eq_refl)))).
      eapply (runs_draws L _ _ _ M); [exact LN|exact J|exact H1| |lia]. intros h2 H2.
      eapply (runs_draws L _ _ _ M); [exact PD|exact J|exact H2| |lia]. intros h3 H3. split; [|exact H3].
      rewrite E2. clear - c.
      set (Y := match er_pdir ps with PNil => _ | _ => _ end).
      set (X := match map snd subs with [] => [] | _ => _ end).
      change (show (INode (cnode_name root t) cnode_style :: INode ("lnode_" ++ t) lnode_style :: X ++ Y)%list)
        with (show (INode (cnode_name root t) cnode_style :: (INode ("lnode_" ++ t) lnode_style :: X) ++ Y)%list).
      rewrite (show_cons (INode (cnode_name root t) cnode_style)), show_app.
      change (item_text (INode (cnode_name root t) cnode_style)) with (node_text 4 (cnode_name root t) cnode_style).
      generalize (show (INode ("lnode_" ++ t) lnode_style :: X)%list) (show Y). intros U V. unfold cnode_style. txt.
    - intros L pd cn k pa t _ _ _ _ _. eapply draws_step; [reflexivity|]. apply draws_nil.
    - intros a sa v sc D IHD rest IHR L pd cn k pa t I IS IP K F. cbn [blocks_pdir asubs_pdir pn_at er_pdir nodes_pdir fine_pdir] in *.
      destruct F as (V & FD & FR). rewrite sub_blocks_app in IS.
      assert (I1 := I _ (or_introl eq_refl)). assert (I2 := I _ (or_intror (or_introl eq_refl))).
      assert (ID : incl (blocks_cdir true a v D) L) by inl I.
      assert (PP := path_pnode_ok c _ _ _ _ _ _ _ _ _ _ _ I1 I2 IP V K).
      destruct (in_cdir true a v D) as (s0 & l0 & r0 & J0). apply ID in J0.
      eapply draws_step; [reflexivity|]. cbn [pnodes_names]. eapply draws_eq.
      + eapply draws_seq; [eapply label_ok; [exact I1|exact I2|exact V|exact PP]|].
        eapply (draws_get _ (fun _ => _)); [reads|]. cbv beta iota.
        eapply draws_seq; [eapply draws_if; [exact J0|]|].
        * eapply draws_seq; [apply (table_ok _ _ _ _ _ ID PP FD)|]. eapply IHD; [exact ID|inl IS|exact PP|exact FD].
        * apply (IHR L pd cn k pa); [inl I|inl IS|exact IP|exact K|exact FR].
      + rewrite !show_cons, show_app, show_nil. rewrite !cat_assoc, ?cat_nil. reflexivity.
    - intros a sa b T IHT L k p v s I IS U F. cbn [blocks_cdir asubs_cdir cd_at er_cdir nodes_cdir fine_cdir] in *. destruct F as (B & FT).
      assert (I1 := I _ (or_introl eq_refl)). assert (IT : incl (blocks_cnode a T) L) by inl I.
      destruct (at_cdir_cnode (fun n c x => cnode_names n c x 1) (nodes_cnode c false) L k p v sa b T NULL NULL a s I1 IT B U) as (G & DR).
      { intros t K. apply (IHT _ _ a); [exact IT|exact IS|now exists (OCdir k p v sa b (cn_at T) NULL NULL)|exact K|exact FT]. }
      eapply draws_step; [reflexivity|]. cbn [cdir_names]. eapply draws_eq.
      + eapply (draws_get _ (fun _ => _)); [reads|]. cbv beta iota. eapply (draws_get _ (fun _ => _)); [exact G|].
        eapply draws_seq; [exact DR|]. cbn [N.eqb NULL]. eapply (draws_seq _ (fun _ => _)); apply draws_nil.
      + now rewrite !cat_nil.
    - intros a sa b T IHT l IHl r IHr L k p v s I IS U F. cbn [blocks_cdir asubs_cdir cd_at er_cdir nodes_cdir fine_cdir] in *.
      destruct F as (B & FT & FL & FR). rewrite !sub_blocks_app in IS.
      assert (I1 := I _ (or_introl eq_refl)). assert (IT : incl (blocks_cnode a T) L) by inl I.
      assert (IL : incl (blocks_cdir false a v l) L) by inl I. assert (IR : incl (blocks_cdir false a v r) L) by inl I.
      assert (U2 : names L (fun n => up c n false a) s) by exact (path_up c _ _ _ _ _ _ _ _ _ _ _ I1 U).
      destruct (at_cdir_cnode (fun n c x => cnode_names n c x 1) (nodes_cnode c false) L k p v sa b T (cd_at l) (cd_at r) a s I1 IT B U) as (G & DR).
      { intros t K. apply (IHT _ _ a); [exact IT|inl IS|now exists (OCdir k p v sa b (cn_at T) (cd_at l) (cd_at r))|exact K|exact FT]. }
      destruct (in_cdir false a v l) as (s1 & l1 & r1 & J1). apply IL in J1.
      destruct (in_cdir false a v r) as (s2 & l2 & r2 & J2). apply IR in J2.
      eapply draws_step; [reflexivity|]. cbn [cdir_names]. eapply draws_eq.
      + eapply (draws_get _ (fun _ => _)); [reads|]. cbv beta iota. eapply (draws_get _ (fun _ => _)); [exact G|].
        eapply draws_seq; [exact DR|]. eapply draws_seq; [eapply draws_if; [exact J1|]|eapply draws_if; [exact J2|]].
        * eapply IHl; [exact IL|inl IS|exact U2|exact FL].
        * eapply IHr; [exact IR|inl IS|exact U2|exact FR].
      + now rewrite !show_app.
  Qed.
End Draw.
