(** Searching and freeing on linked objects. *)
From Coq Require Import ZArith NArith String Bool List Permutation Lia ZifyBool ZifyNat ZifyN.
From Verif Require Import Base Float Value Ast Config Special Match Tree Linked LinkedSpec PermTac LinkedHeap LinkedNode LinkedGrow LinkedInsert.
Import ListNotations.
Local Open Scope Z_scope.
Local Open Scope res_scope.

(** *** Searching *)
Section Match.
  Context {h : heap} {L : list (N * obj)} (ds : list domain) (e : env).
  Hypothesis H : holds h L.

  Definition match_cnode_ok (T : acnode) : Prop := forall p r,
    incl (blocks_cnode p T) L -> match_cnode ds e (er_cnode T) = Ok r ->
    exists l, fin (fun n => p_match n ds e (cn_at T) h) (map fst l) /\ map snd l = r /\ incl l (asubs_cnode T).
  Definition match_pdir_ok (P : apdir) : Prop := forall pd r,
    incl (blocks_pdir pd P) L -> match_pdir ds e (er_pdir P) = Ok r ->
    exists l, fin (fun n => p_match_pnodes n ds e (pn_at P) h) (map fst l) /\ map snd l = r /\ incl l (asubs_pdir P).
  Definition match_cdir_ok (D : acdir) : Prop := forall k p v ol orr r,
    incl (blocks_cdir k p v D) L -> match_cdir ds e v ol orr (er_cdir D) = Ok r ->
    exists l, fin (fun n => p_search n ds e ol orr (cd_at D) h) (map fst l) /\ map snd l = r /\ incl l (asubs_cdir D).

  Lemma cdir_bound k p v D : incl (blocks_cdir k p v D) L ->
    exists sa x l r, get_cdir h (cd_at D) = Ok (k, p, v, sa, cd_bound (er_cdir D), x, l, r).
  Proof.
    intros I. destruct D as [a sa b T|a sa b T l r]; cbn [cd_at blocks_cdir er_cdir cd_bound] in *;
      do 4 eexists; apply (at_cdir _ _ _ _ _ _ _ _ _ _ H), I; now left.
  Qed.

  Lemma match_ok : (forall T, match_cnode_ok T) /\ (forall P, match_pdir_ok P) /\ (forall D, match_cdir_ok D).
  Proof.
    apply atree_ind.
    - intros a la sa m subs pd pa ps IH p r I E. cbn [er_cnode match_cnode] in E. cbn [cn_at asubs_cnode].
      destruct (match_pdir ds e (er_pdir ps)) as [q| | |] eqn:M; cbn [bind] in E; try discriminate. apply Ok_inj in E. subst r.
      cbn [blocks_cnode] in I.
      destruct (IH pd q) as (l & (N1 & R) & Q & J). { intros x K. apply I. right. do 2 (apply in_or_app; right). exact K. } { exact M. }
      exists (subs ++ l). split; [|split; [rewrite map_app, Q; reflexivity|apply incl_app; [apply incl_appl, incl_refl|now apply incl_appr]]].
      exists (S N1). intros [|n] LE; [lia|]. cbn [p_match].
      rewrite (at_cnode _ a p la _ H) by (apply I; now left). cbn [bind].
      rewrite (ln_subs _ a la sa m (map fst subs) H) by (intros x K; apply I; right; apply in_or_app; now left). cbn [bind].
      rewrite map_app. destruct ps as [|pn s v sc D rest].
      + cbn [pn_at arr_ptr N.eqb NULL bind]. destruct n as [|n]; cbn in Q, M; apply Ok_inj in M; subst q;
          (destruct l; [reflexivity|discriminate]).
      + set (P := ACons pn s v sc D rest) in *. change (arr_ptr pd (pn_at P)) with pd.
        assert (I1 : In (pd, OPdir a (length (pn_at P)) pa) L) by (apply I; right; apply in_or_app; right; apply in_or_app; left; now left).
        assert (I2 : In (pa, OArr (pn_at P)) L) by (apply I; right; apply in_or_app; right; apply in_or_app; left; right; now left).
        rewrite (holds_pos _ _ _ H I1), (at_pdir _ _ _ _ _ H I1). cbn [bind]. rewrite (at_entries _ _ _ H I2). cbn [bind].
        rewrite R by lia. reflexivity.
    - intros pd r _ E. cbn in E. apply Ok_inj in E. subst r. exists []. split; [|split; [reflexivity|apply incl_refl]].
      exists 1%nat. intros [|n] LE; [lia|]. reflexivity.
    - intros a sa v sc D IHD rest IHR pd r I E. cbn [er_pdir match_pdir] in E. cbn [pn_at asubs_pdir]. cbn [blocks_pdir] in I.
      destruct (nthN ds v) as [d|] eqn:ND; [|discriminate].
      set (go := if d_undef d then Ok true else do o <- read_var e v; Ok (match o with Some _ => true | None => false end)) in *.
      destruct go as [g| | |] eqn:GO; cbn [bind] in E; try discriminate.
      destruct (match_pdir ds e (er_pdir rest)) as [r2| | |] eqn:M2.
      2,3,4: destruct (if g then match_cdir ds e v true true (er_cdir D) else Ok []); discriminate.
      destruct (IHR pd r2) as (l2 & (N2 & R2) & Q2 & J2).
      { intros x K. apply I. do 2 right. apply in_or_app. now right. } { exact M2. }
      assert (A : exists l1, fin (fun n => if g then p_search n ds e true true (cd_at D) h else Ok []) (map fst l1)
                   /\ (if g then match_cdir ds e v true true (er_cdir D) else Ok []) = Ok (map snd l1) /\ incl l1 (asubs_cdir D)).
      { destruct g.
        - destruct (match_cdir ds e v true true (er_cdir D)) as [r1| | |] eqn:M1; cbn [bind] in E; try discriminate.
          destruct (IHD true a v true true r1) as (l1 & R1 & Q1 & J1).
          { intros x K. apply I. do 2 right. apply in_or_app. now left. } { exact M1. }
          exists l1. subst r1. split; [exact R1|]. split; [reflexivity|exact J1].
        - exists []. split; [now apply fin_ok|]. split; [reflexivity|apply incl_nil_l]. }
      destruct A as (l1 & (N1 & R1) & Q1 & J1). rewrite Q1 in E. cbn [bind] in E. apply Ok_inj in E. subst r.
      exists (l1 ++ l2). split; [|split; [now rewrite map_app, Q2|]].
      + exists (S (N1 + N2)). intros [|n] LE; [lia|]. cbn [p_match_pnodes].
        rewrite (at_pnode _ a pd v sa (cd_at D) sc H) by (apply I; now left). cbn [bind]. rewrite ND.
        fold go. rewrite GO. cbn [bind]. rewrite R1 by lia. cbn [bind]. rewrite R2 by lia. cbn [bind]. now rewrite map_app.
      + apply incl_app; [now apply incl_appl|now apply incl_appr].
    - intros a sa b T IHT k p v ol orr r I E. cbn [er_cdir match_cdir] in E. cbn [cd_at asubs_cdir]. cbn [blocks_cdir] in I.
      destruct (IHT a r) as (l & (N1 & R) & Q & J). { intros x K. apply I. do 2 right. exact K. } { exact E. }
      exists l. split; [|split; [exact Q|exact J]]. exists (S N1). intros [|n] LE; [lia|]. cbn [p_search].
      rewrite (at_cdir _ _ _ _ _ _ _ _ _ _ H (I _ (or_introl eq_refl))). cbn [bind]. rewrite R by lia.
      cbn [bind N.eqb NULL]. now rewrite !app_nil_r.
    - intros a sa b T IHT l IHl rr IHr k p v ol orr r I E. cbn [er_cdir match_cdir] in E. cbn [cd_at asubs_cdir]. cbn [blocks_cdir] in I.
      assert (IL : incl (blocks_cdir false a v l) L) by (intros x K; apply I; do 2 right; apply in_or_app; right; apply in_or_app; now left).
      assert (IR : incl (blocks_cdir false a v rr) L) by (intros x K; apply I; do 2 right; apply in_or_app; right; apply in_or_app; now right).
      destruct (match_cnode ds e (er_cnode T)) as [r0| | |] eqn:M0; cbn [bind] in E; try discriminate.
      destruct (IHT a r0) as (l0 & (N0 & R0) & Q0 & J0). { intros x K. apply I. do 2 right. apply in_or_app. now left. } { exact M0. }
      destruct (is_event_enclosed e v (cd_bound (er_cdir l)) ol false) as [el| | |] eqn:EL; cbn [bind] in E; try discriminate.
      assert (A : exists l1, fin (fun n => if el then p_search n ds e ol false (cd_at l) h else Ok []) (map fst l1)
                   /\ (if el then match_cdir ds e v ol false (er_cdir l) else Ok []) = Ok (map snd l1) /\ incl l1 (asubs_cdir l)).
      { destruct el.
        - destruct (match_cdir ds e v ol false (er_cdir l)) as [r1| | |] eqn:M1; cbn [bind] in E; try discriminate.
          destruct (IHl false a v ol false r1 IL M1) as (l1 & R1 & Q1 & J1).
          exists l1. subst r1. split; [exact R1|]. split; [reflexivity|exact J1].
        - exists []. split; [now apply fin_ok|]. split; [reflexivity|apply incl_nil_l]. }
      destruct A as (l1 & (N1 & R1) & Q1 & J1). rewrite Q1 in E. cbn [bind] in E.
      destruct (is_event_enclosed e v (cd_bound (er_cdir rr)) false orr) as [er| | |] eqn:ER; cbn [bind] in E; try discriminate.
      assert (A : exists l2, fin (fun n => if er then p_search n ds e false orr (cd_at rr) h else Ok []) (map fst l2)
                   /\ (if er then match_cdir ds e v false orr (er_cdir rr) else Ok []) = Ok (map snd l2) /\ incl l2 (asubs_cdir rr)).
      { destruct er.
        - destruct (match_cdir ds e v false orr (er_cdir rr)) as [r1'| | |] eqn:M1; cbn [bind] in E; try discriminate.
          destruct (IHr false a v false orr r1' IR M1) as (l2 & R2 & Q2 & J2).
          exists l2. subst r1'. split; [exact R2|]. split; [reflexivity|exact J2].
        - exists []. split; [now apply fin_ok|]. split; [reflexivity|apply incl_nil_l]. }
      destruct A as (l2 & (N2 & R2) & Q2 & J2). rewrite Q2 in E. cbn [bind] in E. apply Ok_inj in E. subst r.
      exists (l0 ++ l1 ++ l2). split; [|split; [now rewrite !map_app, Q0|]].
      + exists (S (N0 + N1 + N2)). intros [|n] LE; [lia|]. cbn [p_search].
        rewrite (at_cdir _ _ _ _ _ _ _ _ _ _ H (I _ (or_introl eq_refl))). cbn [bind]. rewrite R0 by lia. cbn [bind].
        rewrite (cd_pos _ _ _ _ _ _ H IL), (cd_pos _ _ _ _ _ _ H IR).
        destruct (cdir_bound _ _ _ _ IL) as (x1 & x2 & x3 & x4 & ->). cbn [bind]. rewrite EL. cbn [bind].
        rewrite R1 by lia. cbn [bind].
        destruct (cdir_bound _ _ _ _ IR) as (y1 & y2 & y3 & y4 & ->). cbn [bind]. rewrite ER. cbn [bind].
        rewrite R2 by lia. cbn [bind]. now rewrite !map_app.
      + apply incl_app; [now apply incl_appl|]. apply incl_appr. apply incl_app; [now apply incl_appl|now apply incl_appr].
  Qed.
End Match.

(** *** Freeing *)
(** A block that is not a subscription. *)
Definition is_sub (o : obj) : bool := match o with OSub _ => true | _ => false end.
Lemma holds_drop h L a o : holds h ((a, o) :: L) -> is_sub o = false -> exists h', drop h a = Ok h' /\ holds h' L.
Proof.
  intros H S. destruct (holds_release _ _ _ H) as (h' & E & H'). exists h'. split; [|exact H']. unfold drop.
  rewrite (holds_pos _ _ _ H (or_introl eq_refl)), (holds_load _ _ _ H (or_introl eq_refl)). cbn [bind]. now destruct o.
Qed.
Lemma free_subs_ok l : forall h F, holds h (sub_blocks l ++ F) ->
  exists h', free_subs (map fst l) h = Ok h' /\ holds h' F.
Proof.
  induction l as [|(a, s) l IH]; intros h F H; cbn in *.
  - exists h. now split.
  - rewrite (holds_pos _ _ _ H (or_introl eq_refl)), (at_sub _ _ _ H (or_introl eq_refl)). cbn [bind].
    destruct (holds_release _ _ _ H) as (h1 & -> & H1). cbn [bind]. now apply IH.
Qed.
Lemma release_arr h a l F : holds h (arr_cells a l ++ F) -> exists h', drop h (arr_ptr a l) = Ok h' /\ holds h' F.
Proof.
  intros H. destruct l as [|x l]; cbn in *.
  - exists h. now split.
  - destruct (holds_drop _ _ _ _ H eq_refl) as (h1 & E & H1). now exists h1.
Qed.

Lemma free_lnode_ok a la sa m subs h F :
  holds h (ln_cells a la sa m (map fst subs) ++ sub_blocks subs ++ F) ->
  exists h', free_lnode la h = Ok h' /\ holds h' F.
Proof.
  intros H. unfold free_lnode, ln_cells in *.
  rewrite (holds_pos _ la _ H (or_introl eq_refl)), (at_lnode _ la _ _ _ _ H (or_introl eq_refl)). cbn [bind].
  rewrite (ln_entries _ sa (map fst subs) H) by (cbn [app]; apply incl_tl; apply incl_appl, incl_refl). cbn [bind].
  assert (H1 : holds h (sub_blocks subs ++ arr_cells sa (map fst subs) ++ (la, OLnode a (length (map fst subs)) (arr_ptr sa (map fst subs)) m) :: F)) by hperm.
  destruct (free_subs_ok _ _ _ H1) as (h1 & -> & H2). cbn [bind].
  destruct (release_arr _ _ _ _ H2) as (h2 & -> & H3). cbn [bind].
  exact (holds_drop _ _ _ _ H3 eq_refl).
Qed.

Definition free_cnode_ok (T : acnode) : Prop := forall p h F,
  holds h (blocks_cnode p T ++ sub_blocks (asubs_cnode T) ++ F) ->
  exists h', fin (fun n => free_cnode n (cn_at T) h) h' /\ holds h' F.
Definition free_pdir_ok (P : apdir) : Prop := forall pd h F,
  holds h (blocks_pdir pd P ++ sub_blocks (asubs_pdir P) ++ F) ->
  exists h', fin (fun n => free_pnodes n (pn_at P) h) h' /\ holds h' F.
Definition free_cdir_ok (D : acdir) : Prop := forall k p v h F,
  holds h (blocks_cdir k p v D ++ sub_blocks (asubs_cdir D) ++ F) ->
  exists h', fin (fun n => free_cdir n (cd_at D) h) h' /\ holds h' F.

Lemma free_ok : (forall T, free_cnode_ok T) /\ (forall P, free_pdir_ok P) /\ (forall D, free_cdir_ok D).
Proof.
  apply atree_ind.
  - intros a la sa m subs pd pa ps IH p h F H. cbn [blocks_cnode asubs_cnode cn_at] in *. rewrite sub_blocks_app in H.
    assert (H1 : holds h (ln_cells a la sa m (map fst subs) ++ sub_blocks subs ++ (a, OCnode p la (arr_ptr pd (pn_at ps)))
      :: pd_cells a pd pa (pn_at ps) ++ blocks_pdir pd ps ++ sub_blocks (asubs_pdir ps) ++ F)) by hperm.
    destruct (free_lnode_ok _ _ _ _ _ _ _ H1) as (h1 & R1 & H2).
    assert (A : exists h2, fin (fun n => free_pdir n (arr_ptr pd (pn_at ps)) h1) h2
                  /\ holds h2 ((a, OCnode p la (arr_ptr pd (pn_at ps))) :: F)).
    { destruct ps as [|pn s v sc D rest].
      - exists h1. split; [exists 1%nat; intros [|n] LE; [lia|reflexivity]|exact H2].
      - set (P := ACons pn s v sc D rest) in *. assert (NE : pn_at P = pn :: pn_at rest) by reflexivity. clearbody P.
        assert (EC : pd_cells a pd pa (pn_at P) = [(pd, OPdir a (length (pn_at P)) pa); (pa, OArr (pn_at P))]) by now rewrite NE.
        assert (EP : arr_ptr pd (pn_at P) = pd) by now rewrite NE. rewrite EC, EP in *.
        assert (H3 : holds h1 (blocks_pdir pd P ++ sub_blocks (asubs_pdir P) ++ (pa, OArr (pn_at P)) :: (pd, OPdir a (length (pn_at P)) pa)
            :: (a, OCnode p la pd) :: F)) by hperm.
        destruct (IH pd h1 _ H3) as (h2 & (N1 & R2) & H4).
        destruct (holds_drop _ _ _ _ H4 eq_refl) as (h3 & R3 & H5). destruct (holds_drop _ _ _ _ H5 eq_refl) as (h4 & R4 & H6).
        exists h4. split; [|exact H6]. exists (S N1). intros [|n] LE; [lia|]. cbn [free_pdir].
        assert (I1 : In (pd, OPdir a (length (pn_at P)) pa) (blocks_pdir pd P ++ sub_blocks (asubs_pdir P) ++ (pa, OArr (pn_at P)) :: (pd, OPdir a (length (pn_at P)) pa)
            :: (a, OCnode p la pd) :: F)) by (do 2 (apply in_or_app; right); right; now left).
        rewrite (holds_pos _ _ _ H3 I1), (at_pdir _ _ _ _ _ H3 I1). cbn [bind].
        rewrite (at_entries _ pa (pn_at P) H3) by (do 2 (apply in_or_app; right); now left). cbn [bind].
        rewrite R2 by lia. cbn [bind]. rewrite R3. cbn [bind]. exact R4. }
    destruct A as (h2 & (N1 & R2) & H3). destruct (holds_drop _ _ _ _ H3 eq_refl) as (h3 & R3 & H4).
    exists h3. split; [|exact H4]. exists (S N1). intros [|n] LE; [lia|]. cbn [free_cnode].
    rewrite (holds_pos _ a _ H (or_introl eq_refl)), (at_cnode _ a _ _ _ H (or_introl eq_refl)). cbn [bind].
    rewrite R1. cbn [bind]. rewrite R2 by lia. cbn [bind]. exact R3.
  - intros pd h F H. cbn in *. exists h. split; [|exact H]. exists 1%nat. intros [|n] LE; [lia|]. reflexivity.
  - intros a sa v sc D IHD rest IHR pd h F H. cbn [blocks_pdir asubs_pdir pn_at] in *. rewrite sub_blocks_app in H.
    assert (H1 : holds h ((sa, OStr) :: (a, OPnode pd v sa (cd_at D) sc) :: blocks_cdir true a v D ++ sub_blocks (asubs_cdir D)
       ++ blocks_pdir pd rest ++ sub_blocks (asubs_pdir rest) ++ F)) by hperm.
    destruct (holds_drop _ _ _ _ H1 eq_refl) as (h1 & R1 & H2).
    assert (H3 : holds h1 (blocks_cdir true a v D ++ sub_blocks (asubs_cdir D) ++ (a, OPnode pd v sa (cd_at D) sc)
       :: blocks_pdir pd rest ++ sub_blocks (asubs_pdir rest) ++ F)) by hperm.
    destruct (IHD true a v h1 _ H3) as (h2 & (N1 & R2) & H4).
    destruct (holds_drop _ _ _ _ H4 eq_refl) as (h3 & R3 & H5).
    destruct (IHR pd h3 F H5) as (h4 & (N2 & R4) & H6).
    exists h4. split; [|exact H6]. exists (S (S (N1 + N2))). intros [|[|n]] LE; try lia. cbn [free_pnodes free_pnode].
    rewrite (holds_pos _ a _ H (or_introl eq_refl)), (at_pnode _ a _ _ _ _ _ H (or_introl eq_refl)). cbn [bind].
    rewrite R1. cbn [bind]. rewrite R2 by lia. cbn [bind]. rewrite R3. cbn [bind]. apply (R4 (S n)). lia.
  - intros a sa b T IHT k p v h F H. cbn [blocks_cdir asubs_cdir cd_at] in *.
    assert (H1 : holds h ((sa, OStr) :: blocks_cnode a T ++ sub_blocks (asubs_cnode T) ++ (a, OCdir k p v sa b (cn_at T) NULL NULL) :: F)) by hperm.
    destruct (holds_drop _ _ _ _ H1 eq_refl) as (h1 & R1 & H2).
    destruct (IHT a h1 _ H2) as (h2 & (N1 & R2) & H3). destruct (holds_drop _ _ _ _ H3 eq_refl) as (h3 & R3 & H4).
    exists h3. split; [|exact H4]. exists (S (S N1)). intros [|[|n]] LE; try lia. cbn [free_cdir].
    rewrite (holds_pos _ a _ H (or_introl eq_refl)), (at_cdir _ a _ _ _ _ _ _ _ _ H (or_introl eq_refl)). cbn [bind].
    rewrite R1. cbn [bind]. rewrite R2 by lia. cbn [bind N.eqb NULL]. exact R3.
  - intros a sa b T IHT l IHl r IHr k p v h F H. cbn [blocks_cdir asubs_cdir cd_at] in *. rewrite !sub_blocks_app in H.
    assert (H1 : holds h ((sa, OStr) :: blocks_cnode a T ++ sub_blocks (asubs_cnode T)
       ++ blocks_cdir false a v l ++ sub_blocks (asubs_cdir l) ++ blocks_cdir false a v r ++ sub_blocks (asubs_cdir r)
       ++ (a, OCdir k p v sa b (cn_at T) (cd_at l) (cd_at r)) :: F)) by hperm.
    destruct (holds_drop _ _ _ _ H1 eq_refl) as (h1 & R1 & H2).
    destruct (IHT a h1 _ H2) as (h2 & (N1 & R2) & H3).
    destruct (IHl false a v h2 _ H3) as (h3 & (N2 & R3) & H4).
    destruct (IHr false a v h3 _ H4) as (h4 & (N3 & R4) & H5).
    destruct (holds_drop _ _ _ _ H5 eq_refl) as (h5 & R5 & H6).
    exists h5. split; [|exact H6]. exists (S (N1 + N2 + N3)). intros [|n] LE; try lia. cbn [free_cdir].
    rewrite (holds_pos _ a _ H (or_introl eq_refl)), (at_cdir _ a _ _ _ _ _ _ _ _ H (or_introl eq_refl)). cbn [bind].
    rewrite R1. cbn [bind]. rewrite R2 by lia. cbn [bind]. rewrite R3 by lia. cbn [bind]. rewrite R4 by lia. cbn [bind]. exact R5.
Qed.
