(** Insertion on linked objects does what Tree.v says. *)
From Coq Require Import ZArith NArith String Bool List Permutation Lia ZifyBool ZifyNat ZifyN.
From Verif Require Import Base Float Value Ast Config Tree Linked LinkedSpec PermTac LinkedHeap LinkedNode LinkedGrow.
Import ListNotations.
Local Open Scope Z_scope.
Local Open Scope res_scope.

Scheme acnode_mut := Induction for acnode Sort Prop
  with apdir_mut := Induction for apdir Sort Prop
  with acdir_mut := Induction for acdir Sort Prop.
Combined Scheme atree_ind from acnode_mut, apdir_mut, acdir_mut.

(** *** The chosen pnode *)

(** The address of the first pnode of a variable. *)
Fixpoint addr_of (v : N) (P : apdir) : N :=
  match P with ANil => NULL | ACons a _ w _ _ rest => if (v =? w)%N then a else addr_of v rest end.

Lemma addr_score v pd P sc :
  pdir_score v (er_pdir P) = Some sc ->
  exists sa cd, In (addr_of v P, OPnode pd v sa cd sc) (blocks_pdir pd P).
Proof.
  induction P as [|a sa w s D rest IH]; cbn; [discriminate|]. destruct (N.eqb_spec v w) as [->|_].
  - intros E. injection E as <-. exists sa, (cd_at D). now left.
  - intros E. destruct (IH E) as (sa' & cd & I). exists sa', cd. do 2 right. apply in_or_app. now right.
Qed.
Lemma addr_none v P : pdir_score v (er_pdir P) = None -> addr_of v P = NULL.
Proof. induction P as [|a sa w s D rest IH]; cbn; [reflexivity|]. destruct (v =? w)%N; [discriminate|exact IH]. Qed.
Lemma find_ok h L v pd P : holds h L -> incl (blocks_pdir pd P) L -> find_pnode h v (pn_at P) = Ok (addr_of v P).
Proof.
  intros H. induction P as [|a sa w s D rest IH]; cbn; intros I; [reflexivity|].
  rewrite (at_pnode _ a pd w sa (cd_at D) s H) by (apply I; now left). cbn [bind].
  destruct (v =? w)%N; [reflexivity|]. apply IH. intros x K. apply I. do 2 right. apply in_or_app. now right.
Qed.

Section Choose.
  Context {h : heap} {L : list (N * obj)} (cn pd : N) (used : list N) (s : sub) (P : apdir) (n : nat).
  Hypothesis H : holds h L.
  Hypothesis IP : incl (blocks_pdir pd P) L.
  Hypothesis SP : forall v, search_pdir h v pd = Ok (addr_of v P).
  Hypothesis U : forall v, is_used_cnode n h v cn = Ok (memN v used).

  (** The pnode of the variable found so far. *)
  Definition at_var (o : option N) : N := match o with None => NULL | Some w => addr_of w P end.

  Lemma choose_ok k : forall j f best var,
    p_choose n k j s cn pd h (f, best, at_var var)
    = let '(f', best', var') := choose_pnode k j s used (er_pdir P) (f, best, var) in Ok (f', best', at_var var').
  Proof.
    induction k as [|k IH]; intros j f best var; cbn [p_choose choose_pnode]; [reflexivity|].
    destruct (has_attr j s); cbn [negb andb]; [|apply IH].
    rewrite U. cbn [bind]. destruct (memN j used); cbn [negb bind]; [apply IH|].
    rewrite SP. cbn [bind]. destruct (pdir_score j (er_pdir P)) as [sc|] eqn:Q.
    - destruct (addr_score j pd P sc Q) as (sa & cd & I). rewrite (holds_pos _ _ _ H (IP _ I)).
      rewrite (at_pnode _ _ _ _ _ _ _ H (IP _ I)). cbn [bind].
      destruct (fltb best sc); [apply (IH (j + 1)%N true sc (Some j))|apply IH].
    - rewrite (addr_none _ _ Q). cbn [N.eqb NULL bind]. apply IH.
  Qed.
End Choose.

Lemma choose_nil n j s used f best var :
  choose_pnode n j s used PNil (f, best, var) = (f, best, var).
Proof.
  revert j. induction n as [|n IH]; intros j; cbn; [reflexivity|].
  destruct (has_attr j s && negb (memN j used)); apply IH.
Qed.

Lemma p_find_ok h p a la sa m subs pd pa ps F c s used o :
  holds h (blocks_cnode p (AC a la sa m subs pd pa ps) ++ F) -> above F p used ->
  find_partition c s used (er_pdir ps) = Ok o ->
  exists N mm, (forall n, (N <= n)%nat ->
     p_find n c s a (arr_ptr pd (pn_at ps)) h = Ok (match o with None => false | Some _ => true end, mm))
    /\ (forall w, o = Some w -> mm = addr_of w ps).
Proof.
  intros H A E. unfold find_partition in E. cbn [blocks_cnode] in H.
  destruct ps as [|pn s0 v0 sc0 D0 rest].
  - cbn [er_pdir] in E. rewrite choose_nil in E. cbv iota in E. apply Ok_inj in E. subst o.
    exists O, NULL. split; [|discriminate]. intros n _. reflexivity.
  - set (P := ACons pn s0 v0 sc0 D0 rest) in *.
    assert (Q : arr_ptr pd (pn_at P) = pd) by reflexivity.
    destruct (walk_cnode H a p la (arr_ptr pd (pn_at P)) used) as (N0 & W).
    { now left. } { eapply above_incl; [exact A|]. inl. }
    assert (IPD : In (pd, OPdir a (length (pn_at P)) pa) ((((a, OCnode p la (arr_ptr pd (pn_at P))) ::
       ln_cells a la sa m (map fst subs) ++ pd_cells a pd pa (pn_at P) ++ blocks_pdir pd P)) ++ F)).
    { apply in_or_app. left. right. apply in_or_app. right. apply in_or_app. left. now left. }
    assert (IPA : In (pa, OArr (pn_at P)) ((((a, OCnode p la (arr_ptr pd (pn_at P))) ::
       ln_cells a la sa m (map fst subs) ++ pd_cells a pd pa (pn_at P) ++ blocks_pdir pd P)) ++ F)).
    { apply in_or_app. left. right. apply in_or_app. right. apply in_or_app. left. right. now left. }
    assert (IP : incl (blocks_pdir pd P) ((((a, OCnode p la (arr_ptr pd (pn_at P))) ::
       ln_cells a la sa m (map fst subs) ++ pd_cells a pd pa (pn_at P) ++ blocks_pdir pd P)) ++ F)).
    { apply incl_appl. apply incl_tl. do 2 apply incl_appr. apply incl_refl. }
    assert (SP : forall v, search_pdir h v pd = Ok (addr_of v P)).
    { intros v. unfold search_pdir. rewrite (holds_pos _ _ _ H IPD), (at_pdir _ _ _ _ _ H IPD). cbn [bind].
      rewrite (at_entries _ _ _ H IPA). cbn [bind]. eapply find_ok; [exact H|exact IP]. }
    destruct (choose_pnode (length (c_domains c)) 0 s used (er_pdir P) (false, f_to_f32 (fopp DBL_MAX), None))
      as ((f, best), var) eqn:CH.
    exists N0, (at_var P var). split.
    + intros n LE. unfold p_find. rewrite Q, (holds_pos _ _ _ H IPD).
      assert (CO := choose_ok a pd used s P n H IP SP (fun v => proj2 (W n v LE)) (length (c_domains c)) 0%N
                      false (f_to_f32 (fopp DBL_MAX)) None).
      rewrite CH in CO. cbn [at_var] in CO. rewrite CO. cbn [bind].
      destruct f; [|now apply Ok_inj in E; subst o]. destruct var as [w|]; [|discriminate]. apply Ok_inj in E. now subst o.
    + intros w ->. destruct f; [|discriminate]. destruct var as [w'|]; [|discriminate]. injection E as ->. reflexivity.
Qed.

(** *** The score *)
Lemma count_ok v : forall D k p h L,
  holds h L -> incl (blocks_cdir k p v D) L -> incl (sub_blocks (asubs_cdir D)) L ->
  exists N, forall n, (N <= n)%nat -> count_in_cdir n v (cd_at D) h = Ok (count_cdir v (er_cdir D)).
Proof.
  assert (HEAD : forall T p h L, holds h L -> incl (blocks_cnode p T) L -> incl (sub_blocks (asubs_cnode T)) L ->
    (if (cn_at T =? NULL)%N then Ok 0 else
               do '(_, la, _) <- get_cnode h (cn_at T);
               do ps <- lnode_subs h la; do subs <- get_subs h ps; Ok (count_attr v subs))
    = Ok (count_attr v (cn_subs (er_cnode T)))).
  { intros [a la sa m subs pd pa ps] p h L H I SB. cbn [cn_at blocks_cnode asubs_cnode er_cnode cn_subs] in *.
    assert (J := I _ (or_introl eq_refl)). rewrite (holds_pos _ _ _ H J), (at_cnode _ _ _ _ _ H J). cbn [bind].
    rewrite (ln_subs _ a la sa m (map fst subs) H) by (intros x K; apply I; right; apply in_or_app; now left). cbn [bind].
    rewrite (subs_read _ _ H). { reflexivity. }
    intros x K. apply SB. rewrite sub_blocks_app. apply in_or_app. now left. }
  refine (acdir_mut (fun _ => True) (fun _ => True) (fun D => forall k p h L,
    holds h L -> incl (blocks_cdir k p v D) L -> incl (sub_blocks (asubs_cdir D)) L ->
    exists N, forall n, (N <= n)%nat -> count_in_cdir n v (cd_at D) h = Ok (count_cdir v (er_cdir D))) _ _ _ _ _); [easy|easy|easy|intros a sa b T _|intros a sa b T _ l IHl r IHr];
    intros k p h L H I SB;
    cbn [cd_at blocks_cdir asubs_cdir er_cdir count_cdir] in *.
  - exists 2%nat. intros n LE. destruct n as [|[|n]]; try lia. cbn [count_in_cdir].
    assert (J := I _ (or_introl eq_refl)). rewrite (holds_pos _ _ _ H J), (at_cdir _ _ _ _ _ _ _ _ _ _ H J). cbn [bind].
    rewrite (HEAD T a h L H); [|intros x K; apply I; do 2 right; exact K|exact SB].
    cbn [bind N.eqb NULL]. f_equal. lia.
  - rewrite !sub_blocks_app in SB.
    destruct (IHl false a h L H) as (N1 & R1).
    { intros x K; apply I; do 2 right. apply in_or_app. right. apply in_or_app. now left. }
    { intros x K. apply SB. apply in_or_app. right. apply in_or_app. now left. }
    destruct (IHr false a h L H) as (N2 & R2).
    { intros x K; apply I; do 2 right. apply in_or_app. right. apply in_or_app. now right. }
    { intros x K. apply SB. apply in_or_app. right. apply in_or_app. now right. }
    exists (S (N1 + N2)). intros [|n] LE; [lia|]. cbn [count_in_cdir].
    assert (J := I _ (or_introl eq_refl)). rewrite (holds_pos _ _ _ H J), (at_cdir _ _ _ _ _ _ _ _ _ _ H J). cbn [bind].
    rewrite (HEAD T a h L H); [|intros x K; apply I; do 2 right; apply in_or_app; now left
                              |intros x K; apply SB; apply in_or_app; now left].
    cbn [bind]. rewrite R1 by lia. cbn [bind]. rewrite R2 by lia. reflexivity.
Qed.

(** *** Insertion *)

(** Entering a pnode, as in the second half of [p_insert]. *)
Definition enter (n : nat) (c : config) (x : N) (s : sub) (pn : N) (h : heap) : result heap :=
  do '(_, _, _, top, _) <- get_pnode h pn;
  do m <- insert_cdir n c s top h;
  do '(_, _, _, _, _, mcn, _, _) <- get_cdir h m;
  do h <- p_insert n c x mcn m h;
  update_score n c pn h.

Section Insert.
  Context (fuel : nat) (c : config) (x : N) (s : sub).

  Definition ins_pdir_ok (P : apdir) : Prop := forall used w pd cn n pa q la d F h ps,
    holds h (blocks_pdir pd P ++ F) -> In (pd, OPdir cn n pa) F -> In (cn, OCnode q la d) F -> above F q used ->
    incl (sub_blocks (asubs_pdir P)) F -> In (x, OSub s) F ->
    ins_pdir fuel c s used w (er_pdir P) = Ok ps ->
    exists P' h', fin (fun n => enter n c x s (addr_of w P) h) h' /\ holds h' (blocks_pdir pd P' ++ F)
      /\ er_pdir P' = ps /\ pn_at P' = pn_at P /\ incl (asubs_pdir P') ((x, s) :: asubs_pdir P).
  Definition ins_cnode_ok (T : acnode) : Prop := match T with AC _ _ _ _ _ _ _ ps => ins_pdir_ok ps end.
  Definition ins_cdir_ok (D : acdir) : Prop := forall used v k p F h cd,
    holds h (blocks_cdir k p v D ++ F) -> parent F k p v used -> incl (sub_blocks (asubs_cdir D)) F -> In (x, OSub s) F ->
    ins_cdir fuel c s (v :: used) v (er_cdir D) = Ok cd ->
    exists m k' p' v' sa' b' mcn l' r' D' h',
      fin (fun n => insert_cdir n c s (cd_at D) h) m /\ get_cdir h m = Ok (k', p', v', sa', b', mcn, l', r')
      /\ fin (fun n => p_insert n c x mcn m h) h' /\ holds h' (blocks_cdir k p v D' ++ F)
      /\ er_cdir D' = cd /\ cd_at D' = cd_at D /\ incl (asubs_cdir D') ((x, s) :: asubs_cdir D).

  (** The subscription goes to a pnode of the cnode. *)
  Lemma insert_below a la sa m subs pd pa ps used p F h w cd ps' :
    ins_pdir_ok ps ->
    holds h (blocks_cnode p (AC a la sa m subs pd pa ps) ++ F) -> above F p used ->
    incl (sub_blocks (asubs_cnode (AC a la sa m subs pd pa ps))) F -> In (x, OSub s) F ->
    find_partition c s used (er_pdir ps) = Ok (Some w) -> ins_pdir fuel c s used w (er_pdir ps) = Ok ps' ->
    exists P' h', fin (fun n => p_insert n c x a cd h) h'
      /\ holds h' (blocks_cnode p (AC a la sa m subs pd pa P') ++ F)
      /\ er_pdir P' = ps' /\ incl (asubs_pdir P') ((x, s) :: asubs_pdir ps).
  Proof.
    intros IH H A SB IX FP E.
    destruct (p_find_ok _ _ _ _ _ _ _ _ _ _ _ c s used _ H A FP) as (N1 & mm & PF & AD). specialize (AD w eq_refl). subst mm.
    cbn [blocks_cnode] in H.
    assert (NE : exists y l, pn_at ps = y :: l).
    { destruct ps; [cbn in E; discriminate|cbn; eauto]. }
    destruct NE as (y & l & NE).
    set (F2 := (a, OCnode p la (arr_ptr pd (pn_at ps))) :: ln_cells a la sa m (map fst subs) ++ pd_cells a pd pa (pn_at ps) ++ F).
    assert (H1 : holds h (blocks_pdir pd ps ++ F2)) by (unfold F2; hperm).
    assert (AF : incl F F2) by (unfold F2; apply incl_tl; do 2 apply incl_appr; apply incl_refl).
    destruct (IH used w pd a (length (pn_at ps)) pa p la (arr_ptr pd (pn_at ps)) F2 h ps' H1)
      as (P' & h' & (N2 & R) & H2 & Q1 & Q2 & I2).
    { unfold F2. right. apply in_or_app. right. apply in_or_app. left. unfold pd_cells. rewrite NE. now left. }
    { now left. }
    { now apply (above_incl F). }
    { intros z K. apply AF, SB. cbn [asubs_cnode]. rewrite sub_blocks_app. apply in_or_app. now right. }
    { now apply AF. }
    { exact E. }
    exists P', h'. split; [|split; [|split; [exact Q1|exact I2]]].
    - exists (S (N1 + N2)). intros [|n] LE; [lia|]. cbn [p_insert].
      rewrite (at_sub _ x s H) by (apply in_or_app; now right). cbn [bind].
      rewrite (at_cnode _ a p la (arr_ptr pd (pn_at ps)) H) by now left. cbn [bind].
      rewrite PF by lia. cbn [bind negb]. apply R. lia.
    - cbn [blocks_cnode]. rewrite Q2. unfold F2 in H2. hperm.
  Qed.

  (** The subscription goes to the leaf of the cnode. *)
  Lemma insert_here a la sa m subs pd pa ps used p F h :
    holds h (blocks_cnode p (AC a la sa m subs pd pa ps) ++ F) -> above F p used -> In (x, OSub s) F ->
    find_partition c s used (er_pdir ps) = Ok None ->
    exists sa' h' N, holds h' (blocks_cnode p (AC a la sa' m (subs ++ [(x, s)]) pd pa ps) ++ F)
      /\ forall cd n, (N <= n)%nat -> p_insert (S n) c x a cd h
           = if (p =? NULL)%N then p_partitioning n c a h' else p_clustering n c cd h'.
  Proof.
    intros H A IX FP.
    destruct (p_find_ok _ _ _ _ _ _ _ _ _ _ _ c s used _ H A FP) as (N1 & mm & PF & _).
    cbn [blocks_cnode] in H.
    assert (H1 : holds h (ln_cells a la sa m (map fst subs) ++ (a, OCnode p la (arr_ptr pd (pn_at ps)))
       :: pd_cells a pd pa (pn_at ps) ++ blocks_pdir pd ps ++ F)) by hperm.
    destruct (append_ok _ _ _ _ _ _ _ x H1) as (sa' & h' & AP & H2).
    exists sa', h', N1. split.
    - cbn [blocks_cnode]. rewrite map_app. cbn [map fst]. hperm.
    - intros cd n LE. cbn [p_insert].
      rewrite (at_sub _ x s H) by (apply in_or_app; now right). cbn [bind].
      rewrite (at_cnode _ a p la (arr_ptr pd (pn_at ps)) H) by now left. cbn [bind].
      rewrite PF by lia. cbn [bind negb]. rewrite AP. cbn [bind]. unfold is_root.
      assert (I : In (a, OCnode p la (arr_ptr pd (pn_at ps))) (ln_cells a la sa' m (map fst subs ++ [x]) ++ (a, OCnode p la (arr_ptr pd (pn_at ps)))
       :: pd_cells a pd pa (pn_at ps) ++ blocks_pdir pd ps ++ F)) by (apply in_or_app; right; now left).
      rewrite (holds_pos _ _ _ H2 I), (at_cnode _ _ _ _ _ H2 I). reflexivity.
  Qed.

  Lemma ins_ok : (forall T, ins_cnode_ok T) /\ (forall P, ins_pdir_ok P) /\ (forall D, ins_cdir_ok D).
  Proof.
    apply atree_ind.
    - intros a la sa m subs pd pa ps IH. exact IH.
    - intros used w pd cn n pa q la d F h ps _ _ _ _ _ _ E. discriminate.
    - (* the pnodes in turn *)
      intros a sa v sc D IHD rest IHR used w pd cn n pa q la d F h ps H IPD ICN A SB IX E.
      cbn [er_pdir ins_pdir] in E. cbn [blocks_pdir asubs_pdir] in *. cbn [addr_of]. rewrite sub_blocks_app in SB.
      destruct (w =? v)%N.
      + destruct (ins_cdir fuel c s (v :: used) v (er_cdir D)) as [cd'| | |] eqn:IC; cbn [bind] in E; try discriminate.
        destruct (partition_score c v cd') as [sc'| | |] eqn:PS; cbn [bind] in E; try discriminate. apply Ok_inj in E. subst ps.
        set (F2 := (a, OPnode pd v sa (cd_at D) sc) :: (sa, OStr) :: blocks_pdir pd rest ++ F).
        assert (AF : incl F F2) by (unfold F2; do 2 apply incl_tl; apply incl_appr, incl_refl).
        assert (H1 : holds h (blocks_cdir true a v D ++ F2)) by (unfold F2; hperm).
        destruct (IHD used v true a F2 h cd' H1) as (m & k' & p' & v' & sa' & b' & mcn & l' & r' & D' & h1 & (N1 & R1) & G & (N2 & R2) & H2 & Q1 & Q2 & I1).
        { exists pd, sa, (cd_at D), sc, cn, n, pa, q, la, d. split; [now left|].
          split; [now apply AF|split; [now apply AF|now apply (above_incl F)]]. }
        { intros y K. apply AF, SB. apply in_or_app. now left. }
        { now apply AF. }
        { exact IC. }
        assert (H3 : holds h1 ((a, OPnode pd v sa (cd_at D) sc) :: (sa, OStr) :: blocks_cdir true a v D' ++ blocks_pdir pd rest ++ F)).
        { unfold F2 in H2. hperm. }
        unfold partition_score in PS.
        destruct (get_domain c v) as [dm| | |] eqn:GD; cbn [bind] in PS; try discriminate.
        destruct (get_score dm (count_cdir v cd')) as [g| | |] eqn:GS; cbn [bind] in PS; try discriminate.
        apply Ok_inj in PS. subst sc'.
        destruct (count_ok v D' true a h1 _ H2) as (N3 & R3).
        { apply incl_appl, incl_refl. }
        { intros y K. apply in_map_iff in K as (z & <- & K). apply in_or_app. right. apply AF. apply I1 in K as [<-|K].
          - exact IX.
          - apply SB. apply in_or_app. left. unfold sub_blocks. now apply (in_map (fun x => (fst x, OSub (snd x)))). }
        rewrite Q1 in R3.
        destruct (holds_store _ _ _ (OPnode pd v sa (cd_at D) (f_to_f32 g)) H3) as (h2 & ST & H4).
        exists (ACons a sa v (f_to_f32 g) D' rest), h2. split; [|split; [|split; [cbn; now rewrite Q1|split; [reflexivity|]]]].
        * exists (N1 + N2 + N3)%nat. intros k LE. unfold enter.
          rewrite (at_pnode _ a pd v sa (cd_at D) sc H) by now left. cbn [bind].
          rewrite R1 by lia. cbn [bind]. rewrite G. cbn [bind]. rewrite R2 by lia. cbn [bind]. unfold update_score.
          rewrite (at_pnode _ a pd v sa (cd_at D) sc H3) by now left. cbn [bind]. rewrite <- Q2, R3 by lia. cbn [bind].
          rewrite GD. cbn [bind]. rewrite GS. cbn [bind]. rewrite Q2. exact ST.
        * cbn [blocks_pdir]. rewrite Q2. hperm.
        * cbn [asubs_pdir]. intros y K. apply in_app_or in K as [K|K].
          -- apply I1 in K as [K|K]; [now left|right; apply in_or_app; now left].
          -- right. apply in_or_app. now right.
      + destruct (ins_pdir fuel c s used w (er_pdir rest)) as [rest'| | |] eqn:IR; cbn [bind] in E; try discriminate.
        apply Ok_inj in E. subst ps.
        set (F2 := (a, OPnode pd v sa (cd_at D) sc) :: (sa, OStr) :: blocks_cdir true a v D ++ F).
        assert (AF : incl F F2) by (unfold F2; do 2 apply incl_tl; apply incl_appr, incl_refl).
        assert (H1 : holds h (blocks_pdir pd rest ++ F2)) by (unfold F2; hperm).
        destruct (IHR used w pd cn n pa q la d F2 h rest' H1) as (P' & h' & R & H2 & Q1 & Q2 & I1).
        { now apply AF. } { now apply AF. } { now apply (above_incl F). }
        { intros y K. apply AF, SB. apply in_or_app. now right. }
        { now apply AF. } { exact IR. }
        exists (ACons a sa v sc D P'), h'. split; [exact R|]. split; [|split; [cbn; now rewrite Q1|split; [cbn; now rewrite Q2|]]].
        * cbn [blocks_pdir]. unfold F2 in H2. hperm.
        * cbn [asubs_pdir]. intros y K. apply in_app_or in K as [K|K].
          -- right. apply in_or_app. now left.
          -- apply I1 in K as [K|K]; [now left|right; apply in_or_app; now right].
    - (* a cdir without children *)
      intros a sa b T IHT used v k p F h cd H PA SB IX E. destruct T as [cna la sl m subs pd pa ps].
      cbn [er_cdir er_cnode ins_cdir] in E. cbn [cd_at asubs_cdir].
      cbn [asubs_cdir] in SB. set (T := AC cna la sl m subs pd pa ps) in *.
      cbn [blocks_cdir] in H. change (cn_at T) with cna in H.
      assert (GC : get_cdir h a = Ok (k, p, v, sa, b, cna, NULL, NULL)) by (apply (at_cdir _ _ _ _ _ _ _ _ _ _ H); now left).
      assert (AP : (a =? NULL)%N = false) by (eapply holds_pos; [exact H|now left]).
      set (F2 := (a, OCdir k p v sa b cna NULL NULL) :: (sa, OStr) :: F).
      assert (AF : incl F F2) by (unfold F2; do 2 apply incl_tl; apply incl_refl).
      assert (H1 : holds h (blocks_cnode a T ++ F2)) by (unfold F2; hperm).
      assert (A2 : above F2 a (v :: used)).
      { eapply above_cdir; [now left|]. now apply (parent_incl F). }
      assert (IC : fin (fun n => insert_cdir n c s a h) a).
      { exists 1%nat. intros [|n] LE; [lia|]. cbn [insert_cdir]. rewrite GC. reflexivity. }
      destruct (find_partition c s (v :: used) (er_pdir ps)) as [[w|]| | |] eqn:FP; cbn [bind] in E; try discriminate.
      + destruct (ins_pdir fuel c s (v :: used) w (er_pdir ps)) as [ps'| | |] eqn:IP; cbn [bind] in E; try discriminate.
        apply Ok_inj in E. subst cd.
        destruct (insert_below cna la sl m subs pd pa ps (v :: used) a F2 h w a ps' IHT H1 A2) as (P' & h' & R & H2 & Q1 & I1).
        { intros y K. now apply AF, SB. } { now apply AF. } { exact FP. } { exact IP. }
        exists a, k, p, v, sa, b, cna, NULL, NULL, (ALeaf a sa b (AC cna la sl m subs pd pa P')), h'.
        split; [exact IC|]. split; [exact GC|]. split; [exact R|]. split; [|split; [cbn; now rewrite Q1|split; [reflexivity|]]].
        * cbn [blocks_cdir cn_at]. unfold F2 in H2. hperm.
        * cbn [asubs_cdir asubs_cnode T]. intros y K. apply in_app_or in K as [K|K].
          -- right. apply in_or_app. now left.
          -- apply I1 in K as [K|K]; [now left|right; apply in_or_app; now right].
      + destruct (insert_here cna la sl m subs pd pa ps (v :: used) a F2 h H1 A2) as (sl' & h1 & N1 & H2 & R1).
        { now apply AF. } { exact FP. }
        set (D1 := ALeaf a sa b (AC cna la sl' m (subs ++ [(x, s)]) pd pa ps)).
        assert (H3 : holds h1 (blocks_cdir k p v D1 ++ F)).
        { cbn [D1 blocks_cdir cn_at]. unfold F2 in H2. hperm. }
        assert (I0 : incl (asubs_cdir D1) ((x, s) :: asubs_cnode T)).
        { cbn [D1 asubs_cdir asubs_cnode T]. intros y K. rewrite !in_app_iff in K. cbn [In] in *. rewrite in_app_iff. tauto. }
        destruct (proj2 (grow_all fuel) c used v D1 k p F h1 cd H3 PA) as (D2 & h2 & (N2 & R2) & H4 & Q1 & Q2 & I1).
        { intros y K. apply in_map_iff in K as (z & <- & K). apply I0 in K as [<-|K]; [exact IX|].
          apply SB. unfold sub_blocks. now apply (in_map (fun x => (fst x, OSub (snd x)))). }
        { cbn [D1 er_cdir er_cnode]. rewrite map_app. exact E. }
        exists a, k, p, v, sa, b, cna, NULL, NULL, D2, h2.
        split; [exact IC|]. split; [exact GC|]. split; [|split; [exact H4|split; [exact Q1|split; [exact Q2|]]]].
        * exists (S (N1 + N2)). intros [|n] LE; [lia|]. rewrite R1 by lia. rewrite AP. apply (R2 n). lia.
        * intros y K. now apply I0, I1.
    - (* a cdir with children *)
      intros a sa b T IHT l IHl r IHr used v k p F h cd H PA SB IX E. destruct T as [cna la sl m subs pd pa ps].
      cbn [er_cdir er_cnode ins_cdir] in E. cbn [cd_at asubs_cdir].
      cbn [asubs_cdir] in SB. set (T := AC cna la sl m subs pd pa ps) in *. rewrite !sub_blocks_app in SB.
      assert (H0 := H). cbn [blocks_cdir] in H. change (cn_at T) with cna in H.
      assert (GC : get_cdir h a = Ok (k, p, v, sa, b, cna, cd_at l, cd_at r)) by (apply (at_cdir _ _ _ _ _ _ _ _ _ _ H); now left).
      assert (AP : (a =? NULL)%N = false) by (eapply holds_pos; [exact H|now left]).
      set (TOP := (a, OCdir k p v sa b cna (cd_at l) (cd_at r)) :: [(sa, OStr)]).
      assert (AB : forall G, incl TOP G -> incl F G -> above G a (v :: used)).
      { intros G G1 G2. eapply above_cdir; [apply G1; now left|]. now apply (parent_incl F). }
      assert (BD : forall D, er_cdir D = er_cdir l \/ er_cdir D = er_cdir r -> cd_bound (er_cdir D) = cd_b D) by (intros [] _; reflexivity).
      assert (EN : forall D, incl (blocks_cdir false a v D) (blocks_cdir k p v (ASplit a sa b T l r) ++ F) ->
                enclosed c s (cd_at D) h = sub_is_enclosed c s v (cd_bound (er_cdir D))).
      { intros D I. unfold enclosed. rewrite (cd_pos _ _ _ _ _ _ H0 I). destruct D as [a' sa' b' T'|a' sa' b' T' l' r'];
          cbn [cd_at blocks_cdir er_cdir cd_bound] in *; rewrite (at_cdir _ _ _ _ _ _ _ _ _ _ H0 (I _ (or_introl eq_refl))); reflexivity. }
      assert (LP : (cd_at l =? NULL)%N = false) by (apply (cd_pos _ _ false a v l H0); cbn [blocks_cdir]; inl).
      assert (ENL := EN l ltac:(cbn [blocks_cdir]; inl)). assert (ENR := EN r ltac:(cbn [blocks_cdir]; inl)). clear EN BD.
      destruct (sub_is_enclosed c s v (cd_bound (er_cdir l))) as [el| | |] eqn:EL; cbn [bind] in E; try discriminate. destruct el.
      { (* to the left *)
        destruct (ins_cdir fuel c s (v :: used) v (er_cdir l)) as [cl| | |] eqn:IL; cbn [bind] in E; try discriminate.
        apply Ok_inj in E. subst cd.
        assert (H1 : holds h (blocks_cdir false a v l ++ TOP ++ blocks_cnode a T ++ blocks_cdir false a v r ++ F)) by (unfold TOP; eapply holds_perm; [exact H|]; perm).
        destruct (IHl used v false a _ h cl H1) as (m' & k' & p' & v' & sa' & b' & mcn & l' & r' & D' & h1 & (N1 & R1) & G & R2 & H2 & Q1 & Q2 & I1).
        { cbn [parent]. apply AB; inl. }
        { intros y K. do 3 (apply in_or_app; right). apply SB. apply in_or_app. right. apply in_or_app. now left. }
        { do 3 (apply in_or_app; right). exact IX. }
        { exact IL. }
        exists m', k', p', v', sa', b', mcn, l', r', (ASplit a sa b T D' r), h1.
        split; [|split; [exact G|split; [exact R2|split; [|split; [cbn; now rewrite Q1|split; [reflexivity|]]]]]].
        * exists (S N1). intros [|n] LE; [lia|]. cbn [insert_cdir]. rewrite GC. cbn [bind]. rewrite LP. cbn [andb].
          rewrite ENL. cbn [bind]. apply R1. lia.
        * cbn [blocks_cdir]. rewrite Q2. change (cn_at T) with cna. unfold TOP in H2. hperm.
        * cbn [asubs_cdir]. intros y K. rewrite !in_app_iff in K. cbn [In]. rewrite !in_app_iff.
          destruct K as [K|[K|K]]; auto. apply I1 in K as [K|K]; auto. }
      destruct (sub_is_enclosed c s v (cd_bound (er_cdir r))) as [er| | |] eqn:ER; cbn [bind] in E; try discriminate. destruct er.
      { (* to the right *)
        destruct (ins_cdir fuel c s (v :: used) v (er_cdir r)) as [cr| | |] eqn:IR; cbn [bind] in E; try discriminate.
        apply Ok_inj in E. subst cd.
        assert (H1 : holds h (blocks_cdir false a v r ++ TOP ++ blocks_cnode a T ++ blocks_cdir false a v l ++ F)) by (unfold TOP; eapply holds_perm; [exact H|]; perm).
        destruct (IHr used v false a _ h cr H1) as (m' & k' & p' & v' & sa' & b' & mcn & l' & r' & D' & h1 & (N1 & R1) & G & R2 & H2 & Q1 & Q2 & I1).
        { cbn [parent]. apply AB; inl. }
        { intros y K. do 3 (apply in_or_app; right). apply SB. apply in_or_app. right. apply in_or_app. now right. }
        { do 3 (apply in_or_app; right). exact IX. }
        { exact IR. }
        exists m', k', p', v', sa', b', mcn, l', r', (ASplit a sa b T l D'), h1.
        split; [|split; [exact G|split; [exact R2|split; [|split; [cbn; now rewrite Q1|split; [reflexivity|]]]]]].
        * exists (S N1). intros [|n] LE; [lia|]. cbn [insert_cdir]. rewrite GC. cbn [bind]. rewrite LP. cbn [andb].
          rewrite ENL. cbn [bind]. rewrite ENR. cbn [bind]. apply R1. lia.
        * cbn [blocks_cdir]. rewrite Q2. change (cn_at T) with cna. unfold TOP in H2. hperm.
        * cbn [asubs_cdir]. intros y K. rewrite !in_app_iff in K. cbn [In]. rewrite !in_app_iff.
          destruct K as [K|[K|K]]; auto. apply I1 in K as [K|K]; auto. }
      (* here *)
      set (F2 := TOP ++ blocks_cdir false a v l ++ blocks_cdir false a v r ++ F).
      assert (AF : incl F F2) by (unfold F2; inl).
      assert (H1 : holds h (blocks_cnode a T ++ F2)) by (unfold F2, TOP; eapply holds_perm; [exact H|]; perm).
      assert (A2 : above F2 a (v :: used)) by (apply AB; [unfold F2; inl|exact AF]).
      assert (IC : fin (fun n => insert_cdir n c s a h) a).
      { exists 1%nat. intros [|n] LE; [lia|]. cbn [insert_cdir]. rewrite GC. cbn [bind]. rewrite LP. cbn [andb].
        rewrite ENL. cbn [bind]. rewrite ENR. reflexivity. }
      destruct (find_partition c s (v :: used) (er_pdir ps)) as [[w|]| | |] eqn:FP; cbn [bind] in E; try discriminate.
      + destruct (ins_pdir fuel c s (v :: used) w (er_pdir ps)) as [ps'| | |] eqn:IP; cbn [bind] in E; try discriminate.
        apply Ok_inj in E. subst cd.
        destruct (insert_below cna la sl m subs pd pa ps (v :: used) a F2 h w a ps' IHT H1 A2) as (P' & h' & R & H2 & Q1 & I1).
        { intros y K. apply AF, SB. apply in_or_app. now left. } { now apply AF. } { exact FP. } { exact IP. }
        exists a, k, p, v, sa, b, cna, (cd_at l), (cd_at r), (ASplit a sa b (AC cna la sl m subs pd pa P') l r), h'.
        split; [exact IC|]. split; [exact GC|]. split; [exact R|]. split; [|split; [cbn; now rewrite Q1|split; [reflexivity|]]].
        * cbn [blocks_cdir cn_at]. unfold F2, TOP in H2. hperm.
        * cbn [asubs_cdir asubs_cnode T]. intros y K. rewrite !in_app_iff in K. cbn [In]. rewrite !in_app_iff.
          destruct K as [[K|K]|K]; auto. apply I1 in K as [K|K]; auto.
      + destruct (insert_here cna la sl m subs pd pa ps (v :: used) a F2 h H1 A2) as (sl' & h1 & N1 & H2 & R1).
        { now apply AF. } { exact FP. }
        set (D1 := ASplit a sa b (AC cna la sl' m (subs ++ [(x, s)]) pd pa ps) l r).
        assert (H3 : holds h1 (blocks_cdir k p v D1 ++ F)).
        { cbn [D1 blocks_cdir cn_at]. unfold F2, TOP in H2. hperm. }
        assert (I0 : incl (asubs_cdir D1) ((x, s) :: asubs_cnode T ++ asubs_cdir l ++ asubs_cdir r)).
        { cbn [D1 asubs_cdir asubs_cnode T]. intros y K. rewrite !in_app_iff in K. cbn [In] in *. rewrite !in_app_iff. tauto. }
        destruct (proj2 (grow_all fuel) c used v D1 k p F h1 cd H3 PA) as (D2 & h2 & (N2 & R2) & H4 & Q1 & Q2 & I1).
        { intros y K. apply in_map_iff in K as (z & <- & K). apply I0 in K as [<-|K]; [exact IX|].
          apply SB. rewrite <- !sub_blocks_app. unfold sub_blocks. now apply (in_map (fun x => (fst x, OSub (snd x)))). }
        { cbn [D1 er_cdir er_cnode]. rewrite map_app. exact E. }
        exists a, k, p, v, sa, b, cna, (cd_at l), (cd_at r), D2, h2.
        split; [exact IC|]. split; [exact GC|]. split; [|split; [exact H4|split; [exact Q1|split; [exact Q2|]]]].
        * exists (S (N1 + N2)). intros [|n] LE; [lia|]. rewrite R1 by lia. rewrite AP. apply (R2 n). lia.
        * intros y K. now apply I0, I1.
  Qed.

  Lemma insert_root_ok T F h cn cd :
    holds h (blocks_cnode NULL T ++ F) -> incl (sub_blocks (asubs_cnode T)) F -> In (x, OSub s) F ->
    insert_root fuel c s (er_cnode T) = Ok cn ->
    exists T' h', fin (fun n => p_insert n c x (cn_at T) cd h) h' /\ holds h' (blocks_cnode NULL T' ++ F)
      /\ er_cnode T' = cn /\ cn_at T' = cn_at T /\ incl (asubs_cnode T') ((x, s) :: asubs_cnode T).
  Proof.
    intros H SB IX E. assert (IT := proj1 ins_ok T). destruct T as [a la sa m subs pd pa ps].
    cbn [insert_root er_cnode] in E. cbn [cn_at]. set (T := AC a la sa m subs pd pa ps) in *.
    assert (A : above F NULL []) by constructor.
    destruct (find_partition c s [] (er_pdir ps)) as [[w|]| | |] eqn:FP; cbn [bind] in E; try discriminate.
    - destruct (ins_pdir fuel c s [] w (er_pdir ps)) as [ps'| | |] eqn:IP; cbn [bind] in E; try discriminate.
      apply Ok_inj in E. subst cn.
      destruct (insert_below a la sa m subs pd pa ps [] NULL F h w cd ps' IT H A SB IX FP IP) as (P' & h' & R & H2 & Q1 & I1).
      exists (AC a la sa m subs pd pa P'), h'. split; [exact R|]. split; [exact H2|]. split; [cbn; now rewrite Q1|]. split; [reflexivity|].
      cbn [asubs_cnode T]. intros y K. apply in_app_or in K as [K|K].
      + right. apply in_or_app. now left.
      + apply I1 in K as [K|K]; [now left|right; apply in_or_app; now right].
    - destruct (insert_here a la sa m subs pd pa ps [] NULL F h H A IX FP) as (sa' & h1 & N1 & H2 & R1).
      set (T1 := AC a la sa' m (subs ++ [(x, s)]) pd pa ps) in *.
      assert (I0 : incl (asubs_cnode T1) ((x, s) :: asubs_cnode T)).
      { cbn [T1 asubs_cnode T]. intros y K. rewrite !in_app_iff in K. cbn [In] in *. rewrite in_app_iff. tauto. }
      destruct (loop_part fuel (proj1 (grow_all fuel)) c [] T1 NULL F h1 cn H2 A) as (T2 & h2 & (N2 & R2) & H3 & Q1 & Q2 & _ & I1).
      { intros y K. apply in_map_iff in K as (z & <- & K). apply I0 in K as [<-|K]; [exact IX|].
        apply SB. unfold sub_blocks. now apply (in_map (fun x => (fst x, OSub (snd x)))). }
      { cbn [T1 er_cnode]. rewrite map_app. exact E. }
      exists T2, h2. split; [|split; [exact H3|split; [exact Q1|split; [exact Q2|]]]].
      + exists (S (N1 + N2)). intros [|n] LE; [lia|]. rewrite R1 by lia. cbn [N.eqb NULL]. apply (R2 n). lia.
      + intros y K. now apply I0, I1.
  Qed.
End Insert.
