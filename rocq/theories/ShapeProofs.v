(** Insertion keeps the shape of the index. *)
From Coq Require Import ZArith NArith String Bool List Permutation Lia ZifyBool ZifyNat ZifyN.
From Verif Require Import Base BaseProofs Float Value Ast Config Assign Special Match Bound Tree TreeSpec TreeProofs PredMap Source Api
  InternProofs ExtProofs ShortProofs BoundedProofs Hist Calls CallProofs ShapeSpec.
Import ListNotations.
Local Open Scope list_scope.
Local Open Scope res_scope.

(** *** Choosing a variable *)
Definition hs_new (used : list N) (subs : list sub) (acc : hs_acc) : Prop :=
  forall v, snd acc = Some v -> ~ In v used /\ exists s, In s subs /\ has_attr v s = true.
Lemma memN_In v l : memN v l = true <-> In v l.
Proof.
  unfold memN. rewrite existsb_exists. split.
  - intros (x & I & E). apply N.eqb_eq in E. now subst.
  - intros I. exists v. split; [exact I|apply N.eqb_refl].
Qed.
Lemma hs_step_new c used all subs s d j acc acc' : In s subs -> hs_new used subs acc ->
  hs_step c used all s d j acc = Ok acc' -> hs_new used subs acc'.
Proof.
  intros IS G H. unfold hs_step in H. destruct (has_attr j s) eqn:A; cbn [negb] in H; [|now injection H as <-].
  apply bind_ok in H. destruct H as (sp & Es & H). destruct (sp && _) eqn:E; [|now injection H as <-].
  apply andb_prop in E. destruct E as [_ U]. apply bind_ok in H. destruct H as (score & _ & H).
  destruct acc as [[f best] var]. destruct (fgtb score best); injection H as <-.
  - intros v [= <-]. split; [|eauto]. intros K. apply memN_In in K. now rewrite K in U.
  - exact G.
Qed.
Lemma hs_domains_new c used all subs s : In s subs -> forall t j acc acc', hs_new used subs acc ->
  hs_domains c used all s t j acc = Ok acc' -> hs_new used subs acc'.
Proof.
  intros IS. induction t as [|d t IH]; intros j acc acc' G H; cbn [hs_domains] in H; [now injection H as <-|].
  apply bind_ok in H. destruct H as (acc1 & H1 & H2). eapply IH; [|exact H2]. eapply hs_step_new; eauto.
Qed.
Lemma hs_subs_new c used all subs : forall rest acc acc', incl rest subs -> hs_new used subs acc ->
  hs_subs c used all rest acc = Ok acc' -> hs_new used subs acc'.
Proof.
  induction rest as [|s t IH]; intros acc acc' I G H; cbn [hs_subs] in H; [now injection H as <-|].
  apply bind_ok in H. destruct H as (acc1 & H1 & H2). eapply IH; [| |exact H2].
  - intros x X. apply I. now right.
  - eapply hs_domains_new; [|exact G|exact H1]. apply I. now left.
Qed.
Lemma next_highest_new c used subs v : next_highest c used subs = Ok (Some v) ->
  ~ In v used /\ exists s, In s subs /\ has_attr v s = true.
Proof.
  intros H. unfold next_highest in H. apply bind_ok in H. destruct H as ([[f best] var] & H1 & H2).
  destruct f; [|discriminate]. destruct var; [|discriminate]. injection H2 as ->.
  eapply hs_subs_new in H1; [now apply H1|easy|]. intros w. discriminate.
Qed.

(** *** Choosing a partition *)
Lemma score_labels v ps : In v (labels ps) -> pdir_score v ps <> None.
Proof.
  revert ps. fix IH 1. intros [|w sc cd rest]; cbn [labels pdir_score]; [easy|].
  intros [->|I]; [now rewrite N.eqb_refl|]. destruct (v =? w)%N; [easy|now apply IH].
Qed.
Definition cp_seen (s : sub) (acc : bool * flt * option N) : Prop :=
  forall v, snd acc = Some v -> has_attr v s = true.
Lemma choose_seen s used ps : forall n j acc, cp_seen s acc -> cp_seen s (choose_pnode n j s used ps acc).
Proof.
  induction n as [|n IH]; intros j acc H; cbn [choose_pnode]; [easy|]. apply IH.
  destruct (has_attr j s && negb (memN j used)) eqn:E; [|easy]. apply andb_prop in E. destruct E as [E _].
  destruct (pdir_score j ps) as [sc|]; [|easy]. destruct acc as [[f best] var].
  destruct (fltb best _); [|exact H]. now intros v [= <-].
Qed.
Lemma choose_found s used ps : forall n j acc, fst (fst acc) = true -> fst (fst (choose_pnode n j s used ps acc)) = true.
Proof.
  induction n as [|n IH]; intros j acc H; cbn [choose_pnode]; [easy|]. apply IH.
  destruct (_ && _); [|easy]. destruct (pdir_score j ps) as [sc|]; [|easy]. destruct acc as [[f best] var]. now destruct (fltb best _).
Qed.
Lemma choose_none s used ps : forall n j acc v, fst (fst (choose_pnode n j s used ps acc)) = false ->
  (j <= v)%N -> (v < j + N.of_nat n)%N -> has_attr v s = true -> memN v used = false -> pdir_score v ps = None.
Proof.
  induction n as [|n IH]; intros j acc v H L R A U; [lia|]. cbn [choose_pnode] in H.
  destruct (N.eq_dec j v) as [->|D]; [|eapply IH; [exact H|lia|lia|exact A|exact U]].
  rewrite A, U in H. cbn [andb negb] in H. destruct (pdir_score v ps) as [sc|]; [|easy].
  destruct acc as [[f best] var]. rewrite choose_found in H; [discriminate|]. now destruct (fltb best sc).
Qed.
Lemma partition_some c s used ps v : find_partition c s used ps = Ok (Some v) -> has_attr v s = true.
Proof.
  unfold find_partition. intros H.
  pose proof (choose_seen s used ps (List.length (c_domains c)) 0%N (false, f_to_f32 (fopp DBL_MAX), None)) as K.
  destruct (choose_pnode _ _ _ _ _ _) as [[found best] var]. destruct found; [|discriminate]. destruct var; [|discriminate].
  injection H as ->. apply K; [|easy]. intros w. discriminate.
Qed.
Lemma partition_none c s used ps v : find_partition c s used ps = Ok None ->
  In v (labels ps) -> ~ In v used -> (N.to_nat v < List.length (c_domains c))%nat -> has_attr v s = false.
Proof.
  unfold find_partition. intros H I U L. destruct (has_attr v s) eqn:A; [|easy]. exfalso. apply (score_labels v ps I).
  eapply (choose_none s used ps (List.length (c_domains c)) 0%N (false, f_to_f32 (fopp DBL_MAX), None)); [|lia| |exact A|].
  - destruct (choose_pnode _ _ _ _ _ _) as [[found best] var] eqn:E; cbn [fst].
    destruct found; [destruct var; discriminate|]. reflexivity.
  - lia.
  - destruct (memN v used) eqn:E; [|easy]. now apply memN_In in E.
Qed.

(** *** Ranges *)
Lemma split_divided b l r : split_value_bound b = Ok (l, r) -> divided b l r.
Proof.
  destruct b; cbn [split_value_bound divided]; intros H; try discriminate.
  - destruct (Bool.eqb _ _); [discriminate|]. now injection H as <- <-.
  - apply bind_ok in H. destruct H as (w & _ & H).
    destruct (_ >? _)%Z; [injection H as <- <-; eauto|]. destruct (_ =? 2)%Z.
    + apply bind_ok in H. destruct H as (m & _ & H). injection H as <- <-. eauto.
    + destruct (_ =? 1)%Z; [injection H as <- <-; auto|discriminate].
  - destruct (fgtb _ _); [injection H as <- <-; eauto|]. destruct (feq _ _); [injection H as <- <-; eauto|].
    destruct (feq _ _); [injection H as <- <-; auto|discriminate].
  - destruct (_ >? _)%Z; [injection H as <- <-; eauto|]. destruct (_ =? 2)%Z; [injection H as <- <-; eauto|].
    destruct (_ =? 1)%Z; [injection H as <- <-; auto|discriminate].
Qed.
Lemma atomic_point b : is_atomic b = Ok true -> point b.
Proof. destruct b; cbn [is_atomic point]; intros H; try discriminate; injection H as H; [now apply Bool.eqb_prop|lia|exact H|lia]. Qed.

Lemma range_eq cd : range cd = cd_bound cd. Proof. now destruct cd. Qed.
Lemma labels_app v sc cd : forall ps, labels (pdir_app ps v sc cd) = labels ps ++ [v].
Proof. fix IH 1. intros [|w s d rest]; cbn [pdir_app labels]; [easy|]. now rewrite IH. Qed.

(** *** Insertion *)
Definition hasb (v : N) (s : sub) : Prop := has_attr v s = true.
Section Keep.
  Variables (c : config).
  Let n := List.length (c_domains c).
  Let minp := c_minpart c.
  Notation good_cnode := (shaped_cnode hasb n minp).
  Notation good_pdir := (shaped_pdir hasb n minp).
  Notation good_cdir := (shaped_cdir hasb n minp).

  Lemma good_app used v sc cd : forall ps, good_pdir used ps -> good_pdir used (PCons v sc cd PNil) ->
    good_pdir used (pdir_app ps v sc cd).
  Proof. fix IH 1. intros [|w s d rest] H K; cbn [pdir_app]; [exact K|]. destruct H as (A & B & C & D). cbn [shaped_pdir]. auto. Qed.
  Lemma good_capacity used cn cn' : update_capacity c cn = Ok cn' -> good_cnode used cn -> good_cnode used cn'.
  Proof. intros H G. apply update_capacity_ok in H. destruct H as (m & m' & subs & ps & -> & -> & _). exact G. Qed.
  Lemma parts_capacity cn cn' : update_capacity c cn = Ok cn' -> parts cn' = parts cn.
  Proof. intros H. apply update_capacity_ok in H. now destruct H as (m & m' & subs & ps & -> & -> & _). Qed.
  Lemma good_fresh used subs : good_cnode used (make_cnode c subs).
  Proof. cbn [make_cnode shaped_cnode labels shaped_pdir]. split; [constructor|]. split; [|easy]. intros v []. Qed.
  Lemma count_attr_filter v S L subs : Permutation (S ++ L) subs -> Forall (fun s => has_attr v s = false) S ->
    Forall (fun s => has_attr v s = true) L -> count_attr v subs = Z.of_nat (List.length L).
  Proof.
    intros P FS FL. unfold count_attr. f_equal.
    assert (forall l l' : list sub, Permutation l l' -> List.length (filter (has_attr v) l) = List.length (filter (has_attr v) l')) as K.
    { induction 1; cbn [filter]; auto; [|destruct (has_attr v x), (has_attr v y); reflexivity|congruence].
      destruct (has_attr v x); cbn [List.length]; congruence. }
    rewrite <- (K _ _ P), filter_app, app_length.
    replace (filter (has_attr v) S) with (@nil sub).
    2:{ clear -FS. induction FS as [|x l H F IH]; [easy|]. cbn [filter]. now rewrite H. }
    cbn [List.length plus]. clear -FL. induction FL as [|x l H F IH]; [easy|]. cbn [filter]. rewrite H. cbn [List.length]. congruence.
  Qed.

  Theorem space_shape : forall fuel,
    (forall used cn cn', good_cnode used cn -> NoDup (ids (cn_subs cn)) -> space_partitioning fuel c used cn = Ok cn' -> good_cnode used cn')
    /\ (forall used v cd cd', good_cdir used cd -> NoDup (ids (cn_subs (cd_cnode cd))) -> space_clustering fuel c used v cd = Ok cd' ->
         good_cdir used cd' /\ cd_bound cd' = cd_bound cd).
  Proof.
    induction fuel as [|fuel [IHp IHc]]; [split; intros; discriminate|]. split.
    - intros used [m subs ps] cn' G ND H. cbn [space_partitioning] in H.
      destruct (negb _); [now apply (good_capacity _ _ _ H)|].
      apply bind_ok in H. destruct H as (o & Eo & H). destruct o as [v|]; [|now apply (good_capacity _ _ _ H)].
      destruct (_ <? _)%Z eqn:CM; [now apply (good_capacity _ _ _ H)|].
      destruct (next_highest_new _ _ _ _ Eo) as (NU & s0 & IS0 & A0).
      apply next_highest_ok in Eo. destruct Eo as (d & N & SP).
      unfold get_domain in H. rewrite N in H. cbn [bind] in H.
      apply bind_ok in H. destruct H as ([[stay moved] ?] & ED & H).
      apply bind_ok in H. destruct H as (cd & EC & H).
      apply distribute_ok in ED; [|exact ND]. destruct ED as (S' & L & R & -> & -> & -> & P & FS & FL & FR).
      cbn [app] in *.
      assert (R = []) as ->.
      { destruct R as [|x R]; [easy|]. inversion FR; subst. destruct (has_attr v x); discriminate. }
      rewrite app_nil_r in P. cbn [cn_subs] in ND.
      assert (Forall (fun s => has_attr v s = false) S') as FS'.
      { eapply Forall_impl; [|exact FS]. intros s K. cbv beta in K. now destruct (has_attr v s). }
      assert (Forall (fun s => has_attr v s = true) L) as FL'.
      { eapply Forall_impl; [|exact FL]. intros s K. cbv beta in K. now destruct (has_attr v s). }
      pose proof (NoDup_perm_ids _ _ (Permutation_sym P) ND) as ND'. rewrite ids_app in ND'.
      pose proof (NoDup_app_r _ _ ND') as NDL. pose proof (NoDup_app_l _ _ ND') as NDS.
      pose proof (proj2 (space_perm c fuel) _ _ (CLeaf (d_bound d) (make_cnode c L)) _ NDL EC) as PC. cbn [subs_cdir subs_cnode make_cnode subs_pdir] in PC. rewrite app_nil_r in PC.
      apply IHc in EC; [|split; [now left|apply good_fresh]|exact NDL]. destruct EC as [GC _].
      cbn [shaped_cnode] in G. destruct G as (G1 & G2 & G3).
      assert (~ In v (labels ps)) as NL.
      { intros I. destruct (G2 _ I) as (_ & _ & K). now apply (K s0 IS0). }
      apply (IHp used (CNode m S' (pdir_app ps v (f_of_Z 0) cd)) cn'); [|exact NDS|exact H]. cbn [shaped_cnode]. rewrite labels_app. split; [|split].
      + eapply Permutation_NoDup; [apply Permutation_cons_append|]. now constructor.
      + intros w IW. apply in_app_or in IW. destruct IW as [IW|[<-|[]]].
        * destruct (G2 _ IW) as (A & B & C). split; [exact A|]. split; [exact B|]. intros s I. apply C.
          apply (Permutation_in _ P), in_or_app. now left.
        * split; [exact NU|]. split; [apply nthN_Some_lt in N; unfold n; lia|]. intros s I K. rewrite Forall_forall in FS'.
          specialize (FS' s I). unfold hasb in K. congruence.
      + apply good_app; [exact G3|]. cbn [shaped_pdir]. rewrite (Permutation_length PC). split; [|split; [|split; [exact GC|easy]]].
        * intros s I. apply (Permutation_in _ PC) in I. rewrite Forall_forall in FL'. now apply FL'.
        * rewrite (count_attr_filter v S' L subs P FS' FL') in CM. split; [|unfold minp; lia].
          apply (Permutation_in _ (Permutation_sym P)) in IS0. apply in_app_or in IS0. destruct IS0 as [I|I].
          -- rewrite Forall_forall in FS'. rewrite (FS' _ I) in A0. discriminate.
          -- destruct L; [easy|]. cbn [List.length]. lia.
    - intros used v cd cd' G ND H. cbn [space_clustering] in H.
      destruct (negb _); [injection H as <-; auto|].
      destruct cd as [b cn|b cn l r]; cbn [cd_bound cd_cnode shaped_cdir] in *.
      + apply bind_ok in H. destruct H as (a & Ea & H). destruct G as [GB GN]. destruct a.
        * apply bind_ok in H. destruct H as (cn1 & E1 & H). apply bind_ok in H. destruct H as (cn2 & E2 & [= <-]).
          cbn [shaped_cdir cd_bound]. split; [|easy]. split; [right; now apply atomic_point|].
          eapply good_capacity; [exact E2|]. eapply IHp; eauto.
        * apply bind_ok in H. destruct H as ([lb rb] & ES & H). destruct cn as [m subs ps].
          apply bind_ok in H. destruct H as ([[stay ls] rs] & ED & H).
          apply bind_ok in H. destruct H as (cn1 & E1 & H). apply bind_ok in H. destruct H as (l & El & H).
          apply bind_ok in H. destruct H as (r & Er & H). apply bind_ok in H. destruct H as (cn2 & E2 & [= <-]).
          apply distribute_ok in ED; [|exact ND]. destruct ED as (S' & L & R & -> & -> & -> & P & _ & _ & _).
          cbn [app cn_subs] in *.
          pose proof (NoDup_perm_ids _ _ (Permutation_sym P) ND) as ND'. rewrite !ids_app in ND'.
          apply IHc in El; [|split; [now left|apply good_fresh]|cbn [cd_cnode cn_subs make_cnode]; eapply NoDup_app_l, NoDup_app_r; eauto].
          apply IHc in Er; [|split; [now left|apply good_fresh]|cbn [cd_cnode cn_subs make_cnode]; eapply NoDup_app_r, NoDup_app_r; eauto].
          destruct El as [Gl Bl], Er as [Gr Br]. cbn [cd_bound shaped_cdir] in *. split; [|easy].
          rewrite (range_eq l), (range_eq r), Bl, Br. split; [now apply split_divided|]. split; [|now split].
          eapply good_capacity; [exact E2|]. eapply IHp; [| |exact E1].
          -- cbn [shaped_cnode] in *. destruct GN as (G1 & G2 & G3). split; [exact G1|]. split; [|exact G3].
             intros w IW. destruct (G2 _ IW) as (A & B & C). split; [exact A|]. split; [exact B|]. intros s I. apply C.
             apply (Permutation_in _ P), in_or_app. now left.
          -- cbn [cn_subs]. eapply NoDup_app_l; eauto.
      + apply bind_ok in H. destruct H as (cn1 & E1 & H). apply bind_ok in H. destruct H as (cn2 & E2 & [= <-]).
        destruct G as (A & B & C & D). cbn [shaped_cdir cd_bound]. split; [|easy]. split; [exact A|]. split; [|now split].
        eapply good_capacity; [exact E2|]. eapply IHp; eauto.
  Qed.

  Lemma good_add used m subs s ps : find_partition c s used ps = Ok None -> good_cnode used (CNode m subs ps) ->
    good_cnode used (CNode m (subs ++ [s]) ps).
  Proof.
    intros F (A & B & C). cbn [shaped_cnode]. split; [exact A|]. split; [|exact C]. intros v I. destruct (B v I) as (B1 & B2 & B3).
    split; [exact B1|]. split; [exact B2|]. intros x X. apply in_app_or in X. destruct X as [X|[<-|[]]]; [now apply B3|].
    unfold hasb. rewrite (partition_none _ _ _ _ _ F I B1 B2). discriminate.
  Qed.

  Theorem ins_shape fuel s :
    (forall cn, match cn with CNode _ _ ps =>
       forall used w ps', good_pdir used ps -> NoDup (ids (s :: subs_pdir ps)) -> hasb w s -> ins_pdir fuel c s used w ps = Ok ps' ->
         good_pdir used ps' /\ labels ps' = labels ps end)
    /\ (forall ps used w ps', good_pdir used ps -> NoDup (ids (s :: subs_pdir ps)) -> hasb w s -> ins_pdir fuel c s used w ps = Ok ps' ->
         good_pdir used ps' /\ labels ps' = labels ps)
    /\ (forall cd used v cd', good_cdir used cd -> NoDup (ids (s :: subs_cdir cd)) -> ins_cdir fuel c s used v cd = Ok cd' ->
         good_cdir used cd' /\ cd_bound cd' = cd_bound cd).
  Proof.
    apply tree_mut.
    - intros m subs ps IH. exact IH.
    - intros used w ps' _ _ _ H. discriminate.
    - intros v sc cd IHcd rest IHr used w ps' G ND HW H. cbn [ins_pdir] in H. cbn [shaped_pdir] in G. destruct G as (G1 & G2 & G3 & G4).
      cbn [subs_pdir] in ND. destruct (N.eqb_spec w v) as [->|_].
      + apply bind_ok in H. destruct H as (cd' & E & H). apply bind_ok in H. destruct H as (sc' & ES & [= <-]).
        assert (NoDup (ids (s :: subs_cdir cd))) as ND1 by (rewrite app_comm_cons, ids_app in ND; eapply NoDup_app_l; eauto).
        pose proof (proj2 (proj2 (ins_perm c fuel s)) _ _ _ _ ND1 E) as P.
        apply IHcd in E; auto. destruct E as [GC _]. cbn [shaped_pdir labels]. split; [|easy].
        rewrite (Permutation_length P). cbn [List.length]. split; [|split; [lia|now split]].
        intros x X. apply (Permutation_in _ P) in X. destruct X as [<-|X]; auto.
      + apply bind_ok in H. destruct H as (rest' & E & [= <-]). apply IHr in E; auto.
        * destruct E as [A B]. cbn [shaped_pdir labels]. rewrite B. auto.
        * eapply NoDup_app_r. rewrite <- ids_app. eapply NoDup_perm_ids; [|exact ND]. rewrite <- Permutation_middle. reflexivity.
    - intros b cn IHcn used v cd' G ND H. destruct cn as [m subs ps]. cbn [ins_cdir] in H. cbn [subs_cdir subs_cnode] in ND.
      cbn [shaped_cdir] in G. destruct G as [GB GN].
      apply bind_ok in H. destruct H as (o & FP & H). destruct o as [w|].
      + apply bind_ok in H. destruct H as (ps' & E & [= <-]). apply partition_some in FP.
        cbn [shaped_cnode] in GN. destruct GN as (A & B & C). apply IHcn in E; auto.
        * destruct E as [E1 E2]. cbn [shaped_cdir shaped_cnode parts cd_bound] in *. rewrite E2. auto.
        * eapply NoDup_app_r. rewrite <- ids_app. eapply NoDup_perm_ids; [|exact ND]. rewrite <- Permutation_middle. reflexivity.
      + apply (proj2 (space_shape fuel)) in H; auto.
        * split; [exact GB|]. now apply (good_add _ m).
        * cbn [cd_cnode cn_subs]. eapply NoDup_app_l. rewrite <- ids_app. eapply NoDup_perm_ids; [|exact ND]. symmetry. apply perm_last.
    - intros b cn IHcn l IHl r IHr used v cd' G ND H. destruct cn as [m subs ps]. cbn [ins_cdir] in H. cbn [subs_cdir subs_cnode] in ND.
      cbn [shaped_cdir] in G. destruct G as (GB & GN & GL & GR).
      assert (NoDup (ids (s :: subs_cdir l)) /\ NoDup (ids (s :: subs_cdir r)) /\ NoDup (ids (s :: subs ++ subs_pdir ps))) as (ND1 & ND2 & ND3).
      { assert (NoDup (ids ((s :: subs_cdir l) ++ (subs ++ subs_pdir ps) ++ subs_cdir r))) as K1.
        { eapply NoDup_perm_ids; [|exact ND]. cbn [app]. apply perm_skip. rewrite !app_assoc. apply Permutation_app_tail.
          rewrite Permutation_app_comm. now rewrite !app_assoc. }
        assert (NoDup (ids ((s :: subs_cdir r) ++ (subs ++ subs_pdir ps) ++ subs_cdir l))) as K2.
        { eapply NoDup_perm_ids; [|exact ND]. cbn [app]. apply perm_skip. rewrite !app_assoc.
          rewrite Permutation_app_comm. now rewrite !app_assoc. }
        rewrite ids_app in K1, K2. rewrite app_comm_cons, ids_app in ND. repeat split; eapply NoDup_app_l; eauto. }
      rewrite (range_eq l), (range_eq r) in GB.
      apply bind_ok in H. destruct H as (el & EL & H). destruct el.
      { apply bind_ok in H. destruct H as (l' & E & [= <-]). apply IHl in E; auto. destruct E as [E1 E2].
        cbn [shaped_cdir cd_bound]. rewrite (range_eq l'), (range_eq r), E2. auto. }
      apply bind_ok in H. destruct H as (er & ER & H). destruct er.
      { apply bind_ok in H. destruct H as (r' & E & [= <-]). apply IHr in E; auto. destruct E as [E1 E2].
        cbn [shaped_cdir cd_bound]. rewrite (range_eq l), (range_eq r'), E2. auto. }
      apply bind_ok in H. destruct H as (o & FP & H). destruct o as [w|].
      + apply bind_ok in H. destruct H as (ps' & E & [= <-]). apply partition_some in FP.
        cbn [shaped_cnode] in GN. destruct GN as (A & B & C). apply IHcn in E; auto.
        * destruct E as [E1 E2]. cbn [shaped_cdir shaped_cnode cd_bound]. rewrite E2, (range_eq l), (range_eq r).
          split; [|reflexivity]. split; [exact GB|]. split; [split; [exact A|split; [exact B|exact E1]]|split; [exact GL|exact GR]].
        * eapply NoDup_app_r. rewrite <- ids_app. eapply NoDup_perm_ids; [|exact ND3]. rewrite <- Permutation_middle. reflexivity.
      + apply (proj2 (space_shape fuel)) in H; auto.
        * cbn [shaped_cdir]. rewrite (range_eq l), (range_eq r). split; [exact GB|]. split; [|now split]. now apply (good_add _ m).
        * cbn [cd_cnode cn_subs]. eapply NoDup_app_l. rewrite <- ids_app. eapply NoDup_perm_ids; [|exact ND3]. symmetry. apply perm_last.
  Qed.
  Lemma insert_root_shape fuel s cn cn' : good_cnode [] cn -> NoDup (ids (s :: subs_cnode cn)) -> insert_root fuel c s cn = Ok cn' -> good_cnode [] cn'.
  Proof.
    intros G ND H. destruct cn as [m subs ps]. cbn [insert_root subs_cnode] in *.
    apply bind_ok in H. destruct H as (o & FP & H). destruct o as [w|].
    - apply bind_ok in H. destruct H as (ps' & E & [= <-]). apply partition_some in FP. destruct G as (A & B & C).
      apply (proj1 (proj2 (ins_shape fuel s))) in E; auto.
      + destruct E as [E1 E2]. cbn [shaped_cnode]. rewrite E2. auto.
      + eapply NoDup_app_r. rewrite <- ids_app. eapply NoDup_perm_ids; [|exact ND]. rewrite <- Permutation_middle. reflexivity.
    - eapply (proj1 (space_shape fuel)) in H; eauto.
      + now apply (good_add _ m).
      + cbn [cn_subs]. eapply NoDup_app_l. rewrite <- ids_app. eapply NoDup_perm_ids; [|exact ND]. symmetry. apply perm_last.
  Qed.
End Keep.

(** *** The recorded variables of a subscription are those its expression asks about *)
Definition told (s : sub) : Prop := forall v, hasb v s <-> about v s.
Lemma fill_var_told A v A' : fill_var (Ok A) v = Ok A' -> forall k, bit A' k = true <-> k = av_var v \/ bit A k = true.
Proof.
  unfold fill_var. cbn [bind]. destruct (bit_in A (av_var v)) eqn:E; [|discriminate]. intros [= <-] k. rewrite bit_set by exact E.
  rewrite orb_true_iff, N.eqb_eq. reflexivity.
Qed.
Lemma fill_leaf_told A p A' : fill_leaf A p = Ok A' -> forall k, bit A' k = true <-> In k (asks p) \/ bit A k = true.
Proof.
  assert (K : forall v, fill_var (Ok A) v = Ok A' -> forall k, bit A' k = true <-> In k [av_var v] \/ bit A k = true).
  { intros v H k. rewrite (fill_var_told _ _ _ H k). cbn [In]. intuition congruence. }
  assert (Z : Ok A = Ok A' -> forall k, bit A' k = true <-> In k [] \/ bit A k = true).
  { intros [= <-] k. cbn [In]. tauto. }
  destruct p as [b|v|op v x|op v x|op l r|op v x|op v|v ty ns vl w now id|op h v id s now|h la lo r x y|op v pat]; cbn [fill_leaf asks]; auto.
  - destruct l; auto; destruct r; auto.
  - intros H k. destruct (fill_var (Ok A) x) as [B| | |] eqn:E; try discriminate. rewrite (fill_var_told _ _ _ H k), (fill_var_told _ _ _ E k).
    cbn [In]. intuition congruence.
Qed.
Lemma fill_pred_told e : forall A A', fill_pred A e = Ok A' ->
  forall k, bit A' k = true <-> (exists p, In p (expr_leaves e) /\ In k (asks p)) \/ bit A k = true.
Proof.
  assert (D : forall (a b : expr) k, (exists p, In p (expr_leaves a ++ expr_leaves b) /\ In k (asks p))
    <-> (exists p, In p (expr_leaves a) /\ In k (asks p)) \/ (exists p, In p (expr_leaves b) /\ In k (asks p))).
  { intros a b k. split.
    - intros (p & I & J). apply in_app_or in I. destruct I; eauto.
    - intros [(p & I & J)|(p & I & J)]; exists p; (split; [apply in_or_app; auto|exact J]). }
  induction e as [g p|g a IHa b IHb|g a IHa b IHb|g a IHa]; intros A A' H k; cbn [fill_pred expr_leaves] in *.
  - rewrite (fill_leaf_told _ _ _ H k). cbn [In]. split.
    + intros [I|I]; [left; eauto|auto].
    + intros [(q & [<-|[]] & J)|I]; auto.
  - apply bind_ok in H. destruct H as (B & H1 & H2). rewrite (IHb _ _ H2 k), (IHa _ _ H1 k), D. tauto.
  - apply bind_ok in H. destruct H as (B & H1 & H2). rewrite (IHb _ _ H2 k), (IHa _ _ H1 k), D. tauto.
  - now apply IHa.
Qed.
Lemma make_sub_told c id e s : make_sub c id e = Ok s -> told s.
Proof.
  unfold make_sub. intros H. apply bind_ok in H. destruct H as (vars & H1 & H2).
  destruct (fill_sc _ _ _ _ _) as [pass fail]. injection H2 as <-. intros v. unfold hasb, has_attr, about. cbn [s_vars s_expr].
  rewrite test_bit_bit, (fill_pred_told _ _ _ H1 v), bit_make. intuition discriminate.
Qed.

(** *** Histories *)
Lemma insert_made t id cs x t' : betree_insert_with_constants t id cs x = Ok (true, t') ->
  exists c m s, same_cfg (bt_cfg t) c /\ s_id s = id /\ told s /\ insert_sub (mkBT c m (bt_root t)) s = Ok t'.
Proof.
  unfold betree_insert_with_constants, insert_expr. intros H. apply bind_ok in H. destruct H as (ok & V & H).
  destruct ok; cbn [negb] in H; [|discriminate].
  destruct (assign_constants cs _) as [e2|]; [|discriminate].
  apply bind_ok in H. destruct H as ([e3 c3] & H3 & H). apply bind_ok in H. destruct H as ([e4 c4] & H4 & H).
  apply bind_ok in H. destruct H as ([e5 c5] & H5 & H). apply bind_ok in H. destruct H as ([e6 m] & H6 & H).
  apply bind_ok in H. destruct H as (s & H7 & H). apply bind_ok in H. destruct H as (t1 & H8 & H). injection H as <-.
  pose proof (make_sub_told _ _ _ _ H7) as T. apply make_sub_sc in H7. apply fix_same in H5. subst c5. exists c4, m, s. split; [|tauto].
  eapply same_cfg_trans; [eapply str_cfg; eauto|eapply ie_cfg; eauto].
Qed.
Lemma make_made t id cs x s t' : betree_make_sub t id cs x = Ok (Some s, t') -> told s.
Proof.
  unfold betree_make_sub, make_sub_expr. intros H. apply bind_ok in H. destruct H as (ok & V & H).
  destruct ok; cbn [negb] in H; [|discriminate].
  apply bind_ok in H. destruct H as ([e3 c3] & H3 & H). apply bind_ok in H. destruct H as ([e4 c4] & H4 & H).
  apply bind_ok in H. destruct H as ([e5 c5] & H5 & H).
  apply bind_ok in H. destruct H as (ok & V' & H).
  destruct ok; cbn [negb] in H; [|discriminate].
  destruct (assign_constants cs _) as [e6|]; [|discriminate].
  apply bind_ok in H. destruct H as (c7 & H7 & H). apply bind_ok in H. destruct H as ([e8 m] & H8 & H).
  apply bind_ok in H. destruct H as (s' & H9 & H). injection H as <- <-. eapply make_sub_told; eauto.
Qed.
Lemma shaped_more has n n' minp : (n <= n')%nat ->
  (forall cn used, shaped_cnode has n minp used cn -> shaped_cnode has n' minp used cn)
  /\ (forall ps used, shaped_pdir has n minp used ps -> shaped_pdir has n' minp used ps)
  /\ (forall cd used, shaped_cdir has n minp used cd -> shaped_cdir has n' minp used cd).
Proof.
  intros L. apply tree_mut.
  - intros m subs ps IH used (A & B & C). split; [exact A|]. split; [|now apply IH]. intros v I. destruct (B v I) as (B1 & B2 & B3).
    split; [exact B1|]. split; [lia|exact B3].
  - easy.
  - intros v sc cd IHc rest IHr used (A & B & C & D). split; [exact A|]. split; [exact B|]. split; [now apply IHc|now apply IHr].
  - intros b cn IH used (A & B). split; [exact A|now apply IH].
  - intros b cn IH l IHl r IHr used (A & B & C & D). split; [exact A|]. split; [now apply IH|]. split; [now apply IHl|now apply IHr].
Qed.
Lemma shaped_has (has has' : N -> sub -> Prop) n minp :
  (forall cn used, (forall s, In s (subs_cnode cn) -> forall v, has v s <-> has' v s) -> shaped_cnode has n minp used cn -> shaped_cnode has' n minp used cn)
  /\ (forall ps used, (forall s, In s (subs_pdir ps) -> forall v, has v s <-> has' v s) -> shaped_pdir has n minp used ps -> shaped_pdir has' n minp used ps)
  /\ (forall cd used, (forall s, In s (subs_cdir cd) -> forall v, has v s <-> has' v s) -> shaped_cdir has n minp used cd -> shaped_cdir has' n minp used cd).
Proof.
  apply tree_mut.
  - intros m subs ps IH used E (A & B & C). cbn [subs_cnode] in E. split; [exact A|]. split.
    + intros v I. destruct (B v I) as (B1 & B2 & B3). split; [exact B1|]. split; [exact B2|]. intros s IS K. apply (B3 s IS).
      apply E; [apply in_or_app; now left|exact K].
    + apply IH; [|exact C]. intros s I. apply E, in_or_app. now right.
  - easy.
  - intros v sc cd IHc rest IHr used E (A & B & C & D). cbn [subs_pdir] in E. split; [|split; [exact B|split]].
    + intros s I. apply E; [apply in_or_app; now left|now apply A].
    + apply IHc; [|exact C]. intros s I. apply E, in_or_app. now left.
    + apply IHr; [|exact D]. intros s I. apply E, in_or_app. now right.
  - intros b cn IH used E (A & B). split; [exact A|now apply IH].
  - intros b cn IH l IHl r IHr used E (A & B & C & D). cbn [subs_cdir] in E. split; [exact A|]. split; [|split].
    + apply IH; [|exact B]. intros s I. apply E, in_or_app. now left.
    + apply IHl; [|exact C]. intros s I. apply E, in_or_app. right. apply in_or_app. now left.
    + apply IHr; [|exact D]. intros s I. apply E, in_or_app. right. apply in_or_app. now right.
Qed.
Lemma same_length c c' : same_cfg c c' -> List.length (c_domains c') = List.length (c_domains c).
Proof. intros (_ & _ & _ & E). apply (f_equal (@List.length _)) in E. now rewrite !map_length in E. Qed.
Lemma same_minpart c c' : same_cfg c c' -> c_minpart c' = c_minpart c.
Proof. intros (_ & E & _). exact E. Qed.

Definition shaped_tree (t : betree) : Prop :=
  shaped_cnode hasb (List.length (c_domains (bt_cfg t))) (c_minpart (bt_cfg t)) [] (bt_root t).
Lemma insert_shaped c m s t t' : same_cfg (bt_cfg t) c -> shaped_tree t -> NoDup (ids (s :: subs_cnode (bt_root t))) ->
  insert_sub (mkBT c m (bt_root t)) s = Ok t' ->
  shaped_tree t' /\ same_cfg (bt_cfg t) (bt_cfg t') /\ Permutation (subs_cnode (bt_root t')) (s :: subs_cnode (bt_root t)).
Proof.
  intros S G ND H. apply insert_sub_parts in H. destruct H as (E & _ & H). cbn [bt_cfg bt_root] in *. split; [|split].
  - unfold shaped_tree in *. rewrite E. eapply insert_root_shape; [|exact ND|exact H]. now rewrite (same_length _ _ S), (same_minpart _ _ S).
  - now rewrite E.
  - now apply insert_root_perm in H.
Qed.
Theorem calls_facts cap minpart maxsplit ds t made l : calls cap minpart maxsplit ds t made l ->
  List.length (c_domains (bt_cfg t)) = List.length ds /\ c_minpart (bt_cfg t) = to_uint 8 minpart /\ Forall told made.
Proof.
  assert (Q : forall t t' ds made, same_cfg (bt_cfg t) (bt_cfg t') ->
    List.length (c_domains (bt_cfg t)) = List.length (ds : list domain) /\ c_minpart (bt_cfg t) = to_uint 8 minpart /\ Forall told made ->
    List.length (c_domains (bt_cfg t')) = List.length ds /\ c_minpart (bt_cfg t') = to_uint 8 minpart /\ Forall told made).
  { intros u u' d mm S. now rewrite (same_length _ _ S), (same_minpart _ _ S). }
  induction 1 as [ds|ds t made l id cs x t' K IH H|ds t made l id cs x t' K IH H|ds t made l id cs x s t' K IH H
    |ds t made l id cs x t' K IH H|ds t made l s t' K IH HI H|ds t made l x t' K IH H|ds t made l d K IH|ds t made l K IH].
  - split; [reflexivity|]. split; [reflexivity|constructor].
  - apply insert_made in H. destruct H as (c & m & s & S & I & T & H). apply insert_sub_parts in H. destruct H as (E & _). cbn [bt_cfg] in E.
    eapply Q; [|exact IH]. now rewrite E.
  - apply refused_steps in H. subst. auto.
  - pose proof (make_made _ _ _ _ _ _ H) as T. apply make_parts in H. destruct H as (S & _). destruct (Q _ _ _ _ S IH) as (A & B & C). auto.
  - apply make_parts in H. destruct H as (S & _). eapply Q; eauto.
  - apply insert_sub_parts in H. destruct H as (E & _). now rewrite E.
  - apply change_parts in H. destruct H as (S & _). eapply Q; eauto.
  - destruct IH as (A & B & C). cbn [betree_declare set_cfg add_domain bt_cfg c_domains c_minpart]. rewrite !app_length, A. auto.
  - exact IH.
Qed.
Theorem calls_shape cap minpart maxsplit ds t made l : calls cap minpart maxsplit ds t made l -> NoDup l ->
  shaped_tree t /\ Forall told (subs_cnode (bt_root t)).
Proof.
  assert (Q : forall t t' s c m, shaped_tree t -> same_cfg (bt_cfg t) c -> told s -> Forall told (subs_cnode (bt_root t)) ->
    NoDup (ids (s :: subs_cnode (bt_root t))) -> insert_sub (mkBT c m (bt_root t)) s = Ok t' ->
    shaped_tree t' /\ Forall told (subs_cnode (bt_root t'))).
  { intros u u' s c m A B C D E H. destruct (insert_shaped _ _ _ _ _ B A E H) as (X & Y & Z). split; [exact X|].
    eapply Permutation_Forall; [apply Permutation_sym, Z|]. now constructor. }
  induction 1 as [ds|ds t made l id cs x t' K IH H|ds t made l id cs x t' K IH H|ds t made l id cs x s t' K IH H
    |ds t made l id cs x t' K IH H|ds t made l s t' K IH HI H|ds t made l x t' K IH H|ds t made l d K IH|ds t made l K IH]; intros ND.
  - split; [apply good_fresh|constructor].
  - pose proof (NoDup_app_l _ _ ND) as NL. destruct (IH NL) as (I1 & I5). pose proof (calls_subs _ _ _ _ _ _ _ K NL) as P.
    apply insert_made in H. destruct H as (c & m & s & S & I & T & H). eapply (Q _ _ s); eauto.
    cbn [ids map]. rewrite I. eapply Permutation_NoDup; [|exact ND]. rewrite <- Permutation_cons_append. apply perm_skip. now symmetry.
  - apply refused_steps in H. subst. auto.
  - apply make_parts in H. destruct H as (S & E & _). unfold shaped_tree. rewrite E, (same_length _ _ S), (same_minpart _ _ S). auto.
  - apply make_parts in H. destruct H as (S & E & _). unfold shaped_tree. rewrite E, (same_length _ _ S), (same_minpart _ _ S). auto.
  - pose proof (NoDup_app_l _ _ ND) as NL. destruct (IH NL) as (I1 & I5). pose proof (calls_subs _ _ _ _ _ _ _ K NL) as P.
    destruct (calls_facts _ _ _ _ _ _ _ K) as (_ & _ & I4). rewrite Forall_forall in I4.
    destruct t as [c m r]. cbn [bt_cfg bt_root] in *. unfold betree_insert_sub in H.
    apply (Q (mkBT c m r) t' s c m I1 (same_cfg_refl _)); auto.
    cbn [ids map bt_root]. eapply Permutation_NoDup; [|exact ND]. rewrite <- Permutation_cons_append. apply perm_skip. now symmetry.
  - apply change_parts in H. destruct H as (S & E & _). unfold shaped_tree. rewrite E, (same_length _ _ S), (same_minpart _ _ S). auto.
  - destruct (IH ND) as (I1 & I5). split; [|exact I5]. unfold shaped_tree in *. cbn [betree_declare set_cfg add_domain bt_cfg bt_root c_domains c_minpart].
    rewrite !app_length. eapply shaped_more; [|exact I1]. lia.
  - split; [apply good_fresh|constructor].
Qed.
Theorem calls_shaped cap minpart maxsplit ds t made l : calls cap minpart maxsplit ds t made l -> NoDup l ->
  shaped_cnode about (List.length ds) (minpart mod 256) [] (bt_root t).
Proof.
  intros K ND. destruct (calls_shape _ _ _ _ _ _ _ K ND) as (A & B). destruct (calls_facts _ _ _ _ _ _ _ K) as (C & D & _).
  unfold shaped_tree in A. rewrite C, D in A. eapply (proj1 (shaped_has hasb about _ _)); [|exact A].
  intros s I v. rewrite Forall_forall in B. apply (B s I).
Qed.

(** *** Depth and size *)
Lemma below (l : list N) n : NoDup l -> (forall v, In v l -> (N.to_nat v < n)%nat) -> (List.length l <= n)%nat.
Proof.
  intros ND B. rewrite <- (seq_length n 0), <- (map_length N.to_nat l). apply NoDup_incl_length.
  - apply FinFun.Injective_map_NoDup; [|exact ND]. intros x y E. lia.
  - intros x X. apply in_map_iff in X. destruct X as (v & <- & I). apply in_seq. specialize (B v I). lia.
Qed.
Theorem shaped_depth has n minp :
  (forall cn used, NoDup used -> (forall v, In v used -> (N.to_nat v < n)%nat) -> shaped_cnode has n minp used cn ->
     (List.length used + depth_cnode cn <= n)%nat)
  /\ (forall ps used, NoDup used -> (forall v, In v used -> (N.to_nat v < n)%nat) ->
     (forall v, In v (labels ps) -> ~ In v used /\ (N.to_nat v < n)%nat) -> shaped_pdir has n minp used ps ->
     (List.length used + depth_pdir ps <= n)%nat)
  /\ (forall cd used, NoDup used -> (forall v, In v used -> (N.to_nat v < n)%nat) -> shaped_cdir has n minp used cd ->
     (List.length used + depth_cdir cd <= n)%nat).
Proof.
  apply tree_mut.
  - intros m subs ps IH used ND U (A & B & C). cbn [depth_cnode]. apply IH; auto. intros v I. destruct (B v I) as (B1 & B2 & _). auto.
  - intros used ND U _ _. cbn [depth_pdir]. rewrite Nat.add_0_r. now apply below.
  - intros v sc cd IHc rest IHr used ND U L (A & B & C & D). cbn [depth_pdir labels] in *.
    destruct (L v (or_introl eq_refl)) as [L1 L2]. apply IHc in C.
    + apply IHr in D; [|exact ND|exact U|intros w I; apply L; now right]. cbn [List.length] in C. lia.
    + now constructor.
    + intros w [<-|I]; auto.
  - intros b cn IH used ND U (A & B). cbn [depth_cdir]. now apply IH.
  - intros b cn IH l IHl r IHr used ND U (A & B & C & D). cbn [depth_cdir]. apply IH in B; auto. apply IHl in C; auto. apply IHr in D; auto. lia.
Qed.
Theorem shaped_size has n minp :
  (forall cn used, NoDup used -> (forall v, In v used -> (N.to_nat v < n)%nat) -> shaped_cnode has n minp used cn ->
     (size_cnode cn <= (n - List.length used) * List.length (subs_cnode cn))%nat)
  /\ (forall ps used, NoDup used -> (forall v, In v used -> (N.to_nat v < n)%nat) ->
     (forall v, In v (labels ps) -> ~ In v used /\ (N.to_nat v < n)%nat) -> shaped_pdir has n minp used ps ->
     (size_pdir ps <= (n - List.length used) * List.length (subs_pdir ps))%nat)
  /\ (forall cd used, NoDup used -> (forall v, In v used -> (N.to_nat v < n)%nat) -> shaped_cdir has n minp used cd ->
     (size_cdir cd <= (n - List.length used) * List.length (subs_cdir cd))%nat).
Proof.
  apply tree_mut.
  - intros m subs ps IH used ND U (A & B & C). cbn [size_cnode subs_cnode]. rewrite app_length, Nat.mul_add_distr_l. apply IH in C; [etransitivity; [exact C|apply Nat.le_add_l]|exact ND|exact U|].
    intros v I. destruct (B v I) as (B1 & B2 & _). auto.
  - intros used ND U _ _. apply Nat.le_0_l.
  - intros v sc cd IHc rest IHr used ND U L (A & [B _] & C & D). cbn [size_pdir labels subs_pdir] in *. rewrite app_length.
    destruct (L v (or_introl eq_refl)) as [L1 L2].
    assert (ND' : NoDup (v :: used)) by now constructor.
    assert (U' : forall w, In w (v :: used) -> (N.to_nat w < n)%nat) by (intros w [<-|I]; auto).
    pose proof (below _ _ ND' U') as LE. apply IHc in C; [|exact ND'|exact U']. apply IHr in D; [|exact ND|exact U|intros w I; apply L; now right]. cbn [List.length] in *.
    assert (EN : (n - List.length used)%nat = S (n - S (List.length used))) by lia.
    rewrite Nat.mul_add_distr_l. set (q := ((n - List.length used) * List.length (subs_pdir rest))%nat) in *. rewrite EN.
    cbn [Nat.mul]. set (q' := ((n - S (List.length used)) * List.length (subs_cdir cd))%nat) in *. clearbody q q'. lia.
  - intros b cn IH used ND U (A & B). cbn [size_cdir subs_cdir]. now apply IH.
  - intros b cn IH l IHl r IHr used ND U (A & B & C & D). cbn [size_cdir subs_cdir]. rewrite !app_length, !Nat.mul_add_distr_l.
    apply IH in B; auto. apply IHl in C; auto. apply IHr in D; auto.
    rewrite Nat.add_assoc. apply Nat.add_le_mono; [apply Nat.add_le_mono; [exact B|exact C]|exact D].
Qed.
