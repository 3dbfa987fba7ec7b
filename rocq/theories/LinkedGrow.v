(** Partitioning and clustering on linked objects do what Tree.v says. *)
From Coq Require Import ZArith NArith String Bool List Permutation Lia ZifyBool ZifyNat ZifyN.
From Verif Require Import Base Float Value Ast Config Tree Linked LinkedSpec PermTac LinkedHeap LinkedNode.
Import ListNotations.
Local Open Scope Z_scope.
Local Open Scope res_scope.

Lemma Ok_inj {A} (x y : A) : Ok x = Ok y -> x = y.
Proof. congruence. Qed.

(** Inclusions between lists built with [::] and [++]. *)
Ltac inl :=
  lazymatch goal with
  | |- incl ?l ?l => apply incl_refl
  | |- incl [] _ => apply incl_nil_l
  | |- incl (_ :: _) _ => apply incl_cons; [isin|inl]
  | |- incl (_ ++ _) _ => apply incl_app; inl
  | |- incl ?l (?l ++ _) => apply incl_appl, incl_refl
  | |- incl _ (_ ++ _) => first [apply incl_appl; inl | apply incl_appr; inl]
  | |- incl _ (_ :: _) => apply incl_tl; inl
  | |- incl _ _ => assumption
  end.
Ltac hperm := eapply holds_perm; [eassumption|]; perm.

Lemma cn_in p T : exists d, In (cn_at T, OCnode p (ln_at T) d) (blocks_cnode p T).
Proof. destruct T. eexists. now left. Qed.
Lemma cd_in k p v D : exists sa b x l r, In (cd_at D, OCdir k p v sa b x l r) (blocks_cdir k p v D).
Proof. destruct D; repeat eexists; now left. Qed.
Lemma cn_pos h p T F : holds h (blocks_cnode p T ++ F) -> (cn_at T =? NULL)%N = false.
Proof. intros H. destruct (cn_in p T) as (d & I). eapply holds_pos; [exact H|]. apply in_or_app. left. exact I. Qed.
Lemma cd_pos h L k p v D : holds h L -> incl (blocks_cdir k p v D) L -> (cd_at D =? NULL)%N = false.
Proof. intros H J. destruct (cd_in k p v D) as (sa & b & x & l & r & I). eapply holds_pos; [exact H|]. apply J. exact I. Qed.

Lemma overflow_ok h L a la sa m (subs : list (N * sub)) ps :
  holds h L -> incl (ln_cells a la sa m (map fst subs)) L ->
  is_overflowed h la = Ok (overflowed (CNode m (map snd subs) ps)).
Proof.
  intros H I. unfold is_overflowed. rewrite (at_lnode _ _ _ _ _ _ H (I _ (or_introl eq_refl))). cbn [bind overflowed].
  now rewrite !map_length.
Qed.

Lemma capacity_ok c p T F h cn :
  holds h (blocks_cnode p T ++ F) -> update_capacity c (er_cnode T) = Ok cn ->
  exists T' h', set_capacity c (ln_at T) h = Ok h' /\ holds h' (blocks_cnode p T' ++ F)
    /\ er_cnode T' = cn /\ cn_at T' = cn_at T /\ ln_at T' = ln_at T /\ asubs_cnode T' = asubs_cnode T.
Proof.
  destruct T as [a la sa m subs pd pa ps]. intros H E. cbn [er_cnode update_capacity] in E.
  destruct (cluster_capacity c (length (map snd subs))) as [m'| | |] eqn:C; try discriminate. apply Ok_inj in E. subst cn.
  cbn [blocks_cnode ln_at] in *. unfold set_capacity.
  assert (H1 : holds h ((la, OLnode a (length (map fst subs)) (arr_ptr sa (map fst subs)) m) :: arr_cells sa (map fst subs)
     ++ (a, OCnode p la (arr_ptr pd (pn_at ps))) :: pd_cells a pd pa (pn_at ps) ++ blocks_pdir pd ps ++ F)).
  { unfold ln_cells in H. hperm. }
  rewrite (holds_pos _ la _ H1 (or_introl eq_refl)), (at_lnode _ la _ _ _ _ H1 (or_introl eq_refl)). cbn [bind].
  rewrite map_length in C |- *. rewrite C. cbn [bind].
  destruct (holds_store _ _ _ (OLnode a (length subs) (arr_ptr sa (map fst subs)) m') H1) as (h' & E & H2).
  exists (AC a la sa m' subs pd pa ps), h'. split; [exact E|]. split; [|repeat split].
  cbn [blocks_cnode]. unfold ln_cells. rewrite map_length. hperm.
Qed.

(** What the two functions guarantee with a given amount of fuel on the side of Tree.v. *)
Definition part_ok (fuel : nat) : Prop := forall c used T p F h cn,
  holds h (blocks_cnode p T ++ F) -> above F p used -> incl (sub_blocks (asubs_cnode T)) F ->
  space_partitioning fuel c used (er_cnode T) = Ok cn ->
  exists T' h', fin (fun n => p_partitioning n c (cn_at T) h) h' /\ holds h' (blocks_cnode p T' ++ F)
    /\ er_cnode T' = cn /\ cn_at T' = cn_at T /\ ln_at T' = ln_at T /\ incl (asubs_cnode T') (asubs_cnode T).
Definition loop_ok (fuel : nat) : Prop := forall c used T p F h cn,
  holds h (blocks_cnode p T ++ F) -> above F p used -> incl (sub_blocks (asubs_cnode T)) F ->
  space_partitioning fuel c used (er_cnode T) = Ok cn ->
  exists T' h', fin (fun n => p_loop n c (cn_at T) (ln_at T) h) h' /\ holds h' (blocks_cnode p T' ++ F)
    /\ update_capacity c (er_cnode T') = Ok cn /\ cn_at T' = cn_at T /\ ln_at T' = ln_at T
    /\ incl (asubs_cnode T') (asubs_cnode T).
Definition clus_ok (fuel : nat) : Prop := forall c used v D k p F h cd,
  holds h (blocks_cdir k p v D ++ F) -> parent F k p v used -> incl (sub_blocks (asubs_cdir D)) F ->
  space_clustering fuel c (v :: used) v (er_cdir D) = Ok cd ->
  exists D' h', fin (fun n => p_clustering n c (cd_at D) h) h' /\ holds h' (blocks_cdir k p v D' ++ F)
    /\ er_cdir D' = cd /\ cd_at D' = cd_at D /\ incl (asubs_cdir D') (asubs_cdir D).

Lemma sub_blocks_app l r : sub_blocks (l ++ r) = sub_blocks l ++ sub_blocks r.
Proof. unfold sub_blocks. apply map_app. Qed.
Lemma sub_blocks_incl l r : incl l r -> incl (sub_blocks l) (sub_blocks r).
Proof. intros I x K. apply in_map_iff in K as (y & <- & K). apply in_map_iff. exists y. split; [reflexivity|]. now apply I. Qed.

Lemma loop_part fuel : loop_ok fuel -> part_ok fuel.
Proof.
  intros L c used T p F h cn H A S E.
  destruct (L c used T p F h cn H A S E) as (T1 & h1 & (N1 & R1) & H1 & E1 & A1 & B1 & I1).
  destruct (capacity_ok _ _ _ _ _ _ H1 E1) as (T2 & h2 & R2 & H2 & E2 & A2 & B2 & I2).
  exists T2, h2. split; [|split; [exact H2|split; [exact E2|split; [congruence|split; [congruence|now rewrite I2]]]]].
  exists (Datatypes.S N1). intros [|n] LE; [lia|]. cbn [p_partitioning].
  destruct (cn_in p T) as (d & I). rewrite (at_cnode _ _ _ _ _ H (in_or_app _ _ _ (or_introl I))). cbn [bind].
  rewrite R1 by lia. cbn [bind]. now rewrite <- B1.
Qed.

Lemma loop_step fuel : loop_ok fuel -> clus_ok fuel -> loop_ok (S fuel).
Proof.
  intros IHL IHC c used T p F h cn H A SB E. destruct T as [a la sa m subs pd pa ps].
  cbn [space_partitioning er_cnode] in E. cbn [cn_at ln_at].
  set (T := AC a la sa m subs pd pa ps) in *.
  assert (STOP : forall n, update_capacity c (CNode m (map snd subs) (er_pdir ps)) = Ok cn ->
     (forall k, (n <= k)%nat -> p_loop k c a la h = Ok h) ->
     exists T' h', fin (fun n => p_loop n c a la h) h' /\ holds h' (blocks_cnode p T' ++ F)
    /\ update_capacity c (er_cnode T') = Ok cn /\ cn_at T' = a /\ ln_at T' = la
    /\ incl (asubs_cnode T') (asubs_cnode T)).
  { intros n Q R. exists T, h. split; [now exists n|]. repeat split; try assumption; try apply H. apply incl_refl. }
  assert (IL : incl (ln_cells a la sa m (map fst subs)) (blocks_cnode p T ++ F)).
  { cbn [T blocks_cnode]. inl. }
  assert (OV := overflow_ok h _ a la sa m subs (er_pdir ps) H IL).
  destruct (overflowed (CNode m (map snd subs) (er_pdir ps))) eqn:O; cbn [negb] in E.
  2:{ apply (STOP 1%nat E). intros [|k] LE; [lia|]. cbn [p_loop]. rewrite OV. reflexivity. }
  assert (IS : incl (sub_blocks subs) F).
  { intros x K. apply SB. cbn [T asubs_cnode]. rewrite sub_blocks_app. apply in_or_app. now left. }
  assert (NX : exists N, forall n, (N <= n)%nat -> pnext_highest n c la h = next_highest c used (map snd subs)).
  { eapply (pnext_ok H c a p la sa m subs).
    - cbn [T blocks_cnode]. left. reflexivity.
    - eapply above_incl; [exact A|]. inl.
    - exact IL.
    - apply incl_appr. exact IS. }
  destruct NX as (N1 & NX).
  assert (SUBS : lnode_subs h la = Ok (map fst subs)) by (apply (ln_subs _ a la sa m _ H IL)).
  assert (READ : get_subs h (map fst subs) = Ok (map snd subs)).
  { apply (subs_read _ _ H). apply incl_appr. exact IS. }
  destruct (next_highest c used (map snd subs)) as [[v|]| | |] eqn:NH; cbn [bind] in E; try discriminate.
  2:{ apply (STOP (S N1) E). intros [|k] LE; [lia|]. cbn [p_loop]. rewrite OV. cbn [bind negb].
      rewrite NX by lia. reflexivity. }
  destruct (count_attr v (map snd subs) <? c_minpart c) eqn:CT.
  { apply (STOP (S N1) E). intros [|k] LE; [lia|]. cbn [p_loop]. rewrite OV. cbn [bind negb].
    rewrite NX by lia. cbn [bind]. rewrite SUBS. cbn [bind]. rewrite READ. cbn [bind]. now rewrite CT. }
  destruct (get_domain c v) as [d| | |] eqn:GD; cbn [bind] in E; try discriminate.
  destruct (distribute (fun s => Ok (if has_attr v s then Some true else None)) [] (map snd subs) [] [])
    as [((stay, moved), junk)| | |] eqn:DI; cbn [bind] in E; try discriminate.
  destruct (space_clustering fuel c (v :: used) v (CLeaf (d_bound d) (make_cnode c moved))) as [cd| | |] eqn:SC;
    cbn [bind] in E; try discriminate.
  destruct (create_pdir_ok c v a p la sa m subs pd pa ps d h F H GD)
    as (pd' & pa' & pn & s2 & cdA & s3 & cnA & la2 & h1 & CP & H1).
  set (R := (pn, OPnode pd' v s2 cdA (f_of_Z 0)) :: (s2, OStr) :: (cdA, OCdir true pn v s3 (d_bound d) cnA NULL NULL)
     :: (s3, OStr) :: (cnA, OCnode cdA la2 NULL) :: (a, OCnode p la (arr_ptr pd' (pn_at ps ++ [pn])))
     :: pd_cells a pd' pa' (pn_at ps ++ [pn]) ++ blocks_pdir pd' ps ++ F).
  assert (H2 : holds h1 (mcells false a la m cnA la2 (c_cap c) NULL NULL 0 R sa (map fst subs) NULL [] NULL [])).
  { unfold mcells. cbn [blocks_cnode] in H1. rewrite pn_app, blocks_app in H1.
    cbn [blocks_cnode pn_at blocks_pdir blocks_cdir fresh_cnode map pd_cells cn_at cd_at arr_ptr] in H1.
    unfold R. hperm. }
  destruct (move_ok false a la m cnA la2 (c_cap c) NULL NULL 0 R
      (fun s => Ok (if has_attr v s then Some true else None)) (fun n => dest_pnode n c v pn) 1 subs) with
    (rest := subs) (before := @nil (N * sub)) (tl := @nil (N * sub)) (tr := @nil (N * sub)) (sa := sa) (s1 := NULL) (s2 := NULL) (h := h1)
    (stay := stay) (ol := moved) (orr := junk)
    as (stA & mvA & jkA & sa' & s1' & s2' & h2 & MV & H3 & Q1 & Q2 & Q3 & IM).
  { intros s. destruct (has_attr v s); discriminate. }
  { unfold R. do 6 apply incl_tl. do 2 apply incl_appr. exact IS. }
  { intros n h0 x s w sa0 l0 s10 l1 s20 l2 LN HH IN W. apply Ok_inj in W. subst w. unfold dest_pnode.
    assert (IR : incl R (mcells false a la m cnA la2 (c_cap c) NULL NULL 0 R sa0 l0 s10 l1 s20 l2)).
    { unfold mcells. do 3 apply incl_appr. apply incl_refl. }
    rewrite (at_sub _ x s HH). 2:{ apply IR. unfold R. do 6 right. do 2 (apply in_or_app; right). apply IS.
      unfold sub_blocks. apply in_map_iff. exists (x, s). now split. }
    cbn [bind]. destruct (has_attr v s); [|reflexivity].
    rewrite (at_pnode _ pn pd' v s2 cdA (f_of_Z 0) HH) by (apply IR; now left). cbn [bind].
    destruct n as [|n]; [lia|]. cbn [insert_cdir].
    assert (IC : In (cdA, OCdir true pn v s3 (d_bound d) cnA NULL NULL) R) by (unfold R; do 2 right; now left).
    rewrite (at_cdir _ _ _ _ _ _ _ _ _ _ HH (IR _ IC)). cbn [bind N.eqb NULL andb]. unfold cdir_lnode.
    rewrite (at_cdir _ _ _ _ _ _ _ _ _ _ HH (IR _ IC)). cbn [bind].
    rewrite (at_cnode _ cnA cdA la2 NULL HH) by (apply IR; unfold R; do 4 right; now left). reflexivity. }
  { exact H2. }
  { apply incl_refl. }
  { exact DI. }
  cbn [length app] in MV, IM.
  set (D1 := ALeaf cdA s3 (d_bound d) (AC cnA la2 s1' (c_cap c) mvA NULL NULL ANil)).
  set (F2 := (pn, OPnode pd' v s2 cdA (f_of_Z 0)) :: (s2, OStr) :: (a, OCnode p la (arr_ptr pd' (pn_at ps ++ [pn])))
     :: ln_cells a la sa' m (map fst stA) ++ pd_cells a pd' pa' (pn_at ps ++ [pn]) ++ blocks_pdir pd' ps ++ F).
  assert (H4 : holds h2 (blocks_cdir true pn v D1 ++ F2)).
  { unfold D1, F2. unfold mcells, R in H3.
    cbn [blocks_cnode pn_at blocks_pdir blocks_cdir pd_cells cn_at arr_ptr]. hperm. }
  assert (AF : incl F F2). { unfold F2. do 3 apply incl_tl. do 3 apply incl_appr. apply incl_refl. }
  assert (PA : parent F2 true pn v used).
  { exists pd', s2, cdA, (f_of_Z 0), a, (length (pn_at ps ++ [pn])), pa', p, la, (arr_ptr pd' (pn_at ps ++ [pn])).
    split; [now left|]. split; [|split; [right; right; now left|now apply (above_incl F)]].
    unfold F2. do 3 right. apply in_or_app. right. apply in_or_app. left. unfold pd_cells.
    destruct (pn_at ps); now left. }
  assert (SD : incl (sub_blocks (asubs_cdir D1)) F2).
  { intros x K. apply AF. apply SB. cbn [D1 asubs_cdir asubs_cnode asubs_pdir] in K. rewrite app_nil_r in K.
    cbn [T asubs_cnode]. revert x K. apply sub_blocks_incl. intros x K.
    assert (J : In x (stA ++ mvA ++ jkA)) by (apply in_or_app; right; apply in_or_app; now left).
    apply IM in J. rewrite !app_nil_r in J. apply in_or_app. now left. }
  destruct (IHC c used v D1 true pn F2 h2 cd H4 PA SD) as (D2 & h3 & (N2 & R2) & H5 & E2 & A2 & I2).
  { cbn [D1 er_cdir er_cnode er_pdir]. rewrite Q2. exact SC. }
  set (T2 := AC a la sa' m stA pd' pa' (ap_app ps (ACons pn s2 v (f_of_Z 0) D2 ANil))).
  assert (H6 : holds h3 (blocks_cnode p T2 ++ F)).
  { unfold T2. cbn [blocks_cnode]. rewrite pn_app, blocks_app. cbn [pn_at blocks_pdir]. rewrite A2.
    change (cd_at D1) with cdA. unfold F2 in H5. hperm. }
  assert (I3 : incl (asubs_cnode T2) (asubs_cnode T)).
  { cbn [T T2 asubs_cnode]. rewrite asubs_app. cbn [asubs_pdir]. rewrite app_nil_r.
    assert (J1 : incl stA subs).
    { intros x K. assert (J : In x (stA ++ mvA ++ jkA)) by (apply in_or_app; now left).
      apply IM in J. now rewrite !app_nil_r in J. }
    assert (J2 : incl mvA subs).
    { intros x K. assert (J : In x (stA ++ mvA ++ jkA)) by (apply in_or_app; right; apply in_or_app; now left).
      apply IM in J. now rewrite !app_nil_r in J. }
    cbn [D1 asubs_cdir asubs_cnode asubs_pdir] in I2. rewrite app_nil_r in I2.
    apply incl_app; [now apply incl_appl|]. apply incl_app; [apply incl_appr, incl_refl|].
    apply incl_appl. intros x K. now apply J2, I2. }
  destruct (IHL c used T2 p F h3 cn H6 A) as (T3 & h4 & (N3 & R3) & H7 & E3 & A3 & B3 & I4).
  { intros x K. apply SB. revert x K. now apply sub_blocks_incl. }
  { cbn [T2 er_cnode]. rewrite Q1, er_app, E2. exact E. }
  exists T3, h4. split; [|split; [exact H7|split; [exact E3|split; [exact A3|split; [exact B3|]]]]].
  2:{ intros x K. now apply I3, I4. }
  exists (S (S (N1 + N2 + N3 + length subs))). intros [|n] LE; [lia|]. cbn [p_loop]. rewrite OV. cbn [bind negb].
  rewrite NX by lia. cbn [bind]. rewrite SUBS. cbn [bind]. rewrite READ. cbn [bind]. rewrite CT.
  rewrite CP. cbn [bind]. rewrite MV by lia. cbn [bind].
  rewrite (at_pnode _ pn pd' v s2 cdA (f_of_Z 0) H4) by (apply in_or_app; right; now left). cbn [bind].
  change cdA with (cd_at D1). rewrite R2 by lia. cbn [bind]. apply R3. lia.
Qed.

(** Partitioning of the cnode of a cdir, then the new capacity. *)
Lemma part_then fuel : part_ok fuel -> forall c used T p F h cn1 cn2,
  holds h (blocks_cnode p T ++ F) -> above F p used -> incl (sub_blocks (asubs_cnode T)) F ->
  space_partitioning fuel c used (er_cnode T) = Ok cn1 -> update_capacity c cn1 = Ok cn2 ->
  exists T' h1 h', fin (fun n => p_partitioning n c (cn_at T) h) h1 /\ set_capacity c (ln_at T) h1 = Ok h'
    /\ holds h' (blocks_cnode p T' ++ F)
    /\ er_cnode T' = cn2 /\ cn_at T' = cn_at T /\ ln_at T' = ln_at T /\ incl (asubs_cnode T') (asubs_cnode T).
Proof.
  intros IH c used T p F h cn1 cn2 H A SB E1 E2.
  destruct (IH c used T p F h cn1 H A SB E1) as (T1 & h1 & R1 & H1 & Q1 & A1 & B1 & I1). subst cn1.
  destruct (capacity_ok _ _ _ _ _ _ H1 E2) as (T2 & h2 & R2 & H2 & Q2 & A2 & B2 & I2).
  exists T2, h1, h2. rewrite B1 in R2. split; [exact R1|]. split; [exact R2|]. split; [exact H2|].
  split; [exact Q2|]. split; [congruence|]. split; [congruence|]. now rewrite I2.
Qed.

Lemma clus_step fuel : part_ok fuel -> clus_ok fuel -> clus_ok (S fuel).
Proof.
  intros IHP IHC c used v D k p F h cd H PA SB E.
  destruct (cd_cn D) as [cna la sl m subs pd pa ps] eqn:CN.
  assert (CDP : (cd_at D =? NULL)%N = false) by (eapply cd_pos; [exact H|]; apply incl_appl, incl_refl).
  assert (CC : cd_cnode (er_cdir D) = CNode m (map snd subs) (er_pdir ps)).
  { destruct D as [a sa b cn|a sa b cn l r]; cbn in CN |- *; subst cn; reflexivity. }
  set (T := AC cna la sl m subs pd pa ps) in *.
  assert (IT : incl (blocks_cnode (cd_at D) T) (blocks_cdir k p v D ++ F)).
  { destruct D as [a sa b cn|a sa b cn l r]; cbn [cd_cn] in CN; subst cn; cbn [cd_at blocks_cdir].
    - apply incl_appl. do 2 apply incl_tl. apply incl_refl.
    - apply incl_appl. do 2 apply incl_tl. apply incl_appl, incl_refl. }
  assert (ICN : In (cna, OCnode (cd_at D) la (arr_ptr pd (pn_at ps))) (blocks_cdir k p v D ++ F)).
  { apply IT. now left. }
  assert (CNP := holds_pos _ _ _ H ICN).
  assert (IL : incl (ln_cells cna la sl m (map fst subs)) (blocks_cdir k p v D ++ F)).
  { intros x K. apply IT. cbn [T blocks_cnode]. right. apply in_or_app. now left. }
  assert (OV := overflow_ok h _ cna la sl m subs (er_pdir ps) H IL).
  cbn [space_clustering] in E. rewrite CC in E.
  destruct (overflowed (CNode m (map snd subs) (er_pdir ps))) eqn:O; cbn [negb] in E.
  2:{ apply Ok_inj in E. exists D, h. split; [|split; [exact H|split; [exact E|split; [reflexivity|apply incl_refl]]]].
      exists 1%nat. intros [|n] LE; [lia|]. cbn [p_clustering]. rewrite CDP.
      assert (G : exists x, get_cdir h (cd_at D) = Ok x /\ snd (fst (fst x)) = cna).
      { destruct D as [a sa b cn|a sa b cn l r]; cbn [cd_cn] in CN; subst cn; cbn [cd_at blocks_cdir] in H |- *;
        eexists; (split; [eapply (at_cdir _ _ _ _ _ _ _ _ _ _ H); left; reflexivity|reflexivity]). }
      destruct G as ((((((((k0, p0), v0), sa0), b0), cn0), l0), r0) & G & G'). cbn in G'. subst cn0.
      rewrite G. cbn [bind]. rewrite CNP, (at_cnode _ _ _ _ _ H ICN). cbn [bind]. rewrite OV. reflexivity. }
  destruct D as [a sa b cn|a sa b cn l r]; cbn [cd_cn] in CN; subst cn; cbn [cd_at er_cdir] in *.
  - (* no children yet *)
    destruct (is_atomic b) as [at_| | |] eqn:AT; cbn [bind] in E; try discriminate.
    assert (GC : get_cdir h a = Ok (k, p, v, sa, b, cna, NULL, NULL)).
    { apply (at_cdir _ _ _ _ _ _ _ _ _ _ H). now left. }
    destruct at_.
    + (* a single value: partitioning *)
      destruct (space_partitioning fuel c (v :: used) (er_cnode T)) as [cn1| | |] eqn:SP; cbn [bind] in E; try discriminate.
      destruct (update_capacity c cn1) as [cn2| | |] eqn:UC; cbn [bind] in E; try discriminate. apply Ok_inj in E. subst cd.
      set (F2 := (a, OCdir k p v sa b cna NULL NULL) :: (sa, OStr) :: F).
      assert (H1 : holds h (blocks_cnode a T ++ F2)). { unfold F2. cbn [blocks_cdir] in H. change (cn_at T) with cna in H. hperm. }
      assert (A2 : above F2 a (v :: used)).
      { eapply above_cdir; [now left|]. eapply parent_incl; [exact PA|]. unfold F2. do 2 apply incl_tl. apply incl_refl. }
      destruct (part_then fuel IHP c (v :: used) T a F2 h cn1 cn2 H1 A2) as (T2 & h1 & h2 & (N1 & R1) & R2 & H2 & Q & Q1 & Q2 & I1).
      { unfold F2. do 2 apply incl_tl. exact SB. }
      { exact SP. } { exact UC. }
      exists (ALeaf a sa b T2), h2. split; [|split; [|split; [cbn; now rewrite Q|split; [reflexivity|exact I1]]]].
      * exists (S N1). intros [|n] LE; [lia|]. cbn [p_clustering]. rewrite CDP, GC. cbn [bind].
        rewrite CNP, (at_cnode _ _ _ _ _ H ICN). cbn [bind]. rewrite OV. cbn [bind negb N.eqb NULL andb]. rewrite AT. cbn [bind].
        change cna with (cn_at T). rewrite R1 by lia. cbn [bind]. exact R2.
      * cbn [blocks_cdir]. rewrite Q1. change (cn_at T) with cna. unfold F2 in H2. hperm.
    + (* two halves *)
      destruct (split_value_bound b) as [(lb, rb)| | |] eqn:SV; cbn [bind] in E; try discriminate.
      cbn [T er_cnode] in E.
      destruct (distribute _ [] (map snd subs) [] []) as [((stay, ls), rs)| | |] eqn:DI; cbn [bind] in E; try discriminate.
      destruct (space_partitioning fuel c (v :: used) (CNode m stay (er_pdir ps))) as [cn1| | |] eqn:SP; cbn [bind] in E; try discriminate.
      destruct (space_clustering fuel c (v :: used) v (CLeaf lb (make_cnode c ls))) as [l'| | |] eqn:SL; cbn [bind] in E; try discriminate.
      destruct (space_clustering fuel c (v :: used) v (CLeaf rb (make_cnode c rs))) as [r'| | |] eqn:SR; cbn [bind] in E; try discriminate.
      destruct (update_capacity c cn1) as [cn2| | |] eqn:UC; cbn [bind] in E; try discriminate. apply Ok_inj in E. subst cd.
      assert (IS : incl (sub_blocks subs) F).
      { intros x K. apply SB. cbn [asubs_cdir T asubs_cnode]. rewrite sub_blocks_app. apply in_or_app. now left. }
      (* the left child *)
      destruct (create_child_ok c a k p v sa b cna NULL NULL lb h _ H) as (al & sal & cl & lal & h1 & CL & H1).
      { now left. } { right; now left. }
      assert (H2 : holds h1 ((a, OCdir k p v sa b cna NULL NULL) :: (sa, OStr)
           :: blocks_cdir false a v (ALeaf al sal lb (fresh_cnode c cl lal)) ++ blocks_cnode a T ++ F)).
      { cbn [blocks_cdir] in H1. change (cn_at T) with cna in H1. cbn [blocks_cdir]. hperm. }
      destruct (holds_store _ _ _ (OCdir k p v sa b cna al NULL) H2) as (h2 & ST1 & H3).
      destruct (create_child_ok c a k p v sa b cna al NULL rb h2 _ H3) as (ar & sar & cr & lar & h3 & CR & H4).
      { now left. } { right; now left. }
      assert (H5 : holds h3 ((a, OCdir k p v sa b cna al NULL) :: (sa, OStr)
           :: blocks_cdir false a v (ALeaf al sal lb (fresh_cnode c cl lal))
              ++ blocks_cdir false a v (ALeaf ar sar rb (fresh_cnode c cr lar)) ++ blocks_cnode a T ++ F)).
      { hperm. }
      destruct (holds_store _ _ _ (OCdir k p v sa b cna al ar) H5) as (h4 & ST2 & H6).
      (* moving the subscriptions *)
      set (R := (a, OCdir k p v sa b cna al ar) :: (sa, OStr)
         :: (al, OCdir false a v sal lb cl NULL NULL) :: (sal, OStr) :: (cl, OCnode al lal NULL)
         :: (ar, OCdir false a v sar rb cr NULL NULL) :: (sar, OStr) :: (cr, OCnode ar lar NULL)
         :: (cna, OCnode a la (arr_ptr pd (pn_at ps)))
         :: pd_cells cna pd pa (pn_at ps) ++ blocks_pdir pd ps ++ F).
      assert (H7 : holds h4 (mcells true cna la m cl lal (c_cap c) cr lar (c_cap c) R sl (map fst subs) NULL [] NULL [])).
      { unfold mcells, R. cbn [T blocks_cnode pn_at blocks_pdir blocks_cdir fresh_cnode map pd_cells cn_at arr_ptr] in H6. hperm. }
      match type of DI with distribute ?ch _ _ _ _ = _ =>
        destruct (move_ok true cna la m cl lal (c_cap c) cr lar (c_cap c) R ch (fun _ => dest_children c a) 0 subs) with
        (rest := subs) (before := @nil (N * sub)) (tl := @nil (N * sub)) (tr := @nil (N * sub)) (sa := sl) (s1 := NULL) (s2 := NULL) (h := h4)
        (stay := stay) (ol := ls) (orr := rs)
        as (stA & lsA & rsA & sl' & s1' & s2' & h5 & MV & H8 & Q1 & Q2 & Q3 & IM)
      end.
      { reflexivity. }
      { unfold R. do 9 apply incl_tl. do 2 apply incl_appr. exact IS. }
      { intros n h0 x s w sa0 l0 s10 l1 s20 l2 _ HH IN W. unfold dest_children.
        assert (IR : incl R (mcells true cna la m cl lal (c_cap c) cr lar (c_cap c) R sa0 l0 s10 l1 s20 l2)).
        { unfold mcells. do 3 apply incl_appr. apply incl_refl. }
        rewrite (at_sub _ x s HH). 2:{ apply IR. unfold R. do 9 right. do 2 (apply in_or_app; right). apply IS.
          unfold sub_blocks. apply in_map_iff. exists (x, s). now split. }
        cbn [bind].
        assert (J0 : In (a, OCdir k p v sa b cna al ar) R) by (now left).
        assert (J1 : In (al, OCdir false a v sal lb cl NULL NULL) R) by (unfold R; do 2 right; now left).
        assert (J2 : In (ar, OCdir false a v sar rb cr NULL NULL) R) by (unfold R; do 5 right; now left).
        rewrite (at_cdir _ _ _ _ _ _ _ _ _ _ HH (IR _ J0)). cbn [bind]. unfold enclosed, cdir_lnode.
        rewrite (holds_pos _ _ _ HH (IR _ J1)), (holds_pos _ _ _ HH (IR _ J2)).
        rewrite (at_cdir _ _ _ _ _ _ _ _ _ _ HH (IR _ J1)). cbn [bind].
        rewrite (at_cdir _ _ _ _ _ _ _ _ _ _ HH (IR _ J2)). cbn [bind].
        rewrite (at_cnode _ cl al lal NULL HH) by (apply IR; unfold R; do 4 right; now left).
        rewrite (at_cnode _ cr ar lar NULL HH) by (apply IR; unfold R; do 7 right; now left). cbn [bind].
        destruct (sub_is_enclosed c s v lb) as [[|]| | |]; cbn [bind] in W |- *; try discriminate.
        - apply Ok_inj in W. subst w. reflexivity.
        - destruct (sub_is_enclosed c s v rb) as [[|]| | |]; cbn [bind] in W |- *; try discriminate;
            apply Ok_inj in W; subst w; reflexivity. }
      { exact H7. }
      { apply incl_refl. }
      { exact DI. }
      cbn [length app] in MV, IM. rewrite !app_nil_r in IM.
      assert (J1 : incl stA subs) by (intros x K; apply IM; apply in_or_app; now left).
      assert (J2 : incl lsA subs) by (intros x K; apply IM; apply in_or_app; right; apply in_or_app; now left).
      assert (J3 : incl rsA subs) by (intros x K; apply IM; apply in_or_app; right; apply in_or_app; now right).
      set (T1 := AC cna la sl' m stA pd pa ps).
      set (L1 := ALeaf al sal lb (AC cl lal s1' (c_cap c) lsA NULL NULL ANil)).
      set (R1 := ALeaf ar sar rb (AC cr lar s2' (c_cap c) rsA NULL NULL ANil)).
      set (TOP := (a, OCdir k p v sa b cna al ar) :: [(sa, OStr)]).
      assert (H9 : holds h5 (blocks_cnode a T1 ++ TOP ++ blocks_cdir false a v L1 ++ blocks_cdir false a v R1 ++ F)).
      { unfold mcells, R in H8. unfold TOP. cbn [T1 L1 R1 blocks_cnode pn_at blocks_pdir blocks_cdir map pd_cells cn_at arr_ptr]. hperm. }
      (* partitioning what stayed *)
      assert (AB : forall G, incl TOP G -> incl F G -> above G a (v :: used)).
      { intros G G1 G2. eapply above_cdir; [apply G1; now left|]. eapply parent_incl; [exact PA|exact G2]. }
      assert (SBF : forall G l, incl l subs -> incl F G -> incl (sub_blocks l) G).
      { intros G z G1 G2 x K. apply G2, IS. revert x K. now apply sub_blocks_incl. }
      assert (IT1 : incl (asubs_cnode T1) (asubs_cnode T)).
      { cbn [T T1 asubs_cnode]. apply incl_app; [now apply incl_appl|apply incl_appr, incl_refl]. }
      destruct (IHP c (v :: used) T1 a (TOP ++ blocks_cdir false a v L1 ++ blocks_cdir false a v R1 ++ F) h5 cn1 H9)
        as (T2 & h6 & (N1 & RP) & H10 & QP & AP1 & AP2 & IP).
      { apply AB; inl. }
      { intros x K. do 3 (apply in_or_app; right). apply SB. cbn [asubs_cdir]. revert x K. now apply sub_blocks_incl. }
      { cbn [T1 er_cnode]. rewrite Q1. exact SP. }
      (* the left half *)
      assert (H11 : holds h6 (blocks_cdir false a v L1 ++ TOP ++ blocks_cnode a T2 ++ blocks_cdir false a v R1 ++ F)) by hperm.
      destruct (IHC c used v L1 false a (TOP ++ blocks_cnode a T2 ++ blocks_cdir false a v R1 ++ F) h6 l' H11)
        as (L2 & h7 & (N2 & RL) & H12 & QL & AL & IL2).
      { cbn [parent]. apply AB; inl. }
      { cbn [L1 asubs_cdir asubs_cnode asubs_pdir]. rewrite app_nil_r. apply SBF; [exact J2|inl]. }
      { cbn [L1 er_cdir er_cnode er_pdir]. rewrite Q2. exact SL. }
      (* the right half *)
      assert (H13 : holds h7 (blocks_cdir false a v R1 ++ TOP ++ blocks_cnode a T2 ++ blocks_cdir false a v L2 ++ F)) by hperm.
      destruct (IHC c used v R1 false a (TOP ++ blocks_cnode a T2 ++ blocks_cdir false a v L2 ++ F) h7 r' H13)
        as (R2 & h8 & (N3 & RR) & H14 & QR & AR & IR2).
      { cbn [parent]. apply AB; inl. }
      { cbn [R1 asubs_cdir asubs_cnode asubs_pdir]. rewrite app_nil_r. apply SBF; [exact J3|inl]. }
      { cbn [R1 er_cdir er_cnode er_pdir]. rewrite Q3. exact SR. }
      (* the capacity *)
      assert (H15 : holds h8 (blocks_cnode a T2 ++ TOP ++ blocks_cdir false a v L2 ++ blocks_cdir false a v R2 ++ F)) by hperm.
      subst cn1. destruct (capacity_ok _ _ _ _ _ _ H15 UC) as (T3 & h9 & RC & H16 & QC & AC1 & AC2 & IC).
      exists (ASplit a sa b T3 L2 R2), h9. split; [|split; [|split; [|split; [reflexivity|]]]].
      * exists (S (N1 + N2 + N3 + S (length subs))). intros [|n] LE; [lia|]. cbn [p_clustering]. rewrite CDP, GC. cbn [bind].
        rewrite CNP, (at_cnode _ _ _ _ _ H ICN). cbn [bind]. rewrite OV. cbn [bind negb N.eqb NULL andb]. rewrite AT. cbn [bind].
        rewrite SV. cbn [bind]. rewrite CL. cbn [bind]. rewrite ST1. cbn [bind]. rewrite CR. cbn [bind].
        rewrite ST2. cbn [bind]. rewrite (MV n n) by lia. cbn [bind].
        change cna with (cn_at T1). rewrite RP by lia. cbn [bind].
        change al with (cd_at L1). rewrite RL by lia. cbn [bind].
        change ar with (cd_at R1). rewrite RR by lia. cbn [bind].
        rewrite AP2 in RC. exact RC.
      * cbn [blocks_cdir]. rewrite AC1, AP1, AL, AR. change (cn_at T1) with cna.
        change (cd_at L1) with al. change (cd_at R1) with ar. unfold TOP in H16. hperm.
      * cbn [er_cdir]. now rewrite QC, QL, QR.
      * cbn [asubs_cdir]. rewrite IC. cbn [L1 R1 asubs_cdir asubs_cnode asubs_pdir] in IL2, IR2. rewrite app_nil_r in IL2, IR2.
        repeat apply incl_app.
        -- intros x K. now apply IT1, IP.
        -- intros x K. cbn [T asubs_cnode]. apply in_or_app. left. now apply J2, IL2.
        -- intros x K. cbn [T asubs_cnode]. apply in_or_app. left. now apply J3, IR2.
  - (* already split: partitioning *)
    destruct (space_partitioning fuel c (v :: used) (er_cnode T)) as [cn1| | |] eqn:SP; cbn [bind] in E; try discriminate.
    destruct (update_capacity c cn1) as [cn2| | |] eqn:UC; cbn [bind] in E; try discriminate. apply Ok_inj in E. subst cd.
    set (F2 := (a, OCdir k p v sa b cna (cd_at l) (cd_at r)) :: (sa, OStr) :: blocks_cdir false a v l ++ blocks_cdir false a v r ++ F).
    assert (H1 : holds h (blocks_cnode a T ++ F2)). { unfold F2. cbn [blocks_cdir] in H. change (cn_at T) with cna in H. hperm. }
    assert (GC : get_cdir h a = Ok (k, p, v, sa, b, cna, cd_at l, cd_at r)).
    { apply (at_cdir _ _ _ _ _ _ _ _ _ _ H). now left. }
    assert (LP : (cd_at l =? NULL)%N = false).
    { eapply (cd_pos _ _ false a v l H1). unfold F2. inl. }
    assert (A2 : above F2 a (v :: used)).
    { eapply above_cdir; [now left|]. eapply parent_incl; [exact PA|]. unfold F2. inl. }
    destruct (part_then fuel IHP c (v :: used) T a F2 h cn1 cn2 H1 A2) as (T2 & h1 & h2 & (N1 & R1) & R2 & H2 & Q & Q1 & Q2 & I1).
    { unfold F2. intros x K. do 2 right. do 2 (apply in_or_app; right). apply SB. cbn [asubs_cdir].
      rewrite sub_blocks_app. apply in_or_app. now left. }
    { exact SP. } { exact UC. }
    exists (ASplit a sa b T2 l r), h2. split; [|split; [|split; [cbn; now rewrite Q|split; [reflexivity|]]]].
    + exists (S N1). intros [|n] LE; [lia|]. cbn [p_clustering]. rewrite CDP, GC. cbn [bind].
      rewrite CNP, (at_cnode _ _ _ _ _ H ICN). cbn [bind]. rewrite OV. cbn [bind negb]. rewrite LP. cbn [andb bind].
      change cna with (cn_at T). rewrite R1 by lia. cbn [bind]. exact R2.
    + cbn [blocks_cdir]. rewrite Q1. change (cn_at T) with cna. unfold F2 in H2. hperm.
    + cbn [asubs_cdir]. apply incl_app; [now apply incl_appl|apply incl_appr, incl_refl].
Qed.

Lemma grow_all fuel : loop_ok fuel /\ clus_ok fuel.
Proof.
  induction fuel as [|fuel (IL & IC)].
  - split; intros c; intros; cbn in *; discriminate.
  - split; [now apply loop_step|]. apply clus_step; [now apply loop_part|exact IC].
Qed.
