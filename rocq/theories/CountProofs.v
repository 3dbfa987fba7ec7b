(** The counters of a report against their second description. *)
From Coq Require Import ZArith NArith String Bool List Permutation Lia ZifyBool ZifyN ZifyNat.
From Verif Require Import Base Float Value Ast Config Assign Bound Special Match Tree RbTree PredMap Source Api Spec TreeSpec Hist CountSpec.
From Verif Require Import BaseProofs ListProofs EvalProofs RbProofs CmpProofs InternProofs ExtProofs ResProofs PassProofs PredProofs ShortProofs GvbProofs TreeProofs WideProofs HistProofs SearchProofs CallProofs.
Import ListNotations.
Local Open Scope N_scope.
Local Open Scope res_scope.

Lemma nthN_step {A} (l : list A) x i v : i < v -> nthN (x :: l) (v - i) = nthN l (v - (i + 1)).
Proof.
  intros H. cbn [nthN]. destruct (N.eqb_spec (v - i) 0); [lia|]. f_equal. lia.
Qed.
Lemma in_unset p : forall i v, In v (unset_from p i) <-> (i <= v /\ nthN p (v - i) = Some None).
Proof.
  induction p as [|o p IH]; intros i v.
  - cbn [unset_from]. split; [easy|]. intros [_ H]. discriminate.
  - assert (In v (unset_from (o :: p) i) <-> (v = i /\ o = None) \/ In v (unset_from p (i + 1))) as ->.
    { destruct o; cbn [unset_from In]; split; intros K.
      - now right.
      - destruct K as [[_ K]|K]; [discriminate|exact K].
      - destruct K as [K|K]; auto.
      - destruct K as [[-> _]|K]; auto. }
    rewrite IH. split.
    + intros [[-> ->]|[H E]]; [split; [lia|now rewrite N.sub_diag]|]. split; [lia|]. rewrite nthN_step by lia. exact E.
    + intros [H E]. destruct (N.eq_dec v i) as [->|D].
      * rewrite N.sub_diag in E. cbn in E. left. split; congruence.
      * right. split; [lia|]. rewrite nthN_step in E by lia. exact E.
Qed.

Lemma tsc_none undefined : forall pass fail,
  length pass = length undefined -> length fail = length undefined ->
  try_short_circuit pass fail undefined = Ok ScNone ->
  forall i, bit undefined i = true -> bit pass i = false /\ bit fail i = false.
Proof.
  induction undefined as [|u t IH]; intros pass fail LP LF H i Hi.
  { unfold bit in Hi. cbn in Hi. discriminate. }
  destruct pass as [|p pass]; [discriminate LP|]. destruct fail as [|f fail]; [discriminate LF|].
  cbn [try_short_circuit] in H.
  destruct (N.land p u =? 0) eqn:Ep; cbn [negb] in H; [|discriminate].
  destruct (N.land f u =? 0) eqn:Ef; cbn [negb] in H; [|discriminate].
  destruct (N.lt_ge_cases i 64) as [L|L].
  - rewrite !bit_head in * by easy.
    apply N.eqb_eq in Ep, Ef. split.
    + assert (N.testbit (N.land p u) i = false) as K by (rewrite Ep; apply N.bits_0).
      rewrite N.land_spec, Hi, andb_true_r in K. exact K.
    + assert (N.testbit (N.land f u) i = false) as K by (rewrite Ef; apply N.bits_0).
      rewrite N.land_spec, Hi, andb_true_r in K. exact K.
  - replace i with (i - 64 + 64) in * by lia. rewrite !bit_tail in *. apply (IH pass fail); auto.
Qed.

Lemma land_none a b j : (N.land a b =? 0) = true -> N.testbit b j = true -> N.testbit a j = false.
Proof.
  intros E H. apply N.eqb_eq in E. assert (N.testbit (N.land a b) j = false) as K by (rewrite E; apply N.bits_0).
  rewrite N.land_spec, H, andb_true_r in K. exact K.
Qed.
Lemma div_tail i : (i + 64) / 64 = i / 64 + 1.
Proof. replace (i + 64) with (i + 1 * 64) by lia. now rewrite N.div_add. Qed.
(** Which group of 64 variables decides. *)
Lemma tsc_first undefined : forall pass fail k,
  length pass = length undefined -> length fail = length undefined -> words_ok undefined ->
  try_short_circuit pass fail undefined = Ok k ->
  let none i := forall j, j / 64 < i / 64 -> bit undefined j = true -> bit pass j = false /\ bit fail j = false in
  match k with
  | ScPass => exists i, bit pass i = true /\ bit undefined i = true /\ none i
  | ScFail => exists i, bit fail i = true /\ bit undefined i = true /\ none i
      /\ forall j, j / 64 = i / 64 -> bit undefined j = true -> bit pass j = false
  | ScNone => True
  end.
Proof.
  induction undefined as [|u t IH]; intros pass fail k LP LF W H.
  { destruct pass; [|discriminate LP]. destruct fail; [|discriminate LF]. cbn in H. injection H as <-. exact I. }
  destruct pass as [|p pass]; [discriminate LP|]. destruct fail as [|f fail]; [discriminate LF|].
  cbn [try_short_circuit] in H. inversion W as [|? ? Wu Wt]; subst. cbv zeta.
  assert (forall j, j / 64 < 1 -> j < 64) as D1 by (intros j J; destruct (N.lt_ge_cases j 64) as [L|L]; [exact L|]; pose proof (N.div_le_mono 64 j 64); lia).
  destruct (N.land p u =? 0) eqn:Ep; cbn [negb] in H.
  - destruct (N.land f u =? 0) eqn:Ef; cbn [negb] in H.
    + specialize (IH pass fail k). cbn [length] in LP, LF. injection LP as LP. injection LF as LF. cbv zeta in IH.
      assert (forall i, (forall j, j / 64 < i / 64 -> bit t j = true -> bit pass j = false /\ bit fail j = false) ->
        forall j, j / 64 < (i + 64) / 64 -> bit (u :: t) j = true -> bit (p :: pass) j = false /\ bit (f :: fail) j = false) as UP.
      { intros i N j J B. destruct (N.lt_ge_cases j 64) as [L|L].
        - rewrite !bit_head in * by exact L. split; [apply (land_none p u)|apply (land_none f u)]; auto.
        - replace j with (j - 64 + 64) in * by lia. rewrite !bit_tail in *. rewrite !div_tail in J. apply N; [lia|exact B]. }
      destruct k; [| |exact I].
      * destruct IH as (i & A & B & C); auto. exists (i + 64). rewrite !bit_tail. sp; auto. exact (UP i C).
      * destruct IH as (i & A & B & C & E); auto. exists (i + 64). rewrite !bit_tail. sp; auto; [exact (UP i C)|].
        intros j J K. destruct (N.lt_ge_cases j 64) as [L|L].
        -- rewrite div_tail, N.div_small in J by exact L. lia.
        -- replace j with (j - 64 + 64) in * by lia. rewrite !bit_tail in *. rewrite !div_tail in J. apply E; [lia|exact K].
    + injection H as <-. apply land_common in Ef; [|easy]. destruct Ef as (j & J & T1 & T2). exists j.
      rewrite !bit_head by easy. rewrite (N.div_small j) by easy. sp; auto.
      * intros i K. lia.
      * intros i K B. assert (i < 64) as L by (apply D1; lia). rewrite bit_head in * by exact L. apply (land_none p u); auto.
  - injection H as <-. apply land_common in Ep; [|easy]. destruct Ep as (j & J & T1 & T2). exists j.
    rewrite !bit_head by easy. rewrite (N.div_small j) by easy. sp; auto. intros i K. lia.
Qed.
Lemma unset_first f p : forall i v, find f (unset_from p i) = Some v -> forall w, In w (unset_from p i) -> f w = true -> v <= w.
Proof.
  induction p as [|o p IH]; intros i v F w Hw T; [destruct Hw|]. destruct o; cbn [unset_from] in *; [eauto|].
  cbn [find] in F. destruct (f i) eqn:E.
  - injection F as <-. destruct Hw as [->|Hw]; [lia|]. apply in_unset in Hw. lia.
  - destruct Hw as [->|Hw]; [congruence|]. eauto.
Qed.

Definition cnt (g : N) (e : expr) : nat := count_occ N.eq_dec (map gid (nodes e)) g.
Definition cnts (g : N) (l : list expr) : nat := list_sum (map (cnt g) l).
Lemma cnt_leaf g h q : cnt g (ELeaf h q) = if N.eq_dec h g then 1%nat else 0%nat.
Proof. unfold cnt. cbn [nodes map gid count_occ]. now destruct (N.eq_dec h g). Qed.
Lemma cnt_and g h a b : cnt g (EAnd h a b) = ((if N.eq_dec h g then 1 else 0) + (cnt g a + cnt g b))%nat.
Proof. unfold cnt. cbn [nodes map gid count_occ]. rewrite map_app, count_occ_app. now destruct (N.eq_dec h g). Qed.
Lemma cnt_or g h a b : cnt g (EOr h a b) = ((if N.eq_dec h g then 1 else 0) + (cnt g a + cnt g b))%nat.
Proof. unfold cnt. cbn [nodes map gid count_occ]. rewrite map_app, count_occ_app. now destruct (N.eq_dec h g). Qed.
Lemma cnt_not g h a : cnt g (ENot h a) = ((if N.eq_dec h g then 1 else 0) + cnt g a)%nat.
Proof. unfold cnt. cbn [nodes map gid count_occ]. now destruct (N.eq_dec h g). Qed.
Lemma cnts_perm g l l' : Permutation l l' -> cnts g l = cnts g l'.
Proof. intros P. unfold cnts. induction P; cbn [map list_sum fold_right] in *; unfold list_sum in *; cbn in *; lia. Qed.
Lemma cnts_app g l l' : cnts g (l ++ l') = (cnts g l + cnts g l')%nat.
Proof. unfold cnts. rewrite map_app. apply list_sum_app. Qed.
Lemma cnts_cons g e l : cnts g (e :: l) = (cnt g e + cnts g l)%nat.
Proof. reflexivity. Qed.

Section WithGeo.
  Context {G : Geo}.

  (** [C] counts the parts with a given number; a number used twice has a place in the table. *)
  Definition once (m : pred_map) (C : N -> nat) : Prop :=
    (forall g, mid_of (pm_mids m) g = INVALID_PRED -> (C g <= 1)%nat) /\ (forall g, pm_count m <= g -> C g = 0%nat).
  Lemma once_ext m C C' : (forall g, C g = C' g) -> once m C -> once m C'.
  Proof. intros E [A B]. split; intros g H; rewrite <- E; auto. Qed.

  Lemma assign_node_once nowv V V' m e e' m' C :
    pm_ok nowv V m -> assign_node m e = Ok (e', m') -> pm_ok nowv V' m' -> pm_count m' <= INVALID_PRED ->
    once m C -> once m' (fun g => ((if N.eq_dec (gid e') g then 1 else 0) + C g)%nat).
  Proof.
    intros PM H PM' FEW [HA HB]. unfold assign_node in H. destruct (rb_find expr_cmp (pm_rb m) e) as [f|] eqn:EF.
    - destruct (rb_find_some _ _ _ _ EF) as [IF _].
      pose proof (po_good _ _ _ PM) as PG. rewrite Forall_forall in PG. pose proof (good_lt _ _ _ (PG f IF)) as LT.
      destruct (nthN (pm_mids m) (gid f)) as [i|] eqn:Ei; [|discriminate].
      destruct (N.eqb_spec i INVALID_PRED) as [D|D].
      + injection H as <- <-. rewrite gid_set_gid. cbn [pm_count pm_mids] in *.
        assert (pm_mcount m < INVALID_PRED) as LM.
        { pose proof (po_mids _ _ _ PM' FEW) as MO. pose proof (mo_count _ MO) as MC. cbn [pm_mcount pm_mids] in MC.
          pose proof (filter_short valid_mid (updN (pm_mids m) (gid f) (pm_mcount m))) as FS.
          pose proof (po_len _ _ _ PM') as PL. cbn [pm_mids pm_count] in PL. lia. }
        split; intros g Hg; cbn beta.
        * unfold mid_of in Hg. cbn [pm_mids] in Hg. destruct (N.eq_dec (gid f) g) as [<-|NE].
          -- rewrite nthN_updN_eq in Hg by (eapply nthN_Some_lt; eauto). lia.
          -- rewrite nthN_updN_neq in Hg by easy. apply HA in Hg. cbn iota. lia.
        * cbn [pm_count] in Hg. specialize (HB g Hg). destruct (N.eq_dec (gid f) g); lia.
      + injection H as <- <-. rewrite gid_set_gid. split; intros g Hg; cbn beta.
        * destruct (N.eq_dec (gid f) g) as [<-|NE].
          -- unfold mid_of in Hg. rewrite Ei in Hg. easy.
          -- apply HA in Hg. cbn iota. lia.
        * specialize (HB g Hg). destruct (N.eq_dec (gid f) g); lia.
    - apply bind_ok in H. destruct H as (t & _ & H). injection H as <- <-. rewrite gid_set_gid.
      cbn [pm_count pm_mids] in *. pose proof (po_len _ _ _ PM) as PL. split; intros g Hg; cbn beta.
      + destruct (N.eq_dec (pm_count m) g) as [<-|NE].
        * rewrite HB by lia. cbn iota. lia.
        * destruct (N.lt_ge_cases g (pm_count m)) as [L|L]; [|rewrite HB by lia; cbn iota; lia].
          assert (mid_of (pm_mids m) g = INVALID_PRED) as K.
          { unfold mid_of in *. cbn [pm_mids] in Hg. rewrite nthN_app_last in Hg. destruct (N.eqb_spec g (N.of_nat (length (pm_mids m)))); [lia|exact Hg]. }
          apply HA in K. cbn iota. lia.
      + cbn [pm_count] in Hg. rewrite HB by lia. destruct (N.eq_dec (pm_count m) g); lia.
  Qed.

  Lemma assign_pred_once nowv e : forall V m e' m' C,
    pm_ok nowv V m -> leaves_ok nowv e -> assign_pred m e = Ok (e', m') -> pm_count m' <= INVALID_PRED ->
    once m C -> once m' (fun g => (cnt g e' + C g)%nat).
  Proof.
    assert (forall V m e e' m' C, pm_ok nowv V m -> (forall k, In k (kids e) -> good V (pm_count m) k) -> leaves_ok nowv e ->
      assign_node m e = Ok (e', m') -> pm_count m' <= INVALID_PRED -> once m C ->
      once m' (fun g => ((if N.eq_dec (gid e') g then 1 else 0) + C g)%nat) /\ (exists g, e' = set_gid g e) /\ pm_count m <= pm_count m') as ST.
    { intros V m e0 e' m' C PM HK HL H FEW O.
      destruct (assign_node_ok nowv V m e0 PM HK HL) as (e1 & m1 & V' & E & PM' & _ & _ & LE & _ & _ & S).
      rewrite H in E. injection E as <- <-. split; [|easy]. exact (assign_node_once nowv V V' m e0 e' m' C PM H PM' FEW O). }
    induction e as [h q|h a IHa b IHb|h a IHa b IHb|h a IHa]; intros V m e' m' C PM HL H FEW O; cbn [assign_pred] in H.
    - assert (forall k, In k (kids (ELeaf h q)) -> good V (pm_count m) k) as HK by now intros k [].
      destruct (ST V m _ _ _ C PM HK HL H FEW O) as (A & (g0 & ->) & _).
      cbn [set_gid gid] in *. eapply once_ext; [|exact A]. intros g. cbn beta. now rewrite cnt_leaf.
    - destruct HL as [La Lb].
      apply bind_ok in H. destruct H as ([a' m1] & E1 & H). apply bind_ok in H. destruct H as ([b' m2] & E2 & H).
      destruct (assign_pred_ok nowv a V m PM La) as (? & ? & V1 & E1' & PM1 & G1 & U1 & LE1 & _ & LA'). rewrite E1 in E1'. injection E1' as <- <-.
      destruct (assign_pred_ok nowv b V1 m1 PM1 Lb) as (? & ? & V2 & E2' & PM2 & G2 & U2 & LE2 & _ & LB'). rewrite E2 in E2'. injection E2' as <- <-.
      assert (forall k, In k (kids (EAnd h a' b')) -> good V2 (pm_count m2) k) as HK.
      { intros k [<-|[<-|[]]]; [|exact G2]. eapply good_upto; [exact LE2|exact U2|exact G1]. }
      assert (leaves_ok nowv (EAnd h a' b')) as HL' by now split.
      destruct (assign_node_ok nowv V2 m2 (EAnd h a' b') PM2 HK HL') as (? & ? & V3 & E3' & _ & _ & _ & LE3 & _).
      rewrite H in E3'. injection E3' as <- <-.
      assert (once m1 (fun g => (cnt g a' + C g)%nat)) as O1 by (refine (IHa V m a' m1 C PM La E1 _ O); lia).
      assert (once m2 (fun g => (cnt g b' + (cnt g a' + C g))%nat)) as O2 by (refine (IHb V1 m1 b' m2 _ PM1 Lb E2 _ O1); lia).
      destruct (ST V2 m2 _ _ _ _ PM2 HK HL' H FEW O2) as (A & (g0 & ->) & _).
      cbn [set_gid gid] in *. eapply once_ext; [|exact A]. intros g. cbn beta. rewrite cnt_and. destruct (N.eq_dec _ _); lia.
    - destruct HL as [La Lb].
      apply bind_ok in H. destruct H as ([a' m1] & E1 & H). apply bind_ok in H. destruct H as ([b' m2] & E2 & H).
      destruct (assign_pred_ok nowv a V m PM La) as (? & ? & V1 & E1' & PM1 & G1 & U1 & LE1 & _ & LA'). rewrite E1 in E1'. injection E1' as <- <-.
      destruct (assign_pred_ok nowv b V1 m1 PM1 Lb) as (? & ? & V2 & E2' & PM2 & G2 & U2 & LE2 & _ & LB'). rewrite E2 in E2'. injection E2' as <- <-.
      assert (forall k, In k (kids (EOr h a' b')) -> good V2 (pm_count m2) k) as HK.
      { intros k [<-|[<-|[]]]; [|exact G2]. eapply good_upto; [exact LE2|exact U2|exact G1]. }
      assert (leaves_ok nowv (EOr h a' b')) as HL' by now split.
      destruct (assign_node_ok nowv V2 m2 (EOr h a' b') PM2 HK HL') as (? & ? & V3 & E3' & _ & _ & _ & LE3 & _).
      rewrite H in E3'. injection E3' as <- <-.
      assert (once m1 (fun g => (cnt g a' + C g)%nat)) as O1 by (refine (IHa V m a' m1 C PM La E1 _ O); lia).
      assert (once m2 (fun g => (cnt g b' + (cnt g a' + C g))%nat)) as O2 by (refine (IHb V1 m1 b' m2 _ PM1 Lb E2 _ O1); lia).
      destruct (ST V2 m2 _ _ _ _ PM2 HK HL' H FEW O2) as (A & (g0 & ->) & _).
      cbn [set_gid gid] in *. eapply once_ext; [|exact A]. intros g. cbn beta. rewrite cnt_or. destruct (N.eq_dec _ _); lia.
    - apply bind_ok in H. destruct H as ([a' m1] & E1 & H).
      destruct (assign_pred_ok nowv a V m PM HL) as (? & ? & V1 & E1' & PM1 & G1 & U1 & LE1 & _ & LA'). rewrite E1 in E1'. injection E1' as <- <-.
      assert (forall k, In k (kids (ENot h a')) -> good V1 (pm_count m1) k) as HK by (intros k [<-|[]]; exact G1).
      destruct (assign_node_ok nowv V1 m1 (ENot h a') PM1 HK LA') as (? & ? & V3 & E3' & _ & _ & _ & LE3 & _).
      rewrite H in E3'. injection E3' as <- <-.
      assert (once m1 (fun g => (cnt g a' + C g)%nat)) as O1 by (refine (IHa V m a' m1 C PM HL E1 _ O); lia).
      destruct (ST V1 m1 _ _ _ _ PM1 HK LA' H FEW O1) as (A & (g0 & ->) & _).
      cbn [set_gid gid] in *. eapply once_ext; [|exact A]. intros g. cbn beta. rewrite cnt_not. destruct (N.eq_dec _ _); lia.
  Qed.

  (** The bit tables hold the predicates of [seen] that have a place. *)
  Definition tracks (m : mids) (st : mstate) (seen : list N) : Prop :=
    forall g, mid_of m g <> INVALID_PRED ->
      bit (ms_pass st) (mid_of m g) || bit (ms_fail st) (mid_of m g) = existsb (N.eqb g) seen.
  (** Predicates without a place are seen or still to come at most once. *)
  Definition fresh (m : mids) (seen : list N) (T : N -> nat) : Prop :=
    forall g, mid_of m g = INVALID_PRED -> (count_occ N.eq_dec seen g + T g <= 1)%nat.
  Lemma seen_count g seen : existsb (N.eqb g) seen = true -> (1 <= count_occ N.eq_dec seen g)%nat.
  Proof.
    intros H. apply existsb_exists in H. destruct H as (x & I & E). apply N.eqb_eq in E. subst x.
    apply (count_occ_In N.eq_dec) in I. lia.
  Qed.
  Lemma cnt_self e : (1 <= cnt (gid e) e)%nat.
  Proof. destruct e; cbn [gid]; rewrite ?cnt_leaf, ?cnt_and, ?cnt_or, ?cnt_not; destruct (N.eq_dec _ _); try easy; lia. Qed.

  Lemma record_tracks V m e b st st' seen : mids_inj m -> memo_ok V m st -> tracks m st seen ->
    record_result m (gid e) b st = Ok st' -> tracks m st' (gid e :: seen) /\ ms_memoized st' = ms_memoized st.
  Proof.
    intros INJ MO T H. unfold record_result in H. destruct (N.eqb_spec (mid_of m (gid e)) INVALID_PRED) as [D|D].
    - injection H as <-. split; [|easy]. intros g Hg. rewrite (T g Hg). cbn [existsb].
      destruct (N.eqb_spec g (gid e)); [congruence|easy].
    - destruct (MO _ D) as (BP & BF & _). rewrite BP, BF in H. destruct b; injection H as <-; (split; [|easy]); intros g Hg;
        specialize (T g Hg); cbn [ms_pass ms_fail existsb]; rewrite bit_set by easy;
        destruct (N.eqb_spec g (gid e)) as [->|NE].
      + now rewrite N.eqb_refl.
      + destruct (N.eqb_spec (mid_of m g) (mid_of m (gid e))) as [K|K]; [apply INJ in K; easy|]. exact T.
      + now rewrite N.eqb_refl, orb_true_r.
      + destruct (N.eqb_spec (mid_of m g) (mid_of m (gid e))) as [K|K]; [apply INJ in K; easy|]. exact T.
  Qed.

  Lemma visit_node V p m e : mids_inj m -> forall st b st' seen T,
    numbered V p e -> memo_ok V m st -> tracks m st seen -> fresh m seen (fun g => (cnt g e + T g)%nat) ->
    match_node p m e st = Ok (b, st') ->
    let (n, seen') := visit p e seen in
    ms_memoized st' = (ms_memoized st + Z.of_nat n)%Z /\ tracks m st' seen' /\ memo_ok V m st' /\ b = holds p e
    /\ fresh m seen' T.
  Proof.
    intros INJ.
    assert (forall e st b st', numbered V p e -> memo_ok V m st -> match_node p m e st = Ok (b, st') ->
      b = holds p e /\ memo_ok V m st' /\ V (gid e) = Ok b) as AG.
    { intros e0 st b st' NU MO H. pose proof (match_node_eval V p m e0 st INJ NU MO) as A. pose proof (numbered_eval _ _ _ NU) as NE.
      unfold holds. unfold agrees in A. rewrite H in A. destruct (eval p e0) as [b'| | |]; try discriminate.
      destruct A as (s' & [= -> ->] & MO'). auto. }
    assert (forall e seen T, existsb (N.eqb (gid e)) seen = true -> fresh m seen (fun g => (cnt g e + T g)%nat) ->
      mid_of m (gid e) <> INVALID_PRED) as SH.
    { intros e0 seen T H F K. specialize (F _ K). apply seen_count in H. pose proof (cnt_self e0). cbn beta in F. lia. }
    assert (forall e st b st1 (seen : list N) n seen1 T r, mids_inj m -> numbered V p e -> memo_ok V m st ->
      r = Ok (b, st1) -> V (gid e) = Ok b -> b = holds p e ->
      ms_memoized st1 = (ms_memoized st + Z.of_nat n)%Z /\ tracks m st1 seen1 /\ memo_ok V m st1
        /\ fresh m seen1 (fun g => ((if N.eq_dec (gid e) g then 1 else 0) + T g)%nat) ->
      forall b' st', bind r (fun x => let (r, s') := x in do s2 <- record_result m (gid e) r s'; Ok (r, s2)) = Ok (b', st') ->
      ms_memoized st' = (ms_memoized st + Z.of_nat n)%Z /\ tracks m st' (gid e :: seen1) /\ memo_ok V m st' /\ b' = holds p e
        /\ fresh m (gid e :: seen1) T) as FIN.
    { intros e0 st b st1 seen n seen1 T r _ NU MO -> HV HB (M1 & T1 & MO1 & F1) b' st' H. cbn [bind] in H.
      apply bind_ok in H. destruct H as (s2 & R2 & H). injection H as <- <-.
      destruct (record_tracks V m e0 b st1 s2 seen1 INJ MO1 T1 R2) as [T2 M2].
      destruct (record_ok V m (gid e0) b st1 MO1 INJ HV) as (s2' & R2' & MO2). rewrite R2 in R2'. injection R2' as <-.
      sp; auto; [congruence|]. intros g Hg. specialize (F1 g Hg). cbn [count_occ]. cbn beta in F1.
      destruct (N.eq_dec (gid e0) g); lia. }
    assert (forall e st b st' seen, numbered V p e -> memo_ok V m st -> tracks m st seen ->
       existsb (N.eqb (gid e)) seen = true -> mid_of m (gid e) <> INVALID_PRED -> match_node p m e st = Ok (b, st') -> st' = bump st) as HIT.
    { intros e0 st b st' seen NU MO TR S1 S2 H. specialize (TR _ S2). rewrite S1 in TR.
      assert (exists x, lookup_result m (gid e0) st = Ok (Some x)) as [x LK].
      { unfold lookup_result. destruct (N.eqb_spec (mid_of m (gid e0)) INVALID_PRED); [easy|].
        destruct (MO _ S2) as (BP & BF & _). rewrite BP, BF. cbn [andb negb]. rewrite !test_bit_bit.
        destruct (bit (ms_pass st) _); [eauto|]. cbn [orb] in TR. rewrite TR. eauto. }
      destruct e0; cbn [match_node] in H; rewrite LK in H; cbn [bind] in H; congruence. }
    assert (forall e st seen, memo_ok V m st -> tracks m st seen ->
       existsb (N.eqb (gid e)) seen = false -> lookup_result m (gid e) st = Ok None) as MISS.
    { intros e0 st seen MO TR S1. unfold lookup_result. destruct (N.eqb_spec (mid_of m (gid e0)) INVALID_PRED) as [D|D]; [easy|].
      destruct (MO _ D) as (BP & BF & _). rewrite BP, BF. cbn [andb negb]. rewrite !test_bit_bit.
      specialize (TR _ D). rewrite S1 in TR. apply orb_false_iff in TR. destruct TR as [-> ->]. easy. }
    induction e as [h q|h a IHa b0 IHb|h a IHa b0 IHb|h a IHa]; intros st b st' seen T NU MO TR FR H;
      destruct (AG _ _ _ _ NU MO H) as (HB & MO' & HV);
      match goal with |- let (_, _) := visit p ?e seen in _ => destruct (existsb (N.eqb (gid e)) seen) eqn:ES end;
      cbn [visit]; rewrite ES;
      try solve [pose proof (SH _ _ T ES FR) as SM; pose proof (HIT _ _ _ _ _ NU MO TR ES SM H) as ->;
                 refine (conj _ (conj TR (conj MO' (conj HB _))));
                 [unfold bump; cbn [ms_memoized]; lia|intros g Hg; specialize (FR g Hg); cbn beta in FR; lia]];
      pose proof (MISS _ _ _ MO TR ES) as LK; cbn [match_node] in H; rewrite LK in H; cbn [bind] in H.
    - destruct (match_leaf p q) as [x| | |] eqn:EL; cbn [bind] in H; try discriminate.
      apply (FIN (ELeaf h q) st b st seen 0%nat seen T (Ok (b, st))); auto.
      + refine (conj _ (conj TR (conj MO _))); [lia|]. intros g Hg. specialize (FR g Hg). cbn beta in *. rewrite cnt_leaf in FR. exact FR.
      + cbn [bind]. apply bind_ok in H. destruct H as (s2 & R2 & H). injection H as -> ->. cbn [gid] in *. now rewrite R2.
    - destruct (numbered_and _ _ _ _ _ NU) as [Na Nb].
      destruct (match_node p m a st) as [[ra s1]| | |] eqn:EA; cbn [bind] in H; try discriminate.
      specialize (IHa st ra s1 seen (fun g => (cnt g b0 + ((if N.eq_dec h g then 1 else 0) + T g))%nat) Na MO TR).
      destruct (visit p a seen) as [na sa] eqn:VA. destruct IHa as (A1 & A2 & A3 & A4 & A5); auto.
      { intros g Hg. specialize (FR g Hg). cbn beta in *. rewrite cnt_and in FR. lia. }
      rewrite <- A4. destruct ra.
      + destruct (match_node p m b0 s1) as [[rb s2]| | |] eqn:EB; cbn [bind] in H; try discriminate.
        specialize (IHb s1 rb s2 sa (fun g => ((if N.eq_dec h g then 1 else 0) + T g)%nat) Nb A3 A2 A5 EB).
        destruct (visit p b0 sa) as [nb sb] eqn:VB. destruct IHb as (B1 & B2 & B3 & B4 & B5).
        apply (FIN (EAnd h a b0) st b s2 seen (na + nb)%nat sb T (Ok (b, s2))); auto.
        * sp; auto. lia.
        * cbn [bind] in *. apply bind_ok in H. destruct H as (s3 & R3 & H). injection H as -> ->. cbn [gid] in *. now rewrite R3.
      + apply (FIN (EAnd h a b0) st b s1 seen na sa T (Ok (b, s1))); auto.
        * sp; auto. intros g Hg. specialize (A5 g Hg). cbn beta in *. cbn [gid]. lia.
        * cbn [bind] in *. apply bind_ok in H. destruct H as (s3 & R3 & H). injection H as <- ->. cbn [gid] in *. now rewrite R3.
    - destruct (numbered_or _ _ _ _ _ NU) as [Na Nb].
      destruct (match_node p m a st) as [[ra s1]| | |] eqn:EA; cbn [bind] in H; try discriminate.
      specialize (IHa st ra s1 seen (fun g => (cnt g b0 + ((if N.eq_dec h g then 1 else 0) + T g))%nat) Na MO TR).
      destruct (visit p a seen) as [na sa] eqn:VA. destruct IHa as (A1 & A2 & A3 & A4 & A5); auto.
      { intros g Hg. specialize (FR g Hg). cbn beta in *. rewrite cnt_or in FR. lia. }
      rewrite <- A4. destruct ra.
      + apply (FIN (EOr h a b0) st b s1 seen na sa T (Ok (b, s1))); auto.
        * sp; auto. intros g Hg. specialize (A5 g Hg). cbn beta in *. cbn [gid]. lia.
        * cbn [bind] in *. apply bind_ok in H. destruct H as (s3 & R3 & H). injection H as <- ->. cbn [gid] in *. now rewrite R3.
      + destruct (match_node p m b0 s1) as [[rb s2]| | |] eqn:EB; cbn [bind] in H; try discriminate.
        specialize (IHb s1 rb s2 sa (fun g => ((if N.eq_dec h g then 1 else 0) + T g)%nat) Nb A3 A2 A5 EB).
        destruct (visit p b0 sa) as [nb sb] eqn:VB. destruct IHb as (B1 & B2 & B3 & B4 & B5).
        apply (FIN (EOr h a b0) st b s2 seen (na + nb)%nat sb T (Ok (b, s2))); auto.
        * sp; auto. lia.
        * cbn [bind] in *. apply bind_ok in H. destruct H as (s3 & R3 & H). injection H as -> ->. cbn [gid] in *. now rewrite R3.
    - pose proof (numbered_not _ _ _ _ NU) as Na.
      destruct (match_node p m a st) as [[ra s1]| | |] eqn:EA; cbn [bind] in H; try discriminate.
      specialize (IHa st ra s1 seen (fun g => ((if N.eq_dec h g then 1 else 0) + T g)%nat) Na MO TR).
      destruct (visit p a seen) as [na sa] eqn:VA. destruct IHa as (A1 & A2 & A3 & A4 & A5); auto.
      { intros g Hg. specialize (FR g Hg). cbn beta in *. rewrite cnt_not in FR. lia. }
      apply (FIN (ENot h a) st b s1 seen na sa T (Ok (b, s1))); auto.
      + cbn [bind] in *. apply bind_ok in H. destruct H as (s3 & R3 & H). injection H as <- ->. cbn [gid] in *. now rewrite R3.
  Qed.

  Lemma visit_loop V p m : mids_inj m -> forall l st r r' seen,
    Forall (ready p V) l -> Forall (fun s => early p s = shorts p s) l -> memo_ok V m st -> tracks m st seen ->
    fresh m seen (fun g => cnts g (map s_expr l)) ->
    search_loop p m (make_undefined p) l st r = Ok r' ->
    r_memoized r' = (ms_memoized st + Z.of_nat (visits p (map s_expr (filter (fun s => negb (early p s)) l)) seen))%Z.
  Proof.
    intros INJ. induction l as [|s l IH]; intros st r r' seen RD EA MO TR FR H; cbn [search_loop] in H.
    - injection H as <-. cbn. lia.
    - inversion RD as [|? ? R1 R2]; subst. inversion EA as [|? ? E1 E2]; subst.
      apply bind_ok in H. destruct H as ([[b st1] sh] & M & H). pose proof (match_sub_shorts _ _ _ _ _ _ _ M) as SH.
      cbn [filter]. rewrite E1, <- SH.
      unfold match_sub in M. apply bind_ok in M. destruct M as (k & K & M).
      assert (fresh m seen (fun g => cnts g (map s_expr l))) as FR'.
      { intros g Hg. specialize (FR g Hg). cbn beta in *. cbn [map] in FR. rewrite cnts_cons in FR. lia. }
      destruct k.
      + injection M as <- <- <-. cbn [negb]. eapply IH; eauto.
      + injection M as <- <- <-. cbn [negb]. eapply IH; eauto.
      + apply bind_ok in M. destruct M as ([b' st2] & M & N). injection N as <- <- <-. cbn [negb map visits].
        destruct R1 as (NU & _).
        pose proof (visit_node V p m (s_expr s) INJ st b' st2 seen (fun g => cnts g (map s_expr l)) NU MO TR FR M) as VN.
        destruct (visit p (s_expr s) seen) as [n seen'] eqn:VE. destruct VN as (A1 & A2 & A3 & _ & A5).
        rewrite (IH _ _ _ seen' R2 E2 A3 A2 A5 H). lia.
  Qed.

  Definition parts (t : betree) (pend : list (sub * entry)) (g : N) : nat :=
    cnts g (map s_expr (subs_cnode (bt_root t) ++ map fst pend)).
  Lemma parts_perm t t' (pend pend' : list (sub * entry)) :
    Permutation (subs_cnode (bt_root t) ++ map fst pend) (subs_cnode (bt_root t') ++ map fst pend') ->
    forall g, parts t pend g = parts t' pend' g.
  Proof. intros P g. unfold parts. apply cnts_perm, Permutation_map, P. Qed.
  Lemma inv_ids_NoDup {FM : Floats} ds t pend log : inv ds t pend log -> NoDup (ids (subs_cnode (bt_root t) ++ map fst pend)).
  Proof.
    intros [_ _ _ _ IN (V & l & _ & PS & EL & FS)].
    assert (Permutation (ids (subs_cnode (bt_root t) ++ map fst pend)) (ids_of pend log)) as P.
    { unfold ids. rewrite map_app, (Permutation_map s_id PS). rewrite Forall_app in FS. destruct FS as [F1 F2].
      pose proof (ids_snd _ _ _ _ F1) as I1. pose proof (ids_snd _ _ _ _ F2) as I2. unfold ids in *. rewrite I1, I2.
      unfold ids_of. rewrite EL, map_map. easy. }
    now rewrite P.
  Qed.
  Lemma refused_tree t id cs x t' : betree_insert_with_constants t id cs x = Ok (false, t') -> t' = t.
  Proof.
    intros H0. unfold betree_insert_with_constants, insert_expr in H0.
    apply bind_ok in H0. destruct H0 as (ok & _ & H0). destruct (negb ok); [now injection H0 as <-|].
    destruct (assign_constants cs _) as [e2|]; [|now injection H0 as <-].
    repeat (apply bind_ok in H0; destruct H0 as (? & _ & H0); try (match type of H0 with context [let (_, _) := ?y in _] => destruct y end)).
    discriminate.
  Qed.

  Theorem reach_once {fm} ds t pend log : reach_in fm ds t pend log -> few_preds t -> once (bt_pm t) (parts t pend).
  Proof.
    intros R. unfold few_preds. induction R as [| | |ds t pend log id cs x s t' R IH AC NI H HW| | | | |]; intros FP.
    - split; [intros g _|intros g _]; cbn; lia.
    - (* insert *)
      rename H into AC, H0 into NI, H1 into H. rename IHR into IH.
      pose proof (reach_inv _ _ _ _ R) as HI. pose proof (inv_ids_NoDup _ _ _ _ (inv_insert _ _ _ _ _ _ _ _ HI AC NI H)) as ND'.
      pose proof HI as [ISG IC IF IT IN (V & l & PM & PS & EL & FS)]. destruct AC as (HS & HF).
      unfold betree_insert_with_constants, insert_expr in H. apply bind_ok in H. destruct H as (ok & _ & H).
      destruct (negb ok); [discriminate|].
      destruct (assign_constants cs _) as [e2|] eqn:E2; [|discriminate].
      apply bind_ok in H. destruct H as ([e3 c3] & E3 & H). apply bind_ok in H. destruct H as ([e4 c4] & E4 & H).
      apply bind_ok in H. destruct H as ([e6 c6] & E6 & H). apply bind_ok in H. destruct H as ([e7 m7] & E7 & H).
      apply bind_ok in H. destruct H as (s & E8 & H). apply bind_ok in H. destruct H as (t1 & E9 & [= <-]).
      assert (src_ok (c_domains (bt_cfg t)) cs x) as HS' by (eapply src_ok_sig; [|exact HS]; auto).
      destruct (insert_passes (bt_cfg t) cs x false IC HS' HF _ _ _ _ _ _ _ E2 E3 E4 E6) as [B RE].
      pose proof (bz_ext _ _ _ _ B) as X. pose proof (bz_doms _ _ _ _ B) as ED.
      rewrite <- (ext_now _ _ X) in PM.
      assert (src_ok (c_domains c6) cs x) as HS6 by now rewrite ED.
      pose proof (res_expr_leaves _ _ _ _ HS6 RE) as LV.
      destruct (insert_sub_parts _ _ _ E9) as (_ & EP & ER). cbn [bt_cfg bt_pm bt_root] in *. rewrite EP in *.
      destruct (assign_pred_ok _ e6 V (bt_pm t) PM LV) as (? & ? & V' & E7' & _ & _ & _ & LE & _). rewrite E7 in E7'. injection E7' as <- <-.
      assert (once m7 (fun g => (cnt g e7 + parts t pend g)%nat)) as O7.
      { apply (assign_pred_once _ e6 V (bt_pm t) e7 m7 _ PM LV E7 FP). apply IH. lia. }
      pose proof (make_sub_sc _ _ _ _ E8) as (SI & SE & _).
      assert (Permutation (subs_cnode (bt_root t1)) (s :: subs_cnode (bt_root t))) as PP.
      { eapply insert_root_perm; [|exact ER]. pose proof (inv_ids_NoDup _ _ _ _ HI) as ND. unfold ids in *. rewrite map_app in ND.
        cbn [map]. constructor; [|now apply NoDup_app_l in ND]. rewrite SI. intros K. apply NI.
        unfold ids_of. apply in_or_app. left. rewrite <- EL, map_map. rewrite (Permutation_map s_id PS) in K.
        rewrite Forall_app in FS. destruct FS as [F1 _]. pose proof (ids_snd _ _ _ _ F1) as I1. unfold ids in I1. rewrite I1, map_map in K. exact K. }
      eapply once_ext; [|exact O7]. intros g. cbn beta. unfold parts.
      transitivity (cnts g (map s_expr (s :: subs_cnode (bt_root t) ++ map fst pend))).
      + cbn [map]. now rewrite cnts_cons, SE.
      + apply cnts_perm, Permutation_map. now rewrite PP.
    - rewrite (refused_tree _ _ _ _ _ H) in *. auto.
    - (* make *)
      pose proof (reach_inv _ _ _ _ R) as HI.
      pose proof HI as [ISG IC IF IT IN _]. destruct AC as (HS & HF).
      unfold betree_make_sub, make_sub_expr in H. apply bind_ok in H. destruct H as (ok & _ & H). destruct (negb ok); [discriminate|].
      apply bind_ok in H. destruct H as ([e3 c3] & E3 & H). apply bind_ok in H. destruct H as ([e4 c4] & E4 & H).
      apply bind_ok in H. destruct H as ([e5 c5] & E5 & H). apply bind_ok in H. destruct H as (ok2 & _ & H).
      destruct (negb ok2); [discriminate|]. destruct (assign_constants cs e5) as [e6|] eqn:E6; [|discriminate].
      apply bind_ok in H. destruct H as (c7 & E7 & H). apply bind_ok in H. destruct H as ([e8 m8] & E8 & H).
      apply bind_ok in H. destruct H as (s' & E9 & H). injection H as -> <-. cbn [bt_cfg bt_pm] in *.
      assert (src_ok (c_domains (bt_cfg t)) cs x) as HS' by (eapply src_ok_sig; [|exact HS]; auto).
      destruct (make_passes (bt_cfg t) cs x true IC HS' HF _ _ _ _ _ _ E3 E4 E5) as [B RE]. specialize (RE e6 E6).
      destruct (change_step (bt_cfg t) c5 cs x _ _ (sort_lists e6) c7 IC IF B) as (X5 & X & C' & F' & W'); auto.
      { now rewrite (bz_doms _ _ _ _ B). }
      { eapply rel_src_impl; [exact RE|]. auto. }
      pose proof (inv_cfg ds t pend log c7 HI X C' F' W') as [JSG JC JF JT JN (V & l & PM & PS & EL & FS)].
      cbn [set_cfg bt_cfg bt_pm bt_root] in *.
      assert (src_ok (c_domains c7) cs x) as HS7 by (eapply src_ok_sig; [|exact HS]; auto).
      pose proof (res_expr_leaves _ _ _ _ HS7 (res_expr_ext _ _ _ _ _ X5 RE)) as LV.
      destruct (assign_pred_ok _ (sort_lists e6) V (bt_pm t) PM LV) as (? & ? & V' & E7' & _ & _ & _ & LE & _). rewrite E8 in E7'. injection E7' as <- <-.
      assert (once m8 (fun g => (cnt g e8 + parts t pend g)%nat)) as O8.
      { apply (assign_pred_once _ (sort_lists e6) V (bt_pm t) e8 m8 _ PM LV E8 FP). apply IH. lia. }
      pose proof (make_sub_sc _ _ _ _ E9) as (SI & SE & _).
      eapply once_ext; [|exact O8]. intros g. cbn beta. unfold parts. cbn [bt_root].
      transitivity (cnts g (map s_expr (s :: subs_cnode (bt_root t) ++ map fst pend))).
      + cbn [map]. now rewrite cnts_cons, SE.
      + apply cnts_perm, Permutation_map. rewrite map_app, app_assoc. cbn [map fst]. apply Permutation_cons_append.
    - assert (bt_pm t' = bt_pm t /\ bt_root t' = bt_root t) as [E1 E2].
      { destruct (make_parts _ _ _ _ _ _ H0) as (_ & A & B). auto. }
      rewrite E1 in *. specialize (IHR FP). unfold parts in *. now rewrite E2.
    - destruct (insert_sub_parts _ _ _ H) as (_ & EP & ER). rewrite EP in *. specialize (IHR FP).
      eapply once_ext; [|exact IHR]. apply parts_perm.
      pose proof (inv_ids_NoDup _ _ _ _ (reach_inv _ _ _ _ R)) as ND.
      assert (Permutation (subs_cnode (bt_root t')) (s :: subs_cnode (bt_root t))) as PP.
      { eapply insert_root_perm; [|exact ER]. unfold ids in *. rewrite !map_app in ND. cbn [map fst] in ND |- *.
        rewrite app_assoc in ND. apply NoDup_remove in ND. destruct ND as [N1 N2]. constructor.
        - intros K. apply N2. apply in_or_app. left. apply in_or_app. now left.
        - now apply NoDup_app_l, NoDup_app_l in N1. }
      rewrite PP, !map_app. cbn [map fst app]. rewrite !app_assoc. symmetry. apply Permutation_middle.
    - destruct (change_parts _ _ _ H1) as (_ & E2 & E1). rewrite E1 in *. specialize (IHR FP). unfold parts in *. now rewrite E2.
    - exact (IHR FP).
    - split; [intros g _|intros g _]; cbn; lia.
  Qed.

  Lemma early_shorts c V n s e ev p : make_env c ev = Ok p -> stored_as c V n s e -> early p s = shorts p s.
  Proof.
    intros HE [_ _ _ _ LP LF _ _]. pose proof (make_env_ok _ _ _ HE) as [EOL _].
    destruct (make_undefined_ok p) as (UL & UW & UB). unfold ndomains in LP, LF. rewrite <- EOL, <- UL in LP, LF.
    destruct (tsc_ok (make_undefined p) (s_pass s) (s_fail s) LP LF UW) as (k & K1 & K2).
    unfold shorts. rewrite K1.
    assert (forall i, bit (make_undefined p) i = true -> In i (unset_from p 0)) as IU.
    { intros i H. apply UB in H. apply in_unset. rewrite N.sub_0_r. split; [lia|exact H]. }
    unfold early. destruct k.
    - destruct K2 as (i & A & B). apply existsb_exists. exists i. split; [now apply IU|]. now rewrite A.
    - destruct K2 as (i & A & B). apply existsb_exists. exists i. split; [now apply IU|]. now rewrite A, orb_true_r.
    - pose proof (tsc_none _ _ _ LP LF K1) as N. destruct (existsb _ _) eqn:E; [|easy]. exfalso.
      apply existsb_exists in E. destruct E as (i & I & A). apply in_unset in I. rewrite N.sub_0_r in I. destruct I as [_ I].
      apply UB in I. destruct (N i I) as [A1 A2]. rewrite A1, A2 in A. discriminate.
  Qed.

  Lemma verdict_says c V n s e ev p : make_env c ev = Ok p -> stored_as c V n s e -> says p s = verdict p s.
  Proof.
    intros HE [_ _ _ _ LP LF _ _]. pose proof (make_env_ok _ _ _ HE) as [EOL _].
    destruct (make_undefined_ok p) as (UL & UW & UB). unfold ndomains in LP, LF. rewrite <- EOL, <- UL in LP, LF.
    destruct (tsc_ok (make_undefined p) (s_pass s) (s_fail s) LP LF UW) as (k & K1 & _).
    pose proof (tsc_first _ _ _ _ LP LF UW K1) as K2. cbv zeta in K2. unfold says, verdict. rewrite K1.
    assert (forall i, bit (make_undefined p) i = true <-> In i (unset_from p 0)) as IU.
    { intros i. rewrite in_unset, N.sub_0_r, UB. split; [split; [lia|easy]|tauto]. }
    set (f := fun v => bit (s_pass s) v || bit (s_fail s) v) in *.
    assert (forall i, In i (unset_from p 0) -> f i = true ->
      (forall j, j / 64 < i / 64 -> bit (make_undefined p) j = true -> bit (s_pass s) j = false /\ bit (s_fail s) j = false) ->
      exists v, find f (unset_from p 0) = Some v /\ v / 64 = i / 64) as FV.
    { intros i Hi Fi N. destruct (find f (unset_from p 0)) as [v|] eqn:E.
      - exists v. split; [reflexivity|]. pose proof (unset_first _ _ _ _ E i Hi Fi) as L.
        apply find_some in E. destruct E as [E1 E2]. apply IU in E1.
        pose proof (N.div_le_mono v i 64) as M. destruct (N.lt_ge_cases (v / 64) (i / 64)) as [Q|Q]; [|lia].
        destruct (N v Q E1) as [A B]. unfold f in E2. rewrite A, B in E2. discriminate.
      - exfalso. pose proof (find_none _ _ E i Hi). congruence. }
    destruct k.
    - destruct K2 as (i & A & B & C). apply IU in B. destruct (FV i B) as (v & -> & E); auto. { unfold f. now rewrite A. }
      symmetry. apply existsb_exists. exists i. split; [exact B|]. rewrite A, andb_true_r. apply N.eqb_eq. lia.
    - destruct K2 as (i & A & B & C & D). apply IU in B. destruct (FV i B) as (v & -> & E); auto. { unfold f. now rewrite A, orb_true_r. }
      symmetry. apply not_true_is_false. intros K. apply existsb_exists in K. destruct K as (w & W1 & W2).
      apply andb_prop in W2. destruct W2 as [W2 W3]. apply N.eqb_eq in W2. apply IU in W1. rewrite (D w) in W3; [discriminate|lia|exact W1].
    - destruct (find f (unset_from p 0)) as [v|] eqn:E; [|reflexivity]. exfalso. apply find_some in E. destruct E as [E1 E2]. apply IU in E1.
      destruct (tsc_none _ _ _ LP LF K1 v E1) as [A B]. unfold f in E2. rewrite A, B in E2. discriminate.
  Qed.

  Theorem report_exact {fm} ds t pend log ev : reach_in fm ds t pend log -> few_preds t -> event_ok ds ev -> complete ds ev ->
    exists p cand, make_env (bt_cfg t) ev = Ok p
      /\ (exists rest, Permutation (cand ++ rest) (subs_cnode (bt_root t)) /\ Forall (fun s =>
            (forall e, In e log -> e_id e = s_id s -> fair fm t ev [e]) -> holds p (s_expr s) = false) rest)
      /\ Forall (fun s => (forall e, In e log -> e_id e = s_id s -> calm t ev e) -> verdict p s = holds p (s_expr s)) cand
      /\ forall r, exists r', betree_search t ev r = Ok (true, r')
      /\ r_subs r' = r_subs r ++ map s_id (filter (verdict p) cand)
      /\ r_matched r' = (r_matched r + Z.of_nat (length (filter (verdict p) cand)))%Z
      /\ r_evaluated r' = (r_evaluated r + Z.of_nat (length cand))%Z
      /\ r_shorted r' = (r_shorted r + Z.of_nat (length (filter (early p) cand)))%Z
      /\ r_memoized r' = (r_memoized r + Z.of_nat (visits p (map s_expr (filter (fun s => negb (early p s)) cand)) []))%Z.
  Proof.
    intros R HP HO HC. pose proof (reach_inv _ _ _ _ R) as I. destruct (inv_env _ _ _ _ _ I HO) as (p & E & HV).
    destruct (candidates_any _ _ _ _ _ _ I HP HO HC E) as (V & l & rest & PR & MC & PL & FL & FR & INJ & ME).
    assert (Forall (ready p V) (map fst l)) as RD.
    { apply Forall_forall. intros s H. apply in_map_iff in H. destruct H as (x & <- & H).
      rewrite Forall_forall in FL. now apply FL. }
    assert (forall s, In s (subs_cnode (bt_root t)) -> early p s = shorts p s /\ says p s = verdict p s) as ES.
    { destruct I as [_ _ _ _ _ (V1 & l1 & _ & PS & _ & FS)]. intros s Hs. apply (Permutation_in _ PS) in Hs.
      apply in_map_iff in Hs. destruct Hs as ([s' e] & <- & Hs). rewrite Forall_forall in FS.
      split; [eapply early_shorts; [exact E|]|eapply verdict_says; [exact E|]]; apply (FS (s', e)); apply in_or_app; now left. }
    assert (forall s, In s (map fst l) -> In s (subs_cnode (bt_root t))) as IS.
    { intros s Hs. apply (Permutation_in _ PR). apply in_or_app. now left. }
    assert (filter (says p) (map fst l) = filter (verdict p) (map fst l)) as FH.
    { apply filter_ext_in. intros s Hs. apply ES. auto. }
    assert (Forall (fun s => early p s = shorts p s) (map fst l)) as EL.
    { apply Forall_forall. intros s Hs. apply ES. auto. }
    assert (filter (early p) (map fst l) = filter (shorts p) (map fst l)) as FE.
    { apply filter_ext_in. intros s Hs. rewrite Forall_forall in EL. now apply EL. }
    exists p, (map fst l). split; [exact E|]. split; [|split].
    { exists (map fst rest). split; [exact PR|]. rewrite Forall_forall in *. intros s Hs K. apply in_map_iff in Hs.
      destruct Hs as (x & <- & Hx). destruct (FR x Hx) as (ID & _ & E2).
      assert (truth p (fst x) = false) as HF; [|exact HF].
      apply E2. apply (@fair_seen fm). assert (fair fm t ev [snd x]) as Q; [|now inversion Q].
      apply K; [|now symmetry]. apply (Permutation_in _ PL). apply in_map, in_or_app. now right. }
    { apply Forall_forall. intros s Hs K. rewrite <- (proj2 (ES s (IS s Hs))). apply in_map_iff in Hs. destruct Hs as (x & <- & Hx).
      rewrite Forall_forall in FL. destruct (FL x Hx) as (_ & ID & T & CA).
      rewrite CA; [symmetry; exact T|]. apply K; [|now symmetry]. apply (Permutation_in _ PL). apply in_map, in_or_app. now left. }
    intros r. apply HV in HC.
    destruct (search_loop_ok p (pm_mids (bt_pm t)) V INJ (map fst l) (make_memoize (pm_mcount (bt_pm t)) (r_memoized r)) r RD (ME _))
      as (r' & E' & A1 & A2 & A3 & A4).
    exists r'. unfold betree_search. rewrite E. cbn [bind]. rewrite HC. cbn [negb].
    unfold search_with_preds. rewrite MC. cbn [bind]. rewrite E'. cbn [bind]. rewrite <- FH, FE. sp; auto.
    refine (visit_loop V p (pm_mids (bt_pm t)) INJ (map fst l) _ r r' [] RD EL (ME _) _ _ E').
    - intros g Hg. cbn [make_memoize ms_pass ms_fail existsb].
      now rewrite !bit_make.
    - intros g Hg. cbn [count_occ]. pose proof (proj1 (reach_once _ _ _ _ R HP) g Hg) as O. unfold parts in O.
      rewrite map_app, cnts_app in O. rewrite (cnts_perm g _ _ (Permutation_map s_expr (Permutation_sym PR))), map_app, cnts_app in O.
      cbn [Nat.add]. lia.
  Qed.

  Theorem twice_shared {fm} ds t pend log g : reach_in fm ds t pend log -> few_preds t ->
    (2 <= count_occ N.eq_dec (map gid (flat_map (fun s => nodes (s_expr s)) (subs_cnode (bt_root t) ++ map fst pend))) g)%nat ->
    mid_of (pm_mids (bt_pm t)) g <> INVALID_PRED.
  Proof.
    intros R HP H K. pose proof (proj1 (reach_once _ _ _ _ R HP) g K) as O. unfold parts in O.
    assert (forall l, count_occ N.eq_dec (map gid (flat_map (fun s => nodes (s_expr s)) l)) g = cnts g (map s_expr l)) as E.
    { induction l as [|s l IH]; [easy|]. cbn [flat_map map]. rewrite map_app, count_occ_app, cnts_cons, IH. reflexivity. }
    rewrite E in H. lia.
  Qed.
End WithGeo.
