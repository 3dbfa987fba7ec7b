(** Valid programs: words stay within their vocabulary, ranges stay of moderate size, every call ends. *)
From Coq Require Import ZArith NArith String Bool List Lia Permutation.
From Coq Require Import ZifyBool ZifyNat ZifyN.
From Verif Require Import Base Float FloatSpec Value Special Ast Match Config Assign Source Bound Tree PredMap Api Spec TreeSpec Hist Bounded Accept.
From Verif Require Import BaseProofs ListProofs InternProofs ExtProofs ResProofs PassProofs RoundProofs FloatOrd GvbProofs TreeProofs WideProofs PredProofs HistProofs.
From Verif Require Import TotalProofs PassTotal CallProofs AcceptProofs RoomProofs SplitProofs MachineSpec ProgramSpec HeapConfSpec.
Import ListNotations.
Local Open Scope Z_scope.

(** *** Words *)
Definition settled (d d' : domain) : Prop :=
  d_attr d' = d_attr d /\ d_undef d' = d_undef d /\
  match d_bound d with
  | BInt t _ _ => exists lo hi, d_bound d' = BInt t lo hi /\ (lo = INT64_MIN \/ tame lo) /\ (hi = INT64_MAX \/ tame hi)
  | b => d_bound d' = b
  end.
Definition str_type (t : vtype) : Prop := t = TStr \/ t = TStrList \/ t = TFreqs.
Record wordy (W : vocabulary) (ds : list domain) (c : config) : Prop := {
  wd_set : Forall2 settled ds (c_domains c);
  wd_strs : forall v s, In s (strs c v) ->
    exists d, nthN (c_domains c) v = Some d /\ In s (voc_strs W (d_attr d)) /\ str_type (btype (d_bound d));
  wd_ints : forall v z, In z (ints c v) ->
    exists d, nthN (c_domains c) v = Some d /\ In z (voc_ints W (d_attr d)) /\ btype (d_bound d) = TIEnum }.

Lemma settled_sig d d' : settled d d' -> dom_sig d' = dom_sig d.
Proof.
  intros (A & B & C). unfold dom_sig. rewrite A, B. f_equal.
  destruct (d_bound d); rewrite ?C; auto. destruct C as (l & h & -> & _). reflexivity.
Qed.
Lemma settled_sigs ds ds' : Forall2 settled ds ds' -> map dom_sig ds' = map dom_sig ds.
Proof. induction 1 as [|d d' l l' S F IH]; [reflexivity|]. cbn [map]. now rewrite IH, (settled_sig _ _ S). Qed.
Lemma settled_back ds ds' : Forall2 settled ds ds' -> forall v d', nthN ds' v = Some d' -> exists d, nthN ds v = Some d /\ settled d d'.
Proof.
  induction 1 as [|d d' l l' S F IH]; intros v e H; cbn [nthN] in *; [discriminate|].
  destruct (v =? 0)%N; [injection H as <-; eauto|auto].
Qed.
Lemma nthN_Forall {A} (P : A -> Prop) l : Forall P l -> forall v d, nthN l v = Some d -> P d.
Proof.
  induction 1 as [|x l Px F IH]; intros v d H; cbn [nthN] in *; [discriminate|].
  destruct (v =? 0)%N; [now injection H as <-|eauto].
Qed.
Lemma btype_settled d d' : settled d d' -> btype (d_bound d') = btype (d_bound d).
Proof. intros S. apply settled_sig in S. unfold dom_sig in S. congruence. Qed.
Lemma words_settled W d d' : settled d d' -> words W d' = words W d.
Proof. intros S. unfold words. rewrite (btype_settled _ _ S). destruct S as (A & _). now rewrite A. Qed.
Lemma room_settled d d' : settled d d' -> word_room (d_bound d') = word_room (d_bound d).
Proof. intros (_ & _ & C). destruct (d_bound d) eqn:E; try (rewrite C; reflexivity). destruct C as (l & h & -> & _). reflexivity. Qed.

Lemma variable_fine W d : variable_ok W d -> dom_fine (d_bound d).
Proof.
  intros (_ & _ & V). destruct (d_bound d); cbn [dom_fine]; auto.
  - destruct V as (A & B & C). unfold tame, INT64_MIN, INT64_MAX in *. lia.
  - destruct V as (A & -> & C). repeat split; auto; lia.
Qed.
Lemma variables_decls W ds : variables_ok W ds -> decls_ok ds.
Proof. intros (A & F). split; [exact A|]. eapply Forall_impl; [|exact F]. intros d. apply variable_fine. Qed.
Lemma variables_lower W ds : variables_ok W ds -> lower_names ds.
Proof. intros (A & F). eapply Forall_impl; [|exact F]. intros d (L & _). exact L. Qed.

Lemma NoDup_app_intro {A} (l l' : list A) : NoDup l -> NoDup l' -> (forall x, In x l -> ~ In x l') -> NoDup (l ++ l').
Proof.
  induction 1 as [|x l NI ND IH]; intros N' D; [exact N'|]. cbn [app]. constructor.
  - rewrite in_app_iff. intros [I|I]; [auto|]. exact (D x (or_introl eq_refl) I).
  - apply IH; [exact N'|]. intros y I. apply D. now right.
Qed.

(** What is written is of the right type. *)
Lemma atom_strs_type ds cs a y s : atom_ok ds cs a -> In (y, s) (atom_strs a) -> exists t, has_type ds y t /\ str_type t.
Proof.
  unfold str_type.
  destruct a as [x|lb|op x [z|f]|op x [z|f|w]|op x [l|l]|op [z|f|w] x|op x [l|l]|op x|t ns value len|op x id w|a b r|op x pat];
    cbn [atom_strs atom_ok]; intros A I; try contradiction.
  - destruct I as [[= <- <-]|[]]. eauto.
  - apply in_map_iff in I. destruct I as (w & [= <- <-] & _). destruct A as (A & _). eauto.
  - destruct I as [[= <- <-]|[]]. eauto.
  - apply in_map_iff in I. destruct I as (w & [= <- <-] & _). destruct A as (A & _). eauto.
  - destruct I as [[= <- <-]|[]]. destruct A as (_ & A & _). eauto 6.
Qed.
Lemma src_strs_type ds cs x y s : src_ok ds cs x -> In (y, s) (flat_map atom_strs (src_atoms x)) -> exists t, has_type ds y t /\ str_type t.
Proof.
  intros H I. apply in_flat_map in I. destruct I as (a & Ia & I). unfold src_ok in H. rewrite Forall_forall in H.
  eapply atom_strs_type; eauto.
Qed.
Lemma is_ienum_sig ds ds' y : map dom_sig ds' = map dom_sig ds -> is_ienum ds' y = is_ienum ds y.
Proof.
  intros E. unfold is_ienum, decl. pose proof (decl_from_sig ds ds' (lower y) E 0%N) as K.
  destruct (decl_from ds (lower y) 0) as [[v d]|], (decl_from ds' (lower y) 0) as [[v' d']|]; try contradiction; auto.
  destruct K as (_ & K). unfold dom_sig in K. injection K as _ K _. now rewrite K.
Qed.

Section Words.
  Variables (W : vocabulary) (ds : list domain) (c : config).
  Hypothesis VO : variables_ok W ds.
  Hypothesis WD : wordy W ds c.
  Let sig : map dom_sig (c_domains c) = map dom_sig ds := settled_sigs _ _ (wd_set _ _ _ WD).

  Lemma dom_words v d : nthN (c_domains c) v = Some d -> words W d <= word_room (d_bound d).
  Proof.
    intros N. destruct (settled_back _ _ (wd_set _ _ _ WD) v d N) as (d0 & N0 & S).
    rewrite (words_settled _ _ _ S), (room_settled _ _ S). destruct VO as (_ & F). now destruct (nthN_Forall _ _ F _ _ N0) as (_ & K & _).
  Qed.
  Lemma strs_words v d l : nthN (c_domains c) v = Some d -> str_type (btype (d_bound d)) -> NoDup l -> incl l (voc_strs W (d_attr d)) ->
    Z.of_nat (List.length l) <= word_room (d_bound d).
  Proof.
    intros N T ND I. pose proof (dom_words _ _ N) as K. pose proof (NoDup_incl_length ND I) as L.
    unfold words in K. destruct T as [T|[T|T]]; rewrite T in K; lia.
  Qed.
  Lemma ints_words v d l : nthN (c_domains c) v = Some d -> btype (d_bound d) = TIEnum -> NoDup l -> incl l (voc_ints W (d_attr d)) ->
    Z.of_nat (List.length l) <= word_room (d_bound d).
  Proof.
    intros N T ND I. pose proof (dom_words _ _ N) as K. pose proof (NoDup_incl_length ND I) as L.
    unfold words in K. rewrite T in K; lia.
  Qed.
  Lemma room_enough v d always : nthN (c_domains c) v = Some d -> str_type (btype (d_bound d)) \/ btype (d_bound d) = TIEnum ->
    word_room (d_bound d) <= match room c v always with Some r => Z.min r (SIZE_MAX - 1) | None => SIZE_MAX - 1 end.
  Proof.
    intros N T. destruct (settled_back _ _ (wd_set _ _ _ WD) v d N) as (d0 & N0 & S).
    destruct VO as (_ & F). destruct (nthN_Forall _ _ F _ _ N0) as (_ & _ & K).
    assert (R : word_room (d_bound d) <= SIZE_MAX - 1) by (unfold word_room, SIZE_MAX, UINT64_MAX; destruct (d_bound d); lia).
    unfold room. destruct always; [exact R|]. unfold get_domain. rewrite N.
    assert (E : d_bound d = d_bound d0).
    { destruct S as (_ & _ & S). destruct (d_bound d0) eqn:E0; try exact S. exfalso. destruct S as (lo' & hi' & E' & _). rewrite E' in T. unfold str_type in T. cbn in T.
      destruct list; intuition discriminate. }
    rewrite <- E in K. destruct (d_bound d) as [ | | |t lo hi| |]; cbn [dom_smax word_room] in *; try exact R.
    - destruct list; unfold str_type in T; cbn in T; intuition discriminate.
    - assert (to_uint 64 (hi + 1) = hi + 1) as -> by (unfold to_uint; apply Z.mod_small; unfold SIZE_MAX, UINT64_MAX in *; lia). lia.
    - unfold to_uint. cbn. lia.
  Qed.

  Lemma said_str x cs v s : src_ok ds cs x -> spoken W ds x -> In (v, s) (src_strs (c_domains c) x) ->
    exists d, nthN (c_domains c) v = Some d /\ In s (voc_strs W (d_attr d)) /\ str_type (btype (d_bound d)).
  Proof.
    intros HS (SP & _) I. unfold src_strs in I. apply at_var_In in I. destruct I as (y & d & I & D).
    assert (HS' : src_ok (c_domains c) cs x) by (eapply src_ok_sig; [|exact HS]; exact sig).
    destruct (src_strs_type _ _ _ _ _ HS' I) as (t & (v' & d' & D' & E') & T).
    rewrite D in D'. injection D' as <- <-. destruct (decl_spec _ _ _ _ D) as (N & A).
    exists d. split; [exact N|]. rewrite A, E'. auto.
  Qed.
  Lemma said_int x cs v z : src_ok ds cs x -> spoken W ds x -> In (v, z) (src_ints (c_domains c) x) ->
    exists d, nthN (c_domains c) v = Some d /\ In z (voc_ints W (d_attr d)) /\ btype (d_bound d) = TIEnum.
  Proof.
    intros HS (_ & SP) I. unfold src_ints in I. apply at_var_In in I. destruct I as (y & d & I & D).
    apply filter_In in I. destruct I as (I & E). cbn [fst] in E.
    destruct (decl_spec _ _ _ _ D) as (N & A). exists d. split; [exact N|]. rewrite A. split.
    - apply SP; [exact I|]. now rewrite <- (is_ienum_sig _ _ y sig).
    - unfold is_ienum in E. rewrite D in E. destruct (btype (d_bound d)); congruence.
  Qed.

  Lemma words_fit cs x always : src_ok ds cs x -> spoken W ds x -> fits c always x.
  Proof.
    intros HS SP. split.
    - intros v s I _. destruct (said_str _ _ _ _ HS SP I) as (d & N & _ & T).
      etransitivity; [eapply (strs_words v d)|apply room_enough]; eauto; [apply NoDup_nodup|].
      intros w Iw. apply nodup_In in Iw. apply in_app_iff in Iw. destruct Iw as [Iw|Iw].
      + destruct (wd_strs _ _ _ WD _ _ Iw) as (d' & N' & K & _). congruence.
      + apply in_map_iff in Iw. destruct Iw as ((v', w') & <- & Iw). apply filter_In in Iw. destruct Iw as (Iw & E).
        cbn [fst snd] in *. apply N.eqb_eq in E. subst v'. destruct (said_str _ _ _ _ HS SP Iw) as (d' & N' & K & _). congruence.
    - intros v s I _. destruct (said_int _ _ _ _ HS SP I) as (d & N & _ & T).
      etransitivity; [eapply (ints_words v d)|apply room_enough]; eauto; [apply NoDup_nodup|].
      intros w Iw. apply nodup_In in Iw. apply in_app_iff in Iw. destruct Iw as [Iw|Iw].
      + destruct (wd_ints _ _ _ WD _ _ Iw) as (d' & N' & K & _). congruence.
      + apply in_map_iff in Iw. destruct Iw as ((v', w') & <- & Iw). apply filter_In in Iw. destruct Iw as (Iw & E).
        cbn [fst snd] in *. apply N.eqb_eq in E. subst v'. destruct (said_int _ _ _ _ HS SP Iw) as (d' & N' & K & _). congruence.
  Qed.

  Lemma busy_wordy cs x c' : src_ok ds cs x -> spoken W ds x ->
    busy c (src_strs (c_domains c) x) (src_ints (c_domains c) x) c' -> wordy W ds c'.
  Proof.
    intros HS SP B. pose proof (bz_doms _ _ _ _ B) as ED. split.
    - rewrite ED. apply WD.
    - intros v s I. rewrite ED. destruct (bz_strs _ _ _ _ B v s I) as [K|K]; [exact (wd_strs _ _ _ WD _ _ K)|exact (said_str _ _ _ _ HS SP K)].
    - intros v s I. rewrite ED. destruct (bz_ints _ _ _ _ B v s I) as [K|K]; [exact (wd_ints _ _ _ WD _ _ K)|exact (said_int _ _ _ _ HS SP K)].
  Qed.

  Hypothesis TO : tabs_ok c.
  Lemma strs_few v : Z.of_nat (List.length (strs c v)) <= 2 ^ 30.
  Proof.
    destruct (strs c v) as [|s l] eqn:E; [cbn; lia|]. assert (I : In s (strs c v)) by (rewrite E; now left).
    rewrite <- E. destruct (wd_strs _ _ _ WD _ _ I) as (d & N & _ & T).
    transitivity (word_room (d_bound d)).
    - eapply strs_words; eauto; [apply TO|]. intros w Iw. destruct (wd_strs _ _ _ WD _ _ Iw) as (d' & N' & K & _). congruence.
    - unfold word_room. destruct (d_bound d); lia.
  Qed.
  (** A predicate has room. *)
  Lemma words_room cs x a : named c -> src_ok ds cs x -> spoken W ds x -> listed_once x -> In a (src_atoms x) -> pred_room c a.
  Proof.
    intros NM HS (SP & _) LO IA.
    assert (forall y s v d ty lo hi, In (y, s) (atom_strs a) -> decl (c_domains c) y = Some (v, d) -> d_attr d = y ->
      d_bound d = BStr ty lo hi -> hi + 1 < SIZE_MAX ->
      Z.of_nat (List.length (known_under c y)) + Z.of_nat (List.length (new_strings c y a)) <= hi + 1) as K.
    2:{ unfold pred_room. destruct a; auto; intros; left; eauto. }
    intros y s v d ty lo hi I D A B L. destruct (decl_spec _ _ _ _ D) as (N & A').
    assert (HS' : src_ok (c_domains c) cs x) by (eapply src_ok_sig; [|exact HS]; exact sig).
    assert (IX : In (y, s) (flat_map atom_strs (src_atoms x))) by (apply in_flat_map; eauto).
    destruct (src_strs_type _ _ _ _ _ HS' IX) as (t & (v' & d' & D' & E') & T).
    rewrite D in D'. injection D' as <- <-. rewrite <- E' in T.
    assert (KU : NoDup (known_under c y) /\ incl (known_under c y) (voc_strs W (d_attr d))).
    { destruct (strmap_for_attr (c_strs c) y) as [m|] eqn:EM.
      - rewrite (under_some _ _ _ _ _ NM D EM), (table_named _ _ _ _ _ NM D EM). split; [apply TO|].
        intros w Iw. destruct (wd_strs _ _ _ WD _ _ Iw) as (d' & N' & K & _). congruence.
      - rewrite (under_none _ _ EM). split; [constructor|intros w []]. }
    destruct KU as (KU1 & KU2).
    assert (Z.of_nat (List.length (known_under c y ++ new_strings c y a)) <= word_room (d_bound d)) as M.
    { eapply strs_words; eauto.
      - apply NoDup_app_intro; [exact KU1| |].
        + apply NoDup_filter. unfold listed_once in LO. rewrite Forall_forall in LO. now apply LO.
        + intros w I1 I2. apply filter_In in I2. destruct I2 as (_ & I2). rewrite (proj2 (existsb_exists _ _)) in I2; [discriminate|].
          exists w. split; [exact I1|apply String.eqb_refl].
      - intros w Iw. apply in_app_iff in Iw. destruct Iw as [Iw|Iw]; [auto|]. apply filter_In in Iw. destruct Iw as (Iw & _).
        apply in_map_iff in Iw. destruct Iw as ((y', w') & <- & Iw). cbn [snd].
        assert (y' = y) as ->.
        { clear - Iw I. destruct a as [x|lb|op x [z|f]|op x [z|f|w]|op x [l|l]|op [z|f|w] x|op x [l|l]|op x|t ns value len|op x id w|a b r|op x pat];
            cbn [atom_strs] in *; try contradiction; try (destruct I as [[= <- <-]|[]], Iw as [[= <- <-]|[]]; reflexivity);
            apply in_map_iff in I, Iw; destruct I as (? & [= <- <-] & _), Iw as (? & [= <- <-] & _); reflexivity. }
        rewrite A'. apply SP. apply in_flat_map. eauto. }
    rewrite B in M. cbn [word_room] in M. rewrite app_length in M. lia.
  Qed.
  Lemma words_roomy : named c -> pos_strs c -> HeapConfSpec.roomy c = true.
  Proof.
    intros (KN & ND) PS. unfold HeapConfSpec.roomy.
    assert (FI : forall m, In m (c_strs c) -> find_strmap (c_strs c) (sm_var m) = Some m).
    { revert ND. clear. induction (c_strs c) as [|m0 l IH]; intros ND m I; [destruct I|]. cbn [map] in ND. inversion ND as [|? ? NI ND']; subst.
      cbn [find_strmap]. destruct I as [->|I]; [now rewrite N.eqb_refl|].
      destruct (N.eqb_spec (sm_var m0) (sm_var m)) as [E|_]; [|auto]. exfalso. apply NI. rewrite E. now apply in_map. }
    assert (P : forall m, In m (c_strs c) -> small m = true /\ some m = true).
    { intros m I. pose proof (FI m I) as F. pose proof (PS _ _ F) as NE. pose proof (strs_few (sm_var m)) as L. unfold strs in L. rewrite F in L.
      unfold small, some. destruct (sm_vals m); [easy|]. cbn [List.length] in *. lia. }
    apply andb_true_intro. split; apply forallb_forall; intros m I; apply P; [exact I|].
    destruct (c_strs c); [destruct I|now right].
  Qed.
End Words.

(** *** Adapted ranges *)
Definition calm_range (d : domain) (b : bound) : Prop :=
  match d_bound d with BFloat _ _ => False | BStr _ _ hi => hi < SIZE_MAX - 1 | _ => True end /\
  match b with BInt _ x y => tame x /\ tame y | _ => True end.
Definition steady_leaf (c : config) (q : leaf) : Prop :=
  forall v inv b d, nthN (c_domains c) v = Some d -> dom_fine (d_bound d) -> simple_leaf v inv q = Ok (Some b) -> calm_range d b.

Lemma dv_nth c y v t d : dv c y v t -> nthN (c_domains c) v = Some d -> btype (d_bound d) = t.
Proof. intros (d' & D & E) N. apply decl_spec in D. destruct D as (D & _). congruence. Qed.
Lemma calm_other c y w d b t : dv c y w t -> nthN (c_domains c) w = Some d -> dom_fine (d_bound d) ->
  match t with TBool | TInt | TIntList => True | _ => False end ->
  match b with BInt _ x y => tame x /\ tame y | _ => True end -> calm_range d b.
Proof.
  intros D N F T B. pose proof (dv_nth _ _ _ _ _ D N) as E. split; [|exact B].
  destruct (d_bound d) as [ |l| |tt| |]; cbn in E; subst; try exact I; [destruct T|].
  cbn in F. destruct F as ([->|[->| ->]] & _); destruct T.
Qed.
Lemma calm_bounded c y w d b t : dv c y w t -> nthN (c_domains c) w = Some d -> bounded_var (c_domains c) y ->
  match b with BInt _ x y => tame x /\ tame y | _ => True end -> calm_range d b.
Proof.
  intros (d1 & D & _) N (v & d2 & t' & lo & hi & D' & E & L) B. rewrite D in D'. injection D' as -> ->.
  apply decl_spec in D. destruct D as (D & _). rewrite N in D. injection D as ->. split; [|exact B]. now rewrite E.
Qed.
Lemma simple_ends_tame l b : Forall modest l -> simple_ends_i l = Ok b -> match b with BInt _ x y => tame x /\ tame y | _ => True end.
Proof.
  unfold simple_ends_i, ends. destruct l as [|x t]; [discriminate|]. intros F [= <-]. rewrite Forall_forall in F.
  assert (In (last (x :: t) x) (x :: t)) as L by (apply last_In; easy).
  pose proof (F x (or_introl eq_refl)) as F1. pose proof (F _ L) as F2. unfold modest, tame in *.
  change (match t with [] => x | _ :: _ => last t x end) with (last (x :: t) x). lia.
Qed.
Lemma perm_modest l l' : Permutation l' l -> Forall modest l -> Forall modest l'.
Proof. intros P. now rewrite P. Qed.

Ltac notsame := match goal with
  | HA : has_type (c_domains ?c) ?y ?t, D : dv ?c ?y ?w ?t' |- _ =>
      exfalso; apply dv_has in HA; destruct HA as (? & HA); destruct (dv_fun _ _ _ _ _ _ D HA); discriminate
  end.
Lemma res_leaf_steady c cs a q : steady_atom (c_domains c) a -> res_leaf c cs a q -> steady_leaf c q.
Proof.
  intros HA HR v inv b d N F H.
  destruct a as [x|lb|op x [z|f]|op x [z|f|s]|op x [l|l]|op [z|f|s] x|op x [l|l]|op x|t ns value len|op [x|] id s|a a' r|op x pat];
    cbn [res_leaf steady_atom] in *; try contradiction.
  - destruct HR as (w & D & ->). cbn [simple_leaf] in H. destruct (N.eqb_spec (av_var (mkAV x w)) v) as [<-|]; [|discriminate]. injection H as <-. eapply calm_other; eauto; exact I.
  - subst. discriminate.
  - destruct HA as (HA & M). destruct HR as (w & [[D ->]|[D ->]]); [|notsame]. cbn [simple_leaf compare_simple] in H.
    destruct (N.eqb_spec (av_var (mkAV x w)) v) as [<-|]; [|discriminate]. cbn zeta in H. unfold modest, tame in M.
    assert (forall y, z - 1 <= y <= z + 1 -> calm_range d (BInt false y y)) as K.
    { intros y L. eapply calm_other; eauto; [exact I|]. unfold tame. lia. }
    destruct op, inv; cbn [bind] in H; unfold ck64 in H; try (destruct (_ && _) in H; cbn [bind] in H; [|discriminate H]); injection H as <-; apply K; lia.
  - destruct HA as [(HA & M)|(HA & M)]; destruct HR as (w & [[D ->]|[[D ->]|[D (i & -> & _)]]]); try notsame;
      cbn [simple_leaf equality_simple] in H; (destruct (N.eqb_spec (av_var (mkAV x w)) v) as [<-|]; [|discriminate]); injection H as <-.
    + eapply calm_other; eauto; [exact I|]. unfold modest, tame in *. lia.
    + eapply calm_bounded; eauto; exact I.
  - destruct HR as (w & i & D & -> & _). cbn [simple_leaf equality_simple] in H. destruct (N.eqb_spec (av_var (mkAV x w)) v) as [<-|]; [|discriminate]. injection H as <-. eapply calm_bounded; eauto; exact I.
  - destruct HR as (w & l' & D & -> & I1 & P). cbn [simple_leaf set_simple] in H.
    destruct (_ || _) eqn:EV; [|discriminate]. apply bind_ok in H. destruct H as (y & E & [= <-]).
    assert (av_var (mkAV x w) = v) as <- by (apply orb_prop in EV; destruct EV as [EV|EV]; [now apply N.eqb_eq|discriminate]).
    eapply calm_other; eauto; [exact I|]. eapply (simple_ends_tame l'); eauto using perm_modest.
  - destruct HR as (w & l' & D & -> & _). cbn [simple_leaf set_simple] in H.
    destruct (_ || _) eqn:EV; [|discriminate]. apply bind_ok in H. destruct H as (y & E & [= <-]).
    assert (av_var (mkAV x w) = v) as <- by (apply orb_prop in EV; destruct EV as [EV|EV]; [now apply N.eqb_eq|discriminate]).
    eapply calm_bounded; eauto.
    unfold simple_ends_s in E. destruct (ends l') as [[? ?]|]; [|discriminate]. injection E as <-. exact I.
  - destruct HR as (w & D & ->). cbn [simple_leaf set_simple] in H. destruct (_ || _) eqn:EV; [|discriminate].
    assert (av_var (mkAV x w) = v) as <- by (apply orb_prop in EV; destruct EV as [EV|EV]; [discriminate|now apply N.eqb_eq]).
    injection H as <-. eapply calm_other; eauto; [exact I|]. unfold modest, tame in *. lia.
  - destruct HR as (w & i & D & -> & _). cbn [simple_leaf set_simple] in H. destruct (_ || _) eqn:EV; [|discriminate].
    assert (av_var (mkAV x w) = v) as <- by (apply orb_prop in EV; destruct EV as [EV|EV]; [discriminate|now apply N.eqb_eq]).
    injection H as <-. eapply calm_bounded; eauto; exact I.
  - destruct HR as (w & l' & D & -> & I1 & P). cbn [simple_leaf list_simple] in H.
    destruct (N.eqb_spec (av_var (mkAV x w)) v) as [<-|]; [|discriminate]. apply bind_ok in H. destruct H as (y & E & [= <-]).
    eapply calm_other; eauto; [exact I|]. eapply (simple_ends_tame l'); eauto using perm_modest.
  - destruct HR as (w & l' & D & -> & _). cbn [simple_leaf list_simple] in H.
    destruct (N.eqb_spec (av_var (mkAV x w)) v) as [<-|]; [|discriminate]. apply bind_ok in H. destruct H as (y & E & [= <-]).
    eapply calm_bounded; eauto.
    unfold simple_ends_s in E. destruct (ends l') as [[? ?]|]; [|discriminate]. injection E as <-. exact I.
  - destruct HR as (w & ty & D & ->). discriminate.
  - destruct HR as (w & nv & i & z & _ & _ & _ & _ & ->). discriminate.
  - destruct HR as (w & nv & _ & _ & ->). discriminate.
  - destruct HR as (w & nv & _ & _ & ->). discriminate.
  - destruct HR as (w & nv & _ & _ & ->). discriminate.
  - destruct HR as (w & _ & ->). discriminate.
Qed.

Lemma calm_merge d a b m : calm_range d a -> calm_range d b -> simple_merge a b = Ok m -> calm_range d m.
Proof.
  intros (A1 & A2) (_ & B2) H. split; [exact A1|].
  destruct a as [ | | | | | ], b as [ | | | | | ]; cbn [simple_merge] in H; try discriminate; injection H as <-; try exact I.
  destruct (_ <? _), (_ >? _); tauto.
Qed.
Lemma simple_bound_calm c v d e : nthN (c_domains c) v = Some d -> dom_fine (d_bound d) -> Forall (steady_leaf c) (expr_leaves e) ->
  forall inv b, simple_bound v inv e = Ok (Some b) -> calm_range d b.
Proof.
  intros N DF. induction e as [g q|g a IHa b IHb|g a IHa b IHb|g a IHa]; cbn [expr_leaves simple_bound]; intros F inv r H.
  - inversion F as [|? ? K _]; subst. eapply K; eauto.
  - apply Forall_app in F. destruct F as [F1 F2]. apply bind_ok in H. destruct H as (l1 & E1 & H).
    apply bind_ok in H. destruct H as (l2 & E2 & H).
    destruct l1 as [l1|], l2 as [l2|]; try (injection H as <-); eauto; try discriminate.
    apply bind_ok in H. destruct H as (m & E & [= <-]). eapply calm_merge; [| |exact E]; eauto.
  - apply Forall_app in F. destruct F as [F1 F2]. apply bind_ok in H. destruct H as (l1 & E1 & H).
    apply bind_ok in H. destruct H as (l2 & E2 & H).
    destruct l1 as [l1|], l2 as [l2|]; try (injection H as <-); eauto; try discriminate.
    apply bind_ok in H. destruct H as (m & E & [= <-]). eapply calm_merge; [| |exact E]; eauto.
  - eauto.
Qed.

Lemma widen_s_same hi n : hi < SIZE_MAX - 1 -> 0 < n <= hi + 1 -> widen_s hi (Some n) = hi.
Proof.
  intros H K. unfold widen_s.
  assert (to_uint 64 (n - 1) = n - 1) as -> by (unfold to_uint; apply Z.mod_small; unfold SIZE_MAX, UINT64_MAX in *; lia).
  destruct (Z.ltb_spec hi (SIZE_MAX - 1)); [|lia]. destruct (Z.gtb_spec (n - 1) hi); lia.
Qed.
Lemma widen_settled W ds c v d0 d b b' : variables_ok W ds -> wordy W ds c -> tabs_ok c -> pos_strs c /\ pos_ints c ->
  nthN (c_domains c) v = Some d -> settled d0 d -> dom_fine (d_bound d) -> calm_range d b -> widen c v (d_bound d) b = Ok b' ->
  settled d0 (mkD (d_attr d) b' (d_undef d)).
Proof.
  intros VO WD TO (PS & PI) N (A & B & S) DF (C1 & C2) H. split; [exact A|]. split; [exact B|]. cbn [d_bound].
  destruct (d_bound d0) as [ |t lo hi| |t lo hi| |] eqn:E0.
  - rewrite S in H. now injection H as <-.
  - destruct S as (lo' & hi' & E & L & U). rewrite E in *. cbn [widen] in H. destruct b as [ |t' x y| | | |]; try discriminate.
    apply Ok_inj in H. subst b'. destruct C2 as (C2 & C3).
    exists (if lo' =? INT64_MIN then x else if x <? lo' then x else lo'), (if hi' =? INT64_MAX then y else if y >? hi' then y else hi').
    split; [reflexivity|]. split; [destruct (lo' =? INT64_MIN); [tauto|destruct (x <? lo'); tauto]|destruct (hi' =? INT64_MAX); [tauto|destruct (y >? hi'); tauto]].
  - rewrite S in C1. destruct C1.
  - rewrite S in *. cbn [dom_fine] in DF. destruct DF as (T & -> & LH).
    assert (R : word_room (d_bound d) <= hi + 1) by (rewrite S; cbn [word_room]; lia).
    assert (KS : forall n, str_count c v = Some n -> 0 < n <= hi + 1).
    { intros n E. split; [now eapply str_count_ok; eauto|].
      assert (EN : n = Z.of_nat (List.length (strs c v))) by (unfold str_count in E; unfold strs; destruct (find_strmap (c_strs c) v); [congruence|discriminate]).
      destruct (strs c v) as [|s l] eqn:ES; [cbn in EN; lia|].
      assert (I : In s (strs c v)) by (rewrite ES; now left). rewrite EN, <- ES. destruct (wd_strs _ _ _ WD _ _ I) as (d' & N' & _ & T').
      rewrite N in N'. injection N' as <-. etransitivity; [|exact R]. eapply strs_words; eauto; [apply TO|].
      intros w Iw. destruct (wd_strs _ _ _ WD _ _ Iw) as (d' & N' & K & _). congruence. }
    assert (KI : forall n, int_count c v = Some n -> 0 < n <= hi + 1).
    { intros n E. split; [now eapply int_count_ok; eauto|].
      assert (EN : n = Z.of_nat (List.length (ints c v))) by (unfold int_count in E; unfold ints; destruct (find_intmap (c_ints c) v); [congruence|discriminate]).
      destruct (ints c v) as [|s l] eqn:ES; [cbn in EN; lia|].
      assert (I : In s (ints c v)) by (rewrite ES; now left). rewrite EN, <- ES. destruct (wd_ints _ _ _ WD _ _ I) as (d' & N' & _ & T').
      rewrite N in N'. injection N' as <-. etransitivity; [|exact R]. eapply ints_words; eauto; [apply TO|].
      intros w Iw. destruct (wd_ints _ _ _ WD _ _ Iw) as (d' & N' & K & _). congruence. }
    assert (K : forall o, (forall n, o = Some n -> 0 < n <= hi + 1) -> widen_s hi o = hi).
    { intros [n|] K; [|reflexivity]. apply widen_s_same; auto. }
    destruct T as [->|[->| ->]]; cbn [widen] in H; injection H as <-; f_equal; auto.
  - rewrite S in H. now injection H as <-.
  - rewrite S in H. now injection H as <-.
Qed.
Lemma change_settled W ds c e : variables_ok W ds -> wordy W ds c -> tabs_ok c -> pos_strs c /\ pos_ints c ->
  Forall (fun d => dom_fine (d_bound d)) (c_domains c) -> Forall (steady_leaf c) (expr_leaves e) ->
  forall c', change_boundaries c e = Ok c' -> wordy W ds c'.
Proof.
  intros VO WD TO PO DF SL c' H. unfold change_boundaries in H. apply bind_ok in H. destruct H as (ds' & H & [= <-]).
  assert (K : Forall2 settled ds ds').
  { assert (forall l0 l, Forall2 settled l0 l -> Forall (fun d => dom_fine (d_bound d)) l -> forall v l',
      (forall i d, nthN l i = Some d -> nthN (c_domains c) (v + i) = Some d) -> change_from c v l e = Ok l' -> Forall2 settled l0 l') as K.
    { induction 1 as [|d0 d l0 l S F IH]; intros FF v l' P E; cbn [change_from] in E.
      - injection E as <-. constructor.
      - apply bind_ok in E. destruct E as (d' & E1 & E). apply bind_ok in E. destruct E as (t' & E2 & [= <-]). inversion FF; subst.
        assert (N : nthN (c_domains c) v = Some d) by (rewrite <- (N.add_0_r v); now apply P).
        constructor.
        + destruct (skip_domain (d_bound d)); [now injection E1 as <-|]. apply bind_ok in E1. destruct E1 as ([b|] & Eb & E1); [|now injection E1 as <-].
          apply bind_ok in E1. destruct E1 as (b' & Ew & [= <-]). eapply widen_settled; eauto. eapply simple_bound_calm; eauto.
        + apply (IH ltac:(assumption) (v + 1)%N); [|exact E2]. intros i d1 N1. replace (v + 1 + i)%N with (v + (i + 1))%N by lia. apply P.
          cbn [nthN]. destruct (N.eqb_spec (i + 1) 0); [lia|]. replace (N.pred (i + 1)) with i by lia. replace (i + 1 - 1)%N with i by lia. exact N1. }
    apply (K ds (c_domains c) (wd_set _ _ _ WD) DF 0%N); [|exact H]. intros i d N. now rewrite N.add_0_l. }
  split; cbn [set_domains c_domains].
  - exact K.
  - intros v s I. destruct (wd_strs _ _ _ WD v s I) as (d & N & I1 & T).
    destruct (settled_back _ _ (wd_set _ _ _ WD) _ _ N) as (d0 & N0 & S0). destruct (Forall2_nthN _ _ _ K _ _ N0) as (d' & N' & S').
    exists d'. split; [exact N'|]. rewrite (btype_settled _ _ S'), <- (btype_settled _ _ S0). destruct S' as (A' & _), S0 as (A0 & _). rewrite A', <- A0. auto.
  - intros v s I. destruct (wd_ints _ _ _ WD v s I) as (d & N & I1 & T).
    destruct (settled_back _ _ (wd_set _ _ _ WD) _ _ N) as (d0 & N0 & S0). destruct (Forall2_nthN _ _ _ K _ _ N0) as (d' & N' & S').
    exists d'. split; [exact N'|]. rewrite (btype_settled _ _ S'), <- (btype_settled _ _ S0). destruct S' as (A' & _), S0 as (A0 & _). rewrite A', <- A0. auto.
Qed.

Lemma bounded_settled ds ds' y : Forall2 settled ds ds' -> bounded_var ds y -> bounded_var ds' y.
Proof.
  intros F (v & d & t & lo & hi & D & E & L). destruct (decl_sig _ ds' _ _ _ (settled_sigs _ _ F) D) as (d' & D' & _).
  exists v, d', t, lo, hi. split; [exact D'|]. split; [|exact L]. apply decl_spec in D, D'. destruct D as (N & _), D' as (N' & _).
  destruct (settled_back _ _ F _ _ N') as (d0 & N0 & _ & _ & S). assert (d0 = d) as -> by congruence. rewrite E in S. exact S.
Qed.
Lemma steady_settled ds ds' a : Forall2 settled ds ds' -> steady_atom ds a -> steady_atom ds' a.
Proof.
  intros F. pose proof (settled_sigs _ _ F) as E. pose proof (fun y => bounded_settled ds ds' y F) as B. pose proof (fun y t => has_type_sig ds ds' y t E) as T.
  destruct a as [x|lb|op x [z|f]|op x [z|f|w]|op x [l|l]|op [z|f|w] x|op x [l|l]|op x|t ns value len|op x id w|a b r|op x pat]; cbn [steady_atom]; auto.
  - intros (K1 & K2). auto.
  - intros [(K1 & K2)|(K1 & K2)]; auto.
Qed.
Lemma freq_steady c q : is_freq q = true -> steady_leaf c q.
Proof. destruct q; discriminate. Qed.
Lemma rel_steady c cs x e : steady (c_domains c) x -> rel_src (fun a q => is_freq q = true \/ res_leaf c cs a q) x e ->
  Forall (steady_leaf c) (expr_leaves e).
Proof.
  intros HS R. eapply rel_src_leaves; [exact R|]. intros a q Ha [K|K]; [now apply freq_steady|].
  eapply res_leaf_steady; [|exact K]. unfold steady in HS. rewrite Forall_forall in HS. auto.
Qed.

(** *** Ranges that follow *)
Lemma wordy_narrow W ds c : wordy W ds c -> variables_ok W ds -> narrow c.
Proof.
  intros WD (_ & VO) d I.
  assert (exists v, nthN (c_domains c) v = Some d) as (v & N).
  { clear - I. induction (c_domains c) as [|d0 l IH]; [destruct I|]. destruct I as [->|I].
    - exists 0%N. reflexivity.
    - destruct (IH I) as (v & N). exists (v + 1)%N. cbn [nthN]. destruct (N.eqb_spec (v + 1) 0); [lia|]. replace (N.pred (v + 1)) with v by lia. replace (v + 1 - 1)%N with v by lia. exact N. }
  destruct (settled_back _ _ (wd_set _ _ _ WD) _ _ N) as (d0 & N0 & _ & _ & S). unfold narrow_bound.
  destruct (d_bound d) as [ |t lo hi| | | |] eqn:E; auto.
  destruct (d_bound d0) eqn:E0; try discriminate. destruct S as (lo' & hi' & E' & L & U). injection E' as -> -> ->.
  unfold tame, INT64_MIN, INT64_MAX in *. lia.
Qed.
Lemma wordy_floats W ds c c' : variables_ok W ds -> wordy W ds c -> wordy W ds c' -> floats_ok WholeSplits c c'.
Proof.
  intros (_ & VO) WD WD'. unfold floats_ok. cbn [can_split only_whole]. intros v d d' lo hi N N' E'.
  destruct (settled_back _ _ (wd_set _ _ _ WD) _ _ N) as (d0 & N0 & _ & _ & S).
  destruct (settled_back _ _ (wd_set _ _ _ WD') _ _ N') as (d1 & N1 & _ & _ & S').
  assert (d1 = d0) as -> by congruence.
  assert (E0 : d_bound d0 = BFloat lo hi).
  { destruct (d_bound d0) eqn:E0; try congruence. destruct S' as (? & ? & ? & _). congruence. }
  rewrite E0 in S, S'. split; [congruence|]. rewrite E'.
  destruct (nthN_Forall _ _ VO _ _ N0) as (_ & _ & V). rewrite E0 in V. cbn [splitable].
  destruct V as [V|[V|(V1 & V2 & V3 & V4)]].
  - left. now rewrite V.
  - left. rewrite V. now rewrite orb_true_r.
  - right. auto.
Qed.

(** *** Numbers of predicates *)
Fixpoint size (e : expr) : N := match e with ELeaf _ _ => 1 | ENot _ a => size a + 1 | EAnd _ a b | EOr _ a b => size a + size b + 1 end%N.
Lemma rel_size R x e : rel_src R x e -> size e = weight x.
Proof. induction 1; cbn [size weight]; lia. Qed.
Lemma assign_node_count m e e' m' : assign_node m e = Ok (e', m') -> (pm_count m' <= pm_count m + 1)%N.
Proof.
  unfold assign_node. match goal with |- context [match ?x with Some _ => _ | None => _ end] => destruct x as [f|] end.
  - destruct (nthN _ _) as [i|]; [|discriminate]. destruct (_ =? _)%N; intros [= <- <-]; cbn [pm_count]; lia.
  - intros H. apply bind_ok in H. destruct H as (t & _ & [= <- <-]). cbn [pm_count]. lia.
Qed.
Lemma assign_pred_count e : forall m e' m', assign_pred m e = Ok (e', m') -> (pm_count m' <= pm_count m + size e)%N.
Proof.
  induction e as [g q|g a IHa b IHb|g a IHa b IHb|g a IHa]; intros m e' m' H; cbn [assign_pred size] in *.
  - now apply assign_node_count in H.
  - apply bind_ok in H. destruct H as ([a' m1] & Ea & H). apply bind_ok in H. destruct H as ([b' m2] & Eb & H).
    apply IHa in Ea. apply IHb in Eb. apply assign_node_count in H. lia.
  - apply bind_ok in H. destruct H as ([a' m1] & Ea & H). apply bind_ok in H. destruct H as ([b' m2] & Eb & H).
    apply IHa in Ea. apply IHb in Eb. apply assign_node_count in H. lia.
  - apply bind_ok in H. destruct H as ([a' m1] & Ea & H). apply IHa in Ea. apply assign_node_count in H. lia.
Qed.

(** *** The calls *)
Section Calls.
  Context {G : Geo}.
  #[local] Instance FM : Floats := WholeSplits.
  Variables (W : vocabulary) (cap : Z) (ds : list domain) (t : betree) (pend : list (sub * entry)) (log : list entry) (n : N).
  Hypothesis CAP : to_uint 8 cap <> 0.
  Hypothesis VO : variables_ok W ds.
  Hypothesis RE : reach_in WholeSplits ds t pend log.
  (** What is known of a tree. *)
  Record tidy (ds : list domain) (t : betree) (n : N) : Prop := {
    td_wordy : wordy W ds (bt_cfg t);
    td_count : (pm_count (bt_pm t) <= n)%N;
    td_cap : c_cap (bt_cfg t) = to_uint 8 cap }.
  Hypothesis TD : tidy ds t n.
  Let IV := reach_inv (FM := WholeSplits) _ _ _ _ RE.
  Let sig : map dom_sig (c_domains (bt_cfg t)) = map dom_sig ds := iv_sig _ _ _ _ IV.
  Let cfg : cfg_ok (bt_cfg t) := iv_cfg _ _ _ _ IV.
  Let WD := td_wordy _ _ _ TD.

  Lemma tidy_roomy : HeapConfSpec.roomy (bt_cfg t) = true.
  Proof. eapply words_roomy; [exact VO|exact WD|apply (ok_tabs _ cfg)|eapply reach_named; exact RE|apply (ok_pos _ cfg)]. Qed.

  Lemma insert_good id cs x : src_ok ds cs x -> spoken W ds x -> listed_once x -> constants_given cs x -> ~ In id (ids_of pend log) ->
    exists t', betree_insert_with_constants t id cs x = Ok (true, t') /\ tidy ds t' (n + weight x).
  Proof.
    intros HS SP LO CG NI. pose proof (words_fit _ _ _ VO WD _ _ false HS SP) as HF.
    destruct (insert_total (WM := whole_only) ds t pend log id cs x RE (variables_lower _ _ VO) (wordy_narrow _ _ _ WD VO)) as (b & t' & H); auto.
    { rewrite (td_cap _ _ _ TD). exact CAP. }
    destruct (insert_exact _ _ _ _ _ _ _ _ _ RE (variables_lower _ _ VO) HS H) as (EX & _).
    assert (b = true) as ->.
    { apply EX. split; [exact CG|]. intros a Ia. eapply words_room; eauto; [apply (ok_tabs _ cfg)|eapply reach_named; exact RE]. }
    exists t'. split; [exact H|].
    unfold betree_insert_with_constants, insert_expr in H. apply bind_ok in H. destruct H as (ok & _ & H). destruct (negb ok); [discriminate|].
    destruct (assign_constants cs _) as [e2|] eqn:E2; [|discriminate].
    apply bind_ok in H. destruct H as ([e3 c3] & E3 & H). apply bind_ok in H. destruct H as ([e4 c4] & E4 & H).
    apply bind_ok in H. destruct H as ([e6 c6] & E6 & H). apply bind_ok in H. destruct H as ([e7 m7] & E7 & H).
    apply bind_ok in H. destruct H as (s & E8 & H). apply bind_ok in H. destruct H as (t1 & E9 & [= <-]).
    assert (HS' : src_ok (c_domains (bt_cfg t)) cs x) by (eapply src_ok_sig; [|exact HS]; auto).
    destruct (insert_passes (bt_cfg t) cs x false cfg HS' HF _ _ _ _ _ _ _ E2 E3 E4 E6) as [B R].
    apply insert_sub_parts in E9. destruct E9 as (Q1 & Q2 & _). cbn [bt_cfg bt_pm] in *.
    split; rewrite ?Q1, ?Q2.
    - eapply busy_wordy; eauto.
    - apply assign_pred_count in E7. rewrite (rel_size _ _ _ R) in E7. pose proof (td_count _ _ _ TD). lia.
    - rewrite (ext_cap _ _ (bz_ext _ _ _ _ B)). exact (td_cap _ _ _ TD).
  Qed.
  (** Without the constants: the answer is false and nothing changes. *)
  Lemma insert_poor id cs x : src_ok ds cs x -> spoken W ds x -> ~ constants_given cs x ->
    betree_insert_with_constants t id cs x = Ok (false, t).
  Proof.
    intros HS SP NC.
    assert (HS' : src_ok (c_domains (bt_cfg t)) cs x) by (eapply src_ok_sig; [|exact HS]; auto).
    assert (exists b t', betree_insert_with_constants t id cs x = Ok (b, t')) as (b & t' & H).
    { set (id0 := fold_right Z.max 0 (ids_of pend log) + 1).
      assert (NI : ~ In id0 (ids_of pend log)).
      { intros I. assert (id0 <= fold_right Z.max 0 (ids_of pend log)); [|unfold id0 in *; lia].
        clearbody id0. induction (ids_of pend log) as [|z l IH]; [destruct I|]. cbn [fold_right]. destruct I as [->|I]; [lia|]. specialize (IH I). lia. }
      destruct (insert_total (WM := whole_only) ds t pend log id0 cs x RE (variables_lower _ _ VO) (wordy_narrow _ _ _ WD VO)) as (b & t' & H); auto.
      { rewrite (td_cap _ _ _ TD). exact CAP. }
      { eapply words_fit; eauto. }
      destruct (insert_exact _ _ _ _ _ _ _ _ _ RE (variables_lower _ _ VO) HS H) as (EX & _).
      assert (b = false) as -> by (destruct b; [|reflexivity]; exfalso; apply NC, EX; reflexivity).
      exists false, t'. revert H. unfold betree_insert_with_constants, insert_expr. destruct (is_valid _ _) as [ok| | |]; cbn [bind]; try discriminate.
      destruct (negb ok); [auto|]. destruct (assign_constants cs _) as [e2|]; [|auto]. intros H. exfalso.
      apply bind_ok in H. destruct H as ([e3 c3] & E3 & H). apply bind_ok in H. destruct H as ([e4 c4] & E4 & H).
      apply bind_ok in H. destruct H as ([e6 c6] & E6 & H). apply bind_ok in H. destruct H as ([e7 m7] & E7 & H).
      apply bind_ok in H. destruct H as (s & E8 & H). apply bind_ok in H. destruct H as (t1 & E9 & H). discriminate. }
    destruct (insert_exact _ _ _ _ _ _ _ _ _ RE (variables_lower _ _ VO) HS H) as (EX & UN).
    assert (b = false) as -> by (destruct b; [|reflexivity]; exfalso; apply NC, EX; reflexivity).
    rewrite H. now rewrite (UN eq_refl).
  Qed.
  Lemma make_good id cs x : src_ok ds cs x -> spoken W ds x -> steady ds x -> constants_given cs x -> null_tests_ok ds x ->
    exists s t', betree_make_sub t id cs x = Ok (Some s, t') /\ tidy ds t' (n + weight x) /\ floats_ok WholeSplits (bt_cfg t) (bt_cfg t').
  Proof.
    intros HS SP ST CG NT. pose proof (words_fit _ _ _ VO WD _ _ true HS SP) as HF.
    destruct (proj2 (make_accepts (fm := WholeSplits) ds t pend log id cs x RE HS HF) (conj CG NT)) as (s & t' & H).
    exists s, t'. split; [exact H|].
    assert (tidy ds t' (n + weight x)) as K; [|split; [exact K|eapply wordy_floats; [exact VO|exact WD|exact (td_wordy _ _ _ K)]]].
    unfold betree_make_sub, make_sub_expr in H. apply bind_ok in H. destruct H as (ok & _ & H). destruct (negb ok); [discriminate|].
    apply bind_ok in H. destruct H as ([e3 c3] & E3 & H). apply bind_ok in H. destruct H as ([e4 c4] & E4 & H).
    apply bind_ok in H. destruct H as ([e5 c5] & E5 & H). apply bind_ok in H. destruct H as (ok2 & _ & H).
    destruct (negb ok2); [discriminate|]. destruct (assign_constants cs e5) as [e6|] eqn:E6; [|discriminate].
    apply bind_ok in H. destruct H as (c7 & E7 & H). apply bind_ok in H. destruct H as ([e8 m8] & E8 & H).
    apply bind_ok in H. destruct H as (s' & E9 & H). injection H as -> <-.
    assert (HS' : src_ok (c_domains (bt_cfg t)) cs x) by (eapply src_ok_sig; [|exact HS]; auto).
    destruct (make_passes (bt_cfg t) cs x true cfg HS' HF _ _ _ _ _ _ E3 E4 E5) as [B R]. specialize (R e6 E6).
    pose proof (busy_wordy _ _ _ WD _ _ _ HS SP B) as WB.
    split; cbn [bt_cfg bt_pm].
    - eapply (change_settled W ds c5 (sort_lists e6) VO WB (bz_tabs _ _ _ _ B) (bz_pos _ _ _ _ B)); [| |exact E7].
      + rewrite (bz_doms _ _ _ _ B). apply fine_all. apply (iv_fine _ _ _ _ IV).
      + eapply (rel_steady c5 cs x); [|eapply rel_src_impl; [exact R|auto]].
        unfold steady in *. rewrite (bz_doms _ _ _ _ B). eapply Forall_impl; [|exact ST]. intros a. apply steady_settled. apply WD.
    - apply assign_pred_count in E8. rewrite (rel_size _ _ _ R) in E8. pose proof (td_count _ _ _ TD). lia.
    - unfold change_boundaries in E7. apply bind_ok in E7. destruct E7 as (ds7 & _ & [= <-]). cbn [set_domains c_cap].
      rewrite (ext_cap _ _ (bz_ext _ _ _ _ B)). exact (td_cap _ _ _ TD).
  Qed.
  Lemma make_poor id cs x : src_ok ds cs x -> spoken W ds x -> ~ (constants_given cs x /\ null_tests_ok ds x) ->
    exists t', betree_make_sub t id cs x = Ok (None, t') /\ tidy ds t' n.
  Proof.
    intros HS SP NO. pose proof (words_fit _ _ _ VO WD _ _ true HS SP) as HF.
    destruct (make_total (FM := WholeSplits) ds t pend log id cs x RE HS HF) as ([s|] & t' & H).
    { exfalso. apply NO. apply (proj1 (make_accepts (fm := WholeSplits) ds t pend log id cs x RE HS HF)). eauto. }
    exists t'. split; [exact H|].
    unfold betree_make_sub, make_sub_expr in H. apply bind_ok in H. destruct H as (ok & EO & H). destruct ok; cbn [negb] in H; [|now injection H as <-].
    apply bind_ok in H. destruct H as ([e3 c3] & E3 & H). apply bind_ok in H. destruct H as ([e4 c4] & E4 & H).
    apply bind_ok in H. destruct H as ([e5 c5] & E5 & H). apply bind_ok in H. destruct H as (ok2 & _ & H).
    pose proof (any_passes _ _ _ _ _ _ _ _ cfg HF EO E3 E4 E5) as B.
    assert (tidy ds (set_cfg t c5) n) as K.
    { split; cbn [set_cfg bt_cfg bt_pm]; [exact (busy_wordy _ _ _ WD _ _ _ HS SP B)|exact (td_count _ _ _ TD)|].
      rewrite (ext_cap _ _ (bz_ext _ _ _ _ B)). exact (td_cap _ _ _ TD). }
    destruct (negb ok2); [now injection H as <-|]. destruct (assign_constants cs e5) as [e6|]; [|now injection H as <-].
    apply bind_ok in H. destruct H as (c7 & E7 & H). apply bind_ok in H. destruct H as ([e8 m8] & E8 & H).
    apply bind_ok in H. destruct H as (s' & E9 & H). discriminate.
  Qed.
  Lemma change_good x : src_ok ds [] x -> spoken W ds x -> steady ds x ->
    exists t', betree_change_boundaries t x = Ok t' /\ tidy ds t' n /\ floats_ok WholeSplits (bt_cfg t) (bt_cfg t').
  Proof.
    intros HS SP ST. pose proof (words_fit _ _ _ VO WD _ _ true HS SP) as HF.
    destruct (change_boundaries_total (FM := WholeSplits) ds t pend log x RE HS HF) as (t' & H).
    exists t'. split; [exact H|].
    assert (tidy ds t' n) as K; [|split; [exact K|eapply wordy_floats; [exact VO|exact WD|exact (td_wordy _ _ _ K)]]].
    unfold betree_change_boundaries, change_boundaries_expr in H.
    apply bind_ok in H. destruct H as ([e3 c3] & E3 & H). apply bind_ok in H. destruct H as ([e4 c4] & E4 & H).
    apply bind_ok in H. destruct H as ([e5 c5] & E5 & H). apply bind_ok in H. destruct H as (c6 & E6 & [= <-]).
    assert (HS' : src_ok (c_domains (bt_cfg t)) [] x) by (eapply src_ok_sig; [|exact HS]; auto).
    destruct (change_passes (bt_cfg t) [] x true cfg HS' HF _ _ _ _ _ _ E3 E4 E5) as [B R].
    pose proof (busy_wordy _ _ _ WD _ _ _ HS SP B) as WB.
    split; cbn [set_cfg bt_cfg bt_pm].
    - eapply (change_settled W ds c5 e5 VO WB (bz_tabs _ _ _ _ B) (bz_pos _ _ _ _ B)); [| |exact E6].
      + rewrite (bz_doms _ _ _ _ B). apply fine_all. apply (iv_fine _ _ _ _ IV).
      + eapply (rel_steady c5 [] x); [|exact R].
        unfold steady in *. rewrite (bz_doms _ _ _ _ B). eapply Forall_impl; [|exact ST]. intros a. apply steady_settled. apply WD.
    - exact (td_count _ _ _ TD).
    - unfold change_boundaries in E6. apply bind_ok in E6. destruct E6 as (ds7 & _ & [= <-]). cbn [set_domains c_cap].
      rewrite (ext_cap _ _ (bz_ext _ _ _ _ B)). exact (td_cap _ _ _ TD).
  Qed.
  Lemma insert_sub_good s t' : betree_insert_sub t s = Ok t' -> tidy ds t' n.
  Proof.
    intros H. apply insert_sub_parts in H. destruct H as (Q1 & Q2 & _). split; rewrite ?Q1, ?Q2; apply TD.
  Qed.
  Lemma declare_good d : variables_ok W (ds ++ [d]) -> tidy (ds ++ [d]) (betree_declare t d) n
    /\ floats_ok WholeSplits (bt_cfg (betree_declare t d)) (bt_cfg (betree_declare t d)).
  Proof.
    intros VO'.
    assert (S : settled d d).
    { destruct VO' as (_ & F). apply Forall_app in F. destruct F as (_ & F). inversion F as [|? ? (_ & _ & V) _]; subst.
      split; [reflexivity|]. split; [reflexivity|]. destruct (d_bound d) as [ |tt lo hi| | | |]; auto. exists lo, hi. tauto. }
    assert (WD' : wordy W (ds ++ [d]) (add_domain (bt_cfg t) d)).
    { assert (NA : forall v e, nthN (c_domains (bt_cfg t)) v = Some e -> nthN (c_domains (bt_cfg t) ++ [d]) v = Some e).
      { clear. intros v e. revert v. induction (c_domains (bt_cfg t)) as [|d0 l IH]; intros v N; cbn [nthN app] in *; [discriminate|].
        destruct (v =? 0)%N; auto. }
      split; cbn [add_domain c_domains].
      - apply Forall2_app; [apply WD|]. repeat constructor; apply S.
      - intros v s I. destruct (wd_strs _ _ _ WD v s I) as (e & N & K). eauto.
      - intros v s I. destruct (wd_ints _ _ _ WD v s I) as (e & N & K). eauto. }
    split.
    - split; [exact WD'|exact (td_count _ _ _ TD)|exact (td_cap _ _ _ TD)].
    - unfold betree_declare. cbn [set_cfg bt_cfg]. eapply wordy_floats; eauto.
  Qed.
  Lemma empty_good : tidy ds (empty_tree t) n.
  Proof. split; [apply TD| |apply TD]. cbn. lia. Qed.

  Lemma clear_settled ev x : clear ds ev x -> clear (c_domains (bt_cfg t)) ev x.
  Proof.
    unfold clear. apply Forall_impl. intros a K y k f v d' C D' FR L.
    assert (sig' : map dom_sig ds = map dom_sig (c_domains (bt_cfg t))) by (symmetry; exact sig).
    destruct (decl_sig _ ds _ _ _ sig' D') as (d & D & _). apply (K y k f v d C D); [|exact L].
    apply decl_spec in D, D'. destruct D as (N & _), D' as (N' & _).
    destruct (settled_back _ _ (wd_set _ _ _ WD) _ _ N') as (d0 & N0 & _ & _ & S). assert (d0 = d) as -> by congruence.
    destruct (d_bound d) eqn:E; try (rewrite S in FR; exact FR). destruct S as (? & ? & S & _). rewrite S in FR. exact FR.
  Qed.
  Lemma search_good ev : (n <= INVALID_PRED)%N -> event_ok ds ev -> complete ds ev ->
    exists r, betree_search t ev make_report = Ok (true, r) /\ found ds log ev (LinkedApi.RReport true r).
  Proof.
    intros NP EO CO.
    destruct (split_search ds t pend log ev (whole_reach _ _ _ _ RE)) as (r & E & ND & M & K1 & K2); auto.
    { unfold few_preds. pose proof (td_count _ _ _ TD). lia. }
    exists r. split; [exact E|]. exists r. repeat (split; [reflexivity || assumption|]). split.
    - intros id I. destruct (K1 id I) as (e & Ie & Ee & Se). exists e. split; [exact Ie|]. split; [exact Ee|].
      intros SO. apply Se. unfold calm. eapply short_ok_sig; [|exact SO]. exact sig.
    - intros e I (SO & RO & CL) SM. apply (K2 e I); auto.
      + unfold calm. eapply short_ok_sig; [|exact SO]. exact sig.
      + now apply clear_settled.
  Qed.
  Lemma exists_good ev : (n <= INVALID_PRED)%N -> event_ok ds ev -> complete ds ev ->
    exists b, betree_exists t ev = Ok b /\ exists_answer ds log ev (LinkedApi.RBool b).
  Proof.
    intros NP EO CO.
    destruct (split_exists ds t pend log ev (whole_reach _ _ _ _ RE)) as (b & r & E & _ & _ & K1 & K2); auto.
    { unfold few_preds. pose proof (td_count _ _ _ TD). lia. }
    exists b. split; [exact E|]. exists b. split; [reflexivity|]. split.
    - intros T. destruct (K1 T) as (e & Ie & Se). exists e. split; [exact Ie|].
      intros SO. apply Se. unfold calm. eapply short_ok_sig; [|exact SO]. exact sig.
    - intros e I (SO & RO & CL) SM. apply (K2 e I); auto. split; [|split; [exact RO|right; now apply clear_settled]].
      unfold calm. eapply short_ok_sig; [|exact SO]. exact sig.
  Qed.
End Calls.
