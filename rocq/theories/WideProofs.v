(** Adaptation of the declared ranges: ranges that may have been split only get wider. *)
From Coq Require Import ZArith NArith String Bool List Lia Permutation Sorted.
From Coq Require Import ZifyBool ZifyNat ZifyN.
From Verif Require Import Base Float Value Special Ast Match Config Assign Source Bound Tree Spec TreeSpec.
From Verif Require Import BaseProofs ListProofs InternProofs ExtProofs ResProofs PassProofs RoundProofs FloatOrd GvbProofs TreeProofs.
Import ListNotations.
Local Open Scope Z_scope.

Section Mode.
Context {FM : Floats}.

(** Ranges met in expressions do not touch the ends of int64_t. *)
Definition nb (b : bound) : Prop :=
  match b with BInt _ x y => INT64_MIN < x /\ x <= y /\ y < INT64_MAX | _ => True end.
Definition lits_ok (q : leaf) : Prop := forall v inv b, simple_leaf v inv q = Ok (Some b) -> nb b.

Lemma last_In {A} (l : list A) d : l <> [] -> In (last l d) l.
Proof.
  induction l as [|x t IH]; [easy|]. intros _. destruct t as [|y t]; [now left|]. right. now apply IH.
Qed.
Lemma simple_ends_nb l b : incr l -> Forall inner_int l -> simple_ends_i l = Ok b -> nb b.
Proof.
  unfold simple_ends_i, ends. destruct l as [|x t]; [discriminate|]. intros I F [= <-].
  cbn [nb]. rewrite Forall_forall in F.
  assert (In (last (x :: t) x) (x :: t)) as L by (apply last_In; easy).
  pose proof (F x (or_introl eq_refl)). pose proof (F _ L). pose proof (last_incr (x :: t) x x I (or_introl eq_refl)).
  unfold inner_int in *. change (match t with [] => x | _ :: _ => last t x end) with (last (x :: t) x). lia.
Qed.
Lemma perm_inner l l' : Permutation l' l -> Forall inner_int l -> Forall inner_int l'.
Proof. intros P. now rewrite P. Qed.

Lemma res_leaf_lits c cs a q : atom_ok (c_domains c) cs a -> res_leaf c cs a q -> lits_ok q.
Proof.
  intros HA HR v inv b H.
  destruct a as [x|lb|op x [z|f]|op x [z|f|s]|op x [l|l]|op [z|f|s] x|op x [l|l]|op x|t ns value len|op [x|] id s|a a' r|op x pat];
    cbn [res_leaf atom_ok] in *.
  - destruct HR as (w & _ & ->). cbn [simple_leaf] in H. destruct (_ =? _)%N; [|discriminate]. injection H as <-. exact I.
  - subst. discriminate.
  - destruct HR as (w & [[D ->]|[D ->]]); cbn [simple_leaf compare_simple] in H; (destruct (_ =? _)%N; [|discriminate]).
    + destruct HA as [[_ HA]|HA].
      2:{ exfalso. apply dv_has in HA. destruct HA as (w' & D'). destruct (dv_fun _ _ _ _ _ _ D D'). discriminate. }
      cbn zeta in H. unfold inner_int in HA.
      assert (forall y, z - 1 <= y <= z + 1 -> nb (BInt false y y)) as K by (intros y; cbn [nb]; lia).
      destruct op, inv; cbn [bind] in H; unfold ck64 in H; try (destruct (_ && _) in H; cbn [bind] in H; [|discriminate H]); injection H as <-; apply K; lia.
    + cbn zeta in H. destruct op, inv; cbn [bind] in H; injection H as <-; exact I.
  - destruct HR as (w & D & ->). cbn [simple_leaf compare_simple] in H. destruct (_ =? _)%N; [|discriminate].
    cbn zeta in H. destruct op, inv; cbn [bind] in H; injection H as <-; exact I.
  - destruct HR as (w & [[D ->]|[[D ->]|[D (i & -> & _)]]]); cbn [simple_leaf equality_simple] in H; (destruct (_ =? _)%N; [|discriminate]); injection H as <-.
    + destruct HA as [[_ HA]|[HA|HA]].
      * unfold inner_int in HA. cbn [nb]. lia.
      * exfalso. apply dv_has in HA. destruct HA as (w' & D'). destruct (dv_fun _ _ _ _ _ _ D D'). discriminate.
      * exfalso. apply dv_has in HA. destruct HA as (w' & D'). destruct (dv_fun _ _ _ _ _ _ D D'). discriminate.
    + exact I.
    + exact I.
  - destruct HR as (w & D & ->). cbn [simple_leaf equality_simple] in H. destruct (_ =? _)%N; [|discriminate]. injection H as <-. exact I.
  - destruct HR as (w & i & D & -> & _). cbn [simple_leaf equality_simple] in H. destruct (_ =? _)%N; [|discriminate]. injection H as <-. exact I.
  - destruct HR as (w & l' & D & -> & I1 & P). destruct HA as (_ & _ & F & _). cbn [simple_leaf set_simple] in H.
    destruct (_ || _); [|discriminate]. apply bind_ok in H. destruct H as (y & E & [= <-]).
    eapply simple_ends_nb; eauto using perm_inner.
  - destruct HR as (w & l' & D & -> & _). cbn [simple_leaf set_simple] in H.
    destruct (_ || _); [|discriminate]. apply bind_ok in H. destruct H as (y & E & [= <-]).
    unfold simple_ends_s in E. destruct (ends l') as [[? ?]|]; [|discriminate]. injection E as <-. exact I.
  - destruct HR as (w & D & ->). cbn [simple_leaf set_simple] in H. destruct (_ || _); [|discriminate].
    injection H as <-. destruct HA as [_ HA]. unfold inner_int in HA. cbn [nb]. lia.
  - easy.
  - destruct HR as (w & i & D & -> & _). cbn [simple_leaf set_simple] in H. destruct (_ || _); [|discriminate].
    injection H as <-. exact I.
  - destruct HR as (w & l' & D & -> & I1 & P). destruct HA as (_ & _ & F & _). cbn [simple_leaf list_simple] in H.
    destruct (_ =? _)%N; [|discriminate]. apply bind_ok in H. destruct H as (y & E & [= <-]).
    eapply simple_ends_nb; eauto using perm_inner.
  - destruct HR as (w & l' & D & -> & _). cbn [simple_leaf list_simple] in H.
    destruct (_ =? _)%N; [|discriminate]. apply bind_ok in H. destruct H as (y & E & [= <-]).
    unfold simple_ends_s in E. destruct (ends l') as [[? ?]|]; [|discriminate]. injection E as <-. exact I.
  - destruct HR as (w & ty & D & ->). discriminate.
  - destruct HR as (w & nv & i & z & _ & _ & _ & _ & ->). discriminate.
  - destruct HR as (w & nv & _ & _ & ->). discriminate.
  - destruct HR as (w & nv & _ & _ & ->). discriminate.
  - destruct HR as (w & nv & _ & _ & ->). discriminate.
  - destruct HR as (w & _ & ->). discriminate.
Qed.
Lemma freq_lits q : is_freq q = true -> lits_ok q.
Proof. destruct q; discriminate. Qed.

Lemma simple_merge_nb a b m : nb a -> nb b -> simple_merge a b = Ok m -> nb m.
Proof.
  destruct a as [ | | | | | ], b as [ | | | | | ]; cbn [simple_merge]; try discriminate; intros A B [= <-]; try exact I.
  cbn [nb] in *. destruct (Z.ltb_spec lo lo0), (Z.gtb_spec hi hi0); lia.
Qed.
Lemma simple_bound_nb v e : Forall lits_ok (expr_leaves e) -> forall inv b, simple_bound v inv e = Ok (Some b) -> nb b.
Proof.
  induction e as [g q|g a IHa b IHb|g a IHa b IHb|g a IHa]; cbn [expr_leaves simple_bound]; intros F inv r H.
  - inversion F; subst. eauto.
  - apply Forall_app in F. destruct F as [F1 F2]. apply bind_ok in H. destruct H as (l1 & E1 & H).
    apply bind_ok in H. destruct H as (l2 & E2 & H).
    destruct l1 as [l1|], l2 as [l2|]; try (injection H as <-); eauto; try discriminate.
    apply bind_ok in H. destruct H as (m & E & [= <-]). eapply simple_merge_nb; [| |exact E]; eauto.
  - apply Forall_app in F. destruct F as [F1 F2]. apply bind_ok in H. destruct H as (l1 & E1 & H).
    apply bind_ok in H. destruct H as (l2 & E2 & H).
    destruct l1 as [l1|], l2 as [l2|]; try (injection H as <-); eauto; try discriminate.
    apply bind_ok in H. destruct H as (m & E & [= <-]). eapply simple_merge_nb; [| |exact E]; eauto.
  - eauto.
Qed.

(** *** Widening one range *)
Definition kept_float (b b' : bound) : Prop :=
  match b' with BFloat _ _ => may_split = true -> finite_range b -> finite_range b' | _ => True end.
Definition grown (b b' : bound) : Prop :=
  (kept_float b b' -> wider b b') /\ dom_fine b' /\ btype b' = btype b /\ (plain_bound b -> plain_bound b').

Lemma grown_refl b : dom_fine b -> grown b b.
Proof.
  intros F. unfold grown, wider. sp; auto. intros _ S. sp; auto; try lia.
  destruct b; cbn in *; easy.
Qed.

Lemma widen_s_ok hi cnt : 0 <= hi <= SIZE_MAX -> (forall n, cnt = Some n -> 0 < n < SIZE_MAX) ->
  0 <= widen_s hi cnt <= SIZE_MAX /\ (hi < SIZE_MAX - 1 -> hi <= widen_s hi cnt < SIZE_MAX - 1).
Proof.
  intros H K. unfold widen_s. destruct cnt as [n|]; [|lia]. specialize (K n eq_refl).
  assert (to_uint 64 (n - 1) = n - 1) as -> by (unfold to_uint; apply Z.mod_small; unfold SIZE_MAX, UINT64_MAX in *; lia).
  destruct (Z.ltb_spec hi (SIZE_MAX - 1)); [|lia]. destruct (Z.gtb_spec (n - 1) hi); lia.
Qed.

Lemma str_count_ok c v n : tabs_ok c -> pos_strs c -> str_count c v = Some n -> 0 < n < SIZE_MAX.
Proof.
  intros [T _] P. unfold str_count. destruct (find_strmap (c_strs c) v) as [m|] eqn:E; [|discriminate].
  intros [= <-]. destruct (T v) as [_ L]. unfold strs in L. rewrite E in L. specialize (P v m E).
  destruct (sm_vals m); [easy|]. cbn [length] in *. lia.
Qed.
Lemma int_count_ok c v n : tabs_ok c -> pos_ints c -> int_count c v = Some n -> 0 < n < SIZE_MAX.
Proof.
  intros [_ T] P. unfold int_count. destruct (find_intmap (c_ints c) v) as [m|] eqn:E; [|discriminate].
  intros [= <-]. destruct (T v) as [_ L]. unfold ints in L. rewrite E in L. specialize (P v m E).
  destruct (im_vals m); [easy|]. cbn [length] in *. lia.
Qed.

Lemma widen_ok c v dom b dom' : tabs_ok c -> pos_strs c /\ pos_ints c -> dom_fine dom -> nb b ->
  widen c v dom b = Ok dom' -> grown dom dom'.
Proof.
  intros T [P1 P2] F B H.
  destruct dom as [lo hi|t lo hi|lo hi|t lo hi| | ]; cbn [widen] in H.
  - injection H as <-. now apply grown_refl.
  - destruct b as [ |t' x y| | | | ]; try discriminate. injection H as <-. cbn [nb dom_fine] in *.
    unfold grown, wider. cbn [splits dom_fine btype same_tag blo bhi plain_bound].
    destruct (Z.eqb_spec lo INT64_MIN), (Z.eqb_spec hi INT64_MAX), (Z.ltb_spec x lo), (Z.gtb_spec y hi); sp; auto; try lia;
      intros _ (S1 & S2 & S3); sp; auto; lia.
  - destruct b as [ | | x y | | | ]; try discriminate. apply Ok_inj in H. subst dom'. unfold grown, wider. sp; auto.
    intros K [M S]. cbn [kept_float] in K. specialize (K M S). unfold fne in *. destruct S as (A1 & A2 & A3 & A4 & A5). rewrite A4, A5 in K |- *. cbn [negb] in *.
    split; [exact (conj M K)|]. destruct K as (B1 & B2 & _). apply canonical_good in A1, A2, B1, B2.
    cbn [btype same_tag blo bhi]. sp; auto.
    + destruct (fltb x lo) eqn:E; [apply (ltb_units _ _ B1 A1) in E; lia|lia].
    + change (fgtb y hi) with (fltb hi y) in *. destruct (fltb hi y) eqn:E; [apply (ltb_units _ _ A2 B2) in E; lia|lia].
  - cbn [dom_fine] in F. destruct F as (TT & -> & L).
    assert (exists cnt, dom' = BStr t 0 (widen_s hi cnt) /\ (forall n, cnt = Some n -> 0 < n < SIZE_MAX)) as (cnt & -> & K).
    { destruct TT as [->|[->| ->]]; injection H as <-; eexists; (split; [reflexivity|]); intros n; eauto using str_count_ok, int_count_ok. }
    destruct (widen_s_ok hi cnt L K) as [W1 W2].
    unfold grown, wider. cbn [splits dom_fine btype same_tag blo bhi plain_bound]. sp; auto; try lia.
    intros _ (S1 & S2 & S3). sp; auto; lia.
  - injection H as <-. now apply grown_refl.
  - injection H as <-. now apply grown_refl.
Qed.

(** *** All ranges *)
Definition dom_grown (d d' : domain) : Prop :=
  d_attr d' = d_attr d /\ d_undef d' = d_undef d /\ grown (d_bound d) (d_bound d').

Lemma change_from_ok c e : tabs_ok c -> pos_strs c /\ pos_ints c -> Forall lits_ok (expr_leaves e) ->
  forall ds v ds', Forall (fun d => dom_fine (d_bound d)) ds -> change_from c v ds e = Ok ds' -> Forall2 dom_grown ds ds'.
Proof.
  intros T P L. induction ds as [|d t IH]; intros v ds' F H; cbn [change_from] in H.
  - injection H as <-. constructor.
  - apply bind_ok in H. destruct H as (d' & E & H). apply bind_ok in H. destruct H as (t' & Et & [= <-]).
    inversion F; subst. constructor; [|eauto].
    destruct (skip_domain (d_bound d)).
    + injection E as <-. unfold dom_grown. auto using grown_refl.
    + apply bind_ok in E. destruct E as (o & Eo & E). destruct o as [b|].
      * apply bind_ok in E. destruct E as (b' & Eb & [= <-]). unfold dom_grown. cbn [d_attr d_undef d_bound].
        sp; auto. eapply widen_ok; eauto. eapply simple_bound_nb; eauto.
      * injection E as <-. unfold dom_grown. auto using grown_refl.
Qed.

Lemma Forall2_nthN {A} (R : A -> A -> Prop) l l' : Forall2 R l l' -> forall v d, nthN l v = Some d ->
  exists d', nthN l' v = Some d' /\ R d d'.
Proof.
  induction 1; intros v d H1; cbn [nthN] in *; [discriminate|].
  destruct (v =? 0)%N; [injection H1 as <-; eauto|auto].
Qed.

Lemma change_ok c e c' : cfg_ok c -> Forall (fun d => dom_fine (d_bound d)) (c_domains c) -> Forall lits_ok (expr_leaves e) ->
  change_boundaries c e = Ok c' ->
  ext c c' /\ cfg_ok c' /\ Forall (fun d => dom_fine (d_bound d)) (c_domains c')
  /\ (forall v, strs c' v = strs c v) /\ (forall v, ints c' v = ints c v)
  /\ (forall v d, nthN (c_domains c) v = Some d ->
        exists d', nthN (c_domains c') v = Some d' /\ (kept_float (d_bound d) (d_bound d') -> wider (d_bound d) (d_bound d'))).
Proof.
  intros HC HF HL H. unfold change_boundaries in H. apply bind_ok in H. destruct H as (ds & E & [= <-]).
  pose proof (change_from_ok c e (ok_tabs _ HC) (ok_pos _ HC) HL _ _ _ HF E) as G.
  assert (map dom_sig ds = map dom_sig (c_domains c)) as ES.
  { clear - G. induction G as [|d d' l l' (A & B & _ & _ & C & _) G IH]; [easy|]. cbn [map]. rewrite IH. unfold dom_sig. congruence. }
  assert (length ds = length (c_domains c)) as EL by (rewrite <- (map_length dom_sig ds), ES; apply map_length).
  assert (forall d', In d' ds -> exists d, In d (c_domains c) /\ dom_grown d d') as GI.
  { clear - G. induction G; intros d' [].
    - subst. eexists. split; [now left|easy].
    - destruct (IHG d' H0) as (d & Hd & K). exists d. split; [now right|easy]. }
  sp.
  - split; try reflexivity; try (intros v; exists []; now rewrite app_nil_r). exact ES.
  - destruct HC as [T FW PL PO]. split; auto.
    + unfold few in *. cbn [set_domains c_domains]. now rewrite EL.
    + cbn [set_domains c_domains]. intros d' Hd'. destruct (GI d' Hd') as (d & Hd & (_ & _ & _ & _ & _ & K)). auto.
  - cbn [set_domains c_domains]. apply Forall_forall. intros d' Hd'. destruct (GI d' Hd') as (d & Hd & (_ & _ & _ & K & _)). auto.
  - reflexivity.
  - reflexivity.
  - cbn [set_domains c_domains]. intros v d Hd. destruct (Forall2_nthN _ _ _ G v d Hd) as (d' & Hd' & (_ & _ & K & _)). eauto.
Qed.
End Mode.
