(** The passes of an insertion over a whole expression, and the meaning of the stored expression. *)
From Coq Require Import ZArith NArith String Bool List Lia Permutation Sorted.
From Coq Require Import ZifyBool ZifyNat ZifyN.
From Verif Require Import Base Float Value Special Ast Match Config Assign Source Api Spec.
From Verif Require Import BaseProofs ListProofs SpecialProofs EvalProofs InternProofs ExtProofs ResProofs.
Import ListNotations.
Local Open Scope Z_scope.

(** An expression whose predicates are related to the atoms of a source; operands of `and`/`or` may be
    swapped. *)
Inductive rel_src (R : atom -> leaf -> Prop) : src -> expr -> Prop :=
| rs_atom a g q : R a q -> rel_src R (XAtom a) (ELeaf g q)
| rs_not x g e : rel_src R x e -> rel_src R (XNot x) (ENot g e)
| rs_and x y g e e' : rel_src R x e -> rel_src R y e' -> rel_src R (XAnd x y) (EAnd g e e')
| rs_and' x y g e e' : rel_src R x e -> rel_src R y e' -> rel_src R (XAnd x y) (EAnd g e' e)
| rs_or x y g e e' : rel_src R x e -> rel_src R y e' -> rel_src R (XOr x y) (EOr g e e')
| rs_or' x y g e e' : rel_src R x e -> rel_src R y e' -> rel_src R (XOr x y) (EOr g e' e).

Definition res_expr (c : config) (cs : constants) : src -> expr -> Prop := rel_src (res_leaf c cs).

Lemma rel_src_impl (R R' : atom -> leaf -> Prop) x e :
  rel_src R x e -> (forall a q, In a (src_atoms x) -> R a q -> R' a q) -> rel_src R' x e.
Proof.
  induction 1; intros K; cbn [src_atoms] in K; constructor;
    try (apply IHrel_src); try (apply IHrel_src1); try (apply IHrel_src2);
    intros; apply K; auto; try (apply in_or_app; auto); now left.
Qed.
Lemma rel_src_shape (R : atom -> leaf -> Prop) (S : leaf -> leaf -> Prop) x e :
  rel_src R x e -> forall e', shape S e e' -> rel_src (fun a q => exists p, R a p /\ S p q) x e'.
Proof. induction 1; intros e1 HS; inversion HS; subst; constructor; solve [eauto]. Qed.
Lemma rel_src_build x : rel_src (fun a q => q = build_atom a) x (build x).
Proof.
  induction x; cbn [build]; unfold mk_leaf, mk_not, mk_and, mk_or; try (constructor; auto; fail);
    destruct (_ <? _); constructor; solve [auto].
Qed.
Lemma rel_src_leaves (R : atom -> leaf -> Prop) (P : leaf -> Prop) x e :
  rel_src R x e -> (forall a q, In a (src_atoms x) -> R a q -> P q) -> Forall P (expr_leaves e).
Proof.
  induction 1; intros K; cbn [src_atoms expr_leaves] in *; rewrite ?Forall_app; try split;
    try (apply IHrel_src); try (apply IHrel_src1); try (apply IHrel_src2);
    try (constructor; [|constructor]); intros; eapply K; eauto; try (apply in_or_app; auto); now left.
Qed.

Lemma res_expr_more c c' cs x e : more c c' -> res_expr c cs x e -> res_expr c' cs x e.
Proof. intros X H. eapply rel_src_impl; [exact H|]. intros a q _. now apply res_leaf_more. Qed.
Lemma res_expr_ext c c' cs x e : ext c c' -> res_expr c cs x e -> res_expr c' cs x e.
Proof. intros X H. eapply rel_src_impl; [exact H|]. intros a q _. now apply res_leaf_ext. Qed.

(** Renumbering does not matter. *)
Lemma rel_src_erase R x e : rel_src R x e -> forall e', erase e' = erase e -> rel_src R x e'.
Proof.
  induction 1; intros e1 HE; destruct e1; cbn [erase] in HE; try discriminate; injection HE; intros; subst;
    constructor; solve [auto].
Qed.

Section WithGeo.
  Context {G : Geo}.

  Theorem res_expr_sem c cs ev p x e :
    env_ok c ev p -> event_ok (c_domains c) ev -> tabs_ok c -> src_ok (c_domains c) cs x ->
    res_expr c cs x e -> eval p e = Ok (sem cs ev x).
  Proof.
    intros HE HO HT HS HR. unfold src_ok in HS. induction HR; cbn [src_atoms eval sem] in *.
    - inversion HS; subst. eapply res_leaf_sem; eauto.
    - rewrite IHHR by easy. reflexivity.
    - apply Forall_app in HS. destruct HS. rewrite IHHR1, IHHR2 by easy. cbn. now destruct (sem cs ev x).
    - apply Forall_app in HS. destruct HS. rewrite IHHR1, IHHR2 by easy. cbn.
      now destruct (sem cs ev y), (sem cs ev x).
    - apply Forall_app in HS. destruct HS. rewrite IHHR1, IHHR2 by easy. cbn. now destruct (sem cs ev x).
    - apply Forall_app in HS. destruct HS. rewrite IHHR1, IHHR2 by easy. cbn.
      now destruct (sem cs ev y), (sem cs ev x).
  Qed.
End WithGeo.

(** *** Constants *)
Lemma get_integer_constant_eq name cs : get_integer_constant name cs = const_int cs name.
Proof.
  unfold const_int. induction cs as [|[n v] t IH]; cbn [get_integer_constant find fst]; [easy|].
  destruct (String.eqb name n); [now destruct v|exact IH].
Qed.
Lemma constant_name_eq ty : ty <> FTInvalid -> constant_name ty = Some (freq_const ty).
Proof. now destruct ty. Qed.

(** *** Leaf by leaf *)
Lemma set_var_dv c x v t : dv c x v t -> set_var c (mk_var x) = mkAV x v.
Proof. intros (d & D & _). unfold set_var, mk_var. cbn [av_attr]. now rewrite (decl_id _ _ _ _ D). Qed.
Lemma dv_dom c x v t : dv c x v t -> exists d, nthN (c_domains c) v = Some d /\ btype (d_bound d) = t.
Proof. intros (d & D & E). apply decl_spec in D. destruct D. eauto. Qed.
Lemma dv_fun c x v t v' t' : dv c x v t -> dv c x v' t' -> v = v' /\ t = t'.
Proof. intros (d & D & E) (d' & D' & E'). rewrite D in D'. injection D' as <- <-. split; congruence. Qed.

Lemma sort_key_Forall {A} key (P : A -> Prop) l : Forall P l -> Forall P (sort_key key l).
Proof. rewrite !Forall_forall. intros H x Hx. apply H. now apply sort_key_In in Hx. Qed.
Lemma sort_perm_map {A} key (f : A -> string) l : Permutation (map f (sort_key key l)) (map f l).
Proof. apply Permutation_map, sort_key_perm. Qed.

Ltac has_dv H :=
  let v := fresh "v" in let D := fresh "D" in
  apply dv_has in H; destruct H as (v & D).

Lemma build_strs_string l : map sv_string (build_strs l) = l.
Proof. unfold build_strs. rewrite map_map. cbn. apply map_id. Qed.

Ltac dom_of D E :=
  let d := fresh "d" in let d' := fresh "d" in let T := fresh "T" in let N := fresh "N" in let R := fresh "R" in
  destruct (dv_dom _ _ _ _ D) as (d & N & T); destruct E as (d' & N' & R);
  cbn [av_var] in N'; rewrite N in N'; injection N' as <-; rewrite T in R.

Lemma leaf_insert c0 c cs a q2 q3 q4 q6 :
  c_domains c = c_domains c0 -> atom_ok (c_domains c) cs a ->
  assign_const_leaf cs (assign_var_leaf c0 (build_atom a)) = Some q2 ->
  R_str c q2 q3 -> R_ie c q3 q4 -> R_fix c (sort_leaf q4) q6 -> res_leaf c cs a q6.
Proof.
  intros HD HA H2 H3 H4 H6.
  assert (forall x, set_var c0 (mk_var x) = set_var c (mk_var x)) as SV
    by (intros x; unfold set_var, try_get_id_for_attr; now rewrite HD).
  destruct a as [x|b|op x [z|f]|op x [z|f|s]|op x [l|l]|op [z|f|s] x|op x [l|l]|op x|t ns value len|op [x|] id s|a b r|op x pat];
    cbn [res_leaf atom_ok build_atom assign_var_leaf assign_const_leaf mk_freq mk_seg mk_geo] in *;
    rewrite ?SV in *; try (injection H2 as <-); cbn [R_str] in H3; try subst q3; cbn [R_ie] in H4; try subst q4;
    cbn [sort_leaf R_fix] in H6; try subst q6.
  - has_dv HA. rewrite (set_var_dv _ _ _ _ D). eauto.
  - reflexivity.
  - destruct HA as [[HA _]|HA]; has_dv HA; rewrite (set_var_dv _ _ _ _ D) in *; dom_of D H6; subst; eauto.
  - destruct HA as [HA _]. has_dv HA. rewrite (set_var_dv _ _ _ _ D). eauto.
  - destruct HA as [[HA _]|[HA|HA]]; has_dv HA; rewrite (set_var_dv _ _ _ _ D) in *; dom_of D H4; cbn [av_var] in *.
    + subst q4. cbn [sort_leaf R_fix] in H6. dom_of D H6. subst. eauto.
    + destruct R as (i & -> & K). cbn [sort_leaf R_fix] in H6. subst. exists v. right; right. eauto.
    + subst q4. cbn [sort_leaf R_fix] in H6. dom_of D H6. subst. eauto.
  - destruct HA as [HA _]. has_dv HA. rewrite (set_var_dv _ _ _ _ D). eauto.
  - has_dv HA. rewrite (set_var_dv _ _ _ _ D) in *. destruct H3 as ([s' i] & -> & E & K). cbn in H4. subst q4.
    cbn in H6. subst q6. cbn in E. subst s'. exists v, i. split; [easy|]. split; [easy|exact K].
  - destruct HA as [HA _]. has_dv HA. rewrite (set_var_dv _ _ _ _ D).
    exists v, (sort_key (fun z => z) l). sp; auto using sort_key_id_incr, sort_key_perm.
  - destruct HA as [HA _]. has_dv HA. rewrite (set_var_dv _ _ _ _ D) in *.
    destruct H3 as (l' & -> & E & K). cbn [R_ie] in H4. subst q4. cbn [sort_leaf R_fix] in H6. subst q6.
    rewrite build_strs_string in E. exists v, (sort_key sv_str l'). sp; auto using sort_key_sorted, sort_key_Forall.
    rewrite <- E. apply sort_perm_map.
  - destruct HA as [HA _]. has_dv HA. rewrite (set_var_dv _ _ _ _ D). eauto.
  - easy.
  - has_dv HA. rewrite (set_var_dv _ _ _ _ D) in *. destruct H3 as ([s' i] & -> & E & K). cbn in H4. subst q4.
    cbn in H6. subst q6. cbn in E. subst s'. exists v, i. split; [easy|]. split; [easy|exact K].
  - destruct HA as [HA _]. has_dv HA. rewrite (set_var_dv _ _ _ _ D).
    exists v, (sort_key (fun z => z) l). sp; auto using sort_key_id_incr, sort_key_perm.
  - destruct HA as [HA _]. has_dv HA. rewrite (set_var_dv _ _ _ _ D) in *.
    destruct H3 as (l' & -> & E & K). cbn [R_ie] in H4. subst q4. cbn [sort_leaf R_fix] in H6. subst q6.
    rewrite build_strs_string in E. exists v, (sort_key sv_str l'). sp; auto using sort_key_sorted, sort_key_Forall.
    rewrite <- E. apply sort_perm_map.
  - destruct HA as (v & d & D). assert (dv c x v (btype (d_bound d))) as D' by (exists d; easy).
    rewrite (set_var_dv _ _ _ _ D'). eauto.
  - destruct HA as (HT & HF & HN & _). has_dv HF. has_dv HN. rewrite (set_var_dv _ _ _ _ D), (set_var_dv _ _ _ _ D0) in H2.
    rewrite constant_name_eq, get_integer_constant_eq in H2 by easy.
    destruct (const_int cs _) as [z|] eqn:EC; [|discriminate]. injection H2 as <-. cbn [R_str] in H3.
    destruct H3 as ([s' i] & -> & E & K). cbn in H4. subst q4. cbn in H6. subst q6. cbn in E. subst s'.
    exists v, v0, i, z. sp; auto.
  - destruct HA as (HF & HN & _). has_dv HF. has_dv HN.
    rewrite (set_var_dv _ _ _ _ D), (set_var_dv _ _ _ _ D0); exists v, v0; sp; auto.
  - destruct HA as (HF & HN & _). has_dv HF. has_dv HN.
    rewrite (set_var_dv _ _ _ _ D), (set_var_dv _ _ _ _ D0); exists v, v0; sp; auto.
  - destruct HA as (HF & HN & _). has_dv HF. has_dv HN.
    rewrite (set_var_dv _ _ _ _ D), (set_var_dv _ _ _ _ D0). exists v, v0; sp; auto.
  - has_dv HA. rewrite (set_var_dv _ _ _ _ D). eauto.
Qed.

Lemma leaf_make c0 c cs a q2 q3 q4 q5 :
  c_domains c = c_domains c0 -> atom_ok (c_domains c) cs a ->
  R_str c (assign_var_leaf c0 (build_atom a)) q2 -> R_ie c q2 q3 -> R_fix c q3 q4 ->
  assign_const_leaf cs q4 = Some q5 -> res_leaf c cs a (sort_leaf q5).
Proof.
  intros HD HA H2 H3 H4 H5.
  assert (forall x, set_var c0 (mk_var x) = set_var c (mk_var x)) as SV
    by (intros x; unfold set_var, try_get_id_for_attr; now rewrite HD).
  destruct a as [x|b|op x [z|f]|op x [z|f|s]|op x [l|l]|op [z|f|s] x|op x [l|l]|op x|t ns value len|op [x|] id s|a b r|op x pat];
    cbn [res_leaf atom_ok build_atom assign_var_leaf mk_freq mk_seg mk_geo R_str] in *;
    rewrite ?SV in *; try subst q2; cbn [R_ie] in H3; try subst q3; cbn [R_fix] in H4; try subst q4;
    cbn [assign_const_leaf] in H5; try (injection H5 as <-); cbn [sort_leaf].
  - has_dv HA. rewrite (set_var_dv _ _ _ _ D). eauto.
  - reflexivity.
  - destruct HA as [[HA _]|HA]; has_dv HA; rewrite (set_var_dv _ _ _ _ D) in *; dom_of D H4; subst;
      cbn in H5; injection H5 as <-; eauto.
  - destruct HA as [HA _]. has_dv HA. rewrite (set_var_dv _ _ _ _ D). eauto.
  - destruct HA as [[HA _]|[HA|HA]]; has_dv HA; rewrite (set_var_dv _ _ _ _ D) in *; dom_of D H3; cbn [av_var] in *.
    + subst q3. cbn [R_fix] in H4. dom_of D H4. subst. cbn in H5. injection H5 as <-. eauto.
    + destruct R as (i & -> & K). cbn in H4. subst. cbn in H5. injection H5 as <-. exists v. right; right. split; [easy|]. exists i. easy.
    + subst q3. cbn [R_fix] in H4. dom_of D H4. subst. cbn in H5. injection H5 as <-. eauto.
  - destruct HA as [HA _]. has_dv HA. rewrite (set_var_dv _ _ _ _ D). eauto.
  - has_dv HA. rewrite (set_var_dv _ _ _ _ D) in *. destruct H2 as ([s' i] & -> & E & K). cbn in H3. subst q3.
    cbn in H4. subst q4. cbn in H5. injection H5 as <-. cbn in E. subst s'. exists v, i.
    split; [easy|]. split; [easy|exact K].
  - destruct HA as [HA _]. has_dv HA. rewrite (set_var_dv _ _ _ _ D).
    exists v, (sort_key (fun z => z) l). sp; auto using sort_key_id_incr, sort_key_perm.
  - destruct HA as [HA _]. has_dv HA. rewrite (set_var_dv _ _ _ _ D) in *.
    destruct H2 as (l' & -> & E & K). cbn [R_ie] in H3. subst q3. cbn [R_fix] in H4. subst q4.
    cbn [assign_const_leaf] in H5. injection H5 as <-. cbn [sort_leaf].
    rewrite build_strs_string in E. exists v, (sort_key sv_str l'). sp; auto using sort_key_sorted, sort_key_Forall.
    rewrite <- E. apply sort_perm_map.
  - destruct HA as [HA _]. has_dv HA. rewrite (set_var_dv _ _ _ _ D). eauto.
  - easy.
  - has_dv HA. rewrite (set_var_dv _ _ _ _ D) in *. destruct H2 as ([s' i] & -> & E & K). cbn in H3. subst q3.
    cbn in H4. subst q4. cbn in H5. injection H5 as <-. cbn in E. subst s'. exists v, i.
    split; [easy|]. split; [easy|exact K].
  - destruct HA as [HA _]. has_dv HA. rewrite (set_var_dv _ _ _ _ D).
    exists v, (sort_key (fun z => z) l). sp; auto using sort_key_id_incr, sort_key_perm.
  - destruct HA as [HA _]. has_dv HA. rewrite (set_var_dv _ _ _ _ D) in *.
    destruct H2 as (l' & -> & E & K). cbn [R_ie] in H3. subst q3. cbn [R_fix] in H4. subst q4.
    cbn [assign_const_leaf] in H5. injection H5 as <-. cbn [sort_leaf].
    rewrite build_strs_string in E. exists v, (sort_key sv_str l'). sp; auto using sort_key_sorted, sort_key_Forall.
    rewrite <- E. apply sort_perm_map.
  - destruct HA as (v & d & D). assert (dv c x v (btype (d_bound d))) as D' by (exists d; easy).
    rewrite (set_var_dv _ _ _ _ D'). eauto.
  - destruct HA as (HT & HF & HN & _). has_dv HF. has_dv HN. rewrite (set_var_dv _ _ _ _ D), (set_var_dv _ _ _ _ D0) in H2.
    destruct H2 as ([s' i] & -> & E & K). cbn in H3. subst q3. cbn in H4. subst q4. cbn in E. subst s'.
    cbn [assign_const_leaf] in H5.
    rewrite constant_name_eq, get_integer_constant_eq in H5 by easy.
    destruct (const_int cs _) as [z|] eqn:EC; [|discriminate]. injection H5 as <-.
    exists v, v0, i, z. sp; auto.
  - destruct HA as (HF & HN & _). has_dv HF. has_dv HN.
    rewrite (set_var_dv _ _ _ _ D), (set_var_dv _ _ _ _ D0); exists v, v0; sp; auto.
  - destruct HA as (HF & HN & _). has_dv HF. has_dv HN.
    rewrite (set_var_dv _ _ _ _ D), (set_var_dv _ _ _ _ D0); exists v, v0; sp; auto.
  - destruct HA as (HF & HN & _). has_dv HF. has_dv HN.
    rewrite (set_var_dv _ _ _ _ D), (set_var_dv _ _ _ _ D0). exists v, v0; sp; auto.
  - has_dv HA. rewrite (set_var_dv _ _ _ _ D). eauto.
Qed.

(** *** The strings met on the way *)
Lemma at_var_In {A} ds (l : list (string * A)) v s :
  In (v, s) (at_var ds l) <-> exists x d, In (x, s) l /\ decl ds x = Some (v, d).
Proof.
  unfold at_var. rewrite in_flat_map. split.
  - intros ([x s'] & H & K). cbn [fst snd] in K. destruct (decl ds x) as [[w d]|] eqn:E; [|easy].
    destruct K as [[= -> ->]|[]]. eauto.
  - intros (x & d & H & E). exists (x, s). split; [easy|]. cbn [fst snd]. rewrite E. now left.
Qed.

Lemma strs_const cs p q : assign_const_leaf cs p = Some q -> leaf_strs q = leaf_strs p.
Proof.
  destruct p; cbn; try (intros [= <-]; reflexivity).
  destruct (constant_name ty); [|discriminate]. destruct (get_integer_constant s cs); [|discriminate].
  now intros [= <-].
Qed.

Lemma leaf_strs_src c cs x a : In a (src_atoms x) -> atom_ok (c_domains c) cs a ->
  incl (leaf_strs (assign_var_leaf c (build_atom a))) (src_strs (c_domains c) x).
Proof.
  intros Ha HA [v s] H.
  assert (forall y d, In (y, s) (atom_strs a) -> decl (c_domains c) y = Some (v, d) -> In (v, s) (src_strs (c_domains c) x)) as K.
  { intros y d H1 H2. unfold src_strs. apply at_var_In. exists y, d. split; [|easy].
    apply in_flat_map. eauto. }
  destruct a as [y|b|op y [z|f]|op y [z|f|s']|op y [l|l]|op [z|f|s'] y|op y [l|l]|op y|t ns value len|op [y|] id s'|a b r|op y pat];
    cbn [build_atom assign_var_leaf leaf_strs mk_freq mk_seg mk_geo atom_strs atom_ok] in *; try contradiction;
    rewrite ?in_map_iff in H.
  - has_dv HA. destruct D as (d & D & _). cbn [set_var av_var mk_var av_attr sv_string mk_str] in H.
    rewrite (decl_id _ _ _ _ D) in H. destruct H as [[= -> ->]|[]]. eapply K; eauto. now left.
  - destruct HA as [HA _]. has_dv HA. destruct D as (d & D & _). destruct H as (y' & E & H).
    cbn [set_var av_var mk_var av_attr] in E. rewrite (decl_id _ _ _ _ D) in E. injection E as -> <-.
    apply (K y d); auto. unfold build_strs in H. apply in_map_iff in H. destruct H as (s' & <- & H).
    apply in_map_iff. exists s'. easy.
  - has_dv HA. destruct D as (d & D & _). cbn [set_var av_var mk_var av_attr sv_string mk_str] in H.
    rewrite (decl_id _ _ _ _ D) in H. destruct H as [[= -> ->]|[]]. eapply K; eauto. now left.
  - destruct HA as [HA _]. has_dv HA. destruct D as (d & D & _). destruct H as (y' & E & H).
    cbn [set_var av_var mk_var av_attr] in E. rewrite (decl_id _ _ _ _ D) in E. injection E as -> <-.
    apply (K y d); auto. unfold build_strs in H. apply in_map_iff in H. destruct H as (s' & <- & H).
    apply in_map_iff. exists s'. easy.
  - destruct HA as (_ & HA & _). has_dv HA. destruct D as (d & D & _).
    cbn [set_var av_var mk_var av_attr sv_string mk_str] in H.
    rewrite (decl_id _ _ _ _ D) in H. destruct H as [[= -> ->]|[]]. eapply K; eauto. now left.
Qed.

Lemma R_str_ints c0 c p q : R_str c p q -> leaf_ints c0 q = leaf_ints c0 p.
Proof.
  destruct p as [b|v|op v x|op v [z|f|s|e]|op [z|s|v] [l|l|w]|op v [l|l]|op v|v ty ns value len now id|op h v id s now|h a b r la lo|op v pat];
    cbn [R_str]; try (now intros ->); now intros (y & -> & _).
Qed.
Lemma ints_const c0 cs p q : assign_const_leaf cs p = Some q -> leaf_ints c0 q = leaf_ints c0 p.
Proof.
  destruct p; cbn; try (intros [= <-]; reflexivity).
  destruct (constant_name ty); [|discriminate]. destruct (get_integer_constant s cs); [|discriminate].
  now intros [= <-].
Qed.
Lemma leaf_ints_src c cs x a : In a (src_atoms x) -> atom_ok (c_domains c) cs a ->
  incl (leaf_ints c (assign_var_leaf c (build_atom a))) (src_ints (c_domains c) x).
Proof.
  intros Ha HA [v z'] H.
  destruct a as [y|b|op y [z|f]|op y [z|f|s']|op y [l|l]|op [z|f|s'] y|op y [l|l]|op y|t ns value len|op [y|] id s'|a b r|op y pat];
    cbn [build_atom assign_var_leaf leaf_ints mk_freq mk_seg mk_geo atom_ok set_var av_var mk_var av_attr] in *; try contradiction.
  assert (exists w t, dv c y w t) as (w & t & D) by (destruct HA as [[HA _]|[HA|HA]]; has_dv HA; eauto).
  destruct (dv_dom _ _ _ _ D) as (d' & N & T'). destruct D as (d & D & T). rewrite (decl_id _ _ _ _ D), N in H.
  pose proof (decl_spec _ _ _ _ D) as [N' _]. rewrite N in N'. injection N' as ->.
  destruct (btype (d_bound d)) eqn:E; try contradiction. destruct H as [[= -> ->]|[]].
  unfold src_ints. apply at_var_In. exists y, d. split; [|easy]. apply filter_In. split.
  - apply in_flat_map. exists (AEq op y (SInt z')). split; [easy|now left].
  - cbn [fst]. unfold is_ienum. now rewrite D, E.
Qed.

Definition is_freq (p : leaf) : bool := match p with PFreq _ _ _ _ _ _ _ => true | _ => false end.

(** *** Whole passes *)
Record cfg_ok (c : config) : Prop := {
  ok_tabs : tabs_ok c;
  ok_few : few (c_domains c);
  ok_plain : forall d, In d (c_domains c) -> plain_bound (d_bound d);
  ok_pos : pos_strs c /\ pos_ints c }.

Section Passes.
  Variables (c0 : config) (cs : constants) (x : src) (always : bool).
  Hypothesis HC : cfg_ok c0.
  Hypothesis HS : src_ok (c_domains c0) cs x.
  Hypothesis HF : fits c0 always x.

  Notation bz := (busy c0 (src_strs (c_domains c0) x) (src_ints (c_domains c0) x)).

  Lemma bz_start : bz c0.
  Proof.
    split; auto using ext_refl, (ok_tabs _ HC), (ok_pos _ HC); intros v s H; now left.
  Qed.

  Lemma str_pass c e e' c' :
    bz c -> Forall (fun p => incl (leaf_strs p) (src_strs (c_domains c0) x)) (expr_leaves e) ->
    assign_str_id c e always = Ok (e', c') -> bz c' /\ ext c c' /\ shape (R_str c') e e'.
  Proof.
    intros B L H. eapply trav_shape; eauto.
    - intros c1 c2 p q. apply R_str_ext.
    - intros c1 p p' c2 B1 L1 H1. eapply assign_str_leaf_busy; eauto; apply HF.
  Qed.
  Lemma ie_pass c e e' c' :
    bz c -> Forall (fun p => incl (leaf_ints c0 p) (src_ints (c_domains c0) x)) (expr_leaves e) ->
    assign_ienum_id c e always = Ok (e', c') -> bz c' /\ ext c c' /\ shape (R_ie c') e e'.
  Proof.
    intros B L H. eapply trav_shape; eauto.
    - intros c1 c2 p q. apply R_ie_ext.
    - intros c1 p p' c2 B1 L1 H1. eapply assign_ie_leaf_busy; eauto; apply HF.
  Qed.
  Lemma fix_pass c e e' c' : bz c -> fix_float c e = Ok (e', c') -> c' = c /\ shape (R_fix c) e e'.
  Proof.
    intros B H.
    destruct (trav_shape fix_leaf (fun c1 => c1 = c) (fun _ => True) (fun c1 p q => R_fix c1 p q)) with (e := e) (c := c) (e' := e') (c' := c')
      as (E & _ & K); auto.
    - intros c1 c2 p q. apply R_fix_ext.
    - intros c1 p p' c2 -> _ H1. apply fix_leaf_ok in H1.
      + destruct H1 as [-> K]. auto using ext_refl.
      + rewrite (bz_doms _ _ _ _ B). apply (ok_plain _ HC).
    - apply Forall_forall. easy.
    - subst c'. easy.
  Qed.

  Let e1 := assign_variable_id c0 (build x).
  Lemma e1_rel : rel_src (fun a q => atom_ok (c_domains c0) cs a /\ In a (src_atoms x) /\ q = assign_var_leaf c0 (build_atom a)) x e1.
  Proof.
    eapply rel_src_impl; [eapply rel_src_shape; [apply rel_src_build|apply shape_map]|].
    intros a q Ha (p & -> & ->). unfold src_ok in HS. rewrite Forall_forall in HS. auto.
  Qed.

  Lemma insert_passes e2 e3 c3 e4 c4 e6 c6 :
    assign_constants cs e1 = Some e2 -> assign_str_id c0 e2 always = Ok (e3, c3) ->
    assign_ienum_id c3 e3 always = Ok (e4, c4) -> fix_float c4 (sort_lists e4) = Ok (e6, c6) ->
    bz c6 /\ res_expr c6 cs x e6.
  Proof.
    intros H2 H3 H4 H6. apply assign_constants_shape in H2.
    pose proof (rel_src_shape _ _ _ _ e1_rel _ H2) as R2. cbv beta in R2.
    destruct (str_pass c0 e2 e3 c3 bz_start) as (B3 & X3 & S3); auto.
    { eapply rel_src_leaves; [exact R2|]. intros a q Ha (p & (HA & _ & ->) & E). cbv beta.
      rewrite (strs_const _ _ _ E). eapply leaf_strs_src; eauto. }
    pose proof (rel_src_shape _ _ _ _ R2 _ S3) as R3. cbv beta in R3.
    destruct (ie_pass c3 e3 e4 c4 B3) as (B4 & X4 & S4); auto.
    { eapply rel_src_leaves; [exact R3|]. intros a q Ha (q2 & (p & (HA & _ & ->) & E) & E3). cbv beta.
      rewrite (R_str_ints c0 _ _ _ E3), (ints_const _ _ _ _ E). eapply leaf_ints_src; eauto. }
    pose proof (rel_src_shape _ _ _ _ R3 _ S4) as R4. cbv beta in R4.
    destruct (fix_pass c4 _ e6 c6 B4 H6) as (-> & S6).
    pose proof (rel_src_shape _ _ _ _ (rel_src_shape _ _ _ _ R4 _ (shape_map sort_leaf e4)) _ S6) as R6. cbv beta in R6.
    split; [exact B4|]. eapply rel_src_impl; [exact R6|].
    intros a q Ha (q5 & (q4 & (q3 & (q2 & (p & (HA & _ & ->) & E2) & E3) & E4) & ->) & E6).
    eapply (leaf_insert c0 c4 cs a q2 q3 q4 q); eauto.
    - apply (bz_doms _ _ _ _ B4).
    - now rewrite (bz_doms _ _ _ _ B4).
    - eapply R_str_ext; [exact X4|exact E3].
  Qed.

  Lemma make_passes e3 c3 e4 c4 e5 c5 :
    assign_str_id c0 e1 always = Ok (e3, c3) ->
    assign_ienum_id c3 e3 always = Ok (e4, c4) -> fix_float c4 e4 = Ok (e5, c5) ->
    bz c5 /\ forall e6, assign_constants cs e5 = Some e6 -> res_expr c5 cs x (sort_lists e6).
  Proof.
    intros H3 H4 H6.
    destruct (str_pass c0 e1 e3 c3 bz_start) as (B3 & X3 & S3); auto.
    { eapply rel_src_leaves; [exact e1_rel|]. intros a q Ha (HA & _ & ->). cbv beta.
      eapply leaf_strs_src; eauto. }
    pose proof (rel_src_shape _ _ _ _ e1_rel _ S3) as R3. cbv beta in R3.
    destruct (ie_pass c3 e3 e4 c4 B3) as (B4 & X4 & S4); auto.
    { eapply rel_src_leaves; [exact R3|]. intros a q Ha (p & (HA & _ & ->) & E3). cbv beta.
      rewrite (R_str_ints c0 _ _ _ E3). eapply leaf_ints_src; eauto. }
    pose proof (rel_src_shape _ _ _ _ R3 _ S4) as R4. cbv beta in R4.
    destruct (fix_pass c4 _ e5 c5 B4 H6) as (-> & S6).
    pose proof (rel_src_shape _ _ _ _ R4 _ S6) as R6. cbv beta in R6.
    split; [exact B4|]. intros e6 H. apply assign_constants_shape in H.
    pose proof (rel_src_shape _ _ _ _ (rel_src_shape _ _ _ _ R6 _ H) _ (shape_map sort_leaf e6)) as R7. cbv beta in R7.
    eapply rel_src_impl; [exact R7|].
    intros a q Ha (q5 & (q4 & (q3 & (q2 & (p & (HA & _ & ->) & E2) & E3) & E4) & E5) & ->).
    eapply (leaf_make c0 c4 cs a q2 q3 q4 q5); eauto.
    - apply (bz_doms _ _ _ _ B4).
    - now rewrite (bz_doms _ _ _ _ B4).
    - eapply R_str_ext; [exact X4|exact E2].
  Qed.

  Lemma change_passes e3 c3 e4 c4 e5 c5 :
    assign_str_id c0 e1 always = Ok (e3, c3) ->
    assign_ienum_id c3 e3 always = Ok (e4, c4) -> fix_float c4 (sort_lists e4) = Ok (e5, c5) ->
    bz c5 /\ rel_src (fun a q => is_freq q = true \/ res_leaf c5 cs a q) x e5.
  Proof.
    intros H3 H4 H6.
    destruct (str_pass c0 e1 e3 c3 bz_start) as (B3 & X3 & S3); auto.
    { eapply rel_src_leaves; [exact e1_rel|]. intros a q Ha (HA & _ & ->). cbv beta.
      eapply leaf_strs_src; eauto. }
    pose proof (rel_src_shape _ _ _ _ e1_rel _ S3) as R3. cbv beta in R3.
    destruct (ie_pass c3 e3 e4 c4 B3) as (B4 & X4 & S4); auto.
    { eapply rel_src_leaves; [exact R3|]. intros a q Ha (p & (HA & _ & ->) & E3). cbv beta.
      rewrite (R_str_ints c0 _ _ _ E3). eapply leaf_ints_src; eauto. }
    pose proof (rel_src_shape _ _ _ _ R3 _ S4) as R4. cbv beta in R4.
    destruct (fix_pass c4 _ e5 c5 B4 H6) as (-> & S6).
    pose proof (rel_src_shape _ _ _ _ (rel_src_shape _ _ _ _ R4 _ (shape_map sort_leaf e4)) _ S6) as R6. cbv beta in R6.
    split; [exact B4|]. eapply rel_src_impl; [exact R6|].
    intros a q Ha (q5 & (q4 & (q3 & (p & (HA & _ & ->) & E3) & E4) & ->) & E6).
    assert (is_freq q = true \/ assign_const_leaf cs (assign_var_leaf c0 (build_atom a)) = Some (assign_var_leaf c0 (build_atom a))) as [K|K].
    { destruct a as [y|b|op y [z|f]|op y [z|f|s]|op y [l|l]|op [z|f|s] y|op y [l|l]|op y|t ns value len|op [y|] id s|a b r|op y pat];
        try (right; reflexivity). left.
      cbn [build_atom assign_var_leaf mk_freq R_str] in E3. destruct E3 as (y & -> & _).
      cbn [R_ie] in E4. subst q4. cbn [sort_leaf R_fix] in E6. now subst q. }
    - now left.
    - right. eapply (leaf_insert c0 c4 cs a _ q3 q4 q); eauto.
      + apply (bz_doms _ _ _ _ B4).
      + now rewrite (bz_doms _ _ _ _ B4).
      + eapply R_str_ext; [exact X4|exact E3].
  Qed.
End Passes.
