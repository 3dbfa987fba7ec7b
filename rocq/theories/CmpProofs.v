(** The comparison of predicates is a total order, and equal keys mean the same predicate. *)
From Coq Require Import ZArith NArith String Ascii Bool List Lia.
From Coq Require Import Floats.SpecFloat.
From Coq Require Import ZifyBool ZifyNat ZifyN.
From Verif Require Import Base Float Value Ast Special Match RbTree PredMap BaseProofs EvalProofs.
Import ListNotations.

(** *** Total orders given by a comparison function, on the elements satisfying [P] *)
Record total_cmp {A} (P : A -> Prop) (cmp : A -> A -> comparison) : Prop := {
  tc_anti : forall x y, P x -> P y -> cmp y x = CompOpp (cmp x y);
  tc_lt : forall x y z, P x -> P y -> P z -> cmp x y = Lt -> cmp y z = Lt -> cmp x z = Lt;
  tc_eq : forall x y z, P x -> P y -> P z -> cmp x y = Eq -> cmp x z = cmp y z }.

Lemma total_map {A B} (f : A -> B) (P : A -> Prop) (Q : B -> Prop) cmp cmp' :
  total_cmp Q cmp -> (forall x, P x -> Q (f x)) ->
  (forall x y, P x -> P y -> cmp' x y = cmp (f x) (f y)) -> total_cmp P cmp'.
Proof.
  intros [H1 H2 H3] HQ E. split.
  - intros x y Hx Hy. rewrite !E by easy. auto.
  - intros x y z Hx Hy Hz. rewrite !E by easy. eauto.
  - intros x y z Hx Hy Hz. rewrite !E by easy. eauto.
Qed.

Lemma Z_total : total_cmp (fun _ => True) Z.compare.
Proof.
  split.
  - intros x y _ _. apply Z.compare_antisym.
  - intros x y z _ _ _. rewrite !Z.compare_lt_iff. lia.
  - intros x y z _ _ _ H. apply Z.compare_eq_iff in H. now subst.
Qed.

Definition cmp2 {A B} (ca : A -> A -> comparison) (cb : B -> B -> comparison) (x y : A * B) : comparison :=
  match ca (fst x) (fst y) with Eq => cb (snd x) (snd y) | c => c end.

Lemma pair_total {A B} (P : A -> Prop) (Q : B -> Prop) ca cb :
  total_cmp P ca -> total_cmp Q cb -> total_cmp (fun x => P (fst x) /\ Q (snd x)) (cmp2 ca cb).
Proof.
  intros [A1 A2 A3] [B1 B2 B3]. split; unfold cmp2.
  - intros [x x'] [y y'] [Hx Hx'] [Hy Hy']. simpl in *. rewrite (A1 x y) by easy.
    destruct (ca x y); simpl; auto.
  - intros [x x'] [y y'] [z z'] [Hx Hx'] [Hy Hy'] [Hz Hz']. simpl in *.
    destruct (ca x y) eqn:Exy; try discriminate.
    + rewrite (A3 x y z) by easy. destruct (ca y z); try easy. eauto.
    + intros _. destruct (ca y z) eqn:Eyz; try discriminate; intros _.
      * assert (ca z y = Eq) as E. { rewrite (A1 y z), Eyz by easy. reflexivity. }
        assert (ca x z = Lt) as ->; [|easy].
        rewrite (A1 z x), (A3 z y x), (A1 x y), Exy by easy. reflexivity.
      * now rewrite (A2 x y z).
  - intros [x x'] [y y'] [z z'] [Hx Hx'] [Hy Hy'] [Hz Hz']. simpl in *.
    destruct (ca x y) eqn:Exy; try discriminate. intros E.
    rewrite (A3 x y z) by easy. destruct (ca y z); try easy. eauto.
Qed.

(** *** Doubles *)
Definition trip (f : flt) : Z * (Z * Z) :=
  match f with
  | S754_zero _ => (0, (0, 0))
  | S754_infinity false => (2, (0, 0))
  | S754_infinity true => (-2, (0, 0))
  | S754_nan => (3, (0, 0))
  | S754_finite false m e => (1, (e, Zpos m))
  | S754_finite true m e => (-1, (- e, Zneg m))
  end%Z.
Definition cmp3 := cmp2 Z.compare (cmp2 Z.compare Z.compare).

Lemma cmp3_total : total_cmp (fun _ => True) cmp3.
Proof.
  pose proof (pair_total _ _ _ _ Z_total (pair_total _ _ _ _ Z_total Z_total)) as H.
  destruct H as [H1 H2 H3]. split; intros; [apply H1|eapply H2; eauto|eapply H3; eauto]; easy.
Qed.

Lemma SFcompare_trip a b :
  a <> S754_nan -> b <> S754_nan -> SFcompare a b = Some (cmp3 (trip a) (trip b)).
Proof.
  intros Ha Hb.
  destruct a as [[]|[]| |[] m e], b as [[]|[]| |[] m' e'];
    try congruence; try reflexivity; unfold cmp3, cmp2; simpl.
  - f_equal. rewrite Z.compare_opp, (Z.compare_antisym e e').
    destruct (Z.compare e e') eqn:E; simpl; reflexivity.
Qed.

Lemma fltb_trip a b :
  a <> S754_nan -> b <> S754_nan ->
  fltb a b = match cmp3 (trip a) (trip b) with Lt => true | _ => false end.
Proof. intros Ha Hb. unfold fltb, SFltb. now rewrite SFcompare_trip. Qed.
Lemma fleb_trip a b :
  a <> S754_nan -> b <> S754_nan ->
  fleb a b = match cmp3 (trip a) (trip b) with Gt => false | _ => true end.
Proof.
  intros Ha Hb. unfold fleb, SFleb. rewrite SFcompare_trip by easy.
  now destruct (cmp3 (trip a) (trip b)).
Qed.
Lemma fltb_nan_l a : fltb S754_nan a = false.
Proof. reflexivity. Qed.
Lemma fltb_nan_r a : fltb a S754_nan = false.
Proof. now destruct a. Qed.

Lemma fcmp_trip a b :
  a <> S754_nan -> b <> S754_nan -> fcmp a b = cmp3 (trip a) (trip b).
Proof.
  intros Ha Hb. unfold fcmp, fgtb.
  change (SFltb b a) with (fltb b a). rewrite !fltb_trip by easy.
  rewrite (tc_anti _ _ cmp3_total (trip a) (trip b)) by easy.
  now destruct (cmp3 (trip a) (trip b)).
Qed.

Lemma fcmp_total : total_cmp (fun f => f <> S754_nan) fcmp.
Proof.
  apply (total_map trip _ (fun _ => True) cmp3); [apply cmp3_total|easy|].
  intros; now apply fcmp_trip.
Qed.

(** Doubles that compare equal: the same, or two zeros. *)
Definition fsame (a b : flt) : Prop :=
  a = b \/ ((exists s, a = S754_zero s) /\ (exists s, b = S754_zero s)).

Lemma fcmp_eq_same a b : a <> S754_nan -> b <> S754_nan -> fcmp a b = Eq -> fsame a b.
Proof.
  intros Ha Hb. rewrite fcmp_trip by easy. unfold cmp3, cmp2.
  destruct a as [s|[]| |[] m e], b as [s'|[]| |[] m' e']; simpl; try congruence; intros H; try (left; congruence).
  - right; split; eauto.
  - destruct (Z.compare (- e) (- e')) eqn:E; try discriminate. apply Z.compare_eq_iff in E.
    left. f_equal; [|lia].
    rewrite <- Pos.compare_antisym in H. apply Pos.compare_eq_iff in H. easy.
  - destruct (Z.compare e e') eqn:E; try discriminate. apply Z.compare_eq_iff in E.
    left. f_equal; [|lia]. now apply Pos.compare_eq_iff in H.
Qed.

Lemma fsame_fltb_r x a b : fsame a b -> fltb x a = fltb x b.
Proof. intros [->|[(s & ->) (s' & ->)]]; [easy|]. now destruct x. Qed.
Lemma fsame_fltb_l x a b : fsame a b -> fltb a x = fltb b x.
Proof. intros [->|[(s & ->) (s' & ->)]]; [easy|]. now destruct x. Qed.
Lemma fsame_fleb_r x a b : fsame a b -> fleb x a = fleb x b.
Proof. intros [->|[(s & ->) (s' & ->)]]; [easy|]. now destruct x. Qed.
Lemma fsame_fleb_l x a b : fsame a b -> fleb a x = fleb b x.
Proof. intros [->|[(s & ->) (s' & ->)]]; [easy|]. now destruct x. Qed.
Lemma fsame_feq x a b : fsame a b -> feq x a = feq x b.
Proof.
  intros [->|[(s & ->) (s' & ->)]]; [easy|]. unfold feq, fsub, SFsub.
  destruct x as [[]|[]| |[] m e], s, s'; reflexivity.
Qed.

(** *** Strings *)
Lemma ascii_compare_N a b : Ascii.compare a b = N.compare (N_of_ascii a) (N_of_ascii b).
Proof. reflexivity. Qed.

Lemma string_total : total_cmp (fun _ => True) String.compare.
Proof.
  split.
  - intros x y _ _. apply String.compare_antisym.
  - intros x y z _ _ _. revert y z.
    induction x as [|a x IH]; intros [|b y] [|c z]; simpl; try congruence.
    rewrite !ascii_compare_N.
    destruct (N.compare_spec (N_of_ascii a) (N_of_ascii b)) as [E|E|E]; try congruence;
      destruct (N.compare_spec (N_of_ascii b) (N_of_ascii c)) as [E'|E'|E']; try congruence;
      destruct (N.compare_spec (N_of_ascii a) (N_of_ascii c)) as [E''|E''|E'']; try congruence;
      try (exfalso; lia); eauto.
  - intros x y z _ _ _ H. apply String.compare_eq_iff in H. now subst.
Qed.

(** *** Fields and keys *)
Definition field_ok (f : field) : Prop := match f with FF x => x <> S754_nan | _ => True end.

Lemma field_total : total_cmp field_ok field_cmp.
Proof.
  destruct Z_total as [Z1 Z2 Z3], fcmp_total as [F1 F2 F3], string_total as [S1 S2 S3].
  split.
  - intros [x|x|x] [y|y|y] Hx Hy; simpl in *; auto.
  - intros [x|x|x] [y|y|y] [z|z|z] Hx Hy Hz; simpl in *; try congruence; eauto.
  - intros [x|x|x] [y|y|y] [z|z|z] Hx Hy Hz; simpl in *; try congruence; eauto.
Qed.

Lemma lex_total : total_cmp (Forall field_ok) lex.
Proof.
  destruct field_total as [F1 F2 F3].
  split.
  - intros x; induction x as [|a x IH]; intros [|b y] Hx Hy; simpl; try reflexivity.
    inversion Hx; inversion Hy; subst. rewrite (F1 a b) by easy.
    destruct (field_cmp a b); simpl; auto.
  - intros x; induction x as [|a x IH]; intros [|b y] [|c z] Hx Hy Hz; simpl; try congruence.
    inversion Hx; inversion Hy; inversion Hz; subst.
    destruct (field_cmp a b) eqn:Eab; try discriminate.
    + rewrite (F3 a b c) by easy. destruct (field_cmp b c); try easy. eauto.
    + intros _. destruct (field_cmp b c) eqn:Ebc; try discriminate; intros _.
      * assert (field_cmp c b = Eq) as E. { rewrite (F1 b c), Ebc by easy. reflexivity. }
        assert (field_cmp a c = Lt) as ->; [|easy].
        rewrite (F1 c a), (F3 c b a), (F1 a b), Eab by easy. reflexivity.
      * now rewrite (F2 a b c).
  - intros x; induction x as [|a x IH]; intros [|b y] [|c z] Hx Hy Hz; simpl; try congruence.
    inversion Hx; inversion Hy; inversion Hz; subst.
    destruct (field_cmp a b) eqn:Eab; try discriminate. intros E.
    rewrite (F3 a b c) by easy. destruct (field_cmp b c); try easy. eauto.
Qed.

(** Literals of a predicate: no NaN. *)
Definition leaf_fin (p : leaf) : Prop := Forall field_ok (leaf_key p).
Definition expr_fin (e : expr) : Prop := Forall field_ok (node_key e).

Lemma expr_total : total_cmp expr_fin expr_cmp.
Proof.
  apply (total_map node_key _ (Forall field_ok) lex); [apply lex_total|easy|reflexivity].
Qed.

(** *** Equal keys *)
Definition field_same (a b : field) : Prop :=
  match a, b with
  | FZ x, FZ y => x = y
  | FF x, FF y => fsame x y
  | FS x, FS y => x = y
  | _, _ => False
  end.

Lemma field_cmp_eq a b : field_ok a -> field_ok b -> field_cmp a b = Eq -> field_same a b.
Proof.
  destruct a, b; simpl; try discriminate; intros Ha Hb H.
  - now apply Z.compare_eq_iff.
  - now apply fcmp_eq_same.
  - now apply String.compare_eq_iff.
Qed.

Lemma lex_eq a b : Forall field_ok a -> Forall field_ok b -> lex a b = Eq -> Forall2 field_same a b.
Proof.
  revert b; induction a as [|x a IH]; intros [|y b] Ha Hb H; simpl in *; try discriminate; [constructor|].
  inversion Ha; inversion Hb; subst.
  destruct (field_cmp x y) eqn:E; try discriminate.
  constructor; [now apply field_cmp_eq|now apply IH].
Qed.

Lemma map_FZ_same l l' : Forall2 field_same (map FZ l) (map FZ l') -> l = l'.
Proof.
  revert l'; induction l as [|x l IH]; intros [|y l'] H; simpl in *; inversion H; subst; auto.
  f_equal; [assumption|auto].
Qed.
Lemma ints_key_same l l' : Forall2 field_same (ints_key l) (ints_key l') -> l = l'.
Proof. unfold ints_key. intros H; inversion H; subst. now apply map_FZ_same. Qed.

Ltac inv_keys :=
  repeat match goal with
  | H : Forall2 field_same (_ :: _) (_ :: _) |- _ => inversion H; subst; clear H
  | H : Forall2 field_same [] _ |- _ => inversion H; subst; clear H
  | H : Forall2 field_same _ [] |- _ => inversion H; subst; clear H
  | H : Forall2 field_same (ints_key ?a) (ints_key ?b) |- _ => apply ints_key_same in H; try subst
  | H : field_same (FZ _) (FZ _) |- _ => cbn in H; try subst
  | H : field_same (FF _) (FF _) |- _ => cbn in H
  | H : field_same (FS _) (FS _) |- _ => cbn in H; try subst
  end.

(** Extra conditions on the fields of a predicate that are not compared or are given to abstract
    functions: the variable `now` is the same one everywhere ([None]: it does not occur), and geo literals
    are no negative zero. *)
Definition leaf_std (nowv : option N) (p : leaf) : Prop :=
  match p with
  | PFreq _ _ _ _ _ now _ => Some (av_var now) = nowv
  | PSeg _ _ _ _ _ now => Some (av_var now) = nowv
  | PGeo _ lat lon radius _ _ =>
      lat <> S754_zero true /\ lon <> S754_zero true /\ radius <> S754_zero true
  | _ => True
  end.

Lemma fsame_plain a b : fsame a b -> a <> S754_zero true -> b <> S754_zero true -> a = b.
Proof. intros [->|[([] & ->) ([] & ->)]]; congruence. Qed.

Section WithGeo.
  Context {G : Geo}.
  Local Open Scope res_scope.

  Lemma FV_same v w : field_same (FV v) (FV w) -> av_var v = av_var w.
  Proof. cbn. lia. Qed.

  Lemma bsame (b c : bool) : field_same (FB b) (FB c) -> b = c.
  Proof. destruct b, c; cbn; congruence. Qed.

  Theorem leaf_key_same nowv p q env :
    leaf_fin p -> leaf_fin q -> leaf_std nowv p -> leaf_std nowv q ->
    lex (leaf_key p) (leaf_key q) = Eq -> match_leaf env p = match_leaf env q.
  Proof.
    intros Hp Hq Sp Sq H. apply lex_eq in H; [|easy|easy]. clear Hp Hq.
    destruct p as [b|v|op v c|op v x|op l r|op v l|op v|v ty ns value len now id|op h v id sec now
                  |h la lo ra lav lov|op v pat];
    destruct q as [b'|v'|op' v' c'|op' v' x'|op' l' r'|op' v' l'|op' v'|v' ty' ns' value' len' now' id'
                  |op' h' v' id' sec' now'|h' la' lo' ra' lav' lov'|op' v' pat'];
      cbn [leaf_key] in H; inv_keys; try discriminate; try lia.
    - (* literals *) match goal with H : field_same (FB _) _ |- _ => apply bsame in H; now subst end.
    - match goal with H : field_same (FV _) _ |- _ => apply FV_same in H end.
      cbn. now replace (av_var v) with (av_var v').
    - (* comparisons *)
      match goal with H : field_same (FV _) _ |- _ => apply FV_same in H; rename H into Ev end.
      match goal with H : cmp_num _ = cmp_num _ |- _ => assert (op = op') as -> by (destruct op, op'; easy); clear H end.
      cbn. rewrite Ev. destruct c, c'; inv_keys; try discriminate; try reflexivity.
      unfold with_var. destruct (read_var env (av_var v')) as [[x|]| | |]; simpl; auto.
      destruct x; simpl; auto. f_equal. unfold fgtb, fgeb.
      destruct op'; [apply fsame_fltb_r|apply fsame_fleb_r|apply fsame_fltb_l|apply fsame_fleb_l]; easy.
    - (* equalities *)
      match goal with H : field_same (FV _) _ |- _ => apply FV_same in H; rename H into Ev end.
      match goal with H : eq_num _ = eq_num _ |- _ => assert (op = op') as -> by (destruct op, op'; easy); clear H end.
      cbn. rewrite Ev. unfold with_var.
      destruct (read_var env (av_var v')) as [[y|]| | |]; simpl; auto.
      destruct x, x'; inv_keys; try discriminate; try reflexivity; unfold match_equality; destruct y; simpl; auto.
      + now rewrite (fsame_feq f1 f f0).
      + now replace (sv_str s) with (sv_str s0).
      + now replace (ie_id e) with (ie_id e0).
    - (* sets *)
      match goal with H : set_num _ = set_num _ |- _ => assert (op = op') as -> by (destruct op, op'; easy); clear H end.
      destruct l, l', r, r'; inv_keys; try discriminate; try lia; unfold strs_key in *; inv_keys;
        repeat match goal with H : field_same (FV _) _ |- _ => apply FV_same in H end;
        cbn [match_leaf match_set]; unfold string_in_string_list; try reflexivity;
        repeat match goal with
        | H : av_var _ = av_var _ |- _ => rewrite H; clear H
        | H : map sv_str _ = map sv_str _ |- _ => rewrite H; clear H
        | H : sv_str _ = sv_str _ |- _ => rewrite H; clear H end; reflexivity.
    - (* lists *)
      match goal with H : field_same (FV _) _ |- _ => apply FV_same in H; rename H into Ev end.
      match goal with H : list_num _ = list_num _ |- _ => assert (op = op') as -> by (destruct op, op'; easy); clear H end.
      cbn. rewrite Ev. destruct l, l'; inv_keys; try discriminate.
      + match goal with H : Forall2 _ (ints_key _) (ints_key _) |- _ => apply ints_key_same in H; now subst | _ => now subst end.
      + unfold strs_key in *. inv_keys. unfold match_list.
        match goal with H : map sv_str _ = map sv_str _ |- _ => rewrite H end. reflexivity.
    - (* null *)
      match goal with H : field_same (FV _) _ |- _ => apply FV_same in H; rename H into Ev end.
      match goal with H : null_num _ = null_num _ |- _ => assert (op = op') as -> by (destruct op, op'; easy); clear H end.
      cbn. now rewrite Ev.
    - (* frequency *)
      match goal with H : field_same (FV _) _ |- _ => apply FV_same in H; rename H into Ev end.
      cbn [leaf_std] in *. rewrite <- Sq in Sp. injection Sp as Sp. cbn [match_leaf]. rewrite Ev, Sp.
      match goal with H : ftype_num _ = ftype_num _ |- _ =>
        assert (ty = ty') as -> by (destruct ty, ty'; easy) end.
      assert (forall caps value id len n,
        within_frequency_caps caps ty' id ns value len n = within_frequency_caps caps ty' id ns' value len n) as E.
      { intros caps. induction caps as [|k t IH]; intros; simpl; [easy|].
        match goal with H : sv_str ns = sv_str ns' |- _ => rewrite H end.
        now rewrite IH. }
      unfold with_var. destruct (read_var env (av_var v')) as [[y|]| | |]; simpl; auto.
      destruct y; simpl; auto. destruct l; simpl; auto.
      destruct (read_var env (av_var now')) as [[y|]| | |]; simpl; auto.
      destruct y; simpl; auto.
      match goal with |- Ok ?a = Ok ?b => assert (a = b) as -> ; [|easy] end.
      apply (E (f :: l)).
    - (* segments *)
      repeat match goal with H : field_same (FV _) _ |- _ => apply FV_same in H end.
      match goal with H : seg_num _ = seg_num _ |- _ => assert (op = op') as -> by (destruct op, op'; easy); clear H end.
      cbn [leaf_std] in *. rewrite <- Sq in Sp. injection Sp as Sp. cbn [match_leaf]. rewrite Sp.
      now replace (av_var v) with (av_var v').
    - (* geo *)
      repeat match goal with H : field_same (FV _) _ |- _ => apply FV_same in H end.
      cbn [leaf_std] in *. cbn [match_leaf].
      replace (av_var lav) with (av_var lav'). replace (av_var lov) with (av_var lov').
      destruct Sp as (S1 & S2 & S3), Sq as (T1 & T2 & T3).
      repeat match goal with H : fsame _ _ |- _ => apply fsame_plain in H; [|easy|easy]; subst end.
      reflexivity.
    - (* strings *)
      repeat match goal with H : field_same (FV _) _ |- _ => apply FV_same in H end.
      match goal with H : str_num _ = str_num _ |- _ => assert (op = op') as -> by (destruct op, op'; easy); clear H end.
      cbn [match_leaf]. now replace (av_var v) with (av_var v').
  Qed.

  Theorem node_key_same nowv V a b env :
    expr_fin a -> expr_fin b ->
    (forall g l, a = ELeaf g l -> leaf_std nowv l) -> (forall g l, b = ELeaf g l -> leaf_std nowv l) ->
    expr_cmp a b = Eq -> nodev V env a = nodev V env b.
  Proof.
    intros Fa Fb Sa Sb H. unfold expr_cmp in H.
    destruct a as [g l|g a1 a2|g a1 a2|g a1], b as [g' l'|g' b1 b2|g' b1 b2|g' b1].
    1: { cbn. eapply leaf_key_same; eauto. }
    all: apply lex_eq in H; [|easy|easy]; clear Fa Fb; cbn [node_key] in H.
    1-4,8,12: exfalso; (destruct l as [| | | | | | | | | |] || destruct l' as [| | | | | | | | | |]); cbn [leaf_key] in H; inv_keys; try discriminate; try lia.
    all: cbn in H; inv_keys; try discriminate; try lia.
    all: cbn; repeat match goal with H : Z.of_N (gid _) = Z.of_N (gid _) |- _ => apply N2Z.inj in H; rewrite H; clear H
      | H : field_same (FN _) (FN _) |- _ => cbn in H; apply N2Z.inj in H; rewrite H; clear H end; reflexivity.
  Qed.
End WithGeo.
