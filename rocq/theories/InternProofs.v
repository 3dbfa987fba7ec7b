(** Interning of strings and enum integers. *)
From Coq Require Import ZArith NArith String Bool List Lia.
From Coq Require Import ZifyBool ZifyNat ZifyN.
From Verif Require Import Base Float Value Ast Config Spec BaseProofs.
Import ListNotations.
Local Open Scope Z_scope.

(** *** Positions *)
Section Index.
  Context {A : Type} (eqb : A -> A -> bool) (eqb_ok : forall x y, eqb x y = true <-> x = y).

  Lemma index_of_shift l x i j : index_of eqb l x (i + j) = option_map (Z.add i) (index_of eqb l x j).
  Proof.
    revert j. induction l as [|y t IH]; intros j; simpl; [easy|].
    destruct (eqb y x); [easy|]. rewrite <- Z.add_assoc. apply IH.
  Qed.

  Lemma index_of_spec l x :
    match index_of eqb l x 0 with
    | Some i => 0 <= i < Z.of_nat (length l) /\ nth_error l (Z.to_nat i) = Some x
    | None => ~ In x l
    end.
  Proof.
    induction l as [|y t IH]; [simpl; tauto|].
    cbn [index_of length In]. destruct (eqb y x) eqn:E.
    - apply eqb_ok in E. subst. cbn. split; [lia|easy].
    - rewrite Z.add_0_l. replace 1 with (1 + 0) by easy. rewrite index_of_shift.
      destruct (index_of eqb t x 0) as [i|]; cbn [option_map].
      + destruct IH as [IH1 IH2]. split; [lia|].
        replace (Z.to_nat (1 + i)) with (S (Z.to_nat i)) by lia. exact IH2.
      + intros [H|H]; [|tauto]. apply eqb_ok in H. congruence.
  Qed.

  Lemma index_of_In l x : index_of eqb l x 0 <> None <-> In x l.
  Proof.
    pose proof (index_of_spec l x) as H. destruct (index_of eqb l x 0).
    - split; [|easy]. intros _. destruct H as [_ H]. eapply nth_error_In; eauto.
    - tauto.
  Qed.

  Lemma index_of_inj l x y i : index_of eqb l x 0 = Some i -> index_of eqb l y 0 = Some i -> x = y.
  Proof.
    intros Hx Hy. pose proof (index_of_spec l x) as Sx. pose proof (index_of_spec l y) as Sy.
    rewrite Hx in Sx. rewrite Hy in Sy. destruct Sx as [_ Sx], Sy as [_ Sy]. congruence.
  Qed.

  Lemma index_of_app l l' x i : index_of eqb l x 0 = Some i -> index_of eqb (l ++ l') x 0 = Some i.
  Proof.
    generalize 0 at 1 2. induction l as [|y t IH]; intros j; simpl; [discriminate|].
    destruct (eqb y x); [easy|]. apply IH.
  Qed.

  Lemma index_of_last l x : ~ In x l -> index_of eqb (l ++ [x]) x 0 = Some (Z.of_nat (length l)).
  Proof.
    induction l as [|y t IH]; intros H.
    - cbn. now rewrite (proj2 (eqb_ok x x)).
    - cbn [app index_of length]. destruct (eqb y x) eqn:E.
      + apply eqb_ok in E. subst. simpl in H. tauto.
      + replace (0 + 1) with (1 + 0) by easy. rewrite index_of_shift, IH; [|simpl in H; tauto].
        cbn [option_map]. f_equal. lia.
  Qed.
End Index.

Lemma str_index_spec l s :
  match str_index l s with
  | Some i => 0 <= i < Z.of_nat (length l) /\ nth_error l (Z.to_nat i) = Some s
  | None => ~ In s l
  end.
Proof. apply index_of_spec. apply String.eqb_eq. Qed.
Lemma int_index_spec l z :
  match int_index l z with
  | Some i => 0 <= i < Z.of_nat (length l) /\ nth_error l (Z.to_nat i) = Some z
  | None => ~ In z l
  end.
Proof. apply index_of_spec. apply Z.eqb_eq. Qed.

Lemma try_get_str_alt c v s :
  try_get_str c v s = match str_index (strs c v) s with Some i => i | None => INVALID_STR end.
Proof. unfold try_get_str, strs. now destruct (find_strmap (c_strs c) v). Qed.
Lemma try_get_ie_alt c v z :
  try_get_ie c v z = match int_index (ints c v) z with Some i => i | None => INVALID_IENUM end.
Proof. unfold try_get_ie, ints. now destruct (find_intmap (c_ints c) v). Qed.

(** *** Table updates *)
Lemma find_push_str ms v s w :
  find_strmap (push_str ms v s) w =
  match find_strmap ms w with
  | Some m => Some (if (v =? w)%N then mkSM (sm_attr m) (sm_var m) (sm_vals m ++ [s]) else m)
  | None => None
  end.
Proof.
  induction ms as [|m t IH]; simpl; [easy|].
  destruct (sm_var m =? v)%N eqn:E; simpl.
  - destruct (sm_var m =? w)%N eqn:E2.
    + apply N.eqb_eq in E, E2. subst. now rewrite N.eqb_refl.
    + destruct (find_strmap t w) eqn:F; [|easy].
      destruct (v =? w)%N eqn:E3; [|easy]. apply N.eqb_eq in E, E3. apply N.eqb_neq in E2. congruence.
  - destruct (sm_var m =? w)%N eqn:E2.
    + destruct (v =? w)%N eqn:E3; [|easy]. apply N.eqb_eq in E2, E3. apply N.eqb_neq in E. congruence.
    + exact IH.
Qed.
Lemma find_app_str ms m w :
  find_strmap (ms ++ [m]) w =
  match find_strmap ms w with
  | Some m' => Some m'
  | None => if (sm_var m =? w)%N then Some m else None
  end.
Proof. induction ms as [|m' t IH]; simpl; [easy|]. now destruct (sm_var m' =? w)%N. Qed.

Lemma find_push_int ms v s w :
  find_intmap (push_int ms v s) w =
  match find_intmap ms w with
  | Some m => Some (if (v =? w)%N then mkIM (im_attr m) (im_var m) (im_vals m ++ [s]) else m)
  | None => None
  end.
Proof.
  induction ms as [|m t IH]; simpl; [easy|].
  destruct (im_var m =? v)%N eqn:E; simpl.
  - destruct (im_var m =? w)%N eqn:E2.
    + apply N.eqb_eq in E, E2. subst. now rewrite N.eqb_refl.
    + destruct (find_intmap t w) eqn:F; [|easy].
      destruct (v =? w)%N eqn:E3; [|easy]. apply N.eqb_eq in E, E3. apply N.eqb_neq in E2. congruence.
  - destruct (im_var m =? w)%N eqn:E2.
    + destruct (v =? w)%N eqn:E3; [|easy]. apply N.eqb_eq in E2, E3. apply N.eqb_neq in E. congruence.
    + exact IH.
Qed.
Lemma find_app_int ms m w :
  find_intmap (ms ++ [m]) w =
  match find_intmap ms w with
  | Some m' => Some m'
  | None => if (im_var m =? w)%N then Some m else None
  end.
Proof. induction ms as [|m' t IH]; simpl; [easy|]. now destruct (im_var m' =? w)%N. Qed.

(** Two configurations that differ at most in their string tables (resp. integer tables). *)
Definition same_but_strs (c c' : config) : Prop :=
  c_domains c' = c_domains c /\ c_cap c' = c_cap c /\ c_minpart c' = c_minpart c
  /\ c_maxsplit c' = c_maxsplit c /\ c_ints c' = c_ints c.
Definition same_but_ints (c c' : config) : Prop :=
  c_domains c' = c_domains c /\ c_cap c' = c_cap c /\ c_minpart c' = c_minpart c
  /\ c_maxsplit c' = c_maxsplit c /\ c_strs c' = c_strs c.

(** What asking for the id of an entry does: the entry is there; or the table is full; or it is
    appended. *)
Definition interned {A} (T T' : N -> list A) (v : N) (s : A) (rm : option Z) (invalid i : Z)
    (index : list A -> A -> option Z) : Prop :=
  (index (T v) s = Some i /\ forall w, T' w = T w)
  \/ (~ In s (T v) /\ rm = Some (Z.of_nat (length (T v))) /\ i = invalid /\ forall w, T' w = T w)
  \/ (~ In s (T v) /\ rm <> Some (Z.of_nat (length (T v))) /\ i = Z.of_nat (length (T v))
      /\ forall w, T' w = if (v =? w)%N then T v ++ [s] else T w).

Lemma get_id_for_string_ok c v s always i c' :
  get_id_for_string c v s always = Ok (i, c') ->
  same_but_strs c c' /\ interned (strs c) (strs c') (av_var v) s (room c (av_var v) always) INVALID_STR i str_index.
Proof.
  unfold get_id_for_string. intros H. set (w := av_var v) in *.
  destruct (find_strmap (c_strs c) w) as [m|] eqn:F.
  - assert (strs c w = sm_vals m) as Es by (unfold strs; now rewrite F).
    destruct (str_index (sm_vals m) s) as [j|] eqn:EI.
    + injection H as <- <-. split; [repeat split|]. left. now rewrite Es.
    + inv_do H. rename a into d. rename a0 into full.
      assert (~ In s (strs c w)) as Hn.
      { rewrite Es. pose proof (str_index_spec (sm_vals m) s) as K. now rewrite EI in K. }
      unfold room. rewrite E.
      destruct always.
      * injection E0 as <-. injection H as <- <-. split; [repeat split|].
        right; right. repeat split; auto; try congruence.
        intros x. unfold strs. cbn [c_strs set_strs]. rewrite find_push_str.
        destruct (N.eqb_spec w x) as [->|Hx].
        -- now rewrite F.
        -- now destruct (find_strmap (c_strs c) x).
      * inv_do E0. injection E0 as <-. rewrite E1.
        destruct (to_uint 64 (a + 1) =? Z.of_nat (length (sm_vals m))) eqn:EF;
          injection H as <- <-.
        -- split; [repeat split|]. right; left. repeat split; auto.
           apply Z.eqb_eq in EF. now rewrite Es, EF.
        -- apply Z.eqb_neq in EF. split; [repeat split|].
           right; right. rewrite Es. repeat split; auto; try congruence.
           ++ intros x. unfold strs. cbn [c_strs set_strs]. rewrite find_push_str.
              destruct (N.eqb_spec w x) as [->|Hx].
              ** now rewrite F.
              ** now destruct (find_strmap (c_strs c) x).
  - assert (strs c w = []) as Es by (unfold strs; now rewrite F).
    set (c1 := set_strs c (c_strs c ++ [mkSM (av_attr v) w []])) in *.
    assert (forall x, strs c1 x = strs c x) as E1.
    { intros x. unfold strs, c1. cbn [c_strs set_strs]. rewrite find_app_str.
      destruct (find_strmap (c_strs c) x) eqn:Fx; [easy|].
      cbn [sm_var]. now destruct (w =? x)%N. }
    inv_do H. rename a into d. rename a0 into full.
    assert (get_domain c w = Ok d) as Ed by exact E.
    assert (forall x, strs (set_strs c1 (push_str (c_strs c1) w s)) x = if (w =? x)%N then [s] else strs c x) as E2.
    { intros x. unfold strs at 1. cbn [c_strs set_strs]. rewrite find_push_str.
      rewrite <- E1. unfold strs. unfold c1 at 1. cbn [c_strs set_strs]. rewrite find_app_str.
      destruct (N.eqb_spec w x) as [->|Hx].
      - rewrite F. cbn [sm_var]. now rewrite N.eqb_refl.
      - cbn [sm_var]. apply N.eqb_neq in Hx. unfold c1. cbn [c_strs set_strs]. rewrite find_app_str.
        cbn [sm_var]. rewrite Hx. now destruct (find_strmap (c_strs c) x). }
    unfold room. rewrite Ed. unfold interned. rewrite Es.
    destruct always.
    + injection E0 as <-. injection H as <- <-. split; [repeat split|]. right; right.
      repeat split; auto. congruence.
    + inv_do E0. injection E0 as <-. rewrite E3.
      destruct (to_uint 64 (a + 1) =? 0) eqn:EF; injection H as <- <-.
      * split; [repeat split|]. right; left. apply Z.eqb_eq in EF.
        repeat split; auto. now rewrite EF.
      * split; [repeat split|]. right; right. apply Z.eqb_neq in EF.
        repeat split; auto. cbn. congruence.
Qed.

Lemma get_id_for_ienum_ok c v s always i c' :
  get_id_for_ienum c v s always = Ok (i, c') ->
  same_but_ints c c' /\ interned (ints c) (ints c') (av_var v) s (room c (av_var v) always) INVALID_IENUM i int_index.
Proof.
  unfold get_id_for_ienum. intros H. set (w := av_var v) in *.
  destruct (find_intmap (c_ints c) w) as [m|] eqn:F.
  - assert (ints c w = im_vals m) as Es by (unfold ints; now rewrite F).
    destruct (int_index (im_vals m) s) as [j|] eqn:EI.
    + injection H as <- <-. split; [repeat split|]. left. now rewrite Es.
    + inv_do H. rename a into d. rename a0 into full.
      assert (~ In s (ints c w)) as Hn.
      { rewrite Es. pose proof (int_index_spec (im_vals m) s) as K. now rewrite EI in K. }
      unfold room. rewrite E.
      destruct always.
      * injection E0 as <-. injection H as <- <-. split; [repeat split|].
        right; right. repeat split; auto; try congruence.
        intros x. unfold ints. cbn [c_ints set_ints]. rewrite find_push_int.
        destruct (N.eqb_spec w x) as [->|Hx].
        -- now rewrite F.
        -- now destruct (find_intmap (c_ints c) x).
      * inv_do E0. injection E0 as <-. rewrite E1.
        destruct (to_uint 64 (a + 1) =? Z.of_nat (length (im_vals m))) eqn:EF;
          injection H as <- <-.
        -- split; [repeat split|]. right; left. repeat split; auto.
           apply Z.eqb_eq in EF. now rewrite Es, EF.
        -- apply Z.eqb_neq in EF. split; [repeat split|].
           right; right. rewrite Es. repeat split; auto; try congruence.
           ++ intros x. unfold ints. cbn [c_ints set_ints]. rewrite find_push_int.
              destruct (N.eqb_spec w x) as [->|Hx].
              ** now rewrite F.
              ** now destruct (find_intmap (c_ints c) x).
  - assert (ints c w = []) as Es by (unfold ints; now rewrite F).
    set (c1 := set_ints c (c_ints c ++ [mkIM (av_attr v) w []])) in *.
    assert (forall x, ints c1 x = ints c x) as E1.
    { intros x. unfold ints, c1. cbn [c_ints set_ints]. rewrite find_app_int.
      destruct (find_intmap (c_ints c) x) eqn:Fx; [easy|].
      cbn [im_var]. now destruct (w =? x)%N. }
    inv_do H. rename a into d. rename a0 into full.
    assert (get_domain c w = Ok d) as Ed by exact E.
    assert (forall x, ints (set_ints c1 (push_int (c_ints c1) w s)) x = if (w =? x)%N then [s] else ints c x) as E2.
    { intros x. unfold ints at 1. cbn [c_ints set_ints]. rewrite find_push_int.
      rewrite <- E1. unfold ints. unfold c1 at 1. cbn [c_ints set_ints]. rewrite find_app_int.
      destruct (N.eqb_spec w x) as [->|Hx].
      - rewrite F. cbn [im_var]. now rewrite N.eqb_refl.
      - cbn [im_var]. apply N.eqb_neq in Hx. unfold c1. cbn [c_ints set_ints]. rewrite find_app_int.
        cbn [im_var]. rewrite Hx. now destruct (find_intmap (c_ints c) x). }
    unfold room. rewrite Ed. unfold interned. rewrite Es.
    destruct always.
    + injection E0 as <-. injection H as <- <-. split; [repeat split|]. right; right.
      repeat split; auto. congruence.
    + inv_do E0. injection E0 as <-. rewrite E3.
      destruct (to_uint 64 (a + 1) =? 0) eqn:EF; injection H as <- <-.
      * split; [repeat split|]. right; left. apply Z.eqb_eq in EF.
        repeat split; auto. now rewrite EF.
      * split; [repeat split|]. right; right. apply Z.eqb_neq in EF.
        repeat split; auto. cbn. congruence.
Qed.

(** No table is empty. *)
Definition pos_strs (c : config) : Prop := forall v m, find_strmap (c_strs c) v = Some m -> sm_vals m <> [].
Definition pos_ints (c : config) : Prop := forall v m, find_intmap (c_ints c) v = Some m -> im_vals m <> [].

Lemma get_str_pos c v s always i c' : get_id_for_string c v s always = Ok (i, c') ->
  pos_strs c -> strs c' (av_var v) <> [] -> pos_strs c'.
Proof.
  unfold get_id_for_string. intros H P HN. set (w := av_var v) in *.
  assert (forall ms s0, (forall x m, find_strmap ms x = Some m -> x <> w -> sm_vals m <> []) ->
    forall x m, find_strmap (push_str ms w s0) x = Some m -> sm_vals m <> []) as K.
  { intros ms s0 HM x m. rewrite find_push_str. destruct (find_strmap ms x) as [m0|] eqn:F; [|discriminate].
    destruct (N.eqb_spec w x) as [->|Hx]; intros [= <-].
    - cbn. now destruct (sm_vals m0).
    - apply (HM x); auto. }
  destruct (find_strmap (c_strs c) w) as [m|] eqn:F.
  - destruct (str_index (sm_vals m) s) as [j|]; [injection H as _ <-; exact P|].
    inv_do H. destruct a0; injection H as _ <-; [exact P|].
    intros x y. cbn [c_strs set_strs]. apply K. intros x0 m0 H0 _. now apply (P x0).
  - inv_do H. destruct a0; injection H as _ <-.
    + exfalso. apply HN. unfold strs. cbn [c_strs set_strs]. rewrite find_app_str, F. cbn [sm_var].
      now rewrite N.eqb_refl.
    + intros x y. cbn [c_strs set_strs]. apply K. intros x0 m0. rewrite find_app_str.
      destruct (find_strmap (c_strs c) x0) eqn:F0; [intros [= <-] _; now apply (P x0)|].
      cbn [sm_var]. destruct (N.eqb_spec w x0); [|discriminate]. intros _ Hx. congruence.
Qed.
Lemma get_ie_pos c v s always i c' : get_id_for_ienum c v s always = Ok (i, c') ->
  pos_ints c -> ints c' (av_var v) <> [] -> pos_ints c'.
Proof.
  unfold get_id_for_ienum. intros H P HN. set (w := av_var v) in *.
  assert (forall ms s0, (forall x m, find_intmap ms x = Some m -> x <> w -> im_vals m <> []) ->
    forall x m, find_intmap (push_int ms w s0) x = Some m -> im_vals m <> []) as K.
  { intros ms s0 HM x m. rewrite find_push_int. destruct (find_intmap ms x) as [m0|] eqn:F; [|discriminate].
    destruct (N.eqb_spec w x) as [->|Hx]; intros [= <-].
    - cbn. now destruct (im_vals m0).
    - apply (HM x); auto. }
  destruct (find_intmap (c_ints c) w) as [m|] eqn:F.
  - destruct (int_index (im_vals m) s) as [j|]; [injection H as _ <-; exact P|].
    inv_do H. destruct a0; injection H as _ <-; [exact P|].
    intros x y. cbn [c_ints set_ints]. apply K. intros x0 m0 H0 _. now apply (P x0).
  - inv_do H. destruct a0; injection H as _ <-.
    + exfalso. apply HN. unfold ints. cbn [c_ints set_ints]. rewrite find_app_int, F. cbn [im_var].
      now rewrite N.eqb_refl.
    + intros x y. cbn [c_ints set_ints]. apply K. intros x0 m0. rewrite find_app_int.
      destruct (find_intmap (c_ints c) x0) eqn:F0; [intros [= <-] _; now apply (P x0)|].
      cbn [im_var]. destruct (N.eqb_spec w x0); [|discriminate]. intros _ Hx. congruence.
Qed.
