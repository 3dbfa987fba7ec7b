(** Numbering of shared predicates: [assign_pred] always succeeds, keeps the expression, gives equal
    numbers only to nodes with equal values, and different memo positions to different numbers. *)
From Coq Require Import ZArith NArith String Bool List Lia Sorted Permutation.
From Coq Require Import ZifyBool ZifyNat ZifyN.
From Verif Require Import Base Float Value Special Ast Match RbTree PredMap.
From Verif Require Import BaseProofs ListProofs SpecialProofs EvalProofs CmpProofs RbProofs.
Import ListNotations.
Local Open Scope res_scope.

Lemma gid_set_gid g e : gid (set_gid g e) = g.
Proof. now destruct e. Qed.
Lemma erase_set_gid g e : erase (set_gid g e) = erase e.
Proof. now destruct e. Qed.
Lemma node_key_set_gid g e : node_key (set_gid g e) = node_key e.
Proof. now destruct e. Qed.
Lemma expr_cmp_set_gid g a e : expr_cmp a (set_gid g e) = expr_cmp a e.
Proof. unfold expr_cmp. now rewrite node_key_set_gid. Qed.

(** All predicates of an expression can be compared, and use [nowv] as `now`. *)
Fixpoint leaves_ok (nowv : option N) (e : expr) : Prop :=
  match e with
  | ELeaf _ l => leaf_fin l /\ leaf_std nowv l
  | EAnd _ a b | EOr _ a b => leaves_ok nowv a /\ leaves_ok nowv b
  | ENot _ a => leaves_ok nowv a
  end.
Lemma leaves_ok_set_gid w g e : leaves_ok w (set_gid g e) = leaves_ok w e.
Proof. now destruct e. Qed.
Lemma leaves_ok_fin w e : leaves_ok w e -> expr_fin e.
Proof.
  destruct e; cbn; [easy| | |]; intros _; unfold expr_fin; cbn; repeat constructor.
Qed.
Lemma leaves_ok_std w e g l : leaves_ok w e -> e = ELeaf g l -> leaf_std w l.
Proof. intros H ->. apply H. Qed.

Section WithGeo.
  Context {G : Geo}.

  Lemma nodev_set_gid V p g e : nodev V p (set_gid g e) = nodev V p e.
  Proof. now destruct e. Qed.

  Definition vals := env -> N -> result bool.

  (** Every node of [e] has a number below [n] whose value is that of the node. *)
  Definition good (V : vals) (n : N) (e : expr) : Prop :=
    (forall p, numbered (V p) p e) /\ forall x, In x (nodes e) -> (gid x < n)%N.

  (** [V'] continues [V], known below [n]. *)
  Definition upto (n : N) (V V' : vals) : Prop := forall p g, (g < n)%N -> V' p g = V p g.

  Lemma upto_refl n V : upto n V V.
  Proof. now intros p g _. Qed.
  Lemma upto_trans n n' V V' V'' : (n <= n')%N -> upto n V V' -> upto n' V' V'' -> upto n V V''.
  Proof. intros L A B p g H. rewrite B by lia. now apply A. Qed.

  Lemma good_nodev V n e p : good V n e -> nodev (V p) p e = V p (gid e).
  Proof. intros [H _]. apply H, nodes_self. Qed.
  Lemma good_lt V n e : good V n e -> (gid e < n)%N.
  Proof. intros [_ H]. apply H, nodes_self. Qed.
  Lemma good_eval V n e p : good V n e -> eval p e = V p (gid e).
  Proof. intros [H _]. now apply numbered_eval. Qed.

  Lemma kids_lt V n e x :
    good V n e -> In x (nodes e) ->
    match x with
    | ELeaf _ _ => True
    | EAnd _ a b | EOr _ a b => (gid a < n)%N /\ (gid b < n)%N
    | ENot _ a => (gid a < n)%N
    end.
  Proof.
    intros [_ H] Hx.
    assert (K : forall y, In y (nodes x) -> In y (nodes e)).
    { clear H. induction e as [g l|g a IHa b IHb|g a IHa b IHb|g a IHa]; intros y Hy;
        (destruct Hx as [<-|Hx]; [exact Hy|]).
      - destruct Hx.
      - right. apply in_or_app. apply in_app_or in Hx. destruct Hx; auto.
      - right. apply in_or_app. apply in_app_or in Hx. destruct Hx; auto.
      - right. auto. }
    destruct x as [g l|g a b|g a b|g a]; [easy| | |].
    - split; apply H, K; right; apply in_or_app; [left|right]; apply nodes_self.
    - split; apply H, K; right; apply in_or_app; [left|right]; apply nodes_self.
    - apply H, K. right. apply nodes_self.
  Qed.

  Lemma nodev_upto n V V' p e :
    upto n V V' ->
    match e with
    | ELeaf _ _ => True
    | EAnd _ a b | EOr _ a b => (gid a < n)%N /\ (gid b < n)%N
    | ENot _ a => (gid a < n)%N
    end -> nodev (V' p) p e = nodev (V p) p e.
  Proof.
    intros U H. destruct e as [g l|g a b|g a b|g a]; cbn; [easy| | |].
    - now rewrite !U by apply H.
    - now rewrite !U by apply H.
    - now rewrite !U by apply H.
  Qed.

  Lemma good_upto n n' V V' e : (n <= n')%N -> upto n V V' -> good V n e -> good V' n' e.
  Proof.
    intros L U K. split.
    - intros p x Hx. rewrite (nodev_upto n V V'); auto.
      + destruct K as [K1 K2]. rewrite U by auto. now apply K1.
      + eapply kids_lt; eauto.
    - intros x Hx. destruct K as [_ K]. specialize (K x Hx). lia.
  Qed.

  (** Building a node from good operands. *)
  Definition kids (e : expr) : list expr :=
    match e with ELeaf _ _ => [] | EAnd _ a b | EOr _ a b => [a; b] | ENot _ a => [a] end.
  Lemma nodes_kids e x : In x (nodes e) <-> x = e \/ exists k, In k (kids e) /\ In x (nodes k).
  Proof.
    destruct e as [g l|g a b|g a b|g a]; cbn [nodes kids In].
    - split; [intros [H|[]]; auto|]. intros [->|(k & [] & _)]. auto.
    - rewrite in_app_iff. split.
      + intros [<-|[H|H]]; [auto|right; exists a; auto|right; exists b; auto].
      + intros [->|(k & [<-|[<-|[]]] & H)]; auto.
    - rewrite in_app_iff. split.
      + intros [<-|[H|H]]; [auto|right; exists a; auto|right; exists b; auto].
      + intros [->|(k & [<-|[<-|[]]] & H)]; auto.
    - split.
      + intros [<-|H]; [auto|right; exists a; auto].
      + intros [->|(k & [<-|[]] & H)]; auto.
  Qed.
  Lemma good_node V n e :
    (forall k, In k (kids e) -> good V n k) -> (gid e < n)%N ->
    (forall p, nodev (V p) p e = V p (gid e)) -> good V n e.
  Proof.
    intros HK HL HV. split.
    - intros p x Hx. apply nodes_kids in Hx. destruct Hx as [->|(k & Hk & Hx)]; [auto|].
      now apply (HK k Hk).
    - intros x Hx. apply nodes_kids in Hx. destruct Hx as [->|(k & Hk & Hx)]; [auto|].
      now apply (HK k Hk).
  Qed.
  Lemma kids_set_gid g e : kids (set_gid g e) = kids e.
  Proof. now destruct e. Qed.

  (** *** The memo positions *)
  Definition valid_mid (i : N) : bool := negb (i =? INVALID_PRED)%N.
  Record mids_ok (m : pred_map) : Prop := {
    mo_count : pm_mcount m = N.of_nat (length (filter valid_mid (pm_mids m)));
    mo_lt : forall i, In i (pm_mids m) -> i <> INVALID_PRED -> (i < pm_mcount m)%N;
    mo_inj : forall g g' i, nthN (pm_mids m) g = Some i -> nthN (pm_mids m) g' = Some i ->
                            i <> INVALID_PRED -> g = g' }.

  Record pm_ok (nowv : option N) (V : vals) (m : pred_map) : Prop := {
    po_rb : redblack (pm_rb m);
    po_sorted : sorted expr_cmp (rb_elems (pm_rb m));
    po_good : Forall (good V (pm_count m)) (rb_elems (pm_rb m));
    po_leaves : Forall (leaves_ok nowv) (rb_elems (pm_rb m));
    po_len : N.of_nat (length (pm_mids m)) = pm_count m;
    po_mids : (pm_count m <= INVALID_PRED)%N -> mids_ok m }.

  Lemma pm_ok_empty nowv V : pm_ok nowv V make_pred_map.
  Proof.
    split; cbn.
    - split; [easy|]. exists 0%nat. constructor.
    - constructor.
    - constructor.
    - constructor.
    - easy.
    - intros _. split; cbn; try easy.
  Qed.

  Lemma Forall_fin nowv l : Forall (leaves_ok nowv) l -> Forall expr_fin l.
  Proof. apply Forall_impl. intros e. apply leaves_ok_fin. Qed.

  Lemma nthN_app_last {A} (l : list A) x g : nthN (l ++ [x]) g =
    if (g =? N.of_nat (length l))%N then Some x else nthN l g.
  Proof.
    destruct (N.eqb_spec g (N.of_nat (length l))) as [->|E]; [apply nthN_app2|].
    destruct (N.ltb_spec g (N.of_nat (length l))) as [L|L].
    - destruct (nthN_lt l g L) as (y & Hy). rewrite Hy. now apply nthN_app1.
    - transitivity (@None A); [|symmetry]; apply nthN_None; [rewrite app_length; cbn|]; lia.
  Qed.

  Lemma filter_updN (l : list N) g i j :
    nthN l g = Some i -> valid_mid i = false -> valid_mid j = true ->
    length (filter valid_mid (updN l g j)) = S (length (filter valid_mid l)).
  Proof.
    revert g. induction l as [|x t IH]; intros g H Hi Hj; [discriminate|].
    cbn [nthN updN] in *. destruct (g =? 0)%N.
    - injection H as ->. cbn [filter]. now rewrite Hi, Hj.
    - cbn [filter]. specialize (IH _ H Hi Hj). destruct (valid_mid x); cbn [length]; now rewrite IH.
  Qed.
  Lemma in_updN {A} (l : list A) g j x : In x (updN l g j) -> x = j \/ In x l.
  Proof.
    revert g. induction l as [|y t IH]; intros g H; [easy|].
    cbn [updN] in H. destruct (g =? 0)%N; destruct H as [H|H]; cbn; auto.
    apply IH in H. tauto.
  Qed.
  Lemma filter_short {A} (f : A -> bool) l : (length (filter f l) <= length l)%nat.
  Proof. induction l as [|x t IH]; cbn; [lia|]. destruct (f x); cbn; lia. Qed.

  Lemma mids_new m t :
    mids_ok m -> mids_ok (mkPM (pm_count m + 1) (pm_mcount m) t (pm_mids m ++ [INVALID_PRED])).
  Proof.
    intros [A B C]. split; cbn [pm_mcount pm_mids].
    - rewrite A, filter_app. cbn [filter]. unfold valid_mid at 3. rewrite N.eqb_refl. cbn. now rewrite app_nil_r.
    - intros i Hi Ei. apply in_app_or in Hi. destruct Hi as [Hi|[<-|[]]]; [auto|easy].
    - intros g g' i. rewrite !nthN_app_last.
      destruct (g =? _)%N; [congruence|]. destruct (g' =? _)%N; [congruence|]. apply C.
  Qed.

  Lemma mids_second m g i :
    mids_ok m -> N.of_nat (length (pm_mids m)) = pm_count m -> (pm_count m <= INVALID_PRED)%N ->
    nthN (pm_mids m) g = Some i -> (i =? INVALID_PRED)%N = true ->
    mids_ok (mkPM (pm_count m) (pm_mcount m + 1) (pm_rb m) (updN (pm_mids m) g (pm_mcount m))).
  Proof.
    intros [A B C] L LE Hi Ei. apply N.eqb_eq in Ei. subst i.
    pose proof (nthN_Some_lt _ _ _ Hi) as Hg.
    assert (M : (pm_mcount m < INVALID_PRED)%N).
    { rewrite A. assert (length (filter valid_mid (pm_mids m)) < length (pm_mids m))%nat; [|lia].
      clear - Hi. revert g Hi. induction (pm_mids m) as [|x t IH]; intros g Hi; [discriminate|].
      cbn [nthN] in Hi. cbn [filter length]. destruct (g =? 0)%N.
      - injection Hi as ->. replace (valid_mid INVALID_PRED) with false by reflexivity.
        pose proof (filter_short valid_mid t). lia.
      - specialize (IH _ Hi). destruct (valid_mid x); cbn [length]; lia. }
    assert (VM : valid_mid (pm_mcount m) = true).
    { unfold valid_mid. destruct (N.eqb_spec (pm_mcount m) INVALID_PRED); [lia|easy]. }
    split; cbn [pm_mcount pm_mids].
    - rewrite (filter_updN _ _ INVALID_PRED) by auto. lia.
    - intros i H Ei. apply in_updN in H. destruct H as [->|H]; [lia|]. specialize (B i H Ei). lia.
    - intros g1 g2 i. rewrite !nthN_updN by easy.
      destruct (N.eqb_spec g g1) as [<-|E1], (N.eqb_spec g g2) as [<-|E2]; intros H1 H2 Hv; auto.
      + injection H1 as <-. apply nthN_In in H2. specialize (B _ H2 Hv). lia.
      + injection H2 as <-. apply nthN_In in H1. specialize (B _ H1 Hv). lia.
      + eauto.
  Qed.

  (** *** One node *)
  Lemma assign_node_ok nowv V m e :
    pm_ok nowv V m -> (forall k, In k (kids e) -> good V (pm_count m) k) -> leaves_ok nowv e ->
    exists e' m' V', assign_node m e = Ok (e', m')
      /\ pm_ok nowv V' m' /\ good V' (pm_count m') e' /\ upto (pm_count m) V V'
      /\ (pm_count m <= pm_count m')%N /\ erase e' = erase e /\ leaves_ok nowv e'
      /\ (exists g, e' = set_gid g e).
  Proof.
    intros M HK HL. pose proof M as [M1 M2 M3 M4 M5 M6].
    unfold assign_node.
    pose proof (rb_find_correct expr_fin expr_cmp expr_total (pm_rb m) e (leaves_ok_fin _ _ HL)
                  (Forall_fin _ _ M4) M2) as F.
    destruct (rb_find expr_cmp (pm_rb m) e) as [f|].
    - destruct F as [Hf Ef].
      rewrite Forall_forall in M3, M4. pose proof (M3 f Hf) as Gf. pose proof (M4 f Hf) as Lf.
      assert (Hlt : (gid f < N.of_nat (length (pm_mids m)))%N).
      { rewrite M5. now apply good_lt in Gf. }
      destruct (nthN_lt _ _ Hlt) as (i & Hi). rewrite Hi.
      assert (Ge : good V (pm_count m) (set_gid (gid f) e)).
      { apply good_node.
        - now rewrite kids_set_gid.
        - rewrite gid_set_gid. now apply good_lt in Gf.
        - intros p. rewrite gid_set_gid, nodev_set_gid, <- (good_nodev _ _ _ p Gf).
          symmetry. apply (node_key_same nowv).
          + now apply (leaves_ok_fin nowv).
          + now apply (leaves_ok_fin nowv).
          + intros g l E. now apply (leaves_ok_std _ _ _ _ Lf E).
          + intros g l E. now apply (leaves_ok_std _ _ _ _ HL E).
          + exact Ef. }
      destruct (i =? INVALID_PRED)%N eqn:Ei; eexists _, _, V; (split; [reflexivity|]); cbn [pm_count].
      + split.
        { split; cbn; auto; try (apply Forall_forall; assumption).
          - now rewrite length_updN.
          - intros LE. apply (mids_second m (gid f) i); auto. }
        rewrite erase_set_gid, leaves_ok_set_gid.
        split; [exact Ge|]. split; [apply upto_refl|]. split; [lia|]. split; [easy|]. split; eauto.
      + split; [split; auto; apply Forall_forall; assumption|].
        rewrite erase_set_gid, leaves_ok_set_gid.
        split; [exact Ge|]. split; [apply upto_refl|]. split; [lia|]. split; [easy|]. split; eauto.
    - set (e' := set_gid (pm_count m) e).
      destruct (rb_insert_ok expr_fin expr_cmp expr_total (pm_rb m) e') as (t & -> & R & S & D); auto.
      { unfold e', expr_fin. rewrite node_key_set_gid. now apply (leaves_ok_fin nowv). }
      { now apply Forall_fin in M4. }
      cbn [bind].
      set (V' := fun p g => if (g =? pm_count m)%N then nodev (V p) p e else V p g).
      assert (U : upto (pm_count m) V V').
      { intros p g Hg. unfold V'. destruct (N.eqb_spec g (pm_count m)); [lia|easy]. }
      assert (Kl : match e with
        | ELeaf _ _ => True
        | EAnd _ a b | EOr _ a b => (gid a < pm_count m)%N /\ (gid b < pm_count m)%N
        | ENot _ a => (gid a < pm_count m)%N end).
      { assert (X : forall k, In k (kids e) -> (gid k < pm_count m)%N).
        { intros k Hk. apply good_lt with V. auto. }
        destruct e as [g l|g a b|g a b|g a]; cbn in X; auto. }
      assert (Ge : good V' (pm_count m + 1) e').
      { apply good_node; unfold e'; rewrite ?kids_set_gid, ?gid_set_gid; [|lia|].
        - intros k Hk. apply (good_upto (pm_count m) _ V); auto. lia.
        - intros p. rewrite nodev_set_gid. rewrite (nodev_upto (pm_count m) V V') by auto.
          unfold V'. now rewrite N.eqb_refl. }
      eexists e', _, V'. split; [reflexivity|]. cbn [pm_count].
      split.
      { assert (Forall (good V' (pm_count m + 1)) (rb_elems (pm_rb m))).
        { revert M3. apply Forall_impl. intros a Ha. apply (good_upto (pm_count m) _ V); auto. lia. }
        assert (Le : leaves_ok nowv e') by (unfold e'; now rewrite leaves_ok_set_gid).
        split; cbn [pm_rb pm_mids pm_count]; auto.
        - destruct D as [[-> _]|[(l & r & E1 & E2) _]]; [auto|].
          rewrite E1 in *. rewrite E2. apply Forall_app in H. apply Forall_app. split; [easy|].
          constructor; easy.
        - destruct D as [[-> _]|[(l & r & E1 & E2) _]]; [auto|].
          rewrite E1 in M4. rewrite E2. apply Forall_app in M4. apply Forall_app. split; [easy|].
          constructor; easy.
        - rewrite app_length. cbn [length]. lia.
        - intros LE. apply mids_new, M6. lia. }
      unfold e' at 2 3. rewrite erase_set_gid, leaves_ok_set_gid.
      split; [exact Ge|]. split; [exact U|]. split; [lia|]. split; [easy|]. split; [easy|]. unfold e'. eauto.
  Qed.

  (** *** Whole expressions *)
  Theorem assign_pred_ok nowv e : forall V m,
    pm_ok nowv V m -> leaves_ok nowv e ->
    exists e' m' V', assign_pred m e = Ok (e', m')
      /\ pm_ok nowv V' m' /\ good V' (pm_count m') e' /\ upto (pm_count m) V V'
      /\ (pm_count m <= pm_count m')%N /\ erase e' = erase e /\ leaves_ok nowv e'.
  Proof.
    induction e as [g l|g a IHa b IHb|g a IHa b IHb|g a IHa]; intros V m M HL; cbn [assign_pred].
    - destruct (assign_node_ok nowv V m (ELeaf g l) M) as (e' & m' & V' & H & H1 & H2 & H3 & H4 & H5 & H6 & _);
        auto; [intros k []|].
      exists e', m', V'. auto 10.
    - destruct HL as [La Lb].
      destruct (IHa V m M La) as (a' & m1 & V1 & -> & M1 & G1 & U1 & C1 & E1 & L1). cbn [bind].
      destruct (IHb V1 m1 M1 Lb) as (b' & m2 & V2 & -> & M2 & G2 & U2 & C2 & E2 & L2). cbn [bind].
      destruct (assign_node_ok nowv V2 m2 (EAnd g a' b') M2) as (e' & m' & V' & H & H1 & H2 & H3 & H4 & H5 & H6 & _).
      { intros k [<-|[<-|[]]]; [|easy]. apply (good_upto (pm_count m1) _ V1); auto. }
      { cbn. auto. }
      exists e', m', V'. split; [exact H|]. split; [easy|]. split; [easy|]. split.
      { apply (upto_trans _ (pm_count m1) _ V1); [lia|auto|]. apply (upto_trans _ (pm_count m2) _ V2); auto; lia. }
      split; [lia|]. rewrite H5. cbn. split; [congruence|easy].
    - destruct HL as [La Lb].
      destruct (IHa V m M La) as (a' & m1 & V1 & -> & M1 & G1 & U1 & C1 & E1 & L1). cbn [bind].
      destruct (IHb V1 m1 M1 Lb) as (b' & m2 & V2 & -> & M2 & G2 & U2 & C2 & E2 & L2). cbn [bind].
      destruct (assign_node_ok nowv V2 m2 (EOr g a' b') M2) as (e' & m' & V' & H & H1 & H2 & H3 & H4 & H5 & H6 & _).
      { intros k [<-|[<-|[]]]; [|easy]. apply (good_upto (pm_count m1) _ V1); auto. }
      { cbn. auto. }
      exists e', m', V'. split; [exact H|]. split; [easy|]. split; [easy|]. split.
      { apply (upto_trans _ (pm_count m1) _ V1); [lia|auto|]. apply (upto_trans _ (pm_count m2) _ V2); auto; lia. }
      split; [lia|]. rewrite H5. cbn. split; [congruence|easy].
    - destruct (IHa V m M HL) as (a' & m1 & V1 & -> & M1 & G1 & U1 & C1 & E1 & L1). cbn [bind].
      destruct (assign_node_ok nowv V1 m1 (ENot g a') M1) as (e' & m' & V' & H & H1 & H2 & H3 & H4 & H5 & H6 & _).
      { intros k [<-|[]]; easy. }
      { exact L1. }
      exists e', m', V'. split; [exact H|]. split; [easy|]. split; [easy|]. split.
      { apply (upto_trans _ (pm_count m1) _ V1); [lia|auto|auto]. }
      split; [lia|]. rewrite H5. cbn. split; [congruence|easy].
  Qed.

  (** What the search needs of the table. *)
  Lemma pm_mids_inj nowv V m : pm_ok nowv V m -> (pm_count m <= INVALID_PRED)%N -> mids_inj (pm_mids m).
  Proof.
    intros M L g g' Hg E. destruct (po_mids _ _ _ M L) as [_ _ I]. unfold mid_of in *.
    destruct (nthN (pm_mids m) g) as [i|] eqn:E1; [|easy].
    destruct (nthN (pm_mids m) g') as [i'|] eqn:E2; [subst i'|easy]. eauto.
  Qed.
  Lemma pm_mids_lt nowv V m g : pm_ok nowv V m -> (pm_count m <= INVALID_PRED)%N ->
    mid_of (pm_mids m) g <> INVALID_PRED -> (mid_of (pm_mids m) g < pm_mcount m)%N.
  Proof.
    intros M L Hg. destruct (po_mids _ _ _ M L) as [_ B _]. unfold mid_of in *.
    destruct (nthN (pm_mids m) g) as [i|] eqn:E1; [|easy]. apply B; auto. now apply nthN_In in E1.
  Qed.
End WithGeo.
