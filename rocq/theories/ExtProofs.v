(** How configurations grow, and what the passes over a new expression do to its predicates. *)
From Coq Require Import ZArith NArith String Bool List Lia Permutation.
From Coq Require Import ZifyBool ZifyNat ZifyN.
From Verif Require Import Base Float Value Ast Config Assign Spec BaseProofs ListProofs InternProofs.
Import ListNotations.
Local Open Scope Z_scope.

Ltac sp := repeat match goal with |- _ /\ _ => split end.

(** *** Extension of configurations *)

(** Name, type and optionality of a declared variable never change; its range may. *)
Definition dom_sig (d : domain) : string * vtype * bool := (d_attr d, btype (d_bound d), d_undef d).

Record ext (c c' : config) : Prop := {
  ext_doms : map dom_sig (c_domains c') = map dom_sig (c_domains c);
  ext_strs : forall v, exists l, strs c' v = strs c v ++ l;
  ext_ints : forall v, exists l, ints c' v = ints c v ++ l;
  ext_cap : c_cap c' = c_cap c;
  ext_minpart : c_minpart c' = c_minpart c;
  ext_maxsplit : c_maxsplit c' = c_maxsplit c }.

Lemma ext_refl c : ext c c.
Proof. split; auto; intros v; exists []; now rewrite app_nil_r. Qed.
Lemma ext_trans c1 c2 c3 : ext c1 c2 -> ext c2 c3 -> ext c1 c3.
Proof.
  intros [A1 A2 A3 A4 A5 A6] [B1 B2 B3 B4 B5 B6]. split; try congruence.
  - intros v. destruct (A2 v) as [l E], (B2 v) as [l' E']. exists (l ++ l'). now rewrite E', E, app_assoc.
  - intros v. destruct (A3 v) as [l E], (B3 v) as [l' E']. exists (l ++ l'). now rewrite E', E, app_assoc.
Qed.

Lemma ext_str_index c c' v s i : ext c c' -> str_index (strs c v) s = Some i -> str_index (strs c' v) s = Some i.
Proof. intros X H. destruct (ext_strs _ _ X v) as [l ->]. now apply index_of_app. Qed.
Lemma ext_int_index c c' v s i : ext c c' -> int_index (ints c v) s = Some i -> int_index (ints c' v) s = Some i.
Proof. intros X H. destruct (ext_ints _ _ X v) as [l ->]. now apply index_of_app. Qed.

Lemma ext_dom c c' v d : ext c c' -> nthN (c_domains c) v = Some d ->
  exists d', nthN (c_domains c') v = Some d' /\ dom_sig d' = dom_sig d.
Proof.
  intros X H. pose proof (f_equal (fun l => nthN l v) (ext_doms _ _ X)) as E. cbn beta in E.
  rewrite !nthN_map, H in E. cbn [option_map] in E. destruct (nthN (c_domains c') v) as [d'|]; [|discriminate].
  exists d'. split; [easy|]. cbn [option_map] in E. congruence.
Qed.
Lemma ext_length c c' : ext c c' -> length (c_domains c') = length (c_domains c).
Proof. intros X. pose proof (f_equal (@length _) (ext_doms _ _ X)) as E. now rewrite !map_length in E. Qed.

(** *** Tables without repetitions *)
Definition tab_ok {A} (T : N -> list A) : Prop :=
  forall v, NoDup (T v) /\ Z.of_nat (length (T v)) < SIZE_MAX.
Definition tabs_ok (c : config) : Prop := tab_ok (strs c) /\ tab_ok (ints c).

Definition within {A} (T0 : N -> list A) (S : list (N * A)) (T : N -> list A) : Prop :=
  forall v s, In s (T v) -> In s (T0 v) \/ In (v, s) S.

Lemma interned_fits {A} dec (index : list A -> A -> option Z) T0 S T T' v s rm inv i :
  (forall l x, match index l x with
               | Some i => 0 <= i < Z.of_nat (length l) /\ nth_error l (Z.to_nat i) = Some x
               | None => ~ In x l end) ->
  (forall l x, ~ In x l -> index (l ++ [x]) x = Some (Z.of_nat (length l))) ->
  interned T T' v s (rm v) inv i index ->
  fits_tab dec T0 S rm -> tab_ok T -> within T0 S T -> (forall w, incl (T0 w) (T w)) -> In (v, s) S ->
  index (T' v) s = Some i /\ tab_ok T' /\ within T0 S T' /\ (forall w, exists l, T' w = T w ++ l).
Proof.
  intros HI HL HInt HF HT HW HInc HS.
  assert (~ In s (T v) ->
    Z.of_nat (length (T v)) + 1 <= match rm v with Some r => Z.min r (SIZE_MAX - 1) | None => SIZE_MAX - 1 end) as K.
  { intros Hn. specialize (HF v s HS). etransitivity; [|apply HF].
    - assert (length (T v ++ [s]) <= length (nodup dec (T0 v ++ map snd (filter (fun x => (fst x =? v)%N) S))))%nat as L.
      { apply NoDup_incl_length.
        - destruct (HT v) as [ND _]. clear - ND Hn. induction (T v) as [|a l IH]; simpl.
          + repeat constructor; easy.
          + inversion ND; subst. constructor.
            * intros H. apply in_app_or in H. destruct H as [H|[<-|[]]]; [easy|]. simpl in Hn. tauto.
            * apply IH; auto. simpl in Hn. tauto.
        - intros x Hx. apply nodup_In, in_or_app.
          assert (forall y, In (v, y) S -> In y (map snd (filter (fun x => (fst x =? v)%N) S))) as M.
          { intros y Hy. apply in_map_iff. exists (v, y). split; [easy|]. apply filter_In.
            split; [easy|]. cbn. apply N.eqb_refl. }
          apply in_app_or in Hx. destruct Hx as [Hx|[<-|[]]]; auto.
          destruct (HW v x Hx); auto. }
      rewrite app_length in L. simpl in L. lia.
    - intros H. apply Hn. now apply (HInc v). }
  destruct HInt as [[E H]|[(Hn & E & -> & H)|(Hn & E & -> & H)]].
  - rewrite (H v). split; [easy|]. split; [|split].
    + intros w. rewrite H. apply HT.
    + intros w x. rewrite H. apply HW.
    + intros w. exists []. now rewrite H, app_nil_r.
  - specialize (K Hn). rewrite E in K. lia.
  - specialize (K Hn).
    split; [rewrite H, N.eqb_refl; now apply HL|]. split; [|split].
    + intros w. rewrite H. destruct (N.eqb_spec v w) as [<-|]; [|apply HT].
      destruct (HT v) as [ND _]. split.
      * clear - ND Hn. induction (T v) as [|a l IH]; simpl.
        -- repeat constructor; easy.
        -- inversion ND; subst. constructor.
           ++ intros H. apply in_app_or in H. destruct H as [H|[<-|[]]]; [easy|]. simpl in Hn. tauto.
           ++ apply IH; auto. simpl in Hn. tauto.
      * rewrite app_length. simpl. destruct (rm v); lia.
    + intros w x. rewrite H. destruct (N.eqb_spec v w) as [<-|]; [|apply HW].
      intros Hx. apply in_app_or in Hx. destruct Hx as [Hx|[<-|[]]]; auto.
    + intros w. rewrite H. destruct (N.eqb_spec v w) as [<-|]; [eauto|]. exists []. now rewrite app_nil_r.
Qed.

(** *** Shape-preserving passes *)
Inductive shape (R : leaf -> leaf -> Prop) : expr -> expr -> Prop :=
| sh_leaf g p q : R p q -> shape R (ELeaf g p) (ELeaf g q)
| sh_and g a b a' b' : shape R a a' -> shape R b b' -> shape R (EAnd g a b) (EAnd g a' b')
| sh_or g a b a' b' : shape R a a' -> shape R b b' -> shape R (EOr g a b) (EOr g a' b')
| sh_not g a a' : shape R a a' -> shape R (ENot g a) (ENot g a').

Lemma shape_impl (R R' : leaf -> leaf -> Prop) e e' :
  shape R e e' -> (forall p q, R p q -> R' p q) -> shape R' e e'.
Proof. intros H HR. induction H; constructor; auto. Qed.
Lemma shape_comp (R S : leaf -> leaf -> Prop) e1 e2 : shape R e1 e2 -> forall e3, shape S e2 e3 ->
  shape (fun p q => exists r, R p r /\ S r q) e1 e3.
Proof. induction 1; intros e3 H3; inversion H3; subst; constructor; eauto. Qed.
Lemma shape_leaves (R : leaf -> leaf -> Prop) (P Q : leaf -> Prop) e e' :
  shape R e e' -> (forall p q, R p q -> P p -> Q q) -> Forall P (expr_leaves e) -> Forall Q (expr_leaves e').
Proof.
  intros H K. induction H; simpl; intros F; rewrite ?Forall_app in *; intuition.
  inversion F; subst. constructor; eauto.
Qed.
Lemma shape_map f e : shape (fun p q => q = f p) e (map_leaves f e).
Proof. induction e; simpl; constructor; auto. Qed.
Lemma shape_restrict (R : leaf -> leaf -> Prop) (P : leaf -> Prop) e e' :
  shape R e e' -> Forall P (expr_leaves e) -> shape (fun p q => P p /\ R p q) e e'.
Proof.
  intros H. induction H; simpl; intros F; rewrite ?Forall_app in *; constructor; intuition.
  now inversion F.
Qed.

Lemma trav_shape (f : config -> leaf -> result (leaf * config)) (I : config -> Prop) (L : leaf -> Prop)
    (R : config -> leaf -> leaf -> Prop) :
  (forall c c' p q, ext c c' -> R c p q -> R c' p q) ->
  (forall c p p' c', I c -> L p -> f c p = Ok (p', c') -> I c' /\ ext c c' /\ R c' p p') ->
  forall e c e' c', I c -> Forall L (expr_leaves e) -> trav f c e = Ok (e', c') ->
    I c' /\ ext c c' /\ shape (R c') e e'.
Proof.
  intros HR Hf. induction e as [g p|g a IHa b IHb|g a IHa b IHb|g a IHa]; intros c e' c' HI HL H; simpl in *.
  - apply bind_ok in H. destruct H as ([p' c1] & E & [= <- <-]). inversion HL; subst.
    destruct (Hf _ _ _ _ HI H1 E) as (? & ? & ?). sp; auto. now constructor.
  - apply bind_ok in H. destruct H as ([a' c1] & E1 & H).
    apply bind_ok in H. destruct H as ([b' c2] & E2 & [= <- <-]).
    apply Forall_app in HL. destruct HL as [L1 L2].
    destruct (IHa _ _ _ HI L1 E1) as (I1 & X1 & S1). destruct (IHb _ _ _ I1 L2 E2) as (I2 & X2 & S2).
    split; [easy|]. split; [eapply ext_trans; eauto|]. constructor; auto.
    eapply shape_impl; eauto.
  - apply bind_ok in H. destruct H as ([a' c1] & E1 & H).
    apply bind_ok in H. destruct H as ([b' c2] & E2 & [= <- <-]).
    apply Forall_app in HL. destruct HL as [L1 L2].
    destruct (IHa _ _ _ HI L1 E1) as (I1 & X1 & S1). destruct (IHb _ _ _ I1 L2 E2) as (I2 & X2 & S2).
    split; [easy|]. split; [eapply ext_trans; eauto|]. constructor; auto.
    eapply shape_impl; eauto.
  - apply bind_ok in H. destruct H as ([a' c1] & E1 & [= <- <-]).
    destruct (IHa _ _ _ HI HL E1) as (I1 & X1 & S1). sp; auto. now constructor.
Qed.

(** *** Interning of the strings of an expression *)
Definition sres (c : config) (v : N) (y : sval) : Prop :=
  str_index (strs c v) (sv_string y) = Some (sv_str y).
Lemma sres_ext c c' v y : ext c c' -> sres c v y -> sres c' v y.
Proof. intros X. now apply ext_str_index. Qed.

Definition R_str (c : config) (p q : leaf) : Prop :=
  match p with
  | PFreq v ty ns value len now id =>
      exists y, q = PFreq v ty y value len now id /\ sv_string y = sv_string ns /\ sres c (av_var v) y
  | PEq op v (QStr s) => exists y, q = PEq op v (QStr y) /\ sv_string y = sv_string s /\ sres c (av_var v) y
  | PList op v (LStrs l) =>
      exists l', q = PList op v (LStrs l') /\ map sv_string l' = map sv_string l /\ Forall (sres c (av_var v)) l'
  | PSet op (SLStr s) (SRVar v) =>
      exists y, q = PSet op (SLStr y) (SRVar v) /\ sv_string y = sv_string s /\ sres c (av_var v) y
  | PSet op (SLVar v) (SRStrs l) =>
      exists l', q = PSet op (SLVar v) (SRStrs l') /\ map sv_string l' = map sv_string l /\ Forall (sres c (av_var v)) l'
  | _ => q = p
  end.
Lemma R_str_ext c c' p q : ext c c' -> R_str c p q -> R_str c' p q.
Proof.
  intros X. pose proof (sres_ext c c') as K.
  destruct p as [b|v|op v x|op v [z|f|s|e]|op [z|s|v] [l|l|w]|op v [l|l]|op v|v ty ns value len now id|op h v id s now|h a b r la lo|op v pat];
    simpl; auto; intros (y & E & H1 & H2); exists y; sp; auto;
    eapply Forall_impl; try exact H2; intros; now apply K.
Qed.

(** The strings a predicate interns. *)
Definition leaf_strs (p : leaf) : list (N * string) :=
  match p with
  | PFreq v _ ns _ _ _ _ => [(av_var v, sv_string ns)]
  | PEq _ v (QStr s) => [(av_var v, sv_string s)]
  | PList _ v (LStrs l) => map (fun s => (av_var v, sv_string s)) l
  | PSet _ (SLStr s) (SRVar v) => [(av_var v, sv_string s)]
  | PSet _ (SLVar v) (SRStrs l) => map (fun s => (av_var v, sv_string s)) l
  | _ => []
  end.
Definition leaf_ints (c : config) (p : leaf) : list (N * Z) :=
  match p with
  | PEq _ v (QInt z) =>
      match nthN (c_domains c) (av_var v) with
      | Some d => match btype (d_bound d) with TIEnum => [(av_var v, z)] | _ => [] end
      | None => []
      end
  | _ => []
  end.

Section Interning.
  Variables (c0 : config) (always : bool) (S : list (N * string)) (SI : list (N * Z)).

  (** The state of the tables while the expression is processed. *)
  Record busy (c : config) : Prop := {
    bz_ext : ext c0 c;
    bz_doms : c_domains c = c_domains c0;
    bz_tabs : tabs_ok c;
    bz_strs : within (strs c0) S (strs c);
    bz_ints : within (ints c0) SI (ints c);
    bz_pos : pos_strs c /\ pos_ints c }.

  Hypothesis FS : fits_tab string_dec (strs c0) S (fun v => room c0 v always).
  Hypothesis FI : fits_tab Z.eq_dec (ints c0) SI (fun v => room c0 v always).

  Lemma room_busy c v : busy c -> room c v always = room c0 v always.
  Proof. intros B. unfold room, get_domain. now rewrite (bz_doms _ B). Qed.

  Lemma get_str_busy c v s i c' :
    busy c -> In (av_var v, s) S -> get_id_for_string c v s always = Ok (i, c') ->
    busy c' /\ ext c c' /\ str_index (strs c' (av_var v)) s = Some i.
  Proof.
    intros B HS H. pose proof H as H0. apply get_id_for_string_ok in H. destruct H as [(D1 & D2 & D3 & D4 & D5) H].
    rewrite room_busy in H by easy.
    assert (forall w, ints c' w = ints c w) as EI by (intros w; unfold ints; now rewrite D5).
    destruct B as [X D [T1 T2] W1 W2 [P1 P2]].
    destruct (interned_fits string_dec str_index (strs c0) S (strs c) (strs c') (av_var v) s
                (fun v => room c0 v always) INVALID_STR i) as (K1 & K2 & K3 & K4); auto.
    - apply str_index_spec.
    - intros l x. apply index_of_last, String.eqb_eq.
    - intros w. destruct (ext_strs _ _ X w) as [l ->]. apply incl_appl, incl_refl.
    - assert (ext c c') as X'.
      { split; auto; [now rewrite D1|]. intros w. exists []. now rewrite EI, app_nil_r. }
      split; [|split; [exact X'|exact K1]]. split.
      + eapply ext_trans; eauto.
      + congruence.
      + split; [exact K2|]. intros w. rewrite EI. apply T2.
      + exact K3.
      + intros w x. rewrite EI. apply W2.
      + split; [|unfold pos_ints; rewrite D5; exact P2].
        eapply get_str_pos; eauto. intros E. now rewrite E in K1.
  Qed.

  Lemma get_ie_busy c v z i c' :
    busy c -> In (av_var v, z) SI -> get_id_for_ienum c v z always = Ok (i, c') ->
    busy c' /\ ext c c' /\ int_index (ints c' (av_var v)) z = Some i.
  Proof.
    intros B HS H. pose proof H as H0. apply get_id_for_ienum_ok in H. destruct H as [(D1 & D2 & D3 & D4 & D5) H].
    rewrite room_busy in H by easy.
    assert (forall w, strs c' w = strs c w) as EI by (intros w; unfold strs; now rewrite D5).
    destruct B as [X D [T1 T2] W1 W2 [P1 P2]].
    destruct (interned_fits Z.eq_dec int_index (ints c0) SI (ints c) (ints c') (av_var v) z
                (fun v => room c0 v always) INVALID_IENUM i) as (K1 & K2 & K3 & K4); auto.
    - apply int_index_spec.
    - intros l x. apply index_of_last, Z.eqb_eq.
    - intros w. destruct (ext_ints _ _ X w) as [l ->]. apply incl_appl, incl_refl.
    - assert (ext c c') as X'.
      { split; auto; [now rewrite D1|]. intros w. exists []. now rewrite EI, app_nil_r. }
      split; [|split; [exact X'|exact K1]]. split.
      + eapply ext_trans; eauto.
      + congruence.
      + split; [|exact K2]. intros w. rewrite EI. apply T1.
      + intros w x. rewrite EI. apply W1.
      + exact K3.
      + split; [unfold pos_strs; rewrite D5; exact P1|].
        eapply get_ie_pos; eauto. intros E. now rewrite E in K1.
  Qed.

  Lemma assign_strs_busy v l : forall c l' c',
    busy c -> incl (map (fun s => (av_var v, sv_string s)) l) S -> assign_strs c v l always = Ok (l', c') ->
    busy c' /\ ext c c' /\ map sv_string l' = map sv_string l /\ Forall (sres c' (av_var v)) l'.
  Proof.
    induction l as [|s t IH]; intros c l' c' B HS H; simpl in *.
    - injection H as <- <-. sp; auto using ext_refl; constructor.
    - apply bind_ok in H. destruct H as ([i c1] & E1 & H).
      apply bind_ok in H. destruct H as ([t' c2] & E2 & [= <- <-]).
      destruct (get_str_busy c v (sv_string s) i c1 B) as (B1 & X1 & K1); auto; [apply HS; now left|].
      destruct (IH c1 t' c2 B1) as (B2 & X2 & K2 & K3); auto.
      { intros x Hx. apply HS. now right. }
      split; [easy|]. split; [eapply ext_trans; eauto|]. simpl. split; [now f_equal|].
      constructor; [|easy]. unfold sres. cbn [sv_string sv_str]. eapply ext_str_index; eauto.
  Qed.

  Lemma assign_str_leaf_busy c p q c' :
    busy c -> incl (leaf_strs p) S -> assign_str_leaf always c p = Ok (q, c') ->
    busy c' /\ ext c c' /\ R_str c' p q.
  Proof.
    intros B HS H.
    destruct p as [b|v|op v x|op v [z|f|s|e]|op [z|s|v] [l|l|w]|op v [l|l]|op v|v ty ns value len now id|op h v id s now|h a b r la lo|op v pat];
      simpl in *; try (injection H as <- <-; sp; auto using ext_refl; fail); try discriminate.
    - apply bind_ok in H. destruct H as ([i c1] & E1 & [= <- <-]).
      destruct (get_str_busy c v (sv_string s) i c1 B) as (B1 & X1 & K1); auto; [apply HS; now left|].
      sp; auto. eexists. sp; eauto.
    - apply bind_ok in H. destruct H as ([i c1] & E1 & [= <- <-]).
      destruct (get_str_busy c w (sv_string s) i c1 B) as (B1 & X1 & K1); auto; [apply HS; now left|].
      sp; auto. eexists. sp; eauto.
    - apply bind_ok in H. destruct H as ([l2 c1] & E1 & [= <- <-]).
      destruct (assign_strs_busy v l c l2 c1 B HS E1) as (B1 & X1 & K1 & K2).
      sp; auto. eexists. sp; eauto.
    - apply bind_ok in H. destruct H as ([l2 c1] & E1 & [= <- <-]).
      destruct (assign_strs_busy v l c l2 c1 B HS E1) as (B1 & X1 & K1 & K2).
      sp; auto. eexists. sp; eauto.
    - apply bind_ok in H. destruct H as ([i c1] & E1 & [= <- <-]).
      destruct (get_str_busy c v (sv_string ns) i c1 B) as (B1 & X1 & K1); auto; [apply HS; now left|].
      sp; auto. eexists. sp; eauto.
  Qed.

  Definition R_ie (c : config) (p q : leaf) : Prop :=
    match p with
    | PEq op v (QInt z) =>
        exists d, nthN (c_domains c) (av_var v) = Some d /\
        match btype (d_bound d) with
        | TIEnum => exists i, q = PEq op v (QIEnum (mkIE z i)) /\ int_index (ints c (av_var v)) z = Some i
        | _ => q = p
        end
    | _ => q = p
    end.
  Lemma R_ie_ext c c' p q : ext c c' -> R_ie c p q -> R_ie c' p q.
  Proof.
    intros X. destruct p as [b|v|op v x|op v [z|f|s|e]|op l r|op v l|op v|v ty ns value len now id|op h v id s now|h a b r la lo|op v pat];
      simpl; auto.
    intros (d & H1 & H2). destruct (ext_dom _ _ _ _ X H1) as (d' & H1' & E). exists d'. split; [easy|].
    injection E as _ E _. rewrite E. destruct (btype (d_bound d)); auto.
    destruct H2 as (i & -> & H2). exists i. split; [easy|]. eapply ext_int_index; eauto.
  Qed.

  Lemma btype_ienum b : btype b = TIEnum -> exists lo hi, b = BStr TIEnum lo hi.
  Proof. destruct b as [| [] | | | | ]; simpl; try discriminate. intros ->. eauto. Qed.

  Lemma assign_ie_leaf_busy c p q c' :
    busy c -> incl (leaf_ints c0 p) SI -> assign_ie_leaf always c p = Ok (q, c') ->
    busy c' /\ ext c c' /\ R_ie c' p q.
  Proof.
    intros B HS H.
    destruct p as [b|v|op v x|op v [z|f|s|e]|op l r|op v l|op v|v ty ns value len now id|op h v id s now|h a b r la lo|op v pat];
      simpl in *; try (injection H as <- <-; sp; auto using ext_refl; fail).
    apply bind_ok in H. destruct H as (d & E & H). unfold get_domain in E.
    destruct (nthN (c_domains c) (av_var v)) as [d'|] eqn:Ed; [|discriminate]. injection E as ->.
    rewrite (bz_doms _ B) in Ed. rewrite Ed in HS.
    destruct (btype (d_bound d)) eqn:Et;
      try (assert (H0 : Ok (PEq op v (QInt z), c) = Ok (q, c'));
           [destruct (d_bound d) as [| [] | | [] | | ]; try discriminate; exact H|];
           injection H0 as <- <-; sp; auto using ext_refl;
           exists d; rewrite (bz_doms _ B); split; [easy|]; rewrite Et; easy).
    destruct (btype_ienum _ Et) as (lo & hi & Eb). rewrite Eb in H.
    apply bind_ok in H. destruct H as ([i c1] & E1 & [= <- <-]).
    destruct (get_ie_busy c v z i c1 B) as (B1 & X1 & K1); auto; [apply HS; now left|].
    sp; auto. exists d. rewrite (bz_doms _ B1). split; [easy|]. rewrite Et. eauto.
  Qed.
End Interning.

(** *** Integer literals of float variables *)
Definition R_fix (c : config) (p q : leaf) : Prop :=
  match p with
  | PCmp op v (CInt z) =>
      exists d, nthN (c_domains c) (av_var v) = Some d /\
      match btype (d_bound d) with TFloat => q = PCmp op v (CFloat (f_of_Z z)) | _ => q = p end
  | PEq op v (QInt z) =>
      exists d, nthN (c_domains c) (av_var v) = Some d /\
      match btype (d_bound d) with TFloat => q = PEq op v (QFloat (f_of_Z z)) | _ => q = p end
  | _ => q = p
  end.
Definition plain_bound (b : bound) : Prop :=
  match b with BStr t _ _ => t = TStr \/ t = TStrList \/ t = TIEnum | _ => True end.
Lemma is_float_btype b : plain_bound b -> is_float_bound b = match btype b with TFloat => true | _ => false end.
Proof. destruct b as [| [] | | | | ]; simpl; auto. intuition; subst; easy. Qed.

Lemma R_fix_ext c c' p q : ext c c' -> R_fix c p q -> R_fix c' p q.
Proof.
  intros X. destruct p as [b|v|op v [z|f]|op v [z|f|s|e]|op l r|op v l|op v|v ty ns value len now id|op h v id s now|h a b r la lo|op v pat];
    simpl; auto;
  intros (d & H1 & H2); destruct (ext_dom _ _ _ _ X H1) as (d' & H1' & E); exists d'; (split; [easy|]);
    injection E as _ E _; now rewrite E.
Qed.
Lemma fix_leaf_ok c p q c' :
  (forall d, In d (c_domains c) -> plain_bound (d_bound d)) ->
  fix_leaf c p = Ok (q, c') -> c' = c /\ R_fix c p q.
Proof.
  intros HP H.
  destruct p as [b|v|op v [z|f]|op v [z|f|s|e]|op l r|op v l|op v|v ty ns value len now id|op h v id s now|h a b r la lo|op v pat];
    simpl in *; try (injection H as <- <-; auto; fail);
    apply bind_ok in H; destruct H as (d & E & [= <- <-]); (split; [easy|]); auto;
    unfold get_domain in E; destruct (nthN (c_domains c) (av_var v)) as [d'|] eqn:Ed; try discriminate;
    injection E as ->; exists d; (split; [easy|]);
    rewrite is_float_btype by (apply HP; eapply nthN_In; eauto); now destruct (btype (d_bound d)).
Qed.

(** *** Constants *)
Lemma assign_constants_shape cs e : forall e', assign_constants cs e = Some e' ->
  shape (fun p q => assign_const_leaf cs p = Some q) e e'.
Proof.
  induction e; intros e' H; simpl in H.
  - destruct (assign_const_leaf cs p) eqn:E; [|discriminate]. injection H as <-. now constructor.
  - destruct (assign_constants cs e1), (assign_constants cs e2); try discriminate. injection H as <-. constructor; auto.
  - destruct (assign_constants cs e1), (assign_constants cs e2); try discriminate. injection H as <-. constructor; auto.
  - destruct (assign_constants cs e); try discriminate. injection H as <-. constructor; auto.
Qed.
