(** The range derived from an expression contains every value for which the expression is true. *)
From Coq Require Import ZArith NArith String Bool List Lia Permutation Sorted.
From Coq Require Import ZifyBool ZifyNat ZifyN.
From Verif Require Import Base Float Value Special Ast Match Config Assign Source Bound Tree Api Spec.
From Verif Require Import BaseProofs ListProofs SpecialProofs EvalProofs CmpProofs InternProofs ExtProofs.
From Verif Require Import FloatSpec TreeSpec ResProofs PassProofs RoundProofs FloatOrd.
Import ListNotations.
Local Open Scope Z_scope.

(** The integers a value is compared by. *)
Definition keys (x : value) : list Z :=
  match x with
  | VBool b => [Z.b2z b]
  | VInt z => [z]
  | VStr s => [sv_str s]
  | VIEnum e => [ie_id e]
  | VIntList l => l
  | VStrList l => map sv_str l
  | _ => []
  end.
Definition bvz (b : bv) : Z :=
  match b with BVb b => Z.b2z b | BVi z => z | BVs z => z | BVf _ => 0 end.
Definition kind (t : vtype) (b : bv) : Prop :=
  match t, b with
  | TBool, BVb _ | TInt, BVi _ | TIntList, BVi _ | TFloat, BVf _ | TStr, BVs _ | TStrList, BVs _ | TIEnum, BVs _ => True
  | _, _ => False
  end.
Definition opt {A} (P : A -> Prop) (o : option A) : Prop := match o with Some x => P x | None => True end.

Definition pb_kind (t : vtype) (b : pb) : Prop := opt (kind t) (p_min b) /\ opt (kind t) (p_max b).
Definition above (x : value) (m : bv) : Prop :=
  match m with
  | BVf f => exists y, x = VFloat y /\ fleb f y = true
  | _ => exists k, In k (keys x) /\ bvz m <= k
  end.
Definition below (x : value) (m : bv) : Prop :=
  match m with
  | BVf f => exists y, x = VFloat y /\ fleb y f = true
  | _ => exists k, In k (keys x) /\ k <= bvz m
  end.
Lemma above_z x m k : match m with BVf _ => False | _ => True end -> In k (keys x) -> bvz m <= k -> above x m.
Proof. destruct m; intros [] H L; exists k; auto. Qed.
Lemma below_z x m k : match m with BVf _ => False | _ => True end -> In k (keys x) -> k <= bvz m -> below x m.
Proof. destruct m; intros [] H L; exists k; auto. Qed.

(** Merged ends. *)
Lemma bv_min_kind t a b : kind t a -> kind t b -> kind t (bv_min a b).
Proof. destruct t, a, b; cbn; easy. Qed.
Lemma bv_max_kind t a b : kind t a -> kind t b -> kind t (bv_max a b).
Proof. destruct t, a, b; cbn; easy. Qed.
Lemma above_min t x a b : kind t a -> kind t b -> above x a \/ above x b -> above x (bv_min a b).
Proof.
  intros KA KB H. destruct a as [a|a|a|a], b as [b|b|b|b]; try (destruct t; cbn in KA, KB; contradiction); cbn [bv_min above bvz] in *.
  - destruct H as [(k & I & L)|(k & I & L)]; exists k; (split; [exact I|]); destruct a, b; cbn in *; lia.
  - destruct (Z.ltb_spec a b); destruct H as [(k & I & L)|(k & I & L)]; exists k; (split; [exact I|lia]).
  - unfold ffmin. destruct H as [(y & E & L)|(y & E & L)]; exists y; (split; [exact E|]).
    + rewrite (fleb_nan_l _ _ L). destruct (fltb b a) eqn:F; [|exact L]. eapply fleb_trans; [apply fltb_fleb, F|exact L].
    + destruct (is_nan a) eqn:NA; [exact L|]. destruct (fltb b a) eqn:F; [exact L|].
      eapply fleb_trans; [|exact L]. apply fleb_total; auto. eapply fleb_nan_l; eauto.
  - destruct (Z.ltb_spec a b); destruct H as [(k & I & L)|(k & I & L)]; exists k; (split; [exact I|lia]).
Qed.
Lemma below_max t x a b : kind t a -> kind t b -> below x a \/ below x b -> below x (bv_max a b).
Proof.
  intros KA KB H. destruct a as [a|a|a|a], b as [b|b|b|b]; try (destruct t; cbn in KA, KB; contradiction); cbn [bv_max below bvz] in *.
  - destruct H as [(k & I & L)|(k & I & L)]; exists k; (split; [exact I|]); destruct a, b; cbn in *; lia.
  - destruct (Z.gtb_spec a b); destruct H as [(k & I & L)|(k & I & L)]; exists k; (split; [exact I|lia]).
  - unfold ffmax. destruct H as [(y & E & L)|(y & E & L)]; exists y; (split; [exact E|]).
    + rewrite (fleb_nan_r _ _ L). destruct (fltb a b) eqn:F; [|exact L]. eapply fleb_trans; [exact L|apply fltb_fleb, F].
    + destruct (is_nan a) eqn:NA; [exact L|]. destruct (fltb a b) eqn:F; [exact L|].
      eapply fleb_trans; [exact L|]. apply fleb_total; auto. eapply fleb_nan_r; eauto.
  - destruct (Z.gtb_spec a b); destruct H as [(k & I & L)|(k & I & L)]; exists k; (split; [exact I|lia]).
Qed.
Definition pb_holds (x : value) (b : pb) : Prop := opt (above x) (p_min b) /\ opt (below x) (p_max b).

(** Splits a hypothesis [do ... = Ok _]. *)
Ltac inv_ck H :=
  match type of H with
  | bind (ck64 ?z) _ = Ok _ =>
      unfold ck64 in H; destruct (_ && _) in H; cbn [bind] in H; [|discriminate H]
  end.

Lemma kind_none t : pb_kind t pb_none.
Proof. easy. Qed.
Lemma kind_ends_i t l : t = TInt \/ t = TIntList -> pb_kind t (pb_ends_i l).
Proof. intros H. unfold pb_ends_i. destruct (ends l) as [[]|]; [|easy]. now destruct H; subst t. Qed.
Lemma kind_ends_s t l : t = TStr \/ t = TStrList -> pb_kind t (pb_ends_s l).
Proof. intros H. unfold pb_ends_s. destruct (ends l) as [[]|]; [|easy]. now destruct H; subst t. Qed.

Lemma gvb_leaf_kind v t rev q b : gvb_leaf v t rev q = Ok b -> pb_kind t b.
Proof.
  intros H.
  destruct q as [lb|x|op x [z|f]|op x q|op l r|op x l|op x|x ty ns value len now id|op h x id s now|h lat lon rad la lo|op x pat];
    cbn [gvb_leaf] in H; try (injection H as <-; apply kind_none).
  - destruct (negb _); [injection H as <-; apply kind_none|].
    destruct t; try discriminate. injection H as <-. now destruct rev.
  - destruct (negb _); [injection H as <-; apply kind_none|].
    destruct t; try discriminate. destruct op, rev; try inv_ck H; injection H as <-; easy.
  - destruct (negb _); [injection H as <-; apply kind_none|].
    destruct t; try discriminate. destruct op, rev; injection H as <-; easy.
  - destruct (negb _); [injection H as <-; apply kind_none|].
    destruct t, q; try discriminate; try easy; injection H as <-; destruct op, rev; easy.
  - destruct l as [z|s|x].
    + destruct r as [l|l|x]; try discriminate.
      destruct (negb _); [injection H as <-; apply kind_none|].
      destruct t; try discriminate. injection H as <-. now destruct op, rev.
    + destruct r as [l|l|x]; try discriminate.
      destruct (negb _); [injection H as <-; apply kind_none|].
      destruct t; try discriminate. injection H as <-. now destruct op, rev.
    + destruct (negb _); [injection H as <-; apply kind_none|].
      destruct t, r; try discriminate; injection H as <-; destruct op, rev; cbn [negb]; auto using kind_none, kind_ends_i, kind_ends_s.
  - destruct (negb _); [injection H as <-; apply kind_none|].
    destruct t, l; try discriminate; injection H as <-; destruct op, rev; cbn [negb]; auto using kind_none, kind_ends_i, kind_ends_s.
Qed.

Lemma gvb_inner_kind v t e : forall rev b, gvb_inner v t rev e = Ok b -> pb_kind t b.
Proof.
  induction e as [g l|g a IHa b IHb|g a IHa b IHb|g a IHa]; intros rev r H; cbn [gvb_inner] in H.
  - eapply gvb_leaf_kind; eauto.
  - destruct (gvb_inner v t rev a) as [p| | |] eqn:Ea; try discriminate. cbn [bind] in H.
    destruct (gvb_inner v t rev b) as [q| | |] eqn:Eb; try discriminate. cbn [bind] in H. injection H as <-.
    apply IHa in Ea. apply IHb in Eb. destruct Ea as [A1 A2], Eb as [B1 B2].
    split; cbn [p_min p_max merge_and].
    + destruct (p_min p), (p_min q); cbn in *; auto. now apply bv_min_kind.
    + destruct (p_max p), (p_max q); cbn in *; auto. now apply bv_max_kind.
  - destruct (gvb_inner v t rev a) as [p| | |] eqn:Ea; try discriminate. cbn [bind] in H.
    destruct (gvb_inner v t rev b) as [q| | |] eqn:Eb; try discriminate. cbn [bind] in H. injection H as <-.
    apply IHa in Ea. apply IHb in Eb. destruct Ea as [A1 A2], Eb as [B1 B2].
    split; cbn [p_min p_max merge_or].
    + destruct (p_min p), (p_min q); cbn in *; auto. now apply bv_min_kind.
    + destruct (p_max p), (p_max q); cbn in *; auto. now apply bv_max_kind.
  - eauto.
Qed.

(** First and last element of a sorted list. *)
Lemma last_default {A} (l : list A) : forall x y, l <> [] -> last l x = last l y.
Proof.
  induction l as [|a l IH]; intros x y H; [easy|]. destruct l; [easy|]. cbn [last]. now apply IH.
Qed.
Lemma last_incr l : forall d k, incr l -> In k l -> k <= last l d.
Proof.
  induction l as [|x t IH]; intros d k H Hk; [easy|]. destruct t as [|y t].
  - destruct Hk as [<-|[]]. cbn. lia.
  - assert (incr (y :: t)) as Hy by (eapply incr_tail; eauto).
    change (k <= last (y :: t) d). destruct Hk as [<-|Hk]; [|now apply IH].
    transitivity y; [|apply IH; auto; now left].
    inversion H as [|? ? ? HF]; subst. inversion HF; subst. easy.
Qed.
Lemma last_map {A B} (f : A -> B) l : forall d, last (map f l) (f d) = f (last l d).
Proof. induction l as [|x t IH]; intros d; [easy|]. destruct t; [easy|]. apply IH. Qed.
Lemma ends_i_holds x l k : incr l -> In k l -> In k (keys x) -> pb_holds x (pb_ends_i l).
Proof.
  intros H Hk Hx. unfold pb_ends_i, ends. destruct l as [|a t]; [easy|].
  split; exists k; cbn [bvz p_min p_max pb_both]; split; auto.
  - destruct Hk as [<-|Hk]; [lia|]. inversion H as [|? ? ? HF]; subst. rewrite Forall_forall in HF. now apply HF.
  - now apply last_incr.
Qed.
Lemma ends_s_holds x l k : incr (map sv_str l) -> In k (map sv_str l) -> In k (keys x) -> pb_holds x (pb_ends_s l).
Proof.
  intros H Hk Hx. unfold pb_ends_s, ends. destruct l as [|a t]; [easy|].
  split; exists k; cbn [bvz p_min p_max pb_both]; split; auto.
  - destruct Hk as [<-|Hk]; [lia|]. inversion H as [|? ? ? HF]; subst. rewrite Forall_forall in HF. now apply HF.
  - rewrite <- last_map. now apply last_incr.
Qed.

Lemma holds_none x : pb_holds x pb_none.
Proof. easy. Qed.
Lemma holds_both x a b k : match a, b with BVf _, _ | _, BVf _ => False | _, _ => True end ->
  In k (keys x) -> bvz a <= k -> k <= bvz b -> pb_holds x (pb_both a b).
Proof. intros F H A B. split; [apply (above_z _ _ k)|apply (below_z _ _ k)]; auto; destruct a, b; easy. Qed.

Section WithGeo.
  Context {G : Geo}.

  (** The value of variable [v] when its attribute is known. *)
  Lemma read_known c ev p x v t y : env_ok c ev p -> event_ok (c_domains c) ev -> dv c x v t ->
    read_var p v = Ok (Some y) -> exists y0, lookup ev x = Some y0 /\ y = stored c v t y0 /\ value_ok t y0.
  Proof.
    intros HE HO D R. pose proof (read_at c ev p x v t HE HO D) as K.
    destruct (lookup ev x) as [y0|]; [|rewrite R in K; discriminate].
    destruct K as [K V]. rewrite R in K. injection K as ->. eauto.
  Qed.
  Lemma dv_type c x v t d : dv c x v t -> nthN (c_domains c) v = Some d -> btype (d_bound d) = t.
  Proof. intros D N. destruct (dv_dom _ _ _ _ D) as (d' & N' & E). congruence. Qed.

  (** The value of a float variable is no near miss of the constant. *)
  Definition float_apart (c : config) (ev : event) (v : N) (a : atom) : Prop :=
    forall n k f, constant_of a = Some (n, k) -> dv c n v TFloat -> lookup ev n = Some (VFloat f) -> apart f k.
  Lemma apart_other c ev v d l : nthN (c_domains c) v = Some d -> btype (d_bound d) <> TFloat -> Forall (float_apart c ev v) l.
  Proof. intros N F. apply Forall_forall. intros a _ n k f _ D. destruct F. eapply dv_type; eauto. Qed.

  (** A comparison with a float. *)
  Lemma cmp_float_sound op rev y k b v x : apart y k -> cmp_F op y k = negb rev ->
    gvb_leaf v TFloat rev (PCmp op (mkAV x v) (CFloat k)) = Ok b -> pb_holds (VFloat y) b.
  Proof.
    intros (CY & CK & AP) HS H. apply canonical_good in CY, CK. cbn [gvb_leaf av_var] in H. rewrite N.eqb_refl in H. cbn [negb] in H.
    pose proof (leb_units y k CY CK) as L1. pose proof (leb_units k y CK CY) as L2.
    pose proof (ltb_units y k CY CK) as L3. pose proof (ltb_units k y CK CY) as L4.
    destruct op, rev; cbn [cmp_F negb] in HS; injection H as <-; (split; cbn [p_min p_max opt above below]; try exact I);
      exists y; (split; [reflexivity|]).
    - apply L2. destruct (fltb y k); [discriminate HS|]. destruct L3 as [_ L3]. apply Z.nlt_ge. intros K. discriminate (L3 K).
    - apply below_apart; auto. now apply L3.
    - apply above_apart; auto. destruct (fleb y k); [discriminate HS|]. destruct L1 as [_ L1]. apply Z.nle_gt. intros K. discriminate (L1 K).
    - exact HS.
    - apply L1. destruct (fltb k y); [discriminate HS|]. destruct L4 as [_ L4]. apply Z.nlt_ge. intros K. discriminate (L4 K).
    - apply above_apart; auto. now apply L4.
    - apply below_apart; auto. destruct (fleb k y); [discriminate HS|]. destruct L2 as [_ L2]. apply Z.nle_gt. intros K. discriminate (L2 K).
    - exact HS.
  Qed.
  Lemma eq_float_sound op rev y k b v x : apart y k -> eq_res op (feq y k) = negb rev ->
    gvb_leaf v TFloat rev (PEq op (mkAV x v) (QFloat k)) = Ok b -> pb_holds (VFloat y) b.
  Proof.
    intros (CY & CK & AP) HS H. apply canonical_good in CY, CK. cbn [gvb_leaf av_var] in H. rewrite N.eqb_refl in H. cbn [negb] in H.
    assert (feq y k = true -> pb_holds (VFloat y) (pb_both (BVf k) (BVf k))) as K.
    { intros E. apply (feq_apart y k CY CK AP) in E. split; cbn [p_min p_max pb_both opt above below]; exists y; (split; [reflexivity|]);
        apply leb_units; auto; rewrite E; apply Z.le_refl. }
    destruct op, rev; cbn [eq_res negb] in *; injection H as <-; try apply holds_none; apply K; destruct (feq y k); easy.
  Qed.

  Lemma gvb_leaf_sound c cs ev p a q v d rev b y :
    env_ok c ev p -> event_ok (c_domains c) ev -> tabs_ok c -> atom_ok (c_domains c) cs a ->
    res_leaf c cs a q -> nthN (c_domains c) v = Some d -> float_apart c ev v a ->
    read_var p v = Ok (Some y) -> sem_atom cs ev a = negb rev ->
    gvb_leaf v (btype (d_bound d)) rev q = Ok b -> pb_holds y b.
  Proof.
    intros HE HO HT HA HR HN HF RV HS H.
    assert (forall x w t, dv c x w t -> w = v ->
      btype (d_bound d) = t /\ exists y0, lookup ev x = Some y0 /\ y = stored c v t y0 /\ value_ok t y0) as K.
    { intros x w t D ->. split; [eapply dv_type; eauto|]. eapply read_known; eauto. }
    destruct a as [x|lb|op x [z|f]|op x [z|f|s]|op x [l|l]|op [z|f|s] x|op x [l|l]|op x|t ns value len|op x id s|a b0 r|op x pat];
      cbn [res_leaf atom_ok sem_atom] in *.
    - destruct HR as (w & D & ->). cbn [gvb_leaf av_var] in H. destruct (N.eqb_spec v w) as [E|_];
        cbn [negb] in H; [symmetry in E|injection H as <-; apply holds_none].
      destruct (K _ _ _ D E) as (ET & y0 & L & -> & V). rewrite ET in H. rewrite L in HS.
      destruct y0; try (exfalso; exact V). subst b0. injection H as <-.
      destruct rev; (eapply holds_both; [exact I|now left|easy|easy]).
    - subst q. injection H as <-. apply holds_none.
    - destruct HR as (w & [[D ->]|[D ->]]); cbn [gvb_leaf av_var] in H; destruct (N.eqb_spec v w) as [E|_];
        cbn [negb] in H; try (symmetry in E); try (injection H as <-; apply holds_none);
        destruct (K _ _ _ D E) as (ET & y0 & L & -> & V).
      2:{ rewrite ET in H. rewrite L in HS. subst w. destruct y0; try (exfalso; exact V).
          cbn [stored]. refine (cmp_float_sound op rev f _ b v x (HF _ _ _ eq_refl D L) HS _).
          cbn [gvb_leaf av_var]. rewrite N.eqb_refl. exact H. }
      rewrite ET in H. rewrite L in HS. destruct y0; try (exfalso; exact V).
      destruct op, rev; try inv_ck H; injection H as <-; cbn [cmp_Z negb] in HS;
        (split; cbn [p_min p_max opt]; [|easy] || (split; [easy|]));
        (exists z0; split; [now left|cbn [bvz]; lia]).
    - destruct HR as (w & D & ->); cbn [gvb_leaf av_var] in H; destruct (N.eqb_spec v w) as [E|_];
        cbn [negb] in H; try (symmetry in E); try (injection H as <-; apply holds_none);
        destruct (K _ _ _ D E) as (ET & y0 & L & -> & V).
      rewrite ET in H. rewrite L in HS. subst w. destruct y0; try (exfalso; exact V).
      cbn [stored]. refine (cmp_float_sound op rev f0 _ b v x (HF _ _ _ eq_refl D L) HS _).
      cbn [gvb_leaf av_var]. rewrite N.eqb_refl. exact H.
    - destruct HR as (w & [[D ->]|[[D ->]|[D (i & -> & KI)]]]); cbn [gvb_leaf av_var] in H; destruct (N.eqb_spec v w) as [E|_];
        cbn [negb] in H; try (symmetry in E); try (injection H as <-; apply holds_none);
        destruct (K _ _ _ D E) as (ET & y0 & L & -> & V); rewrite ET in H; rewrite L in HS;
        destruct y0; try (exfalso; exact V).
      + injection H as <-. destruct op, rev; cbn [eq_res negb] in *; try apply holds_none;
          (apply (holds_both _ _ _ z0); [exact I|now left|cbn [bvz]; lia|cbn [bvz]; lia]).
      + subst w. cbn [stored]. refine (eq_float_sound op rev f _ b v x (HF _ _ _ eq_refl D L) HS _).
        cbn [gvb_leaf av_var]. rewrite N.eqb_refl. exact H.
      + injection H as <-. subst w. pose proof (try_ie_eq c v z z0 i HT KI) as TI.
        destruct op, rev; cbn [eq_res negb] in *; try apply holds_none;
          (apply (holds_both _ _ _ (try_get_ie c v z0)); [exact I|now left|cbn [bvz ie_id]; lia|cbn [bvz ie_id]; lia]).
    - destruct HR as (w & D & ->); cbn [gvb_leaf av_var] in H; destruct (N.eqb_spec v w) as [E|_];
        cbn [negb] in H; try (symmetry in E); try (injection H as <-; apply holds_none);
        destruct (K _ _ _ D E) as (ET & y0 & L & -> & V).
      rewrite ET in H. rewrite L in HS. subst w. destruct y0; try (exfalso; exact V).
      cbn [stored]. refine (eq_float_sound op rev f0 _ b v x (HF _ _ _ eq_refl D L) HS _).
      cbn [gvb_leaf av_var]. rewrite N.eqb_refl. exact H.
    - destruct HR as (w & i & D & -> & KI); cbn [gvb_leaf av_var] in H; destruct (N.eqb_spec v w) as [E|_];
        cbn [negb] in H; try (symmetry in E); try (injection H as <-; apply holds_none);
        destruct (K _ _ _ D E) as (ET & y0 & L & -> & V). rewrite ET in H. rewrite L in HS.
      destruct y0 as [| | |y0| | | | | ]; try (exfalso; exact V). injection H as <-. subst w.
      pose proof (try_str_eq c v s (sv_string y0) i HT KI) as TI.
      destruct op, rev; cbn [eq_res negb] in *; try apply holds_none;
          (apply (holds_both _ _ _ (try_get_str c v (sv_string y0))); [exact I|now left|cbn [bvz sv_str]; lia|cbn [bvz sv_str]; lia]).
    - destruct HR as (w & l' & D & -> & S & P); cbn [gvb_leaf av_var] in H; destruct (N.eqb_spec v w) as [E|_];
        cbn [negb] in H; try (symmetry in E); try (injection H as <-; apply holds_none);
        destruct (K _ _ _ D E) as (ET & y0 & L & -> & V). rewrite ET in H. rewrite L in HS.
      destruct y0; try (exfalso; exact V). injection H as <-. unfold memZ in HS. rewrite <- (existsb_perm _ _ _ P) in HS.
      fold (memb z l') in HS.
      destruct op, rev; cbn [in_res negb] in *; try apply holds_none;
        (apply (ends_i_holds _ _ z); [easy|apply memb_In; destruct (memb z l'); easy|now left]).
    - destruct HR as (w & l' & D & -> & S & P & F); cbn [gvb_leaf av_var] in H; destruct (N.eqb_spec v w) as [E|_];
        cbn [negb] in H; try (symmetry in E); try (injection H as <-; apply holds_none);
        destruct (K _ _ _ D E) as (ET & y0 & L & -> & V). rewrite ET in H. rewrite L in HS. subst w.
      destruct y0 as [| | |y0| | | | | ]; try (exfalso; exact V). injection H as <-.
      rewrite <- (memb_ids c v (sv_string y0) l' l HT F P) in HS.
      destruct op, rev; cbn [in_res negb] in *; try apply holds_none;
        (apply (ends_s_holds _ _ (try_get_str c v (sv_string y0)));
         [easy|apply memb_In; destruct (memb _ _); easy|now left]).
    - destruct HR as (w & D & ->); cbn [gvb_leaf av_var] in H; destruct (N.eqb_spec v w) as [E|_];
        cbn [negb] in H; try (symmetry in E); try (injection H as <-; apply holds_none);
        destruct (K _ _ _ D E) as (ET & y0 & L & -> & V). rewrite ET in H. rewrite L in HS.
      destruct y0; try (exfalso; exact V). injection H as <-. cbn [ints_in] in HS. fold (memb z l) in HS.
      assert (memZ z l = true -> In z (keys (stored c v TIntList (VIntList l)))) as KK
        by (intros X; cbn [stored keys]; apply sort_ints_In; now apply memb_In).
      destruct op, rev; cbn [in_res negb] in *; try apply holds_none;
        (apply (holds_both _ _ _ z); [exact I|apply KK; destruct (memZ z l); easy|cbn [bvz]; lia|cbn [bvz]; lia]).
    - easy.
    - destruct HR as (w & i & D & -> & KI); cbn [gvb_leaf av_var] in H; destruct (N.eqb_spec v w) as [E|_];
        cbn [negb] in H; try (symmetry in E); try (injection H as <-; apply holds_none);
        destruct (K _ _ _ D E) as (ET & y0 & L & -> & V). rewrite ET in H. rewrite L in HS. subst w.
      assert (exists h, stored c v TStrList y0 = VStrList (sort_strs (map (fun s => istr c v (sv_string s)) h))
                        /\ strs_in y0 = Some (map sv_string h)) as (h & EK & ES).
      { destruct y0 as [| | | |[|? ?]|y0| | | ]; try (exfalso; exact V); [exists []; easy|exists y0; easy]. }
      rewrite EK. rewrite ES in HS. injection H as <-. 
      assert (sres c v (mkS s i)) as KS by exact KI.
      pose proof (memb_have c v (mkS s i) h HT KS) as MH. cbn [sv_str sv_string] in MH. rewrite <- MH in HS.
      destruct op, rev; cbn [in_res negb] in *; try apply holds_none;
        (apply (holds_both _ _ _ i); [exact I|apply memb_In; destruct (memb i _); easy|cbn [bvz sv_str]; lia|cbn [bvz sv_str]; lia]).
    - destruct HR as (w & l' & D & -> & S & P); cbn [gvb_leaf av_var] in H; destruct (N.eqb_spec v w) as [E|_];
        cbn [negb] in H; try (symmetry in E); try (injection H as <-; apply holds_none);
        destruct (K _ _ _ D E) as (ET & y0 & L & -> & V). rewrite ET in H. rewrite L in HS.
      destruct y0 as [| | | |y0| | | | ]; try (exfalso; exact V). injection H as <-. cbn [ints_in] in HS.
      assert (existsb (fun k => memZ k y0) l = true -> pb_holds (stored c v TIntList (VIntList y0)) (pb_ends_i l')) as KK.
      { intros X. apply existsb_exists in X. destruct X as (k & Hk & M).
        apply (ends_i_holds _ _ k); auto.
        - eapply Permutation_in; [apply Permutation_sym, P|easy].
        - cbn [stored keys]. apply sort_ints_In. now apply memb_In. }
      destruct op, rev; cbn [list_res negb] in *; try apply holds_none; apply KK.
      + easy.
      + destruct (existsb _ _); easy.
      + destruct HA as (_ & HL & _). destruct l as [|k l]; [easy|]. cbn in HS |- *.
        destruct (memZ k y0); easy.
    - destruct HR as (w & l' & D & -> & S & P & F); cbn [gvb_leaf av_var] in H; destruct (N.eqb_spec v w) as [E|_];
        cbn [negb] in H; try (symmetry in E); try (injection H as <-; apply holds_none);
        destruct (K _ _ _ D E) as (ET & y0 & L & -> & V). rewrite ET in H. rewrite L in HS. subst w.
      assert (exists h, stored c v TStrList y0 = VStrList (sort_strs (map (fun s => istr c v (sv_string s)) h))
                        /\ strs_in y0 = Some (map sv_string h)) as (h & EK & ES).
      { destruct y0 as [| | | |[|? ?]|y0| | | ]; try (exfalso; exact V); [exists []; easy|exists y0; easy]. }
      rewrite EK. rewrite ES in HS. injection H as <-.
      assert (existsb (fun k => memS k (map sv_string h)) l = true ->
              pb_holds (VStrList (sort_strs (map (fun s => istr c v (sv_string s)) h))) (pb_ends_s l')) as KK.
      { intros X. rewrite <- (existsb_perm _ _ _ P), existsb_map in X. apply existsb_exists in X.
        destruct X as (k & Hk & M). rewrite Forall_forall in F. rewrite <- (memb_have c v k h HT (F k Hk)) in M.
        apply (ends_s_holds _ _ (sv_str k)); auto.
        - now apply in_map.
        - now apply memb_In. }
      destruct op, rev; cbn [list_res negb] in *; try apply holds_none; apply KK.
      + easy.
      + destruct (existsb _ _); easy.
      + destruct HA as (_ & HL & _). destruct l as [|k l]; [easy|]. cbn in HS |- *.
        destruct (memS k (map sv_string h)); easy.
    - destruct HR as (w & t & D & ->). injection H as <-. apply holds_none.
    - destruct HR as (w & nv & i & z & D & D2 & _ & _ & ->). injection H as <-. apply holds_none.
    - destruct HR as (w & nv & D & D2 & ->). injection H as <-. apply holds_none.
    - destruct HR as (w & w' & D & D2 & ->). injection H as <-. apply holds_none.
    - destruct HR as (w & D & ->). injection H as <-. apply holds_none.
  Qed.

  Lemma holds_and t y a b : pb_kind t a -> pb_kind t b -> pb_holds y a -> pb_holds y b ->
    pb_holds y (mkPB (merge_and bv_min (p_min a) (p_min b)) (merge_and bv_max (p_max a) (p_max b))).
  Proof.
    intros [K1 K2] [K3 K4] [H1 H2] [H3 H4]. split; cbn [p_min p_max].
    - destruct (p_min a) as [m|], (p_min b) as [m'|]; cbn [merge_and opt] in *; auto. eapply above_min; eauto.
    - destruct (p_max a) as [m|], (p_max b) as [m'|]; cbn [merge_and opt] in *; auto. eapply below_max; eauto.
  Qed.
  Lemma holds_or t y a b : pb_kind t a -> pb_kind t b -> pb_holds y a \/ pb_holds y b ->
    pb_holds y (mkPB (merge_or bv_min (p_min a) (p_min b)) (merge_or bv_max (p_max a) (p_max b))).
  Proof.
    intros [K1 K2] [K3 K4] H. split; cbn [p_min p_max].
    - destruct (p_min a) as [m|] eqn:Ea, (p_min b) as [m'|] eqn:Eb; cbn [merge_or opt] in *; auto.
      eapply above_min; eauto. destruct H as [[H _]|[H _]]; [rewrite Ea in H; now left|rewrite Eb in H; now right].
    - destruct (p_max a) as [m|] eqn:Ea, (p_max b) as [m'|] eqn:Eb; cbn [merge_or opt] in *; auto.
      eapply below_max; eauto. destruct H as [[_ H]|[_ H]]; [rewrite Ea in H; now left|rewrite Eb in H; now right].
  Qed.

  (** An atom without range gives none. *)
  Lemma gvb_leaf_quiet c cs v t rev a q b : res_leaf c cs a q -> no_range (rev, a) ->
    gvb_leaf v t rev q = Ok b -> b = pb_none.
  Proof.
    intros HR HN H.
    destruct a as [x|b0|op x [z|f]|op x [z|f|s]|op x [l|l]|op [z|f|s] x|op x [l|l]|op x|ty ns value len|op x id s|a1 b1 r|op x pat];
      cbn [res_leaf no_range fst snd] in *; try easy.
    - subst q. now injection H.
    - destruct HR as (w & [[D ->]|[[D ->]|[D (i & -> & KI)]]]); cbn [gvb_leaf av_var] in H;
        destruct (N.eqb_spec v w) as [E|E]; cbn [negb] in H; try solve [now injection H];
        destruct t; try discriminate; destruct op; subst rev; now injection H.
    - destruct HR as (w & D & ->). cbn [gvb_leaf av_var] in H. destruct (N.eqb_spec v w) as [E|E]; cbn [negb] in H; try solve [now injection H];
        destruct t; try discriminate; destruct op; subst rev; now injection H.
    - destruct HR as (w & i & D & -> & KI). cbn [gvb_leaf av_var] in H. destruct (N.eqb_spec v w) as [E|E]; cbn [negb] in H; try solve [now injection H];
        destruct t; try discriminate; destruct op; subst rev; now injection H.
    - destruct HR as (w & l' & D & -> & S & P). cbn [gvb_leaf av_var] in H. destruct (N.eqb_spec v w) as [E|E]; cbn [negb] in H; try solve [now injection H];
        destruct t; try discriminate; destruct op; subst rev; now injection H.
    - destruct HR as (w & l' & D & -> & S & P & F). cbn [gvb_leaf av_var] in H. destruct (N.eqb_spec v w) as [E|E]; cbn [negb] in H; try solve [now injection H];
        destruct t; try discriminate; destruct op; subst rev; now injection H.
    - destruct HR as (w & D & ->). cbn [gvb_leaf av_var] in H. destruct (N.eqb_spec v w) as [E|E]; cbn [negb] in H; try solve [now injection H];
        destruct t; try discriminate; destruct op; subst rev; now injection H.
    - destruct HR as (w & i & D & -> & KI). cbn [gvb_leaf av_var] in H. destruct (N.eqb_spec v w) as [E|E]; cbn [negb] in H; try solve [now injection H];
        destruct t; try discriminate; destruct op; subst rev; now injection H.
    - destruct HR as (w & l' & D & -> & S & P). cbn [gvb_leaf av_var] in H. destruct (N.eqb_spec v w) as [E|E]; cbn [negb] in H; try solve [now injection H];
        destruct t; try discriminate; destruct op; subst rev; now injection H.
    - destruct HR as (w & l' & D & -> & S & P & F). cbn [gvb_leaf av_var] in H. destruct (N.eqb_spec v w) as [E|E]; cbn [negb] in H; try solve [now injection H];
        destruct t; try discriminate; destruct op; subst rev; now injection H.
    - destruct HR as (w & t0 & D & ->). now injection H.
    - destruct HR as (w & nv & i & z & D & D2 & _ & _ & ->). now injection H.
    - destruct HR as (w & nv & D & D2 & ->). now injection H.
    - destruct HR as (w & w' & D & D2 & ->). now injection H.
    - destruct HR as (w & D & ->). now injection H.
  Qed.
  Lemma gvb_quiet c cs v t x e : res_expr c cs x e -> forall rev b, Forall no_range (signed_atoms rev x) ->
    gvb_inner v t rev e = Ok b -> b = pb_none.
  Proof.
    induction 1; cbn [signed_atoms gvb_inner]; intros rev b HF HB.
    - inversion HF; subst. eapply gvb_leaf_quiet; eauto.
    - eauto.
    - apply Forall_app in HF. destruct HF as [F1 F2].
      destruct (gvb_inner v t rev e) as [b1| | |] eqn:E1; try discriminate; cbn [bind] in HB.
      destruct (gvb_inner v t rev e') as [b2| | |] eqn:E2; try discriminate. cbn [bind] in HB. injection HB as <-.
      now rewrite (IHrel_src1 _ _ F1 E1), (IHrel_src2 _ _ F2 E2).
    - apply Forall_app in HF. destruct HF as [F1 F2].
      destruct (gvb_inner v t rev e') as [b2| | |] eqn:E2; try discriminate; cbn [bind] in HB.
      destruct (gvb_inner v t rev e) as [b1| | |] eqn:E1; try discriminate. cbn [bind] in HB. injection HB as <-.
      now rewrite (IHrel_src1 _ _ F1 E1), (IHrel_src2 _ _ F2 E2).
    - apply Forall_app in HF. destruct HF as [F1 F2].
      destruct (gvb_inner v t rev e) as [b1| | |] eqn:E1; try discriminate; cbn [bind] in HB.
      destruct (gvb_inner v t rev e') as [b2| | |] eqn:E2; try discriminate. cbn [bind] in HB. injection HB as <-.
      now rewrite (IHrel_src1 _ _ F1 E1), (IHrel_src2 _ _ F2 E2).
    - apply Forall_app in HF. destruct HF as [F1 F2].
      destruct (gvb_inner v t rev e') as [b2| | |] eqn:E2; try discriminate; cbn [bind] in HB.
      destruct (gvb_inner v t rev e) as [b1| | |] eqn:E1; try discriminate. cbn [bind] in HB. injection HB as <-.
      now rewrite (IHrel_src1 _ _ F1 E1), (IHrel_src2 _ _ F2 E2).
  Qed.

  (** C20: the derived range is sound. *)
  Lemma gvb_sound c cs ev p v d y :
    env_ok c ev p -> event_ok (c_domains c) ev -> tabs_ok c ->
    nthN (c_domains c) v = Some d -> read_var p v = Ok (Some y) ->
    forall x e, res_expr c cs x e -> src_ok (c_domains c) cs x -> Forall (float_apart c ev v) (src_atoms x) ->
    forall rev b, range_ok rev x -> sem cs ev x = negb rev ->
    gvb_inner v (btype (d_bound d)) rev e = Ok b -> pb_holds y b.
  Proof.
    intros HE HO HT HN RV x e HR. unfold src_ok.
    assert (forall rev e1 e2 b (f : pb -> pb -> pb), bind (gvb_inner v (btype (d_bound d)) rev e1)
        (fun l => bind (gvb_inner v (btype (d_bound d)) rev e2) (fun r => Ok (f l r))) = Ok b ->
      exists b1 b2, gvb_inner v (btype (d_bound d)) rev e1 = Ok b1 /\ gvb_inner v (btype (d_bound d)) rev e2 = Ok b2
        /\ pb_kind (btype (d_bound d)) b1 /\ pb_kind (btype (d_bound d)) b2 /\ b = f b1 b2) as INV.
    { intros rev e1 e2 b f H.
      destruct (gvb_inner v _ rev e1) as [b1| | |] eqn:E1; try discriminate; cbn [bind] in H.
      destruct (gvb_inner v _ rev e2) as [b2| | |] eqn:E2; try discriminate. cbn [bind] in H. injection H as <-.
      exists b1, b2. sp; eauto using gvb_inner_kind. }
    induction HR; cbn [src_atoms range_ok sem gvb_inner]; intros HS HF rev b HNo HSem HB.
    - inversion HS; subst. inversion HF; subst. eapply gvb_leaf_sound; eauto.
    - eapply (IHHR HS HF (negb rev)); eauto. rewrite negb_involutive in *. destruct (sem cs ev x), rev; easy.
    - apply Forall_app in HS, HF. destruct HS as [S1 S2], HF as [F1 F2]. destruct HNo as (R & N1 & N2).
      apply INV in HB. destruct HB as (b1 & b2 & G1 & G2 & K1 & K2 & ->). destruct rev.
      + specialize (R eq_refl). cbn [signed_atoms] in R. apply Forall_app in R. destruct R as [R1 R2].
        rewrite (gvb_quiet _ _ _ _ _ _ HR1 _ _ R1 G1).
        rewrite (gvb_quiet _ _ _ _ _ _ HR2 _ _ R2 G2). apply holds_none.
      + cbn [negb] in HSem. apply andb_prop in HSem. destruct HSem as [X1 X2]. eapply holds_and; eauto.
    - apply Forall_app in HS, HF. destruct HS as [S1 S2], HF as [F1 F2]. destruct HNo as (R & N1 & N2).
      apply INV in HB. destruct HB as (b1 & b2 & G1 & G2 & K1 & K2 & ->). destruct rev.
      + specialize (R eq_refl). cbn [signed_atoms] in R. apply Forall_app in R. destruct R as [R1 R2].
        rewrite (gvb_quiet _ _ _ _ _ _ HR2 _ _ R2 G1).
        rewrite (gvb_quiet _ _ _ _ _ _ HR1 _ _ R1 G2). apply holds_none.
      + cbn [negb] in HSem. apply andb_prop in HSem. destruct HSem as [X1 X2]. eapply holds_and; eauto.
    - apply Forall_app in HS, HF. destruct HS as [S1 S2], HF as [F1 F2]. destruct HNo as (N1 & N2).
      apply INV in HB. destruct HB as (b1 & b2 & G1 & G2 & K1 & K2 & ->). eapply holds_or; eauto.
      destruct rev; cbn [negb] in *.
      + apply orb_false_elim in HSem. destruct HSem. left. eauto.
      + apply orb_prop in HSem. destruct HSem; [left|right]; eauto.
    - apply Forall_app in HS, HF. destruct HS as [S1 S2], HF as [F1 F2]. destruct HNo as (N1 & N2).
      apply INV in HB. destruct HB as (b1 & b2 & G1 & G2 & K1 & K2 & ->). eapply holds_or; eauto.
      destruct rev; cbn [negb] in *.
      + apply orb_false_elim in HSem. destruct HSem. left. eauto.
      + apply orb_prop in HSem. destruct HSem; [right|left]; eauto.
  Qed.
End WithGeo.
