(** The passes over an accepted expression always finish, and so do the operations that change a tree. *)
From Coq Require Import ZArith NArith String Bool List Lia Permutation.
From Verif Require Import Base Float Value Ast Config Assign Special Match Bound Tree PredMap Source Api Spec TreeSpec BaseProofs ListProofs ExtProofs ResProofs PassProofs PredProofs ShortProofs GvbProofs TreeProofs FloatProofs ScoreProofs TotalProofs WideProofs Hist HistProofs.
Import ListNotations.
Local Open Scope Z_scope.

Section Mode.
Context {FM : Floats} {WM : Whole}.

(** *** The range of a variable *)
Lemma gvb_leaf_total c cs a q v d rev : atom_ok (c_domains c) cs a -> res_leaf c cs a q -> nthN (c_domains c) v = Some d ->
  exists b, gvb_leaf v (btype (d_bound d)) rev q = Ok b.
Proof.
  intros HA HR N.
  assert (DV : forall x w t, dv c x w t -> v = w -> btype (d_bound d) = t).
  { intros x w t D <-. apply dv_dom in D. destruct D as (d' & N' & T). congruence. }
  assert (CK : forall z, inner_int z -> ck64 (z - 1) = Ok (z - 1) /\ ck64 (z + 1) = Ok (z + 1)).
  { intros z I. unfold inner_int in I. split; apply ck64_in; lia. }
  destruct a as [x|b|op x k|op x k|op x l|op k x|op x l|op x|ty ns val win|op x id sec|la lo r|op x pat]; cbn [res_leaf atom_ok] in *.
  - destruct HR as (w & D & ->). cbn [gvb_leaf av_var]. destruct (N.eqb_spec v w) as [Hw|Hw]; cbn [negb]; [|eauto].
    rewrite (DV _ _ _ D Hw). eauto.
  - subst q. cbn. eauto.
  - destruct k as [z|f].
    + destruct HR as (w & [[D ->]|[D ->]]); cbn [gvb_leaf av_var]; destruct (N.eqb_spec v w) as [Hw|Hw]; cbn [negb]; eauto;
        rewrite (DV _ _ _ D Hw).
      * destruct HA as [[T I]|T].
        -- destruct (CK z I) as [C1 C2]. rewrite C1, C2. cbn [bind]. destruct op, rev; eauto.
        -- apply dv_has in T. destruct T as (w' & T). destruct (dv_fun _ _ _ _ _ _ D T). discriminate.
      * destruct op, rev; eauto.
    + destruct HR as (w & D & ->); cbn [gvb_leaf av_var]; destruct (N.eqb_spec v w) as [Hw|Hw]; cbn [negb]; eauto.
      rewrite (DV _ _ _ D Hw). destruct op, rev; eauto.
  - destruct k as [z|f|s].
    + destruct HR as (w & [[D ->]|[[D ->]|(D & i & -> & _)]]); cbn [gvb_leaf av_var]; destruct (N.eqb_spec v w) as [Hw|Hw]; cbn [negb]; eauto;
        rewrite (DV _ _ _ D Hw); eauto.
    + destruct HR as (w & D & ->); cbn [gvb_leaf av_var]; destruct (N.eqb_spec v w) as [Hw|Hw]; cbn [negb]; eauto.
      rewrite (DV _ _ _ D Hw); eauto.
    + destruct HR as (w & i & D & -> & _); cbn [gvb_leaf av_var]; destruct (N.eqb_spec v w) as [Hw|Hw]; cbn [negb]; eauto.
      rewrite (DV _ _ _ D Hw); eauto.
  - destruct l as [l|l]; destruct HR as (w & l' & D & -> & _); cbn [gvb_leaf av_var]; destruct (N.eqb_spec v w) as [Hw|Hw]; cbn [negb]; eauto;
      rewrite (DV _ _ _ D Hw); eauto.
  - destruct k as [z|f|s]; [destruct HR as (w & D & ->)|easy|destruct HR as (w & i & D & -> & _)];
      cbn [gvb_leaf av_var]; destruct (N.eqb_spec v w) as [Hw|Hw]; cbn [negb]; eauto; rewrite (DV _ _ _ D Hw); eauto.
  - destruct l as [l|l]; destruct HR as (w & l' & D & -> & _); cbn [gvb_leaf av_var]; destruct (N.eqb_spec v w) as [Hw|Hw]; cbn [negb]; eauto;
      rewrite (DV _ _ _ D Hw); eauto.
  - destruct HR as (w & t & D & ->). cbn. eauto.
  - destruct HR as (w & nv & i & z & _ & _ & _ & _ & ->). cbn. eauto.
  - destruct HR as (w & nv & _ & _ & ->). cbn. eauto.
  - destruct HR as (w & nv & _ & _ & ->). cbn. eauto.
  - destruct HR as (w & _ & ->). cbn. eauto.
Qed.
Lemma gvb_total c cs x e v d : src_ok (c_domains c) cs x -> res_expr c cs x e -> nthN (c_domains c) v = Some d ->
  forall rev, exists b, gvb_inner v (btype (d_bound d)) rev e = Ok b.
Proof.
  unfold src_ok. intros HA HR N. induction HR; cbn [src_atoms] in HA; intros rev; cbn [gvb_inner];
    try (apply Forall_app in HA; destruct HA as [HA1 HA2];
         destruct (IHHR1 HA1 rev) as [b1 E1]; destruct (IHHR2 HA2 rev) as [b2 E2]; rewrite E1, E2; cbn [bind]; eauto).
  - inversion HA; subst. eapply gvb_leaf_total; eauto.
  - auto.
Qed.
Lemma res_bounded c cs x s : src_ok (c_domains c) cs x -> res_expr c cs x (s_expr s) -> bounded_sub c s.
Proof.
  intros HS HR v d N S'. unfold get_variable_bound. destruct (gvb_total c cs x _ v d HS HR N false) as [b ->]. cbn [bind].
  destruct (d_bound d) as [dlo dhi|dw dlo dhi|dlo dhi|dw dlo dhi| | ]; cbn [splits] in S'; try easy; eauto.
Qed.

(** *** make_sub *)
Definition leaf_vars (p : leaf) : list N :=
  match p with
  | PLit _ => []
  | PVar v | PCmp _ v _ | PEq _ v _ | PList _ v _ | PNull _ v | PStr _ v _ => [av_var v]
  | PSet _ (SLVar v) _ => [av_var v]
  | PSet _ _ (SRVar v) => [av_var v]
  | PSet _ _ _ => []
  | PFreq v _ _ _ _ _ _ | PSeg _ _ v _ _ _ => [av_var v]
  | PGeo _ _ _ _ la lo => [av_var la; av_var lo]
  end.
Lemma fill_leaf_total c p A : Forall (fun v => exists d, nthN (c_domains c) v = Some d) (leaf_vars p) ->
  length A = length (make_bits (ndomains c)) ->
  exists A', fill_leaf A p = Ok A' /\ length A' = length (make_bits (ndomains c)).
Proof.
  intros F L.
  assert (K : forall B v, (exists d, nthN (c_domains c) v = Some d) -> length B = length (make_bits (ndomains c)) -> bit_in B v = true).
  { intros B v [d N] LB. apply bit_in_lt. rewrite LB. apply nthN_Some_lt in N. apply bit_in_lt, bit_in_make. unfold ndomains. lia. }
  assert (K1 : forall v, Forall (fun v => exists d, nthN (c_domains c) v = Some d) [av_var v] ->
    exists A', fill_var (Ok A) v = Ok A' /\ length A' = length (make_bits (ndomains c))).
  { intros v F1. inversion F1; subst. unfold fill_var. cbn [bind]. rewrite K by easy. eexists. split; [reflexivity|]. now rewrite length_set_bit. }
  destruct p as [b|v|op v x|op v x|op l r|op v x|op v|v ty ns vl w now id|op h v id s now|h la lo r x y|op v pat]; cbn [fill_leaf leaf_vars] in *; auto; [eauto| |].
  - destruct l; auto; destruct r; auto; eauto.
  - inversion F as [|? ? F1 F2]; subst. inversion F2; subst. unfold fill_var. cbn [bind]. rewrite K by easy. cbn [bind].
    rewrite K; [|easy|now rewrite length_set_bit]. eexists. split; [reflexivity|]. now rewrite !length_set_bit.
Qed.
Lemma fill_pred_total c e : Forall (fun p => Forall (fun v => exists d, nthN (c_domains c) v = Some d) (leaf_vars p)) (expr_leaves e) ->
  forall A, length A = length (make_bits (ndomains c)) -> exists A', fill_pred A e = Ok A' /\ length A' = length (make_bits (ndomains c)).
Proof.
  induction e as [g p|g a IHa b IHb|g a IHa b IHb|g a IHa]; cbn [expr_leaves fill_pred]; intros F A L.
  - inversion F; subst. now apply fill_leaf_total.
  - apply Forall_app in F. destruct F as [F1 F2]. destruct (IHa F1 A L) as (A1 & -> & L1). cbn [bind]. auto.
  - apply Forall_app in F. destruct F as [F1 F2]. destruct (IHa F1 A L) as (A1 & -> & L1). cbn [bind]. auto.
  - auto.
Qed.
Lemma res_leaf_vars c cs a q : res_leaf c cs a q -> Forall (fun v => exists d, nthN (c_domains c) v = Some d) (leaf_vars q).
Proof.
  assert (DV : forall x w t, dv c x w t -> exists d, nthN (c_domains c) w = Some d).
  { intros x w t D. apply dv_dom in D. destruct D as (d' & N' & T). eauto. }
  destruct a as [x|b|op x k|op x k|op x l|op k x|op x l|op x|ty ns val win|op x id sec|la lo r|op x pat]; cbn [res_leaf]; intros HR.
  - destruct HR as (w & D & ->). cbn. eauto.
  - subst q. cbn. eauto.
  - destruct k as [z|f].
    + destruct HR as (w & [[D ->]|[D ->]]); cbn; eauto.
    + destruct HR as (w & D & ->); cbn; eauto.
  - destruct k as [z|f|s].
    + destruct HR as (w & [[D ->]|[[D ->]|(D & i & -> & _)]]); cbn; eauto.
    + destruct HR as (w & D & ->); cbn; eauto.
    + destruct HR as (w & i & D & -> & _); cbn; eauto.
  - destruct l as [l|l]; destruct HR as (w & l' & D & -> & _); cbn; eauto.
  - destruct k as [z|f|s]; [destruct HR as (w & D & ->)|easy|destruct HR as (w & i & D & -> & _)]; cbn; eauto.
  - destruct l as [l|l]; destruct HR as (w & l' & D & -> & _); cbn; eauto.
  - destruct HR as (w & t & D & ->). cbn. eauto.
  - destruct HR as (w & nv & i & z & D & _ & _ & _ & ->). cbn. eauto.
  - destruct HR as (w & nv & D & _ & ->). cbn. eauto.
  - destruct HR as (w & nv & D & D' & ->). cbn. eauto.
  - destruct HR as (w & D & ->). cbn. eauto.
Qed.
Lemma make_sub_total c cs x e id : res_expr c cs x e -> exists s, make_sub c id e = Ok s.
Proof.
  intros HR. unfold make_sub.
  destruct (fill_pred_total c e) with (A := make_bits (ndomains c)) as (A' & -> & _); [|easy|].
  { eapply rel_src_leaves; [exact HR|]. intros a q _ H. eapply res_leaf_vars; eauto. }
  cbn [bind]. destruct (fill_sc _ _ _ _ _). eauto.
Qed.

(** *** Passes *)
Definition decl_var (ds : list domain) (v : avar) : Prop := exists d, nthN ds (av_var v) = Some d.
Definition str_var (ds : list domain) (v : avar) : Prop :=
  exists d z, nthN ds (av_var v) = Some d /\ dom_smax (d_bound d) = Ok z.
Definition leaf_safe (ds : list domain) (p : leaf) : Prop :=
  match p with
  | PLit _ | PSeg _ _ _ _ _ _ | PGeo _ _ _ _ _ _ | PStr _ _ _ => True
  | PVar v | PNull _ v | PCmp _ v _ => decl_var ds v
  | PEq _ v (QStr _) | PList _ v (LStrs _) | PSet _ (SLVar v) (SRStrs _) | PSet _ (SLStr _) (SRVar v) => str_var ds v
  | PEq _ v _ | PList _ v _ | PSet _ (SLVar v) (SRInts _) | PSet _ (SLInt _) (SRVar v) => decl_var ds v
  | PSet _ _ _ => False
  | PFreq v _ _ _ _ _ _ => str_var ds v
  end.
Lemma trav_total (f : config -> leaf -> result (leaf * config)) ds (P : leaf -> Prop) :
  (forall c p, c_domains c = ds -> P p -> exists q c', f c p = Ok (q, c') /\ c_domains c' = ds /\ P q) ->
  forall e c, c_domains c = ds -> Forall P (expr_leaves e) ->
    exists e' c', trav f c e = Ok (e', c') /\ c_domains c' = ds /\ Forall P (expr_leaves e').
Proof.
  intros HF. induction e as [g p|g a IHa b IHb|g a IHa b IHb|g a IHa]; cbn [expr_leaves trav]; intros c D F.
  - inversion F; subst. destruct (HF c p eq_refl) as (q & c' & -> & D' & Q); auto. cbn [bind]. do 2 eexists. split; [reflexivity|].
    split; [easy|]. cbn. auto.
  - apply Forall_app in F. destruct F as [F1 F2]. destruct (IHa c D F1) as (a' & c1 & -> & D1 & G1). cbn [bind].
    destruct (IHb c1 D1 F2) as (b' & c2 & -> & D2 & G2). cbn [bind]. do 2 eexists. split; [reflexivity|]. split; [easy|].
    cbn [expr_leaves]. apply Forall_app. auto.
  - apply Forall_app in F. destruct F as [F1 F2]. destruct (IHa c D F1) as (a' & c1 & -> & D1 & G1). cbn [bind].
    destruct (IHb c1 D1 F2) as (b' & c2 & -> & D2 & G2). cbn [bind]. do 2 eexists. split; [reflexivity|]. split; [easy|].
    cbn [expr_leaves]. apply Forall_app. auto.
  - destruct (IHa c D F) as (a' & c1 & -> & D1 & G1). cbn [bind]. eauto.
Qed.
Lemma get_str_total c v s always : str_var (c_domains c) v ->
  exists i c', get_id_for_string c v s always = Ok (i, c') /\ c_domains c' = c_domains c.
Proof.
  intros (d & z & N & E). unfold get_id_for_string, get_domain. cbn [set_strs c_domains].
  destruct (find_strmap _ _) as [m|].
  - destruct (str_index _ _); [eauto|]. rewrite N. cbn [bind]. destruct always; [cbn [bind]; eauto|]. rewrite E. cbn [bind].
    destruct (_ =? _); eauto.
  - rewrite N. cbn [bind]. destruct always; [cbn [bind]; eauto|]. rewrite E. cbn [bind]. destruct (_ =? _); eauto.
Qed.
Lemma get_ie_total c v s always : str_var (c_domains c) v ->
  exists i c', get_id_for_ienum c v s always = Ok (i, c') /\ c_domains c' = c_domains c.
Proof.
  intros (d & z & N & E). unfold get_id_for_ienum, get_domain. cbn [set_ints c_domains].
  destruct (find_intmap _ _) as [m|].
  - destruct (int_index _ _); [eauto|]. rewrite N. cbn [bind]. destruct always; [cbn [bind]; eauto|]. rewrite E. cbn [bind].
    destruct (_ =? _); eauto.
  - rewrite N. cbn [bind]. destruct always; [cbn [bind]; eauto|]. rewrite E. cbn [bind]. destruct (_ =? _); eauto.
Qed.
Lemma assign_strs_total v always l : forall c, str_var (c_domains c) v ->
  exists l' c', assign_strs c v l always = Ok (l', c') /\ c_domains c' = c_domains c.
Proof.
  induction l as [|s l IH]; intros c H; cbn [assign_strs]; [eauto|].
  destruct (get_str_total c v (sv_string s) always H) as (i & c1 & -> & D1). cbn [bind].
  destruct (IH c1) as (l' & c2 & -> & D2); [now rewrite D1|]. cbn [bind]. do 2 eexists. split; [reflexivity|]. congruence.
Qed.
Lemma str_leaf_total always ds c p : c_domains c = ds -> leaf_safe ds p ->
  exists q c', assign_str_leaf always c p = Ok (q, c') /\ c_domains c' = ds /\ leaf_safe ds q.
Proof.
  intros <- H.
  assert (GS : forall v s, str_var (c_domains c) v -> exists i c', get_id_for_string c v s always = Ok (i, c') /\ c_domains c' = c_domains c)
    by (intros; now apply get_str_total).
  assert (AS : forall v l, str_var (c_domains c) v -> exists l' c', assign_strs c v l always = Ok (l', c') /\ c_domains c' = c_domains c)
    by (intros; now apply assign_strs_total).
  destruct p as [b|v|op v x|op v x|op l r|op v x|op v|v ty ns vl w now id|op h v id s now|h la lo r x y|op v pat]; cbn [leaf_safe assign_str_leaf] in *; eauto 6.
  - destruct x as [z|f|s|e]; cbn [leaf_safe] in *; eauto 6. destruct (GS v (sv_string s) H) as (i & c' & -> & D). cbn [bind]. do 2 eexists. split; [reflexivity|]. now split.
  - destruct l as [z|s|v], r as [l'|l'|v']; cbn [leaf_safe] in *; try easy; eauto 6.
    + destruct (GS v' (sv_string s) H) as (i & c' & -> & D). cbn [bind]. do 2 eexists. split; [reflexivity|]. now split.
    + destruct (AS v l' H) as (l2 & c' & -> & D). cbn [bind]. do 2 eexists. split; [reflexivity|]. now split.
  - destruct x as [l|l]; cbn [leaf_safe] in *; eauto 6. destruct (AS v l H) as (l2 & c' & -> & D). cbn [bind]. do 2 eexists. split; [reflexivity|]. now split.
  - destruct (GS v (sv_string ns) H) as (i & c' & -> & D). cbn [bind]. do 2 eexists. split; [reflexivity|]. now split.
Qed.
Lemma ie_leaf_total always ds c p : c_domains c = ds -> leaf_safe ds p ->
  exists q c', assign_ie_leaf always c p = Ok (q, c') /\ c_domains c' = ds /\ leaf_safe ds q.
Proof.
  intros <- H.
  destruct p as [b|v|op v x|op v x|op l r|op v x|op v|v ty ns vl w now id|op h v id s now|h la lo r x y|op v pat]; cbn [assign_ie_leaf] in *; eauto 6.
  destruct x as [z|f|s|e]; eauto 6. cbn [leaf_safe] in H. pose proof H as (d & N). unfold get_domain. rewrite N. cbn [bind].
  destruct (d_bound d) as [lo hi|w lo hi|lo hi|w lo hi| | ] eqn:E; eauto 6. destruct w; eauto 6.
  destruct (get_ie_total c v z always) as (i & c' & -> & D). { exists d, hi. rewrite E. now split. }
  cbn [bind]. do 2 eexists. split; [reflexivity|]. now split.
Qed.
Lemma fix_leaf_total ds c p : c_domains c = ds -> leaf_safe ds p ->
  exists q c', fix_leaf c p = Ok (q, c') /\ c_domains c' = ds /\ leaf_safe ds q.
Proof.
  intros <- H.
  destruct p as [b|v|op v x|op v x|op l r|op v x|op v|v ty ns vl w now id|op h v id s now|h la lo r x y|op v pat]; cbn [fix_leaf] in *; eauto 6.
  - pose proof H as (d & N). unfold get_domain. rewrite N. cbn [bind]. destruct x; eauto 6.
    do 2 eexists. split; [reflexivity|]. split; [easy|]. destruct (is_float_bound _); easy.
  - assert (decl_var (c_domains c) v) as (d & N).
    { destruct x; cbn [leaf_safe] in H; trivial. destruct H as (d & z & N & _). eexists; eauto. }
    unfold get_domain. rewrite N. cbn [bind]. destruct x; eauto 6.
    do 2 eexists. split; [reflexivity|]. split; [easy|]. destruct (is_float_bound _); easy.
Qed.
Lemma sort_leaf_safe ds p : leaf_safe ds p -> leaf_safe ds (sort_leaf p).
Proof.
  destruct p as [b|v|op v x|op v x|op l r|op v x|op v|v ty ns vl w now id|op h v id s now|h la lo r x y|op v pat]; cbn [sort_leaf]; trivial.
  - destruct l, r; cbn [sort_leaf leaf_safe]; trivial.
  - destruct x; cbn [sort_leaf leaf_safe]; trivial.
Qed.
Lemma sort_safe ds e : Forall (leaf_safe ds) (expr_leaves e) -> Forall (leaf_safe ds) (expr_leaves (sort_lists e)).
Proof.
  unfold sort_lists. induction e as [g p|g a IHa b IHb|g a IHa b IHb|g a IHa]; cbn [map_leaves expr_leaves]; rewrite ?Forall_app; intros F.
  - inversion F; subst. constructor; [now apply sort_leaf_safe|easy].
  - intuition.
  - intuition.
  - auto.
Qed.
Lemma const_safe ds cs e : forall e', assign_constants cs e = Some e' -> Forall (leaf_safe ds) (expr_leaves e) -> Forall (leaf_safe ds) (expr_leaves e').
Proof.
  induction e as [g p|g a IHa b IHb|g a IHa b IHb|g a IHa]; intros e' H F; cbn [assign_constants expr_leaves] in *.
  - destruct (assign_const_leaf cs p) as [p'|] eqn:E; [|discriminate]. injection H as <-. inversion F; subst. cbn. constructor; [|easy].
    destruct p as [b|v|op v x|op v x|op l r|op v x|op v|v ty ns vl w now id|op h v id s now|h la lo r x y|op v pat]; cbn [assign_const_leaf] in E;
      try (injection E as <-; easy). destruct (constant_name ty) as [n|]; [|discriminate].
    destruct (get_integer_constant n cs); [|discriminate]. injection E as <-. easy.
  - apply Forall_app in F. destruct F as [F1 F2]. destruct (assign_constants cs a); [|discriminate]. destruct (assign_constants cs b); [|discriminate].
    injection H as <-. cbn [expr_leaves]. apply Forall_app. auto.
  - apply Forall_app in F. destruct F as [F1 F2]. destruct (assign_constants cs a); [|discriminate]. destruct (assign_constants cs b); [|discriminate].
    injection H as <-. cbn [expr_leaves]. apply Forall_app. auto.
  - destruct (assign_constants cs a); [|discriminate]. injection H as <-. cbn [expr_leaves]. auto.
Qed.
Lemma all_leaves_total f e : Forall (fun p => exists b, f p = Ok b) (expr_leaves e) -> exists b, all_leaves f e = Ok b.
Proof.
  induction e as [g p|g a IHa b IHb|g a IHa b IHb|g a IHa]; cbn [all_leaves expr_leaves]; intros F.
  - now inversion F.
  - apply Forall_app in F. destruct F as [F1 F2]. destruct (IHa F1) as [x ->]. cbn [bind]. destruct x; eauto.
  - apply Forall_app in F. destruct F as [F1 F2]. destruct (IHa F1) as [x ->]. cbn [bind]. destruct x; eauto.
  - auto.
Qed.
Lemma vars_leaf_total ds p : leaf_safe ds p -> exists b, vars_leaf p = Ok b.
Proof.
  destruct p as [b|v|op v x|op v x|op l r|op v x|op v|v ty ns vl w now id|op h v id s now|h la lo r x y|op v pat]; cbn [vars_leaf]; eauto.
  destruct l, r; cbn [leaf_safe]; try easy; eauto.
Qed.
Lemma exprs_leaf_total ds c p : c_domains c = ds -> leaf_safe ds p -> exists b, exprs_leaf c p = Ok b.
Proof.
  intros <-. assert (D : forall v, decl_var (c_domains c) v -> exists d, get_domain c (av_var v) = Ok d).
  { intros v (d & N). unfold get_domain. rewrite N. eauto. }
  assert (D' : forall v, str_var (c_domains c) v -> exists d, get_domain c (av_var v) = Ok d).
  { intros v (d & z & N & _). unfold get_domain. rewrite N. eauto. }
  destruct p as [b|v|op v x|op v x|op l r|op v x|op v|v ty ns vl w now id|op h v id s now|h la lo r x y|op v pat]; cbn [exprs_leaf leaf_safe]; eauto; intros H.
  - destruct (D v H) as [d ->]. cbn. eauto.
  - destruct (D v H) as [d ->]. cbn. eauto.
  - assert (exists d, get_domain c (av_var v) = Ok d) as [d ->] by (destruct x; auto). cbn. eauto.
  - destruct l as [z|s|v], r as [l'|l'|v']; try easy.
    + destruct (D v' H) as [d ->]. cbn. eauto.
    + destruct (D' v' H) as [d ->]. cbn. eauto.
    + destruct (D v H) as [d ->]. cbn. eauto.
    + destruct (D' v H) as [d ->]. cbn. eauto.
  - assert (exists d, get_domain c (av_var v) = Ok d) as [d ->] by (destruct x; auto). cbn. eauto.
  - destruct (D v H) as [d ->]. cbn. eauto.
Qed.

Lemma asb_upper ds x : lower_names ds -> lower x <> x -> attr_string_bound ds x = Ok SIZE_MAX.
Proof.
  intros LN H. induction ds as [|d0 ds IH]; cbn [attr_string_bound]; [easy|]. inversion LN as [|? ? L0 LN']; subst.
  destruct (String.eqb_spec x (d_attr d0)) as [Hx|Hx]; [|auto]. now subst x.
Qed.
Lemma asb_total ds x t : lower_names ds -> has_type ds x t -> (t = TStr \/ t = TStrList) -> exists z, attr_string_bound ds x = Ok z.
Proof.
  intros LN (v & d & H & T) HT. destruct (string_dec (lower x) x) as [E|E]; [|rewrite asb_upper; eauto].
  unfold decl in H. rewrite E in H. clear E. revert H. generalize 0%N.
  induction ds as [|d0 ds IH]; intros i H; cbn [attr_string_bound decl_from] in *; [eauto|].
  inversion LN as [|? ? L0 LN']; subst. rewrite String.eqb_sym. destruct (String.eqb (d_attr d0) x); [|eauto].
  injection H as -> ->. destruct (d_bound d) as [lo hi|w lo hi|lo hi|w lo hi| | ]; cbn [btype] in HT; try (destruct HT; discriminate);
      try (destruct w; destruct HT; discriminate). cbn [dom_smax bind]. eauto.
Qed.

Lemma type_smax b t : btype b = t -> t = TStr \/ t = TStrList \/ t = TIEnum \/ t = TFreqs \/ t = TInt \/ t = TIntList -> exists z, dom_smax b = Ok z.
Proof. intros <- H. destruct b as [lo hi|w lo hi|lo hi|w lo hi| | ]; cbn [btype dom_smax] in *; eauto; destruct H as [H|[H|[H|[H|[H|H]]]]]; discriminate. Qed.
Lemma set_decl c x t : has_type (c_domains c) x t -> decl_var (c_domains c) (set_var c (mk_var x)).
Proof. intros H. apply dv_has in H. destruct H as (v & D). rewrite (set_var_dv _ _ _ _ D). apply dv_dom in D. destruct D as (d & N & _). now exists d. Qed.
Lemma set_str c x t : has_type (c_domains c) x t -> t = TStr \/ t = TStrList \/ t = TFreqs -> str_var (c_domains c) (set_var c (mk_var x)).
Proof.
  intros H T. apply dv_has in H. destruct H as (v & D). rewrite (set_var_dv _ _ _ _ D). apply dv_dom in D. destruct D as (d & N & B).
  destruct (type_smax (d_bound d) t B) as [z E]; [tauto|]. now exists d, z.
Qed.
Lemma built_safe c cs a : atom_ok (c_domains c) cs a -> leaf_safe (c_domains c) (assign_var_leaf c (build_atom a)).
Proof.
  assert (K : forall x, declared (c_domains c) x -> exists t, has_type (c_domains c) x t).
  { intros x (v & d & H). exists (btype (d_bound d)), v, d. auto. }
  destruct a as [x|b|op x k|op x k|op x l|op k x|op x l|op x|ty ns val win|op x id sec|la lo r|op x pat]; cbn [atom_ok build_atom]; intros HA.
  - cbn [assign_var_leaf leaf_safe]. eapply set_decl; eauto.
  - easy.
  - cbn [assign_var_leaf leaf_safe]. destruct k; [destruct HA as [[HA _]|HA]|destruct HA as [HA _]]; eapply set_decl; eauto.
  - destruct k as [z|f|s]; cbn [assign_var_leaf leaf_safe].
    + destruct HA as [[HA _]|[HA|HA]]; eapply set_decl; eauto.
    + eapply set_decl; apply HA.
    + eapply set_str; eauto.
  - destruct l as [l|l]; cbn [assign_var_leaf leaf_safe]; [eapply set_decl; apply HA|eapply set_str; [apply HA|auto]].
  - destruct k as [z|f|s]; cbn [assign_var_leaf leaf_safe]; [eapply set_decl; apply HA|easy|eapply set_str; eauto].
  - destruct l as [l|l]; cbn [assign_var_leaf leaf_safe]; [eapply set_decl; apply HA|eapply set_str; [apply HA|auto]].
  - cbn [assign_var_leaf leaf_safe]. destruct (K x HA) as [t H]. eapply set_decl; eauto.
  - cbn [assign_var_leaf leaf_safe mk_freq]. eapply set_str; [apply HA|auto].
  - destruct x; exact I.
  - exact I.
  - exact I.
Qed.
Lemma strings_total c cs a : lower_names (c_domains c) -> atom_ok (c_domains c) cs a ->
  exists b, strings_leaf c (assign_var_leaf c (build_atom a)) = Ok b.
Proof.
  intros LN.
  assert (V1 : forall x t s, has_type (c_domains c) x t -> t = TStr \/ t = TStrList -> exists b, str_valid c x s = Ok b).
  { intros x t s H T. unfold str_valid. destruct (asb_total _ _ _ LN H T) as [z ->]. cbn [bind].
    destruct (strmap_for_attr _ _) as [m|]; [|eauto]. destruct (str_index _ _); eauto. }
  assert (V2 : forall x t l, has_type (c_domains c) x t -> t = TStr \/ t = TStrList -> exists b, strs_valid c x l = Ok b).
  { intros x t l H T. unfold strs_valid. destruct (asb_total _ _ _ LN H T) as [z ->]. cbn [bind].
    destruct (z =? SIZE_MAX); [eauto|]. destruct (strmap_for_attr _ _) as [m|]; eauto. }
  destruct a as [x|b|op x k|op x k|op x l|op k x|op x l|op x|ty ns val win|op x id sec|la lo r|op x pat]; cbn [atom_ok build_atom]; intros HA;
    try (cbn; eauto; fail); try (destruct x; cbn; eauto; fail).
  - destruct k as [z|f|s]; cbn [assign_var_leaf strings_leaf]; eauto.
  - destruct l as [l|l]; cbn [assign_var_leaf strings_leaf]; eauto. destruct HA as (H & _). eauto.
  - destruct k as [z|f|s]; cbn [assign_var_leaf strings_leaf]; eauto.
  - destruct l as [l|l]; cbn [assign_var_leaf strings_leaf]; eauto. destruct HA as (H & _). eauto.
Qed.

Section Passes.
  Variables (c0 : config) (cs : constants) (x : src).
  Hypothesis HS : src_ok (c_domains c0) cs x.
  Let e1 := assign_variable_id c0 (build x).
  Let ds := c_domains c0.
  Lemma e1_leaves (P : leaf -> Prop) : (forall a, atom_ok ds cs a -> P (assign_var_leaf c0 (build_atom a))) -> Forall P (expr_leaves e1).
  Proof.
    intros H. eapply rel_src_leaves; [exact (e1_rel c0 cs x HS)|]. cbn. intros a q _ (A & _ & ->). auto.
  Qed.
  Lemma e1_safe : Forall (leaf_safe ds) (expr_leaves e1).
  Proof. apply e1_leaves. intros a A. eapply built_safe; eauto. Qed.
  Lemma vars_total : exists b, all_variables_in_config e1 = Ok b.
  Proof. apply all_leaves_total. eapply Forall_impl; [|exact e1_safe]. cbn. intros p. apply vars_leaf_total. Qed.
  Lemma valid_total : lower_names ds -> exists b, is_valid c0 e1 = Ok b.
  Proof.
    intros LN. unfold is_valid. destruct vars_total as [b ->]. cbn [bind]. destruct b; [|eauto].
    apply all_leaves_total, e1_leaves. intros a A. eapply strings_total; eauto.
  Qed.
  Lemma str_total always c e : c_domains c = ds -> Forall (leaf_safe ds) (expr_leaves e) ->
    exists e' c', assign_str_id c e always = Ok (e', c') /\ c_domains c' = ds /\ Forall (leaf_safe ds) (expr_leaves e').
  Proof. apply trav_total. intros c1 p. apply str_leaf_total. Qed.
  Lemma ie_total always c e : c_domains c = ds -> Forall (leaf_safe ds) (expr_leaves e) ->
    exists e' c', assign_ienum_id c e always = Ok (e', c') /\ c_domains c' = ds /\ Forall (leaf_safe ds) (expr_leaves e').
  Proof. apply trav_total. intros c1 p. apply ie_leaf_total. Qed.
  Lemma fix_total c e : c_domains c = ds -> Forall (leaf_safe ds) (expr_leaves e) ->
    exists e' c', fix_float c e = Ok (e', c') /\ c_domains c' = ds /\ Forall (leaf_safe ds) (expr_leaves e').
  Proof. apply trav_total. intros c1 p. apply fix_leaf_total. Qed.
End Passes.

(** *** The range a leaf gives to a variable in change_boundaries *)
Definition bkind (t : vtype) (b : bound) : Prop :=
  match t, b with
  | TBool, BBool _ _ | TInt, BInt _ _ _ | TIntList, BInt _ _ _ | TFloat, BFloat _ _ => True
  | TStr, BStr _ _ _ | TStrList, BStr _ _ _ | TIEnum, BStr _ _ _ => True
  | _, _ => False
  end.
Lemma ends_some {A} (l : list A) : l <> [] -> exists p, ends l = Some p.
Proof. destruct l; [easy|]. cbn. eauto. Qed.
Lemma map_nil {A B} (f : A -> B) l l' : Permutation (map f l) l' -> l' <> [] -> l <> [].
Proof. intros P H ->. cbn in P. apply Permutation_nil in P. easy. Qed.
Lemma simple_leaf_total c cs a q v d inv : atom_ok (c_domains c) cs a -> is_freq q = true \/ res_leaf c cs a q -> nthN (c_domains c) v = Some d ->
  exists o, simple_leaf v inv q = Ok o /\ forall b, o = Some b -> bkind (btype (d_bound d)) b.
Proof.
  intros HA HR N.
  assert (DV : forall x w t, dv c x w t -> w = v -> btype (d_bound d) = t).
  { intros x w t D ->. apply dv_dom in D. destruct D as (d' & N' & T). congruence. }
  assert (NO : forall o, o = @None bound -> exists o', Ok o = Ok o' /\ forall b, o' = Some b -> bkind (btype (d_bound d)) b).
  { intros o ->. exists None. split; [easy|]. discriminate. }
  assert (SO : forall b, bkind (btype (d_bound d)) b -> exists o', Ok (Some b) = Ok o' /\ forall b, o' = Some b -> bkind (btype (d_bound d)) b).
  { intros b H. exists (Some b). split; [easy|]. now intros ? [= <-]. }
  assert (CK : forall z, inner_int z -> ck64 (z - 1) = Ok (z - 1) /\ ck64 (z + 1) = Ok (z + 1)).
  { intros z I. unfold inner_int in I. split; apply ck64_in; lia. }
  destruct HR as [HR|HR]. { destruct q; try discriminate. cbn [simple_leaf]. auto. }
  destruct a as [x|b|op x k|op x k|op x l|op k x|op x l|op x|ty ns val win|op x id sec|la lo r|op x pat]; cbn [res_leaf atom_ok] in *.
  - destruct HR as (w & D & ->). cbn [simple_leaf av_var]. destruct (N.eqb_spec w v) as [Hw|Hw]; auto.
    apply SO. rewrite (DV _ _ _ D Hw). easy.
  - subst q. cbn [simple_leaf]. auto.
  - destruct k as [z|f].
    + destruct HR as (w & [[D ->]|[D ->]]); cbn [simple_leaf av_var]; destruct (N.eqb_spec w v) as [Hw|Hw]; auto.
      * destruct HA as [[T I]|T].
        -- destruct (CK z I) as [C1 C2]. unfold compare_simple. rewrite C1, C2. destruct inv, op; cbn [bind]; apply SO; rewrite (DV _ _ _ D Hw); easy.
        -- apply dv_has in T. destruct T as (w' & T). destruct (dv_fun _ _ _ _ _ _ D T). discriminate.
      * unfold compare_simple. cbn [bind]. apply SO; rewrite (DV _ _ _ D Hw); easy.
    + destruct HR as (w & D & ->); cbn [simple_leaf av_var]; destruct (N.eqb_spec w v) as [Hw|Hw]; auto.
      unfold compare_simple. cbn [bind]. apply SO; rewrite (DV _ _ _ D Hw); easy.
  - destruct k as [z|f|s].
    + destruct HR as (w & [[D ->]|[[D ->]|(D & i & -> & _)]]); cbn [simple_leaf av_var]; destruct (N.eqb_spec w v) as [Hw|Hw]; auto;
        apply SO; rewrite (DV _ _ _ D Hw); easy.
    + destruct HR as (w & D & ->); cbn [simple_leaf av_var]; destruct (N.eqb_spec w v) as [Hw|Hw]; auto.
      apply SO; rewrite (DV _ _ _ D Hw); easy.
    + destruct HR as (w & i & D & -> & _); cbn [simple_leaf av_var]; destruct (N.eqb_spec w v) as [Hw|Hw]; auto.
      apply SO; rewrite (DV _ _ _ D Hw); easy.
  - destruct l as [l|l].
    + destruct HR as (w & l' & D & -> & _ & P). destruct HA as (_ & NE & _).
      cbn [simple_leaf av_var]. rewrite orb_false_r. destruct (N.eqb_spec w v) as [Hw|Hw]; auto.
      cbn [set_simple]. unfold simple_ends_i. destruct (ends_some l') as [[p q] ->].
      { intros ->. apply Permutation_nil in P. auto. }
      cbn [bind]. apply SO; rewrite (DV _ _ _ D Hw); easy.
    + destruct HR as (w & l' & D & -> & _ & P & _). destruct HA as (_ & NE & _).
      cbn [simple_leaf av_var]. rewrite orb_false_r. destruct (N.eqb_spec w v) as [Hw|Hw]; auto.
      cbn [set_simple]. unfold simple_ends_s. destruct (ends_some l') as [[p q] ->]. { eapply map_nil; eauto. }
      cbn [bind]. apply SO; rewrite (DV _ _ _ D Hw); easy.
  - destruct k as [z|f|s]; [destruct HR as (w & D & ->)|easy|destruct HR as (w & i & D & -> & _)];
      cbn [simple_leaf av_var orb]; (destruct (N.eqb_spec w v) as [Hw|Hw]; auto); cbn [set_simple bind];
      apply SO; rewrite (DV _ _ _ D Hw); easy.
  - destruct l as [l|l].
    + destruct HR as (w & l' & D & -> & _ & P). destruct HA as (_ & NE & _).
      cbn [simple_leaf av_var]. destruct (N.eqb_spec w v) as [Hw|Hw]; auto.
      cbn [list_simple]. unfold simple_ends_i. destruct (ends_some l') as [[p q] ->].
      { intros ->. apply Permutation_nil in P. auto. }
      cbn [bind]. apply SO; rewrite (DV _ _ _ D Hw); easy.
    + destruct HR as (w & l' & D & -> & _ & P & _). destruct HA as (_ & NE & _).
      cbn [simple_leaf av_var]. destruct (N.eqb_spec w v) as [Hw|Hw]; auto.
      cbn [list_simple]. unfold simple_ends_s. destruct (ends_some l') as [[p q] ->]. { eapply map_nil; eauto. }
      cbn [bind]. apply SO; rewrite (DV _ _ _ D Hw); easy.
  - destruct HR as (w & t & D & ->). cbn [simple_leaf]. auto.
  - destruct HR as (w & nv & i & z & _ & _ & _ & _ & ->). cbn [simple_leaf]. auto.
  - destruct HR as (w & nv & _ & _ & ->). cbn [simple_leaf]. auto.
  - destruct HR as (w & nv & _ & _ & ->). cbn [simple_leaf]. auto.
  - destruct HR as (w & _ & ->). cbn [simple_leaf]. auto.
Qed.
Lemma simple_merge_total t b b' : bkind t b -> bkind t b' -> exists m, simple_merge b b' = Ok m /\ bkind t m.
Proof. destruct t, b, b'; cbn [bkind simple_merge]; try easy; eauto. Qed.
Lemma simple_bound_total c cs x e v d : src_ok (c_domains c) cs x -> rel_src (fun a q => is_freq q = true \/ res_leaf c cs a q) x e ->
  nthN (c_domains c) v = Some d -> forall inv, exists o, simple_bound v inv e = Ok o /\ forall b, o = Some b -> bkind (btype (d_bound d)) b.
Proof.
  unfold src_ok. intros HA HR N.
  assert (BIN : forall a b inv, (exists o, simple_bound v inv a = Ok o /\ forall b, o = Some b -> bkind (btype (d_bound d)) b) ->
    (exists o, simple_bound v inv b = Ok o /\ forall b, o = Some b -> bkind (btype (d_bound d)) b) ->
    exists o, (do l <- simple_bound v inv a; do r <- simple_bound v inv b;
      match l, r with
      | None, r => Ok r
      | l, None => Ok l
      | Some x, Some y => do m <- simple_merge x y; Ok (Some m)
      end)%res = Ok o /\ forall b, o = Some b -> bkind (btype (d_bound d)) b).
  { intros a b inv (o1 & -> & K1) (o2 & -> & K2). cbn [bind]. destruct o1 as [b1|]; [|eauto]. destruct o2 as [b2|]; [|eauto].
    destruct (simple_merge_total _ b1 b2 (K1 _ eq_refl) (K2 _ eq_refl)) as (m & -> & K). cbn [bind]. exists (Some m). split; [easy|]. now intros ? [= <-]. }
  induction HR; cbn [src_atoms] in HA; intros inv; cbn [simple_bound];
    try (apply Forall_app in HA; destruct HA as [HA1 HA2]; apply BIN; auto).
  - inversion HA; subst. eapply simple_leaf_total; eauto.
  - auto.
Qed.
Lemma widen_total c v dom b : skip_domain dom = false -> bkind (btype dom) b -> exists b', widen c v dom b = Ok b'.
Proof.
  intros H K. destruct dom as [lo hi|w lo hi|lo hi|w lo hi| | ]; cbn [skip_domain widen btype] in *; try discriminate.
  - destruct w, b; cbn [bkind] in K; try easy; eauto.
  - destruct b; cbn [bkind] in K; try easy; eauto.
  - destruct w; eauto.
Qed.
Lemma change_total c cs x e : src_ok (c_domains c) cs x -> rel_src (fun a q => is_freq q = true \/ res_leaf c cs a q) x e ->
  exists c', change_boundaries c e = Ok c'.
Proof.
  intros HA HR. unfold change_boundaries.
  assert (K : forall t pre, c_domains c = pre ++ t -> exists ds, change_from c (N.of_nat (length pre)) t e = Ok ds).
  { induction t as [|d t IH]; intros pre E; cbn [change_from]; [eauto|].
    assert (exists d', (if skip_domain (d_bound d) then Ok d else
                do o <- simple_bound (N.of_nat (length pre)) false e;
                match o with
                | None => Ok d
                | Some b => do b' <- widen c (N.of_nat (length pre)) (d_bound d) b; Ok (mkD (d_attr d) b' (d_undef d))
                end)%res = Ok d') as [d' ->].
    { destruct (skip_domain (d_bound d)) eqn:SK; [eauto|].
      destruct (simple_bound_total c cs x e (N.of_nat (length pre)) d HA HR) with (inv := false) as (o & -> & K).
      { rewrite E. apply nthN_app_mid. }
      cbn [bind]. destruct o as [b|]; [|eauto]. destruct (widen_total c (N.of_nat (length pre)) (d_bound d) b SK (K _ eq_refl)) as [b' ->].
      cbn [bind]. eauto. }
    cbn [bind]. replace (N.of_nat (length pre) + 1)%N with (N.of_nat (length (pre ++ [d]))) by (rewrite app_length; cbn [length]; lia).
    destruct (IH (pre ++ [d])) as [ds ->]; [now rewrite <- app_assoc|]. cbn [bind]. eauto. }
  destruct (K (c_domains c) [] eq_refl) as [ds E]. change (N.of_nat (length (@nil domain))) with 0%N in E. rewrite E. cbn [bind]. eauto.
Qed.

(** *** Trees of a history *)
Lemma insert_sub_fit t s t' : cfg_fine (bt_cfg t) -> ok_cnode (c_domains (bt_cfg t)) (bt_root t) ->
  fit_cnode (Z.max 1 (c_maxsplit (bt_cfg t))) (bt_root t) -> insert_sub t s = Ok t' ->
  fit_cnode (Z.max 1 (c_maxsplit (bt_cfg t'))) (bt_root t').
Proof.
  intros FC HO HF H. unfold insert_sub in H. apply bind_ok in H. destruct H as (r & E & [= <-]).
  cbn [bt_cfg bt_root]. eapply insert_root_fit; eauto.
Qed.

Section WithGeo.
  Context {G : Geo}.
  Lemma reach_fit ds t pend log : reach_in mode ds t pend log -> fit_cnode (Z.max 1 (c_maxsplit (bt_cfg t))) (bt_root t).
  Proof.
    intros R. induction R as [ds cap minpart maxsplit D M W|ds t pend log id cs x t' R IH A NI H|ds t pend log id cs x t' R IH H
      |ds t pend log id cs x s t' R IH A NI H W|ds t pend log id cs x t' R IH F H|ds t pend pend' log s e t' R IH H
      |ds t pend log x t' R IH A F H W|ds t pend log d R IH D W B|ds t pend log R IH].
    - exact I.
    - apply reach_inv in R. destruct R as [ISG IC IF IT IN _]. destruct A as (HS & HF).
      unfold betree_insert_with_constants, insert_expr in H. apply bind_ok in H. destruct H as (ok & _ & H).
      destruct (negb ok); [discriminate|].
      destruct (assign_constants cs _) as [e2|] eqn:E2; [|discriminate].
      apply bind_ok in H. destruct H as ([e3 c3] & E3 & H). apply bind_ok in H. destruct H as ([e4 c4] & E4 & H).
      apply bind_ok in H. destruct H as ([e6 c6] & E6 & H). apply bind_ok in H. destruct H as ([e7 m7] & E7 & H).
      apply bind_ok in H. destruct H as (s & E8 & H). apply bind_ok in H. destruct H as (t1 & E9 & [= <-]).
      assert (src_ok (c_domains (bt_cfg t)) cs x) as HS' by (eapply src_ok_sig; [|exact HS]; auto).
      destruct (insert_passes (bt_cfg t) cs x false IC HS' HF _ _ _ _ _ _ _ E2 E3 E4 E6) as [B _].
      pose proof (bz_ext _ _ _ _ B) as X. pose proof (bz_doms _ _ _ _ B) as ED.
      eapply insert_sub_fit; [| | |exact E9]; cbn [bt_cfg bt_root].
      + eapply fine_same; [exact ED|apply X|exact IF].
      + now rewrite ED.
      + now rewrite (ext_maxsplit _ _ X).
    - unfold betree_insert_with_constants, insert_expr in H. apply bind_ok in H. destruct H as (ok & _ & H).
      destruct (negb ok); [injection H as <-; exact IH|].
      destruct (assign_constants cs _) as [e2|] eqn:E2; [|injection H as <-; exact IH].
      apply bind_ok in H. destruct H as ([e3 c3] & E3 & H). apply bind_ok in H. destruct H as ([e4 c4] & E4 & H).
      apply bind_ok in H. destruct H as ([e6 c6] & E6 & H). apply bind_ok in H. destruct H as ([e7 m7] & E7 & H).
      apply bind_ok in H. destruct H as (s & E8 & H). apply bind_ok in H. destruct H as (t1 & E9 & H). discriminate.
    - apply reach_inv in R. destruct R as [ISG IC IF IT IN _]. destruct A as (HS & HF).
      unfold betree_make_sub, make_sub_expr in H. apply bind_ok in H. destruct H as (ok & _ & H). destruct (negb ok); [discriminate|].
      apply bind_ok in H. destruct H as ([e3 c3] & E3 & H). apply bind_ok in H. destruct H as ([e4 c4] & E4 & H).
      apply bind_ok in H. destruct H as ([e5 c5] & E5 & H). apply bind_ok in H. destruct H as (ok2 & _ & H).
      destruct (negb ok2); [discriminate|]. destruct (assign_constants cs e5) as [e6|] eqn:E6; [|discriminate].
      apply bind_ok in H. destruct H as (c7 & E7 & H). apply bind_ok in H. destruct H as ([e8 m8] & E8 & H).
      apply bind_ok in H. destruct H as (s' & E9 & H). injection H as -> <-. cbn [bt_cfg bt_root] in *.
      assert (src_ok (c_domains (bt_cfg t)) cs x) as HS' by (eapply src_ok_sig; [|exact HS]; auto).
      destruct (make_passes (bt_cfg t) cs x true IC HS' HF _ _ _ _ _ _ E3 E4 E5) as [B R']. specialize (R' e6 E6).
      destruct (change_step (bt_cfg t) c5 cs x _ _ (sort_lists e6) c7 IC IF B) as (X5 & X & C' & F' & W'); auto.
      { now rewrite (bz_doms _ _ _ _ B). }
      { eapply rel_src_impl; [exact R'|]. auto. }
      now rewrite (ext_maxsplit _ _ X).
    - apply reach_inv in R. destruct R as [ISG IC IF IT IN _].
      unfold betree_make_sub, make_sub_expr in H. apply bind_ok in H. destruct H as (ok & EV & H). destruct ok; cbn [negb] in H; [|injection H as <-; exact IH].
      apply bind_ok in H. destruct H as ([e3 c3] & E3 & H). apply bind_ok in H. destruct H as ([e4 c4] & E4 & H).
      apply bind_ok in H. destruct H as ([e5 c5] & E5 & H). apply bind_ok in H. destruct H as (ok2 & _ & H).
      pose proof (any_passes (bt_cfg t) x _ _ _ _ _ _ IC F EV E3 E4 E5) as B.
      pose proof (bz_ext _ _ _ _ B) as X.
      assert (t' = set_cfg t c5) as ->.
      { destruct (negb ok2); [now injection H as <-|]. destruct (assign_constants cs e5) as [e6|] eqn:E6; [|now injection H as <-].
        apply bind_ok in H. destruct H as (c7 & E7 & H). apply bind_ok in H. destruct H as ([e8 m8] & E8 & H).
        apply bind_ok in H. destruct H as (s' & E9 & H). discriminate. }
      cbn [set_cfg bt_cfg bt_root]. now rewrite (ext_maxsplit _ _ X).
    - apply reach_inv in R. destruct R as [ISG IC IF IT IN _]. eapply insert_sub_fit; eauto.
    - apply reach_inv in R. destruct R as [ISG IC IF IT IN _]. unfold betree_change_boundaries, change_boundaries_expr in H.
      apply bind_ok in H. destruct H as ([e3 c3] & E3 & H). apply bind_ok in H. destruct H as ([e4 c4] & E4 & H).
      apply bind_ok in H. destruct H as ([e5 c5] & E5 & H). apply bind_ok in H. destruct H as (c6 & E6 & [= <-]).
      assert (src_ok (c_domains (bt_cfg t)) [] x) as HS' by (eapply src_ok_sig; [|exact A]; auto).
      destruct (change_passes (bt_cfg t) [] x true IC HS' F _ _ _ _ _ _ E3 E4 E5) as [B R'].
      destruct (change_step (bt_cfg t) c5 [] x _ _ e5 c6 IC IF B) as (_ & X & C' & F' & W'); auto.
      { now rewrite (bz_doms _ _ _ _ B). }
      cbn [set_cfg bt_cfg bt_root]. now rewrite (ext_maxsplit _ _ X).
    - exact IH.
    - exact I.
  Qed.

  Lemma stored_bounded c V n l : Forall (fun p => stored_as c V n (fst p) (snd p)) l -> Forall (bounded_sub c) (map fst l).
  Proof.
    intros F. apply Forall_forall. intros s H. apply in_map_iff in H. destruct H as ([s' e] & <- & H).
    rewrite Forall_forall in F. destruct (F _ H) as [A B C _ _ _ _ _]. cbn [fst snd] in *. eapply res_bounded; eauto.
  Qed.

  (** Insertion of a made subscription. *)
  Lemma add_total c m root s l V e n : cfg_fine c -> narrow c -> c_cap c <> 0 -> ok_cnode (c_domains c) root ->
    fit_cnode (Z.max 1 (c_maxsplit c)) root -> Permutation (subs_cnode root) (map fst l) ->
    NoDup (e_id e :: map e_id (map snd l)) ->
    Forall (fun p => stored_as c V n (fst p) (snd p)) l -> s_id s = e_id e -> bounded_sub c s ->
    exists t', insert_sub (mkBT c m root) s = Ok t'.
  Proof.
    intros FC NW CAP OK FT P ND FS ID BS. unfold insert_sub. cbn [bt_cfg bt_pm bt_root].
    destruct (insert_root_total c (insert_fuel c) s root) as (r & ->); auto; [| |cbn [bind]; eauto].
    - eapply NoDup_perm_ids with (l := s :: map fst l); [now apply perm_skip|].
      change (ids (s :: map fst l)) with (s_id s :: ids (map fst l)). rewrite (ids_snd _ _ _ _ FS), ID. exact ND.
    - eapply Permutation_Forall; [symmetry; exact P|]. eapply stored_bounded; eauto.
  Qed.

  Theorem insert_total ds t pend log id cs x : reach_in mode ds t pend log -> lower_names ds -> narrow (bt_cfg t) -> c_cap (bt_cfg t) <> 0 ->
    src_ok ds cs x -> fits (bt_cfg t) false x -> ~ In id (ids_of pend log) ->
    exists b t', betree_insert_with_constants t id cs x = Ok (b, t').
  Proof.
    intros R LN NW CAP HS HF NI. pose proof (reach_fit _ _ _ _ R) as FT. apply reach_inv in R.
    destruct R as [ISG IC IF IT IN (V & l & PM & PS & EL & FS)].
    assert (src_ok (c_domains (bt_cfg t)) cs x) as HS' by (eapply src_ok_sig; [|exact HS]; auto).
    assert (lower_names (c_domains (bt_cfg t))) as LN'.
    { clear - LN ISG. revert ISG. generalize (c_domains (bt_cfg t)). unfold lower_names. induction LN as [|d ds H L IH]; intros [|d' ds'] E; try discriminate; constructor.
      - injection E as E1 _ _. congruence.
      - apply IH. now injection E as _ _ _ E. }
    unfold betree_insert_with_constants, insert_expr. destruct (valid_total (bt_cfg t) cs x HS' LN') as [b ->]. cbn [bind].
    destruct (negb b); [eauto|]. destruct (assign_constants cs _) as [e2|] eqn:E2; [|eauto].
    pose proof (const_safe _ _ _ _ E2 (e1_safe _ _ _ HS')) as F2.
    destruct (str_total (bt_cfg t) false (bt_cfg t) e2 eq_refl F2) as (e3 & c3 & E3 & D3 & F3). rewrite E3. cbn [bind].
    destruct (ie_total (bt_cfg t) false c3 e3 D3 F3) as (e4 & c4 & E4 & D4 & F4). rewrite E4. cbn [bind].
    destruct (fix_total (bt_cfg t) c4 (sort_lists e4) D4 (sort_safe _ _ F4)) as (e6 & c6 & E6 & D6 & F6). rewrite E6. cbn [bind].
    destruct (insert_passes (bt_cfg t) cs x false IC HS' HF _ _ _ _ _ _ _ E2 E3 E4 E6) as [B R].
    pose proof (bz_ext _ _ _ _ B) as X. pose proof (bz_doms _ _ _ _ B) as ED.
    rewrite <- (ext_now _ _ X) in PM.
    assert (src_ok (c_domains c6) cs x) as HS6 by now rewrite ED.
    destruct (assign_pred_ok _ e6 V (bt_pm t) PM (res_expr_leaves _ _ _ _ HS6 R)) as (e7 & m7 & V' & E7 & PM' & GD & UP & LE & ER & _).
    rewrite E7. cbn [bind]. pose proof (rel_src_erase _ _ _ R e7 ER) as R7.
    destruct (make_sub_total c6 cs x e7 id R7) as [s E8]. rewrite E8. cbn [bind].
    destruct (make_sub_sc _ _ _ _ E8) as (H1 & H2 & _).
    rewrite Forall_app in FS. destruct FS as [FS _].
    destruct (add_total c6 m7 (bt_root t) s l V (mkE id cs x) (pm_count (bt_pm t))) as (t' & ->); cbn [bind]; eauto.
    - eapply fine_same; [exact ED|apply X|exact IF].
    - intros d Hd. apply NW. now rewrite <- ED.
    - now rewrite (ext_cap _ _ X).
    - now rewrite ED.
    - now rewrite (ext_maxsplit _ _ X).
    - rewrite EL. cbn [e_id]. constructor.
      + intros H. apply NI. unfold ids_of. apply in_or_app. now left.
      + unfold ids_of in IN. eapply NoDup_app_l; eauto.
    - eapply stored_all; [exact X|apply N.le_refl|apply upto_refl|exact FS].
    - eapply res_bounded; [exact HS6|]. now rewrite H2.
  Qed.

  Theorem insert_sub_total ds t pend s e pend' log : reach_in mode ds t (pend ++ (s, e) :: pend') log -> narrow (bt_cfg t) -> c_cap (bt_cfg t) <> 0 ->
    exists t', betree_insert_sub t s = Ok t'.
  Proof.
    intros R NW CAP. pose proof (reach_fit _ _ _ _ R) as FT. apply reach_inv in R.
    destruct R as [ISG IC IF IT IN (V & l & PM & PS & EL & FS)]. destruct t as [c m root]. cbn [bt_cfg bt_pm bt_root] in *.
    rewrite !Forall_app in FS. destruct FS as (FS & _ & FP). inversion FP as [|? ? ST FP']; subst. cbn [fst snd] in ST.
    destruct ST as [A B C _ _ _ _ _].
    eapply add_total; eauto.
    - unfold ids_of in IN. rewrite map_app in IN. cbn [map snd] in IN.
      assert (NoDup ((e_id e :: map e_id (map snd l)) ++ map (fun p : sub * entry => e_id (snd p)) pend ++ map (fun p : sub * entry => e_id (snd p)) pend')) as K.
      { eapply Permutation_NoDup; [|exact IN]. cbn [app]. rewrite !app_assoc. symmetry. apply Permutation_middle. }
      eapply NoDup_app_l; eauto.
    - eapply res_bounded; eauto.
  Qed.

  Theorem change_boundaries_total ds t pend log x : reach_in mode ds t pend log -> src_ok ds [] x -> fits (bt_cfg t) true x ->
    exists t', betree_change_boundaries t x = Ok t'.
  Proof.
    intros R HS HF. apply reach_inv in R. destruct R as [ISG IC IF IT IN _].
    assert (src_ok (c_domains (bt_cfg t)) [] x) as HS' by (eapply src_ok_sig; [|exact HS]; auto).
    unfold betree_change_boundaries, change_boundaries_expr.
    destruct (str_total (bt_cfg t) true (bt_cfg t) _ eq_refl (e1_safe _ _ _ HS')) as (e3 & c3 & E3 & D3 & F3). rewrite E3. cbn [bind].
    destruct (ie_total (bt_cfg t) true c3 e3 D3 F3) as (e4 & c4 & E4 & D4 & F4). rewrite E4. cbn [bind].
    destruct (fix_total (bt_cfg t) c4 (sort_lists e4) D4 (sort_safe _ _ F4)) as (e5 & c5 & E5 & D5 & F5). rewrite E5. cbn [bind].
    destruct (change_passes (bt_cfg t) [] x true IC HS' HF _ _ _ _ _ _ E3 E4 E5) as [B R'].
    destruct (change_total c5 [] x e5) as [c6 ->]; auto; [now rewrite D5|]. cbn [bind]. eauto.
  Qed.

  Theorem make_total ds t pend log id cs x : reach_in mode ds t pend log -> src_ok ds cs x -> fits (bt_cfg t) true x ->
    exists o t', betree_make_sub t id cs x = Ok (o, t').
  Proof.
    intros R HS HF. apply reach_inv in R. destruct R as [ISG IC IF IT IN (V & l & PM & PS & EL & FS)].
    assert (src_ok (c_domains (bt_cfg t)) cs x) as HS' by (eapply src_ok_sig; [|exact HS]; auto).
    unfold betree_make_sub, make_sub_expr. destruct (vars_total _ _ _ HS') as [b ->]. cbn [bind]. destruct (negb b); [eauto|].
    destruct (str_total (bt_cfg t) true (bt_cfg t) _ eq_refl (e1_safe _ _ _ HS')) as (e3 & c3 & E3 & D3 & F3). rewrite E3. cbn [bind].
    destruct (ie_total (bt_cfg t) true c3 e3 D3 F3) as (e4 & c4 & E4 & D4 & F4). rewrite E4. cbn [bind].
    destruct (fix_total (bt_cfg t) c4 e4 D4 F4) as (e5 & c5 & E5 & D5 & F5). rewrite E5. cbn [bind].
    assert (exists b, all_exprs_valid c5 e5 = Ok b) as [b2 ->].
    { apply all_leaves_total. eapply Forall_impl; [|exact F5]. cbn. intros p. now apply exprs_leaf_total. }
    cbn [bind]. destruct (negb b2); [eauto|]. destruct (assign_constants cs e5) as [e6|] eqn:E6; [|eauto].
    destruct (make_passes (bt_cfg t) cs x true IC HS' HF _ _ _ _ _ _ E3 E4 E5) as [B R]. specialize (R e6 E6).
    assert (src_ok (c_domains c5) cs x) as HS5 by now rewrite D5.
    assert (rel_src (fun a q => is_freq q = true \/ res_leaf c5 cs a q) x (sort_lists e6)) as RF by (eapply rel_src_impl; [exact R|]; auto).
    destruct (change_total c5 cs x (sort_lists e6)) as [c7 E7]; auto. rewrite E7. cbn [bind].
    pose proof (bz_ext _ _ _ _ B) as X. rewrite <- (ext_now _ _ X) in PM.
    destruct (assign_pred_ok _ (sort_lists e6) V (bt_pm t) PM (res_expr_leaves _ _ _ _ HS5 R)) as (e8 & m8 & V' & E8 & PM' & GD & UP & LE & ER & _).
    rewrite E8. cbn [bind]. pose proof (rel_src_erase _ _ _ R e8 ER) as R8.
    destruct (change_ok c5 (sort_lists e6) c7) as (X7 & _); auto.
    { eapply busy_cfg; eauto. }
    { rewrite D5. now apply fine_all. }
    { eapply rel_lits; eauto. }
    destruct (make_sub_total c7 cs x e8 id (res_expr_ext _ _ _ _ _ X7 R8)) as [s ->]. cbn [bind]. eauto.
  Qed.
End WithGeo.
End Mode.
