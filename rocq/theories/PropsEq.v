(** C51: comparison of expressions for equality. *)
From Coq Require Import ZArith NArith String Ascii Bool List Lia Floats.SpecFloat.
From Coq Require Import ZifyBool ZifyNat ZifyN.
From Verif Require Import Base Float Value Ast Config Assign Special Match Bound Tree PredMap Source Api Spec FloatSpec TreeSpec Hist EqExpr.
From Verif Require Import RoundProofs CmpProofs EvalProofs PredProofs ResProofs PassProofs ShortProofs ExtProofs HistProofs SearchProofs PrintStored.
From Verif Require Import Check Cases PropsSearch.
Import ListNotations.
Local Open Scope Z_scope.

(** *** Doubles *)
Lemma feq_sym a b : feq a b = feq b a.
Proof.
  unfold feq. f_equal. unfold fsub, SFsub.
  destruct a as [s|s| |s m e], b as [s'|s'| |s' m' e']; try reflexivity; try (now destruct s, s').
  cbv zeta. rewrite (Z.min_comm e' e). set (x := cond_Zopp s _). set (y := cond_Zopp s' _).
  replace (y - x) with (- (x - y)) by lia. destruct (x - y) as [|p|p]; [reflexivity| |]; cbn [Z.opp binary_normalize];
    change prec64 with 53; change emax64 with 1024; rewrite round_opp; now destruct (binary_round 53 1024 false p (Z.min e e')) as [t|t| |t n k].
Qed.
Lemma feq_refl f : is_double f -> feq f f = true.
Proof.
  unfold feq, fsub, SFsub. destruct f as [s|s| |s m e]; cbn [is_double].
  - intros _. now destruct s.
  - intros [].
  - intros [].
  - intros _. cbv zeta. rewrite Z.sub_diag. reflexivity.
Qed.

(** *** The relation *)
Definition double_leaf (p : leaf) : Prop :=
  match p with
  | PCmp _ _ (CFloat f) => is_double f
  | PEq _ _ (QFloat f) => is_double f
  | PGeo _ a b c _ _ => is_double a /\ is_double b /\ is_double c
  | _ => True
  end.
Lemma eq_list_refl {A} (eq : A -> A -> bool) l : (forall x, eq x x = true) -> eq_list eq l l = true.
Proof. intros H. induction l; cbn; [easy|]. now rewrite H. Qed.
Lemma eq_list_sym {A} (eq : A -> A -> bool) : (forall x y, eq x y = eq y x) -> forall l k, eq_list eq l k = eq_list eq k l.
Proof. intros H. induction l; intros [|y k]; cbn; try easy. now rewrite H, IHl. Qed.
Lemma eq_leaf_refl p : double_leaf p -> eq_leaf p p = true.
Proof.
  assert (forall x, eq_str x x = true) as Y by (intros; apply Z.eqb_refl).
  intros D. destruct p as [b|v|op v [z|f]|op v [z|f|s|ie]|op [z|s|v] [l|l|w]|op v [l|l]|op v|v ty ns vl w now id|op h v id s now|h la lo r x y|op v pat];
    cbn [double_leaf] in D; cbn [eq_leaf eq_cval eq_qval eq_left eq_right eq_lval]; unfold eq_var;
    rewrite ?N.eqb_refl, ?Z.eqb_refl, ?String.eqb_refl, ?Bool.eqb_reflx, ?Y, ?(eq_list_refl Z.eqb) by apply Z.eqb_refl;
    rewrite ?(eq_list_refl eq_str) by exact Y; try reflexivity.
  - now apply feq_refl.
  - now apply feq_refl.
  - destruct D as (D1 & D2 & D3). now rewrite !feq_refl.
Qed.
Lemma eq_leaf_sym p q : eq_leaf p q = eq_leaf q p.
Proof.
  assert (forall x y, eq_str x y = eq_str y x) as Y by (intros; apply Z.eqb_sym).
  destruct p as [b|v|op v [z|f]|op v [z|f|s|ie]|op [z|s|v] [l|l|w]|op v [l|l]|op v|v ty ns vl w now id|op h v id s now|h la lo r x y|op v pat];
  destruct q as [b'|v'|op' v' [z'|f']|op' v' [z'|f'|s'|ie']|op' [z'|s'|v'] [l'|l'|w']|op' v' [l'|l']|op' v'|v' ty' ns' vl' w' now' id'|op' h' v' id' s' now'|h' la' lo' r' x' y'|op' v' pat'];
    cbn [eq_leaf eq_cval eq_qval eq_left eq_right eq_lval]; try reflexivity; unfold eq_var;
    rewrite ?(N.eqb_sym (av_var v')), ?(Z.eqb_sym z'), ?(feq_sym f'), ?(Y s'), ?(Y ns'), ?(eq_list_sym Z.eqb Z.eqb_sym l'), ?(eq_list_sym eq_str Y l'),
      ?(N.eqb_sym (av_var w')), ?(Z.eqb_sym (cmp_num op')), ?(Z.eqb_sym (eq_num op')), ?(Z.eqb_sym (set_num op')), ?(Z.eqb_sym (list_num op')), ?(Z.eqb_sym (seg_num op')),
      ?(Z.eqb_sym (str_num op')), ?(Z.eqb_sym w'), ?(Z.eqb_sym id'), ?(Z.eqb_sym s'), ?(Z.eqb_sym vl'), ?(Z.eqb_sym (ie_id ie')), ?(Z.eqb_sym (ftype_num ty')),
      ?(feq_sym la'), ?(feq_sym lo'), ?(feq_sym r'), ?(String.eqb_sym pat'); try reflexivity.
  - now destruct b, b'.
  - destruct h, h'; reflexivity.
  - destruct h, h'; reflexivity.
Qed.

(** Every expression without infinite constants and NaN is equal to itself. *)
Theorem C51_reflexive : forall e, Forall double_leaf (expr_leaves e) -> eq_expr e e = true.
Proof.
  induction e as [g p|g a IHa b IHb|g a IHa b IHb|g a IHa]; cbn [expr_leaves eq_expr]; intros H.
  - inversion H; subst. now apply eq_leaf_refl.
  - apply Forall_app in H. destruct H. now rewrite IHa, IHb.
  - apply Forall_app in H. destruct H. now rewrite IHa, IHb.
  - now apply IHa.
Qed.
Print Assumptions C51_reflexive.
Theorem C51_symmetric : forall a b, eq_expr a b = eq_expr b a.
Proof.
  induction a as [g p|g a IHa b IHb|g a IHa b IHb|g a IHa]; intros [g' p'|g' a' b'|g' a' b'|g' a']; cbn [eq_expr]; try reflexivity.
  - apply eq_leaf_sym.
  - now rewrite IHa, IHb.
  - now rewrite IHa, IHb.
  - apply IHa.
Qed.
Print Assumptions C51_symmetric.

(** Predicates all of whose fields are compared, exactly. *)
Definition exact_leaf (p : leaf) : Prop :=
  match p with
  | PCmp _ _ (CFloat _) | PEq _ _ (QFloat _) | PNull _ _ | PFreq _ _ _ _ _ _ _ | PGeo _ _ _ _ _ _ => False
  | _ => True
  end.
Lemma eq_ints l k : eq_list Z.eqb l k = true -> l = k.
Proof.
  revert k. induction l as [|x l IH]; intros [|y k]; cbn; try easy. intros H. apply andb_prop in H. destruct H as [H1 H2].
  apply Z.eqb_eq in H1. apply IH in H2. congruence.
Qed.
Lemma eq_strs l k : eq_list eq_str l k = true -> map sv_str l = map sv_str k.
Proof.
  revert k. induction l as [|x l IH]; intros [|y k]; cbn; try easy. intros H. apply andb_prop in H. destruct H as [H1 H2].
  apply Z.eqb_eq in H1. apply IH in H2. congruence.
Qed.
Lemma eq_leaf_key p q : exact_leaf p -> eq_leaf p q = true -> leaf_key p = leaf_key q.
Proof.
  destruct p as [b|v|op v [z|f]|op v [z|f|s|ie]|op [z|s|v] [l|l|w]|op v [l|l]|op v|v ty ns vl w now id|op h v id s now|h la lo r x y|op v pat];
  destruct q as [b'|v'|op' v' [z'|f']|op' v' [z'|f'|s'|ie']|op' [z'|s'|v'] [l'|l'|w']|op' v' [l'|l']|op' v'|v' ty' ns' vl' w' now' id'|op' h' v' id' s' now'|h' la' lo' r' x' y'|op' v' pat'];
    cbn [exact_leaf eq_leaf eq_cval eq_qval eq_left eq_right eq_lval]; intros E H;
    try (discriminate H); try (destruct E); try (rewrite ?andb_false_r in H; discriminate H);
    unfold eq_var, eq_str in H; cbn [leaf_key]; unfold FV, FN, strs_key;
    repeat match goal with
    | H : _ && _ = true |- _ => apply andb_prop in H; destruct H
    | H : (_ =? _)%N = true |- _ => apply N.eqb_eq in H
    | H : (_ =? _)%Z = true |- _ => apply Z.eqb_eq in H
    | H : String.eqb _ _ = true |- _ => apply String.eqb_eq in H
    | H : Bool.eqb _ _ = true |- _ => apply Bool.eqb_prop in H
    | H : eq_list Z.eqb _ _ = true |- _ => apply eq_ints in H
    | H : eq_list _ _ _ = true |- _ => apply eq_strs in H
    end; congruence.
Qed.

Section WithGeo.
  Context {G : Geo}.
  Lemma eq_leaf_match nowv p q env : leaf_fin p -> leaf_fin q -> leaf_std nowv p -> leaf_std nowv q ->
    exact_leaf p -> eq_leaf p q = true -> match_leaf env p = match_leaf env q.
  Proof.
    intros F1 F2 S1 S2 X E. apply (leaf_key_same nowv); auto. rewrite <- (eq_leaf_key p q X E).
    pose proof (tc_anti _ _ lex_total (leaf_key p) (leaf_key p) F1 F1) as A. destruct (lex _ _); easy.
  Qed.
  Lemma eq_expr_eval nowv p : forall a b, leaves_ok nowv a -> leaves_ok nowv b -> Forall exact_leaf (expr_leaves a) ->
    eq_expr a b = true -> eval p a = eval p b.
  Proof.
    induction a as [g l|g a IHa b IHb|g a IHa b IHb|g a IHa]; intros [g' l'|g' a' b'|g' a' b'|g' a'];
      cbn [leaves_ok expr_leaves eq_expr eval]; try discriminate; intros LA LB X E.
    - inversion X; subst. eapply eq_leaf_match; [apply LA|apply LB|apply LA|apply LB|auto|auto].
    - apply andb_prop in E. destruct E. apply Forall_app in X. destruct X, LA, LB. rewrite (IHa a'), (IHb b'); auto.
    - apply andb_prop in E. destruct E. apply Forall_app in X. destruct X, LA, LB. rewrite (IHa a'), (IHb b'); auto.
    - rewrite (IHa a'); auto.
  Qed.
End WithGeo.

(** Source expressions whose stored form has only such predicates. *)
Definition exact_atom (ds : list domain) (a : atom) : Prop :=
  match a with
  | ACmp _ x (CInt _) | AEq _ x (SInt _) => ~ has_type ds x TFloat
  | ACmp _ _ (CFloat _) | AEq _ _ (SFlt _) | ANull _ _ | AFreq _ _ _ _ | AGeo _ _ _ => False
  | _ => True
  end.
Lemma exact_stored c cs x e : res_expr c cs x e -> Forall (exact_atom (c_domains c)) (src_atoms x) -> Forall exact_leaf (expr_leaves e).
Proof.
  induction 1 as [a g q R| | | | |]; cbn [src_atoms expr_leaves]; intros X; try (apply Forall_app in X; destruct X; apply Forall_app); auto.
  inversion X as [|? ? K _]; subst. constructor; [|constructor].
  assert (forall x v, dv c x v TFloat -> has_type (c_domains c) x TFloat) as HT by (intros y v (d & D1 & D2); exists v, d; auto).
  destruct a as [y|b|op y [z|f]|op y [z|f|s]|op y [l|l]|op [z|f|s] y|op y [l|l]|op y|t ns value len|op y id s|a b r|op y p];
    cbn [exact_atom] in K; cbn [res_leaf] in R; try (destruct K; fail).
  - destruct R as (v & _ & ->). exact I.
  - subst q. exact I.
  - destruct R as (v & [[_ ->]|[D _]]); [exact I|]. destruct K. eauto.
  - destruct R as (v & [[_ ->]|[[D _]|[_ (i & -> & _)]]]); [exact I| |exact I]. destruct K. eauto.
  - destruct R as (v & i & _ & -> & _). exact I.
  - destruct R as (v & l' & _ & -> & _). exact I.
  - destruct R as (v & l' & _ & -> & _). exact I.
  - destruct R as (v & _ & ->). exact I.
  - destruct R.
  - destruct R as (v & i & _ & -> & _). exact I.
  - destruct R as (v & l' & _ & -> & _). exact I.
  - destruct R as (v & l' & _ & -> & _). exact I.
  - destruct R as (v & nv & _ & _ & ->). exact I.
  - destruct R as (v & _ & ->). exact I.
Qed.

(** Subscriptions of one tree with equal expressions match the same events. *)
Theorem C51_same_meaning : forall (G : Geo) m ds t pend log s1 s2 e1 e2 ev,
  reach_in m ds t pend log -> event_ok ds ev ->
  In s1 (subs_cnode (bt_root t)) -> In e1 log -> s_id s1 = e_id e1 ->
  In s2 (subs_cnode (bt_root t)) -> In e2 log -> s_id s2 = e_id e2 ->
  Forall (exact_atom ds) (src_atoms (e_src e1)) ->
  eq_expr (s_expr s1) (s_expr s2) = true ->
  sem (e_cs e1) ev (e_src e1) = sem (e_cs e2) ev (e_src e2).
Proof.
  intros G m ds t pend log s1 s2 e1 e2 ev R HE I1 L1 E1 I2 L2 E2 X E. destruct (stored_all _ _ _ _ R) as (SG & IC & V & K).
  pose proof (K s1 e1 I1 L1 E1) as K1. pose proof (K s2 e2 I2 L2 E2) as K2.
  destruct (inv_env _ _ _ _ ev (reach_inv _ _ _ _ R) HE) as (p & P & _).
  assert (event_ok (c_domains (bt_cfg t)) ev) as HE' by (eapply event_ok_sig; [exact SG|exact HE]).
  destruct (stored_ready _ _ _ _ _ ev p P HE' (ok_tabs _ IC) K1) as (_ & T1 & _).
  destruct (stored_ready _ _ _ _ _ ev p P HE' (ok_tabs _ IC) K2) as (_ & T2 & _).
  rewrite <- T1, <- T2. unfold truth.
  rewrite (eq_expr_eval (now_var (c_domains (bt_cfg t))) p (s_expr s1) (s_expr s2)); auto.
  - eapply res_expr_leaves; [apply K1|apply K1].
  - eapply res_expr_leaves; [apply K2|apply K2].
  - eapply exact_stored; [apply K1|]. eapply Forall_impl; [|exact X]. intros a.
    destruct a as [y|b|op y [z|f]|op y [z|f|s]|op y [l|l]|op [z|f|s] y|op y [l|l]|op y|n ns value len|op y id s|a b r|op y q]; cbn [exact_atom]; auto;
      intros N HT; apply N; (eapply has_type_sig; [symmetry; exact SG|exact HT]).
Qed.
Print Assumptions C51_same_meaning.

(** The fast comparison, of expressions with the same operator on top. *)
Definition same_top (a b : expr) : Prop :=
  match a, b with
  | ELeaf _ _, ELeaf _ _ | EAnd _ _ _, EAnd _ _ _ | EOr _ _ _, EOr _ _ _ | ENot _ _, ENot _ _ => True
  | _, _ => False
  end.
Theorem C51_fast : forall (G : Geo) m ds t pend log s1 s2 e1 e2 ev,
  reach_in m ds t pend log -> event_ok ds ev ->
  In s1 (subs_cnode (bt_root t)) -> In e1 log -> s_id s1 = e_id e1 ->
  In s2 (subs_cnode (bt_root t)) -> In e2 log -> s_id s2 = e_id e2 ->
  same_top (s_expr s1) (s_expr s2) -> fast_eq_expr (s_expr s1) (s_expr s2) = Ok true ->
  sem (e_cs e1) ev (e_src e1) = sem (e_cs e2) ev (e_src e2).
Proof.
  intros G m ds t pend log s1 s2 e1 e2 ev R HE I1 L1 E1 I2 L2 E2 S E. destruct (stored_all _ _ _ _ R) as (SG & IC & V & K).
  pose proof (K s1 e1 I1 L1 E1) as K1. pose proof (K s2 e2 I2 L2 E2) as K2.
  destruct (inv_env _ _ _ _ ev (reach_inv _ _ _ _ R) HE) as (p & P & _).
  assert (event_ok (c_domains (bt_cfg t)) ev) as HE' by (eapply event_ok_sig; [exact SG|exact HE]).
  destruct (stored_ready _ _ _ _ _ ev p P HE' (ok_tabs _ IC) K1) as (_ & T1 & _).
  destruct (stored_ready _ _ _ _ _ ev p P HE' (ok_tabs _ IC) K2) as (_ & T2 & _).
  rewrite <- T1, <- T2. unfold truth.
  assert (eval p (s_expr s1) = eval p (s_expr s2)) as ->; [|reflexivity].
  pose proof (st_good _ _ _ _ _ K1) as G1. pose proof (st_good _ _ _ _ _ K2) as G2.
  rewrite (good_eval _ _ _ p G1), (good_eval _ _ _ p G2), <- (good_nodev _ _ _ p G1), <- (good_nodev _ _ _ p G2).
  unfold fast_eq_expr in E. destruct (negb _); [discriminate E|].
  destruct (s_expr s1) as [g l|g a b|g a b|g a] eqn:X1, (s_expr s2) as [g' l'|g' a' b'|g' a' b'|g' a'] eqn:X2; cbn [same_top] in S; try (destruct S; fail).
  - injection E as E. apply N.eqb_eq in E. cbn [gid] in E. subst g'.
    rewrite (good_nodev _ _ _ p G1), (good_nodev _ _ _ p G2). reflexivity.
  - injection E as E. apply andb_prop in E. destruct E as [Ea Eb]. apply N.eqb_eq in Ea, Eb. cbn [nodev]. now rewrite Ea, Eb.
  - injection E as E. apply andb_prop in E. destruct E as [Ea Eb]. apply N.eqb_eq in Ea, Eb. cbn [nodev]. now rewrite Ea, Eb.
  - injection E as E. apply N.eqb_eq in E. cbn [nodev]. now rewrite E.
Qed.
Print Assumptions C51_fast.

Local Open Scope string_scope.
(** Two subscriptions with equal expressions (4, 5), one that differs (6). *)
Definition eq_ops : list op :=
  [ OInsert 4 [] (XAnd (XAtom (AIn SIn "s" (SStrs ["a"; "b"]))) (XOr (i_eq 1) (XAtom (AVar "b"))));
    OInsert 5 [] (XAnd (XAtom (AIn SIn "s" (SStrs ["b"; "a"]))) (XOr (i_eq 1) (XAtom (AVar "B"))));
    OInsert 6 [] (XAnd (XAtom (AIn SIn "s" (SStrs ["b"; "c"]))) (XOr (i_eq 1) (XAtom (AVar "b")))) ].
Example C51_case : exists t log s4 s5 s6,
  reach case_ds t [] log /\ subs_cnode (bt_root t) = [s4; s5; s6]
  /\ eq_expr (s_expr s4) (s_expr s5) = true /\ eq_expr (s_expr s4) (s_expr s6) = false
  /\ fast_eq_expr (s_expr s4) (s_expr s5) = Ok true /\ fast_eq_expr (s_expr s4) (s_expr s6) = Ok false
  /\ Forall (fun e => Forall (exact_atom case_ds) (src_atoms (e_src e))) log.
Proof.
  destruct (run case_ds 5 0 1000 eq_ops) as [[[t pend] log]|] eqn:E; [|vm_compute in E; discriminate E].
  pose proof (run_reach _ _ _ _ _ _ _ _ E) as R. vm_compute in E. injection E as <- <- <-.
  eexists _, _, _, _, _. split; [exact R|]. split; [reflexivity|]. do 4 (split; [vm_compute; reflexivity|]).
  assert (~ has_type case_ds "i" TFloat) as N.
  { intros (v & d & D & T). vm_compute in D. injection D as <- <-. discriminate T. }
  cbn [e_src src_atoms app i_eq]. repeat (apply Forall_cons || apply Forall_nil); try exact I; exact N.
Qed.
