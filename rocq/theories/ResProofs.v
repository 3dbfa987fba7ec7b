(** Stored predicates and the source they come from: what resolution against the configuration
    yields, and that evaluating the result on the environment of an event gives the source meaning. *)
From Coq Require Import ZArith NArith String Bool List Lia Permutation Sorted.
From Coq Require Import ZifyBool ZifyNat ZifyN.
From Verif Require Import Base Float Value Special Ast Match Config Assign Source Api Spec.
From Verif Require Import BaseProofs ListProofs SpecialProofs EvalProofs InternProofs ExtProofs.
Import ListNotations.
Local Open Scope Z_scope.

(** *** Declarations *)
Lemma decl_from_spec ds name : forall i v d, decl_from ds name i = Some (v, d) ->
  (i <= v)%N /\ nthN ds (v - i) = Some d /\ d_attr d = name /\ find_attr ds name i = v.
Proof.
  induction ds as [|d0 t IH]; intros i v d H; [discriminate|].
  cbn [decl_from find_attr] in *. destruct (String.eqb (d_attr d0) name) eqn:E.
  - injection H as <- <-. apply String.eqb_eq in E. rewrite N.sub_diag. repeat split; auto; lia.
  - destruct (IH _ _ _ H) as (H1 & H2 & H3 & H4). repeat split; auto; [lia|].
    cbn [nthN]. destruct (N.eqb_spec (v - i) 0); [lia|].
    replace (N.pred (v - i)) with (v - (i + 1))%N by lia. exact H2.
Qed.
Lemma decl_spec ds x v d : decl ds x = Some (v, d) -> nthN ds v = Some d /\ d_attr d = lower x.
Proof.
  unfold decl. intros H. apply decl_from_spec in H. rewrite N.sub_0_r in H. tauto.
Qed.
Lemma decl_id c x v d : decl (c_domains c) x = Some (v, d) -> try_get_id_for_attr c x = v.
Proof. unfold decl, try_get_id_for_attr. intros H. now apply decl_from_spec in H. Qed.
Lemma decl_lower ds x y : lower x = lower y -> decl ds x = decl ds y.
Proof. unfold decl. now intros ->. Qed.
Lemma decl_inj ds x y v d d' : decl ds x = Some (v, d) -> decl ds y = Some (v, d') -> lower x = lower y.
Proof. intros H1 H2. apply decl_spec in H1, H2. destruct H1, H2. congruence. Qed.

Lemma decl_from_sig ds ds' name : map dom_sig ds' = map dom_sig ds -> forall i,
  match decl_from ds name i, decl_from ds' name i with
  | None, None => True
  | Some (v, d), Some (v', d') => v = v' /\ dom_sig d' = dom_sig d
  | _, _ => False
  end.
Proof.
  revert ds'. induction ds as [|d t IH]; intros [|d' t'] E i; try discriminate; [easy|].
  cbn [map] in E. assert (dom_sig d' = dom_sig d) as E1 by congruence.
  assert (map dom_sig t' = map dom_sig t) as E2 by congruence.
  cbn [decl_from]. replace (d_attr d') with (d_attr d) by (unfold dom_sig in E1; congruence).
  destruct (String.eqb (d_attr d) name); [easy|]. now apply IH.
Qed.
Lemma decl_sig ds ds' x v d : map dom_sig ds' = map dom_sig ds -> decl ds x = Some (v, d) ->
  exists d', decl ds' x = Some (v, d') /\ dom_sig d' = dom_sig d.
Proof.
  intros E H. unfold decl in *. pose proof (decl_from_sig ds ds' (lower x) E 0%N) as K. rewrite H in K.
  destruct (decl_from ds' (lower x) 0) as [[v' d']|]; [|easy]. destruct K as [<- K]. eauto.
Qed.
(** Declarations stay valid. *)
Definition keeps (ds ds' : list domain) : Prop := forall x v d, decl ds x = Some (v, d) ->
  exists d', decl ds' x = Some (v, d') /\ dom_sig d' = dom_sig d.
Lemma sig_keeps ds ds' : map dom_sig ds' = map dom_sig ds -> keeps ds ds'.
Proof. intros E x v d. now apply decl_sig. Qed.
Lemma decl_from_app l name : forall ds i v d, decl_from ds name i = Some (v, d) -> decl_from (ds ++ l) name i = Some (v, d).
Proof.
  induction ds as [|d0 t IH]; intros i v d; cbn [decl_from app]; [discriminate|].
  destruct (String.eqb (d_attr d0) name); [easy|apply IH].
Qed.
Lemma keeps_app ds l : keeps ds (ds ++ l).
Proof. intros x v d H. exists d. split; [|easy]. now apply decl_from_app. Qed.
Lemma has_type_keeps ds ds' x t : keeps ds ds' -> has_type ds x t -> has_type ds' x t.
Proof.
  intros E (v & d & H & K). destruct (E _ _ _ H) as (d' & H' & S).
  exists v, d'. split; [easy|]. unfold dom_sig in S. congruence.
Qed.
Lemma required_keeps ds ds' x : keeps ds ds' -> required ds x -> required ds' x.
Proof.
  intros E (v & d & H & K). destruct (E _ _ _ H) as (d' & H' & S).
  exists v, d'. split; [easy|]. unfold dom_sig in S. congruence.
Qed.
Lemma declared_keeps ds ds' x : keeps ds ds' -> declared ds x -> declared ds' x.
Proof. intros E (v & d & H). destruct (E _ _ _ H) as (d' & H' & S). exists v, d'. easy. Qed.
Lemma event_ok_keeps ds ds' ev : keeps ds ds' -> event_ok ds ev -> event_ok ds' ev.
Proof.
  intros E H n y Hn. destruct (H n y Hn) as (i & d & D & K).
  destruct (E _ _ _ D) as (d' & D' & S). exists i, d'. split; [easy|].
  unfold dom_sig in S. replace (btype (d_bound d')) with (btype (d_bound d)) by congruence. easy.
Qed.
Lemma atom_ok_keeps ds ds' cs a : keeps ds ds' -> atom_ok ds cs a -> atom_ok ds' cs a.
Proof.
  intros E. pose proof (has_type_keeps ds ds') as HT. pose proof (required_keeps ds ds') as HR.
  pose proof (declared_keeps ds ds') as HD.
  destruct a as [x|b|op x [z|f]|op x [z|f|s]|op x [l|l]|op [z|f|s] x|op x [l|l]|op x|t ns value len|op x id s|a b r|op x p];
    simpl; intuition eauto.
Qed.
Lemma src_ok_keeps ds ds' cs x : keeps ds ds' -> src_ok ds cs x -> src_ok ds' cs x.
Proof. intros E. unfold src_ok. apply Forall_impl. intros a. now apply atom_ok_keeps. Qed.
Lemma given_keeps ds ds' ev x : keeps ds ds' -> given ds ev x -> given ds' ev x.
Proof. intros E [H|H]; [left; eapply required_keeps; eauto|now right]. Qed.
Lemma may_hold_keeps ds ds' ev na : keeps ds ds' -> may_hold ds ev na -> may_hold ds' ev na.
Proof.
  intros E [H|H]; [left|now right]. eapply Forall_impl; [|exact H]. intros y. now apply given_keeps.
Qed.
Lemma may_fail_keeps ds ds' ev na : keeps ds ds' -> may_fail ds ev na -> may_fail ds' ev na.
Proof.
  intros E [H|H]; [left|now right]. eapply Forall_impl; [|exact H]. intros y. now apply given_keeps.
Qed.
Lemma short_ok_keeps ds ds' ev x : keeps ds ds' -> forall neg, short_ok ds ev neg x -> short_ok ds' ev neg x.
Proof.
  intros E. induction x as [a|a IHa|a IHa b IHb|a IHa b IHb]; intros neg; cbn [short_ok]; auto.
  - intros (H1 & H2 & H3). split; [|split; auto]. intros Hn. eapply Forall_impl; [|now apply H1].
    intros y. now apply may_hold_keeps.
  - intros (H1 & H2 & H3). split; [|split; auto]. intros Hn. eapply Forall_impl; [|now apply H1].
    intros y. now apply may_fail_keeps.
Qed.

Lemma signed_incl x : forall neg na, In na (signed_atoms neg x) -> In (snd na) (src_atoms x).
Proof.
  induction x as [a|a IHa|a IHa b IHb|a IHa b IHb]; intros neg na; cbn [signed_atoms src_atoms]; eauto.
  - intros [<-|[]]. now left.
  - intros H. apply in_app_or in H. apply in_or_app. destruct H; eauto.
  - intros H. apply in_app_or in H. apply in_or_app. destruct H; eauto.
Qed.
Lemma short_ok_given ds ds' ev ev' x : (forall n, In n (src_attrs x) -> given ds ev n -> given ds' ev' n) ->
  forall neg, short_ok ds ev neg x -> short_ok ds' ev' neg x.
Proof.
  assert (forall x, (forall n, In n (src_attrs x) -> given ds ev n -> given ds' ev' n) -> forall neg,
    (Forall (may_hold ds ev) (signed_atoms neg x) -> Forall (may_hold ds' ev') (signed_atoms neg x))
    /\ (Forall (may_fail ds ev) (signed_atoms neg x) -> Forall (may_fail ds' ev') (signed_atoms neg x))) as K.
  { intros y E neg. split; intros F; rewrite Forall_forall in *; intros na H; (destruct (F na H) as [K|K]; [left|now right]);
      rewrite Forall_forall in *; intros n Hn; apply E; auto; apply in_flat_map; eauto using signed_incl. }
  induction x as [a|a IHa|a IHa b IHb|a IHa b IHb]; intros E neg; cbn [short_ok]; auto;
    pose proof (K _ E true) as [K1 K2]; intros (H1 & H2 & H3); unfold src_attrs in *; cbn [src_atoms] in E; rewrite flat_map_app in E;
    (split; [intros ->; auto|split]); [apply IHa|apply IHb|apply IHa|apply IHb]; auto; intros n Hn; apply E, in_or_app; auto.
Qed.

Lemma has_type_sig ds ds' x t : map dom_sig ds' = map dom_sig ds -> has_type ds x t -> has_type ds' x t.
Proof. intros E. apply has_type_keeps. now apply sig_keeps. Qed.
Lemma required_sig ds ds' x : map dom_sig ds' = map dom_sig ds -> required ds x -> required ds' x.
Proof. intros E. apply required_keeps. now apply sig_keeps. Qed.
Lemma declared_sig ds ds' x : map dom_sig ds' = map dom_sig ds -> declared ds x -> declared ds' x.
Proof. intros E. apply declared_keeps. now apply sig_keeps. Qed.
Lemma event_ok_sig ds ds' ev : map dom_sig ds' = map dom_sig ds -> event_ok ds ev -> event_ok ds' ev.
Proof. intros E. apply event_ok_keeps. now apply sig_keeps. Qed.
Lemma src_ok_sig ds ds' cs x : map dom_sig ds' = map dom_sig ds -> src_ok ds cs x -> src_ok ds' cs x.
Proof. intros E. apply src_ok_keeps. now apply sig_keeps. Qed.
Lemma short_ok_sig ds ds' ev x : map dom_sig ds' = map dom_sig ds -> forall neg, short_ok ds ev neg x -> short_ok ds' ev neg x.
Proof. intros E. apply short_ok_keeps. now apply sig_keeps. Qed.
Lemma complete_sig ds ds' ev : map dom_sig ds' = map dom_sig ds -> complete ds ev -> complete ds' ev.
Proof.
  intros E H i d D U. pose proof (f_equal (fun l => nthN l i) E) as K. cbn beta in K.
  rewrite !nthN_map, D in K. cbn [option_map] in K. destruct (nthN ds i) as [d0|] eqn:D0; [|discriminate].
  injection K as S. destruct (H i d0 D0) as (n & D1 & L); [unfold dom_sig in S; congruence|].
  exists n. split; [|easy]. destruct (decl_sig _ _ _ _ _ E D1) as (d' & D2 & S').
  rewrite D2. apply decl_spec in D2. destruct D2 as [D2 _]. congruence.
Qed.

(** *** Environments of events *)
Definition env_ok (c : config) (ev : event) (p : env) : Prop :=
  length p = length (c_domains c) /\
  forall x v d, decl (c_domains c) x = Some (v, d) ->
    match lookup ev x with
    | None => nthN p v = Some None
    | Some y => exists y0, fill_value c v (d_bound d) y = Ok y0 /\ nthN p v = Some (Some (sort_value y0))
    end.

Lemma fill_event_length c ev : forall p0 p, fill_event c ev p0 = Ok p -> length p = length p0.
Proof.
  induction ev as [|[n [y|]] t IH]; intros p0 p H; cbn [fill_event] in H; [now injection H as ->| |eauto].
  apply bind_ok in H. destruct H as ([v y'] & E & H). apply IH in H. now rewrite length_updN in H.
Qed.

Lemma find_attr_decl ds name : forall i, find_attr ds name i <> INVALID_VAR ->
  exists d, decl_from ds name i = Some (find_attr ds name i, d).
Proof.
  induction ds as [|d t IH]; intros i H; cbn [find_attr decl_from] in *; [easy|].
  destruct (String.eqb (d_attr d) name); eauto.
Qed.
Lemma fill_variable_ok c n y v y' : fill_variable c n y = Ok (v, y') ->
  exists d y0, decl (c_domains c) n = Some (v, d) /\ fill_value c v (d_bound d) y = Ok y0 /\ y' = sort_value y0.
Proof.
  unfold fill_variable. destruct (N.eqb_spec (try_get_id_for_attr c n) INVALID_VAR) as [|Hn]; [discriminate|].
  intros H. apply bind_ok in H. destruct H as (d & E1 & H). apply bind_ok in H.
  destruct H as (y0 & E2 & [= <- <-]).
  unfold try_get_id_for_attr in *. destruct (find_attr_decl _ _ _ Hn) as (d' & D). fold (decl (c_domains c) n) in D.
  pose proof (decl_spec _ _ _ _ D) as [D1 _]. unfold get_domain in E1. rewrite D1 in E1. injection E1 as <-.
  eauto.
Qed.

Lemma fill_event_ok c ev : forall p0 p, length p0 = length (c_domains c) -> fill_event c ev p0 = Ok p ->
  forall x v d, decl (c_domains c) x = Some (v, d) ->
    match lookup ev x with
    | None => nthN p v = nthN p0 v
    | Some y => exists y0, fill_value c v (d_bound d) y = Ok y0 /\ nthN p v = Some (Some (sort_value y0))
    end.
Proof.
  induction ev as [|[n [y|]] t IH]; intros p0 p HL H x v d D; cbn [fill_event lookup] in *.
  - now injection H as ->.
  - apply bind_ok in H. destruct H as ([v' y'] & E & H).
    assert (length (updN p0 v' (Some y')) = length (c_domains c)) as HL' by now rewrite length_updN.
    specialize (IH _ _ HL' H x v d D). destruct (lookup t x) as [z|]; [exact IH|].
    destruct (fill_variable_ok _ _ _ _ _ E) as (d' & y0 & Dn & E2 & ->).
    destruct (String.eqb (lower n) (lower x)) eqn:En.
    + apply String.eqb_eq in En. rewrite (decl_lower _ _ _ En), D in Dn. injection Dn as <- <-.
      exists y0. split; [easy|]. rewrite IH, nthN_updN_eq; [easy|].
      rewrite HL. apply decl_spec in D. destruct D as [D _]. eapply nthN_Some_lt; eauto.
    + rewrite IH. apply nthN_updN_neq. intros ->.
      rewrite (decl_inj _ _ _ _ _ _ Dn D), String.eqb_refl in En. discriminate.
  - specialize (IH _ _ HL H x v d D). destruct (lookup t x); [exact IH|].
    destruct (String.eqb (lower n) (lower x)); exact IH.
Qed.

Lemma make_env_ok c ev p : make_env c ev = Ok p -> env_ok c ev p.
Proof.
  unfold make_env. intros H. split.
  - rewrite (fill_event_length _ _ _ _ H). apply repeat_length.
  - intros x v d D. pose proof (fill_event_ok c ev _ p (repeat_length _ _) H x v d D) as K.
    destruct (lookup ev x); [exact K|]. rewrite K, nthN_repeat.
    apply decl_spec in D. destruct D as [D _]. apply nthN_Some_lt in D.
    destruct (N.ltb_spec v (N.of_nat (length (c_domains c)))); [easy|lia].
Qed.

(** Indices of declared variables are never INVALID_VAR. *)
Definition few (ds : list domain) : Prop := (N.of_nat (length ds) <= INVALID_VAR)%N.

Lemma fill_value_total c v b y : value_ok (btype b) y -> exists y0, fill_value c v b y = Ok y0.
Proof.
  unfold fill_value, value_ok. destruct (btype b), y as [| | | |[|]| | | | ]; intros H; try (exfalso; exact H); eexists; reflexivity.
Qed.

Lemma make_env_total c ev : few (c_domains c) -> event_ok (c_domains c) ev -> exists p, make_env c ev = Ok p.
Proof.
  intros HF HE. unfold make_env. generalize (repeat (@None value) (length (c_domains c))).
  induction ev as [|[n [y|]] t IH]; intros p0; cbn [fill_event]; [eauto| |].
  - destruct (HE n y (or_introl eq_refl)) as (v & d & D & HV).
    unfold fill_variable. rewrite (decl_id _ _ _ _ D).
    apply decl_spec in D. destruct D as [D _]. pose proof (nthN_Some_lt _ _ _ D) as HL.
    unfold few in HF. destruct (N.eqb_spec v INVALID_VAR) as [->|_]; [lia|].
    unfold get_domain. rewrite D. cbn [bind].
    destruct (fill_value_total c v (d_bound d) y HV) as (y0 & ->). cbn [bind].
    apply IH. intros n' y' Hn. apply (HE n' y'). now right.
  - apply IH. intros n' y' Hn. apply (HE n' y'). now right.
Qed.

Lemma lookup_typed ds ev x y v d : event_ok ds ev -> decl ds x = Some (v, d) -> lookup ev x = Some y ->
  value_ok (btype (d_bound d)) y.
Proof.
  intros HE D. induction ev as [|[n o] t IH]; cbn [lookup]; [discriminate|].
  assert (event_ok ds t) as HE' by (intros n' y' Hn; apply (HE n' y'); now right).
  destruct (lookup t x) as [z|]; [intros [= <-]; auto|].
  destruct (String.eqb (lower n) (lower x)) eqn:En; [|discriminate]. intros ->.
  apply String.eqb_eq in En. destruct (HE n y (or_introl eq_refl)) as (v' & d' & D' & K).
  rewrite (decl_lower _ _ _ En), D in D'. injection D' as <- <-. exact K.
Qed.

(** *** Reading typed variables *)
Definition dv (c : config) (x : string) (v : N) (t : vtype) : Prop :=
  exists d, decl (c_domains c) x = Some (v, d) /\ btype (d_bound d) = t.
(** Declarations and table entries stay valid. *)
Record more (c c' : config) : Prop := {
  mr_keeps : keeps (c_domains c) (c_domains c');
  mr_strs : forall v s i, str_index (strs c v) s = Some i -> str_index (strs c' v) s = Some i;
  mr_ints : forall v z i, int_index (ints c v) z = Some i -> int_index (ints c' v) z = Some i }.
Lemma ext_more c c' : ext c c' -> more c c'.
Proof.
  intros X. split; [apply sig_keeps, X| |].
  - intros v s i. now apply ext_str_index.
  - intros v z i. now apply ext_int_index.
Qed.
Lemma dv_more c c' x v t : more c c' -> dv c x v t -> dv c' x v t.
Proof.
  intros X (d & D & E). destruct (mr_keeps _ _ X _ _ _ D) as (d' & D' & S).
  exists d'. split; [easy|]. unfold dom_sig in S. congruence.
Qed.
Lemma dv_ext c c' x v t : ext c c' -> dv c x v t -> dv c' x v t.
Proof. intros X. apply dv_more. now apply ext_more. Qed.
Lemma dv_has c x t : has_type (c_domains c) x t <-> exists v, dv c x v t.
Proof.
  split.
  - intros (v & d & H & K). exists v, d. easy.
  - intros (v & d & H & K). exists v, d. easy.
Qed.

Definition istr (c : config) (v : N) (s : string) : sval := mkS s (try_get_str c v s).

(** What the environment holds for an event value of a declared type. *)
Definition stored (c : config) (v : N) (t : vtype) (y : value) : value :=
  match t, y with
  | TIEnum, VInt z => VIEnum (mkIE z (try_get_ie c v z))
  | TStr, VStr s => VStr (istr c v (sv_string s))
  | TIntList, VIntList l => VIntList (sort_ints l)
  | TStrList, VStrList l => VStrList (sort_strs (map (fun s => istr c v (sv_string s)) l))
  | TStrList, VIntList _ => VStrList []
  | TSegs, VIntList _ => VSegs []
  | TFreqs, VIntList _ => VFreqs []
  | TFreqs, VFreqs l =>
      VFreqs (map (fun k => mkCap (fc_type k) (fc_id k) (istr c v (sv_string (fc_ns k)))
                                  (fc_tsdef k) (fc_ts k) (fc_value k)) l)
  | _, _ => y
  end.

Lemma stored_ok c v b y y0 : value_ok (btype b) y -> fill_value c v b y = Ok y0 ->
  sort_value y0 = stored c v (btype b) y.
Proof.
  unfold value_ok, fill_value, stored. destruct (btype b), y as [| | | |[|]| | | | ]; intros H E;
    try (exfalso; exact H); injection E as <-; reflexivity.
Qed.

Lemma read_at c ev p x v t : env_ok c ev p -> event_ok (c_domains c) ev -> dv c x v t ->
  match lookup ev x with
  | None => read_var p v = Ok None
  | Some y => read_var p v = Ok (Some (stored c v t y)) /\ value_ok t y
  end.
Proof.
  intros [_ HE] HO (d & D & T). specialize (HE x v d D).
  pose proof (lookup_typed (c_domains c) ev x) as K. unfold read_var.
  destruct (lookup ev x) as [y|]; [|now rewrite HE].
  specialize (K y v d HO D eq_refl). destruct HE as (y0 & E1 & E2). rewrite E2.
  rewrite (stored_ok c v (d_bound d) y y0 K E1). subst t. easy.
Qed.

(** *** Predicates after resolution *)
Definition res_leaf (c : config) (cs : constants) (a : atom) (q : leaf) : Prop :=
  match a with
  | ALit b => q = PLit b
  | AVar x => exists v, dv c x v TBool /\ q = PVar (mkAV x v)
  | ACmp op x (CInt z) =>
      exists v, (dv c x v TInt /\ q = PCmp op (mkAV x v) (CInt z))
                \/ (dv c x v TFloat /\ q = PCmp op (mkAV x v) (CFloat (f_of_Z z)))
  | ACmp op x (CFloat f) => exists v, dv c x v TFloat /\ q = PCmp op (mkAV x v) (CFloat f)
  | AEq op x (SInt z) =>
      exists v, (dv c x v TInt /\ q = PEq op (mkAV x v) (QInt z))
                \/ (dv c x v TFloat /\ q = PEq op (mkAV x v) (QFloat (f_of_Z z)))
                \/ (dv c x v TIEnum /\ exists i, q = PEq op (mkAV x v) (QIEnum (mkIE z i))
                                                 /\ int_index (ints c v) z = Some i)
  | AEq op x (SFlt f) => exists v, dv c x v TFloat /\ q = PEq op (mkAV x v) (QFloat f)
  | AEq op x (SStr s) =>
      exists v i, dv c x v TStr /\ q = PEq op (mkAV x v) (QStr (mkS s i)) /\ str_index (strs c v) s = Some i
  | AIn op x (SInts l) =>
      exists v l', dv c x v TInt /\ q = PSet op (SLVar (mkAV x v)) (SRInts l') /\ incr l' /\ Permutation l' l
  | AIn op x (SStrs l) =>
      exists v l', dv c x v TStr /\ q = PSet op (SLVar (mkAV x v)) (SRStrs l') /\ incr (map sv_str l')
                   /\ Permutation (map sv_string l') l /\ Forall (sres c v) l'
  | AHas op (SInt z) x => exists v, dv c x v TIntList /\ q = PSet op (SLInt z) (SRVar (mkAV x v))
  | AHas op (SStr s) x =>
      exists v i, dv c x v TStrList /\ q = PSet op (SLStr (mkS s i)) (SRVar (mkAV x v))
                  /\ str_index (strs c v) s = Some i
  | AHas _ (SFlt _) _ => False
  | AList op x (SInts l) =>
      exists v l', dv c x v TIntList /\ q = PList op (mkAV x v) (LInts l') /\ incr l' /\ Permutation l' l
  | AList op x (SStrs l) =>
      exists v l', dv c x v TStrList /\ q = PList op (mkAV x v) (LStrs l') /\ incr (map sv_str l')
                   /\ Permutation (map sv_string l') l /\ Forall (sres c v) l'
  | ANull op x => exists v t, dv c x v t /\ q = PNull op (mkAV x v)
  | AFreq t ns value window =>
      exists v nv i z, dv c "frequency_caps" v TFreqs /\ dv c "now" nv TInt
        /\ str_index (strs c v) ns = Some i
        /\ const_int cs (freq_const (get_type_from_string t)) = Some z
        /\ q = PFreq (mkAV "frequency_caps" v) (get_type_from_string t) (mkS ns i) value (to_uint 64 window)
                     (mkAV "now" nv) (to_uint 32 z)
  | ASeg op x id seconds =>
      exists v nv, let n := match x with Some x => x | None => "segments_with_timestamp"%string end in
        dv c n v TSegs /\ dv c "now" nv TInt
        /\ q = PSeg op (match x with Some _ => true | None => false end) (mkAV n v) (to_uint 64 id) seconds
                    (mkAV "now" nv)
  | AGeo lat lon radius =>
      exists v w, dv c "latitude" v TFloat /\ dv c "longitude" w TFloat
        /\ q = PGeo true lat lon radius (mkAV "latitude" v) (mkAV "longitude" w)
  | AStr op x pat => exists v, dv c x v TStr /\ q = PStr op (mkAV x v) pat
  end.

Lemma res_leaf_more c c' cs a q : more c c' -> res_leaf c cs a q -> res_leaf c' cs a q.
Proof.
  intros X. pose proof (dv_more c c') as HD. pose proof (mr_strs c c' X) as HS.
  pose proof (mr_ints c c' X) as HI.
  assert (forall v l, Forall (sres c v) l -> Forall (sres c' v) l) as HF
    by (intros v l; apply Forall_impl; intros y; apply HS).
  destruct a as [x|b|op x [z|f]|op x [z|f|s]|op x [l|l]|op [z|f|s] x|op x [l|l]|op x|t ns value len|op x id s|a b r|op x p];
    cbn [res_leaf]; auto.
  - intros (v & H & ->). eauto.
  - intros (v & [[H ->]|[H ->]]); exists v; [left|right]; eauto.
  - intros (v & H & ->). eauto.
  - intros (v & [[H ->]|[[H ->]|[H (i & -> & K)]]]); exists v; [left|right; left|right; right]; eauto. split; [auto|]. exists i. auto.
  - intros (v & H & ->). eauto.
  - intros (v & i & H & -> & K). exists v, i. eauto.
  - intros (v & l' & H & -> & K). exists v, l'. intuition eauto.
  - intros (v & l' & H & -> & K). exists v, l'. intuition eauto.
  - intros (v & H & ->). eauto.
  - intros (v & i & H & -> & K). exists v, i. eauto.
  - intros (v & l' & H & -> & K). exists v, l'. intuition eauto.
  - intros (v & l' & H & -> & K). exists v, l'. intuition eauto.
  - intros (v & t & H & ->). exists v, t. eauto.
  - intros (v & nv & i & z & H1 & H2 & H3 & H4 & ->). exists v, nv, i, z. intuition eauto.
  - intros (v & nv & H1 & H2 & ->). exists v, nv. eauto.
  - intros (v & w & H1 & H2 & ->). exists v, w. eauto.
  - intros (v & H & ->). eauto.
Qed.
Lemma res_leaf_ext c c' cs a q : ext c c' -> res_leaf c cs a q -> res_leaf c' cs a q.
Proof. intros X. apply res_leaf_more. now apply ext_more. Qed.

(** *** Strings and their ids *)
Lemma try_str_eq c v s s' i : tabs_ok c -> str_index (strs c v) s = Some i ->
  (try_get_str c v s' =? i) = String.eqb s' s.
Proof.
  intros [T _] H. rewrite try_get_str_alt. destruct (String.eqb_spec s' s) as [->|Hn].
  - rewrite H. apply Z.eqb_refl.
  - pose proof (str_index_spec (strs c v) s) as K. rewrite H in K. destruct (T v) as [_ L].
    destruct (str_index (strs c v) s') as [j|] eqn:E.
    + apply Z.eqb_neq. intros ->. apply Hn. eapply index_of_inj; eauto. apply String.eqb_eq.
    + apply Z.eqb_neq. unfold INVALID_STR. unfold SIZE_MAX in L. lia.
Qed.
Lemma try_ie_eq c v s s' i : tabs_ok c -> int_index (ints c v) s = Some i ->
  (try_get_ie c v s' =? i) = (s' =? s).
Proof.
  intros [_ T] H. rewrite try_get_ie_alt. destruct (Z.eqb_spec s' s) as [->|Hn].
  - rewrite H. apply Z.eqb_refl.
  - pose proof (int_index_spec (ints c v) s) as K. rewrite H in K. destruct (T v) as [_ L].
    destruct (int_index (ints c v) s') as [j|] eqn:E.
    + apply Z.eqb_neq. intros ->. apply Hn. eapply index_of_inj; eauto. apply Z.eqb_eq.
    + apply Z.eqb_neq. unfold INVALID_IENUM. unfold SIZE_MAX in L. lia.
Qed.

Lemma memS_In s l : memS s l = true <-> In s l.
Proof.
  unfold memS. rewrite existsb_exists. split.
  - intros (y & H & E). apply String.eqb_eq in E. now subst.
  - intros H. exists s. split; [easy|apply String.eqb_refl].
Qed.
Lemma existsb_perm {A} (f : A -> bool) l l' : Permutation l l' -> existsb f l = existsb f l'.
Proof.
  intros H. apply eq_bool_iff. rewrite !existsb_exists.
  split; intros (x & Hx & E); exists x; split; auto; eapply Permutation_in; try eassumption; now apply Permutation_sym.
Qed.
Lemma forallb_perm {A} (f : A -> bool) l l' : Permutation l l' -> forallb f l = forallb f l'.
Proof.
  intros H. apply eq_bool_iff. rewrite !forallb_forall.
  split; intros K x Hx; apply K; eapply Permutation_in; try eassumption; now apply Permutation_sym.
Qed.
Lemma existsb_map {A B} (f : B -> bool) (g : A -> B) l : existsb f (map g l) = existsb (fun x => f (g x)) l.
Proof. induction l as [|x t IH]; simpl; [easy|]. now rewrite IH. Qed.
Lemma forallb_map {A B} (f : B -> bool) (g : A -> B) l : forallb f (map g l) = forallb (fun x => f (g x)) l.
Proof. induction l as [|x t IH]; simpl; [easy|]. now rewrite IH. Qed.
Lemma existsb_ext_in {A} (f g : A -> bool) l : (forall x, In x l -> f x = g x) -> existsb f l = existsb g l.
Proof. induction l as [|x t IH]; simpl; intros H; [easy|]. rewrite (H x), IH; auto. Qed.
Lemma forallb_ext_in {A} (f g : A -> bool) l : (forall x, In x l -> f x = g x) -> forallb f l = forallb g l.
Proof. induction l as [|x t IH]; simpl; intros H; [easy|]. rewrite (H x), IH; auto. Qed.

(** Is an event string among the constants? *)
Lemma memb_ids c v s l' l : tabs_ok c -> Forall (sres c v) l' -> Permutation (map sv_string l') l ->
  memb (try_get_str c v s) (map sv_str l') = memS s l.
Proof.
  intros T F P. unfold memS. rewrite <- (existsb_perm _ _ _ P). unfold memb. rewrite !existsb_map.
  apply existsb_ext_in. intros y Hy. rewrite Forall_forall in F. now apply try_str_eq, F.
Qed.
(** Is a constant among the event strings? *)
Lemma memb_have c v y h : tabs_ok c -> sres c v y ->
  memb (sv_str y) (map sv_str (sort_strs (map (fun s => istr c v (sv_string s)) h))) = memS (sv_string y) (map sv_string h).
Proof.
  intros T F. apply eq_bool_iff. rewrite memb_In, memS_In, sort_strs_key, map_map. cbn [sv_str istr].
  rewrite !in_map_iff. split; intros (s & E & H); exists s; split; auto.
  - pose proof (try_str_eq c v _ (sv_string s) _ T F) as K. rewrite E, Z.eqb_refl in K.
    symmetry in K. now apply String.eqb_eq in K.
  - pose proof (try_str_eq c v _ (sv_string s) _ T F) as K. rewrite E, String.eqb_refl in K. rewrite E. now apply Z.eqb_eq in K.
Qed.
Lemma ids_NoDup c v l' : Forall (sres c v) l' -> NoDup (map sv_string l') -> NoDup (map sv_str l').
Proof.
  induction l' as [|y t IH]; simpl; intros F N; [constructor|].
  inversion F; subst. inversion N; subst. constructor; auto.
  intros H. apply H3. apply in_map_iff in H. destruct H as (z & E & Hz). apply in_map_iff.
  exists z. split; [|easy]. rewrite Forall_forall in H2. specialize (H2 z Hz). unfold sres in *.
  rewrite E in H2. eapply index_of_inj; eauto. apply String.eqb_eq.
Qed.

Lemma to_uint_small b z : 0 <= z < 2 ^ b -> to_uint b z = z.
Proof. intros H. unfold to_uint. now apply Z.mod_small. Qed.
Lemma to_sint_uint64 z : is_int64 z -> to_sint 64 (to_uint 64 z) = z.
Proof.
  unfold is_int64, INT64_MIN, INT64_MAX, to_sint, to_uint. intros H. rewrite Z.mod_mod by easy.
  change (2 ^ (64 - 1)) with (2 ^ 63).
  destruct (Z.ltb_spec z 0).
  - replace (z mod 2 ^ 64) with (z + 2 ^ 64) by (rewrite <- (Z.mod_add z 1) by easy; rewrite Z.mod_small; lia).
    destruct (Z.ltb_spec (z + 2 ^ 64) (2 ^ 63)); lia.
  - rewrite Z.mod_small by lia. destruct (Z.ltb_spec z (2 ^ 63)); lia.
Qed.
Lemma to_sint_32 z : - 2 ^ 31 <= z < 2 ^ 31 -> to_sint 32 z = z.
Proof.
  unfold to_sint. intros H. change (2 ^ (32 - 1)) with (2 ^ 31).
  destruct (Z.ltb_spec z 0).
  - replace (z mod 2 ^ 32) with (z + 2 ^ 32) by (rewrite <- (Z.mod_add z 1) by easy; rewrite Z.mod_small; lia).
    destruct (Z.ltb_spec (z + 2 ^ 32) (2 ^ 31)); lia.
  - rewrite Z.mod_small by lia. destruct (Z.ltb_spec z (2 ^ 31)); lia.
Qed.

Lemma find_map {A B} (f : B -> bool) (g : A -> B) l : find f (map g l) = option_map g (find (fun x => f (g x)) l).
Proof. induction l as [|x t IH]; simpl; [easy|]. now destruct (f (g x)). Qed.
Lemma find_ext {A} (f g : A -> bool) l : (forall x, f x = g x) -> find f l = find g l.
Proof. intros H. induction l as [|x t IH]; simpl; [easy|]. rewrite H. now destruct (g x). Qed.

Section WithGeo.
  Context {G : Geo}.

  Lemma list_res_ok {A} (mem : A -> list A -> bool) (have : list A) (want : list A)
      (hv : list Z) (wt : list Z) op :
    incr hv -> incr wt -> (op = LAllOf -> sincr wt) ->
    existsb (fun k => memb k hv) wt = existsb (fun k => mem k have) want ->
    forallb (fun k => memb k hv) wt = forallb (fun k => mem k have) want ->
    match op with
    | LOneOf => match_not_all_of hv wt
    | LNoneOf => negb (match_not_all_of hv wt)
    | LAllOf => match_all_of hv wt
    end = list_res mem op have want.
  Proof.
    intros H1 H2 H3 E1 E2. destruct op; cbn [list_res].
    - now rewrite match_not_all_of_ok, E1.
    - now rewrite match_not_all_of_ok, E1.
    - rewrite match_all_of_ok; auto.
  Qed.

  Theorem res_leaf_sem c cs ev p a q :
    env_ok c ev p -> event_ok (c_domains c) ev -> tabs_ok c -> atom_ok (c_domains c) cs a ->
    res_leaf c cs a q -> match_leaf p q = Ok (sem_atom cs ev a).
  Proof.
    intros HE HO HT HA HR.
    assert (forall x v t, dv c x v t ->
      match lookup ev x with
      | None => read_var p v = Ok None
      | Some y => read_var p v = Ok (Some (stored c v t y)) /\ value_ok t y
      end) as RD by (intros; eapply read_at; eauto).
    destruct a as [x|b|op x [z|f]|op x [z|f|s]|op x [l|l]|op [z|f|s] x|op x [l|l]|op x|t ns value len|op x id s|a b r|op x pat];
      cbn [res_leaf atom_ok sem_atom] in *.
    - destruct HR as (v & D & ->). cbn [match_leaf av_var]. unfold with_var. specialize (RD _ _ _ D).
      destruct (lookup ev x) as [y|]; [|now rewrite RD]. destruct RD as [-> V].
      destruct y; try (exfalso; exact V). reflexivity.
    - subst q. reflexivity.
    - destruct HR as (v & [[D ->]|[D ->]]); cbn [match_leaf av_var]; unfold with_var; specialize (RD _ _ _ D);
        (destruct (lookup ev x) as [y|]; [|now rewrite RD]); destruct RD as [-> V];
        destruct y; try (exfalso; exact V); cbn; unfold fgtb, fgeb; now destruct op; rewrite ?Z.gtb_ltb, ?Z.geb_leb.
    - destruct HR as (v & D & ->). cbn [match_leaf av_var]; unfold with_var; specialize (RD _ _ _ D).
      destruct (lookup ev x) as [y|]; [|now rewrite RD]. destruct RD as [-> V].
      destruct y; try (exfalso; exact V). cbn. unfold fgtb, fgeb. now destruct op.
    - destruct HR as (v & [[D ->]|[[D ->]|[D (i & -> & K)]]]); cbn [match_leaf av_var]; unfold with_var; specialize (RD _ _ _ D);
        (destruct (lookup ev x) as [y|]; [|now rewrite RD]); destruct RD as [-> V];
        destruct y; try (exfalso; exact V).
      + reflexivity.
      + reflexivity.
      + cbn [bind stored match_equality as_ie ie_id]. rewrite (try_ie_eq c v z z0 i HT K). reflexivity.
    - destruct HR as (v & D & ->). cbn [match_leaf av_var]; unfold with_var; specialize (RD _ _ _ D).
      destruct (lookup ev x) as [y|]; [|now rewrite RD]. destruct RD as [-> V].
      destruct y; try (exfalso; exact V). reflexivity.
    - destruct HR as (v & i & D & -> & K). cbn [match_leaf av_var]; unfold with_var; specialize (RD _ _ _ D).
      destruct (lookup ev x) as [y|]; [|now rewrite RD]. destruct RD as [-> V].
      destruct y as [| | |y| | | | | ]; try (exfalso; exact V).
      cbn [bind stored match_equality as_str sv_str istr]. rewrite (try_str_eq c v s _ i HT K). reflexivity.
    - destruct HR as (v & l' & D & -> & S & P). cbn [match_leaf match_set av_var]; unfold with_var; specialize (RD _ _ _ D).
      destruct (lookup ev x) as [y|]; [|now rewrite RD]. destruct RD as [-> V].
      destruct y; try (exfalso; exact V). cbn [bind stored as_int]. unfold integer_in_integer_list.
      destruct HA as (_ & _ & _ & L). unfold short in L.
      rewrite binary_search_ok; auto; [|now rewrite (Permutation_length P)].
      cbn [bind]. unfold memb. rewrite (existsb_perm _ _ _ P). now destruct op.
    - destruct HR as (v & l' & D & -> & S & P & F). cbn [match_leaf match_set av_var]; unfold with_var; specialize (RD _ _ _ D).
      destruct (lookup ev x) as [y|]; [|now rewrite RD]. destruct RD as [-> V].
      destruct y as [| | |y| | | | | ]; try (exfalso; exact V).
      cbn [bind stored as_str]. unfold string_in_string_list. cbn [sv_str istr].
      destruct HA as (_ & _ & L). unfold short in L.
      rewrite binary_search_ok; auto; [|rewrite map_length, <- (map_length sv_string), (Permutation_length P); exact L].
      cbn [bind]. rewrite (memb_ids c v _ l' l HT F P). now destruct op.
    - destruct HR as (v & D & ->). cbn [match_leaf match_set av_var]; unfold with_var; specialize (RD _ _ _ D).
      destruct (lookup ev x) as [y|]; [|now rewrite RD]. destruct RD as [-> V].
      destruct y; try (exfalso; exact V). cbn [bind stored as_ints ints_in]. unfold integer_in_integer_list.
      destruct V as [_ L]. unfold short in L.
      rewrite binary_search_ok; [|apply sincr_incr, sort_ints_sincr|pose proof (length_sort_ints l); lia].
      cbn [bind]. replace (memb z (sort_ints l)) with (memZ z l); [now destruct op|].
      apply eq_bool_iff. fold (memb z l). now rewrite !memb_In, sort_ints_In.
    - easy.
    - destruct HR as (v & i & D & -> & K). cbn [match_leaf match_set av_var]; unfold with_var; specialize (RD _ _ _ D).
      destruct (lookup ev x) as [y|]; [|now rewrite RD]. destruct RD as [-> V].
      assert (sres c v (mkS s i)) as KS by exact K.
      destruct y as [| | | |[|? ?]|y| | | ]; try (exfalso; exact V).
      + cbn. now destruct op.
      + cbn [bind stored as_strs strs_in]. unfold string_in_string_list.
        cbn in V. unfold short in V.
        rewrite binary_search_ok; [|apply sincr_incr, sort_strs_sincr|].
        * cbn [bind]. rewrite (memb_have c v _ y HT KS). now destruct op.
        * rewrite map_length. pose proof (length_sort_strs (map (fun s => istr c v (sv_string s)) y)) as L.
          rewrite map_length in L. lia.
    - destruct HR as (v & l' & D & -> & S & P). cbn [match_leaf av_var]; unfold with_var; specialize (RD _ _ _ D).
      destruct (lookup ev x) as [y|]; [|now rewrite RD]. destruct RD as [-> V].
      destruct y as [| | | |y| | | | ]; try (exfalso; exact V). cbn [bind stored as_ints match_list ints_in].
      destruct HA as (_ & _ & _ & ND). f_equal. apply list_res_ok; auto.
      + apply sincr_incr, sort_ints_sincr.
      + intros Eo. apply incr_NoDup_sincr; auto. eapply Permutation_NoDup; [apply Permutation_sym, P|auto].
      + rewrite (existsb_perm _ _ _ P). apply existsb_ext_in. intros k _. apply eq_bool_iff.
        unfold memZ. fold (memb k y). now rewrite !memb_In, sort_ints_In.
      + rewrite (forallb_perm _ _ _ P). apply forallb_ext_in. intros k _. apply eq_bool_iff.
        unfold memZ. fold (memb k y). now rewrite !memb_In, sort_ints_In.
    - destruct HR as (v & l' & D & -> & S & P & F). cbn [match_leaf av_var]; unfold with_var; specialize (RD _ _ _ D).
      destruct (lookup ev x) as [y|]; [|now rewrite RD]. destruct RD as [-> V].
      destruct HA as (_ & _ & ND).
      assert (exists h, stored c v TStrList y = VStrList (sort_strs (map (fun s => istr c v (sv_string s)) h))
                        /\ strs_in y = Some (map sv_string h)) as (h & -> & ->).
      { destruct y as [| | | |[|? ?]|y| | | ]; try (exfalso; exact V); [exists []; easy|exists y; easy]. }
      cbn [bind as_strs match_list]. f_equal. apply list_res_ok; auto.
      + apply sincr_incr, sort_strs_sincr.
      + intros Eo. apply incr_NoDup_sincr; auto. apply (ids_NoDup c v); auto.
        eapply Permutation_NoDup; [apply Permutation_sym, P|auto].
      + rewrite <- (existsb_perm _ _ _ P), !existsb_map. apply existsb_ext_in. intros k Hk.
        rewrite Forall_forall in F. now apply memb_have, F.
      + rewrite <- (forallb_perm _ _ _ P), !forallb_map. apply forallb_ext_in. intros k Hk.
        rewrite Forall_forall in F. now apply memb_have, F.
    - destruct HR as (v & t & D & ->). cbn [match_leaf av_var]. specialize (RD _ _ _ D).
      destruct (lookup ev x) as [y|]; [|rewrite RD; now destruct op]. destruct RD as [-> V].
      cbn [bind]. f_equal. destruct op; [easy|easy|]. cbn [match_is_null].
      assert (forall l, is_empty_list (VIntList (sort_ints l)) = match l with [] => true | _ => false end) as EI.
      { intros [|a l]; [easy|]. cbn. destruct (sort_ints (a :: l)) eqn:E; [|easy].
        assert (In a (sort_ints (a :: l))) as K by (apply sort_ints_In; now left). now rewrite E in K. }
      assert (forall f (l : list sval), is_empty_list (VStrList (sort_strs (map f l))) = match l with [] => true | _ => false end) as ES.
      { intros f [|a l]; [easy|]. cbn [is_empty_list]. destruct (sort_strs (map f (a :: l))) eqn:E; [|easy].
        assert (In (sv_str (f a)) (map sv_str (sort_strs (map f (a :: l))))) as K by (apply sort_strs_key; now left).
        now rewrite E in K. }
      destruct t, y as [| | | |[|? ?]|[|? ?]|[|? ?]|[|? ?]| ]; try (exfalso; exact V); try reflexivity;
        cbn [stored]; try apply EI; try apply ES.
    - destruct HR as (v & nv & i & z & D & DN & K & KC & ->). cbn [match_leaf av_var]; unfold with_var.
      pose proof (RD _ _ _ D) as R1. pose proof (RD _ _ _ DN) as R2. clear RD.
      destruct (lookup ev "frequency_caps") as [y|]; [|now rewrite R1]. destruct R1 as [-> V].
      destruct HA as (_ & _ & _ & _ & HV & HW & HC). specialize (HC z KC).
      destruct y as [| | | |[|? ?]| | |y| ]; try (exfalso; exact V); [reflexivity|].
      cbn [bind stored as_freqs caps_in]. destruct y as [|k0 y0]; [reflexivity|].
      set (y := k0 :: y0) in *. rewrite KC.
      replace (match y with [] => true | _ :: _ => _ end) with
        (match lookup ev "now" with
         | Some (VInt now) => sem_freq y (get_type_from_string t) z ns value len now
         | _ => false end) by reflexivity.
      destruct (lookup ev "now") as [n|]; [|subst y; cbn [map]; now rewrite R2]. destruct R2 as [R2 VN].
      destruct n; try (exfalso; exact VN).
      assert (match map (fun k => mkCap (fc_type k) (fc_id k) (istr c v (sv_string (fc_ns k))) (fc_tsdef k) (fc_ts k) (fc_value k)) y with
              | [] => Ok true
              | _ => Ok (within_frequency_caps
                     (map (fun k => mkCap (fc_type k) (fc_id k) (istr c v (sv_string (fc_ns k))) (fc_tsdef k) (fc_ts k) (fc_value k)) y)
                     (get_type_from_string t) (to_uint 32 z) (mkS ns i) (to_uint 32 value) (to_uint 64 len) z0) end
              = Ok (sem_freq y (get_type_from_string t) z ns value len z0)) as KEY.
      { replace (match map _ y with [] => Ok true | _ :: _ => _ end) with
          (Ok (within_frequency_caps
                     (map (fun k => mkCap (fc_type k) (fc_id k) (istr c v (sv_string (fc_ns k))) (fc_tsdef k) (fc_ts k) (fc_value k)) y)
                     (get_type_from_string t) (to_uint 32 z) (mkS ns i) (to_uint 32 value) (to_uint 64 len) z0)) by reflexivity.
        f_equal. rewrite !to_uint_small by lia. rewrite within_frequency_caps_ok by lia.
        unfold sem_freq. rewrite find_map.
        rewrite (find_ext _ (fun k => (fc_id k =? z) && String.eqb (sv_string (fc_ns k)) ns
                       && (ftype_num (fc_type k) =? ftype_num (get_type_from_string t)))).
        - now destruct (find _ y).
        - intros k. unfold cap_matches. cbn [fc_id fc_ns fc_type sv_str istr].
          now rewrite (try_str_eq c v ns _ i HT K). }
      rewrite R2. exact KEY.
    - destruct HR as (v & nv & D & DN & ->). cbn [match_leaf av_var]; unfold with_var.
      pose proof (RD _ _ _ D) as R1. pose proof (RD _ _ _ DN) as R2. clear RD.
      set (n := match x with Some x => x | None => _ end) in *.
      destruct (lookup ev n) as [y|]; [|now rewrite R1]. destruct R1 as [-> V].
      destruct HA as (_ & _ & HI & HS).
      assert (exists g, stored c v TSegs y = VSegs g /\ segs_in y = Some g /\ segs_ordered g) as (g & -> & -> & SO).
      { destruct y as [| | | |[|? ?]| |y| | ]; try (exfalso; exact V); [exists []; easy|exists y; easy]. }
      cbn [bind as_segs].
      destruct (lookup ev "now") as [w|]; [|now rewrite R2]. destruct R2 as [-> VN].
      destruct w; try (exfalso; exact VN). cbn [bind stored as_int]. f_equal.
      rewrite to_sint_uint64, to_sint_32 by easy. destruct op.
      + now apply segment_within_ok.
      + now apply segment_before_ok.
    - destruct HR as (v & w & D & DN & ->). cbn [match_leaf av_var].
      pose proof (RD _ _ _ D) as R1. pose proof (RD _ _ _ DN) as R2. clear RD.
      destruct (lookup ev "latitude") as [y|], (lookup ev "longitude") as [y'|].
      + destruct R1 as [-> V1], R2 as [-> V2].
        destruct y; try (exfalso; exact V1). destruct y'; try (exfalso; exact V2). reflexivity.
      + destruct R1 as [-> V1]. rewrite R2. destruct y; try (exfalso; exact V1). reflexivity.
      + destruct R2 as [-> V2]. rewrite R1. reflexivity.
      + rewrite R1, R2. reflexivity.
    - destruct HR as (v & D & ->). cbn [match_leaf av_var]; unfold with_var; specialize (RD _ _ _ D).
      destruct (lookup ev x) as [y|]; [|now rewrite RD]. destruct RD as [-> V].
      destruct y as [| | |y| | | | | ]; try (exfalso; exact V). cbn [bind stored as_str]. f_equal.
      destruct op; [apply contains_sem|apply starts_with_sem|apply ends_with_sem].
  Qed.
End WithGeo.
