(** Which subscriptions are accepted: proofs. *)
From Coq Require Import ZArith NArith String Bool List Lia Permutation.
From Coq Require Import ZifyBool ZifyNat ZifyN.
From Verif Require Import Base Float Value Special Ast Match Config Assign Source Bound Tree PredMap Api Spec TreeSpec Hist Bounded Accept.
From Verif Require Import BaseProofs ListProofs EvalProofs InternProofs ExtProofs ResProofs PassProofs HistProofs RewriteProofs PassTotal BoundedProofs LateProofs ObjProofs TreeProofs.
Import ListNotations.
Local Open Scope Z_scope.

Lemma all_leaves_eq f e (b : leaf -> bool) : (forall q, In q (expr_leaves e) -> f q = Ok (b q)) ->
  all_leaves f e = Ok (forallb b (expr_leaves e)).
Proof.
  induction e as [g p|g a IHa b' IHb|g a IHa b' IHb|g a IHa]; cbn [all_leaves expr_leaves forallb]; intros H.
  - rewrite H by (left; reflexivity). now rewrite andb_true_r.
  - rewrite IHa by (intros q Q; apply H, in_or_app; auto). cbn [bind]. rewrite forallb_app.
    destruct (forallb b (expr_leaves a)); [|reflexivity]. rewrite IHb by (intros q Q; apply H, in_or_app; auto). reflexivity.
  - rewrite IHa by (intros q Q; apply H, in_or_app; auto). cbn [bind]. rewrite forallb_app.
    destruct (forallb b (expr_leaves a)); [|reflexivity]. rewrite IHb by (intros q Q; apply H, in_or_app; auto). reflexivity.
  - auto.
Qed.

(** *** Variables *)
Lemma declared_valid c x : few (c_domains c) -> declared (c_domains c) x -> var_valid (set_var c (mk_var x)) = true.
Proof.
  intros F (v & d & D). unfold var_valid. cbn [set_var mk_var av_var av_attr]. rewrite (decl_id _ _ _ _ D).
  apply decl_spec in D. destruct D as [N _]. apply nthN_Some_lt in N. unfold few in F.
  destruct (N.eqb_spec v INVALID_VAR); [lia|reflexivity].
Qed.
Lemma atom_vars c cs a : few (c_domains c) -> atom_ok (c_domains c) cs a -> vars_leaf (assign_var_leaf c (build_atom a)) = Ok true.
Proof.
  intros F A. pose proof (fun x => atom_attrs_declared _ _ _ x A) as D.
  assert (forall x, In x (atom_attrs a) -> var_valid (set_var c (mk_var x)) = true) as V by (intros x I; apply declared_valid; auto).
  destruct a as [y|b|op y []|op y []|op y []|op [] y|op y []|op y|ty ns vl w|op [y|] id s|la lo r|op y p];
    cbn [build_atom assign_var_leaf vars_leaf mk_freq mk_seg atom_attrs In] in *; rewrite ?V by auto; try reflexivity; try contradiction.
Qed.
Lemma src_vars c cs x : few (c_domains c) -> src_ok (c_domains c) cs x -> all_variables_in_config (assign_variable_id c (build x)) = Ok true.
Proof.
  intros F H. unfold all_variables_in_config. rewrite (all_leaves_eq _ _ (fun _ => true)).
  - f_equal. now apply forallb_forall.
  - apply Forall_forall. apply (e1_leaves c cs x H). intros a A. eapply atom_vars; eauto.
Qed.

(** *** Constants *)
Lemma const_some cs e : (forall q, In q (expr_leaves e) -> assign_const_leaf cs q <> None) -> assign_constants cs e <> None.
Proof.
  induction e as [g p|g a IHa b IHb|g a IHa b IHb|g a IHa]; cbn [assign_constants expr_leaves]; intros H.
  - specialize (H p (or_introl eq_refl)). now destruct (assign_const_leaf cs p).
  - destruct (assign_constants cs a); [|apply IHa; intros q Q; apply H, in_or_app; auto].
    destruct (assign_constants cs b); [discriminate|apply IHb; intros q Q; apply H, in_or_app; auto].
  - destruct (assign_constants cs a); [|apply IHa; intros q Q; apply H, in_or_app; auto].
    destruct (assign_constants cs b); [discriminate|apply IHb; intros q Q; apply H, in_or_app; auto].
  - destruct (assign_constants cs a); [discriminate|auto].
Qed.
Definition freq_of (q : leaf) : option ftype := match q with PFreq _ ty _ _ _ _ _ => Some ty | _ => None end.
Lemma const_leaf_some cs q : match freq_of q with Some ty => ty <> FTInvalid /\ const_int cs (freq_const ty) <> None | None => True end ->
  assign_const_leaf cs q <> None.
Proof.
  destruct q; cbn [freq_of assign_const_leaf]; try discriminate. intros [N C].
  destruct (constant_name ty) as [nm|] eqn:E.
  - rewrite get_integer_constant_eq. replace nm with (freq_const ty); [|destruct ty; cbn in E |- *; congruence].
    destruct (const_int cs (freq_const ty)); [discriminate|easy].
  - destruct ty; cbn in E; discriminate || easy.
Qed.
Lemma freq_built c a : freq_of (assign_var_leaf c (build_atom a)) =
  match a with AFreq ty _ _ _ => Some (get_type_from_string ty) | _ => None end.
Proof. destruct a as [y|b|op y []|op y []|op y []|op [] y|op y []|op y|ty ns vl w|op [y|] id s|la lo r|op y p]; reflexivity. Qed.
Lemma given_const ds cs x a : src_ok ds cs x -> constants_given cs x -> In a (src_atoms x) ->
  match match a with AFreq ty _ _ _ => Some (get_type_from_string ty) | _ => None end with
  | Some ty => ty <> FTInvalid /\ const_int cs (freq_const ty) <> None | None => True end.
Proof.
  intros S G I. destruct a; auto. split; [|eapply G; eauto].
  unfold src_ok in S. rewrite Forall_forall in S. specialize (S _ I). cbn in S. tauto.
Qed.

(** *** Checks of betree_make_sub *)
Definition atom_fine (ds : list domain) (a : atom) : bool :=
  match a with
  | ANull op y => match decl ds y with
                  | Some (_, d) => match op with NIsNull | NIsNotNull => d_undef d
                                   | NIsEmpty => vtype_eqb (btype (d_bound d)) TIntList || vtype_eqb (btype (d_bound d)) TStrList end
                  | None => false
                  end
  | _ => true
  end.
Lemma vtype_eqb_refl t : vtype_eqb t t = true. Proof. now destruct t. Qed.
Lemma domain_of c y v d : decl (c_domains c) y = Some (v, d) -> get_domain c (av_var (set_var c (mk_var y))) = Ok d.
Proof.
  intros D. cbn [set_var mk_var av_var av_attr]. rewrite (decl_id _ _ _ _ D). apply decl_spec in D. destruct D as [N _].
  unfold get_domain. now rewrite N.
Qed.
Lemma exprs_atom c0 c cs a q3 q4 q : c_domains c = c_domains c0 -> atom_ok (c_domains c0) cs a ->
  R_str c (assign_var_leaf c0 (build_atom a)) q3 -> R_ie c q3 q4 -> R_fix c q4 q ->
  exprs_leaf c q = Ok (atom_fine (c_domains c0) a) /\ freq_of q = freq_of (assign_var_leaf c0 (build_atom a)).
Proof.
  intros E A R3 R4 R5.
  assert (forall y, set_var c0 (mk_var y) = set_var c (mk_var y)) as SV.
  { intros y. unfold set_var, try_get_id_for_attr. now rewrite E. }
  assert (forall y v d, decl (c_domains c0) y = Some (v, d) -> get_domain c (av_var (set_var c (mk_var y))) = Ok d
     /\ nthN (c_domains c) (av_var (set_var c (mk_var y))) = Some d) as DD.
  { intros y v d D. rewrite <- E in D. split; [eapply domain_of; eauto|]. cbn [set_var mk_var av_var av_attr].
    rewrite (decl_id _ _ _ _ D). now apply decl_spec in D. }
  assert (forall y t, has_type (c_domains c0) y t -> exists d, get_domain c (av_var (set_var c (mk_var y))) = Ok d
     /\ nthN (c_domains c) (av_var (set_var c (mk_var y))) = Some d /\ btype (d_bound d) = t) as TT.
  { intros y t (v & d & D & T). destruct (DD _ _ _ D). eauto. }
  destruct a as [y|b|op y [z|f]|op y [z|f|s]|op y [l|l]|op [z|f|s] y|op y [l|l]|op y|ty ns vl w|op [y|] id s|la lo r|op y p];
    cbn [atom_ok build_atom assign_var_leaf mk_freq mk_seg mk_geo R_str atom_fine freq_of] in *; rewrite ?SV in *.
  all: repeat match goal with
    | H : exists _, _ |- _ => destruct H
    | H : _ /\ _ |- _ => destruct H
    | H : _ \/ _ |- _ => destruct H
    | H : False |- _ => destruct H
    | H : has_type _ ?y _ |- _ => destruct (TT _ _ H) as (? & ? & ? & ?); clear H
    | H : ?x = _ |- _ => is_var x; subst x; cbn [R_ie R_fix exprs_leaf freq_of] in *
    | H : nthN ?a ?b = Some ?d, K : nthN ?a ?b = Some ?d' |- _ => rewrite H in K; injection K as ->
    | H : match btype ?b with _ => _ end, K : btype ?b = _ |- _ => rewrite K in H
    end.
  all: repeat match goal with H : get_domain _ _ = Ok _ |- _ => rewrite H; clear H end; cbn [bind].
  all: try (split; [|reflexivity]).
  all: repeat match goal with H : btype _ = _ |- _ => rewrite H; clear H end; try reflexivity.
  - destruct A as (v & d & D). destruct (DD _ _ _ D) as [-> _]. cbn [bind]. now rewrite D.
  - destruct (get_type_from_string ty); easy.
Qed.
Lemma fine_null ds x : src_ok ds [] x \/ (exists cs, src_ok ds cs x) -> (forallb (atom_fine ds) (src_atoms x) = true <-> null_tests_ok ds x).
Proof.
  intros HS. assert (forall op y, In (ANull op y) (src_atoms x) -> declared ds y) as HD.
  { intros op y I. assert (exists cs, src_ok ds cs x) as (cs & S) by (destruct HS; eauto).
    unfold src_ok in S. rewrite Forall_forall in S. exact (S _ I). }
  rewrite forallb_forall. split.
  - intros F op y I. specialize (F _ I). cbn [atom_fine] in F. destruct (HD _ _ I) as (v & d & D). rewrite D in F.
    destruct op; cbn in F |- *.
    + intros (v' & d' & D' & U). rewrite D in D'. injection D' as <- <-. congruence.
    + intros (v' & d' & D' & U). rewrite D in D'. injection D' as <- <-. congruence.
    + apply orb_prop in F. destruct F as [F|F]; [left|right]; exists v, d; (split; [exact D|]); now destruct (btype (d_bound d)).
  - intros N a I. destruct a; try reflexivity. specialize (N _ _ I). cbn [atom_fine]. destruct (HD _ _ I) as (v & d & D). rewrite D.
    destruct op.
    + destruct (d_undef d) eqn:U; [reflexivity|]. exfalso. apply N. exists v, d. auto.
    + destruct (d_undef d) eqn:U; [reflexivity|]. exfalso. apply N. exists v, d. auto.
    + destruct N as [(v' & d' & D' & T)|(v' & d' & D' & T)]; rewrite D in D'; injection D' as <- <-; rewrite T; reflexivity.
Qed.
Lemma rel_forallb R x e (f : atom -> bool) (g : leaf -> bool) : rel_src R x e -> (forall a q, R a q -> g q = f a) ->
  forallb g (expr_leaves e) = forallb f (src_atoms x).
Proof.
  intros H K. induction H as [a q0 q Q|x q e H IH|x y q e e' H IH H' IH'|x y q e e' H IH H' IH'|x y q e e' H IH H' IH'|x y q e e' H IH H' IH'];
    cbn [expr_leaves src_atoms forallb].
  - now rewrite (K _ _ Q).
  - exact IH.
  - rewrite !forallb_app. congruence.
  - rewrite !forallb_app, IH, IH'. apply andb_comm.
  - rewrite !forallb_app. congruence.
  - rewrite !forallb_app, IH, IH'. apply andb_comm.
Qed.

Section Make.
  Variables (c0 : config) (cs : constants) (x : src) (always : bool).
  Hypothesis HC : cfg_ok c0.
  Hypothesis HS : src_ok (c_domains c0) cs x.
  Hypothesis HF : fits c0 always x.
  Lemma make_rel e3 c3 e4 c4 e5 c5 :
    assign_str_id c0 (assign_variable_id c0 (build x)) always = Ok (e3, c3) ->
    assign_ienum_id c3 e3 always = Ok (e4, c4) -> fix_float c4 e4 = Ok (e5, c5) ->
    rel_src (fun a q => In a (src_atoms x) /\ exprs_leaf c5 q = Ok (atom_fine (c_domains c0) a)
      /\ freq_of q = freq_of (assign_var_leaf c0 (build_atom a))) x e5.
  Proof.
    intros H3 H4 H6. pose proof (e1_rel c0 cs x HS) as R1.
    destruct (str_pass c0 x always HF c0 (assign_variable_id c0 (build x)) e3 c3 (bz_start c0 x HC)) as (B3 & X3 & S3); auto.
    { eapply rel_src_leaves; [exact R1|]. intros a q Ha (HA & _ & ->). cbv beta. eapply leaf_strs_src; eauto. }
    pose proof (rel_src_shape _ _ _ _ R1 _ S3) as R3. cbv beta in R3.
    destruct (ie_pass c0 x always HF c3 e3 e4 c4 B3) as (B4 & X4 & S4); auto.
    { eapply rel_src_leaves; [exact R3|]. intros a q Ha (p & (HA & _ & ->) & E3). cbv beta.
      rewrite (R_str_ints c0 _ _ _ E3). eapply leaf_ints_src; eauto. }
    pose proof (rel_src_shape _ _ _ _ R3 _ S4) as R4. cbv beta in R4.
    destruct (fix_pass c0 x HC c4 e4 e5 c5 B4 H6) as (-> & S6).
    pose proof (rel_src_shape _ _ _ _ R4 _ S6) as R6. cbv beta in R6.
    eapply rel_src_impl; [exact R6|].
    intros a q Ha (q4 & (q3 & (p & (HA & IA & ->) & E2) & E3) & E5). split; [exact IA|].
    eapply (exprs_atom c0 c4 cs a q3 q4 q); eauto.
    - apply (bz_doms _ _ _ _ B4).
    - eapply R_str_ext; [exact X4|exact E2].
  Qed.
  Lemma exprs_valid_eq e3 c3 e4 c4 e5 c5 :
    assign_str_id c0 (assign_variable_id c0 (build x)) always = Ok (e3, c3) ->
    assign_ienum_id c3 e3 always = Ok (e4, c4) -> fix_float c4 e4 = Ok (e5, c5) ->
    all_exprs_valid c5 e5 = Ok (forallb (atom_fine (c_domains c0)) (src_atoms x))
    /\ (constants_given cs x -> assign_constants cs e5 <> None).
  Proof.
    intros H3 H4 H5. pose proof (make_rel _ _ _ _ _ _ H3 H4 H5) as R. split.
    - unfold all_exprs_valid.
      rewrite (all_leaves_eq _ _ (fun q => match exprs_leaf c5 q with Ok b => b | _ => false end)).
      + f_equal. eapply rel_forallb; [exact R|]. cbv beta. intros a q (_ & -> & _). reflexivity.
      + apply Forall_forall. eapply rel_src_leaves; [exact R|]. cbv beta. intros a q _ (_ & -> & _). reflexivity.
    - intros G. apply const_some. apply Forall_forall. eapply rel_src_leaves; [exact R|]. cbv beta. intros a q _ (I & _ & F).
      apply const_leaf_some. rewrite F, freq_built. eapply given_const; eauto.
  Qed.
End Make.

(** *** The string tables carry the names of their variables *)
Definition known_var (ds : list domain) (u : avar) : Prop := exists d, decl ds (av_attr u) = Some (av_var u, d).
Definition named (c : config) : Prop :=
  Forall (fun m => known_var (c_domains c) (mkAV (sm_attr m) (sm_var m))) (c_strs c) /\ NoDup (map sm_var (c_strs c)).
Lemma push_vars v s ms : map sm_var (push_str ms v s) = map sm_var ms /\ map sm_attr (push_str ms v s) = map sm_attr ms.
Proof.
  induction ms as [|m ms [IH IH']]; cbn [push_str map]; [easy|]. destruct (N.eqb _ _); cbn [map sm_var sm_attr]; [easy|].
  now rewrite IH, IH'.
Qed.
Lemma push_known ds v s ms : Forall (fun m => known_var ds (mkAV (sm_attr m) (sm_var m))) ms ->
  Forall (fun m => known_var ds (mkAV (sm_attr m) (sm_var m))) (push_str ms v s).
Proof.
  induction 1 as [|m ms H F IH]; cbn [push_str]; [constructor|]. destruct (N.eqb _ _); constructor; auto.
Qed.
Lemma find_none v ms : find_strmap ms v = None -> ~ In v (map sm_var ms).
Proof.
  induction ms as [|m ms IH]; cbn [find_strmap map In]; [easy|]. destruct (N.eqb_spec (sm_var m) v); [discriminate|]. tauto.
Qed.
Lemma named_get c u s always i c' : known_var (c_domains c) u -> named c -> get_id_for_string c u s always = Ok (i, c') ->
  named c' /\ c_domains c' = c_domains c.
Proof.
  intros K [A B] H. unfold get_id_for_string in H. destruct (find_strmap (c_strs c) (av_var u)) as [m|] eqn:E.
  - destruct (str_index _ _); [injection H as <- <-; easy|].
    apply bind_ok in H. destruct H as (d & _ & H). apply bind_ok in H. destruct H as ([] & _ & H); injection H as <- <-; [easy|].
    split; [|reflexivity]. split; cbn [set_strs c_strs c_domains]; [now apply push_known|]. now rewrite (proj1 (push_vars _ _ _)).
  - apply bind_ok in H. destruct H as (d & _ & H). apply bind_ok in H. destruct H as ([] & _ & H); injection H as <- <-.
    + split; [|reflexivity]. split; cbn [set_strs c_strs c_domains].
      * apply Forall_app. split; [exact A|]. constructor; [|constructor]. destruct u; exact K.
      * rewrite map_app. cbn [map sm_var]. apply NoDup_last; [exact B|]. now apply find_none.
    + split; [|reflexivity]. split; cbn [set_strs c_strs c_domains].
      * apply push_known. apply Forall_app. split; [exact A|]. constructor; [|constructor]. destruct u; exact K.
      * rewrite (proj1 (push_vars _ _ _)). rewrite map_app. cbn [map sm_var]. apply NoDup_last; [exact B|]. now apply find_none.
Qed.
Definition kn (ds : list domain) (c c' : config) : Prop := c_domains c = ds -> named c -> named c' /\ c_domains c' = ds.
Lemma named_strs ds v l always : known_var ds v -> forall c l' c', assign_strs c v l always = Ok (l', c') -> kn ds c c'.
Proof.
  intros K. induction l as [|s l IH]; intros c l' c' H E N; cbn [assign_strs] in H.
  - injection H as <- <-. auto.
  - apply bind_ok in H. destruct H as ([i c1] & H1 & H). apply bind_ok in H. destruct H as ([t c2] & H2 & H). injection H as <- <-.
    destruct (named_get _ _ _ _ _ _ (eq_ind_r (fun z => known_var z v) K E) N H1) as [N1 E1].
    eapply IH; eauto. congruence.
Qed.
Lemma named_leaf ds always c p q c' : Forall (fun u => known_var ds (fst u)) (asks p) -> assign_str_leaf always c p = Ok (q, c') -> kn ds c c'.
Proof.
  intros F.
  assert (forall v s K, known_var ds v -> bind (get_id_for_string c v s always) (fun '(i, c1) => Ok (K i, c1)) = Ok (q, c') -> kn ds c c') as S1.
  { intros v s K KV H E N. apply bind_ok in H. destruct H as ([i c1] & H1 & H). injection H as _ <-.
    destruct (named_get _ _ _ _ _ _ (eq_ind_r (fun z => known_var z v) KV E) N H1). split; [easy|congruence]. }
  assert (forall v l K, (l = [] \/ known_var ds v) -> bind (assign_strs c v l always) (fun '(l', c1) => Ok (K l', c1)) = Ok (q, c') -> kn ds c c') as S2.
  { intros v l K [->|KV] H.
    - cbn in H. injection H as _ <-. now intros.
    - apply bind_ok in H. destruct H as ([i c1] & H1 & H). injection H as _ <-. eapply named_strs; eauto. }
  assert (forall v l, Forall (fun u => known_var ds (fst u)) (map (fun s => (v, sv_string s)) l) -> l = [] \/ known_var ds v) as FL.
  { intros v [|s l] Q; [now left|right]. now inversion Q. }
  destruct p; cbn [assign_str_leaf asks] in *; intros H; try (injection H as <- <-; now intros).
  all: repeat match type of H with context [match ?x with _ => _ end] => is_var x; destruct x end;
    try discriminate; try (injection H as <- <-; now intros).
  all: cbn [asks] in F.
  all: first [eapply (S1 _ _ (fun i => _)); [|exact H]; now inversion F | eapply (S2 _ _ (fun i => _)); [|exact H]; now apply FL].
Qed.
Lemma named_trav ds always e : forall c e' c', Forall (fun u => known_var ds (fst u)) (flat_map asks (expr_leaves e)) ->
  assign_str_id c e always = Ok (e', c') -> kn ds c c'.
Proof.
  unfold assign_str_id. induction e as [g p|g a IHa b IHb|g a IHa b IHb|g a IHa]; intros c e' c' F H; cbn [trav expr_leaves flat_map] in *.
  - apply bind_ok in H. destruct H as ([q c1] & H1 & H). injection H as <- <-. rewrite app_nil_r in F. eapply named_leaf; eauto.
  - apply bind_ok in H. destruct H as ([q c1] & H1 & H). apply bind_ok in H. destruct H as ([q2 c2] & H2 & H). injection H as <- <-.
    rewrite flat_map_app in F. apply Forall_app in F. destruct F as [F1 F2]. intros E N.
    destruct (IHa _ _ _ F1 H1 E N) as [N1 E1]. exact (IHb _ _ _ F2 H2 E1 N1).
  - apply bind_ok in H. destruct H as ([q c1] & H1 & H). apply bind_ok in H. destruct H as ([q2 c2] & H2 & H). injection H as <- <-.
    rewrite flat_map_app in F. apply Forall_app in F. destruct F as [F1 F2]. intros E N.
    destruct (IHa _ _ _ F1 H1 E N) as [N1 E1]. exact (IHb _ _ _ F2 H2 E1 N1).
  - apply bind_ok in H. destruct H as ([q c1] & H1 & H). injection H as <- <-. eauto.
Qed.
Lemma valid_known c y : var_valid (set_var c (mk_var y)) = true -> known_var (c_domains c) (set_var c (mk_var y)).
Proof.
  unfold var_valid, known_var. cbn [set_var mk_var av_var av_attr]. unfold try_get_id_for_attr. intros V.
  apply find_attr_decl. intros Q. rewrite Q in V. discriminate.
Qed.
Lemma src_known c x : all_variables_in_config (assign_variable_id c (build x)) = Ok true ->
  Forall (fun u => known_var (c_domains c) (fst u)) (flat_map asks (expr_leaves (assign_variable_id c (build x)))).
Proof.
  intros V. apply Forall_forall. intros u I. apply in_flat_map in I. destruct I as (q & Q & I).
  pose proof (rel_src_shape _ _ _ _ (rel_src_build x) _ (shape_map (assign_var_leaf c) (build x))) as R.
  destruct (rel_In _ _ _ R (fun a q => q = assign_var_leaf c (build_atom a))) as [_ B].
  { now intros b z (p & -> & ->). }
  destruct (B q Q) as (a & _ & ->). rewrite asks_atom in I. apply in_map_iff in I. destruct I as (p & <- & P). cbn [fst].
  apply valid_known. eapply atom_valid; [|exact P]. exact (all_leaves_true _ _ V _ Q).
Qed.
Lemma named_same c c' : same_strs c c' -> named c -> named c'.
Proof. intros [A B] [N M]. split; rewrite A, ?B; auto. Qed.
Lemma named_sig c c' : map dom_sig (c_domains c') = map dom_sig (c_domains c) -> c_strs c' = c_strs c -> named c -> named c'.
Proof.
  intros S E [N M]. split; rewrite E; [|exact M]. eapply Forall_impl; [|exact N]. intros m (d & D). destruct (sig_keeps _ _ S _ _ _ D) as (d' & D' & _).
  now exists d'.
Qed.
Lemma change_named c e c' : change_boundaries c e = Ok c' -> map dom_sig (c_domains c') = map dom_sig (c_domains c) /\ c_strs c' = c_strs c.
Proof.
  unfold change_boundaries. intros H. apply bind_ok in H. destruct H as (ds & D & H). injection H as <-. cbn [set_domains c_domains c_strs].
  split; [|reflexivity]. now apply change_from_sig in D.
Qed.

Section WithGeo.
  Context {G : Geo}.
  Theorem make_accepts {fm} ds t pend log id cs x : reach_in fm ds t pend log -> src_ok ds cs x -> fits (bt_cfg t) true x ->
    ((exists s t', betree_make_sub t id cs x = Ok (Some s, t')) <-> constants_given cs x /\ null_tests_ok ds x).
  Proof.
    intros R HS HF. destruct (make_total _ _ _ _ id _ _ R HS HF) as (o & t' & H). rewrite H.
    pose proof (reach_inv _ _ _ _ R) as [ISG IC IF IT IN _].
    assert (src_ok (c_domains (bt_cfg t)) cs x) as HS' by (eapply src_ok_sig; [|exact HS]; auto).
    assert (null_tests_ok (c_domains (bt_cfg t)) x <-> null_tests_ok ds x) as NE.
    { assert (forall a b, map dom_sig a = map dom_sig b -> null_tests_ok a x -> null_tests_ok b x) as K.
      { intros a b E N op y I. specialize (N op y I). destruct op.
        - intros Q. apply N. eapply required_keeps; [|exact Q]. now apply sig_keeps.
        - intros Q. apply N. eapply required_keeps; [|exact Q]. now apply sig_keeps.
        - destruct N as [N|N]; [left|right]; (eapply has_type_keeps; [|exact N]); now apply sig_keeps. }
      split; apply K; auto. }
    rewrite <- NE. clear NE.
    assert ((exists s t'0, Ok (o, t') = Ok (Some s, t'0)) <-> o <> None) as ->.
    { split; [intros (s & t0 & [= -> ->]); discriminate|]. destruct o as [s|]; [eauto|easy]. }
    unfold betree_make_sub, make_sub_expr in H. rewrite (src_vars _ _ _ (ok_few _ IC) HS') in H. cbn [bind negb] in H.
    apply bind_ok in H. destruct H as ([e3 c3] & E3 & H). apply bind_ok in H. destruct H as ([e4 c4] & E4 & H).
    apply bind_ok in H. destruct H as ([e5 c5] & E5 & H).
    destruct (exprs_valid_eq (bt_cfg t) cs x true IC HS' HF _ _ _ _ _ _ E3 E4 E5) as [EV EC]. rewrite EV in H. cbn [bind] in H.
    rewrite <- (fine_null _ x (or_intror (ex_intro _ cs HS'))).
    split.
    - intros N. destruct o as [s|]; [|easy]. destruct (forallb _ _) eqn:FB; cbn [negb] in H; [|discriminate]. split; [|reflexivity].
      intros ty ns value window I C0.
      destruct (missing_constant t id cs x ty ns value window t' I C0) as [_ M]. apply (M s).
      unfold betree_make_sub, make_sub_expr. rewrite (src_vars _ _ _ (ok_few _ IC) HS'). cbn [bind negb].
      rewrite E3. cbn [bind]. rewrite E4. cbn [bind]. rewrite E5. cbn [bind]. rewrite EV. cbn [bind]. try rewrite FB. cbn [negb]. exact H.
    - intros [CG FB] ->. rewrite FB in H. cbn [negb] in H. specialize (EC CG).
      destruct (assign_constants cs e5) as [e6|]; [|easy].
      apply bind_ok in H. destruct H as (c6 & _ & H). apply bind_ok in H. destruct H as ([e7 m] & _ & H).
      apply bind_ok in H. destruct H as (s & _ & H). discriminate H.
  Qed.

  Lemma reach_named {fm} ds t pend log : reach_in fm ds t pend log -> named (bt_cfg t).
  Proof.
    induction 1 as [ds cap minpart maxsplit D M W|ds t pend log id cs x t' R IH A NI H|ds t pend log id cs x t' R IH H
      |ds t pend log id cs x s t' R IH A NI H W|ds t pend log id cs x t' R IH F H|ds t pend pend' log s e t' R IH H
      |ds t pend log x t' R IH A F H W|ds t pend log d R IH D W B|ds t pend log R IH].
    - split; constructor.
    - destruct (accepted_steps _ _ _ _ _ H) as (e2 & c3 & E2 & EV & _ & SS).
      unfold betree_insert_with_constants, insert_expr in H. rewrite EV in H. cbn [bind negb] in H. rewrite E2 in H.
      apply bind_ok in H. destruct H as ([e3 c3'] & E3 & H). apply bind_ok in H. destruct H as ([e4 c4] & E4 & H).
      apply bind_ok in H. destruct H as ([e6 c6] & E6 & H). apply bind_ok in H. destruct H as ([e7 m] & _ & H).
      apply bind_ok in H. destruct H as (s & _ & H). apply bind_ok in H. destruct H as (t2 & H & HT). injection HT as <-.
      unfold insert_sub in H. cbn [bt_cfg bt_root bt_pm] in H. apply bind_ok in H. destruct H as (r & _ & HT'). injection HT' as <-. cbn [bt_cfg].
      eapply named_same; [eapply fix_keeps; eauto|]. eapply named_same; [eapply ie_keeps; eauto|].
      refine (proj1 (named_trav (c_domains (bt_cfg t)) _ _ _ _ _ _ E3 eq_refl IH)).
      unfold is_valid in EV. apply bind_ok in EV. destruct EV as ([] & V & EV2); [|discriminate EV2].
      apply Forall_forall. intros u I. apply (asks_src _ _ _ _ E2) in I.
      pose proof (src_known _ _ V) as K. rewrite Forall_forall in K. apply K.
      apply in_map_iff in I. destruct I as (p & <- & P). apply in_flat_map in P. destruct P as (a & Aa & P).
      pose proof (rel_src_shape _ _ _ _ (rel_src_build x) _ (shape_map (assign_var_leaf (bt_cfg t)) (build x))) as R'.
      destruct (rel_In _ _ _ R' (fun a q => q = assign_var_leaf (bt_cfg t) (build_atom a))) as [B _].
      { now intros b z (q & -> & ->). }
      destruct (B a Aa) as (q & Q & ->). apply in_flat_map. exists (assign_var_leaf (bt_cfg t) (build_atom a)). split; [exact Q|].
      rewrite asks_atom. apply in_map_iff. now exists p.
    - apply refused_steps in H. now subst.
    - unfold betree_make_sub, make_sub_expr in H. apply bind_ok in H. destruct H as ([] & V & H); [|discriminate]. cbn [negb] in H.
      apply bind_ok in H. destruct H as ([e3 c3] & E3 & H). apply bind_ok in H. destruct H as ([e4 c4] & E4 & H).
      apply bind_ok in H. destruct H as ([e5 c5] & E5 & H). apply bind_ok in H. destruct H as ([] & _ & H); [|discriminate]. cbn [negb] in H.
      destruct (assign_constants cs e5); [|discriminate].
      apply bind_ok in H. destruct H as (c6 & E6 & H). apply bind_ok in H. destruct H as ([e7 m] & _ & H).
      apply bind_ok in H. destruct H as (s' & _ & HT); injection HT as <- <-. cbn [bt_cfg]. destruct (change_named _ _ _ E6) as [S6 T6].
      eapply named_sig; [exact S6|exact T6|].
      eapply named_same; [eapply fix_keeps; eauto|]. eapply named_same; [eapply ie_keeps; eauto|].
      exact (proj1 (named_trav (c_domains (bt_cfg t)) _ _ _ _ _ (src_known _ _ V) E3 eq_refl IH)).
    - unfold betree_make_sub, make_sub_expr in H. apply bind_ok in H. destruct H as ([] & V & H); cbn [negb] in H; [|injection H as <-; exact IH].
      apply bind_ok in H. destruct H as ([e3 c3] & E3 & H). apply bind_ok in H. destruct H as ([e4 c4] & E4 & H).
      apply bind_ok in H. destruct H as ([e5 c5] & E5 & H).
      assert (named c5) as N5.
      { eapply named_same; [eapply fix_keeps; eauto|]. eapply named_same; [eapply ie_keeps; eauto|].
        exact (proj1 (named_trav (c_domains (bt_cfg t)) _ _ _ _ _ (src_known _ _ V) E3 eq_refl IH)). }
      apply bind_ok in H. destruct H as ([] & _ & H); cbn [negb] in H; [|injection H as <-; exact N5].
      destruct (assign_constants cs e5); [|injection H as <-; exact N5].
      apply bind_ok in H. destruct H as (c6 & E6 & H). apply bind_ok in H. destruct H as ([e7 m] & _ & H).
      apply bind_ok in H. destruct H as (s' & _ & H). discriminate H.
    - unfold betree_insert_sub, insert_sub in H. apply bind_ok in H. destruct H as (r & _ & HT); injection HT as <-. exact IH.
    - pose proof (reach_inv _ _ _ _ R) as [ISG IC _ _ _ _].
      assert (src_ok (c_domains (bt_cfg t)) [] x) as HS' by (eapply src_ok_sig; [|exact A]; auto).
      pose proof (src_vars _ _ _ (ok_few _ IC) HS') as V.
      unfold betree_change_boundaries, change_boundaries_expr in H.
      apply bind_ok in H. destruct H as ([e3 c3] & E3 & H). apply bind_ok in H. destruct H as ([e4 c4] & E4 & H).
      apply bind_ok in H. destruct H as ([e5 c5] & E5 & H). apply bind_ok in H. destruct H as (c6 & E6 & HT); injection HT as <-. cbn [set_cfg bt_cfg].
      destruct (change_named _ _ _ E6) as [S6 T6]. eapply named_sig; [exact S6|exact T6|].
      eapply named_same; [eapply fix_keeps; eauto|]. eapply named_same; [eapply ie_keeps; eauto|].
      exact (proj1 (named_trav (c_domains (bt_cfg t)) _ _ _ _ _ (src_known _ _ V) E3 eq_refl IH)).
    - destruct IH as [N M0]. split; cbn [betree_declare set_cfg bt_cfg add_domain c_domains c_strs]; [|exact M0].
      eapply Forall_impl; [|exact N]. intros m (d' & D'). destruct (keeps_app _ [d] _ _ _ D') as (d2 & D2 & _). now exists d2.
    - exact IH.
  Qed.

  (** *** Checks of betree_insert *)
  Lemma table_named c a v d m : named c -> decl (c_domains c) a = Some (v, d) -> strmap_for_attr (c_strs c) a = Some m -> sm_vals m = strs c v.
  Proof.
    intros [K N] D H. unfold strs.
    assert (forall ms, Forall (fun m => known_var (c_domains c) (mkAV (sm_attr m) (sm_var m))) ms -> NoDup (map sm_var ms) ->
      strmap_for_attr ms a = Some m -> In m ms /\ sm_var m = v /\ find_strmap ms v = Some m) as L; [|destruct (L _ K N H) as (_ & _ & ->); reflexivity].
    clear K N H. induction ms as [|m0 ms IH]; intros F ND H; cbn [strmap_for_attr find_strmap] in *; [discriminate|].
    inversion_clear F as [|? ? K F']. cbn [map] in ND. inversion_clear ND as [|? ? NI ND'].
    destruct (String.eqb_spec a (sm_attr m0)) as [E|E].
    - injection H as ->. destruct K as (d' & K). cbn [av_attr av_var] in K. rewrite <- E, D in K. injection K as -> _.
      rewrite N.eqb_refl. split; [now left|]. auto.
    - destruct (IH F' ND' H) as (I & V & FM). destruct (N.eqb_spec (sm_var m0) v) as [E'|E'].
      + exfalso. apply NI. rewrite E', <- V. now apply in_map.
      + split; [now right|]. auto.
  Qed.
  Lemma bound_named c a v d ty lo hi : lower_names (c_domains c) -> decl (c_domains c) a = Some (v, d) -> d_bound d = BStr ty lo hi ->
    0 <= hi <= SIZE_MAX -> exists b, attr_string_bound (c_domains c) a = Ok b /\ Z.min (hi + 1) SIZE_MAX <= b <= SIZE_MAX.
  Proof.
    intros LN D B HH. unfold decl in D. revert D. generalize 0%N as i. unfold lower_names in LN.
    induction LN as [|d0 ds L LN IH]; intros i D; cbn [decl_from attr_string_bound] in *; [discriminate|].
    destruct (String.eqb_spec (d_attr d0) (lower a)) as [E|E].
    - injection D as -> ->. destruct (String.eqb_spec a (d_attr d)) as [E'|E'].
      + rewrite B. cbn [dom_smax bind]. destruct (Z.eqb_spec hi SIZE_MAX); eexists; (split; [reflexivity|lia]).
      + exists SIZE_MAX. split; [|lia]. clear - LN E E' L.
        assert (lower a <> a) as NA by congruence. induction LN as [|d1 ds L1 LN IH]; cbn [attr_string_bound]; [reflexivity|].
        destruct (String.eqb_spec a (d_attr d1)) as [F|F]; [congruence|exact IH].
    - destruct (String.eqb_spec a (d_attr d0)) as [E'|E'].
      + exfalso. apply E. rewrite E', L. reflexivity.
      + eapply IH; eauto.
  Qed.

  Lemma str_fine c a v d ty lo hi s n : named c -> lower_names (c_domains c) -> decl (c_domains c) a = Some (v, d) -> d_bound d = BStr ty lo hi ->
    0 <= hi <= SIZE_MAX -> 1 <= n -> Z.of_nat (List.length (strs c v)) + n <= Z.min (hi + 1) (SIZE_MAX - 1) -> str_valid c a s = Ok true.
  Proof.
    intros N LN D B HH N1 R. unfold str_valid. destruct (bound_named _ _ _ _ _ _ _ LN D B HH) as (b & -> & HB). cbn [bind].
    destruct (strmap_for_attr _ _) as [m|] eqn:M.
    - rewrite (table_named _ _ _ _ _ N D M). destruct (str_index _ _); [reflexivity|].
      rewrite to_uint_small; [f_equal; apply Z.gtb_lt; lia|unfold SIZE_MAX, UINT64_MAX in *; lia].
    - f_equal. apply Z.gtb_lt. unfold SIZE_MAX, UINT64_MAX in *. lia.
  Qed.
  Lemma strs_fine c a v d ty lo hi l : named c -> lower_names (c_domains c) -> decl (c_domains c) a = Some (v, d) -> d_bound d = BStr ty lo hi ->
    0 <= hi <= SIZE_MAX -> (l <> [] -> Z.of_nat (List.length (strs c v)) + Z.of_nat (List.length l) <= Z.min (hi + 1) (SIZE_MAX - 1)) -> strs_valid c a l = Ok true.
  Proof.
    intros N LN D B HH R. unfold strs_valid. destruct (bound_named _ _ _ _ _ _ _ LN D B HH) as (b & -> & HB). cbn [bind].
    destruct (b =? SIZE_MAX); [reflexivity|].
    destruct (strmap_for_attr _ _) as [m|] eqn:M.
    - rewrite (table_named _ _ _ _ _ N D M). f_equal. apply Z.geb_le. destruct l as [|s l].
      + cbn [List.length filter Nat.sub]. apply Z.mod_pos_bound. reflexivity.
      + specialize (R ltac:(discriminate)). rewrite to_uint_small; [lia|unfold SIZE_MAX, UINT64_MAX in *; lia].
    - f_equal. apply Z.geb_le. destruct l as [|s l]; [cbn [List.length]; lia|]. specialize (R ltac:(discriminate)). lia.
  Qed.

  Lemma btype_strs b : btype b = TStr \/ btype b = TStrList -> exists ty lo hi, b = BStr ty lo hi.
  Proof. destruct b as [lo hi|w lo hi|lo hi|ty lo hi| | ]; cbn [btype]; try (intros [H|H]; discriminate H); try (destruct w; intros [H|H]; discriminate H). eauto. Qed.
  Lemma atom_room c cs x a : named c -> lower_names (c_domains c) -> (forall d, In d (c_domains c) -> dom_fine (d_bound d)) -> roomy c x ->
    In a (src_atoms x) -> atom_ok (c_domains c) cs a -> strings_leaf c (assign_var_leaf c (build_atom a)) = Ok true.
  Proof.
    intros N LN DF RM I A.
    assert (forall y (l : list string), map fst (atom_strs a) = map (fun _ => y) l -> (List.length (atom_strs a) <= List.length (src_strings (lower y) x))%nat) as CNT.
    { intros y l H. unfold src_strings, strings_for. rewrite map_length.
      apply in_split in I. destruct I as (l1 & l2 & ->). rewrite !flat_map_app. cbn [flat_map]. rewrite !filter_app, !app_length.
      assert (filter (fun p => String.eqb (lower (fst p)) (lower y)) (atom_strs a) = atom_strs a) as ->; [|lia].
      revert l H. generalize (atom_strs a). induction l as [|p q IH]; intros [|z l'] H; cbn [map filter] in *; try discriminate; [reflexivity|].
      injection H as H1 H2. rewrite H1, String.eqb_refl. f_equal. eauto. }
    assert (forall y t, has_type (c_domains c) y t -> t = TStr \/ t = TStrList -> exists v d ty lo hi,
       decl (c_domains c) y = Some (v, d) /\ d_bound d = BStr ty lo hi /\ 0 <= hi <= SIZE_MAX) as HT.
    { intros y t (v & d & D & T) K. destruct (btype_strs (d_bound d)) as (ty & lo & hi & B); [rewrite T; tauto|].
      exists v, d, ty, lo, hi. split; [exact D|]. split; [exact B|].
      destruct (decl_from_spec _ _ _ _ _ D) as (_ & Q & _). apply nthN_In in Q. specialize (DF _ Q). rewrite B in DF. apply DF. }
    assert (forall y t s, has_type (c_domains c) y t -> t = TStr \/ t = TStrList -> atom_strs a = [(y, s)] -> str_valid c y s = Ok true) as V1.
    { intros y t s H K E. destruct (HT _ _ H K) as (v & d & ty & lo & hi & D & B & HH).
      pose proof (CNT y [s]) as C1. rewrite E in C1. specialize (C1 eq_refl). cbn [List.length] in C1.
      eapply (str_fine _ _ _ _ _ _ _ _ 1); eauto; [lia|].
      assert (src_strings (lower y) x <> []) as NE by (destruct (src_strings _ _); cbn in C1; [lia|discriminate]).
      specialize (RM _ _ _ _ _ _ D B NE). lia. }
    assert (forall y t l, has_type (c_domains c) y t -> t = TStr \/ t = TStrList -> atom_strs a = map (fun s => (y, s)) l ->
      strs_valid c y (build_strs l) = Ok true) as V2.
    { intros y t l H K E. destruct (HT _ _ H K) as (v & d & ty & lo & hi & D & B & HH).
      pose proof (CNT y l) as C1. rewrite E, map_map in C1. specialize (C1 eq_refl). rewrite map_length in C1.
      eapply strs_fine; eauto. unfold build_strs. rewrite map_length. intros NE0.
      assert (src_strings (lower y) x <> []) as NE. { destruct l; [now elim NE0|]. destruct (src_strings _ _); cbn in C1; [lia|discriminate]. }
      specialize (RM _ _ _ _ _ _ D B NE). lia. }
    destruct a as [y|b|op y k|op y k|op y l|op k y|op y l|op y|ty ns value window|op y id sec|lat lon rad|op y pat];
      cbn [build_atom assign_var_leaf strings_leaf atom_ok atom_strs set_var mk_var av_attr] in *; try reflexivity.
    - destruct k as [z|f|s]; cbn [assign_var_leaf strings_leaf atom_ok atom_strs set_var mk_var av_attr] in *; try reflexivity. eapply V1; eauto.
    - destruct l as [l|l]; cbn [assign_var_leaf strings_leaf atom_ok atom_strs set_var mk_var av_attr] in *; try reflexivity. destruct A as (A & _). eapply V2; eauto.
    - destruct k as [z|f|s]; cbn [assign_var_leaf strings_leaf atom_ok atom_strs set_var mk_var av_attr] in *; try reflexivity. eapply V1; eauto.
    - destruct l as [l|l]; cbn [assign_var_leaf strings_leaf atom_ok atom_strs set_var mk_var av_attr] in *; try reflexivity. destruct A as (A & _). eapply V2; eauto.
    - destruct y; reflexivity.
  Qed.

  Theorem insert_accepts {fm} ds t pend log id cs x : fm <> Splits -> reach_in fm ds t pend log ->
    lower_names ds -> narrow (bt_cfg t) -> c_cap (bt_cfg t) <> 0 ->
    src_ok ds cs x -> fits (bt_cfg t) false x -> roomy (bt_cfg t) x -> ~ In id (ids_of pend log) ->
    ((exists t', betree_insert_with_constants t id cs x = Ok (true, t')) <-> constants_given cs x).
  Proof.
    intros NS R LN NW CAP HS HF RM NI. destruct (@insert_total _ (TotalProofs.whole_other fm NS) _ _ _ _ _ id _ _ R LN NW CAP HS HF NI) as (b & t' & H).
    pose proof (reach_named _ _ _ _ R) as NM. pose proof (reach_inv _ _ _ _ R) as [ISG IC IF IT IN _].
    assert (src_ok (c_domains (bt_cfg t)) cs x) as HS' by (eapply src_ok_sig; [|exact HS]; auto).
    assert (lower_names (c_domains (bt_cfg t))) as LN'.
    { clear - LN ISG. revert ISG. generalize (c_domains (bt_cfg t)). unfold lower_names. induction LN as [|d ds H L IH]; intros [|d' ds'] E; try discriminate; constructor.
      - injection E as E1 _ _. congruence.
      - apply IH. now injection E as _ _ _ E. }
    split.
    - intros (t1 & H1) ty ns value window I C0. destruct (missing_constant t id cs x ty ns value window t1 I C0) as [M _]. auto.
    - intros CG. exists t'. destruct b; [exact H|exfalso].
      unfold betree_insert_with_constants, insert_expr in H.
      pose proof (rel_src_shape _ _ _ _ (rel_src_build x) _ (shape_map (assign_var_leaf (bt_cfg t)) (build x))) as RR.
      destruct (rel_In _ _ _ RR (fun a q => q = assign_var_leaf (bt_cfg t) (build_atom a))) as [_ B].
      { now intros a q (p & -> & ->). }
      assert (is_valid (bt_cfg t) (assign_variable_id (bt_cfg t) (build x)) = Ok true) as V.
      { unfold is_valid. rewrite (src_vars _ _ _ (ok_few _ IC) HS'). cbn [bind]. unfold all_bounded_strings_valid.
        rewrite (all_leaves_eq _ _ (fun _ => true)).
        - f_equal. apply forallb_forall. auto.
        - intros q Q. destruct (B q Q) as (a & I & ->). eapply atom_room; eauto; [apply (cf_dom _ IF)|].
          unfold src_ok in HS'. rewrite Forall_forall in HS'. auto. }
      rewrite V in H. cbn [bind negb] in H.
      assert (assign_constants cs (assign_variable_id (bt_cfg t) (build x)) <> None) as EC.
      { apply const_some. intros q Q. destruct (B q Q) as (a & I & ->). apply const_leaf_some. rewrite freq_built. eapply given_const; eauto. }
      destruct (assign_constants cs _) as [e2|]; [|easy].
      apply bind_ok in H. destruct H as ([e3 c3] & _ & H). apply bind_ok in H. destruct H as ([e4 c4] & _ & H).
      apply bind_ok in H. destruct H as ([e6 c6] & _ & H). apply bind_ok in H. destruct H as ([e7 m] & _ & H).
      apply bind_ok in H. destruct H as (s & _ & H). apply bind_ok in H. destruct H as (t2 & _ & H). discriminate H.
  Qed.
End WithGeo.
