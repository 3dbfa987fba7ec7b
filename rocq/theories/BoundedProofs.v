(** Bounded strings (ast.c 2674-2806, config.c 344-371). *)
From Coq Require Import ZArith NArith String Bool List Lia.
From Coq Require Import ZifyBool ZifyNat ZifyN.
From Verif Require Import Base Float Value Special Ast Match Config Assign Bound Tree PredMap Source Api Spec BaseProofs InternProofs ExtProofs ResProofs PassProofs RewriteProofs Hist Bounded.
Import ListNotations.
Local Open Scope Z_scope.

(** Requests made by a predicate / an expression. *)
Definition asks (p : leaf) : list (avar * string) :=
  match p with
  | PFreq v _ ns _ _ _ _ => [(v, sv_string ns)]
  | PEq _ v (QStr s) => [(v, sv_string s)]
  | PList _ v (LStrs l) => map (fun s => (v, sv_string s)) l
  | PSet _ (SLStr s) (SRVar v) => [(v, sv_string s)]
  | PSet _ (SLVar v) (SRStrs l) => map (fun s => (v, sv_string s)) l
  | _ => []
  end.
Inductive asked : config -> list (avar * string) -> config -> Prop :=
| k_nil c : asked c [] c
| k_cons c v s i c1 l c2 : get_id_for_string c v s false = Ok (i, c1) -> asked c1 l c2 -> asked c ((v, s) :: l) c2.
Lemma asked_app c l c1 l' c2 : asked c l c1 -> asked c1 l' c2 -> asked c (l ++ l') c2.
Proof. induction 1; cbn [app]; eauto using asked. Qed.
Lemma asked_strs l : forall c v l' c', assign_strs c v l false = Ok (l', c') -> asked c (map (fun s => (v, sv_string s)) l) c'.
Proof.
  induction l as [|s l IH]; intros c v l' c' H; cbn [assign_strs map] in *.
  - injection H as <- <-. constructor.
  - apply bind_ok in H. destruct H as ([i c1] & H1 & H). apply bind_ok in H. destruct H as ([t c2] & H2 & H).
    injection H as <- <-. econstructor; eauto.
Qed.
Lemma asked_leaf c p q c' : assign_str_leaf false c p = Ok (q, c') -> asked c (asks p) c'.
Proof.
  assert (forall v s K, bind (get_id_for_string c v s false) (fun '(i, c1) => Ok (K i, c1)) = Ok (q, c') -> asked c [(v, s)] c') as S1.
  { intros v s K H. apply bind_ok in H. destruct H as ([i c1] & H1 & H). injection H as _ <-. econstructor; [exact H1|constructor]. }
  assert (forall v l K, bind (assign_strs c v l false) (fun '(l', c1) => Ok (K l', c1)) = Ok (q, c')
            -> asked c (map (fun s => (v, sv_string s)) l) c') as S2.
  { intros v l K H. apply bind_ok in H. destruct H as ([i c1] & H1 & H). injection H as _ <-. eapply asked_strs; eauto. }
  destruct p; cbn [assign_str_leaf asks]; intros H; try (injection H as <- <-; constructor; fail).
  all: repeat match type of H with context [match ?x with _ => _ end] => is_var x; destruct x end;
    try discriminate; try (injection H as <- <-; constructor; fail).
  all: first [eapply (S1 _ _ (fun i => _)); exact H | eapply (S2 _ _ (fun i => _)); exact H].
Qed.
Lemma asked_trav e : forall c e' c', assign_str_id c e false = Ok (e', c') -> asked c (flat_map asks (expr_leaves e)) c'.
Proof.
  unfold assign_str_id. induction e as [g p|g a IHa b IHb|g a IHa b IHb|g a IHa]; intros c e' c' H; cbn [trav expr_leaves flat_map] in *.
  - apply bind_ok in H. destruct H as ([q c1] & H1 & H). injection H as <- <-. rewrite app_nil_r. eapply asked_leaf; eauto.
  - apply bind_ok in H. destruct H as ([q c1] & H1 & H). apply bind_ok in H. destruct H as ([q2 c2] & H2 & H). injection H as <- <-.
    rewrite flat_map_app. eapply asked_app; eauto.
  - apply bind_ok in H. destruct H as ([q c1] & H1 & H). apply bind_ok in H. destruct H as ([q2 c2] & H2 & H). injection H as <- <-.
    rewrite flat_map_app. eapply asked_app; eauto.
  - apply bind_ok in H. destruct H as ([q c1] & H1 & H). injection H as <- <-. eauto.
Qed.

Lemma asks_atom c a : asks (assign_var_leaf c (build_atom a)) = map (fun p => (set_var c (mk_var (fst p)), snd p)) (atom_strs a).
Proof.
  destruct a as [x|b|op x k|op x k|op x k|op k x|op x k|op x|ty ns vl w|op x id s|la lo r|op x p]; try reflexivity.
  - now destruct k.
  - destruct k as [l|l]; [reflexivity|]. cbn [build_atom assign_var_leaf asks atom_strs]. unfold build_strs. now rewrite !map_map.
  - now destruct k.
  - destruct k as [l|l]; [reflexivity|]. cbn [build_atom assign_var_leaf asks atom_strs]. unfold build_strs. now rewrite !map_map.
  - destruct x; reflexivity.
Qed.

Lemma trav_keeps (f : config -> leaf -> result (leaf * config)) (R : config -> config -> Prop) :
  (forall c, R c c) -> (forall a b c, R a b -> R b c -> R a c) ->
  (forall c p q c', f c p = Ok (q, c') -> R c c') ->
  forall e c e' c', trav f c e = Ok (e', c') -> R c c'.
Proof.
  intros Rr Rt Rf. induction e as [g p|g a IHa b IHb|g a IHa b IHb|g a IHa]; intros c e' c' H; cbn [trav] in H.
  - apply bind_ok in H. destruct H as ([q c1] & H1 & H). injection H as <- <-. eauto.
  - apply bind_ok in H. destruct H as ([q c1] & H1 & H). apply bind_ok in H. destruct H as ([q2 c2] & H2 & H). injection H as <- <-. eauto.
  - apply bind_ok in H. destruct H as ([q c1] & H1 & H). apply bind_ok in H. destruct H as ([q2 c2] & H2 & H). injection H as <- <-. eauto.
  - apply bind_ok in H. destruct H as ([q c1] & H1 & H). injection H as <- <-. eauto.
Qed.
Definition same_strs (c c' : config) : Prop := c_strs c' = c_strs c /\ c_domains c' = c_domains c.
Lemma same_strs_refl c : same_strs c c. Proof. now split. Qed.
Lemma same_strs_trans a b c : same_strs a b -> same_strs b c -> same_strs a c.
Proof. intros [A B] [C D]. split; congruence. Qed.
Lemma ie_keeps c e always e' c' : assign_ienum_id c e always = Ok (e', c') -> same_strs c c'.
Proof.
  unfold assign_ienum_id. apply (trav_keeps _ same_strs same_strs_refl same_strs_trans). clear. intros c p q c' H.
  destruct p as [b|v|op v x|op v x|op l r|op v x|op v|v ty ns vl w now id|op h v id s now|h la lo r x y|op v pat]; cbn [assign_ie_leaf] in H;
    try (injection H as <- <-; apply same_strs_refl).
  destruct x as [z| | | ]; try (injection H as <- <-; apply same_strs_refl).
  apply bind_ok in H. destruct H as (d & _ & H).
  destruct (d_bound d) as [lo hi|w lo hi|lo hi|w lo hi| | ]; try (injection H as <- <-; apply same_strs_refl).
  destruct w; try (injection H as <- <-; apply same_strs_refl).
  apply bind_ok in H. destruct H as ([i c1] & H1 & H). injection H as <- <-.
  apply get_id_for_ienum_ok in H1. destruct H1 as [(A & _ & _ & _ & B) _]. now split.
Qed.
Lemma fix_keeps c e e' c' : fix_float c e = Ok (e', c') -> same_strs c c'.
Proof.
  unfold fix_float. apply (trav_keeps _ same_strs same_strs_refl same_strs_trans). clear. intros c p q c' H.
  destruct p as [b|v|op v x|op v x|op l r|op v x|op v|v ty ns vl w now id|op h v id s now|h la lo r x y|op v pat]; cbn [fix_leaf] in H;
    try (injection H as <- <-; apply same_strs_refl);
    apply bind_ok in H; destruct H as (d & _ & H); destruct x; injection H as <- <-; apply same_strs_refl.
Qed.

(** What an accepted insertion did. *)
Lemma accepted_steps t id cs x t' : betree_insert_with_constants t id cs x = Ok (true, t') ->
  exists e2 c3, assign_constants cs (assign_variable_id (bt_cfg t) (build x)) = Some e2
    /\ is_valid (bt_cfg t) (assign_variable_id (bt_cfg t) (build x)) = Ok true
    /\ asked (bt_cfg t) (flat_map asks (expr_leaves e2)) c3 /\ same_strs c3 (bt_cfg t').
Proof.
  unfold betree_insert_with_constants, insert_expr. intros H. apply bind_ok in H. destruct H as (ok & V & H).
  destruct ok; cbn [negb] in H; [|discriminate].
  destruct (assign_constants cs _) as [e2|]; [|discriminate].
  apply bind_ok in H. destruct H as ([e3 c3] & H3 & H). apply bind_ok in H. destruct H as ([e4 c4] & H4 & H).
  apply bind_ok in H. destruct H as ([e5 c5] & H5 & H). apply bind_ok in H. destruct H as ([e6 m] & H6 & H).
  apply bind_ok in H. destruct H as (s & H7 & H). apply bind_ok in H. destruct H as (t1 & H8 & H). injection H as <-.
  unfold insert_sub in H8. apply bind_ok in H8. destruct H8 as (r & H8 & H9). injection H9 as <-. cbn [bt_cfg].
  exists e2, c3. split; [reflexivity|]. split; [exact V|]. split; [eapply asked_trav; eauto|].
  eapply same_strs_trans; [eapply ie_keeps; eauto|eapply fix_keeps; eauto].
Qed.
Lemma refused_steps t id cs x t' : betree_insert_with_constants t id cs x = Ok (false, t') -> t' = t.
Proof.
  unfold betree_insert_with_constants, insert_expr. intros H. apply bind_ok in H. destruct H as (ok & V & H).
  destruct ok; cbn [negb] in H; [|congruence].
  destruct (assign_constants cs _) as [e2|]; [|congruence].
  apply bind_ok in H. destruct H as ([e3 c3] & H3 & H). apply bind_ok in H. destruct H as ([e4 c4] & H4 & H).
  apply bind_ok in H. destruct H as ([e5 c5] & H5 & H). apply bind_ok in H. destruct H as ([e6 m] & H6 & H).
  apply bind_ok in H. destruct H as (s & H7 & H). apply bind_ok in H. destruct H as (t1 & H8 & H). discriminate.
Qed.

Lemma rel_In R x e : rel_src R x e -> forall P : atom -> leaf -> Prop,
  (forall a q, R a q -> P a q) ->
  (forall a, In a (src_atoms x) -> exists q, In q (expr_leaves e) /\ P a q)
  /\ (forall q, In q (expr_leaves e) -> exists a, In a (src_atoms x) /\ P a q).
Proof.
  intros H P RP. induction H; cbn [src_atoms expr_leaves].
  - split; [intros b [<-|[]]|intros b [<-|[]]]; eexists; (split; [left; reflexivity|eauto]).
  - exact IHrel_src.
  - destruct IHrel_src1 as [A B], IHrel_src2 as [C D]. split; intros q K; apply in_app_or in K; destruct K as [K|K];
      firstorder (eauto using in_or_app).
  - destruct IHrel_src1 as [A B], IHrel_src2 as [C D]. split; intros q K; apply in_app_or in K; destruct K as [K|K];
      firstorder (eauto using in_or_app).
  - destruct IHrel_src1 as [A B], IHrel_src2 as [C D]. split; intros q K; apply in_app_or in K; destruct K as [K|K];
      firstorder (eauto using in_or_app).
  - destruct IHrel_src1 as [A B], IHrel_src2 as [C D]. split; intros q K; apply in_app_or in K; destruct K as [K|K];
      firstorder (eauto using in_or_app).
Qed.
Lemma const_shape cs e : forall e', assign_constants cs e = Some e' -> shape (fun p q => assign_const_leaf cs p = Some q) e e'.
Proof.
  induction e as [g p|g a IHa b IHb|g a IHa b IHb|g a IHa]; intros e' H; cbn [assign_constants] in H.
  - destruct (assign_const_leaf cs p) eqn:E; [|discriminate]. injection H as <-. now constructor.
  - destruct (assign_constants cs a); [|discriminate]. destruct (assign_constants cs b); [|discriminate]. injection H as <-. constructor; auto.
  - destruct (assign_constants cs a); [|discriminate]. destruct (assign_constants cs b); [|discriminate]. injection H as <-. constructor; auto.
  - destruct (assign_constants cs a); [|discriminate]. injection H as <-. constructor; auto.
Qed.
Lemma asks_const cs p q : assign_const_leaf cs p = Some q -> asks q = asks p.
Proof.
  destruct p as [b|v|op v x|op v x|op l r|op v x|op v|v ty ns vl w now id|op h v id s now|h la lo r x y|op v pat];
    cbn [assign_const_leaf]; intros H; try (injection H as <-; reflexivity).
  destruct (constant_name ty); [|discriminate]. destruct (get_integer_constant _ _); [|discriminate]. now injection H as <-.
Qed.
Definition var_of (c : config) (p : string * string) : avar * string := (set_var c (mk_var (fst p)), snd p).
Lemma asks_src c cs x e2 : assign_constants cs (assign_variable_id c (build x)) = Some e2 ->
  forall p, In p (flat_map asks (expr_leaves e2)) <-> In p (map (var_of c) (flat_map atom_strs (src_atoms x))).
Proof.
  intros H. apply const_shape in H.
  pose proof (rel_src_shape _ _ _ _ (rel_src_shape _ _ _ _ (rel_src_build x) _ (shape_map (assign_var_leaf c) (build x))) _ H) as R.
  destruct (rel_In _ _ _ R (fun a q => asks q = map (var_of c) (atom_strs a))) as [A B].
  { intros a q (p & (p' & -> & ->) & Q). now rewrite (asks_const _ _ _ Q), asks_atom. }
  intros p. rewrite in_flat_map, in_map_iff. split.
  - intros (q & Q & P). destruct (B q Q) as (a & Ha & E). rewrite E in P. apply in_map_iff in P. destruct P as (y & <- & P).
    exists y. split; [reflexivity|]. apply in_flat_map. eauto.
  - intros (y & <- & P). apply in_flat_map in P. destruct P as (a & Ha & P). destruct (A a Ha) as (q & Q & E).
    exists q. split; [exact Q|]. rewrite E. now apply in_map.
Qed.
Lemma all_leaves_true f e : all_leaves f e = Ok true -> forall q, In q (expr_leaves e) -> f q = Ok true.
Proof.
  induction e as [g p|g a IHa b IHb|g a IHa b IHb|g a IHa]; cbn [all_leaves expr_leaves]; intros H q K; eauto.
  - destruct K as [<-|[]]. exact H.
  - apply bind_ok in H. destruct H as ([] & H1 & H); [|discriminate]. apply in_app_or in K. destruct K; eauto.
  - apply bind_ok in H. destruct H as ([] & H1 & H); [|discriminate]. apply in_app_or in K. destruct K; eauto.
Qed.
Lemma valid_atoms c x : is_valid c (assign_variable_id c (build x)) = Ok true ->
  forall a, In a (src_atoms x) -> vars_leaf (assign_var_leaf c (build_atom a)) = Ok true
    /\ strings_leaf c (assign_var_leaf c (build_atom a)) = Ok true.
Proof.
  intros H a Ha. unfold is_valid in H. apply bind_ok in H. destruct H as ([] & H1 & H2); [|discriminate].
  pose proof (rel_src_shape _ _ _ _ (rel_src_build x) _ (shape_map (assign_var_leaf c) (build x))) as R.
  destruct (rel_In _ _ _ R (fun a q => q = assign_var_leaf c (build_atom a))) as [A B].
  { now intros b q (p & -> & ->). }
  destruct (A a Ha) as (q & Q & ->). split; [exact (all_leaves_true _ _ H1 _ Q)|exact (all_leaves_true _ _ H2 _ Q)].
Qed.

Lemma NoDup_last {A} (l : list A) a : NoDup l -> ~ In a l -> NoDup (l ++ [a]).
Proof. intros H K. apply (NoDup_Add (Add_app a l [])). now rewrite app_nil_r. Qed.

Section Bounded.
  Variables (ds : list domain) (x : string) (v : N) (d : domain) (ty : vtype) (lo hi : Z).
  Hypothesis HX : decl ds x = Some (v, d).
  Hypothesis HL : lower x = x.
  Hypothesis HD : d_bound d = BStr ty lo hi.
  Hypothesis HH : 0 < hi + 1 < SIZE_MAX.

  Lemma dom_v : nthN ds v = Some d /\ d_attr d = x.
  Proof. destruct (decl_from_spec _ _ _ _ _ HX) as (_ & A & B & _). rewrite N.sub_0_r in A. rewrite HL in B. now split. Qed.
  Lemma room_v c : c_domains c = ds -> room c v false = Some (hi + 1).
  Proof.
    intros E. unfold room, get_domain. rewrite E, (proj1 dom_v), HD. cbn [dom_smax]. unfold to_uint. rewrite Z.mod_small; [reflexivity|].
    unfold SIZE_MAX, UINT64_MAX in HH. lia.
  Qed.
  Definition kept (c : config) : Prop := c_domains c = ds /\ (Z.of_nat (List.length (strs c v)) <= hi + 1)%Z.
  Lemma kept_get c u s i c' : kept c -> get_id_for_string c u s false = Ok (i, c') -> kept c'.
  Proof.
    intros [K1 K2] H. apply get_id_for_string_ok in H. destruct H as [(D & _) H]. split; [congruence|].
    destruct H as [(_ & E)|[(_ & _ & _ & E)|(_ & R & _ & E)]]; rewrite E; try assumption.
    destruct (N.eqb_spec (av_var u) v) as [W|]; [|assumption]. rewrite W in *. rewrite (room_v _ K1) in R. rewrite app_length. cbn [List.length].
    destruct (Z.eq_dec (hi + 1) (Z.of_nat (List.length (strs c v)))) as [Q|Q]; [now rewrite Q in R|]. lia.
  Qed.
  Lemma kept_asked c l c' : asked c l c' -> kept c -> kept c'.
  Proof. induction 1; eauto using kept_get. Qed.
  Lemma kept_same c c' : same_strs c c' -> kept c -> kept c'.
  Proof. intros [A B] [C D]. unfold kept, strs in *. rewrite A, B. now split. Qed.
  Theorem bound_kept t log : inserted ds t log -> kept (bt_cfg t).
  Proof.
    induction 1 as [cap mp ms|t log id cs y t' _ IH H|t log id cs y t' _ IH H].
    - split; [reflexivity|]. cbn. lia.
    - destruct (accepted_steps _ _ _ _ _ H) as (e2 & c3 & _ & _ & A & S). eauto using kept_same, kept_asked.
    - apply refused_steps in H. now subst.
  Qed.

  Definition matches (u : avar) : Prop := av_attr u = x <-> av_var u = v.
  (** Every map of the variable is called [x], and no other map is. *)
  Definition called (ms : list strmap) : Prop := Forall (fun m => sm_attr m = x <-> sm_var m = v) ms.
  Lemma called_find ms : called ms -> strmap_for_attr ms x = find_strmap ms v.
  Proof.
    induction 1 as [|m ms H HF IH]; [reflexivity|]. cbn [strmap_for_attr find_strmap].
    destruct (String.eqb_spec x (sm_attr m)) as [E|E]; destruct (N.eqb_spec (sm_var m) v) as [F|F]; try assumption; try reflexivity.
    - exfalso. apply F. now apply H.
    - exfalso. apply E. symmetry. now apply H.
  Qed.
  Lemma called_push ms u s : called ms -> called (push_str ms u s).
  Proof.
    induction 1 as [|m ms H HF IH]; cbn [push_str]; [constructor|]. destruct (sm_var m =? u)%N; constructor; assumption.
  Qed.
  Lemma called_get c u s i c' : matches u -> called (c_strs c) -> get_id_for_string c u s false = Ok (i, c') -> called (c_strs c').
  Proof.
    intros M K H. unfold get_id_for_string in H. destruct (find_strmap (c_strs c) (av_var u)) as [m|].
    - destruct (str_index _ _); [now injection H as _ <-|]. apply bind_ok in H. destruct H as (d' & _ & H).
      apply bind_ok in H. destruct H as (full & _ & H). destruct full; injection H as _ <-; [assumption|]. now apply called_push.
    - assert (called (c_strs c ++ [mkSM (av_attr u) (av_var u) []])) as K'.
      { apply Forall_app. split; [exact K|]. constructor; [exact M|constructor]. }
      cbv zeta in H. apply bind_ok in H. destruct H as (d' & _ & H).
      apply bind_ok in H. destruct H as (full & _ & H). destruct full; injection H as _ <-; [assumption|]. now apply called_push.
  Qed.

  (** The tables against the strings used so far. *)
  Record tracks (c : config) (L : list string) : Prop := {
    tr_kept : kept c;
    tr_nodup : NoDup (strs c v);
    tr_sub : incl (strs c v) L;
    tr_all : incl L (strs c v) \/ Z.of_nat (List.length (strs c v)) = hi + 1;
    tr_called : called (c_strs c) }.
  Definition own (u : avar * string) : list string := if (av_var (fst u) =? v)%N then [snd u] else [].
  Lemma tracks_get c u s i c' L : matches u -> tracks c L -> get_id_for_string c u s false = Ok (i, c') -> tracks c' (L ++ own (u, s)).
  Proof.
    intros M [T1 T2 T3 T4 T5] H. pose proof (kept_get _ _ _ _ _ T1 H) as K. pose proof (called_get _ _ _ _ _ M T5 H) as C.
    apply get_id_for_string_ok in H. destruct H as [_ H]. unfold own. cbn [fst snd].
    destruct H as [(I & E)|[(I & R & _ & E)|(I & R & _ & E)]].
    - constructor; auto; rewrite !E; auto.
      + intros z Z. apply in_or_app. left. auto.
      + destruct T4 as [T4|T4]; [left|now right]. intros z Z. apply in_app_or in Z. destruct Z as [Z|Z]; [auto|].
        destruct (N.eqb_spec (av_var u) v) as [Q|Q]; [|easy]. destruct Z as [<-|[]]. rewrite Q in I.
        pose proof (str_index_spec (strs c v) s) as S. rewrite I in S. destruct S as [_ S]. apply nth_error_In in S. exact S.
    - constructor; auto; rewrite !E; auto.
      + intros z Z. apply in_or_app. left. auto.
      + destruct (N.eqb_spec (av_var u) v) as [Q|Q]; [|rewrite app_nil_r; exact T4].
        right. rewrite Q in R. rewrite (room_v _ (proj1 T1)) in R. congruence.
    - constructor; auto; rewrite !E; destruct (N.eqb_spec (av_var u) v) as [Q|Q]; auto.
      + rewrite Q in *. apply NoDup_last; assumption.
      + rewrite Q. intros z Z. apply in_app_or in Z. apply in_or_app. destruct Z; auto.
      + rewrite app_nil_r. assumption.
      + rewrite Q in *. rewrite (room_v _ (proj1 T1)) in R. destruct T4 as [T4|T4]; [left|congruence].
        intros z Z. apply in_app_or in Z. apply in_or_app. destruct Z; auto.
      + rewrite app_nil_r. assumption.
  Qed.
  Lemma tracks_asked c l c' : asked c l c' -> Forall (fun u => matches (fst u)) l -> forall L, tracks c L -> tracks c' (L ++ flat_map own l).
  Proof.
    induction 1 as [c|c u s i c1 l c2 H A IH]; intros F L T; cbn [flat_map]; [now rewrite app_nil_r|].
    inversion F; subst. rewrite app_assoc. apply IH; [assumption|]. eapply tracks_get; eauto.
  Qed.
  Lemma tracks_same c c' L : same_strs c c' -> tracks c L -> tracks c' L.
  Proof.
    intros S [T1 T2 T3 T4 T5]. pose proof (kept_same _ _ S T1). destruct S as [S1 S2]. unfold strs in *. constructor; unfold strs; rewrite ?S1; auto.
  Qed.
  Lemma tracks_equiv c L L' : (forall s, In s L <-> In s L') -> tracks c L -> tracks c L'.
  Proof.
    intros E [T1 T2 T3 T4 T5]. constructor; auto.
    - intros s S. apply E. auto.
    - destruct T4 as [T4|T4]; [left|now right]. intros s S. apply T4, E, S.
  Qed.

  Lemma matches_var c a : c_domains c = ds -> (lower a = x -> a = x) -> var_valid (set_var c (mk_var a)) = true ->
    matches (set_var c (mk_var a)) /\ (av_var (set_var c (mk_var a)) = v <-> lower a = x).
  Proof.
    intros E N V. unfold matches, set_var, mk_var, try_get_id_for_attr. cbn [av_attr av_var]. rewrite E.
    assert (find_attr ds (lower a) 0 = v <-> lower a = x) as K.
    { split.
      - intros F. unfold var_valid, set_var, mk_var, try_get_id_for_attr in V. cbn [av_attr av_var] in V. rewrite E in V.
        destruct (find_attr_decl ds (lower a) 0) as (d' & D'); [intros Q; rewrite Q in V; discriminate|].
        destruct (decl_from_spec _ _ _ _ _ D') as (_ & D1 & D2 & _). rewrite N.sub_0_r, F in D1.
        destruct dom_v as [D3 D4]. rewrite D1 in D3. injection D3 as ->. congruence.
      - intros F. rewrite F. destruct (decl_from_spec _ _ _ _ _ HX) as (_ & _ & _ & D). now rewrite HL in D. }
    split; [|exact K]. rewrite K. split; [|exact N]. intros ->. exact HL.
  Qed.
  Lemma atom_valid c a : vars_leaf (assign_var_leaf c (build_atom a)) = Ok true ->
    forall p, In p (atom_strs a) -> var_valid (set_var c (mk_var (fst p))) = true.
  Proof.
    destruct a as [y|b|op y k|op y k|op y k|op k y|op y k|op y|fty ns vl w|op y id s|la lo' r|op y p]; cbn [atom_strs]; intros H q Q;
      try destruct k; cbn [In] in Q; try contradiction; cbn [build_atom assign_var_leaf vars_leaf mk_freq] in H.
    all: try (destruct Q as [<-|[]]; cbn [fst]).
    all: try (apply in_map_iff in Q; destruct Q as (z & <- & Q); cbn [fst]).
    all: try congruence.
    injection H as H. apply andb_prop in H. exact (proj1 H).
  Qed.
  Lemma own_src c y : c_domains c = ds -> named_as x y -> is_valid c (assign_variable_id c (build y)) = Ok true ->
    Forall (fun u => matches (fst u)) (map (var_of c) (flat_map atom_strs (src_atoms y)))
    /\ flat_map own (map (var_of c) (flat_map atom_strs (src_atoms y))) = src_strings x y.
  Proof.
    intros E N V. pose proof (valid_atoms _ _ V) as VA.
    assert (forall p, In p (flat_map atom_strs (src_atoms y)) -> var_valid (set_var c (mk_var (fst p))) = true) as VV.
    { intros p P. apply in_flat_map in P. destruct P as (a & A & P). destruct (VA a A) as [V1 _]. eapply atom_valid; eauto. }
    unfold src_strings, strings_for. unfold named_as in N. revert N VV. clear VA V. generalize (flat_map atom_strs (src_atoms y)) as l.
    induction l as [|[a s] l IH]; intros N VV; cbn [map flat_map filter]; [split; [constructor|reflexivity]|].
    destruct IH as [I1 I2]; [intros; eapply N; [right|]; eassumption|intros; apply VV; now right|].
    destruct (matches_var c a E) as [M1 M2]; [apply (N a s); now left|exact (VV (a, s) (or_introl eq_refl))|].
    split; [constructor; [exact M1|exact I1]|]. rewrite I2. unfold own at 1, var_of. cbn [fst snd].
    destruct (N.eqb_spec (av_var (set_var c (mk_var a))) v) as [Q|Q]; destruct (String.eqb_spec (lower a) x) as [R|R]; try reflexivity; exfalso; tauto.
  Qed.
  Lemma asked_equiv_own l l' : (forall p : avar * string, In p l <-> In p l') ->
    (Forall (fun u => matches (fst u)) l <-> Forall (fun u => matches (fst u)) l') /\ (forall s, In s (flat_map own l) <-> In s (flat_map own l')).
  Proof.
    intros E. split.
    - rewrite !Forall_forall. split; intros H p P; apply H, E, P.
    - intros s. rewrite !in_flat_map. split; intros (p & P & Q); exists p; (split; [apply E|]; assumption).
  Qed.
  Theorem tracks_insert t id cs y t' L : tracks (bt_cfg t) L -> named_as x y ->
    betree_insert_with_constants t id cs y = Ok (true, t') -> tracks (bt_cfg t') (L ++ src_strings x y).
  Proof.
    intros T N H. destruct (accepted_steps _ _ _ _ _ H) as (e2 & c3 & A1 & A2 & A3 & A4).
    eapply tracks_same; [exact A4|]. destruct (own_src _ _ (proj1 (tr_kept _ _ T)) N A2) as [O1 O2].
    destruct (asked_equiv_own _ _ (asks_src _ _ _ _ A1)) as [E1 E2].
    eapply tracks_equiv; [|eapply tracks_asked; [exact A3|apply E1; exact O1|exact T]].
    intros s. rewrite !in_app_iff, E2, O2. tauto.
  Qed.
  Definition all_named (log : list entry) : Prop := forall e, In e log -> named_as x (e_src e).
  Lemma tracks_log t log : inserted ds t log -> all_named log -> tracks (bt_cfg t) (log_strings x log).
  Proof.
    induction 1 as [cap mp ms|t log id cs y t' _ IH H|t log id cs y t' _ IH H]; intros N.
    - constructor.
      + split; [reflexivity|]. cbn. lia.
      + constructor.
      + intros s [].
      + left. intros s [].
      + constructor.
    - unfold log_strings. rewrite flat_map_app. cbn [flat_map e_src]. rewrite app_nil_r.
      eapply tracks_insert; eauto.
      + apply IH. intros e E. apply N. apply in_or_app. now left.
      + apply (N (mkE id cs y)). apply in_or_app. right. now left.
    - apply refused_steps in H. subst. auto.
  Qed.

  (** What the checks of one predicate guarantee. *)
  Lemma string_bound c : c_domains c = ds -> attr_string_bound (c_domains c) x = Ok (hi + 1).
  Proof.
    intros ->. assert (forall l i, decl_from l x i = Some (v, d) -> attr_string_bound l x = Ok (hi + 1)) as G.
    { induction l as [|d0 l IH]; intros i K; [discriminate|]. cbn [decl_from attr_string_bound] in *.
      rewrite String.eqb_sym. destruct (String.eqb (d_attr d0) x).
      - injection K as _ ->. rewrite HD. cbn [dom_smax bind]. destruct (Z.eqb_spec hi SIZE_MAX); [lia|reflexivity].
      - eapply IH; eauto. }
    pose proof HX as K. unfold decl in K. rewrite HL in K. eapply G; eauto.
  Qed.
  Lemma table_of c L : tracks c L -> match strmap_for_attr (c_strs c) x with Some m => sm_vals m = strs c v | None => strs c v = [] end.
  Proof. intros T. rewrite (called_find _ (tr_called _ _ T)). unfold strs. destruct (find_strmap _ v); reflexivity. Qed.
  Notation size l := (Z.of_nat (List.length (nodup string_dec l))).
  Lemma size_le l l' : incl l l' -> (size l <= Z.of_nat (List.length l'))%Z.
  Proof.
    intros I. assert (List.length (nodup string_dec l) <= List.length l')%nat; [|lia]. apply NoDup_incl_length; [apply NoDup_nodup|].
    intros z Z. apply I. now apply nodup_In in Z.
  Qed.
  Lemma str_ok c L s : tracks c L -> str_valid c x s = Ok true -> In s (strs c v) \/ size (strs c v ++ [s]) <= hi + 1.
  Proof.
    intros T H. pose proof (table_of _ _ T) as M. unfold str_valid in H. rewrite (string_bound _ (proj1 (tr_kept _ _ T))) in H. cbn [bind] in H.
    destruct (strmap_for_attr (c_strs c) x) as [m|].
    - rewrite M in H. pose proof (str_index_spec (strs c v) s) as S. destruct (str_index (strs c v) s).
      + left. destruct S as [_ S]. now apply nth_error_In in S.
      + right. injection H as H. destruct (tr_kept _ _ T) as [_ K]. unfold to_uint in H. rewrite Z.mod_small in H.
        * etransitivity; [apply size_le; apply incl_refl|]. rewrite app_length. cbn [List.length]. lia.
        * unfold SIZE_MAX, UINT64_MAX in HH. lia.
    - right. rewrite M. injection H as H. etransitivity; [apply size_le; apply incl_refl|]. cbn [List.length app]. lia.
  Qed.
  Lemma filter_split {A} (f : A -> bool) l : (List.length l - List.length (filter f l) = List.length (filter (fun z => negb (f z)) l))%nat.
  Proof.
    induction l as [|a l IH]; [reflexivity|]. cbn [filter List.length]. assert (List.length (filter f l) <= List.length l)%nat by (clear; induction l as [|z l IH]; cbn [filter]; [lia|]; destruct (f z); cbn [List.length]; lia). destruct (f a); cbn [negb List.length]; lia.
  Qed.
  Lemma strs_ok c L l : tracks c L -> strs_valid c x l = Ok true -> size (strs c v ++ map sv_string l) <= hi + 1.
  Proof.
    intros T H. pose proof (table_of _ _ T) as M. unfold strs_valid in H. rewrite (string_bound _ (proj1 (tr_kept _ _ T))) in H. cbn [bind] in H.
    destruct (Z.eqb_spec (hi + 1) SIZE_MAX) as [Q|_]; [lia|].
    destruct (strmap_for_attr (c_strs c) x) as [m|].
    - rewrite M in H. injection H as H. destruct (tr_kept _ _ T) as [_ K]. unfold to_uint in H. rewrite Z.mod_small in H by (unfold SIZE_MAX, UINT64_MAX in HH; lia).
      rewrite filter_split in H.
      etransitivity; [apply (size_le _ (strs c v ++ map sv_string (filter (fun z => negb match str_index (strs c v) (sv_string z) with Some _ => true | None => false end) l)))|].
      + intros s S. apply in_app_or in S. apply in_or_app. destruct S as [S|S]; [now left|]. apply in_map_iff in S. destruct S as (z & <- & S).
        pose proof (str_index_spec (strs c v) (sv_string z)) as Q. destruct (str_index (strs c v) (sv_string z)) eqn:E.
        * left. destruct Q as [_ Q]. now apply nth_error_In in Q.
        * right. apply in_map. apply filter_In. split; [exact S|]. now rewrite E.
      + rewrite app_length, map_length. lia.
    - rewrite M. injection H as H. etransitivity; [apply size_le; apply incl_refl|]. cbn [app]. rewrite map_length. lia.
  Qed.
  Hypothesis HF : x <> "frequency_caps"%string.
  Lemma atom_room c L a : tracks c L -> (forall b s, In (b, s) (atom_strs a) -> lower b = x -> b = x) ->
    strings_leaf c (assign_var_leaf c (build_atom a)) = Ok true ->
    incl (strings_for x (atom_strs a)) (strs c v) \/ size (strs c v ++ strings_for x (atom_strs a)) <= hi + 1.
  Proof.
    intros T N H.
    assert (strings_for x (atom_strs a) = [] -> incl (strings_for x (atom_strs a)) (strs c v) \/ size (strs c v ++ strings_for x (atom_strs a)) <= hi + 1) as E.
    { intros ->. left. intros z []. }
    assert (forall y l, strings_for x (map (fun s => (y, s)) l) = if String.eqb (lower y) x then l else []) as SM.
    { intros y l. unfold strings_for. induction l as [|s l IH]; [now destruct (String.eqb _ _)|]. cbn [map filter fst].
      destruct (String.eqb (lower y) x); cbn [map snd]; rewrite IH; reflexivity. }
    assert (forall y s, strings_for x [(y, s)] = if String.eqb (lower y) x then [s] else []) as S1 by (intros y s; exact (SM y [s])).
    destruct a as [y|b|op y k|op y k|op y k|op k y|op y k|op y|fty ns vl w|op y id s|la lo' r|op y p]; try (apply E; reflexivity);
      try first [destruct k as [k|k|k] | destruct k as [k|k]]; try (apply E; reflexivity);
      cbn [build_atom assign_var_leaf strings_leaf atom_strs set_var mk_var av_attr] in H, N, E |- *; rewrite ?S1, ?SM in *.
    - destruct (String.eqb_spec (lower y) x) as [Q|Q]; [|now apply E]. rewrite (N y k (or_introl eq_refl) Q) in H.
      destruct (str_ok _ _ _ T H) as [I|I]; [left; now intros z [<-|[]]|now right].
    - destruct (String.eqb_spec (lower y) x) as [Q|Q]; [|now apply E]. destruct k as [|s0 k]; [now apply E|].
      rewrite (N y s0 (or_introl eq_refl) Q) in H. apply (strs_ok _ _ _ T) in H. rewrite build_strs_string in H. now right.
    - destruct (String.eqb_spec (lower y) x) as [Q|Q]; [|now apply E]. rewrite (N y k (or_introl eq_refl) Q) in H.
      destruct (str_ok _ _ _ T H) as [I|I]; [left; now intros z [<-|[]]|now right].
    - destruct (String.eqb_spec (lower y) x) as [Q|Q]; [|now apply E]. destruct k as [|s0 k]; [now apply E|].
      rewrite (N y s0 (or_introl eq_refl) Q) in H. apply (strs_ok _ _ _ T) in H. rewrite build_strs_string in H. now right.
    - destruct (String.eqb_spec (lower "frequency_caps") x) as [Q|Q]; [|now apply E]. exfalso. apply HF. rewrite <- Q. reflexivity.
  Qed.

  Theorem predicate_refused t log id cs y t' a s b : inserted ds t log -> all_named log -> named_as x y ->
    In a (src_atoms y) -> In s (strings_for x (atom_strs a)) -> ~ In s (log_strings x log) ->
    hi + 1 < size (log_strings x log ++ strings_for x (atom_strs a)) ->
    betree_insert_with_constants t id cs y = Ok (b, t') -> b = false /\ t' = t.
  Proof.
    intros I N N' A S1 S2 Z H. destruct b; [exfalso|split; [reflexivity|eapply refused_steps; eauto]].
    pose proof (tracks_log _ _ I N) as T. destruct (accepted_steps _ _ _ _ _ H) as (e2 & c3 & _ & V & _ & _).
    destruct (valid_atoms _ _ V a A) as [_ V2]. destruct (atom_room _ _ a T) as [R|R]; [|exact V2| |].
    - intros b s' B. apply (N' b s'). apply in_flat_map. eauto.
    - apply S2. apply (tr_sub _ _ T). apply R. exact S1.
    - assert (~ In s (strs (bt_cfg t) v)) as S3 by (intros Q; apply S2; now apply (tr_sub _ _ T)).
      destruct (tr_all _ _ T) as [Q|Q].
      + enough (size (log_strings x log ++ strings_for x (atom_strs a)) <= size (strs (bt_cfg t) v ++ strings_for x (atom_strs a))) by lia.
        apply size_le. intros z Z'. apply nodup_In. apply in_app_or in Z'. apply in_or_app. destruct Z'; auto.
      + assert (List.length (s :: strs (bt_cfg t) v) <= List.length (nodup string_dec (strs (bt_cfg t) v ++ strings_for x (atom_strs a))))%nat as W.
        { apply NoDup_incl_length; [constructor; [exact S3|exact (tr_nodup _ _ T)]|].
          intros z [<-|Z']; apply nodup_In, in_or_app; auto. }
        cbn [List.length] in W. lia.
  Qed.

  Definition all_once (log : list entry) : Prop := forall e, In e log -> one_use x (e_src e).
  Lemma one_atom y s : one_use x y -> In s (src_strings x y) -> exists a, In a (src_atoms y) /\ In s (strings_for x (atom_strs a))
    /\ forall z, In z (src_strings x y) <-> In z (strings_for x (atom_strs a)).
  Proof.
    assert (forall z, In z (src_strings x y) <-> exists a, In a (src_atoms y) /\ In z (strings_for x (atom_strs a))) as E.
    { intros z. unfold src_strings, strings_for. rewrite in_map_iff. split.
      - intros (p & <- & P). apply filter_In in P. destruct P as [P1 P2]. apply in_flat_map in P1. destruct P1 as (a & A & P1).
        exists a. split; [exact A|]. apply in_map. apply filter_In. now split.
      - intros (a & A & P). apply in_map_iff in P. destruct P as (p & <- & P). apply filter_In in P. destruct P as [P1 P2].
        exists p. split; [reflexivity|]. apply filter_In. split; [|exact P2]. apply in_flat_map. eauto. }
    intros O S. apply E in S. destruct S as (a & A & S). exists a. split; [exact A|]. split; [exact S|].
    intros z. rewrite E. split; [|eauto]. intros (a' & A' & Z). rewrite (O a a'); auto.
    - intros Q. rewrite Q in S. destruct S.
    - intros Q. rewrite Q in Z. destruct Z.
  Qed.
  Lemma size_equiv l l' : (forall z, In z l <-> In z l') -> size l = size l'.
  Proof.
    intros E. apply Z.le_antisymm; apply size_le; intros z Z; apply nodup_In; apply E; exact Z.
  Qed.
  Lemma size_log t log : inserted ds t log -> all_named log -> all_once log -> size (log_strings x log) <= hi + 1.
  Proof.
    induction 1 as [cap mp ms|t log id cs y t' I IH H|t log id cs y t' I IH H]; intros N O.
    - cbn. lia.
    - assert (all_named log) as N1 by (intros e E; apply N, in_or_app; now left).
      assert (all_once log) as O1 by (intros e E; apply O, in_or_app; now left).
      assert (named_as x y) as N2 by (apply (N (mkE id cs y)), in_or_app; right; now left).
      assert (one_use x y) as O2 by (apply (O (mkE id cs y)), in_or_app; right; now left).
      specialize (IH N1 O1). unfold log_strings. rewrite flat_map_app. cbn [flat_map e_src]. rewrite app_nil_r. fold (log_strings x log).
      destruct (Forall_dec (fun s => In s (log_strings x log)) (fun s => in_dec string_dec s _) (src_strings x y)) as [F|F].
      + rewrite Forall_forall in F. rewrite (size_equiv _ (log_strings x log)); [exact IH|]. intros z. rewrite in_app_iff. split; [|auto]. intros [Q|Q]; auto.
      + apply Exists_Forall_neg in F; [|intros s; destruct (in_dec string_dec s (log_strings x log)); tauto].
        apply Exists_exists in F. destruct F as (s & S1 & S2). destruct (one_atom _ _ O2 S1) as (a & A & S3 & E).
        destruct (Z_le_gt_dec (size (log_strings x log ++ src_strings x y)) (hi + 1)) as [Q|Q]; [exact Q|exfalso].
        destruct (predicate_refused t log id cs y t' a s true I N1 N2 A S3 S2) as [W _]; [|exact H|discriminate].
        rewrite (size_equiv _ (log_strings x log ++ src_strings x y)); [lia|]. intros z. rewrite !in_app_iff, E. tauto.
    - auto.
  Qed.
  Theorem expression_refused t log id cs y t' b : inserted ds t log -> all_named log -> all_once log -> named_as x y -> one_use x y ->
    hi + 1 < size (log_strings x log ++ src_strings x y) ->
    betree_insert_with_constants t id cs y = Ok (b, t') -> b = false /\ t' = t.
  Proof.
    intros I N O N2 O2 Z H.
    destruct b; [exfalso|split; [reflexivity|eapply refused_steps; eauto]].
    pose proof (size_log _ _ (i_yes ds t log id cs y t' I H)) as W. unfold log_strings in W. rewrite flat_map_app in W. cbn [flat_map e_src] in W.
    rewrite app_nil_r in W. fold (log_strings x log) in W. enough (size (log_strings x log ++ src_strings x y) <= hi + 1) by lia.
    apply W; intros e E; apply in_app_or in E; destruct E as [E|[<-|[]]]; auto.
  Qed.
End Bounded.
