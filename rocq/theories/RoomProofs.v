(** Exactly which strings betree_insert refuses (ast.c 2674-2806). *)
From Coq Require Import ZArith NArith String Bool List Lia.
From Coq Require Import ZifyBool ZifyNat ZifyN.
From Verif Require Import Base Float Value Special Ast Match Config Assign Bound Tree PredMap Source Api Spec TreeSpec Hist Bounded Accept.
From Verif Require Import BaseProofs InternProofs ExtProofs ResProofs PassProofs RewriteProofs BoundedProofs TreeProofs HistProofs PassTotal AcceptProofs.
Import ListNotations.
Local Open Scope Z_scope.

Lemma under_none c y : strmap_for_attr (c_strs c) y = None -> known_under c y = [].
Proof.
  unfold known_under. induction (c_strs c) as [|m ms IH]; cbn [strmap_for_attr filter flat_map]; [reflexivity|].
  rewrite (String.eqb_sym (sm_attr m)). destruct (String.eqb y (sm_attr m)); [discriminate|exact IH].
Qed.
Lemma under_some c y v d m : named c -> decl (c_domains c) y = Some (v, d) -> strmap_for_attr (c_strs c) y = Some m ->
  known_under c y = sm_vals m.
Proof.
  intros [K N] D. unfold known_under. revert K N. induction (c_strs c) as [|m0 ms IH]; cbn [strmap_for_attr filter flat_map map]; [discriminate|].
  intros K N H. inversion_clear K as [|? ? K0 K']. inversion_clear N as [|? ? N0 N'].
  rewrite (String.eqb_sym (sm_attr m0)). destruct (String.eqb_spec y (sm_attr m0)) as [E|E]; [|auto].
  injection H as ->. cbn [flat_map].
  assert (filter (fun m1 => String.eqb (sm_attr m1) y) ms = []) as ->; [|cbn [flat_map]; apply app_nil_r].
  destruct (filter _ ms) as [|m1 l] eqn:F; [reflexivity|exfalso]. assert (In m1 (filter (fun m1 => String.eqb (sm_attr m1) y) ms)) as I by (rewrite F; now left).
  apply filter_In in I. destruct I as [I Q]. apply String.eqb_eq in Q. rewrite Forall_forall in K'. destruct (K' _ I) as (d1 & D1). cbn [av_attr av_var] in D1.
  destruct K0 as (d0 & D0). cbn [av_attr av_var] in D0. rewrite <- E, D in D0. rewrite Q, D in D1.
  apply N0. apply in_map_iff. exists m1. split; [congruence|exact I].
Qed.
Lemma index_known l s : (match str_index l s with Some _ => true | None => false end) = existsb (String.eqb s) l.
Proof.
  pose proof (str_index_spec l s) as S. destruct (str_index l s).
  - destruct S as [_ S]. symmetry. apply existsb_exists. exists s. split; [eapply nth_error_In; eauto|apply String.eqb_refl].
  - symmetry. apply not_true_is_false. intros E. apply existsb_exists in E. destruct E as (s' & I & E). apply String.eqb_eq in E. now subst.
Qed.

(** The bound that is compared, and the condition. *)
Definition slots (d : domain) (y : string) (hi : Z) : Z := if String.eqb (d_attr d) y then Z.min (hi + 1) SIZE_MAX else SIZE_MAX.
Definition room_b (b k n : Z) : bool := (b =? SIZE_MAX) || (k + n <=? b) || ((b <? k) && (k + n <=? b + 2 ^ 64)).
Lemma bound_exact c a v d ty lo hi : lower_names (c_domains c) -> decl (c_domains c) a = Some (v, d) -> d_bound d = BStr ty lo hi ->
  0 <= hi <= SIZE_MAX -> attr_string_bound (c_domains c) a = Ok (slots d a hi).
Proof.
  intros LN D B HH. unfold decl in D. revert D. generalize 0%N as i. unfold lower_names in LN. unfold slots.
  induction LN as [|d0 ds L LN IH]; intros i D; cbn [decl_from attr_string_bound] in *; [discriminate|].
  destruct (String.eqb_spec (d_attr d0) (lower a)) as [E|E].
  - injection D as -> ->. destruct (String.eqb_spec a (d_attr d)) as [E'|E'].
    + rewrite B. cbn [dom_smax bind]. rewrite <- E', String.eqb_refl. f_equal. destruct (Z.eqb_spec hi SIZE_MAX); lia.
    + destruct (String.eqb_spec (d_attr d) a) as [E2|_]; [now elim E'|]. clear - LN E E' L.
      assert (lower a <> a) as NA by congruence. induction LN as [|d1 ds L1 LN IH]; cbn [attr_string_bound]; [reflexivity|].
      destruct (String.eqb_spec a (d_attr d1)) as [F|F]; [congruence|exact IH].
  - destruct (String.eqb_spec a (d_attr d0)) as [E'|E'].
    + exfalso. apply E. rewrite E', L. reflexivity.
    + eapply IH; eauto.
Qed.

Section Room.
  Variables (c : config) (y : string) (v : N) (d : domain) (ty : vtype) (lo hi : Z).
  Hypothesis N : named c.
  Hypothesis LN : lower_names (c_domains c).
  Hypothesis D : decl (c_domains c) y = Some (v, d).
  Hypothesis B : d_bound d = BStr ty lo hi.
  Hypothesis HH : 0 <= hi <= SIZE_MAX.
  Hypothesis T : Z.of_nat (List.length (strs c v)) < SIZE_MAX.
  Notation k := (Z.of_nat (List.length (known_under c y))).
  Definition news (l : list string) : list string := filter (fun s => negb (existsb (String.eqb s) (known_under c y))) l.

  Lemma under_small : k < SIZE_MAX.
  Proof.
    destruct (strmap_for_attr (c_strs c) y) as [m|] eqn:M.
    - rewrite (under_some _ _ _ _ _ N D M), (table_named _ _ _ _ _ N D M). exact T.
    - rewrite (under_none _ _ M). reflexivity.
  Qed.
  Lemma slots_range : 1 <= slots d y hi <= SIZE_MAX.
  Proof. unfold slots. unfold SIZE_MAX, UINT64_MAX in *. destruct (String.eqb _ _); lia. Qed.
  Lemma wrap b : 1 <= b <= SIZE_MAX -> to_uint 64 (b - k) = if b <? k then b - k + 2 ^ 64 else b - k.
  Proof.
    intros HB. pose proof under_small as US. unfold SIZE_MAX, UINT64_MAX in *. destruct (Z.ltb_spec b k).
    - unfold to_uint. symmetry. apply (Z.mod_unique _ _ (-1)); lia.
    - apply to_uint_small. lia.
  Qed.
  Lemma str_exact s : str_valid c y s = Ok (room_b (slots d y hi) k (Z.of_nat (List.length (news [s])))).
  Proof.
    unfold str_valid. rewrite (bound_exact _ _ _ _ _ _ _ LN D B HH). cbn [bind]. pose proof slots_range as SR. pose proof under_small as US.
    unfold news. cbn [filter]. unfold room_b.
    destruct (strmap_for_attr _ _) as [m|] eqn:M.
    - pose proof (under_some _ _ _ _ _ N D M) as U. pose proof (index_known (sm_vals m) s) as IK. rewrite U in *.
      destruct (str_index (sm_vals m) s); rewrite <- IK; cbn [negb List.length].
      + f_equal. unfold SIZE_MAX, UINT64_MAX in *. lia.
      + f_equal. rewrite <- U in *. rewrite (wrap _ SR). unfold SIZE_MAX, UINT64_MAX in *. destruct (Z.ltb_spec (slots d y hi) k); lia.
    - rewrite (under_none _ _ M). cbn [existsb negb List.length]. f_equal. unfold SIZE_MAX, UINT64_MAX in *. lia.
  Qed.
  Lemma strs_exact l : strs_valid c y (build_strs l) = Ok (room_b (slots d y hi) k (Z.of_nat (List.length (news l))) || match l with [] => true | _ => false end).
  Proof.
    unfold strs_valid. rewrite (bound_exact _ _ _ _ _ _ _ LN D B HH). cbn [bind]. pose proof slots_range as SR. pose proof under_small as US. unfold room_b.
    destruct (Z.eqb_spec (slots d y hi) SIZE_MAX) as [|NS]; [reflexivity|].
    assert (forall p : string -> bool, List.length (filter (fun s => p (sv_string s)) (build_strs l)) + List.length (filter (fun s => negb (p s)) l) = List.length l)%nat as CNT.
    { intros p. unfold build_strs. induction l as [|s l IH]; [reflexivity|]. cbn [map filter sv_string List.length mk_str]. destruct (p s); cbn [List.length negb filter map] in *; lia. }
    assert (List.length (build_strs l) = List.length l) as LB by apply map_length.
    destruct (strmap_for_attr _ _) as [m|] eqn:M.
    - pose proof (under_some _ _ _ _ _ N D M) as U.
      assert (List.length (build_strs l) - List.length (filter (fun s => match str_index (sm_vals m) (sv_string s) with Some _ => true | None => false end) (build_strs l))
        = List.length (news l))%nat as ->.
      { specialize (CNT (fun s => existsb (String.eqb s) (known_under c y))). unfold news. cbv beta in CNT. rewrite LB.
        assert (filter (fun s => match str_index (sm_vals m) (sv_string s) with Some _ => true | None => false end) (build_strs l)
          = filter (fun s => existsb (String.eqb (sv_string s)) (known_under c y)) (build_strs l)) as ->; [|lia].
        apply filter_ext. intros s. rewrite U. apply index_known. }
      f_equal. rewrite <- U. rewrite (wrap _ SR).
      assert (l = [] -> List.length (news l) = 0%nat) as L0 by (now intros ->).
      cbn [orb]. destruct l as [|s l]; [rewrite (L0 eq_refl), orb_true_r|rewrite orb_false_r]; unfold SIZE_MAX, UINT64_MAX in *;
        destruct (Z.ltb_spec (slots d y hi) k); lia.
    - assert (news l = l) as NL.
      { unfold news. rewrite (under_none _ _ M). cbn [existsb negb]. clear. induction l as [|s l IH]; [reflexivity|]. cbn [filter]. now rewrite IH. }
      rewrite NL, (under_none _ _ M), LB. f_equal. cbn [List.length orb]. unfold SIZE_MAX, UINT64_MAX in *.
      destruct l as [|s l]; [rewrite orb_true_r|rewrite orb_false_r]; cbn [List.length]; lia.
  Qed.
  Lemma room_iff n :  room_b (slots d y hi) k n = true <->
    (d_attr d = y -> hi + 1 < SIZE_MAX -> k + n <= hi + 1 \/ hi + 1 < k /\ k + n <= hi + 1 + 2 ^ 64).
  Proof.
    unfold room_b, slots. destruct (String.eqb_spec (d_attr d) y) as [E|E].
    - destruct (Z.ltb_spec (hi + 1) SIZE_MAX) as [L|L].
      + rewrite Z.min_l by lia. split; [intros H _ _|intros H; specialize (H E L)]; lia.
      + rewrite Z.min_r by lia. rewrite Z.eqb_refl. split; [intros _ _ L'; lia|reflexivity].
    - rewrite Z.eqb_refl. split; [intros _ E'; now elim E|reflexivity].
  Qed.
End Room.

Lemma atom_exact c cs a : named c -> lower_names (c_domains c) -> (forall d, In d (c_domains c) -> dom_fine (d_bound d)) ->
  (forall v, Z.of_nat (List.length (strs c v)) < SIZE_MAX) -> atom_ok (c_domains c) cs a ->
  exists b, strings_leaf c (assign_var_leaf c (build_atom a)) = Ok b /\ (b = true <-> pred_room c a).
Proof.
  intros N LN DF TB A.
  assert (forall y t, has_type (c_domains c) y t -> t = TStr \/ t = TStrList -> exists v d ty lo hi,
     decl (c_domains c) y = Some (v, d) /\ d_bound d = BStr ty lo hi /\ 0 <= hi <= SIZE_MAX) as HT.
  { intros y t (v & d & D & T) K. destruct (btype_strs (d_bound d)) as (ty & lo & hi & B); [rewrite T; tauto|].
    exists v, d, ty, lo, hi. split; [exact D|]. split; [exact B|].
    destruct (decl_from_spec _ _ _ _ _ D) as (_ & Q & _). apply nthN_In in Q. specialize (DF _ Q). rewrite B in DF. apply DF. }
  assert (forall y l v d ty lo hi, (forall y' s, In (y', s) (atom_strs a) <-> y' = y /\ In s l) -> map snd (atom_strs a) = l ->
     decl (c_domains c) y = Some (v, d) -> d_bound d = BStr ty lo hi -> 0 <= hi <= SIZE_MAX ->
     (match a with AFreq _ _ _ _ => False | _ => True end) ->
     (room_b (slots d y hi) (Z.of_nat (List.length (known_under c y))) (Z.of_nat (List.length (news c y l))) || match l with [] => true | _ => false end = true <-> pred_room c a)) as PR.
  { intros y l v d ty lo hi I E D B HH NF. rewrite orb_true_iff, (room_iff c y v d hi).
    assert (pred_room c a <-> forall y0 s v0 d0 ty0 lo0 hi0, In (y0, s) (atom_strs a) -> decl (c_domains c) y0 = Some (v0, d0) -> d_attr d0 = y0 ->
      d_bound d0 = BStr ty0 lo0 hi0 -> hi0 + 1 < SIZE_MAX ->
      Z.of_nat (List.length (known_under c y0)) + Z.of_nat (List.length (new_strings c y0 a)) <= hi0 + 1
      \/ hi0 + 1 < Z.of_nat (List.length (known_under c y0)) /\
         Z.of_nat (List.length (known_under c y0)) + Z.of_nat (List.length (new_strings c y0 a)) <= hi0 + 1 + 2 ^ 64) as ->.
    { destruct a; try reflexivity. now elim NF. }
    split.
    - intros H y0 s v0 d0 ty0 lo0 hi0 I0 D0 Y0 B0 S0. apply I in I0. destruct I0 as [-> I0].
      rewrite D in D0. injection D0 as <- <-. rewrite B in B0. injection B0 as <- <- <-.
      destruct H as [H|H]; [|destruct l; [easy|discriminate]]. unfold new_strings. rewrite E. exact (H Y0 S0).
    - intros H. destruct l as [|s l]; [now right|]. left. intros Y0 S0. specialize (H y s v d ty lo hi). unfold new_strings in H. rewrite E in H.
      apply H; auto. apply I. split; [reflexivity|now left]. }
  assert (forall y t s, has_type (c_domains c) y t -> t = TStr \/ t = TStrList -> atom_strs a = [(y, s)] -> (match a with AFreq _ _ _ _ => False | _ => True end) ->
    exists b, str_valid c y s = Ok b /\ (b = true <-> pred_room c a)) as V1.
  { intros y t s H K E NF. destruct (HT _ _ H K) as (v & d & ty & lo & hi & D & B & HH).
    eexists. split; [eapply str_exact; eauto|]. rewrite <- (PR y [s] v d ty lo hi); auto.
    - now rewrite orb_false_r.
    - rewrite E. intros y' s'. cbn [In]. split; [intros [[= <- <-]|[]]; auto|intros [-> [->|[]]]; auto].
    - now rewrite E. }
  assert (forall y t l, has_type (c_domains c) y t -> t = TStr \/ t = TStrList -> atom_strs a = map (fun s => (y, s)) l -> (match a with AFreq _ _ _ _ => False | _ => True end) ->
    exists b, strs_valid c y (build_strs l) = Ok b /\ (b = true <-> pred_room c a)) as V2.
  { intros y t l H K E NF. destruct (HT _ _ H K) as (v & d & ty & lo & hi & D & B & HH).
    eexists. split; [eapply strs_exact; eauto|]. apply (PR y l v d ty lo hi); auto.
    - rewrite E. intros y' s'. rewrite in_map_iff. split; [intros (s0 & [= <- <-] & I); auto|intros [-> I]; eauto].
    - rewrite E, map_map. cbn [snd]. apply map_id. }
  assert (atom_strs a = [] -> (true = true <-> pred_room c a)) as V0.
  { intros E. split; [intros _|reflexivity]. unfold pred_room. rewrite E. destruct a; try exact I; now intros ? ? ? ? ? ? ? []. }
  destruct a as [y|b|op y k|op y k|op y l|op k y|op y l|op y|ty ns value window|op y id sec|lat lon rad|op y pat];
    cbn [build_atom assign_var_leaf strings_leaf atom_ok set_var mk_var av_attr] in *;
    try (eexists; split; [reflexivity|apply V0; reflexivity]).
  - destruct k as [z|f|s]; cbn [assign_var_leaf strings_leaf atom_ok set_var mk_var av_attr] in *; try (eexists; split; [reflexivity|apply V0; reflexivity]).
    eapply V1; eauto.
  - destruct l as [l|l]; cbn [assign_var_leaf strings_leaf atom_ok set_var mk_var av_attr] in *; try (eexists; split; [reflexivity|apply V0; reflexivity]).
    destruct A as (A & _). eapply V2; eauto.
  - destruct k as [z|f|s]; cbn [assign_var_leaf strings_leaf atom_ok set_var mk_var av_attr] in *; try (eexists; split; [reflexivity|apply V0; reflexivity]).
    eapply V1; eauto.
  - destruct l as [l|l]; cbn [assign_var_leaf strings_leaf atom_ok set_var mk_var av_attr] in *; try (eexists; split; [reflexivity|apply V0; reflexivity]).
    destruct A as (A & _). eapply V2; eauto.
  - eexists. split; [reflexivity|]. cbn [pred_room]. tauto.
  - destruct y; (eexists; split; [reflexivity|apply V0; reflexivity]).
Qed.

Lemma all_leaves_dec f e (P : leaf -> Prop) : (forall q, In q (expr_leaves e) -> exists b, f q = Ok b /\ (b = true <-> P q)) ->
  exists b, all_leaves f e = Ok b /\ (b = true <-> forall q, In q (expr_leaves e) -> P q).
Proof.
  intros H. set (g := fun q => match f q with Ok b => b | _ => true end).
  exists (forallb g (expr_leaves e)). split.
  - apply all_leaves_eq. intros q Q. unfold g. destruct (H q Q) as (b & -> & _). reflexivity.
  - rewrite forallb_forall. split; intros K q Q; specialize (K q Q); destruct (H q Q) as (b & E & EP); unfold g in *; rewrite E in *; tauto.
Qed.

Lemma lower_sig ds ds' : lower_names ds -> map dom_sig ds' = map dom_sig ds -> lower_names ds'.
Proof.
  intros LN. revert ds'. unfold lower_names. induction LN as [|d ds H L IH]; intros [|d' ds'] E; try discriminate; constructor.
  - injection E as E1 _ _. congruence.
  - apply IH. now injection E as _ _ _ E.
Qed.

Section WithGeo.
  Context {G : Geo}.
  Theorem insert_exact {fm} ds t pend log id cs x b t' : reach_in fm ds t pend log -> lower_names ds -> src_ok ds cs x ->
    betree_insert_with_constants t id cs x = Ok (b, t') ->
    (b = true <-> constants_given cs x /\ forall a, In a (src_atoms x) -> pred_room (bt_cfg t) a) /\ (b = false -> t' = t).
  Proof.
    intros R LN HS H. split; [|intros ->; eapply refused_steps; eauto].
    pose proof (reach_named _ _ _ _ R) as NM. pose proof (reach_inv _ _ _ _ R) as [ISG IC IF IT IN _].
    assert (src_ok (c_domains (bt_cfg t)) cs x) as HS' by (eapply src_ok_sig; [|exact HS]; auto).
    pose proof (lower_sig _ _ LN ISG) as LN'.
    pose proof (rel_src_shape _ _ _ _ (rel_src_build x) _ (shape_map (assign_var_leaf (bt_cfg t)) (build x))) as RR.
    destruct (rel_In _ _ _ RR (fun a q => q = assign_var_leaf (bt_cfg t) (build_atom a))) as [A B].
    { now intros a q (p & -> & ->). }
    destruct (all_leaves_dec (strings_leaf (bt_cfg t)) (assign_variable_id (bt_cfg t) (build x))
      (fun q => forall a, In a (src_atoms x) -> q = assign_var_leaf (bt_cfg t) (build_atom a) -> pred_room (bt_cfg t) a)) as (sb & S1 & S2).
    { intros q Q. destruct (B q Q) as (a & I & ->).
      assert (forall a', In a' (src_atoms x) -> exists b', strings_leaf (bt_cfg t) (assign_var_leaf (bt_cfg t) (build_atom a')) = Ok b' /\ (b' = true <-> pred_room (bt_cfg t) a')) as AE.
      { intros a' I'. unfold src_ok in HS'. rewrite Forall_forall in HS'. eapply atom_exact; eauto; [apply (cf_dom _ IF)|].
        intros v. apply (ok_tabs _ IC). }
      destruct (AE a I) as (b1 & E1 & E2). exists b1. split; [exact E1|]. split.
      - intros -> a' I' Q'. destruct (AE a' I') as (b2 & F1 & F2). rewrite <- Q', E1 in F1. injection F1 as <-. now apply F2.
      - intros K. apply E2. now apply K. }
    assert (sb = true <-> forall a, In a (src_atoms x) -> pred_room (bt_cfg t) a) as SB.
    { rewrite S2. split; intros K.
      - intros a I. destruct (A a I) as (q & Q & E). eapply K; eauto.
      - intros q _ a I _. auto. }
    rewrite <- SB. clear S2 SB.
    unfold betree_insert_with_constants, insert_expr in H.
    unfold is_valid in H. rewrite (src_vars _ _ _ (ok_few _ IC) HS') in H. cbn [bind] in H. unfold all_bounded_strings_valid in H. rewrite S1 in H. cbn [bind] in H.
    destruct sb; cbn [negb] in H.
    - split.
      + intros -> . split; [|reflexivity]. intros ty ns value window I C0. destruct (missing_constant t id cs x ty ns value window t' I C0) as [M _]. apply M.
        unfold betree_insert_with_constants, insert_expr, is_valid. rewrite (src_vars _ _ _ (ok_few _ IC) HS'). cbn [bind]. unfold all_bounded_strings_valid. rewrite S1. exact H.
      + intros [CG _].
        assert (assign_constants cs (assign_variable_id (bt_cfg t) (build x)) <> None) as EC.
        { apply const_some. intros q Q. destruct (B q Q) as (a & I & ->). apply const_leaf_some. rewrite freq_built. eapply given_const; eauto. }
        destruct (assign_constants cs _) as [e2|]; [|easy].
        apply bind_ok in H. destruct H as ([e3 c3] & _ & H). apply bind_ok in H. destruct H as ([e4 c4] & _ & H).
        apply bind_ok in H. destruct H as ([e6 c6] & _ & H). apply bind_ok in H. destruct H as ([e7 m] & _ & H).
        apply bind_ok in H. destruct H as (s & _ & H). apply bind_ok in H. destruct H as (t2 & _ & H). now injection H as <- _.
    - injection H as <- _. split; [discriminate|intros [_ E]; discriminate].
  Qed.
  Theorem insert_refuses {fm} ds t pend log id cs x a : reach_in fm ds t pend log -> lower_names ds -> src_ok ds cs x ->
    In a (src_atoms x) -> ~ pred_room (bt_cfg t) a -> betree_insert_with_constants t id cs x = Ok (false, t).
  Proof.
    intros R LN HS I NR.
    assert (exists r, betree_insert_with_constants t id cs x = Ok (false, r)) as (r & H); [|rewrite H; now rewrite (refused_steps _ _ _ _ _ H)].
    pose proof (reach_named _ _ _ _ R) as NM. pose proof (reach_inv _ _ _ _ R) as [ISG IC IF IT IN _].
    assert (src_ok (c_domains (bt_cfg t)) cs x) as HS' by (eapply src_ok_sig; [|exact HS]; auto).
    pose proof (lower_sig _ _ LN ISG) as LN'.
    pose proof (rel_src_shape _ _ _ _ (rel_src_build x) _ (shape_map (assign_var_leaf (bt_cfg t)) (build x))) as RR.
    destruct (rel_In _ _ _ RR (fun a q => q = assign_var_leaf (bt_cfg t) (build_atom a))) as [A B].
    { now intros a0 q (p & -> & ->). }
    assert (forall a', In a' (src_atoms x) -> exists b', strings_leaf (bt_cfg t) (assign_var_leaf (bt_cfg t) (build_atom a')) = Ok b' /\ (b' = true <-> pred_room (bt_cfg t) a')) as AE.
    { intros a' I'. unfold src_ok in HS'. rewrite Forall_forall in HS'. eapply atom_exact; eauto; [apply (cf_dom _ IF)|]. intros v. apply (ok_tabs _ IC). }
    set (g := fun q => match strings_leaf (bt_cfg t) q with Ok b => b | _ => true end).
    assert (all_leaves (strings_leaf (bt_cfg t)) (assign_variable_id (bt_cfg t) (build x)) = Ok false) as S1.
    { rewrite (all_leaves_eq _ _ g).
      - f_equal. apply not_true_is_false. rewrite forallb_forall. intros K. destruct (A a I) as (q & Q & ->). specialize (K _ Q).
        destruct (AE a I) as (b & E & EP). unfold g in K. rewrite E in K. tauto.
      - intros q Q. destruct (B q Q) as (a' & I' & ->). unfold g. destruct (AE a' I') as (b & -> & _). reflexivity. }
    unfold betree_insert_with_constants, insert_expr, is_valid. rewrite (src_vars _ _ _ (ok_few _ IC) HS'). cbn [bind].
    unfold all_bounded_strings_valid. rewrite S1. cbn [bind negb]. eauto.
  Qed.
End WithGeo.
