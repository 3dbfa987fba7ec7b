(** A search follows one path through the ranges of a partition, or two when its value is the middle of one. *)
From Coq Require Import ZArith NArith String Bool List Lia ZifyBool ZifyNat ZifyN.
From Verif Require Import Base BaseProofs Float FloatSpec RoundProofs FloatOrd Value Ast Config Assign Special Match Bound Tree TreeSpec TreeProofs
  SizeSpec SizeProofs WalkSpec.
Import ListNotations.
Local Open Scope list_scope.
Local Open Scope res_scope.

(** *** The candidates are the subscriptions of the visited nodes *)
Lemma goes_eq p v b ol orr x : is_event_enclosed p v b ol orr = Ok x -> goes p v b ol orr = x.
Proof. unfold goes. intros ->. now destruct x. Qed.
Lemma visited_node ds p m subs ps : visited_cnode ds p (CNode m subs ps) = CNode m subs ps :: visited_pdir ds p ps.
Proof. reflexivity. Qed.
Lemma visited_cons ds p v sc cd rest : visited_pdir ds p (PCons v sc cd rest)
  = (if enters ds p v then visited_cdir ds p v true true cd else []) ++ visited_pdir ds p rest.
Proof. reflexivity. Qed.
Lemma visited_leaf ds p v ol orr b cn : visited_cdir ds p v ol orr (CLeaf b cn) = visited_cnode ds p cn.
Proof. reflexivity. Qed.
Lemma visited_split ds p v ol orr b cn l r : visited_cdir ds p v ol orr (CSplit b cn l r)
  = visited_cnode ds p cn
    ++ (if goes p v (reach_of l) ol false then visited_cdir ds p v ol false l else [])
    ++ (if goes p v (reach_of r) false orr then visited_cdir ds p v false orr r else []).
Proof. reflexivity. Qed.
Theorem match_visited ds p :
  (forall cn out, match_cnode ds p cn = Ok out -> out = flat_map at_node (visited_cnode ds p cn))
  /\ (forall ps out, match_pdir ds p ps = Ok out -> out = flat_map at_node (visited_pdir ds p ps))
  /\ (forall cd v ol orr out, match_cdir ds p v ol orr cd = Ok out -> out = flat_map at_node (visited_cdir ds p v ol orr cd)).
Proof.
  apply tree_mut.
  - intros m subs ps IH out H. cbn [match_cnode] in H. apply bind_ok in H. destruct H as (r & E & [= <-]).
    rewrite visited_node. cbn [flat_map at_node]. now rewrite (IH _ E).
  - intros out [= <-]. reflexivity.
  - intros v sc cd IHc rest IHr out H. cbn [match_pdir] in H. rewrite visited_cons. unfold enters.
    destruct (nthN ds v) as [d|]; [|discriminate]. apply bind_ok in H. destruct H as (go & EG & H).
    apply bind_ok in H. destruct H as (a & EA & H). apply bind_ok in H. destruct H as (b & EB & [= <-]).
    rewrite flat_map_app, <- (IHr _ EB). f_equal.
    assert ((match nthN p v with Some o => d_undef d || match o with Some _ => true | None => false end | None => d_undef d end) = go) as ->.
    { destruct (d_undef d); [injection EG as <-; now destruct (nthN p v)|]. unfold read_var in EG.
      destruct (nthN p v) as [o|]; [|discriminate]. cbn [bind] in EG. injection EG as <-. reflexivity. }
    destruct go; [now apply IHc|]. now injection EA as <-.
  - intros b cn IH v ol orr out H. exact (IH _ H).
  - intros b cn IH l IHl r IHr v ol orr out H. cbn [match_cdir] in H.
    apply bind_ok in H. destruct H as (a & EA & H). apply bind_ok in H. destruct H as (el & EL & H).
    apply bind_ok in H. destruct H as (lo & HL & H). apply bind_ok in H. destruct H as (er & ER & H).
    apply bind_ok in H. destruct H as (ro & HR & [= <-]). rewrite visited_split, (reach_bound l), (reach_bound r).
    apply goes_eq in EL, ER. rewrite EL, ER, !flat_map_app, <- (IH _ EA). f_equal. f_equal.
    + destruct el; [now apply IHl|]. now injection HL as <-.
    + destruct er; [now apply IHr|]. now injection HR as <-.
Qed.

(** *** Ends of ranges as numbers *)
Definition low (b : bound) : Z :=
  match b with BBool lo _ => Z.b2z lo | BInt _ lo _ => lo | BStr _ lo _ => lo | BFloat lo _ => units lo | _ => 0 end.
Definition high (b : bound) : Z :=
  match b with BBool _ hi => Z.b2z hi | BInt _ _ hi => hi | BStr _ _ hi => hi | BFloat _ hi => units hi | _ => 0 end.
Definition at_value (x : value) : Z :=
  match x with VBool y => Z.b2z y | VInt y => y | VFloat f => units f | VStr y => sv_str y | VIEnum y => ie_id y | _ => 0 end.

Lemma cut_ends b l r : ordered b -> split_value_bound b = Ok (l, r) -> is_atomic b = Ok false ->
  ordered l /\ ordered r /\ low l = low b /\ high r = high b /\ (high l < high b)%Z /\ (low b < low r)%Z /\ (high l <= low r)%Z.
Proof.
  intros D H A. destruct b as [lo hi|t lo hi|lo hi|t lo hi| | ]; cbn [ordered] in D; try easy.
  - cbn [split_value_bound is_atomic] in *. destruct lo, hi; try discriminate. injection H as <- <-. cbn. lia.
  - cbn [split_value_bound is_atomic] in *. apply bind_ok in H. destruct H as (w & HW & H). apply abs_ck in HW. injection A as A.
    assert (w = hi - lo)%Z as -> by lia.
    destruct (_ >? _)%Z eqn:G.
    + injection H as <- <-. cbn [ordered low high]. rewrite Z.quot_div_nonneg by lia.
      pose proof (Z.div_mod (hi - lo) 2 ltac:(lia)). pose proof (Z.mod_pos_bound (hi - lo) 2 ltac:(lia)). lia.
    + destruct (_ =? 2)%Z eqn:T.
      * apply bind_ok in H. destruct H as (m & HM & H). unfold ck64 in HM. destruct (_ && _); [|discriminate]. injection HM as <-.
        injection H as <- <-. cbn [ordered low high]. lia.
      * destruct (_ =? 1)%Z eqn:O; [|discriminate]. injection H as <- <-. cbn [ordered low high]. lia.
  - destruct D as (CL & CH & LE & (k & K)).
    assert (LT : (units lo < units hi)%Z).
    { destruct (Z.eq_dec (units lo) (units hi)) as [E|N]; [|lia]. cbn [is_atomic] in A.
      apply (feq_apart lo hi (coarse_good _ CL) (coarse_good _ CH) (or_introl E)) in E. congruence. }
    destruct (split_float lo hi (l, r) CL CH LE H) as (m & m' & E & CM & CM' & L1 & L2 & L3 & WW).
    injection E as -> ->. destruct (WW (ex_intro _ k K)) as (W1 & W2). cbn [ordered low high].
    repeat match goal with |- _ /\ _ => split end; try assumption; try reflexivity; clear - L1 L2 L3; lia.
  - cbn [split_value_bound is_atomic] in *. injection A as A. unfold to_uint in H. rewrite (Z.mod_small (hi - lo)) in H by lia.
    destruct (_ >? _)%Z eqn:G.
    + pose proof (Z.div_mod (hi - lo) 2 ltac:(lia)). pose proof (Z.mod_pos_bound (hi - lo) 2 ltac:(lia)).
      rewrite (Z.mod_small (lo + (hi - lo) / 2)) in H by lia. injection H as <- <-. cbn [ordered low high]. lia.
    + destruct (_ =? 2)%Z eqn:T.
      * rewrite (Z.mod_small (lo + 1)) in H by lia. injection H as <- <-. cbn [ordered low high]. lia.
      * destruct (_ =? 1)%Z eqn:O; [|discriminate]. injection H as <- <-. cbn [ordered low high]. lia.
Qed.
Lemma goes_left p v x b ol : nthN p v = Some (Some x) -> single x -> ordered b -> goes p v b ol false = true -> (at_value x <= high b)%Z.
Proof.
  intros N S O H. unfold goes, is_event_enclosed, read_var in H. rewrite N in H. cbn [bind] in H.
  destruct x, b; cbn [single ordered at_value high] in *; try easy.
  - destruct b0, lo, hi; cbn in *; try discriminate; lia.
  - destruct (_ && _) eqn:E in H; [|discriminate]. lia.
  - destruct (_ && _) eqn:E in H; [|discriminate]. rewrite andb_true_iff in E. destruct E as [_ E]. cbn [orb] in E. unfold fgeb in E.
    apply leb_units in E; [exact E|now apply canonical_good|now apply coarse_good].
  - destruct (_ && _) eqn:E in H; [|discriminate]. lia.
  - destruct (_ && _) eqn:E in H; [|discriminate]. lia.
Qed.
Lemma goes_right p v x b orr : nthN p v = Some (Some x) -> single x -> ordered b -> goes p v b false orr = true -> (low b <= at_value x)%Z.
Proof.
  intros N S O H. unfold goes, is_event_enclosed, read_var in H. rewrite N in H. cbn [bind] in H.
  destruct x, b; cbn [single ordered at_value low] in *; try easy.
  - destruct b0, lo, hi; cbn in *; try discriminate; lia.
  - destruct (_ && _) eqn:E in H; [|discriminate]. lia.
  - destruct (_ && _) eqn:E in H; [|discriminate]. rewrite andb_true_iff in E. destruct E as [E _]. cbn [orb] in E.
    apply leb_units in E; [exact E|now apply coarse_good|now apply canonical_good].
  - destruct (_ && _) eqn:E in H; [|discriminate]. lia.
  - destruct (_ && _) eqn:E in H; [|discriminate]. lia.
Qed.

(** *** Paths *)
Section Path.
  Context (M : Z) (p : env) (v : N) (x : value) (HX : nthN p v = Some (Some x)) (HS : single x).
  Let k := at_value x.
  Lemma seen_end : forall cd ol orr, cut_cdir M cd -> ordered (cd_bound cd) -> (k <= low (cd_bound cd) \/ high (cd_bound cd) <= k)%Z ->
    (List.length (seen p v ol orr cd) <= 1 + steps cd)%nat.
  Proof.
    fix IH 1. intros [b cn|b cn l r] ol orr C O K; cbn [seen steps List.length cd_bound cut_cdir] in *; [lia|].
    destruct C as (C1 & C2 & _ & C4 & C5). destruct (cut_ends _ _ _ O C1 C2) as (OL & OR & E1 & E2 & L1 & L2 & L3).
    rewrite app_length, (reach_bound l), (reach_bound r). specialize (IH l ol false C4 OL) as IHl. specialize (IH r false orr C5 OR) as IHr.
    rewrite E1 in IHl. rewrite E2 in IHr.
    pose proof (goes_left p v x (cd_bound l) ol HX HS OL) as GL. pose proof (goes_right p v x (cd_bound r) orr HX HS OR) as GR. fold k in GL, GR.
    destruct (goes p v (cd_bound l) ol false), (goes p v (cd_bound r) false orr); cbn [List.length];
      try specialize (GL eq_refl); try specialize (GR eq_refl); destruct K as [K|K]; try lia;
      try (specialize (IHl (or_introl K)); lia); try (specialize (IHr (or_intror K)); lia).
  Qed.
  Lemma seen_path : forall cd ol orr, cut_cdir M cd -> ordered (cd_bound cd) ->
    (List.length (seen p v ol orr cd) <= 1 + 2 * steps cd)%nat.
  Proof.
    fix IH 1. intros [b cn|b cn l r] ol orr C O; cbn [seen steps List.length cd_bound cut_cdir] in *; [lia|].
    destruct C as (C1 & C2 & _ & C4 & C5). destruct (cut_ends _ _ _ O C1 C2) as (OL & OR & E1 & E2 & L1 & L2 & L3).
    rewrite app_length, (reach_bound l), (reach_bound r). specialize (IH l ol false C4 OL) as IHl. specialize (IH r false orr C5 OR) as IHr.
    pose proof (goes_left p v x (cd_bound l) ol HX HS OL) as GL. pose proof (goes_right p v x (cd_bound r) orr HX HS OR) as GR. fold k in GL, GR.
    pose proof (seen_end l ol false C4 OL) as EL. pose proof (seen_end r false orr C5 OR) as ER.
    destruct (goes p v (cd_bound l) ol false), (goes p v (cd_bound r) false orr); cbn [List.length]; try lia.
  Qed.
End Path.

(** *** All partitions *)
Lemma named_tops :
  (forall cn, map snd (named_cnode cn) = tops_cnode cn)
  /\ (forall ps, map snd (named_pdir ps) = tops_pdir ps)
  /\ (forall cd, map snd (named_cdir cd) = tops_cdir cd).
Proof.
  apply tree_mut; cbn [named_cnode named_pdir named_cdir tops_cnode tops_pdir tops_cdir map snd].
  - auto.
  - reflexivity.
  - intros v sc cd E1 rest E2. now rewrite map_app, E1, E2.
  - auto.
  - intros b cn E1 l E2 r E3. now rewrite !map_app, E1, E2, E3.
Qed.
Lemma visited_bound ds p B :
  (forall cn, (forall v cd, In (v, cd) (named_cnode cn) -> (List.length (seen p v true true cd) <= B)%nat) ->
     (List.length (visited_cnode ds p cn) <= 1 + List.length (named_cnode cn) * B)%nat)
  /\ (forall ps, (forall v cd, In (v, cd) (named_pdir ps) -> (List.length (seen p v true true cd) <= B)%nat) ->
     (List.length (visited_pdir ds p ps) <= List.length (named_pdir ps) * B)%nat)
  /\ (forall cd, (forall v cd', In (v, cd') (named_cdir cd) -> (List.length (seen p v true true cd') <= B)%nat) ->
     forall v ol orr, (List.length (visited_cdir ds p v ol orr cd) <= List.length (seen p v ol orr cd) + List.length (named_cdir cd) * B)%nat).
Proof.
  apply tree_mut; cbn [named_cnode named_pdir named_cdir seen List.length].
  - intros m subs ps IH H. specialize (IH H). rewrite visited_node. cbn [List.length]. lia.
  - intros _. cbn. lia.
  - intros v sc cd IHc rest IHr H. rewrite visited_cons, !app_length.
    assert (HB : (List.length (seen p v true true cd) <= B)%nat) by (apply H; now left).
    assert (IHc' := IHc (fun w c I => H w c (or_intror (in_or_app _ _ _ (or_introl I)))) v true true).
    assert (IHr' := IHr (fun w c I => H w c (or_intror (in_or_app _ _ _ (or_intror I))))).
    rewrite Nat.mul_succ_l, Nat.mul_add_distr_r.
    destruct (enters ds p v); cbn [List.length]; lia.
  - intros b cn IH H v ol orr. specialize (IH H). rewrite visited_leaf. lia.
  - intros b cn IH l IHl r IHr H v ol orr. rewrite visited_split, !app_length, !Nat.mul_add_distr_r.
    assert (IHn := IH (fun w c I => H w c (in_or_app _ _ _ (or_introl I)))).
    assert (IHl' := IHl (fun w c I => H w c (in_or_app _ _ _ (or_intror (in_or_app _ _ _ (or_introl I)))))).
    assert (IHr' := IHr (fun w c I => H w c (in_or_app _ _ _ (or_intror (in_or_app _ _ _ (or_intror I)))))).
    specialize (IHl' v ol false). specialize (IHr' v false orr).
    destruct (goes p v (reach_of l) ol false), (goes p v (reach_of r) false orr); cbn [List.length]; lia.
Qed.
Lemma ordered_discrete b : ordered b -> discrete b.
Proof. destruct b; cbn; easy. Qed.
