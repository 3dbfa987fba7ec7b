(** Insertion into a well-formed tree always finishes: no abort, no undefined behaviour, and the fuel of
    the model is never used up. *)
From Coq Require Import ZArith NArith String Bool List Lia Permutation.
From Verif Require Import Base Float Value Ast Config Special Match Bound Tree TreeSpec BaseProofs ExtProofs GvbProofs TreeProofs FloatSpec FloatOrd FloatProofs ScoreProofs.
Import ListNotations.
Local Open Scope Z_scope.

Lemma ck64_in z : INT64_MIN <= z <= INT64_MAX -> ck64 z = Ok z.
Proof. intros H. unfold ck64. destruct (Z.leb_spec INT64_MIN z), (Z.leb_spec z INT64_MAX); cbn; trivial; lia. Qed.
Lemma llabs_in hi lo : lo <= hi -> hi - lo <= INT64_MAX -> llabs_diff hi lo = Ok (hi - lo).
Proof.
  intros A B. unfold llabs_diff. rewrite ck64_in by (unfold INT64_MIN, INT64_MAX in *; lia). cbn [bind].
  rewrite Z.abs_eq by lia. apply ck64_in. unfold INT64_MIN, INT64_MAX in *; lia.
Qed.

(** No float ranges are split, or only those whose widths are whole numbers. *)
Class Whole {FM : Floats} : Prop := whole_mode : may_split = true -> only_whole mode = true.
#[global] Instance whole_none : @Whole NoSplit.
Proof. intros H. cbv in H. discriminate H. Qed.
#[global] Instance whole_only : @Whole WholeSplits.
Proof. intros _. reflexivity. Qed.
Lemma whole_other (m : floats) : m <> Splits -> @Whole m.
Proof. intros H C. destruct m; [discriminate C|now destruct H|reflexivity]. Qed.

Section Mode.
Context {FM : Floats} {WM : Whole}.

Lemma float_diff c v d lo hi : cfg_fine c -> nthN (c_domains c) v = Some d -> d_bound d = BFloat lo hi ->
  (exists b, splitable c (BFloat lo hi) = Ok b)
  /\ (splits (BFloat lo hi) -> exists z, fabs_diff hi lo = Ok z /\ 0 <= z <= UINT64_MAX).
Proof.
  intros [_ F _] N E. unfold floats_ok in F. cbn [splits]. unfold may_split. destruct (can_split mode) eqn:CS.
  - destruct (F v d d lo hi N N E) as [_ [K|(K & C1 & C2 & _)]]; rewrite E in K.
    + split; [eauto|]. intros (_ & _ & _ & _ & F1 & F2). cbn [splitable] in K. rewrite F1, F2 in K. cbn [orb] in K.
      apply bind_ok in K. destruct K as (z & K & _). exists z. split; [exact K|]. unfold fabs_diff in K.
      destruct (f_trunc (fabs (fsub hi lo))) as [z'|] eqn:T; [|discriminate]. apply trunc_nonneg in T.
      destruct (Z.leb_spec z' UINT64_MAX) as [L|L]; [|discriminate]. injection K as <-. lia.
    + destruct K as (_ & _ & K & _). pose proof (coarse_diff lo hi C1 C2 K) as CD.
      split.
      * cbn [splitable]. rewrite CD. cbn [bind]. destruct (_ || _); eauto.
      * intros _. eexists. split; [exact CD|]. clear F. unfold fabs_diff in CD.
        destruct (f_trunc (fabs (fsub hi lo))) as [z'|] eqn:T; [|discriminate]. apply trunc_nonneg in T.
        destruct (Z.leb_spec z' UINT64_MAX) as [L|L]; [|discriminate]. apply Ok_inj in CD. rewrite <- CD. lia.
  - split; [|intros []; discriminate]. specialize (F d lo hi (nthN_In _ _ _ N) E). rewrite E in F. eauto.
Qed.
Lemma splitable_total c v d : cfg_fine c -> narrow c -> nthN (c_domains c) v = Some d -> exists r, splitable c (d_bound d) = Ok r.
Proof.
  intros FC NW N. pose proof (nthN_In _ _ _ N) as H. specialize (NW d H). pose proof (cf_dom c FC d H) as F.
  destruct (d_bound d) as [lo hi|w lo hi|lo hi|w lo hi| | ] eqn:E; try (cbn [splitable]; eauto; fail).
  - cbn [splitable narrow_bound dom_fine] in *.
    destruct (Z.eqb_spec lo INT64_MIN) as [Hz|Hz], (Z.eqb_spec hi INT64_MAX) as [Hy|Hy]; cbn [orb]; eauto.
    rewrite llabs_in by lia. cbn [bind]. eauto.
  - now apply (float_diff c v d lo hi FC N E).
  - cbn [splitable]. destruct (hi =? SIZE_MAX); eauto.
Qed.

Definition width (b : bound) : Z :=
  match b with BFloat lo hi => (units hi - units lo) / 2 ^ 1074 | _ => bhi b - blo b end.

Lemma splitable_width c v d : cfg_fine c -> nthN (c_domains c) v = Some d -> splitable c (d_bound d) = Ok true ->
  width (d_bound d) <= Z.max 1 (c_maxsplit c).
Proof.
  intros FC H SP. destruct (splitable_splits c v d FC H SP) as [S' RR].
  destruct (d_bound d) as [lo hi|w lo hi|lo hi|w lo hi| | ] eqn:E; cbn [splits] in S'; try easy; unfold width; cbn [blo bhi].
  - destruct S' as [-> ->]. cbn. lia.
  - cbn [splitable] in SP. destruct (Z.eqb_spec lo INT64_MIN) as [Hz|Hz], (Z.eqb_spec hi INT64_MAX) as [Hy|Hy]; try discriminate.
    cbn [orb] in SP. apply bind_ok in SP. destruct SP as (w' & L & SP). injection SP as SP.
    unfold llabs_diff in L. apply bind_ok in L. destruct L as (z & L1 & L2). unfold ck64 in L1, L2.
    destruct (_ && _) in L1; [|discriminate]. injection L1 as <-. destruct (_ && _) in L2; [|discriminate]. injection L2 as <-. lia.
  - destruct (nr_float _ _ _ _ RR) as (C1 & C2 & _). pose proof (nr_ord _ _ _ _ RR) as O. cbn [blo bhi] in O.
    cbn [splitable] in SP. destruct (_ || _); [discriminate|]. rewrite (coarse_diff lo hi C1 C2 O) in SP. cbn [bind] in SP.
    apply Ok_inj in SP. apply Z.ltb_lt in SP. lia.
  - cbn [splitable] in SP. destruct S' as (_ & -> & L). destruct (Z.eqb_spec hi SIZE_MAX) as [Hz|Hz]; [discriminate|].
    injection SP as SP. rewrite Z.sub_0_r in *. unfold to_uint in SP.
    rewrite Z.mod_small in SP by (unfold SIZE_MAX, UINT64_MAX in *; lia). lia.
Qed.

(** Scores. *)
Lemma diff_total c v d : cfg_fine c -> narrow c -> nthN (c_domains c) v = Some d -> splits (d_bound d) ->
  exists z, domain_bound_diff (d_bound d) = Ok z /\ 0 <= z <= 2 ^ 64 - 1.
Proof.
  intros FC NW' N S'. assert (NW : narrow_bound (d_bound d)) by (apply NW'; eapply nthN_In; eauto).
  destruct (d_bound d) as [lo hi|w lo hi|lo hi|w lo hi| | ] eqn:E; cbn [narrow_bound domain_bound_diff] in *; try contradiction;
    try (cbn [splits] in S'; contradiction).
  - exists 1. split; [reflexivity|lia].
  - cbn [splits] in S'. destruct (Z.eqb_spec lo INT64_MIN) as [Hz|Hz]; [lia|]. cbn [andb]. rewrite llabs_in by lia.
    eexists. split; [reflexivity|]. unfold INT64_MAX in *. lia.
  - destruct (float_diff c v d lo hi FC N E) as [_ K]. destruct (K S') as (z & Z1 & Z2). destruct S' as (_ & _ & _ & _ & F1 & _). rewrite F1.
    cbn [andb]. exists z. split; [exact Z1|]. unfold UINT64_MAX in Z2. lia.
  - eexists. split; [reflexivity|]. unfold to_uint. pose proof (Z.mod_pos_bound (hi - lo) (2 ^ 64)). lia.
Qed.
Lemma get_score_total c v d n : cfg_fine c -> narrow c -> nthN (c_domains c) v = Some d -> splits (d_bound d) -> 0 <= n ->
  exists f, get_score d n = Ok f /\ nonneg_flt f /\ (0 < n -> pos_flt f).
Proof.
  intros FC NW N S' H. unfold get_score. destruct (diff_total c v d FC NW N S') as (z & -> & Z'). cbn [bind].
  eexists. split; [reflexivity|].
  assert (A : (if d_undef d then 1 else 10) = 1 \/ (if d_undef d then 1 else 10) = 10) by (destruct (d_undef d); auto).
  assert (B : 0 < (if z =? 0 then 1 else z) <= 2 ^ 64) by (destruct (Z.eqb_spec z 0) as [Hz|Hz]; lia).
  split; [now apply score_nonneg|]. intros P. now apply score_pos.
Qed.
Lemma count_attr_pos v all s : In s all -> has_attr v s = true -> 0 < count_attr v all.
Proof.
  intros I H. unfold count_attr. assert (In s (filter (has_attr v) all)) by (apply filter_In; auto).
  destruct (filter (has_attr v) all); [easy|]. cbn [length]. lia.
Qed.
Lemma count_cdir_nonneg v : forall cd, 0 <= count_cdir v cd.
Proof.
  fix IH 1. destruct cd as [b cn|b cn l r]; cbn [count_cdir]; unfold count_attr; [lia|].
  pose proof (IH l). pose proof (IH r). lia.
Qed.

(** *** Choice of a variable *)
Section Choice.
  Variables (c : config) (used : list N) (all : list sub).
  Hypothesis FC : cfg_fine c.
  Hypothesis NW : narrow c.
  Definition eligible (v : N) : Prop :=
    exists d, nthN (c_domains c) v = Some d /\ splitable c (d_bound d) = Ok true /\ memN v used = false
      /\ exists s, In s all /\ has_attr v s = true.
  Definition hs_inv (acc : hs_acc) : Prop :=
    match acc with (found, best, var) =>
      (var = None -> found = false /\ best = f_of_Z 0) /\ (forall v, var = Some v -> eligible v) end.
  Lemma hs_step_total s d j acc : In s all -> nthN (c_domains c) j = Some d -> hs_inv acc ->
    exists acc', hs_step c used all s d j acc = Ok acc' /\ hs_inv acc'.
  Proof.
    intros I N H. unfold hs_step. destruct (has_attr j s) eqn:A; cbn [negb]; [|eauto].
    destruct (splitable_total c j d FC NW N) as [sp ES]. rewrite ES. cbn [bind].
    destruct sp; cbn [andb]; [|eauto]. destruct (memN j used) eqn:M; cbn [negb]; [eauto|].
    destruct (splitable_splits c j d FC N ES) as [S' _].
    destruct (get_score_total c j d (count_attr j all) FC NW N S') as (f & -> & _ & P).
    { unfold count_attr; lia. }
    cbn [bind]. destruct acc as [[found best] var]. cbn [hs_inv] in H. destruct H as [H1 H2].
    specialize (P (count_attr_pos j all s I A)).
    assert (eligible j) as EL by (exists d; repeat (split; [easy|]); eauto).
    destruct (fgtb f best) eqn:G.
    - eexists. split; [reflexivity|]. split; [discriminate|]. now intros v [= <-].
    - eexists. split; [reflexivity|]. split; [|exact H2]. intros ->. destruct (H1 eq_refl) as [_ ->].
      rewrite pos_above_zero in G by easy. discriminate.
  Qed.
  Lemma hs_domains_total s : In s all -> forall t pre acc, c_domains c = pre ++ t -> hs_inv acc ->
    exists acc', hs_domains c used all s t (N.of_nat (length pre)) acc = Ok acc' /\ hs_inv acc'.
  Proof.
    intros I. induction t as [|d t IH]; intros pre acc E G; cbn [hs_domains]; [eauto|].
    destruct (hs_step_total s d (N.of_nat (length pre)) acc) as (acc1 & -> & G1); auto.
    { rewrite E. apply nthN_app_mid. }
    cbn [bind]. replace (N.of_nat (length pre) + 1)%N with (N.of_nat (length (pre ++ [d]))) by (rewrite app_length; cbn [length]; lia).
    apply IH; [|easy]. now rewrite <- app_assoc.
  Qed.
  Lemma hs_subs_total : forall rest acc, incl rest all -> hs_inv acc ->
    exists acc', hs_subs c used all rest acc = Ok acc' /\ hs_inv acc'.
  Proof.
    induction rest as [|s t IH]; intros acc I G; cbn [hs_subs]; [eauto|].
    destruct (hs_domains_total s (I s (or_introl eq_refl)) (c_domains c) [] acc eq_refl G) as (acc1 & E & G1).
    change (N.of_nat (length (@nil domain))) with 0%N in E. rewrite E. cbn [bind]. apply IH; [|easy]. intros x Hx. apply I. now right.
  Qed.
  Lemma next_highest_total : exists o, next_highest c used all = Ok o /\ forall v, o = Some v -> eligible v.
  Proof.
    unfold next_highest. destruct (hs_subs_total all (false, f_of_Z 0, None)) as ([[found best] var] & -> & G1 & G2).
    { apply incl_refl. } { split; [auto|discriminate]. }
    cbn [bind]. destruct found.
    - destruct var as [v|]; [|now destruct (G1 eq_refl)]. eexists. split; [reflexivity|]. exact G2.
    - eexists. split; [reflexivity|]. discriminate.
  Qed.
End Choice.

(** *** Distribution *)
Lemma distribute_total choose rest : forall before tl tr, Forall (fun s => exists w, choose s = Ok w) rest ->
  exists stay ls rs, distribute choose before rest tl tr = Ok (stay, ls, rs).
Proof.
  induction rest as [|x rest IH]; intros before tl tr F; cbn [distribute]; [eauto|].
  inversion F as [|? ? [w E] F']; subst. rewrite E. cbn [bind]. destruct w as [[|]|]; apply IH; easy.
Qed.

(** *** Splitting *)
Lemma node_narrow dom b ol orr : splits dom -> narrow_bound dom -> node_rng dom b ol orr ->
  match b with BInt _ lo hi => lo <= hi /\ hi - lo <= INT64_MAX /\ INT64_MIN < lo /\ hi < INT64_MAX
             | BFloat lo hi => coarse lo /\ coarse hi /\ whole_width lo hi
             | BStr _ lo hi => lo <= hi /\ 0 <= lo /\ hi < SIZE_MAX - 1 | BBool lo hi => Z.b2z lo <= Z.b2z hi | _ => False end.
Proof.
  intros S' NW [T L O H _ _ _ FL _].
  destruct dom as [dlo dhi|dw dlo dhi|dlo dhi|dw dlo dhi| | ]; cbn [splits] in S'; try contradiction;
    destruct b as [lo hi|w lo hi|lo hi|w lo hi| | ]; cbn [same_tag] in T; try contradiction; cbn [blo bhi narrow_bound] in *; try lia.
  destruct FL as (C1 & C2 & C3). destruct S' as [MS _]. auto.
Qed.
Lemma atomic_total dom b ol orr : splits dom -> node_rng dom b ol orr -> exists a, is_atomic b = Ok a /\ (a = false -> blo b < bhi b).
Proof.
  intros S' [T L O H _ _ _ FL _].
  destruct dom as [dlo dhi|dw dlo dhi|dlo dhi|dw dlo dhi| | ]; cbn [splits] in S'; try contradiction;
    destruct b as [lo hi|w lo hi|lo hi|w lo hi| | ]; cbn [same_tag] in T; try contradiction; cbn [is_atomic blo bhi] in *;
    (eexists; split; [reflexivity|]); intros E; [|apply Z.eqb_neq in E; lia| |apply Z.eqb_neq in E; lia].
  2:{ destruct FL as (C1 & C2 & _). destruct (Z.eq_dec (units lo) (units hi)) as [U|U]; [|lia].
      apply (feq_apart lo hi (coarse_good _ C1) (coarse_good _ C2) (or_introl U)) in U. congruence. }
  destruct lo, hi; cbn in *; try discriminate; lia.
Qed.
Lemma width_less lo hi lo' hi' : whole_width lo hi -> whole_width lo' hi' -> units hi' - units lo' < units hi - units lo ->
  width (BFloat lo' hi') < width (BFloat lo hi).
Proof.
  intros (k & K) (k' & K') L. unfold width. rewrite K, K' in *. assert (P : 0 < 2 ^ 1074) by (apply Z.pow_pos_nonneg; lia).
  rewrite !Z.div_mul by lia. apply Z.mul_lt_mono_pos_r in L; assumption.
Qed.
Lemma split_total dom b ol orr : splits dom -> narrow_bound dom -> node_rng dom b ol orr -> blo b < bhi b ->
  exists lb rb, split_value_bound b = Ok (lb, rb) /\ width lb < width b /\ width rb < width b.
Proof.
  intros S' NW RR LT. pose proof (node_narrow _ _ _ _ S' NW RR) as K.
  destruct b as [lo hi|w lo hi|lo hi|w lo hi| | ]; try contradiction; cbn [blo bhi] in LT.
  - destruct lo, hi; cbn in LT; try lia. cbn [split_value_bound Bool.eqb]. do 2 eexists. split; [reflexivity|]. cbn. lia.
  - assert (E : exists r, split_value_bound (BInt w lo hi) = Ok r).
    { cbn [split_value_bound]. rewrite llabs_in by lia. cbn [bind].
      destruct (Z.gtb_spec (hi - lo) 2); [eauto|]. destruct (Z.eqb_spec (hi - lo) 2) as [Hz|Hz].
      - rewrite ck64_in by lia. cbn [bind]. eauto.
      - destruct (Z.eqb_spec (hi - lo) 1) as [Hy|Hy]; [eauto|lia]. }
    destruct E as [r E]. destruct (split_int lo hi ltac:(lia) ltac:(lia) ltac:(lia) w r E) as (m & m' & -> & A & B & _).
    exists (BInt w lo m), (BInt w m' hi). split; [exact E|]. unfold width. cbn [blo bhi]. lia.
  - destruct K as (C1 & C2 & WW). destruct (split_float_total lo hi C1 C2 LT WW) as [r E].
    destruct (split_float lo hi r C1 C2 ltac:(lia) E) as (m & m' & -> & _ & _ & A & B & _ & WM1). destruct (WM1 WW) as [W1 W2].
    exists (BFloat lo m), (BFloat m' hi). split; [exact E|]. split; apply width_less; auto; lia.
  - assert (E : exists r, split_value_bound (BStr w lo hi) = Ok r).
    { assert (EQ : to_uint 64 (hi - lo) = hi - lo) by (apply Z.mod_small; unfold SIZE_MAX, UINT64_MAX in *; lia).
      cbn [split_value_bound]. cbv zeta. rewrite !EQ.
      destruct (Z.gtb_spec (hi - lo) 2); [eauto|]. destruct (Z.eqb_spec (hi - lo) 2) as [Hz|Hz]; [eauto|].
      destruct (Z.eqb_spec (hi - lo) 1) as [Hy|Hy]; [eauto|]. lia. }
    destruct E as [r E]. destruct (split_str lo hi ltac:(lia) ltac:(lia) ltac:(unfold SIZE_MAX, UINT64_MAX in *; lia) w r E) as (m & m' & -> & A & B & _).
    exists (BStr w lo m), (BStr w m' hi). split; [exact E|]. unfold width. cbn [blo bhi]. lia.
Qed.

(** *** Membership of a sub in a range *)
Definition bounded_sub (c : config) (s : sub) : Prop :=
  forall v d, nthN (c_domains c) v = Some d -> splits (d_bound d) ->
    exists b, get_variable_bound v (d_bound d) (s_expr s) = Ok b.
Lemma enclosed_ok c s v d b : bounded_sub c s -> nthN (c_domains c) v = Some d -> splits (d_bound d) ->
  same_tag (d_bound d) b -> exists r, sub_is_enclosed c s v b = Ok r.
Proof.
  intros Q N S' T. unfold sub_is_enclosed. destruct (has_attr v s); [|eauto].
  unfold get_domain. rewrite N. cbn [bind]. destruct (Q v d N S') as [r E]. rewrite E. cbn [bind].
  unfold get_variable_bound in E. apply bind_ok in E. destruct E as (p & _ & E).
  destruct (d_bound d) as [dlo dhi|dw dlo dhi|dlo dhi|dw dlo dhi| | ]; cbn [splits] in S'; try contradiction;
    injection E as <-; destruct b as [lo hi|w lo hi|lo hi|w lo hi| | ]; cbn [same_tag] in T; try easy; eauto.
Qed.

(** *** Measures *)
Definition indices (c : config) : list N := map N.of_nat (seq 0 (length (c_domains c))).
Lemma nthN_index c v d : nthN (c_domains c) v = Some d -> In v (indices c).
Proof.
  intros H. unfold indices. apply in_map_iff. exists (N.to_nat v). split; [lia|]. apply in_seq.
  apply nthN_Some_lt in H. lia.
Qed.
Definition unused (c : config) (used : list N) : nat :=
  length (filter (fun j => negb (memN j used)) (indices c)).
Definition present (c : config) (used : list N) (subs : list sub) : nat :=
  length (filter (fun j => negb (memN j used) && existsb (has_attr j) subs) (indices c)).

Lemma filter_le {A} (f g : A -> bool) l : (forall x, g x = true -> f x = true) -> (length (filter g l) <= length (filter f l))%nat.
Proof.
  intros H. induction l as [|x l IH]; [easy|]. cbn [filter]. specialize (H x).
  destruct (g x); [rewrite (H eq_refl); cbn [length]; lia|]. destruct (f x); cbn [length]; lia.
Qed.
Lemma filter_lt {A} (f g : A -> bool) l v : (forall x, g x = true -> f x = true) -> In v l -> f v = true -> g v = false ->
  (length (filter g l) < length (filter f l))%nat.
Proof.
  intros H I Fv Gv. induction l as [|x l IH]; [easy|]. cbn [filter]. destruct I as [->|I].
  - rewrite Fv, Gv. cbn [length]. pose proof (filter_le f g l H). lia.
  - specialize (IH I). specialize (H x). destruct (g x); [rewrite (H eq_refl); cbn [length]; lia|]. destruct (f x); cbn [length]; lia.
Qed.
Lemma unused_le c used : (unused c used <= length (c_domains c))%nat.
Proof.
  unfold unused. etransitivity; [apply (filter_le (fun _ => true)); auto|].
  assert (forall l : list N, length (filter (fun _ => true) l) = length l) as ->.
  { induction l as [|x l IH]; cbn; [easy|]. now rewrite IH. }
  unfold indices. rewrite map_length, seq_length. lia.
Qed.
Lemma unused_cons c used v d : nthN (c_domains c) v = Some d -> memN v used = false ->
  (unused c (v :: used) < unused c used)%nat.
Proof.
  intros N M. unfold unused. apply filter_lt with v.
  - intros x. cbn [memN existsb]. destruct (N.eqb x v); cbn; [discriminate|]. auto.
  - eapply nthN_index; eauto.
  - now rewrite M.
  - cbn [memN existsb]. now rewrite N.eqb_refl.
Qed.
Lemma unused_cons_le c used v : (unused c (v :: used) <= unused c used)%nat.
Proof.
  unfold unused. apply filter_le. intros x. cbn [memN existsb]. destruct (N.eqb x v); cbn; [discriminate|]. auto.
Qed.
Lemma present_le c used subs : (present c used subs <= unused c used)%nat.
Proof. apply filter_le. intros x H. apply andb_prop in H. easy. Qed.
Lemma present_lt c used subs stay v d s : nthN (c_domains c) v = Some d -> memN v used = false -> In s subs -> has_attr v s = true ->
  incl stay subs -> (forall x, In x stay -> has_attr v x = false) -> (present c used stay < present c used subs)%nat.
Proof.
  intros N M I A IN NA. apply filter_lt with v.
  - intros x H. apply andb_prop in H. destruct H as [H1 H2]. rewrite H1. cbn [andb]. apply existsb_exists in H2.
    destruct H2 as (y & Y1 & Y2). apply existsb_exists. exists y. auto.
  - eapply nthN_index; eauto.
  - rewrite M. cbn [negb andb]. apply existsb_exists. eauto.
  - rewrite M. cbn [negb andb]. destruct (existsb (has_attr v) stay) eqn:E; [|easy]. apply existsb_exists in E.
    destruct E as (y & Y1 & Y2). rewrite NA in Y2 by easy. discriminate.
Qed.

(** Fuel that is enough for [space_partitioning] / [space_clustering]. *)
Definition fuel_p (W u k : nat) : nat := (k + 1 + u * (u + W + 3))%nat.
Definition fuel_c (W u w : nat) : nat := (w + 1 + fuel_p W u u)%nat.

Lemma update_capacity_total c cn : c_cap c <> 0 -> exists cn', update_capacity c cn = Ok cn'.
Proof.
  intros H. destruct cn as [m subs ps]. cbn [update_capacity]. unfold cluster_capacity.
  destruct (Z.eqb_spec (c_cap c) 0) as [Hz|Hz]; [easy|]. cbn [bind]. eauto.
Qed.
Lemma rng_tag dom b ol orr : node_rng dom b ol orr -> same_tag dom b.
Proof. now intros [T]. Qed.
Lemma rng_width dom b ol orr : node_rng dom b ol orr -> 0 <= width b.
Proof.
  intros [? ? O]. unfold width. destruct b; cbn [blo bhi] in *; try lia.
Qed.

Theorem space_total c (FC : cfg_fine c) (NW : narrow c) (CAP : c_cap c <> 0) (W := Z.to_nat (Z.max 1 (c_maxsplit c))) : forall fuel,
  (forall used m subs ps, NoDup (ids subs) -> Forall (bounded_sub c) subs ->
     (fuel_p W (unused c used) (present c used subs) <= fuel)%nat ->
     exists cn', space_partitioning fuel c used (CNode m subs ps) = Ok cn')
  /\ (forall used v cd d ol orr, nthN (c_domains c) v = Some d -> splits (d_bound d) ->
     node_rng (d_bound d) (cd_bound cd) ol orr -> NoDup (ids (cn_subs (cd_cnode cd))) ->
     Forall (bounded_sub c) (cn_subs (cd_cnode cd)) ->
     (fuel_c W (unused c used) (Z.to_nat (width (cd_bound cd))) <= fuel)%nat ->
     exists cd', space_clustering fuel c used v cd = Ok cd').
Proof.
  induction fuel as [|fuel [IHp IHc]].
  { split; intros; unfold fuel_c, fuel_p in *; lia. }
  split.
  - intros used m subs ps ND Q F. cbn [space_partitioning].
    destruct (negb _); [now apply update_capacity_total|].
    destruct (next_highest_total c used subs FC NW) as (o & -> & EL). cbn [bind].
    destruct o as [v|]; [|now apply update_capacity_total].
    destruct (_ <? _); [now apply update_capacity_total|].
    destruct (EL v eq_refl) as (d & N & SP & M & s & Is & As).
    destruct (splitable_splits c v d FC N SP) as [S' RW].
    pose proof (splitable_width c v d FC N SP) as WD.
    unfold get_domain. rewrite N. cbn [bind].
    destruct (distribute_total (fun s => Ok (if has_attr v s then Some true else None)) subs [] [] []) as (stay & moved & rs & ED).
    { apply Forall_forall. eauto. }
    rewrite ED. cbn [bind]. apply distribute_ok in ED; [|exact ND]. destruct ED as (S0 & L & R & -> & -> & -> & P & FS & FL & FR).
    cbn [app]. assert (R = []) as ->.
    { destruct R as [|x R]; [easy|]. inversion FR; subst. destruct (has_attr v x); discriminate. }
    rewrite app_nil_r in P.
    pose proof (NoDup_perm_ids _ _ (Permutation_sym P) ND) as ND'. rewrite ids_app in ND'.
    assert (Q' : Forall (bounded_sub c) (S0 ++ L)) by (eapply Permutation_Forall; [apply Permutation_sym, P|exact Q]).
    apply Forall_app in Q'. destruct Q' as [QS QL].
    pose proof (unused_cons c used v d N M) as UL.
    assert (PL : (present c used S0 < present c used subs)%nat).
    { eapply present_lt; eauto.
      - intros x Hx. eapply Permutation_in; [exact P|]. apply in_or_app. now left.
      - intros x Hx. rewrite Forall_forall in FS. specialize (FS x Hx). cbv beta in FS. now destruct (has_attr v x). }
    destruct (IHc (v :: used) v (CLeaf (d_bound d) (make_cnode c L)) d true true) as (cd' & ->); auto.
    { cbn [cd_cnode cn_subs make_cnode]. eapply NoDup_app_r; eauto. }
    { cbn [cd_bound]. unfold fuel_c, fuel_p in *.
      assert (Z.to_nat (width (d_bound d)) <= W)%nat by (unfold W; lia).
      set (u := unused c used) in *. set (u' := unused c (v :: used)) in *.
      assert ((u' + 1) * (u' + 1 + W + 3) <= u * (u + W + 3))%nat by (apply Nat.mul_le_mono; lia). nia. }
    cbn [bind]. apply IHp; auto.
    { eapply NoDup_app_l; eauto. }
    unfold fuel_p in *. lia.
  - intros used v cd d ol orr N S' RR ND Q F. cbn [space_clustering].
    assert (NB : narrow_bound (d_bound d)) by (apply NW; eapply nthN_In; eauto).
    assert (PU : forall m subs ps, NoDup (ids subs) -> Forall (bounded_sub c) subs ->
      exists cn1, space_partitioning fuel c used (CNode m subs ps) = Ok cn1).
    { intros m subs ps ND1 Q1. apply IHp; auto. pose proof (present_le c used subs). unfold fuel_c, fuel_p in *. lia. }
    destruct (negb _); [eauto|]. destruct cd as [b [m subs ps]|b [m subs ps] l r]; cbn [cd_bound cd_cnode cn_subs] in *.
    + destruct (atomic_total _ _ _ _ S' RR) as (a & -> & AT). cbn [bind]. destruct a.
      * destruct (PU m subs ps ND Q) as (cn1 & ->). cbn [bind]. destruct (update_capacity_total c cn1 CAP) as (cn2 & ->).
        cbn [bind]. eauto.
      * destruct (split_total _ _ _ _ S' NB RR (AT eq_refl)) as (lb & rb & ES & WL & WR). rewrite ES. cbn [bind].
        destruct (split_rng _ _ _ _ _ _ S' RR ES) as [RL RRr].
        set (choose := fun s : sub => bind (sub_is_enclosed c s v lb) _).
        destruct (distribute_total choose subs [] [] []) as (stay & ls & rs & ED).
        { rewrite Forall_forall in *. intros s Hs. unfold choose.
          destruct (enclosed_ok c s v d lb (Q s Hs) N S' (rng_tag _ _ _ _ RL)) as (x & ->). cbn [bind]. destruct x; [eauto|].
          destruct (enclosed_ok c s v d rb (Q s Hs) N S' (rng_tag _ _ _ _ RRr)) as (y & ->). cbn [bind]. eauto. }
        rewrite ED. cbn [bind]. apply distribute_ok in ED; [|exact ND]. destruct ED as (S0 & L & R & -> & -> & -> & P & _).
        cbn [app]. pose proof (NoDup_perm_ids _ _ (Permutation_sym P) ND) as ND'. rewrite !ids_app in ND'.
        assert (Q' : Forall (bounded_sub c) (S0 ++ L ++ R)) by (eapply Permutation_Forall; [apply Permutation_sym, P|exact Q]).
        rewrite !Forall_app in Q'. destruct Q' as (QS & QL & QR).
        destruct (PU m S0 ps) as (cn1 & ->); [eapply NoDup_app_l; eauto|easy|]. cbn [bind].
        pose proof (rng_width _ _ _ _ RL). pose proof (rng_width _ _ _ _ RRr).
        destruct (IHc used v (CLeaf lb (make_cnode c L)) d ol false) as (l & ->); auto.
        { cbn [cd_cnode cn_subs make_cnode]. eapply NoDup_app_l, NoDup_app_r; eauto. }
        { cbn [cd_bound]. unfold fuel_c in *. lia. }
        cbn [bind]. destruct (IHc used v (CLeaf rb (make_cnode c R)) d false orr) as (r & ->); auto.
        { cbn [cd_cnode cn_subs make_cnode]. eapply NoDup_app_r, NoDup_app_r; eauto. }
        { cbn [cd_bound]. unfold fuel_c in *. lia. }
        cbn [bind]. destruct (update_capacity_total c cn1 CAP) as (cn2 & ->). cbn [bind]. eauto.
    + destruct (PU m subs ps ND Q) as (cn1 & ->). cbn [bind]. destruct (update_capacity_total c cn1 CAP) as (cn2 & ->).
      cbn [bind]. eauto.
Qed.

(** *** Ranges and scores inside a tree *)
Section Fit.
  Variable W : Z.
  Fixpoint fit_cnode (cn : cnode) : Prop := match cn with CNode _ _ ps => fit_pdir ps end
  with fit_pdir (ps : pdir) : Prop :=
    match ps with
    | PNil => True
    | PCons _ sc cd rest => nonneg_flt sc /\ fit_cdir cd /\ fit_pdir rest
    end
  with fit_cdir (cd : cdir) : Prop :=
    match cd with
    | CLeaf b cn => width b <= W /\ fit_cnode cn
    | CSplit b cn l r => width b <= W /\ fit_cnode cn /\ fit_cdir l /\ fit_cdir r
    end.
  Lemma fit_app v sc cd : forall ps, fit_pdir ps -> nonneg_flt sc -> fit_cdir cd -> fit_pdir (pdir_app ps v sc cd).
  Proof. fix IH 1. destruct ps as [|w s d rest]; cbn [pdir_app fit_pdir]; [easy|]. intros (A & B & C) H K. auto. Qed.
End Fit.

Theorem space_fit c (FC : cfg_fine c) (W := Z.max 1 (c_maxsplit c)) : forall fuel,
  (forall used cn cn', fit_cnode W cn -> space_partitioning fuel c used cn = Ok cn' -> fit_cnode W cn')
  /\ (forall used v cd cd' d ol orr, nthN (c_domains c) v = Some d -> splits (d_bound d) ->
     node_rng (d_bound d) (cd_bound cd) ol orr -> fit_cdir W cd ->
     space_clustering fuel c used v cd = Ok cd' -> fit_cdir W cd').
Proof.
  assert (UC : forall cn cn', update_capacity c cn = Ok cn' -> fit_cnode W cn -> fit_cnode W cn').
  { intros cn cn' H HO. apply update_capacity_ok in H. destruct H as (m & m' & subs & ps & -> & -> & _). exact HO. }
  induction fuel as [|fuel [IHp IHc]]; [split; intros; discriminate|]. split.
  - intros used [m subs ps] cn' HF H. cbn [space_partitioning] in H.
    destruct (negb _); [now apply (UC _ _ H)|].
    apply bind_ok in H. destruct H as (o & Eo & H). destruct o as [v|]; [|now apply (UC _ _ H)].
    destruct (_ <? _); [now apply (UC _ _ H)|].
    apply next_highest_ok in Eo. destruct Eo as (d & N & SP).
    destruct (splitable_splits c v d FC N SP) as [S' RW].
    pose proof (splitable_width c v d FC N SP) as WD. fold W in WD.
    unfold get_domain in H. rewrite N in H. cbn [bind] in H.
    apply bind_ok in H. destruct H as ([[stay moved] ?] & ED & H).
    apply bind_ok in H. destruct H as (cd & EC & H).
    eapply IHp; [|exact H]. cbn [fit_cnode] in *. apply fit_app; [easy|easy|].
    eapply IHc; [exact N|exact S'| | |exact EC].
    + exact RW.
    + cbn [fit_cdir make_cnode fit_cnode fit_pdir]. easy.
  - intros used v cd cd' d ol orr N S' RR HF H. cbn [space_clustering] in H.
    destruct (negb _); [injection H as <-; auto|].
    destruct cd as [b cn|b cn l r]; cbn [cd_bound cd_cnode fit_cdir] in *.
    + apply bind_ok in H. destruct H as (a & Ea & H). destruct a.
      * apply bind_ok in H. destruct H as (cn1 & E1 & H). apply bind_ok in H. destruct H as (cn2 & E2 & [= <-]).
        cbn [fit_cdir]. split; [easy|]. eapply UC; [exact E2|]. eapply IHp; [|exact E1]. easy.
      * apply bind_ok in H. destruct H as ([lb rb] & ES & H). destruct cn as [m subs ps].
        apply bind_ok in H. destruct H as ([[stay ls] rs] & ED & H).
        apply bind_ok in H. destruct H as (cn1 & E1 & H). apply bind_ok in H. destruct H as (l & El & H).
        apply bind_ok in H. destruct H as (r & Er & H). apply bind_ok in H. destruct H as (cn2 & E2 & [= <-]).
        destruct (split_rng _ _ _ _ _ _ S' RR ES) as [RL RRr].
        assert (WW : width lb <= W /\ width rb <= W).
        { enough (width lb <= width b /\ width rb <= width b) by lia.
          clear - RR ES S'. destruct RR as [T L O H _ _ _ FL _].
          destruct (d_bound d) as [dlo dhi|dw dlo dhi|dlo dhi|dw dlo dhi| | ]; cbn [splits] in S'; try contradiction;
            destruct b as [lo hi|w lo hi|lo hi|w lo hi| | ]; cbn [same_tag] in T; try contradiction; cbn [blo bhi] in *; unfold width.
          - cbn [split_value_bound] in ES. destruct (Bool.eqb lo hi); [discriminate|]. injection ES as <- <-. cbn [blo bhi]. lia.
          - destruct (split_int lo hi O ltac:(lia) ltac:(lia) w _ ES) as (m & m' & E & A & B & _). injection E as -> ->. cbn [blo bhi]. lia.
          - destruct FL as (C1 & C2 & _). destruct (split_float lo hi _ C1 C2 O ES) as (m & m' & E & _ & _ & A & B & _). injection E as -> ->.
            assert (0 < 2 ^ 1074) by (apply Z.pow_pos_nonneg; lia). split; apply Z.div_le_mono; lia.
          - destruct (split_str lo hi O ltac:(lia) ltac:(lia) w _ ES) as (m & m' & E & A & B & _). injection E as -> ->. cbn [blo bhi]. lia. }
        cbn [fit_cdir]. split; [easy|]. split; [|split].
        -- eapply UC; [exact E2|]. eapply IHp; [|exact E1]. easy.
        -- eapply (IHc _ _ (CLeaf lb (make_cnode c ls)) _ d ol false); [exact N|exact S'|exact RL| |exact El]. easy.
        -- eapply (IHc _ _ (CLeaf rb (make_cnode c rs)) _ d false orr); [exact N|exact S'|exact RRr| |exact Er]. easy.
    + apply bind_ok in H. destruct H as (cn1 & E1 & H). apply bind_ok in H. destruct H as (cn2 & E2 & [= <-]).
      cbn [fit_cdir]. destruct HF as (A & B & C). split; [easy|]. split; [|easy]. eapply UC; [exact E2|]. now apply IHp in E1.
Qed.

Lemma partition_score_nonneg c v cd f d : cfg_fine c -> nthN (c_domains c) v = Some d -> splits (d_bound d) -> partition_score c v cd = Ok f -> nonneg_flt f.
Proof.
  intros FC N S' H. unfold partition_score, get_domain in H. rewrite N in H. cbn [bind] in H.
  apply bind_ok in H. destruct H as (s & E & [= <-]). apply to_f32_nonneg.
  unfold get_score in E. apply bind_ok in E. destruct E as (z & E & [= <-]).
  apply score_nonneg; [apply count_cdir_nonneg|destruct (d_undef d); auto|].
  assert (0 <= z <= 2 ^ 64 - 1); [|destruct (Z.eqb_spec z 0) as [Hz|Hz]; lia].
  destruct (d_bound d) as [lo hi|w lo hi|lo hi|w lo hi| | ] eqn:D; cbn [domain_bound_diff] in *; try contradiction;
    try (cbn [splits] in S'; contradiction).
  - injection E as <-. lia.
  - cbn [splits] in S'. destruct (Z.eqb_spec lo INT64_MIN) as [Hz|Hz]; [lia|]. cbn [andb] in E.
    unfold llabs_diff in E. apply bind_ok in E. destruct E as (z' & L1 & L2). unfold ck64 in L1, L2.
    destruct (_ && _) in L1; [|discriminate]. injection L1 as <-.
    destruct ((INT64_MIN <=? Z.abs (hi - lo)) && (Z.abs (hi - lo) <=? INT64_MAX)) eqn:B; [|discriminate]. injection L2 as <-.
    unfold INT64_MAX in *. lia.
  - destruct (float_diff c v d lo hi FC N D) as [_ K]. destruct (K S') as (z' & Z1 & Z2). destruct S' as (_ & _ & _ & _ & F1 & _).
    rewrite F1 in E. cbn [andb] in E. rewrite Z1 in E. injection E as <-. unfold UINT64_MAX in Z2. lia.
  - injection E as <-. unfold to_uint. pose proof (Z.mod_pos_bound (hi - lo) (2 ^ 64)). lia.
Qed.

Theorem ins_fit c (FC : cfg_fine c) (W := Z.max 1 (c_maxsplit c)) fuel s :
  (forall cn, match cn with CNode _ _ ps =>
     forall used w ps', ok_pdir (c_domains c) ps -> fit_pdir W ps -> ins_pdir fuel c s used w ps = Ok ps' -> fit_pdir W ps' end)
  /\ (forall ps used w ps', ok_pdir (c_domains c) ps -> fit_pdir W ps -> ins_pdir fuel c s used w ps = Ok ps' -> fit_pdir W ps')
  /\ (forall cd used v cd' d ol orr, nthN (c_domains c) v = Some d -> splits (d_bound d) ->
       node_rng (d_bound d) (cd_bound cd) ol orr -> ok_cdir (c_domains c) v (d_bound d) ol orr cd -> fit_cdir W cd ->
       ins_cdir fuel c s used v cd = Ok cd' -> fit_cdir W cd').
Proof.
  apply tree_mut.
  - intros m subs ps IH. exact IH.
  - intros used w ps' _ _ H. discriminate.
  - intros v sc cd IHcd rest IHr used w ps' HO HF H. cbn [ins_pdir] in H. cbn [ok_pdir] in HO. cbn [fit_pdir] in HF.
    destruct HO as ((d & N & S' & RR & O) & OR). destruct HF as (F1 & F2 & F3).
    destruct (w =? v)%N.
    + apply bind_ok in H. destruct H as (cd' & E & H). apply bind_ok in H. destruct H as (sc' & ES & [= <-]).
      cbn [fit_pdir]. split; [eapply partition_score_nonneg; eauto|]. split; [|easy]. eapply IHcd; eauto.
    + apply bind_ok in H. destruct H as (rest' & E & [= <-]). cbn [fit_pdir]. split; [easy|]. split; [easy|]. eapply IHr; eauto.
  - intros b cn IHcn used v cd' d ol orr N S' RR HO HF H. destruct cn as [m subs ps]. cbn [ins_cdir] in H.
    cbn [ok_cdir ok_cnode cd_bound fit_cdir fit_cnode] in *.
    apply bind_ok in H. destruct H as (o & _ & H). destruct o as [w|].
    + apply bind_ok in H. destruct H as (ps' & E & [= <-]). cbn [fit_cdir fit_cnode]. split; [easy|]. eapply IHcn; eauto. easy.
    + eapply (proj2 (space_fit c FC fuel) used v _ cd' d ol orr); [exact N|exact S'| | |exact H]; cbn [cd_bound fit_cdir fit_cnode]; easy.
  - intros b cn IHcn l IHl r IHr used v cd' d ol orr N S' RR HO HF H. destruct cn as [m subs ps]. cbn [ins_cdir] in H.
    cbn [ok_cdir ok_cnode cd_bound fit_cdir fit_cnode] in *.
    destruct HO as (O1 & (RL & FL & OL) & (RR' & FR & ORr)). destruct HF as (F1 & F2 & F3 & F4).
    apply bind_ok in H. destruct H as (el & EL & H). destruct el.
    { apply bind_ok in H. destruct H as (l' & E & [= <-]). cbn [fit_cdir fit_cnode]. split; [easy|]. split; [easy|]. split; [|easy]. eapply IHl; eauto. }
    apply bind_ok in H. destruct H as (er & ER & H). destruct er.
    { apply bind_ok in H. destruct H as (r' & E & [= <-]). cbn [fit_cdir fit_cnode]. split; [easy|]. split; [easy|]. split; [easy|]. eapply IHr; eauto. }
    apply bind_ok in H. destruct H as (o & _ & H). destruct o as [w|].
    + apply bind_ok in H. destruct H as (ps' & E & [= <-]). cbn [fit_cdir fit_cnode]. split; [easy|]. split; [|easy]. eapply IHcn; eauto.
    + eapply (proj2 (space_fit c FC fuel) used v _ cd' d ol orr); [exact N|exact S'| | |exact H]; cbn [cd_bound fit_cdir fit_cnode]; easy.
Qed.
Lemma insert_root_fit c fuel s cn cn' : cfg_fine c -> ok_cnode (c_domains c) cn -> fit_cnode (Z.max 1 (c_maxsplit c)) cn ->
  insert_root fuel c s cn = Ok cn' -> fit_cnode (Z.max 1 (c_maxsplit c)) cn'.
Proof.
  intros FC HO HF H. destruct cn as [m subs ps]. cbn [insert_root ok_cnode fit_cnode] in *.
  apply bind_ok in H. destruct H as (o & _ & H). destruct o as [w|].
  - apply bind_ok in H. destruct H as (ps' & E & [= <-]). cbn [fit_cnode]. eapply (proj1 (proj2 (ins_fit c FC fuel s))); eauto.
  - eapply (proj1 (space_fit c FC fuel)) in H; eauto.
Qed.

(** *** Choice of an existing partition *)
Lemma pdir_score_fit W v sc : forall ps, fit_pdir W ps -> pdir_score v ps = Some sc -> nonneg_flt sc.
Proof.
  fix IH 1. destruct ps as [|w s cd rest]; cbn [pdir_score fit_pdir]; intros F E; [discriminate|].
  destruct F as (F1 & _ & F3). destruct (v =? w)%N; [congruence|]. eapply IH; eauto.
Qed.
Definition cp_inv (ps : pdir) (acc : bool * flt * option N) : Prop :=
  match acc with (found, best, var) =>
    (var = None -> found = false /\ best = f_to_f32 (fopp DBL_MAX)) /\ (forall v, var = Some v -> pdir_score v ps <> None) end.
Lemma choose_pnode_inv W ps s used : fit_pdir W ps -> forall n j acc, cp_inv ps acc -> cp_inv ps (choose_pnode n j s used ps acc).
Proof.
  intros F. induction n as [|n IH]; intros j acc H; cbn [choose_pnode]; [easy|]. apply IH.
  destruct (_ && _); [|easy]. destruct (pdir_score j ps) as [sc|] eqn:E; [|easy].
  destruct acc as [[found best] var]. cbn [cp_inv] in H. destruct H as [H1 H2].
  destruct (fltb best sc) eqn:L.
  - split; [discriminate|]. intros v [= <-]. congruence.
  - split; [|exact H2]. intros ->. destruct (H1 eq_refl) as [_ ->].
    rewrite above_lowest in L by (eapply pdir_score_fit; eauto). discriminate.
Qed.
Lemma find_partition_total c s used W ps : fit_pdir W ps ->
  exists o, find_partition c s used ps = Ok o /\ forall v, o = Some v -> pdir_score v ps <> None.
Proof.
  intros F. unfold find_partition.
  assert (K : cp_inv ps (choose_pnode (length (c_domains c)) 0 s used ps (false, f_to_f32 (fopp DBL_MAX), None))).
  { eapply choose_pnode_inv; eauto. split; [auto|discriminate]. }
  destruct (choose_pnode _ _ _ _ _ _) as [[found best] var]. destruct K as [K1 K2]. destruct found.
  - destruct var as [v|]; [|now destruct (K1 eq_refl)]. eexists. split; [reflexivity|]. exact K2.
  - eexists. split; [reflexivity|]. discriminate.
Qed.

Lemma fuel_c_mono W u w u' w' : (u <= u' -> w <= w' -> fuel_c W u w <= fuel_c W u' w')%nat.
Proof. intros A B. unfold fuel_c, fuel_p. assert (u * (u + W + 3) <= u' * (u' + W + 3))%nat by (apply Nat.mul_le_mono; lia). lia. Qed.

Theorem ins_total c (FC : cfg_fine c) (NW : narrow c) (CAP : c_cap c <> 0) (W := Z.max 1 (c_maxsplit c)) fuel s :
  (fuel_c (Z.to_nat W) (length (c_domains c)) (Z.to_nat W) <= fuel)%nat -> bounded_sub c s ->
  (forall cn, match cn with CNode _ _ ps =>
     forall used w, ok_pdir (c_domains c) ps -> fit_pdir W ps -> NoDup (ids (s :: subs_pdir ps)) ->
       Forall (bounded_sub c) (subs_pdir ps) -> pdir_score w ps <> None ->
       exists ps', ins_pdir fuel c s used w ps = Ok ps' end)
  /\ (forall ps used w, ok_pdir (c_domains c) ps -> fit_pdir W ps -> NoDup (ids (s :: subs_pdir ps)) ->
       Forall (bounded_sub c) (subs_pdir ps) -> pdir_score w ps <> None ->
       exists ps', ins_pdir fuel c s used w ps = Ok ps')
  /\ (forall cd used v d ol orr, nthN (c_domains c) v = Some d -> splits (d_bound d) ->
       node_rng (d_bound d) (cd_bound cd) ol orr -> ok_cdir (c_domains c) v (d_bound d) ol orr cd -> fit_cdir W cd ->
       NoDup (ids (s :: subs_cdir cd)) -> Forall (bounded_sub c) (subs_cdir cd) ->
       exists cd', ins_cdir fuel c s used v cd = Ok cd').
Proof.
  intros FU BS.
  assert (SC : forall used v cd d ol orr, nthN (c_domains c) v = Some d -> splits (d_bound d) ->
     node_rng (d_bound d) (cd_bound cd) ol orr -> width (cd_bound cd) <= W -> NoDup (ids (cn_subs (cd_cnode cd))) ->
     Forall (bounded_sub c) (cn_subs (cd_cnode cd)) ->
     exists cd', space_clustering fuel c used v cd = Ok cd').
  { intros used v cd d ol orr N S' RR WD ND Q. eapply (proj2 (space_total c FC NW CAP fuel)); eauto. fold W.
    etransitivity; [|exact FU]. apply fuel_c_mono; [apply unused_le|lia]. }
  apply tree_mut.
  - intros m subs ps IH. exact IH.
  - intros used w _ _ _ _ H. now destruct H.
  - intros v sc cd IHcd rest IHr used w HO HF ND Q E. cbn [ins_pdir]. cbn [ok_pdir] in HO. cbn [fit_pdir] in HF.
    destruct HO as ((d & N & S' & RR & O) & OR). destruct HF as (F1 & F2 & F3). cbn [subs_pdir] in *.
    apply Forall_app in Q. destruct Q as [Q1 Q2]. cbn [pdir_score] in E.
    destruct (w =? v)%N.
    + destruct (IHcd (v :: used) v d true true) as (cd' & EC); auto.
      { rewrite app_comm_cons, ids_app in ND. eapply NoDup_app_l; eauto. }
      rewrite EC. cbn [bind]. unfold partition_score, get_domain. rewrite N. cbn [bind].
      destruct (get_score_total c v d (count_cdir v cd') FC NW N S') as (f & -> & _).
      { apply count_cdir_nonneg. }
      cbn [bind]. eauto.
    + destruct (IHr used w) as (rest' & ->); auto; [|cbn [bind]; eauto].
      eapply NoDup_app_r. rewrite <- ids_app. eapply NoDup_perm_ids; [|exact ND]. rewrite <- Permutation_middle. reflexivity.
  - intros b cn IHcn used v d ol orr N S' RR HO HF ND Q. destruct cn as [m subs ps]. cbn [ins_cdir].
    cbn [ok_cdir ok_cnode cd_bound fit_cdir fit_cnode subs_cdir subs_cnode] in *.
    apply Forall_app in Q. destruct Q as [Q1 Q2].
    destruct (find_partition_total c s used W ps) as (o & -> & OS); [easy|]. cbn [bind]. destruct o as [w|].
    + destruct (IHcn used w) as (ps' & ->); auto; [easy| |cbn [bind]; eauto].
      eapply NoDup_app_r. rewrite <- ids_app. eapply NoDup_perm_ids; [|exact ND]. rewrite <- Permutation_middle. reflexivity.
    + eapply SC; eauto; cbn [cd_bound cd_cnode cn_subs]; [easy| |].
      * eapply NoDup_app_l. rewrite <- ids_app. eapply NoDup_perm_ids; [|exact ND]. symmetry. apply perm_last.
      * apply Forall_app. auto.
  - intros b cn IHcn l IHl r IHr used v d ol orr N S' RR HO HF ND Q. destruct cn as [m subs ps]. cbn [ins_cdir].
    cbn [ok_cdir ok_cnode cd_bound fit_cdir fit_cnode subs_cdir subs_cnode] in *.
    destruct HO as (O1 & (RL & FL & OL) & (RR' & FR & ORr)). destruct HF as (F1 & F2 & F3 & F4).
    rewrite !Forall_app in Q. destruct Q as ((Q1 & Q2) & Q3 & Q4).
    assert (NoDup (ids (s :: subs_cdir l)) /\ NoDup (ids (s :: subs_cdir r)) /\ NoDup (ids (s :: subs ++ subs_pdir ps))) as (ND1 & ND2 & ND3).
    { assert (NoDup (ids ((s :: subs_cdir l) ++ (subs ++ subs_pdir ps) ++ subs_cdir r))) as K1.
      { eapply NoDup_perm_ids; [|exact ND]. cbn [app]. apply perm_skip. rewrite !app_assoc. apply Permutation_app_tail.
        rewrite Permutation_app_comm. now rewrite !app_assoc. }
      assert (NoDup (ids ((s :: subs_cdir r) ++ (subs ++ subs_pdir ps) ++ subs_cdir l))) as K2.
      { eapply NoDup_perm_ids; [|exact ND]. cbn [app]. apply perm_skip. rewrite !app_assoc.
        rewrite Permutation_app_comm. now rewrite !app_assoc. }
      rewrite ids_app in K1, K2. rewrite app_comm_cons, ids_app in ND. repeat split; eapply NoDup_app_l; eauto. }
    destruct (enclosed_ok c s v d (cd_bound l) BS N S' (rng_tag _ _ _ _ RL)) as (el & ->). cbn [bind]. destruct el.
    { destruct (IHl used v d ol false) as (l' & ->); auto. cbn [bind]. eauto. }
    destruct (enclosed_ok c s v d (cd_bound r) BS N S' (rng_tag _ _ _ _ RR')) as (er & ->). cbn [bind]. destruct er.
    { destruct (IHr used v d false orr) as (r' & ->); auto. cbn [bind]. eauto. }
    destruct (find_partition_total c s used W ps) as (o & -> & OS); [easy|]. cbn [bind]. destruct o as [w|].
    + destruct (IHcn used w) as (ps' & ->); auto; [|cbn [bind]; eauto].
      eapply NoDup_app_r. rewrite <- ids_app. eapply NoDup_perm_ids; [|exact ND3]. rewrite <- Permutation_middle. reflexivity.
    + eapply SC; eauto; cbn [cd_bound cd_cnode cn_subs].
      * eapply NoDup_app_l. rewrite <- ids_app. eapply NoDup_perm_ids; [|exact ND3]. symmetry. apply perm_last.
      * apply Forall_app. auto.
Qed.

Theorem insert_root_total c fuel s cn : cfg_fine c -> narrow c -> c_cap c <> 0 ->
  ((length (c_domains c) + 1) * (length (c_domains c) + Z.to_nat (c_maxsplit c) + 8) <= fuel)%nat ->
  ok_cnode (c_domains c) cn -> fit_cnode (Z.max 1 (c_maxsplit c)) cn -> NoDup (ids (s :: subs_cnode cn)) ->
  bounded_sub c s -> Forall (bounded_sub c) (subs_cnode cn) -> exists cn', insert_root fuel c s cn = Ok cn'.
Proof.
  intros FC NW CAP FU HO HF ND BS Q. destruct cn as [m subs ps]. cbn [insert_root ok_cnode fit_cnode subs_cnode] in *.
  apply Forall_app in Q. destruct Q as [Q1 Q2].
  assert (FU' : (fuel_c (Z.to_nat (Z.max 1 (c_maxsplit c))) (length (c_domains c)) (Z.to_nat (Z.max 1 (c_maxsplit c))) <= fuel)%nat).
  { etransitivity; [|exact FU]. unfold fuel_c, fuel_p. set (n := length (c_domains c)).
    assert (Z.to_nat (Z.max 1 (c_maxsplit c)) <= Z.to_nat (c_maxsplit c) + 1)%nat by lia.
    set (k := Z.to_nat (c_maxsplit c)) in *. set (w := Z.to_nat (Z.max 1 (c_maxsplit c))) in *.
    assert (n * (n + w + 3) <= n * (n + k + 4))%nat by (apply Nat.mul_le_mono; lia). nia. }
  destruct (find_partition_total c s [] (Z.max 1 (c_maxsplit c)) ps HF) as (o & -> & OS). cbn [bind]. destruct o as [w|].
  - destruct (proj1 (proj2 (ins_total c FC NW CAP fuel s FU' BS)) ps [] w) as (ps' & ->); auto; [|cbn [bind]; eauto].
    eapply NoDup_app_r. rewrite <- ids_app. eapply NoDup_perm_ids; [|exact ND]. rewrite <- Permutation_middle. reflexivity.
  - apply (proj1 (space_total c FC NW CAP fuel)).
    + eapply NoDup_app_l. rewrite <- ids_app. eapply NoDup_perm_ids; [|exact ND]. symmetry. apply perm_last.
    + apply Forall_app. auto.
    + etransitivity; [|exact FU']. unfold fuel_c.
      pose proof (unused_le c []). pose proof (present_le c [] (subs ++ [s])). unfold fuel_p.
      set (n := length (c_domains c)) in *. set (u := unused c []) in *. set (w := Z.to_nat (Z.max 1 (c_maxsplit c))).
      assert (u * (u + w + 3) <= n * (n + w + 3))%nat by (apply Nat.mul_le_mono; lia). lia.
Qed.
End Mode.
