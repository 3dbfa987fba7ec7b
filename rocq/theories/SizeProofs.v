(** Ranges are halved, so partitions are small. *)
From Coq Require Import ZArith NArith String Bool List Permutation Lia ZifyBool ZifyNat ZifyN.
From Verif Require Import Base BaseProofs Float FloatSpec RoundProofs FloatOrd Value Ast Config Assign Special Match Bound Tree TreeSpec TreeProofs PredMap Source Api
  InternProofs ExtProofs ShortProofs BoundedProofs Hist Calls CallProofs SizeSpec.
Import ListNotations.
Local Open Scope list_scope.
Local Open Scope res_scope.

Definition narrow_top (M : Z) (b : bound) : Prop := discrete b -> (width b < Z.max 2 M)%Z.
Section Cut.
  Context (M : Z).
  Fixpoint cut_cnode (cn : cnode) : Prop := match cn with CNode _ _ ps => cut_pdir ps end
  with cut_pdir (ps : pdir) : Prop :=
    match ps with PNil => True | PCons _ _ cd rest => narrow_top M (cd_bound cd) /\ cut_cdir cd /\ cut_pdir rest end
  with cut_cdir (cd : cdir) : Prop :=
    match cd with
    | CLeaf _ cn => cut_cnode cn
    | CSplit b cn l r => split_value_bound b = Ok (cd_bound l, cd_bound r) /\ is_atomic b = Ok false /\ cut_cnode cn /\ cut_cdir l /\ cut_cdir r
    end.
  Lemma cut_app v sc cd : forall ps, cut_pdir ps -> narrow_top M (cd_bound cd) -> cut_cdir cd -> cut_pdir (pdir_app ps v sc cd).
  Proof. fix IH 1. destruct ps as [|w s d rest]; cbn [pdir_app cut_pdir]; [easy|]. intros (A & B & C) H K. auto. Qed.
End Cut.
Lemma abs_ck a b w : llabs_diff a b = Ok w -> w = Z.abs (a - b).
Proof.
  unfold llabs_diff. intros H. apply bind_ok in H. destruct H as (d & H1 & H2). unfold ck64 in *.
  destruct (_ && _); [|discriminate]. injection H1 as <-. destruct (_ && _); [|discriminate]. now injection H2 as <-.
Qed.
Lemma splitable_top c b : splitable c b = Ok true -> narrow_top (c_maxsplit c) b.
Proof.
  intros H D. destruct b as [lo hi|t lo hi|lo hi|t lo hi| | ]; cbn [splitable discrete width] in *; try easy.
  - destruct (Bool.eqb lo hi); lia.
  - destruct (_ || _); [discriminate|]. apply bind_ok in H. destruct H as (w & H1 & H2). apply abs_ck in H1. injection H2 as H2. lia.
  - destruct (_ || _); [discriminate|]. destruct D as (CL & CH & LE & _). rewrite (coarse_diff lo hi CL CH LE) in H. cbn [bind] in H.
    apply Ok_inj in H. apply Z.ltb_lt in H. eapply Z.lt_le_trans; [exact H|]. apply Z.le_max_r.
  - destruct (_ =? _)%Z; [discriminate|]. injection H as H. unfold to_uint in H. lia.
Qed.

Theorem space_cut c : forall fuel,
  (forall used cn cn', cut_cnode (c_maxsplit c) cn -> space_partitioning fuel c used cn = Ok cn' -> cut_cnode (c_maxsplit c) cn')
  /\ (forall used v cd cd', cut_cdir (c_maxsplit c) cd -> space_clustering fuel c used v cd = Ok cd' ->
        cut_cdir (c_maxsplit c) cd' /\ cd_bound cd' = cd_bound cd).
Proof.
  assert (UC : forall cn cn', update_capacity c cn = Ok cn' -> cut_cnode (c_maxsplit c) cn -> cut_cnode (c_maxsplit c) cn').
  { intros cn cn' H HO. apply update_capacity_ok in H. destruct H as (m & m' & subs & ps & -> & -> & _). exact HO. }
  induction fuel as [|fuel [IHp IHc]]; [split; intros; discriminate|]. split.
  - intros used [m subs ps] cn' HF H. cbn [space_partitioning] in H.
    destruct (negb _); [now apply (UC _ _ H)|].
    apply bind_ok in H. destruct H as (o & Eo & H). destruct o as [v|]; [|now apply (UC _ _ H)].
    destruct (_ <? _)%Z; [now apply (UC _ _ H)|].
    apply next_highest_ok in Eo. destruct Eo as (d & N & SP).
    unfold get_domain in H. rewrite N in H. cbn [bind] in H.
    apply bind_ok in H. destruct H as ([[stay moved] ?] & ED & H).
    apply bind_ok in H. destruct H as (cd & EC & H). apply IHc in EC; [|easy]. destruct EC as [EC EB].
    apply (IHp used (CNode m stay (pdir_app ps v (f_of_Z 0) cd)) cn'); [|exact H]. cbn [cut_cnode] in *. apply cut_app; [easy| |easy].
    rewrite EB. cbn [cd_bound]. now apply splitable_top.
  - intros used v cd cd' HF H. cbn [space_clustering] in H.
    destruct (negb _); [injection H as <-; auto|].
    destruct cd as [b cn|b cn l r]; cbn [cd_bound cd_cnode cut_cdir] in *.
    + apply bind_ok in H. destruct H as (a & Ea & H). destruct a.
      * apply bind_ok in H. destruct H as (cn1 & E1 & H). apply bind_ok in H. destruct H as (cn2 & E2 & [= <-]).
        cbn [cut_cdir cd_bound]. split; [|easy]. eapply UC; [exact E2|]. now apply IHp in E1.
      * apply bind_ok in H. destruct H as ([lb rb] & ES & H). destruct cn as [m subs ps].
        apply bind_ok in H. destruct H as ([[stay ls] rs] & ED & H).
        apply bind_ok in H. destruct H as (cn1 & E1 & H). apply bind_ok in H. destruct H as (l & El & H).
        apply bind_ok in H. destruct H as (r & Er & H). apply bind_ok in H. destruct H as (cn2 & E2 & [= <-]).
        apply IHc in El; [|easy]. apply IHc in Er; [|easy]. destruct El as [Cl Bl], Er as [Cr Br]. cbn [cd_bound] in *.
        cbn [cut_cdir cd_bound]. split; [|easy]. rewrite Bl, Br. split; [easy|]. split; [easy|]. split; [|now split].
        eapply UC; [exact E2|]. apply (IHp used (CNode m stay ps)); easy.
    + apply bind_ok in H. destruct H as (cn1 & E1 & H). apply bind_ok in H. destruct H as (cn2 & E2 & [= <-]).
      cbn [cut_cdir cd_bound]. split; [|easy]. destruct HF as (A & B & C & D & E). split; [easy|]. split; [easy|]. split; [|now split].
      eapply UC; [exact E2|]. now apply IHp in E1.
Qed.
Theorem ins_cut c fuel s :
  (forall cn, match cn with CNode _ _ ps =>
     forall used w ps', cut_pdir (c_maxsplit c) ps -> ins_pdir fuel c s used w ps = Ok ps' -> cut_pdir (c_maxsplit c) ps' end)
  /\ (forall ps used w ps', cut_pdir (c_maxsplit c) ps -> ins_pdir fuel c s used w ps = Ok ps' -> cut_pdir (c_maxsplit c) ps')
  /\ (forall cd used v cd', cut_cdir (c_maxsplit c) cd -> ins_cdir fuel c s used v cd = Ok cd' ->
        cut_cdir (c_maxsplit c) cd' /\ cd_bound cd' = cd_bound cd).
Proof.
  apply tree_mut.
  - intros m subs ps IH. exact IH.
  - intros used w ps' _ H. discriminate.
  - intros v sc cd IHcd rest IHr used w ps' HF H. cbn [ins_pdir] in H. cbn [cut_pdir] in HF. destruct HF as (F1 & F2 & F3).
    destruct (w =? v)%N.
    + apply bind_ok in H. destruct H as (cd' & E & H). apply bind_ok in H. destruct H as (sc' & ES & [= <-]).
      apply IHcd in E; [|easy]. destruct E as [E1 E2]. cbn [cut_pdir]. now rewrite E2.
    + apply bind_ok in H. destruct H as (rest' & E & [= <-]). cbn [cut_pdir]. split; [easy|]. split; [easy|]. eapply IHr; eauto.
  - intros b cn IHcn used v cd' HF H. destruct cn as [m subs ps]. cbn [ins_cdir] in H. cbn [cut_cdir cut_cnode] in *.
    apply bind_ok in H. destruct H as (o & _ & H). destruct o as [w|].
    + apply bind_ok in H. destruct H as (ps' & E & [= <-]). cbn [cut_cdir cut_cnode cd_bound]. split; [|easy]. eapply IHcn; eauto.
    + apply (proj2 (space_cut c fuel)) in H; easy.
  - intros b cn IHcn l IHl r IHr used v cd' HF H. destruct cn as [m subs ps]. cbn [ins_cdir] in H. cbn [cut_cdir cut_cnode] in *.
    destruct HF as (F1 & F2 & F3 & F4 & F5).
    apply bind_ok in H. destruct H as (el & EL & H). destruct el.
    { apply bind_ok in H. destruct H as (l' & E & [= <-]). apply IHl in E; [|easy]. destruct E as [E1 E2].
      cbn [cut_cdir cut_cnode cd_bound]. now rewrite E2. }
    apply bind_ok in H. destruct H as (er & ER & H). destruct er.
    { apply bind_ok in H. destruct H as (r' & E & [= <-]). apply IHr in E; [|easy]. destruct E as [E1 E2].
      cbn [cut_cdir cut_cnode cd_bound]. now rewrite E2. }
    apply bind_ok in H. destruct H as (o & _ & H). destruct o as [w|].
    + apply bind_ok in H. destruct H as (ps' & E & [= <-]). cbn [cut_cdir cut_cnode cd_bound]. split; [|easy]. split; [easy|]. split; [easy|].
      split; [|easy]. eapply IHcn; eauto.
    + apply (proj2 (space_cut c fuel)) in H; easy.
Qed.
Lemma insert_root_cut c fuel s cn cn' : cut_cnode (c_maxsplit c) cn -> insert_root fuel c s cn = Ok cn' -> cut_cnode (c_maxsplit c) cn'.
Proof.
  intros HF H. destruct cn as [m subs ps]. cbn [insert_root cut_cnode] in *.
  apply bind_ok in H. destruct H as (o & _ & H). destruct o as [w|].
  - apply bind_ok in H. destruct H as (ps' & E & [= <-]). cbn [cut_cnode]. eapply (proj1 (proj2 (ins_cut c fuel s))); eauto.
  - eapply (proj1 (space_cut c fuel)) in H; eauto.
Qed.
Lemma same_maxsplit c c' : same_cfg c c' -> c_maxsplit c' = c_maxsplit c.
Proof. intros (_ & _ & E & _). exact E. Qed.
Theorem calls_cut cap minpart maxsplit ds t made l : calls cap minpart maxsplit ds t made l ->
  c_maxsplit (bt_cfg t) = maxsplit /\ cut_cnode maxsplit (bt_root t).
Proof.
  induction 1 as [ds|ds t made l id cs x t' K IH H|ds t made l id cs x t' K IH H|ds t made l id cs x s t' K IH H
    |ds t made l id cs x t' K IH H|ds t made l s t' K IH HI H|ds t made l x t' K IH H|ds t made l d K IH|ds t made l K IH].
  - split; [reflexivity|exact I].
  - apply insert_parts in H. destruct H as (c & m & s & S & _ & H). apply insert_sub_parts in H. destruct H as (E & _ & H).
    cbn [bt_cfg bt_root] in *. destruct IH as (A & B). rewrite E. rewrite (same_maxsplit _ _ S). split; [exact A|].
    apply insert_root_cut in H; rewrite (same_maxsplit _ _ S), A in *; [exact H|exact B].
  - apply refused_steps in H. subst. auto.
  - apply make_parts in H. destruct H as (S & E & _). rewrite E, (same_maxsplit _ _ S). auto.
  - apply make_parts in H. destruct H as (S & E & _). rewrite E, (same_maxsplit _ _ S). auto.
  - apply insert_sub_parts in H. destruct H as (E & _ & H). destruct IH as (A & B). rewrite E. split; [exact A|].
    apply insert_root_cut in H; rewrite A in *; [exact H|exact B].
  - apply change_parts in H. destruct H as (S & E & _). rewrite E, (same_maxsplit _ _ S). auto.
  - destruct IH as (A & B). split; [exact A|exact B].
  - destruct IH as (A & B). split; [exact A|exact I].
Qed.

(** *** Halves *)
Lemma float_cut lo hi k l r : coarse lo -> coarse hi -> (units lo < units hi)%Z -> (units hi - units lo = k * 2 ^ 1074)%Z ->
  split_value_bound (BFloat lo hi) = Ok (l, r) ->
  exists m m', l = BFloat lo m /\ r = BFloat m' hi /\ coarse m /\ coarse m'
    /\ ((k = 1 /\ units m = units lo /\ units m' = units hi)
        \/ (2 <= k /\ units m = units lo + (k - k / 2) * 2 ^ 1074 /\ units m' = units m))%Z.
Proof.
  intros CL CH LT K H. assert (HH := H). apply split_float in HH; [|easy|easy|lia].
  destruct HH as (m & m' & E & CM & CM' & _). injection E as -> ->. exists m, m'. do 4 (split; [easy|]).
  pose proof (coarse_good _ CL) as GL. pose proof (coarse_good _ CH) as GH.
  pose proof CL as (_ & a & Ua & Ba). pose proof CH as (_ & b & Ub & Bb).
  assert (P : (0 < 2 ^ 1064)%Z) by (apply Z.pow_pos_nonneg; lia).
  assert (BA : (b - a = 1024 * k)%Z).
  { rewrite Ua, Ub, unit_1074 in K. apply (Z.mul_cancel_r _ _ (2 ^ 1064)); [lia|]. rewrite Z.mul_sub_distr_r, K. ring. }
  assert (KP : (0 < k)%Z).
  { rewrite Ua, Ub in LT. apply Z.mul_lt_mono_pos_r in LT; [|exact P]. lia. }
  assert (UD : (units hi - units lo = (b - a) * 2 ^ (-10 + 1074))%Z) by (rewrite Ua, Ub; change (-10 + 1074)%Z with 1064%Z; ring).
  destruct (sub_exact hi lo (b - a) (-10) GH GL UD ltac:(lia) ltac:(lia)) as [GD UW].
  assert (GW : good_flt (fabs (fsub hi lo))) by (destruct (fsub hi lo); exact GD).
  assert (UK : (units (fsub hi lo) = k * 2 ^ 1074)%Z) by (rewrite UW, <- UD; exact K).
  assert (P4 : (0 < 2 ^ 1074)%Z) by (apply Z.pow_pos_nonneg; lia).
  assert (UA : (units (fabs (fsub hi lo)) = k * 2 ^ 1074)%Z).
  { rewrite units_abs, UK. apply Z.abs_eq. apply Z.mul_nonneg_nonneg; lia. }
  destruct (of_Z_small 2 ltac:(lia)) as [G2 U2]. destruct (of_Z_small 1 ltac:(lia)) as [G1 U1].
  assert (FE : forall j f, good_flt f -> units f = (j * 2 ^ 1074)%Z -> feq (fabs (fsub hi lo)) f = true -> k = j).
  { intros j f G U E. apply (feq_close _ _ GW G) in E. rewrite UA, U in E.
    assert (2 ^ 1022 < 2 ^ 1074)%Z as L by (apply Z.pow_lt_mono_r; lia). clear - E L. revert E L. generalize (2 ^ 1022)%Z (2 ^ 1074)%Z. intros x y E L.
    rewrite <- Z.mul_sub_distr_r, Z.abs_mul in E. destruct (Z.eq_dec k j) as [->|N]; [easy|]. exfalso.
    assert (1 * Z.abs y <= Z.abs (k - j) * Z.abs y)%Z by (apply Z.mul_le_mono_nonneg_r; lia). lia. }
  assert (MID : forall q f, (0 <= q <= k)%Z -> good_flt f -> units f = (q * 2 ^ 1074)%Z -> units (fadd lo f) = (units lo + q * 2 ^ 1074)%Z).
  { intros q f Q G U. destruct (add_exact lo f (a + 1024 * q) (-10) GL G) as [_ UM]; [|lia|lia|].
    - rewrite Ua, U, unit_1074. change (-10 + 1074)%Z with 1064%Z. ring.
    - rewrite UM, Ua, unit_1074. change (-10 + 1074)%Z with 1064%Z. ring. }
  unfold split_value_bound in H. cbv zeta in H.
  destruct (fgtb (fabs (fsub hi lo)) (f_of_Z 2)) eqn:C2.
  - unfold fgtb in C2. apply (ltb_units _ _ G2 GW) in C2. rewrite UA, U2 in C2. apply Z.mul_lt_mono_pos_r in C2; [|exact P4].
    destruct (half_exact (fsub hi lo) GD) as [GF UF].
    { rewrite UK. apply Z.mul_nonneg_nonneg; lia. }
    { right. rewrite UK. assert (2 ^ 60 < 2 ^ 1074)%Z as L by (apply Z.pow_lt_mono_r; lia). clear - L C2 P4. revert L P4.
      generalize (2 ^ 60)%Z (2 ^ 1074)%Z. intros x y L P4. assert (1 * y <= k * y)%Z by (apply Z.mul_le_mono_nonneg_r; lia). lia. }
    destruct (ceil_exact _ GF) as (q & GC & UC & QB). rewrite UK in UF.
    assert (q = k - k / 2)%Z as EQ.
    { clear - UF QB P4. revert UF QB P4. generalize (units (fdiv (fsub hi lo) (f_of_Z 2))) (2 ^ 1074)%Z. intros u y UF QB Y.
      assert (2 * (q - 1) < k)%Z by (apply (Z.mul_lt_mono_pos_r y); lia). assert (k <= 2 * q)%Z by (apply (Z.mul_le_mono_pos_r _ _ y); lia).
      pose proof (Z.div_mod k 2 ltac:(lia)). pose proof (Z.mod_pos_bound k 2 ltac:(lia)). lia. }
    assert (0 <= k / 2 <= k)%Z by (split; [apply Z.div_pos; lia|apply Z.div_le_upper_bound; lia]).
    apply Ok_inj in H. assert (m = m' /\ m = fadd lo (fceil (fdiv (fsub hi lo) (f_of_Z 2)))) as [<- ->] by (split; congruence).
    right. split; [lia|]. split; [|easy]. rewrite (MID q _ ltac:(lia) GC UC), EQ. reflexivity.
  - destruct (feq (fabs (fsub hi lo)) (f_of_Z 2)) eqn:E2.
    + apply (FE 2%Z _ G2 U2) in E2. subst k. apply Ok_inj in H. assert (m = m' /\ m = fadd lo (f_of_Z 1)) as [<- ->] by (split; congruence).
      right. split; [lia|]. split; [|easy]. rewrite (MID 1%Z _ ltac:(lia) G1 U1). reflexivity.
    + destruct (feq (fabs (fsub hi lo)) (f_of_Z 1)) eqn:E1; [|discriminate H]. apply (FE 1%Z _ G1 U1) in E1. subst k.
      apply Ok_inj in H. assert (m = lo /\ m' = hi) as [-> ->] by (split; congruence). now left.
Qed.
Lemma half b l r : discrete b -> split_value_bound b = Ok (l, r) -> is_atomic b = Ok false ->
  discrete l /\ discrete r /\ (1 <= width b)%Z
  /\ ((width b = 1 /\ width l = 0 /\ width r = 0)
      \/ (2 <= width b /\ (width l = width b / 2 /\ width r = width b - width b / 2
                           \/ width r = width b / 2 /\ width l = width b - width b / 2)))%Z.
Proof.
  intros D H A. destruct b as [lo hi|t lo hi|lo hi|t lo hi| | ]; cbn [split_value_bound discrete is_atomic] in *; try easy.
  - destruct (Bool.eqb lo hi) eqn:E; [discriminate|]. injection H as <- <-. cbn [discrete width]. rewrite !Bool.eqb_reflx, E. lia.
  - apply bind_ok in H. destruct H as (w & HW & H). apply abs_ck in HW. injection A as A.
    assert (w = hi - lo)%Z as -> by lia. cbn [width].
    destruct (_ >? _)%Z eqn:G.
    + injection H as <- <-. cbn [discrete width]. rewrite Z.quot_div_nonneg by lia.
      assert (0 <= (hi - lo) / 2 <= hi - lo)%Z by (split; [apply Z.div_pos; lia|apply Z.div_le_upper_bound; lia]). lia.
    + destruct (_ =? 2)%Z eqn:T.
      * apply bind_ok in H. destruct H as (m & HM & H). unfold ck64 in HM. destruct (_ && _); [|discriminate]. injection HM as <-.
        injection H as <- <-. cbn [discrete width]. assert (hi - lo = 2)%Z as -> by lia. change (2 / 2)%Z with 1%Z. lia.
      * destruct (_ =? 1)%Z eqn:O; [|discriminate]. injection H as <- <-. cbn [discrete width]. lia.
  - destruct D as (CL & CH & LE & (k & K)).
    assert (LT : (units lo < units hi)%Z).
    { destruct (Z.eq_dec (units lo) (units hi)) as [E|N]; [|lia].
      apply (feq_apart lo hi (coarse_good _ CL) (coarse_good _ CH) (or_introl E)) in E. congruence. }
    destruct (float_cut _ _ _ _ _ CL CH LT K H) as (m & m' & -> & -> & CM & CM' & HW). clear H A.
    assert (P4 : (0 < 2 ^ 1074)%Z) by (apply Z.pow_pos_nonneg; lia). cbn [discrete width]. unfold whole_width.
    revert LT K HW P4. generalize (2 ^ 1074)%Z. intros u LT K HW P4. rewrite K, Z.div_mul by lia.
    assert (KD : forall x, (x * u / u = x)%Z) by (intros; apply Z.div_mul; lia).
    destruct HW as [(-> & -> & ->)|(K2 & U1 & U2)].
    + rewrite !Z.sub_diag. rewrite (Z.div_0_l u) by lia. split; [|split; [|split; [lia|left; lia]]].
      * split; [easy|]. split; [easy|]. split; [lia|]. exists 0%Z. lia.
      * split; [easy|]. split; [easy|]. split; [lia|]. exists 0%Z. lia.
    + assert (0 <= k / 2 <= k)%Z as HB by (split; [apply Z.div_pos; lia|apply Z.div_le_upper_bound; lia]).
      set (h := (k / 2)%Z) in *. clearbody h.
      assert (A1 : (units m - units lo = (k - h) * u)%Z) by lia. assert (A2 : (units hi - units m' = h * u)%Z) by lia.
      rewrite A1, A2, !KD. assert (0 <= (k - h) * u)%Z by (apply Z.mul_nonneg_nonneg; lia). assert (0 <= h * u)%Z by (apply Z.mul_nonneg_nonneg; lia).
      split; [|split; [|split; [lia|right; lia]]].
      * split; [easy|]. split; [easy|]. split; [lia|]. now exists (k - h)%Z.
      * split; [easy|]. split; [easy|]. split; [lia|]. now exists h.
  - injection A as A. unfold to_uint in H. cbn [width]. set (w := ((hi - lo) mod 2 ^ 64)%Z) in *.
    assert (0 <= w < 2 ^ 64)%Z as WB by (apply Z.mod_pos_bound; lia).
    assert (K : forall k, (0 <= k <= w)%Z -> (((lo + k) mod 2 ^ 64 - lo) mod 2 ^ 64 = k /\ (hi - (lo + k) mod 2 ^ 64) mod 2 ^ 64 = w - k)%Z).
    { intros k KB. rewrite Zminus_mod_idemp_l, Zminus_mod_idemp_r. split.
      - replace (lo + k - lo)%Z with k by lia. apply Z.mod_small. lia.
      - replace (hi - (lo + k))%Z with ((hi - lo) - k)%Z by lia. rewrite <- Zminus_mod_idemp_l. fold w. apply Z.mod_small. lia. }
    destruct (_ >? _)%Z eqn:G.
    + injection H as <- <-. cbn [discrete width].
      assert (0 <= w / 2 <= w)%Z as HB by (split; [apply Z.div_pos; lia|apply Z.div_le_upper_bound; lia]).
      destruct (K (w / 2)%Z HB) as (K1 & K2). change (Z.pow_pos 2 64) with (2 ^ 64)%Z. rewrite K1, K2. lia.
    + destruct (_ =? 2)%Z eqn:T.
      * injection H as <- <-. cbn [discrete width]. change (Z.pow_pos 2 64) with (2 ^ 64)%Z. destruct (K 1%Z) as (-> & ->); [lia|]. assert (w = 2)%Z as -> by lia.
        change (2 / 2)%Z with 1%Z. lia.
      * destruct (_ =? 1)%Z eqn:O; [|discriminate]. injection H as <- <-. cbn [discrete width]. rewrite !Z.sub_diag. cbn. lia.
Qed.
Lemma log2_up_half w : (2 <= w)%Z -> (Z.log2_up (w - w / 2) + 1 = Z.log2_up w /\ Z.log2_up (w / 2) + 1 <= Z.log2_up w)%Z.
Proof.
  intros L.
  assert (E : (Z.log2_up (w - w / 2) + 1 = Z.log2_up w)%Z).
  { pose proof (Z.div_mod w 2 ltac:(lia)) as DM. pose proof (Z.mod_pos_bound w 2 ltac:(lia)) as MB.
    set (h := (w - w / 2)%Z) in *. assert (1 <= h /\ 2 * h - 1 <= w <= 2 * h)%Z as (H1 & H2) by lia.
    destruct (Z.eq_dec h 1) as [->|N]; [assert (w = 2)%Z as -> by lia; reflexivity|].
    assert (2 <= h)%Z as H3 by lia. pose proof (Z.log2_up_spec h ltac:(lia)) as (P1 & P2).
    pose proof (Z.log2_up_pos h ltac:(lia)) as LP. symmetry. apply Z.log2_up_unique; [lia|].
    replace (Z.pred (Z.log2_up h + 1)) with (Z.succ (Z.pred (Z.log2_up h))) by lia.
    replace (Z.log2_up h + 1)%Z with (Z.succ (Z.log2_up h)) by lia. rewrite !Z.pow_succ_r by lia. lia. }
  split; [exact E|]. rewrite <- E. apply Z.add_le_mono_r. apply Z.log2_up_le_mono.
  pose proof (Z.div_mod w 2 ltac:(lia)). pose proof (Z.mod_pos_bound w 2 ltac:(lia)). lia.
Qed.
Lemma short M cd : cut_cdir M cd -> discrete (cd_bound cd) ->
  (Z.of_nat (steps cd) <= if width (cd_bound cd) =? 0 then 0 else 1 + Z.log2_up (width (cd_bound cd)))%Z
  /\ (Z.of_nat (ranges cd) <= Z.max 1 (4 * width (cd_bound cd) - 1))%Z.
Proof.
  revert cd. fix IH 1. intros [b cn|b cn l r] C D; cbn [cd_bound steps ranges cut_cdir] in *.
  - split; [|lia]. destruct (_ =? _)%Z eqn:E; [lia|]. pose proof (Z.log2_up_nonneg (width b)). lia.
  - destruct C as (C1 & C2 & _ & C4 & C5). destruct (half _ _ _ D C1 C2) as (DL & DR & W1 & HW).
    destruct (IH l C4 DL) as (SL & RL), (IH r C5 DR) as (SR & RR). clear IH.
    destruct HW as [(-> & EL & ER)|(W2 & [(EL & ER)|(ER & EL)])]; rewrite EL, ER in *.
    + cbn in SL, SR, RL, RR. cbn. lia.
    + set (w := width b) in *. destruct (log2_up_half w W2) as (L1 & L2).
      pose proof (Z.div_mod w 2 ltac:(lia)). pose proof (Z.mod_pos_bound w 2 ltac:(lia)).
      destruct (Z.eqb_spec w 0); [lia|]. destruct (Z.eqb_spec (w / 2) 0); [lia|]. destruct (Z.eqb_spec (w - w / 2) 0); [lia|].
      split; lia.
    + set (w := width b) in *. destruct (log2_up_half w W2) as (L1 & L2).
      pose proof (Z.div_mod w 2 ltac:(lia)). pose proof (Z.mod_pos_bound w 2 ltac:(lia)).
      destruct (Z.eqb_spec w 0); [lia|]. destruct (Z.eqb_spec (w / 2) 0); [lia|]. destruct (Z.eqb_spec (w - w / 2) 0); [lia|].
      split; lia.
Qed.
Lemma tops_cut M :
  (forall cn, cut_cnode M cn -> Forall (fun cd => narrow_top M (cd_bound cd) /\ cut_cdir M cd) (tops_cnode cn))
  /\ (forall ps, cut_pdir M ps -> Forall (fun cd => narrow_top M (cd_bound cd) /\ cut_cdir M cd) (tops_pdir ps))
  /\ (forall cd, cut_cdir M cd -> Forall (fun cd => narrow_top M (cd_bound cd) /\ cut_cdir M cd) (tops_cdir cd)).
Proof.
  apply tree_mut; cbn [cut_cnode cut_pdir cut_cdir tops_cnode tops_pdir tops_cdir].
  - auto.
  - constructor.
  - intros v sc cd IHc rest IHr (A & B & C). constructor; [easy|]. apply Forall_app. auto.
  - auto.
  - intros b cn IH l IHl r IHr (A & B & C & D & E). apply Forall_app. split; [auto|]. apply Forall_app. auto.
Qed.
Lemma reach_bound cd : reach_of cd = cd_bound cd. Proof. now destruct cd. Qed.
Theorem calls_ranges cap minpart maxsplit ds t made l cd : calls cap minpart maxsplit ds t made l ->
  In cd (tops_cnode (bt_root t)) -> discrete (reach_of cd) ->
  (width (reach_of cd) < Z.max 2 maxsplit)%Z
  /\ (Z.of_nat (steps cd) <= if width (reach_of cd) =? 0 then 0 else 1 + Z.log2_up (width (reach_of cd)))%Z
  /\ (Z.of_nat (ranges cd) <= Z.max 1 (4 * width (reach_of cd) - 1))%Z.
Proof.
  intros K I D. rewrite reach_bound in *. destruct (calls_cut _ _ _ _ _ _ _ K) as (_ & C). apply (proj1 (tops_cut _)) in C.
  rewrite Forall_forall in C. destruct (C _ I) as (A & B). split; [now apply A|]. eapply short; eauto.
Qed.

(** *** The number of nodes *)
Fixpoint sum_ranges (l : list cdir) : nat := match l with [] => O | cd :: t => (ranges cd + sum_ranges t)%nat end.
Lemma sum_app l l' : sum_ranges (l ++ l') = (sum_ranges l + sum_ranges l')%nat.
Proof. induction l as [|x l IH]; cbn [app sum_ranges]; [easy|]. rewrite IH. lia. Qed.
Lemma total_sum :
  (forall cn, total_cnode cn = S (sum_ranges (tops_cnode cn)))
  /\ (forall ps, total_pdir ps = sum_ranges (tops_pdir ps))
  /\ (forall cd, total_cdir cd = (ranges cd + sum_ranges (tops_cdir cd))%nat).
Proof.
  apply tree_mut; cbn [total_cnode total_pdir total_cdir tops_cnode tops_pdir tops_cdir ranges].
  - intros m subs ps ->. reflexivity.
  - reflexivity.
  - intros v sc cd -> rest ->. cbn [sum_ranges]. rewrite sum_app. lia.
  - intros b cn ->. reflexivity.
  - intros b cn -> l -> r ->. rewrite !sum_app. lia.
Qed.
