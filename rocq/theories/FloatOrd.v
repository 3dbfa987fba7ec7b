(** The order of doubles, exact sums and quotients, and the halves of a float range. *)
From Coq Require Import ZArith Bool Lia Floats.SpecFloat.
From Coq Require Import ZifyBool.
From Verif Require Import Base Float FloatSpec Config Value Bound Tree TreeSpec ExtProofs ScoreProofs RoundProofs.
Local Open Scope Z_scope.

(** *** Comparison of any two values *)
Lemma pos_cont m m' : Pos.compare_cont Eq m m' = Z.compare (Zpos m) (Zpos m').
Proof. reflexivity. Qed.
Lemma fleb_cases a b : fleb a b = true <-> SFcompare a b = Some Lt \/ SFcompare a b = Some Eq.
Proof. unfold fleb, SFleb. destruct (SFcompare a b) as [[]|]; split; intros H; auto; try discriminate H; destruct H as [H|H]; discriminate H. Qed.

Ltac signs := repeat match goal with s : bool |- _ => destruct s end.
Lemma fleb_trans a b c : fleb a b = true -> fleb b c = true -> fleb a c = true.
Proof.
  unfold fleb, SFleb.
  destruct a as [s|s| |s m e], b as [s'|s'| |s' m' e'], c as [s''|s''| |s'' m'' e''];
    signs; cbn [SFcompare]; intros H1 H2; try discriminate; try reflexivity;
    rewrite ?pos_cont in *.
  - destruct (Z.compare_spec e e'), (Z.compare_spec e' e''), (Z.compare_spec e e''); try discriminate; try reflexivity; try lia;
    destruct (Z.compare_spec (Zpos m) (Zpos m')), (Z.compare_spec (Zpos m') (Zpos m'')), (Z.compare_spec (Zpos m) (Zpos m''));
    cbn [CompOpp] in *; try discriminate; try reflexivity; lia.
  - destruct (Z.compare_spec e e'), (Z.compare_spec e' e''), (Z.compare_spec e e''); try discriminate; try reflexivity; try lia;
    destruct (Z.compare_spec (Zpos m) (Zpos m')), (Z.compare_spec (Zpos m') (Zpos m'')), (Z.compare_spec (Zpos m) (Zpos m''));
    cbn [CompOpp] in *; try discriminate; try reflexivity; lia.
Qed.
Lemma fleb_total a b : is_nan a = false -> is_nan b = false -> fltb b a = false -> fleb a b = true.
Proof.
  unfold fleb, fltb, SFleb, SFltb.
  destruct a as [s|s| |s m e], b as [s'|s'| |s' m' e']; cbn [is_nan]; try discriminate;
    signs; cbn [SFcompare]; intros _ _ H; try discriminate; try reflexivity;
    rewrite ?pos_cont in *.
  - destruct (Z.compare_spec e e'), (Z.compare_spec e' e); try discriminate; try reflexivity; try lia;
    destruct (Z.compare_spec (Zpos m) (Zpos m')), (Z.compare_spec (Zpos m') (Zpos m));
    cbn [CompOpp] in *; try discriminate; try reflexivity; lia.
  - destruct (Z.compare_spec e e'), (Z.compare_spec e' e); try discriminate; try reflexivity; try lia;
    destruct (Z.compare_spec (Zpos m) (Zpos m')), (Z.compare_spec (Zpos m') (Zpos m));
    cbn [CompOpp] in *; try discriminate; try reflexivity; lia.
Qed.
Lemma fltb_fleb a b : fltb a b = true -> fleb a b = true.
Proof. unfold fltb, fleb, SFltb, SFleb. now destruct (SFcompare a b) as [[]|]. Qed.
Lemma fleb_nan_l a b : fleb a b = true -> is_nan a = false.
Proof. destruct a; try reflexivity. discriminate. Qed.
Lemma fleb_nan_r a b : fleb a b = true -> is_nan b = false.
Proof. destruct b; try reflexivity. destruct a as [[]|[]| |[]]; discriminate. Qed.

(** *** Doubles *)
Lemma leb_units a b : good_flt a -> good_flt b -> (fleb a b = true <-> units a <= units b).
Proof.
  intros A B. unfold fleb, SFleb. rewrite (compare_units _ _ A B). generalize (units a) (units b). intros x y.
  destruct (Z.compare_spec x y); split; intros; try reflexivity; try discriminate; lia.
Qed.
Lemma ltb_units a b : good_flt a -> good_flt b -> (fltb a b = true <-> units a < units b).
Proof.
  intros A B. unfold fltb, SFltb. rewrite (compare_units _ _ A B). generalize (units a) (units b). intros x y.
  destruct (Z.compare_spec x y); split; intros; try reflexivity; try discriminate; lia.
Qed.
Lemma good_opp a : good_flt a -> good_flt (fopp a).
Proof. destruct a as [s|s| |s m e]; auto. Qed.
Lemma add_sub a b : fadd a b = fsub a (fopp b).
Proof.
  unfold fadd, fsub, fopp. destruct a as [s|s| |s m e], b as [s'|s'| |s' m' e']; signs; reflexivity.
Qed.

Lemma near_units f N : nearest f N (2 ^ 1074) -> forall g, is_double g -> Z.abs (units f - N) <= Z.abs (units g - N).
Proof.
  intros [_ B] g Dg. destruct (B g Dg) as [B1 _]. assert (P : 0 < 2 ^ 1074) by (apply Z.pow_pos_nonneg; lia).
  replace (2 ^ 1074 * units f - N * 2 ^ 1074) with ((units f - N) * 2 ^ 1074) in B1 by (generalize (2 ^ 1074); intros; ring).
  replace (2 ^ 1074 * units g - N * 2 ^ 1074) with ((units g - N) * 2 ^ 1074) in B1 by (generalize (2 ^ 1074); intros; ring).
  rewrite !Z.abs_mul, !(Z.abs_eq (2 ^ 1074)) in B1 by lia. apply Z.mul_le_mono_pos_r in B1; [exact B1|exact P].
Qed.
Lemma units_max f : is_double f -> Z.abs (units f) <= (2 ^ 53 - 1) * 2 ^ 2045.
Proof.
  assert (0 <= 2 ^ 2045) by (apply Z.pow_nonneg; lia).
  destruct f as [s|s| |s m e]; intros D; try (cbn [units]; lia). destruct D as [D1 D2]. cbn [units].
  assert (0 < 2 ^ (e + 1074)) by (apply Z.pow_pos_nonneg; lia).
  assert (2 ^ (e + 1074) <= 2 ^ 2045) by (apply Z.pow_le_mono_r; lia).
  assert (Zpos m * 2 ^ (e + 1074) <= (2 ^ 53 - 1) * 2 ^ 2045) by (apply Z.mul_le_mono_nonneg; lia).
  assert (0 <= Zpos m * 2 ^ (e + 1074)) by (apply Z.mul_nonneg_nonneg; lia).
  generalize dependent (Zpos m * 2 ^ (e + 1074)). generalize dependent ((2 ^ 53 - 1) * 2 ^ 2045). intros. destruct s; lia.
Qed.
Lemma units_canonical a : good_flt a -> is_double a.
Proof. apply good_double. Qed.

(** A difference with a small number: not below a double below it, not above one above it. *)
Lemma sub_mono a b : good_flt a -> good_flt b -> Z.abs (units b) <= 2 ^ 1022 ->
  good_flt (fsub a b)
  /\ (forall g, good_flt g -> units g <= units a - units b -> units g <= units (fsub a b))
  /\ (forall g, good_flt g -> units a - units b <= units g -> units (fsub a b) <= units g).
Proof.
  intros A B SB. destruct (sub_value a b A B) as [V N]. set (D := units a - units b) in *.
  assert (good_flt (fsub a b) -> nearest (fsub a b) D (2 ^ 1074) ->
    good_flt (fsub a b)
    /\ (forall g, good_flt g -> units g <= D -> units g <= units (fsub a b))
    /\ (forall g, good_flt g -> D <= units g -> units (fsub a b) <= units g)) as K.
  { intros F NF. split; [exact F|]. split; intros g Hg L; pose proof (near_units _ _ NF g (good_double _ Hg)); lia. }
  destruct (fsub a b) as [s|s| |s m e]; cbn [valid_binary] in V.
  - apply K; [exact I|exact N].
  - exfalso. pose proof (units_max a (good_double _ A)) as Ma.
    assert (2 ^ 1022 < 2 ^ 2044) by (apply Z.pow_lt_mono_r; lia).
    replace ((2 ^ 54 - 1) * 2 ^ 970 * 2 ^ 1074) with ((2 ^ 54 - 1) * 2 ^ 2044) in N by (rewrite <- Z.mul_assoc, <- Z.pow_add_r by lia; f_equal).
    replace (2 ^ 2045) with (2 * 2 ^ 2044) in Ma by (rewrite <- Z.pow_succ_r by lia; f_equal).
    subst D. generalize dependent (2 ^ 2044). intros X N Ma H. generalize dependent (2 ^ 1022). intros Y SB H.
    change (2 ^ 54) with (2 * 2 ^ 53) in N. generalize dependent (2 ^ 53). intros Q N Ma. lia.
  - destruct N as [[] _].
  - apply K; [exact V|exact N].
Qed.

(** *** Exact results *)
Lemma grid_double k e : Z.abs k < 2 ^ 53 -> -1074 <= e <= 971 -> exists g, is_double g /\ units g = k * 2 ^ (e + 1074).
Proof.
  intros K E. destruct k as [|p|p].
  - exists (S754_zero false). split; [exact I|]. cbn [units]. lia.
  - exists (S754_finite false p e). split; [cbn [is_double]; lia|]. cbn [units]. lia.
  - exists (S754_finite true p e). split; [cbn [is_double]; lia|]. cbn [units].
    change (Zneg p) with (- Zpos p). generalize (2 ^ (e + 1074)). intros. lia.
Qed.
Lemma near_exact f N g : nearest f N (2 ^ 1074) -> is_double g -> units g = N -> units f = N.
Proof. intros H D E. pose proof (near_units _ _ H g D). lia. Qed.
Lemma grid_max k e : Z.abs k < 2 ^ 53 -> 0 <= e <= 2045 -> Z.abs (k * 2 ^ e) < (2 ^ 54 - 1) * 2 ^ 970 * 2 ^ 1074.
Proof.
  intros K E. assert (P : 0 < 2 ^ e) by (apply Z.pow_pos_nonneg; lia).
  assert (2 ^ e <= 2 ^ 2045) by (apply Z.pow_le_mono_r; lia).
  rewrite Z.abs_mul, (Z.abs_eq (2 ^ e)) by lia.
  replace ((2 ^ 54 - 1) * 2 ^ 970 * 2 ^ 1074) with ((2 ^ 54 - 1) * 2 ^ 2044) by (rewrite <- Z.mul_assoc, <- Z.pow_add_r by lia; f_equal).
  replace (2 ^ 2045) with (2 * 2 ^ 2044) in * by (rewrite <- Z.pow_succ_r by lia; f_equal).
  assert (0 < 2 ^ 2044) by (apply Z.pow_pos_nonneg; lia).
  change (2 ^ 54) with (2 * 2 ^ 53). generalize dependent (2 ^ 2044). intros X X1 X2. generalize dependent (2 ^ e). intros Y Y1 Y2.
  generalize dependent (2 ^ 53). intros Q Q1. pose proof (Z.abs_nonneg k) as B0. generalize dependent (Z.abs k). intros B B1 B0.
  assert (B * Y <= (Q - 1) * (2 * X)) by (apply Z.mul_le_mono_nonneg; lia). lia.
Qed.
Lemma sub_exact a b k e : good_flt a -> good_flt b -> units a - units b = k * 2 ^ (e + 1074) ->
  Z.abs k < 2 ^ 53 -> -1074 <= e <= 971 -> good_flt (fsub a b) /\ units (fsub a b) = k * 2 ^ (e + 1074).
Proof.
  intros A B E K H. destruct (grid_double k e K H) as (g & Dg & Ug). destruct (sub_value a b A B) as [V N].
  rewrite E in N. destruct (fsub a b) as [s|s| |s m x]; cbn [valid_binary] in V.
  - split; [exact I|]. exact (near_exact _ _ _ N Dg Ug).
  - exfalso. pose proof (grid_max k (e + 1074) K ltac:(lia)). lia.
  - destruct N as [[] _].
  - split; [exact V|]. exact (near_exact _ _ _ N Dg Ug).
Qed.
Lemma add_exact a b k e : good_flt a -> good_flt b -> units a + units b = k * 2 ^ (e + 1074) ->
  Z.abs k < 2 ^ 53 -> -1074 <= e <= 971 -> good_flt (fadd a b) /\ units (fadd a b) = k * 2 ^ (e + 1074).
Proof.
  intros A B E. rewrite add_sub. apply sub_exact; auto using good_opp. rewrite units_opp. lia.
Qed.

(** Half of a number that is not tiny. *)
Lemma half_exact w : good_flt w -> 0 <= units w -> (units w = 0 \/ 2 ^ 60 <= units w) ->
  good_flt (fdiv w (f_of_Z 2)) /\ 2 * units (fdiv w (f_of_Z 2)) = units w.
Proof.
  intros G P L. change (f_of_Z 2) with (S754_finite false 4503599627370496 (-51)).
  destruct w as [s|s| |s m e]; try contradiction.
  - split; [exact I|]. cbn [fdiv SFdiv units]. lia.
  - cbn [good_flt] in G. destruct (can_range _ _ G) as (M & E & N).
    cbn [units] in P, L. set (T := 2 ^ (e + 1074)) in *.
    assert (TP : 0 < T) by (apply Z.pow_pos_nonneg; lia).
    assert (s = false) as -> by (destruct s; [exfalso; nia|reflexivity]).
    assert (-1067 < e) as E'.
    { apply Z.nle_gt. intros C. assert (T <= 2 ^ 7) by (apply Z.pow_le_mono_r; lia).
      assert (Zpos m * T <= (2 ^ 53 - 1) * 2 ^ 7) by (apply Z.mul_le_mono_nonneg; lia).
      assert (0 < Zpos m * T) by (apply Z.mul_pos_pos; lia). clearbody T. lia. }
    specialize (N ltac:(lia)). assert (D1 : dg m = 53) by (apply dg_unique; change (2 ^ (53 - 1)) with (2 ^ 52); lia).
    unfold fdiv, SFdiv, SFdiv_core_binary, prec64, emax64.
    change (Zdigits2 (Zpos m)) with (dg m). change (Zdigits2 4503599627370496) with 53. rewrite D1.
    unfold fexp, emin.
    replace (Z.min (Z.max (53 + e - (53 + -51) - 53) (3 - 1024 - 53)) (e - -51)) with (e - 2) by lia.
    replace (e - -51 - (e - 2)) with 53 by lia. rewrite Z.shiftl_mul_pow2 by lia.
    replace (Z.div_eucl (Zpos m * 2 ^ 53) 4503599627370496) with (Zpos (m~0), 0).
    2:{ pose proof (Z_div_mod (Zpos m * 2 ^ 53) 4503599627370496 ltac:(lia)) as DM.
        destruct (Z.div_eucl (Zpos m * 2 ^ 53) 4503599627370496) as [q r]. destruct DM as [DM R].
        change (2 ^ 53) with (2 * 4503599627370496) in DM. f_equal; lia. }
    cbn [xorb]. change (new_location 4503599627370496 0) with loc_Exact.
    assert (D2 : dg (m~0) = 54) by (apply dg_unique; change (2 ^ (54 - 1)) with (2 * 2 ^ 52); change (2 ^ 54) with (2 * 2 ^ 53); lia).
    assert (GR : grid (m~0) (e - 2) = e - 1) by (unfold grid; rewrite D2; lia).
    destruct (round_aux_grid false (m~0) (e - 2)) as (R & HO & HR & _ & K); [lia|]. rewrite GR in *.
    replace (e - 1 - (e - 2)) with 1 in HO by lia. destruct HO as [HO HE]. change (2 ^ 1) with 2 in *.
    assert (R = Zpos m) as -> by (apply Z.le_antisymm; lia).
    assert (0 < 2 ^ (e - 1 + 1074)) by (apply Z.pow_pos_nonneg; lia).
    destruct (binary_round_aux 53 1024 false (Zpos (m~0)) (e - 2) loc_Exact) as [s|s| |s m' e']; try contradiction.
    + destruct K. lia.
    + destruct K as (_ & K & _). lia.
    + destruct K as (-> & B & K1 & K2). split; [exact B|]. cbn [units]. cbv iota. rewrite <- K2.
      replace (2 ^ (e + 1074)) with (2 * 2 ^ (e - 1 + 1074)) by (rewrite <- Z.pow_succ_r by lia; f_equal; lia).
      replace (e' + 1074) with ((e' - (e - 1)) + (e - 1 + 1074)) by lia. rewrite Z.pow_add_r by lia. ring.
Qed.

(** The next integer. *)
Lemma ceil_exact f : good_flt f -> exists q, good_flt (fceil f) /\ units (fceil f) = q * 2 ^ 1074
  /\ (q - 1) * 2 ^ 1074 < units f <= q * 2 ^ 1074.
Proof.
  intros G. assert (P : 0 < 2 ^ 1074) by (apply Z.pow_pos_nonneg; lia).
  destruct f as [s|s| |s m e]; try contradiction.
  - exists 0. cbn [fceil units]. sp; [exact I|lia|lia|lia].
  - cbn [fceil]. cbn [good_flt] in G. destruct (can_range _ _ G) as (M & E & N).
    destruct (Z.ltb_spec e 0) as [L|L].
    + set (z := cond_Zopp s (Zpos m)). set (q := - (- z / 2 ^ (- e))).
      assert (T : 0 < 2 ^ (- e)) by (apply Z.pow_pos_nonneg; lia).
      assert (T2 : 2 <= 2 ^ (- e)) by (change 2 with (2 ^ 1) at 1; apply Z.pow_le_mono_r; lia).
      assert (Q : (q - 1) * 2 ^ (- e) < z <= q * 2 ^ (- e)).
      { pose proof (Z.div_mod (- z) (2 ^ (- e)) ltac:(lia)) as D. pose proof (Z.mod_pos_bound (- z) (2 ^ (- e)) T) as B.
        unfold q. lia. }
      assert (U : units (S754_finite s m e) = z * 2 ^ (e + 1074)) by (unfold z, units, cond_Zopp; destruct s; lia).
      assert (T1 : 2 ^ 1074 = 2 ^ (- e) * 2 ^ (e + 1074)) by (rewrite <- Z.pow_add_r by lia; f_equal; lia).
      assert (TP : 0 < 2 ^ (e + 1074)) by (apply Z.pow_pos_nonneg; lia).
      assert (ZB : Z.abs z < 2 ^ 53) by (unfold z, cond_Zopp; destruct s; lia).
      assert (QB : Z.abs q <= 2 ^ 53) by nia.
      exists q. rewrite U.
      assert ((q - 1) * 2 ^ 1074 < z * 2 ^ (e + 1074) <= q * 2 ^ 1074) as QQ.
      { rewrite T1. clear - Q TP. clearbody z q. generalize dependent (2 ^ (e + 1074)). intros Y YP.
        generalize dependent (2 ^ (- e)). intros X Q. rewrite !Z.mul_assoc. split.
        - apply Z.mul_lt_mono_pos_r; lia.
        - apply Z.mul_le_mono_nonneg_r; lia. }
      destruct q as [|p|p] eqn:Eq.
      * split; [exact I|split; [reflexivity|exact QQ]].
      * split; [apply of_Z_good|split; [now apply of_Z_exact|exact QQ]]. eapply Z.le_lt_trans; [exact QB|]. apply Z.pow_lt_mono_r; lia.
      * split; [apply of_Z_good|split; [now apply of_Z_exact|exact QQ]]. eapply Z.le_lt_trans; [exact QB|]. apply Z.pow_lt_mono_r; lia.
    + exists ((if s then -1 else 1) * (Zpos m * 2 ^ e)). cbn [units good_flt].
      replace (2 ^ (e + 1074)) with (2 ^ e * 2 ^ 1074) by (rewrite <- Z.pow_add_r by lia; reflexivity).
      sp; [exact G|ring| |].
      * generalize dependent (2 ^ 1074). intros X XP. generalize (2 ^ e). intros Y. nia.
      * generalize dependent (2 ^ 1074). intros X XP. generalize (2 ^ e). intros Y. nia.
Qed.

(** *** The halves of a float range *)
Lemma Ok_inj {A} (a b : A) : Ok a = Ok b -> a = b.
Proof. congruence. Qed.
Lemma of_Z_small z : Z.abs z <= 2 ^ 53 -> good_flt (f_of_Z z) /\ units (f_of_Z z) = z * 2 ^ 1074.
Proof.
  intros H. split; [|now apply of_Z_exact]. apply of_Z_good. eapply Z.le_lt_trans; [exact H|]. apply Z.pow_lt_mono_r; lia.
Qed.
Lemma coarse_good f : coarse f -> good_flt f.
Proof. intros [H _]. now apply canonical_good. Qed.
Lemma coarse_intro f a : good_flt f -> units f = a * 2 ^ 1064 -> Z.abs a <= 2 ^ 50 -> coarse f.
Proof. intros G U A. split; [now apply canonical_good|]. eauto. Qed.
Lemma unit_1074 : 2 ^ 1074 = 1024 * 2 ^ 1064.
Proof. change 1024 with (2 ^ 10). now rewrite <- Z.pow_add_r by lia. Qed.

Lemma split_float lo hi r : coarse lo -> coarse hi -> units lo <= units hi ->
  split_value_bound (BFloat lo hi) = Ok r ->
  exists m m', r = (BFloat lo m, BFloat m' hi) /\ coarse m /\ coarse m'
    /\ units lo <= units m < units hi /\ units lo < units m' <= units hi /\ units m <= units m'
    /\ (whole_width lo hi -> whole_width lo m /\ whole_width m' hi).
Proof.
  intros CL CH LE H.
  pose proof (coarse_good _ CL) as GL. pose proof (coarse_good _ CH) as GH.
  pose proof CL as (_ & a & Ua & Ba). pose proof CH as (_ & b & Ub & Bb).
  assert (P : 0 < 2 ^ 1064) by (apply Z.pow_pos_nonneg; lia).
  assert (AB : a <= b) by (rewrite Ua, Ub in LE; apply Z.mul_le_mono_pos_r in LE; assumption).
  assert (units hi - units lo = (b - a) * 2 ^ (-10 + 1074)) as UD by (rewrite Ua, Ub; change (-10 + 1074) with 1064; ring).
  destruct (sub_exact hi lo (b - a) (-10) GH GL UD ltac:(lia) ltac:(lia)) as [GD UW].
  change (-10 + 1074) with 1064 in *.
  assert (GW : good_flt (fabs (fsub hi lo))) by (destruct (fsub hi lo); exact GD).
  assert (UA : units (fabs (fsub hi lo)) = (b - a) * 2 ^ 1064) by (rewrite units_abs, UW, Z.abs_eq; [reflexivity|nia]).
  destruct (of_Z_small 2 ltac:(lia)) as [G2 U2]. destruct (of_Z_small 1 ltac:(lia)) as [G1 U1].
  rewrite unit_1074 in U2, U1.
  assert (FE : forall k f, good_flt f -> units f = k * (1024 * 2 ^ 1064) -> feq (fabs (fsub hi lo)) f = true -> b - a = 1024 * k).
  { intros k f G U E. apply (feq_close _ _ GW G) in E. rewrite UA, U in E.
    assert (2 ^ 1022 < 2 ^ 1064) by (apply Z.pow_lt_mono_r; lia).
    replace ((b - a) * 2 ^ 1064 - k * (1024 * 2 ^ 1064)) with ((b - a - 1024 * k) * 2 ^ 1064) in E by ring.
    rewrite Z.abs_mul, (Z.abs_eq (2 ^ 1064)) in E by lia. enough (b - a - 1024 * k = 0) by lia. clear - E H0 P. revert E H0 P. generalize (b - a - 1024 * k) (2 ^ 1064) (2 ^ 1022). intros x X Y E HY HX. assert (Z.abs x <= 0 -> x = 0) by lia. apply H. destruct (Z.le_gt_cases 1 (Z.abs x)) as [Q|Q]; [|lia]. assert (1 * X <= Z.abs x * X) by (apply Z.mul_le_mono_nonneg_r; lia). lia. }
  assert (MID : forall q f, 0 < q -> 1024 * q < b - a -> good_flt f -> units f = q * 2 ^ 1074 ->
    coarse (fadd lo f) /\ units lo < units (fadd lo f) < units hi
    /\ (whole_width lo hi -> whole_width lo (fadd lo f) /\ whole_width (fadd lo f) hi)).
  { intros q f Q1 Q2 G U. rewrite unit_1074 in U.
    destruct (add_exact lo f (a + 1024 * q) (-10) GL G) as [GA UM]; [|lia|lia|].
    { rewrite Ua, U. change (-10 + 1074) with 1064. ring. }
    change (-10 + 1074) with 1064 in UM. split; [eapply coarse_intro; [exact GA|exact UM|lia]|].
    rewrite UM, Ua, Ub. split; [split; apply Z.mul_lt_mono_pos_r; lia|].
    intros (k & K). unfold whole_width. rewrite UM. rewrite Ua, Ub in *. rewrite unit_1074 in *. split; [exists q; ring|].
    exists (k - q). clear - K. replace ((k - q) * (1024 * 2 ^ 1064)) with (k * (1024 * 2 ^ 1064) - q * 1024 * 2 ^ 1064) by ring. rewrite <- K. ring. }
  unfold split_value_bound in H. cbv zeta in H.
  destruct (fgtb (fabs (fsub hi lo)) (f_of_Z 2)) eqn:C2.
  - unfold fgtb in C2. apply (ltb_units _ _ G2 GW) in C2. rewrite UA, U2 in C2.
    assert (2048 < b - a) as W by nia.
    destruct (half_exact (fsub hi lo) GD) as [GF UF].
    { rewrite UW. nia. }
    { right. rewrite UW. assert (2 ^ 60 < 2 ^ 1064) by (apply Z.pow_lt_mono_r; lia).
      generalize dependent (2 ^ 60). generalize dependent (2 ^ 1064). intros. nia. }
    destruct (ceil_exact _ GF) as (q & GC & UC & QB). rewrite unit_1074 in QB.
    assert (0 < q /\ 1024 * q < b - a) as [Q1 Q2].
    { rewrite UW in UF. clear - UF QB W P. generalize dependent (units (fdiv (fsub hi lo) (f_of_Z 2))).
      generalize dependent (2 ^ 1064). intros X XP u UF QB. split; nia. }
    destruct (MID q _ Q1 Q2 GC UC) as (CM & UM & WM). apply Ok_inj in H; subst r. do 2 eexists. split; [reflexivity|]. clear - CM UM WM; sp; solve [exact CM|exact WM|lia].
  - destruct (feq (fabs (fsub hi lo)) (f_of_Z 2)) eqn:E2.
    + apply (FE 2 _ G2 U2) in E2. destruct (MID 1 (f_of_Z 1) ltac:(lia) ltac:(lia) G1) as (CM & UM & WM).
      { rewrite U1, <- unit_1074. reflexivity. }
      apply Ok_inj in H; subst r. do 2 eexists. split; [reflexivity|]. clear - CM UM WM; sp; solve [exact CM|exact WM|lia].
    + destruct (feq (fabs (fsub hi lo)) (f_of_Z 1)) eqn:E1; [|discriminate].
      apply (FE 1 _ G1 U1) in E1. injection H as <-. do 2 eexists. split; [reflexivity|]. assert (units lo < units hi) by (rewrite Ua, Ub; apply Z.mul_lt_mono_pos_r; lia). clear - CL CH H; sp; try solve [assumption|lia]. intros _. split; exists 0; ring.
Qed.

(** Doubles at least 2^-52 apart, or equal. *)
Lemma feq_apart y k : good_flt y -> good_flt k -> (units y = units k \/ 2 ^ 1022 <= Z.abs (units y - units k)) ->
  (feq y k = true <-> units y = units k).
Proof.
  intros A B H. destruct (feq_close y k A B) as [K1 K2]. split.
  - intros E. apply K1 in E. lia.
  - intros E. apply K2. rewrite E. assert (2 ^ 969 < 2 ^ 1022) by (apply Z.pow_lt_mono_r; lia). lia.
Qed.
Lemma eps_good : good_flt DBL_EPSILON.
Proof. vm_compute. reflexivity. Qed.
Lemma eps_units : units DBL_EPSILON = 2 ^ 1022.
Proof.
  unfold units, DBL_EPSILON. replace (-104 + 1074) with 970 by lia. replace 1022 with (52 + 970) by lia.
  rewrite (Z.pow_add_r 2 52 970) by lia. generalize (2 ^ 970). intros. lia.
Qed.
Lemma above_apart y k : good_flt y -> good_flt k -> (units y = units k \/ 2 ^ 1022 <= Z.abs (units y - units k)) ->
  units k < units y -> fleb (fadd k DBL_EPSILON) y = true.
Proof.
  intros A B H L. rewrite add_sub.
  destruct (sub_mono k (fopp DBL_EPSILON) B (good_opp _ eps_good)) as (G & _ & K).
  { rewrite units_opp, eps_units. assert (0 < 2 ^ 1022) by (apply Z.pow_pos_nonneg; lia). lia. }
  apply leb_units; auto. apply K; auto. rewrite units_opp, eps_units. lia.
Qed.
Lemma below_apart y k : good_flt y -> good_flt k -> (units y = units k \/ 2 ^ 1022 <= Z.abs (units y - units k)) ->
  units y < units k -> fleb y (fsub k DBL_EPSILON) = true.
Proof.
  intros A B H L.
  destruct (sub_mono k DBL_EPSILON B eps_good) as (G & K & _).
  { rewrite eps_units. assert (0 < 2 ^ 1022) by (apply Z.pow_pos_nonneg; lia). lia. }
  apply leb_units; auto. apply K; auto. rewrite eps_units. lia.
Qed.
(** ** The width of a range *)
Lemma trunc_nonneg f z : f_trunc (fabs f) = Some z -> 0 <= z.
Proof.
  destruct f as [s|s| |s m e]; cbn [fabs SFabs f_trunc cond_Zopp]; intros H; try discriminate H; injection H as <-; [lia|].
  destruct (e <? 0); [apply Z.shiftr_nonneg|apply Z.shiftl_nonneg]; lia.
Qed.
Lemma trunc_abs f : good_flt f -> f_trunc (fabs f) = Some (Z.abs (units f) / 2 ^ 1074).
Proof.
  intros G. rewrite <- units_abs. pose proof (units_canonical f G) as D.
  assert (P : 0 < 2 ^ 1074) by (apply Z.pow_pos_nonneg; lia).
  destruct f as [s|s| |s m e]; try contradiction; [reflexivity|].
  cbn [is_double] in D. destruct D as [_ R]. unfold fabs, SFabs, f_trunc, units, cond_Zopp. rewrite Z.mul_1_l. f_equal.
  destruct (Z.ltb_spec e 0).
  - rewrite Z.shiftr_div_pow2 by lia. replace (2 ^ 1074) with (2 ^ (- e) * 2 ^ (e + 1074)) by (rewrite <- Z.pow_add_r by lia; f_equal; lia).
    rewrite Z.div_mul_cancel_r; [reflexivity|apply Z.pow_nonzero; lia|apply Z.pow_nonzero; lia].
  - rewrite Z.shiftl_mul_pow2 by lia. rewrite Z.pow_add_r by lia. rewrite Z.mul_assoc, Z.div_mul by lia. reflexivity.
Qed.
Lemma coarse_diff lo hi : coarse lo -> coarse hi -> units lo <= units hi ->
  fabs_diff hi lo = Ok ((units hi - units lo) / 2 ^ 1074).
Proof.
  intros CL CH LE. pose proof (coarse_good _ CL) as GL. pose proof (coarse_good _ CH) as GH.
  destruct CL as (_ & a & Ua & Ba). destruct CH as (_ & b & Ub & Bb).
  assert (P : 0 < 2 ^ 1064) by (apply Z.pow_pos_nonneg; lia).
  assert (AB : a <= b) by (rewrite Ua, Ub in LE; apply Z.mul_le_mono_pos_r in LE; assumption).
  assert (units hi - units lo = (b - a) * 2 ^ (-10 + 1074)) as UD by (rewrite Ua, Ub; change (-10 + 1074) with 1064; ring).
  destruct (sub_exact hi lo (b - a) (-10) GH GL UD ltac:(lia) ltac:(lia)) as [GD UW].
  unfold fabs_diff. rewrite (trunc_abs _ GD), UW, UD. change (-10 + 1074) with 1064.
  rewrite (Z.abs_eq ((b - a) * 2 ^ 1064)) by (apply Z.mul_nonneg_nonneg; lia).
  replace ((b - a) * 2 ^ 1064 / 2 ^ 1074) with ((b - a) / 1024).
  - destruct (Z.leb_spec ((b - a) / 1024) UINT64_MAX) as [L|L]; [reflexivity|].
    assert ((b - a) / 1024 <= b - a) by (apply Z.div_le_upper_bound; lia). clear - L H Ba Bb. unfold UINT64_MAX in L. lia.
  - rewrite unit_1074. rewrite Z.div_mul_cancel_r; [reflexivity|lia|lia].
Qed.
Lemma split_float_total lo hi : coarse lo -> coarse hi -> units lo < units hi -> whole_width lo hi ->
  exists r, split_value_bound (BFloat lo hi) = Ok r.
Proof.
  intros CL CH LT (k & K). pose proof (coarse_good _ CL) as GL. pose proof (coarse_good _ CH) as GH.
  destruct CL as (_ & a & Ua & Ba). destruct CH as (_ & b & Ub & Bb).
  assert (P : 0 < 2 ^ 1064) by (apply Z.pow_pos_nonneg; lia).
  assert (AB : a < b) by (rewrite Ua, Ub in LT; apply Z.mul_lt_mono_pos_r in LT; assumption).
  assert (units hi - units lo = (b - a) * 2 ^ (-10 + 1074)) as UD by (rewrite Ua, Ub; change (-10 + 1074) with 1064; ring).
  destruct (sub_exact hi lo (b - a) (-10) GH GL UD ltac:(lia) ltac:(lia)) as [GD UW].
  assert (GW : good_flt (fabs (fsub hi lo))) by (destruct (fsub hi lo); exact GD).
  assert (KP : 0 < k) by (clear - K LT; assert (0 < 2 ^ 1074) by (apply Z.pow_pos_nonneg; lia); generalize dependent (2 ^ 1074); intros; nia).
  assert (UA : units (fabs (fsub hi lo)) = k * 2 ^ 1074).
  { rewrite units_abs, UW, <- UD, K, Z.abs_eq; [reflexivity|]. apply Z.mul_nonneg_nonneg; [lia|]. apply Z.pow_nonneg. lia. }
  destruct (of_Z_small 2 ltac:(lia)) as [G2 U2]. destruct (of_Z_small 1 ltac:(lia)) as [G1 U1].
  unfold split_value_bound. cbv zeta.
  destruct (fgtb (fabs (fsub hi lo)) (f_of_Z 2)) eqn:C2; [eauto|].
  assert (k <= 2) as L2.
  { destruct (Z.le_gt_cases k 2) as [L|L]; [exact L|]. exfalso. enough (fgtb (fabs (fsub hi lo)) (f_of_Z 2) = true) by congruence.
    unfold fgtb. apply (ltb_units _ _ G2 GW). rewrite UA, U2. apply Z.mul_lt_mono_pos_r; [apply Z.pow_pos_nonneg; lia|lia]. }
  destruct (Z.eq_dec k 2) as [E|E].
  - replace (feq (fabs (fsub hi lo)) (f_of_Z 2)) with true; [eauto|]. symmetry. apply (feq_apart _ _ GW G2); [left|]; rewrite UA, U2, E; reflexivity.
  - assert (k = 1) as -> by lia.
    destruct (feq (fabs (fsub hi lo)) (f_of_Z 2)); [eauto|].
    replace (feq (fabs (fsub hi lo)) (f_of_Z 1)) with true; [eauto|]. symmetry. apply (feq_apart _ _ GW G1); [left|]; rewrite UA, U1; reflexivity.
Qed.
Lemma float_halves lo hi : coarse lo -> coarse hi -> units lo < units hi -> whole_width lo hi ->
  exists m m', split_value_bound (BFloat lo hi) = Ok (BFloat lo m, BFloat m' hi)
    /\ coarse m /\ coarse m' /\ whole_width lo m /\ whole_width m' hi
    /\ units lo <= units m < units hi /\ units lo < units m' <= units hi
    /\ (units m = units m' \/ units hi - units lo = 2 ^ 1074 /\ units m = units lo /\ units m' = units hi).
Proof.
  intros CL CH LT WW. destruct (split_float_total lo hi CL CH LT WW) as [r E].
  destruct (split_float lo hi r CL CH ltac:(lia) E) as (m & m' & -> & CM & CM' & A & B & _ & WM). destruct (WM WW) as [W1 W2].
  exists m, m'. split; [exact E|]. do 4 (split; [assumption|]). split; [exact A|]. split; [exact B|].
  pose proof (coarse_good _ CL) as GL. pose proof (coarse_good _ CH) as GH. destruct WW as (k & K).
  unfold split_value_bound in E. cbv zeta in E.
  destruct (fgtb (fabs (fsub hi lo)) (f_of_Z 2)).
  { apply Ok_inj in E. assert (m = m') as -> by congruence. now left. }
  destruct (feq (fabs (fsub hi lo)) (f_of_Z 2)).
  { apply Ok_inj in E. assert (m = m') as -> by congruence. now left. }
  destruct (feq (fabs (fsub hi lo)) (f_of_Z 1)) eqn:E1; [|discriminate E].
  apply Ok_inj in E. assert (m = lo /\ m' = hi) as [-> ->] by (split; congruence). right. split; [|split; reflexivity].
  destruct CL as (_ & a & Ua & Ba). destruct CH as (_ & b & Ub & Bb).
  assert (units hi - units lo = (b - a) * 2 ^ (-10 + 1074)) as UD by (rewrite Ua, Ub; change (-10 + 1074) with 1064; ring).
  destruct (sub_exact hi lo (b - a) (-10) GH GL UD ltac:(lia) ltac:(lia)) as [GD UW].
  assert (GW : good_flt (fabs (fsub hi lo))) by (destruct (fsub hi lo); exact GD).
  destruct (of_Z_small 1 ltac:(lia)) as [G1 U1].
  apply (feq_close _ _ GW G1) in E1. rewrite units_abs, UW, <- UD, U1, K, Z.mul_1_l in *.
  assert (X : 2 ^ 1022 < 2 ^ 1074) by (apply Z.pow_lt_mono_r; lia).
  clear - E1 X LT K. generalize dependent (2 ^ 1074). generalize dependent (2 ^ 1022). intros Y X K E1 L.
  destruct (Z.eq_dec k 1) as [->|N]; [lia|]. exfalso. assert (0 < k) by nia. assert (2 * X <= k * X) by (apply Z.mul_le_mono_nonneg_r; lia). lia.
Qed.
