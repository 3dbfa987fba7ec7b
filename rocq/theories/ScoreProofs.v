(** Scores of variables: positive, never NaN.  Magnitudes of rounded products and quotients. *)
From Coq Require Import ZArith Bool Lia Floats.SpecFloat.
From Verif Require Import Base Float FloatProofs.
Local Open Scope Z_scope.

Definition dg (p : positive) : Z := Zpos (digits2_pos p).

Lemma dg_bounds p : 2 ^ (dg p - 1) <= Zpos p < 2 ^ dg p.
Proof.
  unfold dg. induction p as [p [L U]|p [L U]|]; cbn [digits2_pos]; [| |cbn; lia];
    rewrite Pos2Z.inj_succ;
    replace (Z.succ (Zpos (digits2_pos p)) - 1) with (Z.succ (Zpos (digits2_pos p) - 1)) by lia;
    rewrite !Z.pow_succ_r by lia; lia.
Qed.
Lemma dg_unique p d : 2 ^ (d - 1) <= Zpos p < 2 ^ d -> dg p = d.
Proof.
  intros [L U]. destruct (dg_bounds p) as [L' U'].
  assert (0 < d). { destruct (Z.le_gt_cases d 0) as [C|C]; [|lia]. destruct (Z.eq_dec d 0) as [->|]; [cbn in U; lia|]. rewrite Z.pow_neg_r in U by lia. lia. }
  assert (0 < dg p) by (unfold dg; lia).
  destruct (Z.lt_trichotomy (dg p) d) as [C|[C|C]]; [|exact C|].
  - pose proof (Z.pow_le_mono_r 2 (dg p) (d - 1)). lia.
  - pose proof (Z.pow_le_mono_r 2 d (dg p - 1)). lia.
Qed.
Lemma dg_between p a b : 0 <= a -> 2 ^ a <= Zpos p -> Zpos p < 2 ^ b -> a < dg p <= b.
Proof.
  intros A L U. destruct (dg_bounds p) as [L' U']. assert (0 < dg p) by (unfold dg; lia).
  assert (0 <= b). { destruct (Z.le_gt_cases 0 b); [easy|]. rewrite Z.pow_neg_r in U by lia. lia. }
  split.
  - apply Z.nle_gt. intros C. pose proof (Z.pow_le_mono_r 2 (dg p) a). lia.
  - apply Z.nlt_ge. intros C. pose proof (Z.pow_le_mono_r 2 b (dg p - 1)). lia.
Qed.

Lemma shr_1_half mrs : 0 <= shr_m mrs -> shr_m (shr_1 mrs) = shr_m mrs / 2.
Proof.
  destruct mrs as [[|[p|p|]|p] r s]; cbn [shr_m shr_1]; intros H; try reflexivity; try lia.
  - apply Z.div_unique with 1; lia.
  - apply Z.div_unique with 0; lia.
Qed.
Lemma iter_shr_div p : forall mrs, 0 <= shr_m mrs -> shr_m (iter_pos shr_1 p mrs) = shr_m mrs / 2 ^ Zpos p.
Proof.
  induction p as [p IH|p IH|]; intros mrs H; cbn [iter_pos].
  - rewrite !IH by (try apply iter_shr_nonneg; auto using shr_1_nonneg). rewrite shr_1_half by easy.
    rewrite !Z.div_div by lia. f_equal. replace (Zpos p~1) with (1 + Zpos p + Zpos p) by lia.
    rewrite !Z.pow_add_r by lia. lia.
  - rewrite !IH by (try apply iter_shr_nonneg; auto). rewrite !Z.div_div by lia. f_equal.
    replace (Zpos p~0) with (Zpos p + Zpos p) by lia. now rewrite Z.pow_add_r by lia.
  - rewrite shr_1_half by easy. reflexivity.
Qed.

Lemma rne_bounds m l : m <= round_nearest_even m l <= m + 1.
Proof. destruct l as [|[| |]]; cbn; try lia. destruct (Z.even m); lia. Qed.

(** One shift to the precision of a double. *)
Lemma shr_fexp_mag p e l : -1074 + 53 <= dg p + e ->
  exists p', shr_m (fst (shr_fexp 53 1024 (Zpos p) e l)) = Zpos p'
    /\ dg p' + snd (shr_fexp 53 1024 (Zpos p) e l) = dg p + e /\ dg p' <= 53
    /\ snd (shr_fexp 53 1024 (Zpos p) e l) = Z.max e (dg p + e - 53).
Proof.
  intros H. unfold shr_fexp. change (Zdigits2 (Zpos p)) with (dg p).
  unfold fexp, emin. replace (Z.max (dg p + e - 53) (3 - 1024 - 53)) with (dg p + e - 53) by lia.
  replace (dg p + e - 53 - e) with (dg p - 53) by lia.
  destruct (dg_bounds p) as [L U].
  destruct (dg p - 53) as [|k|k] eqn:K; cbn [shr fst snd].
  - exists p. rewrite shr_record_m. repeat split; lia.
  - rewrite iter_shr_div by (rewrite shr_record_m; lia). rewrite shr_record_m.
    assert (Q : 2 ^ 52 <= Zpos p / 2 ^ Zpos k < 2 ^ 53).
    { split.
      - apply Z.div_le_lower_bound; [lia|]. rewrite <- Z.pow_add_r by lia. replace (Zpos k + 52) with (dg p - 1) by lia. lia.
      - apply Z.div_lt_upper_bound; [lia|]. rewrite <- Z.pow_add_r by lia. replace (Zpos k + 53) with (dg p) by lia. lia. }
    destruct (Zpos p / 2 ^ Zpos k) as [|p'|p'] eqn:D; [lia| |lia].
    exists p'. assert (dg p' = 53) by now apply dg_unique. repeat split; lia.
  - exists p. rewrite shr_record_m. repeat split; lia.
Qed.

Definition pos_flt (f : flt) : Prop :=
  match f with S754_finite false _ _ | S754_infinity false => True | _ => False end.

Lemma round_mag p e l : -1074 + 53 <= dg p + e -> Z.max e (dg p + e - 53) < 971 ->
  exists p' e', binary_round_aux 53 1024 false (Zpos p) e l = S754_finite false p' e'
    /\ dg p + e <= dg p' + e' <= dg p + e + 1 /\ e' <= Z.max e (dg p + e - 53) + 1 /\ dg p' <= 53.
Proof.
  intros H M. unfold binary_round_aux.
  destruct (shr_fexp_mag p e l H) as (p1 & A1 & B1 & C1 & D1).
  destruct (shr_fexp 53 1024 (Zpos p) e l) as [r1 e1]. cbn [fst snd] in *.
  rewrite A1. set (lr := loc_of_shr_record r1).
  pose proof (rne_bounds (Zpos p1) lr) as RB.
  destruct (round_nearest_even (Zpos p1) lr) as [|p2|p2]; [lia| |lia].
  assert (D2 : dg p1 <= dg p2 <= dg p1 + 1).
  { destruct (dg_bounds p1) as [L U]. pose proof (dg_between p2 (dg p1 - 1) (dg p1 + 1)) as X.
    assert (2 ^ (dg p1 + 1) = 2 * 2 ^ dg p1) by (rewrite Z.pow_add_r by (unfold dg; lia); lia).
    assert (0 <= dg p1 - 1) by (unfold dg; lia). lia. }
  destruct (shr_fexp_mag p2 e1 loc_Exact) as (p3 & A3 & B3 & C3 & D3); [lia|].
  destruct (shr_fexp 53 1024 (Zpos p2) e1 loc_Exact) as [r3 e3]. cbn [fst snd] in *.
  rewrite A3. change (1024 - 53) with 971.
  destruct (Z.leb_spec e3 971) as [Hz|Hz]; [|lia].
  exists p3, e3. repeat split; lia.
Qed.
Lemma round_pos p e l : -1074 + 53 <= dg p + e -> pos_flt (binary_round_aux 53 1024 false (Zpos p) e l).
Proof.
  intros H. unfold binary_round_aux.
  destruct (shr_fexp_mag p e l H) as (p1 & A1 & B1 & C1 & D1).
  destruct (shr_fexp 53 1024 (Zpos p) e l) as [r1 e1]. cbn [fst snd] in *.
  rewrite A1. set (lr := loc_of_shr_record r1).
  pose proof (rne_bounds (Zpos p1) lr) as RB.
  destruct (round_nearest_even (Zpos p1) lr) as [|p2|p2]; [lia| |lia].
  assert (D2 : dg p1 <= dg p2).
  { destruct (dg_bounds p1) as [L U]. pose proof (dg_between p2 (dg p1 - 1) (dg p2)) as X.
    assert (0 <= dg p1 - 1) by (unfold dg; lia). pose proof (dg_bounds p2). lia. }
  destruct (shr_fexp_mag p2 e1 loc_Exact) as (p3 & A3 & B3 & C3 & D3); [lia|].
  destruct (shr_fexp 53 1024 (Zpos p2) e1 loc_Exact) as [r3 e3]. cbn [fst snd] in *.
  rewrite A3. now destruct (_ <=? _).
Qed.

(** Integers converted to double. *)
Lemma dg_shift d p : dg (shift_pos d p) = dg p + Zpos d.
Proof.
  apply dg_unique. rewrite shift_pos_correct, Zpower_pos_nat, Zpower_nat_Z, positive_nat_Z.
  destruct (dg_bounds p) as [L U]. assert (0 < dg p) by (unfold dg; lia).
  replace (dg p + Zpos d - 1) with (Zpos d + (dg p - 1)) by lia.
  rewrite (Z.add_comm (dg p)). rewrite !Z.pow_add_r by lia. nia.
Qed.
Lemma align_mag p : exists p' e', shl_align p 0 (fexp 53 1024 (dg p + 0)) = (p', e')
  /\ dg p' + e' = dg p /\ e' <= 0.
Proof.
  unfold shl_align, fexp, emin. rewrite Z.add_0_r, Z.sub_0_r.
  assert (0 < dg p) by (unfold dg; lia).
  replace (Z.max (dg p - 53) (3 - 1024 - 53)) with (dg p - 53) by lia.
  destruct (dg p - 53) as [|k|k] eqn:K; [exists p, 0|exists p, 0|]; try (repeat split; lia).
  exists (shift_pos k p), (Zneg k). rewrite dg_shift. repeat split; lia.
Qed.
Lemma of_Z_pos z : 0 < z -> pos_flt (f_of_Z z).
Proof.
  intros H. destruct z as [|p|p]; try lia. unfold f_of_Z, binary_normalize, binary_round.
  unfold prec64, emax64. change (Zpos (digits2_pos p)) with (dg p). destruct (align_mag p) as (p' & e' & -> & M & _).
  apply round_pos. unfold dg in *. lia.
Qed.
Lemma of_Z_mag z : 0 < z <= 2 ^ 64 ->
  exists m e, f_of_Z z = S754_finite false m e /\ 1 <= dg m + e <= 66 /\ dg m <= 53.
Proof.
  intros H. destruct z as [|p|p]; try lia. unfold f_of_Z, binary_normalize, binary_round.
  unfold prec64, emax64. change (Zpos (digits2_pos p)) with (dg p). destruct (align_mag p) as (p' & e' & -> & M & EZ).
  destruct (dg_between p 0 65) as [L U]; [lia|cbn; lia|cbn; lia|].
  destruct (round_mag p' e' loc_Exact) as (m & e & E & B & C & D); [lia|lia|].
  exists m, e. repeat split; trivial; lia.
Qed.

Lemma div_mag m1 e1 m2 e2 : dg m1 <= 53 -> dg m2 <= 53 -> -200 <= dg m1 + e1 - (dg m2 + e2) <= 200 -> -300 <= e1 - e2 <= 300 ->
  exists m e, fdiv (S754_finite false m1 e1) (S754_finite false m2 e2) = S754_finite false m e
    /\ dg m1 + e1 - (dg m2 + e2) <= dg m + e <= dg m1 + e1 - (dg m2 + e2) + 2.
Proof.
  intros P1 P2 H HE. unfold fdiv, SFdiv, SFdiv_core_binary, prec64, emax64.
  change (Zdigits2 (Zpos m1)) with (dg m1). change (Zdigits2 (Zpos m2)) with (dg m2).
  unfold fexp, emin.
  replace (Z.max (dg m1 + e1 - (dg m2 + e2) - 53) (3 - 1024 - 53)) with (dg m1 + e1 - (dg m2 + e2) - 53) by lia.
  set (e' := Z.min (dg m1 + e1 - (dg m2 + e2) - 53) (e1 - e2)).
  set (s := e1 - e2 - e'). assert (SP : 0 <= s /\ dg m2 - dg m1 + 53 <= s) by lia.
  replace (match s with Zpos _ => Z.shiftl (Zpos m1) s | Z0 => Zpos m1 | Zneg _ => 0 end)
    with (Zpos m1 * 2 ^ s).
  2:{ destruct s as [|k|k]; [lia| |lia]. now rewrite Z.shiftl_mul_pow2 by lia. }
  pose proof (Z_div_mod (Zpos m1 * 2 ^ s) (Zpos m2) ltac:(lia)) as DM.
  destruct (Z.div_eucl (Zpos m1 * 2 ^ s) (Zpos m2)) as [q r]. destruct DM as [DM R].
  destruct (dg_bounds m1) as [L1 U1]. destruct (dg_bounds m2) as [L2 U2].
  assert (0 < dg m1 /\ 0 < dg m2) by (unfold dg; lia).
  assert (Lq : 2 ^ (dg m1 - 1 + s - dg m2) <= q).
  { apply Z.nlt_ge. intros C. assert (q + 1 <= 2 ^ (dg m1 - 1 + s - dg m2)) by lia.
    assert (Zpos m1 * 2 ^ s < Zpos m2 * (q + 1)) by nia.
    assert (Zpos m2 * (q + 1) < 2 ^ dg m2 * 2 ^ (dg m1 - 1 + s - dg m2)) by nia.
    rewrite <- Z.pow_add_r in * by lia. replace (dg m2 + (dg m1 - 1 + s - dg m2)) with ((dg m1 - 1) + s) in * by lia.
    rewrite Z.pow_add_r in * by lia. nia. }
  assert (Uq : q < 2 ^ (dg m1 + s - dg m2 + 1)).
  { apply Z.nle_gt. intros C.
    assert (2 ^ (dg m2 - 1) * 2 ^ (dg m1 + s - dg m2 + 1) <= Zpos m2 * q) by (apply Z.mul_le_mono_nonneg; lia).
    rewrite <- Z.pow_add_r in * by lia. replace (dg m2 - 1 + (dg m1 + s - dg m2 + 1)) with (dg m1 + s) in * by lia.
    rewrite Z.pow_add_r in * by lia. nia. }
  assert (0 < 2 ^ (dg m1 - 1 + s - dg m2)) by (apply Z.pow_pos_nonneg; lia).
  destruct q as [|q|q]; [lia| |lia].
  destruct (dg_between q (dg m1 - 1 + s - dg m2) (dg m1 + s - dg m2 + 1)) as [Dl Du]; [lia|easy|easy|].
  destruct (round_mag q e' (new_location (Zpos m2) r)) as (m & e & E & B & _ & _); [lia|lia|].
  exists m, e. split; [exact E|lia].
Qed.

Lemma mul_pos f m e : pos_flt f -> -900 <= dg m + e ->
  match f with S754_finite _ m' e' => 0 <= dg m' + e' | _ => True end ->
  pos_flt (fmul f (S754_finite false m e)).
Proof.
  destruct f as [[]|[]| |[] m' e']; cbn [pos_flt]; try easy. intros _ H H'.
  unfold fmul, SFmul, prec64, emax64. apply round_pos.
  destruct (dg_bounds m) as [L U]. destruct (dg_bounds m') as [L' U'].
  assert (0 < dg m /\ 0 < dg m') by (unfold dg; lia).
  destruct (dg_between (m' * m) (dg m' - 1 + (dg m - 1)) (dg (m' * m))) as [A _]; [lia| | |lia].
  - rewrite Z.pow_add_r by lia. nia.
  - apply dg_bounds.
Qed.

Lemma of_Z_big z : 0 < z -> match f_of_Z z with S754_finite _ m e => 0 <= dg m + e | _ => True end.
Proof.
  intros H. destruct z as [|p|p]; try lia. unfold f_of_Z, binary_normalize, binary_round.
  unfold prec64, emax64. change (Zpos (digits2_pos p)) with (dg p). destruct (align_mag p) as (p' & e' & -> & M & EZ).
  destruct (Z.lt_ge_cases (dg p') 1000) as [B|B].
  - assert (0 < dg p) by (unfold dg; lia).
    destruct (round_mag p' e' loc_Exact) as (m & e & -> & X & _); lia.
  - unfold binary_round_aux.
    assert (K : -1074 + 53 <= dg p' + e') by (unfold dg in *; lia).
    destruct (shr_fexp_mag p' e' loc_Exact K) as (p1 & A1 & B1 & C1 & D1).
    destruct (shr_fexp 53 1024 (Zpos p') e' loc_Exact) as [r1 e1]. cbn [fst snd] in *.
    rewrite A1. set (lr := loc_of_shr_record r1).
    pose proof (rne_bounds (Zpos p1) lr) as RB.
    destruct (round_nearest_even (Zpos p1) lr) as [|p2|p2]; [lia| |lia].
    assert (D2 : dg p1 <= dg p2).
    { destruct (dg_bounds p1) as [L U]. pose proof (dg_between p2 (dg p1 - 1) (dg p2)) as X.
      assert (0 <= dg p1 - 1) by (unfold dg; lia). pose proof (dg_bounds p2). lia. }
    assert (0 < dg p) by (unfold dg; lia).
    destruct (shr_fexp_mag p2 e1 loc_Exact) as (p3 & A3 & B3 & C3 & D3); [lia|].
    destruct (shr_fexp 53 1024 (Zpos p2) e1 loc_Exact) as [r3 e3]. cbn [fst snd] in *.
    rewrite A3. destruct (_ <=? _); [lia|easy].
Qed.

(** The score of a variable. *)
Lemma quot_mag a z : a = 1 \/ a = 10 -> 0 < z <= 2 ^ 64 ->
  exists m e, fdiv (f_of_Z a) (f_of_Z z) = S754_finite false m e /\ -100 <= dg m + e.
Proof.
  intros A H. destruct (of_Z_mag a) as (m1 & e1 & E1 & B1 & D1); [lia|].
  destruct (of_Z_mag z H) as (m2 & e2 & E2 & B2 & D2).
  assert (0 < dg m1 /\ 0 < dg m2) by (unfold dg; lia).
  rewrite E1, E2. destruct (div_mag m1 e1 m2 e2) as (m & e & E & B); [lia|lia|lia|lia|].
  exists m, e. split; [exact E|lia].
Qed.
Lemma score_pos n a z : 0 < n -> a = 1 \/ a = 10 -> 0 < z <= 2 ^ 64 ->
  pos_flt (fmul (f_of_Z n) (fdiv (f_of_Z a) (f_of_Z z))).
Proof.
  intros N A H. destruct (quot_mag a z A H) as (m & e & -> & B).
  apply mul_pos; [now apply of_Z_pos|lia|]. now apply of_Z_big.
Qed.

(** Zero or positive. *)
Definition nonneg_flt (f : flt) : Prop :=
  match f with S754_zero false | S754_finite false _ _ | S754_infinity false => True | _ => False end.
Lemma pos_nonneg f : pos_flt f -> nonneg_flt f.
Proof. destruct f as [[]|[]| |[] m e]; easy. Qed.
Lemma score_nonneg n a z : 0 <= n -> a = 1 \/ a = 10 -> 0 < z <= 2 ^ 64 ->
  nonneg_flt (fmul (f_of_Z n) (fdiv (f_of_Z a) (f_of_Z z))).
Proof.
  intros N A H. destruct (Z.eq_dec n 0) as [->|NZ].
  - destruct (quot_mag a z A H) as (m & e & -> & B). easy.
  - apply pos_nonneg, score_pos; auto. lia.
Qed.
Lemma round_aux_nonneg prec emax m e l : 0 <= m -> nonneg_flt (binary_round_aux prec emax false m e l).
Proof.
  intros H. unfold binary_round_aux.
  pose proof (shr_fexp_nonneg prec emax m e l H) as H1.
  destruct (shr_fexp prec emax m e l) as [r1 e1]. cbn [fst] in H1.
  pose proof (shr_fexp_nonneg prec emax _ e1 loc_Exact (rne_nonneg _ (loc_of_shr_record r1) H1)) as H2.
  destruct (shr_fexp prec emax (round_nearest_even (shr_m r1) (loc_of_shr_record r1)) e1 loc_Exact) as [r2 e2].
  cbn [fst] in H2. destruct (shr_m r2); [easy| |lia]. now destruct (_ <=? _).
Qed.
Lemma to_f32_nonneg f : nonneg_flt f -> nonneg_flt (f_to_f32 f).
Proof.
  destruct f as [s|s| |[] m e]; try easy. intros _. cbn [f_to_f32]. unfold binary_round.
  destruct (shl_align _ _ _) as [mz ez]. apply round_aux_nonneg. lia.
Qed.
Lemma above_lowest f : nonneg_flt f -> fltb (f_to_f32 (fopp DBL_MAX)) f = true.
Proof.
  replace (f_to_f32 (fopp DBL_MAX)) with (S754_infinity true) by (vm_compute; reflexivity).
  destruct f as [[]|[]| |[] m e]; easy.
Qed.
Lemma pos_above_zero f : pos_flt f -> fgtb f (f_of_Z 0) = true.
Proof. destruct f as [[]|[]| |[] m e]; easy. Qed.
