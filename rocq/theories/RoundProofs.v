(** Rounding to the nearest double: what [binary_round] and the reading of decimal numbers give. *)
From Coq Require Import ZArith Bool Lia Floats.SpecFloat.
From Verif Require Import Base Float FloatSpec Lexer FloatProofs ScoreProofs.
Local Open Scope Z_scope.

(** The record of a shift by n bits: the quotient, and how the rest compares with a half. *)
Definition rec_ok (mrs : shr_record) (X n : Z) : Prop :=
  exists rem, X = shr_m mrs * 2 ^ n + rem /\ 0 <= rem < 2 ^ n
    /\ match shr_r mrs, shr_s mrs with
       | false, false => rem = 0
       | false, true => 0 < 2 * rem < 2 ^ n
       | true, false => 2 * rem = 2 ^ n
       | true, true => 2 ^ n < 2 * rem
       end.

Lemma rec_step mrs X n : 0 <= n -> 0 <= shr_m mrs -> rec_ok mrs X n -> rec_ok (shr_1 mrs) X (n + 1).
Proof.
  intros N H (rem & E & B & K). unfold rec_ok.
  replace (2 ^ (n + 1)) with (2 * 2 ^ n) by (rewrite Z.pow_add_r by lia; lia).
  assert (P : 0 < 2 ^ n) by (apply Z.pow_pos_nonneg; lia).
  destruct mrs as [m r s]. cbn [shr_m shr_r shr_s] in *.
  assert (Q : exists m' b, m = 2 * m' + (if b : bool then 1 else 0)
    /\ shr_1 {| shr_m := m; shr_r := r; shr_s := s |} = {| shr_m := m'; shr_r := b; shr_s := orb r s |}).
  { destruct m as [|[p|p|]|p]; cbn [shr_1]; try lia.
    - exists 0, false. split; reflexivity.
    - exists (Zpos p), true. split; [lia|reflexivity].
    - exists (Zpos p), false. split; [lia|reflexivity].
    - exists 0, true. split; reflexivity. }
  destruct Q as (m' & b & -> & ->). cbn [shr_m shr_r shr_s].
  exists ((if b then 2 ^ n else 0) + rem).
  destruct b, r, s; cbn [orb]; repeat split; lia.
Qed.

Lemma rec_iter p : forall mrs X n, 0 <= n -> 0 <= shr_m mrs -> rec_ok mrs X n ->
  rec_ok (iter_pos shr_1 p mrs) X (n + Zpos p).
Proof.
  induction p as [p IH|p IH|]; intros mrs X n N H R; cbn [iter_pos].
  - replace (n + Zpos p~1) with (n + 1 + Zpos p + Zpos p) by lia.
    apply IH; [lia|apply iter_shr_nonneg; auto using shr_1_nonneg|].
    apply IH; [lia|auto using shr_1_nonneg|]. now apply rec_step.
  - replace (n + Zpos p~0) with (n + Zpos p + Zpos p) by lia.
    apply IH; [lia|now apply iter_shr_nonneg|]. now apply IH.
  - now apply rec_step.
Qed.

(** R is X / 2^n rounded to the nearest integer, ties to even. *)
Definition half_ok (X n R : Z) : Prop :=
  (2 * R - 1) * 2 ^ n <= 2 * X <= (2 * R + 1) * 2 ^ n
  /\ ((2 * R - 1) * 2 ^ n = 2 * X \/ 2 * X = (2 * R + 1) * 2 ^ n -> Z.even R = true).

Lemma rec_round mrs X n : 0 <= n -> rec_ok mrs X n ->
  half_ok X n (round_nearest_even (shr_m mrs) (loc_of_shr_record mrs)).
Proof.
  intros N (rem & E & B & K). assert (P : 0 < 2 ^ n) by (apply Z.pow_pos_nonneg; lia).
  destruct mrs as [m r s]. cbn [shr_m shr_r shr_s] in *. subst X. unfold half_ok.
  destruct r, s; cbn [loc_of_shr_record round_nearest_even].
  - split; [nia|]. intros [C|C]; nia.
  - destruct (Z.even m) eqn:Ev.
    + split; [nia|easy].
    + split; [nia|]. intros _. rewrite Z.even_add, Ev. reflexivity.
  - split; [nia|]. intros [C|C]; nia.
  - split; [nia|]. intros [C|C]; nia.
Qed.

Lemma half_small X n R b : 0 <= n -> 0 <= b -> half_ok X n R -> X < 2 ^ (n + b) -> R <= 2 ^ b.
Proof.
  intros N B [[L U] _] H. rewrite Z.pow_add_r in H by lia.
  assert (P : 0 < 2 ^ n) by (apply Z.pow_pos_nonneg; lia).
  assert (Q : 0 < 2 ^ b) by (apply Z.pow_pos_nonneg; lia). nia.
Qed.
Lemma half_large X n R b : 0 <= n -> 0 <= b -> half_ok X n R -> 2 ^ (n + b) <= X -> 2 ^ b <= R.
Proof.
  intros N B [[L U] _] H. rewrite Z.pow_add_r in H by lia.
  assert (P : 0 < 2 ^ n) by (apply Z.pow_pos_nonneg; lia).
  assert (Q : 0 < 2 ^ b) by (apply Z.pow_pos_nonneg; lia). nia.
Qed.

(** The exponent of the doubles around p * 2^e. *)
Definition grid (p : positive) (e : Z) : Z := Z.max (dg p + e - 53) (-1074).

Lemma fexp_grid p e : fexp 53 1024 (dg p + e) = grid p e.
Proof. reflexivity. Qed.

(** A positive number X * 2^e already at least as fine as the grid. *)
Lemma round_aux_grid s p e : e <= grid p e ->
  exists R, half_ok (Zpos p) (grid p e - e) R /\ 0 <= R <= 2 ^ 53
    /\ (-1074 < grid p e -> 2 ^ 52 <= R)
    /\ match binary_round_aux 53 1024 s (Zpos p) e loc_Exact with
       | S754_zero s' => s' = s /\ R = 0
       | S754_finite s' m' e' =>
           s' = s /\ bounded 53 1024 m' e' = true /\ grid p e <= e'
           /\ Zpos m' * 2 ^ (e' - grid p e) = R
       | S754_infinity s' => s' = s /\ 971 <= grid p e /\ 2 ^ 53 * 2 ^ 971 <= R * 2 ^ grid p e
       | S754_nan => False
       end.
Proof.
  intros Le. unfold binary_round_aux. set (g := grid p e) in *.
  destruct (dg_bounds p) as [DL DU]. assert (D0 : 0 < dg p) by (unfold dg; lia).
  assert (S1 : exists r1, shr_fexp 53 1024 (Zpos p) e loc_Exact = (r1, g)
    /\ rec_ok r1 (Zpos p) (g - e)).
  { unfold shr_fexp. change (Zdigits2 (Zpos p)) with (dg p). rewrite fexp_grid. fold g.
    cbn [shr_record_of_loc].
    assert (I : rec_ok {| shr_m := Zpos p; shr_r := false; shr_s := false |} (Zpos p) 0).
    { exists 0. cbn. lia. }
    destruct (g - e) as [|k|k] eqn:K; cbn [shr]; [| |lia].
    - eexists. split; [f_equal; lia|exact I].
    - eexists. split; [f_equal; lia|]. assert (Z0 : 0 <= 0) by lia. assert (Z1 : 0 <= Zpos p) by lia. exact (rec_iter k {| shr_m := Zpos p; shr_r := false; shr_s := false |} (Zpos p) 0 Z0 Z1 I). }
  destruct S1 as (r1 & -> & O1).
  assert (N : 0 <= g - e) by lia.
  pose proof (rec_round r1 (Zpos p) (g - e) N O1) as HR.
  set (R := round_nearest_even (shr_m r1) (loc_of_shr_record r1)) in *.
  assert (R0 : 0 <= R).
  { destruct HR as [[L U] _]. assert (P : 0 < 2 ^ (g - e)) by (apply Z.pow_pos_nonneg; lia). nia. }
  assert (R1 : R <= 2 ^ 53).
  { apply (half_small (Zpos p) (g - e) R 53); [lia|lia|easy|].
    eapply Z.lt_le_trans; [exact DU|]. apply Z.pow_le_mono_r; [lia|]. unfold g, grid in *. lia. }
  assert (R2 : -1074 < g -> 2 ^ 52 <= R).
  { intros Hg. apply (half_large (Zpos p) (g - e) R 52); [lia|lia|easy|].
    replace (g - e + 52) with (dg p - 1); [easy|]. unfold g, grid in *. lia. }
  exists R. split; [easy|]. split; [lia|]. split; [easy|].
  assert (Gm : -1074 <= g) by (unfold g, grid; lia).
  destruct R as [|q|q] eqn:Rq; [| |lia].
  { unfold shr_fexp. cbn [Zdigits2 shr_record_of_loc]. unfold fexp, emin.
    destruct (Z.max (0 + g - 53) (3 - 1024 - 53) - g) as [|k|k] eqn:K; cbn [shr shr_m];
      [split; reflexivity|lia|split; reflexivity]. }
  unfold shr_fexp. change (Zdigits2 (Zpos q)) with (dg q). rewrite fexp_grid. cbn [shr_record_of_loc].
  destruct (dg_bounds q) as [QL QU]. assert (Q0 : 0 < dg q) by (unfold dg; lia).
  destruct (Z.eq_dec (Zpos q) (2 ^ 53)) as [Full|NF].
  - (* the carry to the next exponent *)
    assert (Dq : dg q = 54) by (apply dg_unique; rewrite Full; cbn; lia).
    unfold grid. rewrite Dq. replace (Z.max (54 + g - 53) (-1074) - g) with 1 by lia.
    cbn [shr]. assert (Eq : q = xO (2 ^ 52)%positive) by (injection Full; intros ->; reflexivity).
    rewrite Eq. cbn [iter_pos shr_1 shr_m]. change (1024 - 53) with 971.
    destruct (Z.leb_spec (g + 1) 971) as [Hz|Hz].
    + split; [reflexivity|]. split.
      * unfold bounded, canonical_mantissa. change (Zpos (digits2_pos (2 ^ 52))) with 53.
        apply andb_true_intro. split; [|apply Z.leb_le; change (1024 - 53) with 971; lia].
        apply Zeq_is_eq_bool. unfold fexp, emin. lia.
      * split; [lia|]. replace (g + 1 - g) with 1 by lia. reflexivity.
    + split; [reflexivity|]. split; [lia|]. rewrite <- Eq, Full.
      apply Z.mul_le_mono_nonneg_l; [lia|]. apply Z.pow_le_mono_r; lia.
  - assert (Dq : dg q <= 53).
    { assert (Zpos q < 2 ^ 53) by lia. apply (dg_between q 0 53); [lia|cbn; lia|easy]. }
    assert (Gq : grid q g - g <= 0) by (unfold grid; lia).
    assert (Can : -1074 < g -> dg q = 53).
    { intros Hg. pose proof (R2 Hg). apply dg_unique. cbn in *. lia. }
    assert (Sh : shr {| shr_m := Zpos q; shr_r := false; shr_s := false |} g (grid q g - g)
                 = ({| shr_m := Zpos q; shr_r := false; shr_s := false |}, g)).
    { destruct (grid q g - g); [reflexivity|lia|reflexivity]. }
    rewrite Sh. cbn [shr_m]. change (1024 - 53) with 971.
    destruct (Z.leb_spec g 971) as [Hz|Hz].
    + split; [reflexivity|]. split.
      * unfold bounded, canonical_mantissa. apply andb_true_intro. split; [|apply Z.leb_le; change (1024 - 53) with 971; lia].
        apply Zeq_is_eq_bool. change (Zpos (digits2_pos q)) with (dg q). rewrite fexp_grid. unfold grid.
        destruct (Z.eq_dec g (-1074)) as [->|]; [lia|]. rewrite Can by lia. lia.
      * split; [lia|]. replace (g - g) with 0 by lia. lia.
    + split; [reflexivity|]. split; [lia|].
      assert (2 ^ 52 <= Zpos q) by (apply R2; lia).
      transitivity (2 ^ 52 * 2 ^ g); [|apply Z.mul_le_mono_nonneg_r; [apply Z.pow_nonneg; lia|easy]].
      rewrite <- !Z.pow_add_r by lia. apply Z.pow_le_mono_r; lia.
Qed.

Lemma binary_round_grid s p e : let g := grid p e in
  exists R, 0 <= R <= 2 ^ 53 /\ (-1074 < g -> 2 ^ 52 <= R)
    /\ (g <= e -> R = Zpos p * 2 ^ (e - g)) /\ (e <= g -> half_ok (Zpos p) (g - e) R)
    /\ match binary_round 53 1024 s p e with
       | S754_zero s' => s' = s /\ R = 0
       | S754_finite s' m' e' =>
           s' = s /\ bounded 53 1024 m' e' = true /\ g <= e' /\ Zpos m' * 2 ^ (e' - g) = R
       | S754_infinity s' => s' = s /\ 971 <= g /\ 2 ^ 53 * 2 ^ 971 <= R * 2 ^ g
       | S754_nan => False
       end.
Proof.
  intros g. unfold binary_round. change (Zpos (digits2_pos p)) with (dg p). rewrite fexp_grid. fold g.
  unfold shl_align. destruct (g - e) as [|k|k] eqn:K.
  - assert (g = e) by lia. destruct (round_aux_grid s p e) as (R & A & B & C & D); [fold g; lia|].
    fold g in A, B, C, D. exists R. split; [exact B|]. split; [exact C|]. split; [|split; [intros _; rewrite K in A; exact A|exact D]].
    intros _. replace (e - g) with 0 by lia. destruct A as [A _]. replace (g - e) with 0 in A by lia. change (2 ^ 0) with 1 in *. lia.
  - destruct (round_aux_grid s p e) as (R & A & B & C & D); [fold g; lia|].
    fold g in A, B, C, D. exists R. split; [exact B|]. split; [exact C|]. split; [lia|]. split; [intros _; rewrite K in A; exact A|exact D].
  - assert (Eg : grid (shift_pos k p) g = g) by (unfold grid; rewrite dg_shift; unfold g, grid in *; lia).
    destruct (round_aux_grid s (shift_pos k p) g) as (R & A & B & C & D); [lia|].
    rewrite Eg in A, C, D. exists R. split; [exact B|]. split; [exact C|]. split; [|split; [|exact D]].
    2: { intros Hge. exfalso. lia. }
    intros _. destruct A as [A _]. replace (g - g) with 0 in A by lia.
    replace (e - g) with (Zpos k) by lia.
    rewrite shift_pos_correct, Zpower_pos_nat, Zpower_nat_Z, positive_nat_Z in A. change (2 ^ 0) with 1 in A. lia.
Qed.

Lemma bounded_double s m e : bounded 53 1024 m e = true -> is_double (S754_finite s m e).
Proof.
  unfold bounded, canonical_mantissa. intros H. apply andb_true_iff in H. destruct H as [A B].
  apply Zeq_is_eq_bool in A. apply Z.leb_le in B. change (Zpos (digits2_pos m)) with (dg m) in A.
  unfold fexp, emin in A. unfold is_double. destruct (dg_bounds m) as [L U]. split; [|lia].
  eapply Z.lt_le_trans; [exact U|]. apply Z.pow_le_mono_r; lia.
Qed.

Lemma grid_nearest V T R : 0 < V -> (2 * R - 1) * V <= 2 * T <= (2 * R + 1) * V ->
  ((2 * R - 1) * V = 2 * T \/ 2 * T = (2 * R + 1) * V -> Z.even R = true) ->
  forall j, Z.abs (R * V - T) <= Z.abs (j * V - T)
    /\ (Z.abs (R * V - T) = Z.abs (j * V - T) -> j = R \/ Z.even R = true).
Proof.
  intros P [L U] E j.
  assert (H : 2 * Z.abs (R * V - T) <= V) by lia.
  destruct (Z.lt_trichotomy j R) as [C|[->|C]].
  - assert (J : j * V <= (R - 1) * V) by nia. split; [lia|].
    intros Q. right. apply E. left. lia.
  - split; [lia|]. intros _. now left.
  - assert (J : (R + 1) * V <= j * V) by nia. split; [lia|].
    intros Q. right. apply E. right. lia.
Qed.

Lemma round_is_nearest f N D g R : 0 < D -> 0 <= N -> -1074 <= g ->
  (2 * R - 1) * (D * 2 ^ (g + 1074)) <= 2 * (N * 2 ^ 1074) <= (2 * R + 1) * (D * 2 ^ (g + 1074)) ->
  ((2 * R - 1) * (D * 2 ^ (g + 1074)) = 2 * (N * 2 ^ 1074) \/ 2 * (N * 2 ^ 1074) = (2 * R + 1) * (D * 2 ^ (g + 1074)) ->
   Z.even R = true) ->
  (-1074 < g -> 2 ^ 52 * (D * 2 ^ (g + 1074)) <= N * 2 ^ 1074) ->
  is_double f -> units f = R * 2 ^ (g + 1074) -> (Z.even R = true -> even_mantissa f) ->
  nearest f N D.
Proof.
  intros HD HN Hg H E B Df Uf Ev. split; [exact Df|]. intros h Dh.
  set (U := 2 ^ (g + 1074)) in *. assert (PU : 0 < U) by (apply Z.pow_pos_nonneg; lia).
  set (T := N * 2 ^ 1074) in *.
  pose proof (grid_nearest (D * U) T R ltac:(nia) H E) as Q.
  assert (Ef : D * units f = R * (D * U)) by (rewrite Uf; ring).
  rewrite Ef.
  assert (Mult : forall j, units h = j * U ->
    Z.abs (R * (D * U) - T) <= Z.abs (D * units h - T)
    /\ (Z.abs (R * (D * U) - T) = Z.abs (D * units h - T) -> units h = units f \/ even_mantissa f)).
  { intros j Ej. destruct (Q j) as [Q1 Q2]. replace (D * units h) with (j * (D * U)) by (rewrite Ej; ring).
    split; [exact Q1|]. intros X. destruct (Q2 X) as [->|X']; [left; now rewrite Ej, Uf|right; auto]. }
  destruct h as [sh| | |sh G F]; cbn [is_double] in Dh; try contradiction.
  { apply (Mult 0). reflexivity. }
  destruct Dh as [HG HF]. cbn [units].
  destruct (Z.le_gt_cases g F) as [C|C].
  - apply (Mult ((if sh then -1 else 1) * (Zpos G * 2 ^ (F - g)))). cbn [units]. unfold U.
    replace (F + 1074) with (F - g + (g + 1074)) by lia. rewrite Z.pow_add_r by lia. ring.
  - assert (B' : 2 ^ 52 * (D * U) <= T) by (apply B; lia).
    set (W := Zpos G * 2 ^ (F + 1074)).
    assert (HW : 0 < W < 2 ^ 52 * U).
    { assert (P : 0 < 2 ^ (F + 1074)) by (apply Z.pow_pos_nonneg; lia).
      assert (P2 : 2 * 2 ^ (F + 1074) <= U).
      { unfold U. rewrite <- Z.pow_succ_r by lia. apply Z.pow_le_mono_r; lia. }
      unfold W. split; [nia|].
      assert (Zpos G * 2 ^ (F + 1074) < 2 ^ 53 * 2 ^ (F + 1074)) by (apply Z.mul_lt_mono_pos_r; lia).
      change (2 ^ 53) with (2 ^ 52 * 2) in *. nia. }
    destruct (Q (2 ^ 52)) as [Q1 _].
    assert (HDW : D * W < 2 ^ 52 * (D * U)) by nia.
    assert (HDW0 : 0 < D * W) by nia.
    assert (Strict : Z.abs (2 ^ 52 * (D * U) - T) < Z.abs (D * ((if sh then -1 else 1) * W) - T)).
    { rewrite (Z.abs_neq (2 ^ 52 * (D * U) - T)) by lia.
      destruct sh.
      - replace (D * (-1 * W)) with (- (D * W)) by ring. rewrite Z.abs_neq by lia. lia.
      - replace (D * (1 * W)) with (D * W) by ring. rewrite Z.abs_neq by lia. lia. }
    split; lia.
Qed.

(** The number N' / C lies at p, or strictly between p - 1 and p + 1 for an odd p. *)
Definition close (p C N' : Z) : Prop :=
  N' = C * p \/ (Z.odd p = true /\ C * (p - 1) < N' < C * (p + 1)).

Lemma half_transfer p n R C N' : 0 < C -> 0 <= n -> half_ok p n R ->
  close p C N' -> (N' = C * p \/ 2 <= n) ->
  (2 * R - 1) * (2 ^ n * C) <= 2 * N' <= (2 * R + 1) * (2 ^ n * C)
  /\ ((2 * R - 1) * (2 ^ n * C) = 2 * N' \/ 2 * N' = (2 * R + 1) * (2 ^ n * C) -> Z.even R = true).
Proof.
  intros HC Hn [[L U] E] Cl N2.
  assert (Ex : N' = C * p ->
    (2 * R - 1) * (2 ^ n * C) <= 2 * N' <= (2 * R + 1) * (2 ^ n * C)
    /\ ((2 * R - 1) * (2 ^ n * C) = 2 * N' \/ 2 * N' = (2 * R + 1) * (2 ^ n * C) -> Z.even R = true)).
  { intros ->. split; [nia|]. intros [X|X]; apply E; [left|right]; nia. }
  destruct Cl as [X|[Od [A B]]]; [now apply Ex|].
  destruct N2 as [X|N2]; [now apply Ex|].
  apply Z.odd_spec in Od. destruct Od as [q ->].
  replace n with (2 + (n - 2)) in * by lia. rewrite Z.pow_add_r in * by lia.
  set (W := 2 ^ (n - 2)) in *. change (2 ^ 2) with 4 in *.
  assert (L' : (2 * R - 1) * W <= q) by lia.
  assert (U' : q + 1 <= (2 * R + 1) * W) by lia.
  split; [nia|]. intros [X|X]; nia.
Qed.

Lemma scale_le a b k : 0 <= k -> a * 2 ^ k <= b * 2 ^ k -> a <= b.
Proof. intros K H. assert (0 < 2 ^ k) by (apply Z.pow_pos_nonneg; lia). nia. Qed.

Lemma binary_round_value p e N D K : 0 < D -> 0 <= N -> 0 <= K -> 0 <= e + 1074 + K ->
  close (Zpos p) (D * 2 ^ (e + 1074 + K)) (N * 2 ^ (1074 + K)) ->
  (N * 2 ^ (1074 + K) = D * 2 ^ (e + 1074 + K) * Zpos p \/ 55 <= dg p) ->
  match binary_round 53 1024 false p e with
  | S754_infinity s => s = false /\ (2 ^ 54 - 1) * 2 ^ 970 * D <= N
  | f => nearest f N D
  end.
Proof.
  intros HD HN HK HK' Cl Ex.
  set (C := D * 2 ^ (e + 1074 + K)) in *. set (N' := N * 2 ^ (1074 + K)) in *.
  assert (PC : 0 < C) by (apply Z.mul_pos_pos; [lia|apply Z.pow_pos_nonneg; lia]).
  destruct (binary_round_grid false p e) as (R & R1 & R2 & RL & RH & M).
  set (g := grid p e) in *.
  assert (G0 : -1074 <= g) by (unfold g, grid; lia).
  destruct (dg_bounds p) as [DL DU]. assert (D0 : 0 < dg p) by (unfold dg; lia).
  set (V := D * 2 ^ (g + 1074)).
  assert (VK : V * 2 ^ K = D * 2 ^ (g + 1074 + K)).
  { unfold V. rewrite (Z.pow_add_r 2 (g + 1074) K) by lia. ring. }
  assert (TK : N * 2 ^ 1074 * 2 ^ K = N').
  { unfold N'. rewrite (Z.pow_add_r 2 1074 K) by lia. ring. }
  assert (PK : 0 < 2 ^ K) by (apply Z.pow_pos_nonneg; lia).
  assert (H : ((2 * R - 1) * V <= 2 * (N * 2 ^ 1074) <= (2 * R + 1) * V
    /\ ((2 * R - 1) * V = 2 * (N * 2 ^ 1074) \/ 2 * (N * 2 ^ 1074) = (2 * R + 1) * V -> Z.even R = true))
    /\ (-1074 < g -> 2 ^ 52 * V <= N * 2 ^ 1074)).
  { destruct (Z.le_gt_cases e g) as [Cm|Cm].
    - assert (VC : V * 2 ^ K = 2 ^ (g - e) * C).
      { rewrite VK. unfold C. replace (g + 1074 + K) with (g - e + (e + 1074 + K)) by lia.
        rewrite Z.pow_add_r by lia. ring. }
      assert (Hn2 : N' = C * Zpos p \/ 2 <= g - e).
      { destruct Ex as [X|X]; [left; exact X|right]. unfold g, grid. lia. }
      destruct (half_transfer (Zpos p) (g - e) R C N' PC ltac:(lia) (RH Cm) Cl Hn2) as [[A1 A2] A3].
      rewrite <- VC, <- TK in A1, A2, A3. split; [split|].
      + split; apply (scale_le _ _ K HK); lia.
      + intros X. apply A3. destruct X as [X|X]; [left|right].
        * replace (2 * (N * 2 ^ 1074 * 2 ^ K)) with (2 * (N * 2 ^ 1074) * 2 ^ K) by ring. rewrite <- X. ring.
        * replace (2 * (N * 2 ^ 1074 * 2 ^ K)) with (2 * (N * 2 ^ 1074) * 2 ^ K) by ring. rewrite X. ring.
      + intros Hg. apply (scale_le _ _ K HK). rewrite TK.
        replace (2 ^ 52 * V * 2 ^ K) with (2 ^ 52 * (V * 2 ^ K)) by ring. rewrite VC.
        assert (Big : 2 ^ 52 * 2 ^ (g - e) <= Zpos p).
        { rewrite <- Z.pow_add_r by lia. replace (52 + (g - e)) with (dg p - 1); [easy|]. unfold g, grid in *. lia. }
        destruct Cl as [->|[Od [B1 B2]]]; [nia|].
        apply Z.odd_spec in Od. destruct Od as [q Eq]. rewrite Eq in *.
        change (2 ^ 52) with (2 * 2 ^ 51) in *.
        assert (2 ^ 51 * 2 ^ (g - e) <= q) by lia. nia.
    - assert (Hge : N' = C * Zpos p).
      { destruct Ex as [X|X]; [exact X|exfalso]. unfold g, grid in *. lia. }
      pose proof (RL ltac:(lia)) as ER.
      assert (EV : R * V = N * 2 ^ 1074).
      { apply (Z.mul_reg_r _ _ (2 ^ K)); [lia|]. rewrite TK, <- Z.mul_assoc, VK, Hge, ER. unfold C.
        replace (e + 1074 + K) with (e - g + (g + 1074 + K)) by lia. rewrite (Z.pow_add_r 2 (e - g)) by lia. ring. }
      assert (PV : 0 < V) by (apply Z.mul_pos_pos; [lia|apply Z.pow_pos_nonneg; lia]).
      split; [split; [lia|intros [X|X]; lia]|].
      intros Hg. rewrite <- EV. apply Z.mul_le_mono_nonneg_r; [lia|]. apply R2, Hg. }
  destruct H as [[A1 A2] A3].
  destruct (binary_round 53 1024 false p e) as [s|s| |s m' e'].
  - destruct M as [-> ->].
    apply (round_is_nearest (S754_zero false) N D g 0); try assumption; cbn [is_double units even_mantissa]; easy.
  - destruct M as (-> & Hg & Hr). split; [reflexivity|].
    assert (Q : (2 ^ 54 - 1) * (D * 2 ^ (971 + 1074)) <= 2 * (N * 2 ^ 1074)).
    { assert (PP : 0 < D * 2 ^ (971 + 1074)) by (apply Z.mul_pos_pos; [lia|apply Z.pow_pos_nonneg; lia]).
      destruct (Z.eq_dec g 971) as [Eg|Ng].
      - rewrite Eg in Hr. apply Z.mul_le_mono_pos_r in Hr; [|apply Z.pow_pos_nonneg; lia].
        destruct A1 as [A1 _]. etransitivity; [|exact A1]. unfold V. rewrite Eg.
        apply Z.mul_le_mono_nonneg_r; [lia|]. change (2 ^ 54) with (2 * 2 ^ 53). lia.
      - pose proof (A3 ltac:(lia)) as B.
        assert (V2 : 2 * (D * 2 ^ (971 + 1074)) <= V).
        { unfold V. replace (g + 1074) with (g - 972 + (1 + (971 + 1074))) by lia.
          rewrite (Z.pow_add_r 2 (g - 972)), (Z.pow_add_r 2 1) by lia. change (2 ^ 1) with 2.
          assert (1 <= 2 ^ (g - 972)) by (change 1 with (2 ^ 0); apply Z.pow_le_mono_r; lia).
          generalize dependent (2 ^ (971 + 1074)). intros. nia. }
        generalize dependent (2 ^ (971 + 1074)). intros. change (2 ^ 54) with (4 * 2 ^ 52). nia. }
    apply (scale_le _ _ 1075); [lia|].
    replace ((2 ^ 54 - 1) * 2 ^ 970 * D * 2 ^ 1075) with ((2 ^ 54 - 1) * (D * (2 ^ 970 * 2 ^ 1075)))
      by (generalize (2 ^ 54 - 1), (2 ^ 970), (2 ^ 1075); intros; ring).
    rewrite <- Z.pow_add_r by lia. replace (970 + 1075) with (971 + 1074) by lia.
    replace (N * 2 ^ 1075) with (2 * (N * 2 ^ 1074)); [exact Q|].
    replace 1075 with (1 + 1074) by lia. rewrite (Z.pow_add_r 2 1 1074) by lia. generalize (2 ^ 1074); intros; change (2 ^ 1) with 2; ring.
  - contradiction.
  - destruct M as (-> & Bd & Hg & Em).
    apply (round_is_nearest _ N D g R); try assumption.
    + now apply bounded_double.
    + unfold units. rewrite <- Em. replace (e' + 1074) with (e' - g + (g + 1074)) by lia. rewrite Z.pow_add_r by lia. ring.
    + intros Ev. unfold even_mantissa.
      destruct (Z.eq_dec e' g) as [->|Ne].
      * rewrite Z.sub_diag, Z.mul_1_r in Em. now rewrite Em.
      * destruct (bounded_double false m' e' Bd) as [Bm _].
        assert (P2 : 2 <= 2 ^ (e' - g)) by (change 2 with (2 ^ 1) at 1; apply Z.pow_le_mono_r; lia).
        assert (Zpos m' <= 2 ^ 52).
        { change (2 ^ 53) with (2 * 2 ^ 52) in R1. nia. }
        apply andb_true_iff in Bd. destruct Bd as [Cn _]. unfold canonical_mantissa in Cn. apply Zeq_is_eq_bool in Cn.
        change (Zpos (digits2_pos m')) with (dg m') in Cn. rewrite fexp_grid in Cn. unfold grid in Cn.
        assert (dg m' = 53) by lia. destruct (dg_bounds m') as [ML MU]. rewrite H0 in ML.
        change (2 ^ (53 - 1)) with (2 ^ 52) in ML. replace (Zpos m') with (2 ^ 52) by lia. reflexivity.
Qed.

Lemma log2_dg p : Z.log2 (Zpos p) = dg p - 1.
Proof.
  destruct (dg_bounds p) as [L U]. assert (0 < dg p) by (unfold dg; lia).
  apply Z.log2_unique; [lia|]. replace (Z.succ (dg p - 1)) with (dg p) by lia. lia.
Qed.

(** The double read from a decimal number is a nearest one. *)
Lemma dec_flt_nearest m k : 0 <= m ->
  match dec_flt m k with
  | S754_infinity s => s = false /\ (2 ^ 54 - 1) * 2 ^ 970 * 10 ^ Z.of_nat k <= m
  | f => nearest f m (10 ^ Z.of_nat k)
  end.
Proof.
  intros Hm. unfold dec_flt. destruct (Z.eqb_spec m 0) as [->|Nz].
  { split; [exact I|]. intros g _. cbn [units]. rewrite Z.mul_0_r, Z.mul_0_l. cbn [even_mantissa]. split; [lia|tauto]. }
  set (d := 10 ^ Z.of_nat k). assert (Pd : 0 < d) by (apply Z.pow_pos_nonneg; lia).
  set (s := Z.max 0 (Z.log2 d - Z.log2 m + 66)).
  assert (Ps : 0 < 2 ^ s) by (apply Z.pow_pos_nonneg; lia).
  set (q := m * 2 ^ s / d). set (r := m * 2 ^ s mod d).
  pose proof (Z.div_mod (m * 2 ^ s) d ltac:(lia)) as DM. fold q r in DM.
  pose proof (Z.mod_pos_bound (m * 2 ^ s) d Pd) as RB. fold r in RB.
  assert (Bq : 2 ^ 64 <= q).
  { apply Z.div_le_lower_bound; [exact Pd|].
    destruct (Z.log2_spec m ltac:(lia)) as [ML _]. destruct (Z.log2_spec d Pd) as [_ DU].
    pose proof (Z.log2_nonneg m). pose proof (Z.log2_nonneg d).
    transitivity (2 ^ (Z.succ (Z.log2 d) + 64)).
    - rewrite Z.pow_add_r by lia. apply Z.mul_le_mono_nonneg_r; [apply Z.pow_nonneg|]; lia.
    - transitivity (2 ^ (Z.log2 m + s)); [apply Z.pow_le_mono_r; unfold s; lia|].
      rewrite Z.pow_add_r by (unfold s; lia). apply Z.mul_le_mono_nonneg_r; lia. }
  unfold binary_normalize, prec64, emax64.
  destruct (2 * q + (if r =? 0 then 0 else 1)) as [|p|p] eqn:Ep; [destruct (r =? 0); lia| |destruct (r =? 0); lia].
  assert (S0 : 0 <= s) by (unfold s; lia).
  apply (binary_round_value p (- s - 1) m d (s + 1)); try lia.
  - replace (- s - 1 + 1074 + (s + 1)) with 1074 by lia.
    replace (m * 2 ^ (1074 + (s + 1))) with (m * 2 ^ s * (2 * 2 ^ 1074)).
    2: { replace (1074 + (s + 1)) with (s + (1 + 1074)) by lia. rewrite (Z.pow_add_r 2 s (1 + 1074)), (Z.pow_add_r 2 1 1074) by lia. ring. }
    assert (PX : 0 < 2 ^ 1074) by (apply Z.pow_pos_nonneg; lia). set (X := 2 ^ 1074) in *.
    rewrite DM. unfold close. destruct (Z.eqb_spec r 0) as [Hr|Hr].
    + left. rewrite <- Ep, Hr. ring.
    + right. rewrite <- Ep. split; [rewrite Z.odd_add, Z.odd_mul; reflexivity|].
      split; nia.
  - right. assert (64 < dg p <= dg p); [|lia]. apply dg_between; [lia| |apply dg_bounds].
    rewrite <- Ep. destruct (r =? 0); lia.
Qed.

(** *** Sign, comparison, subtraction *)

Lemma aux_opp m e l : binary_round_aux 53 1024 true m e l = fopp (binary_round_aux 53 1024 false m e l).
Proof.
  unfold binary_round_aux. destruct (shr_fexp 53 1024 m e l) as [r1 e1].
  destruct (shr_fexp 53 1024 _ e1 loc_Exact) as [r2 e2]. destruct (shr_m r2); try reflexivity.
  now destruct (_ <=? _).
Qed.
Lemma round_opp p e : binary_round 53 1024 true p e = fopp (binary_round 53 1024 false p e).
Proof. unfold binary_round. destruct (shl_align _ _ _). apply aux_opp. Qed.

Lemma units_opp f : units (fopp f) = - units f.
Proof. destruct f as [s|s| |s m e]; try reflexivity. cbn [fopp SFopp units]. destruct s; cbn [negb]; lia. Qed.
Lemma double_opp f : is_double f -> is_double (fopp f).
Proof. now destruct f. Qed.
Lemma nearest_opp f N D : nearest f N D -> nearest (fopp f) (- N) D.
Proof.
  intros [A B]. split; [now apply double_opp|]. intros g Dg.
  destruct (B (fopp g) (double_opp _ Dg)) as [B1 B2]. rewrite !units_opp in *.
  replace (D * - units f - - N * 2 ^ 1074) with (- (D * units f - N * 2 ^ 1074)) by ring.
  replace (D * units g - - N * 2 ^ 1074) with (- (D * - units g - N * 2 ^ 1074)) by ring.
  rewrite !Z.abs_opp. split; [exact B1|]. intros X. destruct (B2 X) as [Y|Y]; [left; lia|right; now destruct f].
Qed.

Lemma round_valid s p e : valid_binary 53 1024 (binary_round 53 1024 s p e) = true.
Proof.
  destruct (binary_round_grid s p e) as (R & _ & _ & _ & _ & M).
  destruct (binary_round 53 1024 s p e); try reflexivity; try contradiction. apply M.
Qed.
Lemma normalize_valid z e s : valid_binary 53 1024 (binary_normalize 53 1024 z e s) = true.
Proof. destruct z; [reflexivity| |]; apply round_valid. Qed.

Lemma normalize_value z e : -1074 <= e ->
  match binary_normalize 53 1024 z e false with
  | S754_infinity _ => (2 ^ 54 - 1) * 2 ^ 970 * 2 ^ 1074 <= Z.abs z * 2 ^ (e + 1074)
  | f => nearest f (z * 2 ^ (e + 1074)) (2 ^ 1074)
  end.
Proof.
  intros He.
  assert (Pos : forall p,
    match binary_round 53 1024 false p e with
    | S754_infinity s => s = false /\ (2 ^ 54 - 1) * 2 ^ 970 * 2 ^ 1074 <= Zpos p * 2 ^ (e + 1074)
    | f => nearest f (Zpos p * 2 ^ (e + 1074)) (2 ^ 1074)
    end).
  { intros p.
    assert (PX : 0 < 2 ^ 1074) by (apply Z.pow_pos_nonneg; lia).
    assert (PE : 0 < 2 ^ (e + 1074)) by (apply Z.pow_pos_nonneg; lia).
    assert (X : Zpos p * 2 ^ (e + 1074) * 2 ^ 1074 = 2 ^ 1074 * 2 ^ (e + 1074) * Zpos p)
      by (generalize (2 ^ 1074), (2 ^ (e + 1074)); intros; ring).
    apply (binary_round_value p e (Zpos p * 2 ^ (e + 1074)) (2 ^ 1074) 0); rewrite ?Z.add_0_r; try lia;
      left; exact X. }
  destruct z as [|p|p]; cbn [binary_normalize].
  - split; [exact I|]. intros g _. cbn [units even_mantissa]. rewrite Z.mul_0_l, Z.mul_0_r. split; [lia|tauto].
  - specialize (Pos p). destruct (binary_round 53 1024 false p e); try exact Pos. apply Pos.
  - specialize (Pos p). rewrite round_opp.
    replace (Zneg p * 2 ^ (e + 1074)) with (- (Zpos p * 2 ^ (e + 1074))) by lia.
    change (Z.abs (Zneg p)) with (Zpos p).
    destruct (binary_round 53 1024 false p e) as [s|s| |s m' e'].
    + apply (nearest_opp (S754_zero s)), Pos.
    + apply Pos.
    + apply (nearest_opp S754_nan), Pos.
    + apply (nearest_opp (S754_finite s m' e')), Pos.
Qed.

Lemma nearest_scale f N D K : 0 < K -> nearest f (N * K) (D * K) -> nearest f N D.
Proof.
  intros HK [A B]. split; [exact A|]. intros g Dg. destruct (B g Dg) as [B1 B2].
  replace (D * K * units f - N * K * 2 ^ 1074) with ((D * units f - N * 2 ^ 1074) * K) in B1, B2 by ring.
  replace (D * K * units g - N * K * 2 ^ 1074) with ((D * units g - N * 2 ^ 1074) * K) in B1, B2 by ring.
  rewrite !Z.abs_mul, !(Z.abs_eq K) in B1, B2 by lia. split; [nia|]. intros X. apply B2. now rewrite X.
Qed.

Lemma of_Z_nearest z : Z.abs z < 2 ^ 1023 -> nearest (f_of_Z z) z 1.
Proof.
  intros Hz. unfold f_of_Z, prec64, emax64.
  pose proof (normalize_value z 0 ltac:(lia)) as V. rewrite Z.add_0_l in V.
  assert (PX : 0 < 2 ^ 1074) by (apply Z.pow_pos_nonneg; lia).
  assert (NI : ~ (2 ^ 54 - 1) * 2 ^ 970 * 2 ^ 1074 <= Z.abs z * 2 ^ 1074).
  { intros C. apply Z.mul_le_mono_pos_r in C; [|exact PX]. clear V.
    assert (2 ^ 1023 <= (2 ^ 54 - 1) * 2 ^ 970).
    { replace (2 ^ 1023) with (2 ^ 53 * 2 ^ 970) by (rewrite <- Z.pow_add_r by lia; reflexivity).
      apply Z.mul_le_mono_nonneg_r; [apply Z.pow_nonneg; lia|lia]. }
    lia. }
  destruct (binary_normalize 53 1024 z 0 false) as [s|s| |s m e]; try contradiction;
    (apply (nearest_scale _ z 1 (2 ^ 1074)); [exact PX|rewrite Z.mul_1_l; exact V]).
Qed.

Lemma of_Z_exact z : Z.abs z <= 2 ^ 53 -> units (f_of_Z z) = z * 2 ^ 1074.
Proof.
  intros Hz.
  destruct (of_Z_nearest z) as [_ B].
  { eapply Z.le_lt_trans; [exact Hz|]. apply Z.pow_lt_mono_r; lia. }
  assert (G : exists g, is_double g /\ units g = z * 2 ^ 1074).
  { destruct (Z.eq_dec z 0) as [->|Nz]; [exists (S754_zero false); split; [exact I|reflexivity]|].
    destruct (Z.eq_dec (Z.abs z) (2 ^ 53)) as [E|NE].
    - exists (S754_finite (z <? 0) (2 ^ 52) 1). split; [cbn; lia|]. unfold units.
      replace (1 + 1074) with (1 + 1074) by lia. rewrite (Z.pow_add_r 2 1 1074) by lia.
      generalize (2 ^ 1074). intros X. change (Zpos (2 ^ 52)) with (2 ^ 52). change (2 ^ 1) with 2.
      change (2 ^ 53) with (2 * 2 ^ 52) in E. destruct (Z.ltb_spec z 0); nia.
    - exists (S754_finite (z <? 0) (Z.to_pos (Z.abs z)) 0). split.
      + unfold is_double. rewrite Z2Pos.id by lia. lia.
      + unfold units. rewrite Z2Pos.id by lia. rewrite Z.add_0_l. generalize (2 ^ 1074). intros X.
        destruct (Z.ltb_spec z 0); nia. }
  destruct G as (g & Dg & Ug). destruct (B g Dg) as [B1 _]. rewrite Ug in B1. lia.
Qed.

(** Comparison of canonical doubles is comparison of numbers. *)
Lemma can_range m e : bounded 53 1024 m e = true ->
  Zpos m < 2 ^ 53 /\ -1074 <= e <= 971 /\ (-1074 < e -> 2 ^ 52 <= Zpos m).
Proof.
  intros H. destruct (bounded_double false m e H) as [A B]. split; [exact A|]. split; [exact B|].
  apply andb_true_iff in H. destruct H as [C _]. unfold canonical_mantissa in C. apply Zeq_is_eq_bool in C.
  change (Zpos (digits2_pos m)) with (dg m) in C. unfold fexp, emin in C. intros He.
  destruct (dg_bounds m) as [L _]. assert (E : dg m = 53) by lia. rewrite E in L. exact L.
Qed.
Lemma can_lt m e m' e' : bounded 53 1024 m e = true -> bounded 53 1024 m' e' = true -> e < e' ->
  Zpos m * 2 ^ (e + 1074) < Zpos m' * 2 ^ (e' + 1074).
Proof.
  intros H H' L. destruct (can_range _ _ H) as (A & B & _). destruct (can_range _ _ H') as (_ & B' & C').
  specialize (C' ltac:(lia)).
  replace (e' + 1074) with (e' - e - 1 + (1 + (e + 1074))) by lia.
  rewrite (Z.pow_add_r 2 (e' - e - 1)), (Z.pow_add_r 2 1) by lia. change (2 ^ 1) with 2.
  assert (1 <= 2 ^ (e' - e - 1)) by (change 1 with (2 ^ 0); apply Z.pow_le_mono_r; lia).
  assert (0 < 2 ^ (e + 1074)) by (apply Z.pow_pos_nonneg; lia).
  change (2 ^ 53) with (2 * 2 ^ 52) in A. set (X := 2 ^ (e + 1074)) in *. set (Y := 2 ^ (e' - e - 1)) in *.
  assert (Zpos m * X < 2 * 2 ^ 52 * X) by nia.
  assert (2 ^ 52 * (2 * X) <= Zpos m' * (2 * X)) by (apply Z.mul_le_mono_nonneg_r; lia).
  assert (Zpos m' * (2 * X) <= Zpos m' * (Y * (2 * X))) by nia. lia.
Qed.

Definition good_flt (f : flt) : Prop :=
  match f with S754_zero _ => True | S754_finite _ m e => bounded 53 1024 m e = true | _ => False end.

Lemma pos_cmp m e m' e' : bounded 53 1024 m e = true -> bounded 53 1024 m' e' = true ->
  match Z.compare e e' with Lt => Lt | Gt => Gt | Eq => Pos.compare_cont Eq m m' end
  = Z.compare (Zpos m * 2 ^ (e + 1074)) (Zpos m' * 2 ^ (e' + 1074)).
Proof.
  intros H H'. destruct (Z.compare_spec e e') as [->|L|L].
  - assert (P : 0 < 2 ^ (e' + 1074)) by (apply Z.pow_pos_nonneg; destruct (can_range _ _ H') as (_ & ? & _); lia).
    change (Pos.compare_cont Eq m m') with (Z.compare (Zpos m) (Zpos m')).
    symmetry. destruct (Z.compare_spec (Zpos m) (Zpos m')) as [E|L|L].
    + rewrite E. apply Z.compare_refl.
    + apply Z.compare_lt_iff. nia.
    + apply Z.compare_gt_iff. nia.
  - symmetry. apply Z.compare_lt_iff. now apply can_lt.
  - symmetry. apply Z.compare_gt_iff. now apply can_lt.
Qed.

Lemma compare_units a b : good_flt a -> good_flt b -> SFcompare a b = Some (Z.compare (units a) (units b)).
Proof.
  intros Ha Hb.
  destruct a as [s| | |s m e], b as [s'| | |s' m' e']; cbn [good_flt] in *; try contradiction;
    cbn [SFcompare units].
  - reflexivity.
  - assert (0 < 2 ^ (e' + 1074)) by (apply Z.pow_pos_nonneg; destruct (can_range _ _ Hb) as (_ & ? & _); lia).
    f_equal. symmetry. destruct s'; [apply Z.compare_gt_iff|apply Z.compare_lt_iff]; nia.
  - assert (0 < 2 ^ (e + 1074)) by (apply Z.pow_pos_nonneg; destruct (can_range _ _ Ha) as (_ & ? & _); lia).
    f_equal. symmetry. destruct s; [apply Z.compare_lt_iff|apply Z.compare_gt_iff]; nia.
  - assert (P : 0 < 2 ^ (e + 1074)) by (apply Z.pow_pos_nonneg; destruct (can_range _ _ Ha) as (_ & ? & _); lia).
    assert (P' : 0 < 2 ^ (e' + 1074)) by (apply Z.pow_pos_nonneg; destruct (can_range _ _ Hb) as (_ & ? & _); lia).
    f_equal. destruct s, s'.
    + transitivity (CompOpp (Z.compare (Zpos m * 2 ^ (e + 1074)) (Zpos m' * 2 ^ (e' + 1074)))).
      * rewrite <- pos_cmp by easy. destruct (e ?= e'); reflexivity.
      * replace (-1 * (Zpos m * 2 ^ (e + 1074))) with (- (Zpos m * 2 ^ (e + 1074))) by lia.
        replace (-1 * (Zpos m' * 2 ^ (e' + 1074))) with (- (Zpos m' * 2 ^ (e' + 1074))) by lia.
        rewrite Z.compare_opp. symmetry. apply Z.compare_antisym.
    + symmetry. apply Z.compare_lt_iff. nia.
    + symmetry. apply Z.compare_gt_iff. nia.
    + rewrite pos_cmp by easy. f_equal; lia.
Qed.

Lemma align_units s m e ez : -1074 <= ez <= e ->
  cond_Zopp s (Zpos (fst (shl_align m e ez))) * 2 ^ (ez + 1074) = units (S754_finite s m e).
Proof.
  intros H.
  assert (A : Zpos (fst (shl_align m e ez)) = Zpos m * 2 ^ (e - ez)).
  { unfold shl_align. destruct (ez - e) as [|k|k] eqn:K; [|lia|].
    - cbn [fst]. replace (e - ez) with 0 by lia. change (2 ^ 0) with 1. lia.
    - cbn [fst]. rewrite shift_pos_correct, Zpower_pos_nat, Zpower_nat_Z, positive_nat_Z.
      replace (e - ez) with (Zpos k) by lia. ring. }
  unfold units. replace (e + 1074) with (e - ez + (ez + 1074)) by lia. rewrite (Z.pow_add_r 2 (e - ez)) by lia.
  destruct s; cbn [cond_Zopp]; rewrite A; ring.
Qed.

Lemma exact_nearest f : is_double f -> nearest f (units f) (2 ^ 1074).
Proof.
  intros H. split; [exact H|]. intros g Dg.
  assert (P : 0 < 2 ^ 1074) by (apply Z.pow_pos_nonneg; lia).
  rewrite (Z.mul_comm (2 ^ 1074) (units f)), Z.sub_diag. split; [cbn; lia|].
  intros E. left. cbn [Z.abs] in E.
  assert (Q : (units g - units f) * 2 ^ 1074 = 0).
  { replace ((units g - units f) * 2 ^ 1074) with (2 ^ 1074 * units g - units f * 2 ^ 1074)
      by (generalize (2 ^ 1074); intros; ring). lia. }
  apply Z.mul_eq_0 in Q. destruct Q; lia.
Qed.
Lemma good_double f : good_flt f -> is_double f.
Proof. destruct f; cbn [good_flt]; try easy. apply bounded_double. Qed.

(** Subtraction gives a double nearest to the difference. *)
Lemma sub_value a b : good_flt a -> good_flt b ->
  valid_binary 53 1024 (fsub a b) = true /\
  match fsub a b with
  | S754_infinity _ => (2 ^ 54 - 1) * 2 ^ 970 * 2 ^ 1074 <= Z.abs (units a - units b)
  | f => nearest f (units a - units b) (2 ^ 1074)
  end.
Proof.
  intros Ha Hb.
  destruct a as [s| | |s m e], b as [s'| | |s' m' e']; cbn [good_flt] in *; try contradiction.
  - unfold fsub, SFsub. destruct (Bool.eqb s (negb s')); (split; [reflexivity|apply (exact_nearest (S754_zero _) I)]).
  - unfold fsub, SFsub. split; [exact Hb|].
    pose proof (exact_nearest (S754_finite (negb s') m' e') (good_double (S754_finite (negb s') m' e') Hb)) as X.
    change (S754_finite (negb s') m' e') with (fopp (S754_finite s' m' e')) in *. rewrite units_opp in X. exact X.
  - unfold fsub, SFsub. split; [exact Ha|]. pose proof (exact_nearest (S754_finite s m e) (good_double (S754_finite s m e) Ha)) as X.
    change (units (S754_zero s')) with 0. rewrite Z.sub_0_r. exact X.
  - unfold fsub, SFsub, prec64, emax64. split; [apply normalize_valid|].
    destruct (can_range _ _ Ha) as (_ & Ra & _). destruct (can_range _ _ Hb) as (_ & Rb & _).
    set (ez := Z.min e e').
    pose proof (normalize_value (cond_Zopp s (Zpos (fst (shl_align m e ez)))
       - cond_Zopp s' (Zpos (fst (shl_align m' e' ez)))) ez ltac:(lia)) as V.
    set (z := cond_Zopp s (Zpos (fst (shl_align m e ez))) - cond_Zopp s' (Zpos (fst (shl_align m' e' ez)))) in *.
    assert (U : z * 2 ^ (ez + 1074) = units (S754_finite s m e) - units (S754_finite s' m' e')).
    { unfold z. rewrite Z.mul_sub_distr_r, !align_units by lia. reflexivity. }
    rewrite <- U.
    assert (P : 0 < 2 ^ (ez + 1074)) by (apply Z.pow_pos_nonneg; lia).
    destruct (binary_normalize 53 1024 z ez false); try exact V.
    rewrite Z.abs_mul, (Z.abs_eq (2 ^ (ez + 1074))) by lia. exact V.
Qed.

Lemma units_abs f : units (fabs f) = Z.abs (units f).
Proof.
  destruct f as [s|s| |s m e]; try reflexivity. unfold fabs, SFabs, units.
  assert (0 <= 2 ^ (e + 1074)) by (apply Z.pow_nonneg; lia).
  assert (0 <= Zpos m * 2 ^ (e + 1074)) by nia. destruct s; lia.
Qed.

(** Two doubles count as equal when they differ by less than 2^-52 (up to the rounding of the difference). *)
Lemma feq_close a b : good_flt a -> good_flt b ->
  (feq a b = true -> Z.abs (units a - units b) < 2 ^ 1022)
  /\ (Z.abs (units a - units b) <= 2 ^ 1022 - 2 ^ 969 -> feq a b = true).
Proof.
  intros Ha Hb. destruct (sub_value a b Ha Hb) as [Vd V].
  set (N := units a - units b) in *.
  assert (P : 0 < 2 ^ 1074) by (apply Z.pow_pos_nonneg; lia).
  assert (P9 : 0 < 2 ^ 969) by (apply Z.pow_pos_nonneg; lia).
  assert (P10 : 2 ^ 969 < 2 ^ 1022) by (apply Z.pow_lt_mono_r; lia).
  assert (Near : forall f, nearest f N (2 ^ 1074) -> forall g, is_double g -> Z.abs (units f - N) <= Z.abs (units g - N)).
  { intros f [_ B] g Dg. destruct (B g Dg) as [B1 _].
    replace (2 ^ 1074 * units f - N * 2 ^ 1074) with ((units f - N) * 2 ^ 1074) in B1 by (generalize (2 ^ 1074); intros; ring).
    replace (2 ^ 1074 * units g - N * 2 ^ 1074) with ((units g - N) * 2 ^ 1074) in B1 by (generalize (2 ^ 1074); intros; ring).
    rewrite !Z.abs_mul, !(Z.abs_eq (2 ^ 1074)) in B1 by lia. apply Z.mul_le_mono_pos_r in B1; [exact B1|exact P]. }
  assert (Ge : good_flt DBL_EPSILON) by (vm_compute; reflexivity).
  assert (Ue : units DBL_EPSILON = 2 ^ 1022).
  { unfold units, DBL_EPSILON. replace (-104 + 1074) with 970 by lia. replace 1022 with (52 + 970) by lia.
    rewrite (Z.pow_add_r 2 52 970) by lia. generalize (2 ^ 970). intros. lia. }
  set (pred := S754_finite false 9007199254740991 (-105)).
  assert (Up : units pred = 2 ^ 1022 - 2 ^ 969).
  { unfold units, pred. replace (-105 + 1074) with 969 by lia. replace 1022 with (53 + 969) by lia.
    rewrite (Z.pow_add_r 2 53 969) by lia. generalize (2 ^ 969). intros. lia. }
  assert (Dp : is_double pred) by (unfold pred, is_double; lia).
  assert (Fin : forall f, good_flt f -> nearest f N (2 ^ 1074) ->
    (fltb (fabs f) DBL_EPSILON = true -> Z.abs N < 2 ^ 1022)
    /\ (Z.abs N <= 2 ^ 1022 - 2 ^ 969 -> fltb (fabs f) DBL_EPSILON = true)).
  { intros f Gf Nf. unfold fltb, SFltb. rewrite compare_units; [|now destruct f|exact Ge]. rewrite units_abs, Ue.
    pose proof (Near f Nf) as Q.
    pose proof (Q _ (good_double _ Ge)) as Q1. rewrite Ue in Q1.
    pose proof (Q _ (double_opp _ (good_double _ Ge))) as Q2. rewrite units_opp, Ue in Q2.
    pose proof (Q _ Dp) as Q3. rewrite Up in Q3.
    pose proof (Q _ (double_opp _ Dp)) as Q4. rewrite units_opp, Up in Q4.
    clear Q Near. generalize dependent (2 ^ 1022). intros E P10 Ue Up Q1 Q2 Q3 Q4.
    generalize dependent (2 ^ 969). intros F P9 P10 Up Q3 Q4.
    split.
    - intros C. destruct (Z.compare_spec (Z.abs (units f)) E) as [X|X|X]; try discriminate. lia.
    - intros C. destruct (Z.compare_spec (Z.abs (units f)) E) as [X|X|X]; [exfalso; lia|reflexivity|exfalso; lia]. }
  unfold feq. destruct (fsub a b) as [s|s| |s m e]; cbn [valid_binary] in Vd.
  - apply (Fin (S754_zero s)); [exact I|exact V].
  - assert (Fi : fltb (fabs (S754_infinity s)) DBL_EPSILON = false) by reflexivity. rewrite Fi.
    split; [discriminate|]. intros C. exfalso.
    assert (2 ^ 1022 <= (2 ^ 54 - 1) * 2 ^ 970 * 2 ^ 1074).
    { replace (2 ^ 1022) with (2 ^ 52 * 2 ^ 970) by (rewrite <- Z.pow_add_r by lia; f_equal; lia).
      assert (0 < 2 ^ 970) by (apply Z.pow_pos_nonneg; lia). clear - H P. change (2 ^ 54) with (4 * 2 ^ 52).
      generalize dependent (2 ^ 970). generalize dependent (2 ^ 1074). intros. nia. }
    lia.
  - destruct V as [C _]. destruct C.
  - apply (Fin (S754_finite s m e)); [exact Vd|exact V].
Qed.

Lemma of_Z_good z : Z.abs z < 2 ^ 1023 -> good_flt (f_of_Z z).
Proof.
  intros Hz. destruct (of_Z_nearest z Hz) as [D _].
  pose proof (normalize_valid z 0 false) as V. unfold f_of_Z, prec64, emax64 in *.
  destruct (binary_normalize 53 1024 z 0 false); try contradiction; [exact I|exact V].
Qed.

Lemma canonical_good f : canonical f <-> good_flt f.
Proof.
  destruct f as [s|s| |s m e]; try (cbn; tauto). cbn [good_flt canonical]. split.
  - intros (A & B & C). destruct (dg_bounds m) as [L U]. assert (0 < dg m) by (unfold dg; lia).
    unfold bounded, canonical_mantissa. change (Zpos (digits2_pos m)) with (dg m). apply andb_true_intro.
    split; [|apply Z.leb_le; lia]. apply Zeq_is_eq_bool. rewrite fexp_grid. unfold grid.
    destruct C as [C| ->].
    + rewrite (dg_unique m 53) by (change (2 ^ (53 - 1)) with (2 ^ 52); lia). lia.
    + assert (0 < dg m <= 53) by (apply (dg_between m 0 53); [lia|cbn; lia|exact A]). lia.
  - intros H. destruct (can_range _ _ H) as (A & B & C). split; [exact A|]. split; [exact B|].
    destruct (Z.eq_dec e (-1074)); [now right|left; apply C; lia].
Qed.
Lemma valid_canonical f : valid_binary 53 1024 f = true -> is_double f -> canonical f.
Proof. intros A B. apply canonical_good. destruct f; try contradiction; [exact I|exact A]. Qed.
Lemma dec_flt_valid m k : valid_binary 53 1024 (dec_flt m k) = true.
Proof. unfold dec_flt. destruct (m =? 0); [reflexivity|]. apply normalize_valid. Qed.
