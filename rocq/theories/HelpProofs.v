(** Lines that define variables: proofs. *)
From Coq Require Import ZArith NArith String Ascii Bool List Lia Decimal DecimalString Floats.SpecFloat.
From Coq Require Import ZifyBool ZifyNat ZifyN.
From Verif Require Import Base Float Value Ast Config Tree PredMap Source Api Spec FloatSpec Lexer LexSpec Helper HelpSpec.
From Verif Require Import BaseProofs FloatProofs RoundProofs CmpProofs LexProofs PropsWords.
Import ListNotations.
Local Open Scope Z_scope.
Local Open Scope string_scope.

(** *** The nearest double is unique *)
Local Open Scope Z_scope.
Lemma between_evens f g : canonical f -> canonical g -> even_mantissa f -> even_mantissa g -> 0 <= units f -> units f < units g ->
  exists h, is_double h /\ units f < units h < units g.
Proof.
  intros A B Ef Eg F L. destruct g as [s|s| |s m e]; cbn [units] in L; try lia.
  destruct B as (B1 & B2 & B3). destruct s.
  { exfalso. assert (0 < 2 ^ (e + 1074)) by (apply Z.pow_pos_nonneg; lia). nia. }
  cbn [even_mantissa] in Eg. rewrite Z.mul_1_l in L. cbn [units]. rewrite Z.mul_1_l.
  assert (0 < 2 ^ (e + 1074)) as P by (apply Z.pow_pos_nonneg; lia).
  assert (2 <= Zpos m) as M2. { destruct m as [m|m|]; try discriminate Eg. lia. }
  destruct (Z.eq_dec (Zpos m) (2 ^ 52)) as [E|E]; [destruct (Z.eq_dec e (-1074)) as [Ee|Ee]|].
  - exists (S754_finite false (Z.to_pos (Zpos m - 1)) e). cbn [is_double units]. rewrite Z2Pos.id by lia. split; [lia|].
    split; [|nia]. destruct f as [s|s| |s n h]; cbn [units] in *; try nia. destruct A as (A1 & A2 & A3). cbn [even_mantissa] in Ef.
    destruct s; [assert (0 < 2 ^ (h + 1074)) by (apply Z.pow_pos_nonneg; lia); nia|].
    rewrite Ee in *. destruct (Z.eq_dec h (-1074)) as [->|Hh].
    + change (2 ^ (-1074 + 1074)) with 1 in *. destruct n as [n|n|], m as [m|m|]; try discriminate Ef; try discriminate Eg; lia.
    + exfalso. assert (2 <= 2 ^ (h + 1074)). { change 2 with (2 ^ 1) at 1. apply Z.pow_le_mono_r; lia. }
      change (2 ^ (-1074 + 1074)) with 1 in *. nia.
  - exists (S754_finite false (Z.to_pos (2 ^ 53 - 1)) (e - 1)). cbn [is_double units]. rewrite Z2Pos.id by lia.
    assert (2 ^ (e + 1074) = 2 * 2 ^ (e - 1 + 1074)) as Q by (rewrite <- Z.pow_succ_r by lia; f_equal; lia).
    assert (0 < 2 ^ (e - 1 + 1074)) as P' by (apply Z.pow_pos_nonneg; lia).
    split; [lia|]. split; [|rewrite Q, E; nia].
    destruct f as [s|s| |s n h]; cbn [units] in *; try nia. destruct A as (A1 & A2 & A3). cbn [even_mantissa] in Ef.
    destruct s; [assert (0 < 2 ^ (h + 1074)) by (apply Z.pow_pos_nonneg; lia); nia|].
    assert (Zpos n <= 2 ^ 53 - 2). { destruct n as [n|n|]; try discriminate Ef. change (2 ^ 53) with 9007199254740992 in *. lia. }
    destruct (Z.le_gt_cases h (e - 1)) as [K|K].
    + assert (2 ^ (h + 1074) <= 2 ^ (e - 1 + 1074)) by (apply Z.pow_le_mono_r; lia).
      assert (0 < 2 ^ (h + 1074)) by (apply Z.pow_pos_nonneg; lia). nia.
    + exfalso. assert (2 ^ (e + 1074) <= 2 ^ (h + 1074)) by (apply Z.pow_le_mono_r; lia). rewrite E in L.
      destruct A3 as [A3|A3]; [nia|lia].
  - exists (S754_finite false (Z.to_pos (Zpos m - 1)) e). cbn [is_double units]. rewrite Z2Pos.id by lia. split; [lia|].
    split; [|nia]. destruct f as [s|s| |s n h]; cbn [units] in *; try nia. destruct A as (A1 & A2 & A3). cbn [even_mantissa] in Ef.
    destruct s; [assert (0 < 2 ^ (h + 1074)) by (apply Z.pow_pos_nonneg; lia); nia|]. rewrite Z.mul_1_l in *.
    destruct (Z.lt_trichotomy h e) as [K|[->|K]].
    + assert (2 ^ (e + 1074) = 2 * 2 ^ (e - 1 + 1074)) as Q by (rewrite <- Z.pow_succ_r by lia; f_equal; lia).
      assert (2 ^ (h + 1074) <= 2 ^ (e - 1 + 1074)) by (apply Z.pow_le_mono_r; lia).
      assert (0 < 2 ^ (h + 1074)) by (apply Z.pow_pos_nonneg; lia).
      assert (2 ^ 52 <= Zpos m) by lia. change (2 ^ 53) with (2 * 2 ^ 52) in *. set (W := 2 ^ 52) in *. clearbody W.
      rewrite Q in *. set (a := 2 ^ (e - 1 + 1074)) in *. set (b := 2 ^ (h + 1074)) in *. clearbody a b.
      assert (Zpos n * b < 2 * W * a) by nia. nia.
    + assert (Zpos n <= Zpos m - 2); [|nia]. assert (Zpos n < Zpos m) by nia.
      destruct n as [n|n|], m as [m|m|]; try discriminate Ef; try discriminate Eg; lia.
    + exfalso. assert (2 ^ (h + 1074) = 2 * 2 ^ (h - 1 + 1074)) as Q by (rewrite <- Z.pow_succ_r by lia; f_equal; lia).
      assert (2 ^ (e + 1074) <= 2 ^ (h - 1 + 1074)) by (apply Z.pow_le_mono_r; lia).
      assert (2 ^ 52 <= Zpos n) by lia. change (2 ^ 53) with (2 * 2 ^ 52) in *. set (W := 2 ^ 52) in *. clearbody W.
      rewrite Q in *. set (a := 2 ^ (h - 1 + 1074)) in *. set (b := 2 ^ (e + 1074)) in *. clearbody a b.
      assert (Zpos m * b < 2 * W * a) by nia. nia.
Qed.
Lemma nearest_pos f N D : 0 < D -> 0 <= N -> nearest f N D -> 0 <= units f.
Proof.
  intros PD PN [_ H]. destruct (H (S754_zero false) I) as [H1 _]. cbn [units] in H1.
  assert (0 <= N * 2 ^ 1074) by (apply Z.mul_nonneg_nonneg; [lia|now apply Z.pow_nonneg]).
  revert H1 H0. generalize (N * 2 ^ 1074). intros X H1 H0. nia.
Qed.
Lemma nearest_le f g N D : 0 < D -> 0 <= N -> canonical f -> canonical g -> nearest f N D -> nearest g N D -> units g <= units f.
Proof.
  intros PD PN A B Nf Ng. destruct (Z.le_gt_cases (units g) (units f)) as [|L]; [easy|exfalso].
  pose proof (nearest_pos _ _ _ PD PN Nf) as P. destruct Nf as [Df Hf], Ng as [Dg Hg].
  destruct (Hf g Dg) as [F1 F2]. destruct (Hg f Df) as [G1 G2].
  assert (Z.abs (D * units f - N * 2 ^ 1074) = Z.abs (D * units g - N * 2 ^ 1074)) as E by lia.
  destruct (F2 E) as [Q|Ef]; [lia|]. destruct (G2 (eq_sym E)) as [Q|Eg]; [lia|].
  destruct (between_evens f g A B Ef Eg P L) as (h & Dh & U). destruct (Hg h Dh) as [H1 _].
  revert E F1 G1 H1 U L. generalize (N * 2 ^ 1074) (units f) (units g) (units h). intros X a b c E _ _ H1 U L.
  assert (D * a < D * c < D * b) by nia. lia.
Qed.
Lemma units_inj f g : canonical f -> canonical g -> f <> S754_zero true -> g <> S754_zero true -> 0 <= units f -> units f = units g -> f = g.
Proof.
  intros A B ZA ZB P E. pose proof (compare_units f g (proj1 (canonical_good f) A) (proj1 (canonical_good g) B)) as C.
  rewrite E, Z.compare_refl in C.
  destruct f as [s| | |s m e]; try easy.
  - destruct g as [s'| | |s' n h]; try easy; [destruct s, s'; congruence|]. cbn [SFcompare] in C. destruct s'; discriminate C.
  - destruct g as [s'| | |s' n h]; try easy; cbn [SFcompare] in C; [destruct s; discriminate C|].
    destruct s.
    { exfalso. cbn [units] in P. destruct A as (_ & A & _). assert (0 < 2 ^ (e + 1074)) by (apply Z.pow_pos_nonneg; lia). nia. }
    destruct s'; [discriminate C|]. destruct (Z.compare_spec e h) as [->|L|L]; try discriminate C. injection C as C.
    change (Pos.compare m n = Eq) in C. apply Pos.compare_eq in C. now subst.
Qed.
Lemma rounded_unique f g N D : 0 < D -> 0 <= N -> rounded f N D -> rounded g N D -> f = g.
Proof.
  intros PD PN (A & B & C) (A' & B' & C'). apply units_inj; auto; [eapply nearest_pos; eauto|].
  apply Z.le_antisymm; eapply nearest_le; eauto.
Qed.

(** *** Numbers *)
Lemma round_sign mx ex l : binary_round_aux 53 1024 false mx ex l <> S754_zero true.
Proof.
  unfold binary_round_aux. destruct (shr_fexp _ _ _ _ _) as [mrs e]. destruct (shr_fexp _ _ _ _ _) as [mrs' e'].
  destruct (shr_m mrs'); try discriminate. destruct (Z.leb _ _); discriminate.
Qed.
Lemma dec_flt_sign m k : 0 <= m -> dec_flt m k <> S754_zero true.
Proof.
  intros H. unfold dec_flt. destruct (Z.eqb_spec m 0) as [|E]; [discriminate|]. cbv zeta.
  set (s := Z.max _ _). set (d := 10 ^ Z.of_nat k). assert (0 < d) by (apply Z.pow_pos_nonneg; lia).
  assert (0 < 2 ^ s) by (apply Z.pow_pos_nonneg; lia).
  assert (0 <= m * 2 ^ s / d) by (apply Z.div_pos; nia).
  assert (0 <= 2 * (m * 2 ^ s / d) + (if m * 2 ^ s mod d =? 0 then 0 else 1)) as P by (destruct (_ =? 0); lia).
  revert P. generalize (2 * (m * 2 ^ s / d) + (if m * 2 ^ s mod d =? 0 then 0 else 1)). intros [|p|p] P; try discriminate; [|lia].
  cbn [binary_normalize]. unfold binary_round. destruct (shl_align _ _ _). apply round_sign.
Qed.
Lemma dec_flt_rounded N k : 0 <= N -> N < (2 ^ 54 - 1) * 2 ^ 970 * 10 ^ Z.of_nat k -> rounded (dec_flt N k) N (10 ^ Z.of_nat k).
Proof.
  intros P L. pose proof (dec_flt_nearest N k P) as H. pose proof (dec_flt_valid N k) as V. pose proof (dec_flt_sign N k P) as S0.
  unfold rounded. destruct (dec_flt N k) as [s|s| |s m e].
  - split; [exact I|]. split; [exact H|exact S0].
  - exfalso. destruct H as [_ H]. revert L H. generalize ((2 ^ 54 - 1) * 2 ^ 970 * 10 ^ Z.of_nat k). lia.
  - destruct H as [[] _].
  - split; [|split; [exact H|exact S0]]. apply valid_canonical; [exact V|apply H].
Qed.

Lemma span_all p s r : all_chars p s = true -> match r with "" => True | String c _ => p c = false end -> span p (s ++ r) = (s, r).
Proof.
  intros A B. induction s as [|c s IH]; cbn [append span all_chars] in *.
  - destruct r as [|c r]; [reflexivity|]. cbn [span]. now rewrite B.
  - apply andb_prop in A. destruct A as [-> A]. now rewrite (IH A).
Qed.
Lemma span_text u : span is_digit (text u) = (text u, "").
Proof.
  rewrite <- (sapp_nil (text u)) at 1. apply span_all; [apply text_digits|exact I].
Qed.
(** A digit first: no blank, no sign, not one of the words of strtod. *)
Lemma digit_first c s : is_digit c = true -> skip_while c_space (String c s) = String c s /\ sign_of (String c s) = (false, String c s)
  /\ prefix "inf" (lower (String c s)) = false /\ prefix "nan" (lower (String c s)) = false.
Proof. destruct c as [[] [] [] [] [] [] [] []]; try discriminate; intros _; repeat split; reflexivity. Qed.
Lemma text_first u : u <> Nil -> exists c s, text u = String c s /\ is_digit c = true.
Proof. destruct u; [easy|..]; intros _; cbn [text]; eexists; eexists; (split; [reflexivity|reflexivity]). Qed.
Lemma value_num u : value u = num u. Proof. reflexivity. Qed.
Lemma num_pos u : 0 <= num u. Proof. unfold num. lia. Qed.

Lemma strtoll_ok s z : int_text s z -> strtoll10 s = z.
Proof.
  intros [u NU L|u NU L]; unfold strtoll10; destruct (text_first u NU) as (c & r & E & DG).
  - rewrite E. destruct (digit_first c r DG) as (-> & -> & _). rewrite <- E, span_text. cbn [fst]. rewrite digits_text, <- value_num. lia.
  - change (skip_while c_space (String "-" (text u))) with (String "-" (text u)). change (sign_of (String "-" (text u))) with (true, text u).
    cbv beta iota. rewrite span_text. cbn [fst]. rewrite digits_text, <- value_num. unfold INT64_MIN. lia.
Qed.
Lemma size_ok s z : int_text s z -> 0 < z -> size_of s = z /\ to_uint 64 (size_of s - 1) = z - 1.
Proof.
  intros T P. unfold size_of. rewrite (strtoll_ok _ _ T).
  assert (z <= INT64_MAX) by (destruct T as [u ? L|u]; [exact L|rewrite value_num in *; pose proof (num_pos u); lia]).
  unfold to_uint. rewrite (Z.mod_small z) by (unfold INT64_MAX in *; lia). split; [reflexivity|].
  apply Z.mod_small. unfold INT64_MAX in *. lia.
Qed.
Lemma exponent_none : forall m r, match r with "" => True | String c _ => m c = false end -> exponent m r = 0.
Proof. intros m [|c r]; cbn [exponent]; [easy|]. now intros ->. Qed.

Lemma dec_ok s N D : dec_text s N D -> 0 <= N /\ 0 < D /\ exists k c r, D = 10 ^ Z.of_nat k /\ s = String c r /\ is_digit c = true
  /\ (prefix "0x" (lower s) = false) /\ strtod_dec s = Some (dec_flt N k).
Proof.
  intros [u NU|u v NU].
  - split; [apply num_pos|]. split; [lia|]. destruct (text_first u NU) as (c & r & E & DG). exists 0%nat, c, r. split; [reflexivity|].
    split; [exact E|]. split; [exact DG|]. split.
    + clear NU E DG. destruct u as [|u|u|u|u|u|u|u|u|u|u]; try reflexivity. destruct u; reflexivity.
    + unfold strtod_dec, mantissa. rewrite span_text. destruct (text u) as [|c' r'] eqn:E'; [congruence|].
      rewrite <- E', sapp_nil, digits_text. change (Some (dec_flt (num u * 1) 0) = Some (dec_flt (num u) 0)). now rewrite Z.mul_1_r.
  - destruct (text_first u NU) as (c & r & E & DG).
    assert (0 < 10 ^ Z.of_nat (nb_digits v)) as PD by (apply Z.pow_pos_nonneg; lia).
    split; [apply Z.add_nonneg_nonneg; [apply Z.mul_nonneg_nonneg; [exact (num_pos u)|now apply Z.lt_le_incl]|exact (num_pos v)]|]. split; [exact PD|].
    exists (nb_digits v), c, (r ++ String "." (text v))%string. split; [reflexivity|]. split; [now rewrite E|]. split; [exact DG|]. split.
    + clear NU E DG. destruct u as [|u|u|u|u|u|u|u|u|u|u]; try reflexivity. destruct u; reflexivity.
    + unfold strtod_dec, mantissa. rewrite span_all; [|apply text_digits|reflexivity]. rewrite span_text.
      destruct (text u) as [|c' r'] eqn:E'; [congruence|]. rewrite <- E'. rewrite digits_app, digits_shift, !digits_text, text_length. cbn [exponent].
      unfold scaled. f_equal. change value with num. destruct (Z.leb_spec 0 (0 - Z.of_nat (nb_digits v))) as [L|L].
      * replace (nb_digits v) with 0%nat by lia. cbn [Z.of_nat Z.pow Z.sub Z.add Z.opp]. f_equal. lia.
      * f_equal. lia.
Qed.
Lemma strtod_ok s f : flt_text s f -> strtod s = f.
Proof.
  intros [s0 N D f0 T L R|s0 N D f0 T L R]; destruct (dec_ok _ _ _ T) as (PN & PD & k & c & r & ED & ES & DG & NX & SD); subst D; unfold strtod.
  - rewrite ES. destruct (digit_first c r DG) as (-> & -> & NI & NN). unfold strtod_abs. rewrite NI, NN, <- ES, NX, SD.
    eapply rounded_unique; [exact PD|exact PN|now apply dec_flt_rounded|exact R].
  - change (skip_while c_space (String "-" s0)) with (String "-" s0). change (sign_of (String "-" s0)) with (true, s0).
    cbv beta iota. destruct (digit_first c r DG) as (_ & _ & NI & NN). unfold strtod_abs. rewrite <- ES in NI, NN. rewrite NI, NN, NX, SD.
    f_equal. eapply rounded_unique; [exact PD|exact PN|now apply dec_flt_rounded|exact R].
Qed.

(** *** Bounds and fields *)
Lemma bound_ok type l b : defines type l b -> (List.length l <= 2)%nat ->
  bound_of type (nth_error l 0) (nth_error l 1) = Some b.
Proof.
  intros H N. destruct H; try reflexivity; cbn [nth_error bound_of String.eqb Ascii.eqb Bool.eqb or_else].
  all: repeat match goal with H : int_text _ _ |- _ => first [rewrite (strtoll_ok _ _ H) | idtac]; revert H end; intros.
  all: repeat match goal with H : flt_text _ _ |- _ => rewrite (strtod_ok _ _ H); revert H end; intros.
  all: try reflexivity.
  all: match goal with H : int_text _ _, P : 0 < _ |- _ => destruct (size_ok _ _ H P) as [E1 E2] end.
  all: unfold dom_bounded_s, dom_bounded_ie, dom_bounded_sl; now rewrite E2.
Qed.

Lemma up_to_char p a c r : all_chars (fun c => negb (p c)) a = true -> p c = true -> up_to p (a ++ String c r) = (a, r).
Proof.
  intros A C. induction a as [|x a IH]; cbn [append up_to all_chars] in *; [now rewrite C|].
  apply andb_prop in A. destruct A as [X A]. apply negb_true_iff in X. now rewrite X, (IH A).
Qed.
Lemma up_to_end p a : all_chars (fun c => negb (p c)) a = true -> up_to p a = (a, "").
Proof.
  intros A. induction a as [|x a IH]; cbn [up_to all_chars] in *; [reflexivity|].
  apply andb_prop in A. destruct A as [X A]. apply negb_true_iff in X. now rewrite X, (IH A).
Qed.
Lemma strtok_char p a c r : a <> "" -> all_chars (fun c => negb (p c)) a = true -> p c = true -> strtok p (a ++ String c r) = (Some a, r).
Proof.
  intros N A C. unfold strtok. pose proof (up_to_char p a c r A C) as U. destruct a as [|x a]; [easy|]. cbn [append skip_while all_chars] in *.
  apply andb_prop in A. destruct A as [X A]. apply negb_true_iff in X. rewrite X, U. reflexivity.
Qed.
Lemma strtok_end p a : a <> "" -> all_chars (fun c => negb (p c)) a = true -> strtok p a = (Some a, "").
Proof.
  intros N A. unfold strtok. pose proof (up_to_end p a A) as U. destruct a as [|x a]; [easy|]. cbn [skip_while all_chars] in *.
  apply andb_prop in A. destruct A as [X A]. apply negb_true_iff in X. rewrite X, U. reflexivity.
Qed.
Lemma plain_nl s : plain_field s -> s <> "" /\ all_chars (fun c => negb (is_bar_nl c)) s = true.
Proof. intros H. exact H. Qed.
Lemma all_chars_impl (p q : ascii -> bool) s : (forall c, p c = true -> q c = true) -> all_chars p s = true -> all_chars q s = true.
Proof.
  intros H. induction s as [|c s IH]; cbn [all_chars]; [easy|]. intros K. apply andb_prop in K. destruct K as [A B]. rewrite (H _ A). auto.
Qed.
Lemma plain_bar s : plain_field s -> s <> "" /\ all_chars (fun c => negb (is_bar c)) s = true.
Proof.
  intros [A B]. split; [exact A|]. eapply all_chars_impl; [|exact B]. intros c. cbv beta. unfold is_bar. destruct (Ascii.eqb c "|"); [discriminate|reflexivity].
Qed.
Lemma sapp_assoc (a b c : string) : ((a ++ b) ++ c = a ++ (b ++ c))%string.
Proof. induction a as [|x a IH]; cbn [append]; [reflexivity|]. now rewrite IH. Qed.

Theorem line_ok t l d e : defines_var l d -> e = "" \/ e = String c_nl "" -> add_variable_from_string t (fields l ++ e) = Ok (betree_declare t d).
Proof.
  intros [name type u l' b F N DF] He. pose proof (bound_ok _ _ _ DF N) as B. clear DF.
  inversion_clear F as [|? ? PN F1]. inversion_clear F1 as [|? ? PT F2]. inversion_clear F2 as [|? ? PU FL].
  destruct (plain_bar _ PN) as [N1 N2]. destruct (plain_bar _ PT) as [T1 T2]. destruct (plain_nl _ PU) as [U1 U2].
  assert (forall s, plain_field s -> strtok is_bar_nl (s ++ e) = (Some s, "")) as LAST.
  { intros s P. destruct (plain_nl _ P) as [P1 P2]. destruct He as [-> | ->]; [rewrite sapp_nil; now apply strtok_end|now apply strtok_char]. }
  assert (forall s r, plain_field s -> strtok is_bar_nl (s ++ String "|" r) = (Some s, r)) as MID.
  { intros s r P. destruct (plain_nl _ P) as [P1 P2]. now apply strtok_char. }
  change (strtok is_bar_nl "") with (@None string, "") in *.
  unfold add_variable_from_string. destruct l' as [|a [|a' [|a'' l']]].
  - cbn [fields]. rewrite !sapp_assoc. cbn [append]. rewrite (strtok_char is_bar name "|"); auto.
    rewrite sapp_assoc. cbn [append]. rewrite (strtok_char is_bar type "|"); auto. rewrite (LAST _ PU).
    change (strtok is_bar_nl "") with (@None string, ""). cbv beta iota. change (strtok is_bar_nl "") with (@None string, ""). cbv beta iota.
    cbn [nth_error] in B. now rewrite B.
  - inversion_clear FL as [|? ? PA _].
    cbn [fields]. rewrite !sapp_assoc. cbn [append]. rewrite (strtok_char is_bar name "|"); auto.
    rewrite sapp_assoc. cbn [append]. rewrite (strtok_char is_bar type "|"); auto.
    rewrite sapp_assoc. cbn [append]. rewrite (MID _ _ PU), (LAST _ PA).
    change (strtok is_bar_nl "") with (@None string, ""). cbv beta iota.
    cbn [nth_error] in B. now rewrite B.
  - inversion_clear FL as [|? ? PA FL']. inversion_clear FL' as [|? ? PA' _].
    cbn [fields]. rewrite !sapp_assoc. cbn [append]. rewrite (strtok_char is_bar name "|"); auto.
    rewrite sapp_assoc. cbn [append]. rewrite (strtok_char is_bar type "|"); auto.
    rewrite sapp_assoc. cbn [append]. rewrite (MID _ _ PU). rewrite sapp_assoc. cbn [append]. rewrite (MID _ _ PA), (LAST _ PA').
    cbn [nth_error] in B. now rewrite B.
  - cbn [List.length] in N. lia.
Qed.

(** Unknown types and missing fields. *)
Theorem unknown_type t name type u l e : Forall plain_field (name :: type :: u :: l) -> e = "" \/ e = String c_nl "" ->
  ~ In type ["integer"; "float"; "boolean"; "frequency"; "segments"; "string"; "integer enum"; "integer list"; "string list"] ->
  add_variable_from_string t (fields (name :: type :: u :: l) ++ e) = Abort.
Proof.
  intros F He NI.
  assert (forall a b, bound_of type a b = None) as B.
  { intros a b. unfold bound_of. cbn [In] in NI.
    repeat match goal with |- context [String.eqb type ?k] => destruct (String.eqb_spec type k) as [->|]; [exfalso; tauto|] end. reflexivity. }
  inversion_clear F as [|? ? PN F1]. inversion_clear F1 as [|? ? PT F2]. inversion_clear F2 as [|? ? PU FL].
  destruct (plain_bar _ PN) as [N1 N2]. destruct (plain_bar _ PT) as [T1 T2]. destruct (plain_nl _ PU) as [U1 U2].
  unfold add_variable_from_string.
  assert (exists r, fields (u :: l) ++ e = u ++ r /\ (r = "" \/ exists c r', r = String c r' /\ is_bar_nl c = true)) as (r & ER & HR).
  { destruct l as [|a l].
    - exists e. split; [reflexivity|]. destruct He as [-> | ->]; [now left|right; eauto].
    - exists (String "|" (fields (a :: l) ++ e)). split; [|right; eauto]. change (fields (u :: a :: l)) with (u ++ String "|" (fields (a :: l))). now rewrite sapp_assoc. }
  change (fields (name :: type :: u :: l)) with (name ++ String "|" (type ++ String "|" (fields (u :: l)))).
  rewrite sapp_assoc. cbn [append]. rewrite (strtok_char is_bar name "|"); auto.
  rewrite sapp_assoc. cbn [append]. rewrite (strtok_char is_bar type "|"); auto. rewrite ER.
  assert (exists r2, strtok is_bar_nl (u ++ r) = (Some u, r2)) as (r2 & ->).
  { destruct HR as [->|(c & r' & -> & C)]; [rewrite sapp_nil; eexists; now apply strtok_end|eexists; now apply strtok_char]. }
  destruct (strtok is_bar_nl r2) as [mn r3]. destruct (strtok is_bar_nl r3) as [mx r4]. now rewrite B.
Qed.
Lemma all_chars_app p a b : all_chars p (a ++ b) = all_chars p a && all_chars p b.
Proof. induction a as [|c a IH]; cbn [append all_chars]; [reflexivity|]. now rewrite IH, andb_assoc. Qed.
Theorem missing_field t l e : Forall plain_field l -> (List.length l < 3)%nat -> e = "" \/ e = String c_nl "" ->
  add_variable_from_string t (fields l ++ e) = UB.
Proof.
  intros F N He.
  assert (forall s, plain_field s -> exists s', strtok is_bar (s ++ e) = (Some s', "")) as LAST.
  { intros s P. exists (s ++ e)%string. destruct (plain_bar _ P) as [P1 P2]. apply strtok_end.
    - destruct s; [easy|discriminate].
    - rewrite all_chars_app, P2. now destruct He as [-> | ->]. }
  assert (forall s r, plain_field s -> strtok is_bar (s ++ String "|" r) = (Some s, r)) as MID.
  { intros s r P. destruct (plain_bar _ P) as [P1 P2]. now apply strtok_char. }
  unfold add_variable_from_string. destruct l as [|a [|b [|c l]]].
  - destruct He as [-> | ->]; reflexivity.
  - inversion_clear F as [|? ? PA _]. cbn [fields]. destruct (LAST a PA) as (s' & ->); reflexivity.
  - inversion_clear F as [|? ? PA F']. inversion_clear F' as [|? ? PB _]. cbn [fields]. rewrite sapp_assoc. cbn [append]. rewrite (MID _ _ PA).
    destruct (LAST b PB) as (s' & ->); reflexivity.
  - cbn [List.length] in N. lia.
Qed.

(** *** Trees set up from lines *)
Theorem lines_ok cap minpart maxsplit ls : forall ds0 ds,
  Forall2 (fun s d => exists l e, s = (fields l ++ e)%string /\ (e = "" \/ e = String c_nl "") /\ defines_var l d) ls ds ->
  add_lines (make_tree cap minpart maxsplit ds0) ls = Ok (make_tree cap minpart maxsplit (ds0 ++ ds)).
Proof.
  induction ls as [|s ls IH]; intros ds0 ds F; inversion F as [|? d ? ds' (l & e & -> & He & D) F']; subst; cbn [add_lines].
  - now rewrite app_nil_r.
  - rewrite (line_ok _ _ _ _ D He). cbn [bind]. specialize (IH (ds0 ++ [d])%list ds' F'). rewrite <- app_assoc in IH. exact IH.
Qed.
