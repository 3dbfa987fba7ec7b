(** The words and numbers on which the other statements rest: letter case of names, names of
    frequency types, decimal digits, integers as doubles. *)
From Coq Require Import ZArith NArith Ascii String Bool List Lia DecimalString Decimal DecimalFacts Floats.SpecFloat.
From Verif Require Import Base Float Value Config Special Lexer LexSpec FloatSpec RoundProofs LexProofs TextProofs.
Import ListNotations.
Local Open Scope string_scope.

(** *** C29: letter case *)

(** Two characters are the same letter. *)
Definition same_letter (a b : ascii) : Prop :=
  a = b \/ exists i, (get i "ABCDEFGHIJKLMNOPQRSTUVWXYZ" = Some a /\ get i "abcdefghijklmnopqrstuvwxyz" = Some b)
                     \/ (get i "abcdefghijklmnopqrstuvwxyz" = Some a /\ get i "ABCDEFGHIJKLMNOPQRSTUVWXYZ" = Some b).
(** Two names differ in the case of letters only. *)
Definition same_name (x y : string) : Prop :=
  Forall2 same_letter (list_ascii_of_string x) (list_ascii_of_string y).

Lemma get_bound i s c : get i s = Some c -> (i < String.length s)%nat.
Proof. revert i; induction s as [|a s IH]; intros [|i]; cbn; try discriminate; [lia|]. intros H. apply IH in H. lia. Qed.

Lemma all_ascii (P : ascii -> Prop) : (forall n, (n < 256)%nat -> P (ascii_of_nat n)) -> forall a, P a.
Proof. intros H a. rewrite <- (ascii_nat_embedding a). apply H. apply nat_ascii_bounded. Qed.

Definition same_letterb (a b : ascii) : bool :=
  Ascii.eqb a b ||
  existsb (fun i =>
    match get i "ABCDEFGHIJKLMNOPQRSTUVWXYZ", get i "abcdefghijklmnopqrstuvwxyz" with
    | Some u, Some l => (Ascii.eqb u a && Ascii.eqb l b) || (Ascii.eqb l a && Ascii.eqb u b)
    | _, _ => false
    end) (seq 0 26).

Lemma same_letterb_spec a b : same_letterb a b = true <-> same_letter a b.
Proof.
  unfold same_letterb, same_letter. rewrite orb_true_iff, Ascii.eqb_eq, existsb_exists.
  split; (intros [->|[i H]]; [now left|right; exists i]).
  - destruct H as [_ H].
    destruct (get i "ABCDEFGHIJKLMNOPQRSTUVWXYZ") as [u|], (get i "abcdefghijklmnopqrstuvwxyz") as [l|]; try discriminate.
    rewrite orb_true_iff, !andb_true_iff, !Ascii.eqb_eq in H.
    destruct H as [[-> ->]|[-> ->]]; [now left|now right].
  - assert (L : (i < 26)%nat)
      by (destruct H as [[H _]|[H _]]; apply get_bound in H; exact H).
    split; [apply in_seq; lia|].
    destruct H as [[-> ->]|[-> ->]]; rewrite !Ascii.eqb_refl; [reflexivity|apply orb_true_r].
Qed.

Lemma letters_checked :
  forallb (fun i => forallb (fun j =>
    Bool.eqb (Ascii.eqb (tolower (ascii_of_nat i)) (tolower (ascii_of_nat j)))
             (same_letterb (ascii_of_nat i) (ascii_of_nat j))) (seq 0 256)) (seq 0 256) = true.
Proof. vm_compute. reflexivity. Qed.

Lemma tolower_same a b : tolower a = tolower b <-> same_letter a b.
Proof.
  rewrite <- same_letterb_spec.
  revert a. apply all_ascii. intros i Hi. revert b. apply all_ascii. intros j Hj.
  pose proof letters_checked as H. rewrite forallb_forall in H.
  specialize (H i (proj2 (in_seq _ _ _) (conj (Nat.le_0_l _) Hi))).
  rewrite forallb_forall in H.
  specialize (H j (proj2 (in_seq _ _ _) (conj (Nat.le_0_l _) Hj))).
  apply Bool.eqb_prop in H. rewrite <- H, Ascii.eqb_eq. reflexivity.
Qed.

Theorem C29_letter_case : forall x y, lower x = lower y <-> same_name x y.
Proof.
  unfold same_name. induction x as [|a x IH]; intros [|b y]; cbn.
  - split; [constructor|reflexivity].
  - split; [discriminate|inversion 1].
  - split; [discriminate|inversion 1].
  - split.
    + intros E. injection E as Ea Ex. constructor; [now apply tolower_same|now apply IH].
    + inversion 1; subst. f_equal; [now apply tolower_same|now apply IH].
Qed.
Print Assumptions C29_letter_case.

Example C29_letter_case_holds : same_name "Segments_Zone-1" "sEGMENTS_zonE-1" /\ ~ same_name "a@" "a`" /\ ~ same_name "a" "ab".
Proof.
  rewrite <- !C29_letter_case. repeat split; vm_compute; congruence.
Qed.

(** *** C34: names of frequency types *)

(** value.h 50-62, value.c 216-249: the types and their names. *)
Definition type_names : list (string * ftype) :=
  [("advertiser", FTAdvertiser); ("advertiser:ip", FTAdvertiserIP); ("campaign", FTCampaign);
   ("campaign:ip", FTCampaignIP); ("campaign_group", FTCampaignGroup); ("campaign_group:ip", FTCampaignGroupIP);
   ("flight", FTFlight); ("flight:ip", FTFlightIP); ("product", FTProduct); ("product:ip", FTProductIP)].

Theorem C34_type_names : forall s ty,
  get_type_from_string s = ty <-> In (s, ty) type_names \/ (ty = FTInvalid /\ forall ty', ~ In (s, ty') type_names).
Proof.
  intros s ty. split.
  - intros <-. unfold get_type_from_string.
    repeat match goal with
      | |- context [String.eqb s ?k] =>
          destruct (String.eqb_spec s k) as [->|]; [left; cbn; tauto|]
      end.
    right. split; [reflexivity|]. intros ty' H. cbn in H.
    repeat (destruct H as [H|H]; [congruence|]). exact H.
  - intros [H|[-> H]].
    + cbn in H. repeat (destruct H as [H|H]; [injection H as <- <-; reflexivity|]). destruct H.
    + unfold get_type_from_string.
      repeat match goal with
        | |- context [String.eqb s ?k] =>
            destruct (String.eqb_spec s k) as [->|]; [exfalso; eapply H; cbn; tauto|]
        end.
      reflexivity.
Qed.
Print Assumptions C34_type_names.

(** Different types have different numbers. *)
Theorem C34_type_numbers : forall a b, ftype_num a = ftype_num b -> a = b.
Proof. intros [] []; cbn; congruence. Qed.
Print Assumptions C34_type_numbers.

(** *** C44: numbers *)

Local Open Scope Z_scope.
(** The number a sequence of decimal digits stands for, and its text (DecimalString). *)
Definition num (u : uint) : Z := Z.of_N (N.of_uint u).
Notation text := NilEmpty.string_of_uint.

Lemma digits_acc u : forall a, digits (text u) (Zpos a) = Zpos (Pos.of_uint_acc u a).
Proof. induction u as [|u IH|u IH|u IH|u IH|u IH|u IH|u IH|u IH|u IH|u IH]; intros a; cbn [text digits Pos.of_uint_acc]; [reflexivity|..];
  rewrite <- IH; f_equal; cbn -[Z.add Z.mul Pos.mul Pos.add]; lia.
Qed.
Lemma digits_text u : digits (text u) 0 = num u.
Proof.
  unfold num. induction u as [|u IH|u IH|u IH|u IH|u IH|u IH|u IH|u IH|u IH|u IH]; [reflexivity|exact IH|..];
    cbn [text digits]; (etransitivity; [apply (digits_acc u _)|reflexivity]).
Qed.
Lemma text_digits u : all_chars is_digit (text u) = true.
Proof. induction u; [reflexivity|..]; cbn [text all_chars]; rewrite IHu; reflexivity. Qed.
Lemma text_nonempty u : u <> Nil -> text u <> "".
Proof. destruct u; [easy|discriminate..]. Qed.
Lemma text_length u : String.length (text u) = nb_digits u.
Proof. induction u; [reflexivity|..]; cbn [text String.length nb_digits]; now rewrite IHu. Qed.

Lemma digits_app a b : forall acc, digits (a ++ b) acc = digits b (digits a acc).
Proof. induction a as [|c a IH]; intros acc; [reflexivity|]. cbn. apply IH. Qed.
Lemma digits_shift s : forall acc, digits s acc = acc * 10 ^ Z.of_nat (String.length s) + digits s 0.
Proof.
  induction s as [|c s IH]; intros acc; cbn [digits String.length]; [change (10 ^ Z.of_nat 0) with 1; lia|].
  rewrite IH, (IH (10 * 0 + _)). rewrite Nat2Z.inj_succ, Z.pow_succ_r by lia. ring.
Qed.

Lemma prefix_length p : forall s, prefix p s = true -> (String.length p <= String.length s)%nat.
Proof.
  induction p as [|c p IH]; intros [|d s] H; cbn [prefix String.length] in *; try lia; try discriminate.
  destruct (ascii_dec c d); [|discriminate]. apply IH in H. lia.
Qed.
Lemma one_token {T} (lx : lexicon T) t u : spells lx t u -> text_of lx [t] u.
Proof.
  intros H. unfold text_of.
  assert (E : text_then lx "" [] "") by (exact (tx_end lx "" "" eq_refl)).
  assert (A : apart lx u "" = true).
  { unfold apart. apply andb_true_intro. split; [|destruct u; reflexivity].
    apply forallb_forall. intros p _. apply orb_true_intro.
    destruct (Nat.leb_spec (String.length (fst p)) (String.length u)) as [L|L]; [now left|right].
    apply negb_true_iff. destruct (prefix (fst p) (u ++ "")) eqn:P; [|reflexivity].
    apply prefix_length in P. rewrite sapp_nil in P. lia. }
  pose proof (tx_tok lx "" "" t u [] "" eq_refl H A E) as X. cbn [append] in X. now rewrite sapp_nil in X.
Qed.

(** An integer text stands for its value. *)
Theorem C44_integer_text : forall u, u <> Nil -> num u <= INT64_MAX ->
  lex (text u) = [KInt (num u)] /\ elex (text u) = [JInt (num u)].
Proof.
  intros u Nn Le.
  assert (S : forall T (lx : lexicon T), spells lx (lx_int lx (num u)) (text u)).
  { intros T lx. rewrite <- digits_text. apply sp_int; [now apply text_nonempty|apply text_digits|now rewrite digits_text]. }
  split.
  - apply (lex_text_then "" [KInt (num u)] (text u)). exact (one_token expr_lexicon _ _ (S _ expr_lexicon)).
  - apply (elex_text_then "" [JInt (num u)] (text u)). exact (one_token event_lexicon _ _ (S _ event_lexicon)).
Qed.
Print Assumptions C44_integer_text.

(** A decimal text stands for a double nearest to its value, the one with the even mantissa on a tie;
    numbers beyond the largest double by half a unit or more become infinity. *)
Theorem C44_decimal_text : forall u v, u <> Nil ->
  let N := num u * 10 ^ Z.of_nat (nb_digits v) + num v in
  let D := 10 ^ Z.of_nat (nb_digits v) in
  exists f, lex (text u ++ String "." (text v)) = [KFlt f] /\ elex (text u ++ String "." (text v)) = [JFlt f]
    /\ ((canonical f /\ nearest f N D) \/ (f = S754_infinity false /\ (2 ^ 54 - 1) * 2 ^ 970 * D <= N)).
Proof.
  intros u v Nn N D. exists (dec_flt (digits (text u ++ text v) 0) (String.length (text v))).
  assert (EN : digits (text u ++ text v) 0 = N).
  { unfold N. rewrite digits_app, digits_shift, !digits_text, text_length. reflexivity. }
  assert (S : forall T (lx : lexicon T), spells lx (lx_flt lx (dec_flt (digits (text u ++ text v) 0) (String.length (text v))))
     (text u ++ String "." (text v))).
  { intros T lx. apply sp_flt; [now apply text_nonempty|apply text_digits|apply text_digits]. }
  split; [|split].
  - apply (lex_text_then "" [KFlt _] _). exact (one_token expr_lexicon _ _ (S _ expr_lexicon)).
  - apply (elex_text_then "" [JFlt _] _). exact (one_token event_lexicon _ _ (S _ event_lexicon)).
  - rewrite EN. assert (Pos : 0 <= N).
    { assert (0 <= 10 ^ Z.of_nat (nb_digits v)) by (apply Z.pow_nonneg; lia). unfold N, num. nia. }
    pose proof (dec_flt_nearest N (String.length (text v)) Pos) as H.
    pose proof (dec_flt_valid N (String.length (text v))) as V.
    rewrite text_length in *. fold D in H.
    destruct (dec_flt N (nb_digits v)) as [s|s| |s m e].
    + left. split; [exact I|exact H].
    + right. destruct H as [-> H]. split; [reflexivity|exact H].
    + destruct H as [[] _].
    + left. split; [|exact H]. apply valid_canonical; [exact V|apply H].
Qed.
Print Assumptions C44_decimal_text.

(** An integer becomes a nearest double; integers of at most 53 bits are exact. *)
Theorem C44_integer_as_double : forall z, Z.abs z < 2 ^ 1023 ->
  canonical (f_of_Z z) /\ nearest (f_of_Z z) z 1 /\ (Z.abs z <= 2 ^ 53 -> units (f_of_Z z) = z * 2 ^ 1074).
Proof.
  intros z H. split; [apply canonical_good; now apply of_Z_good|]. split; [now apply of_Z_nearest|apply of_Z_exact].
Qed.
Print Assumptions C44_integer_as_double.

(** Doubles are compared by value. *)
Theorem C44_comparison : forall a b, canonical a -> canonical b ->
  fltb a b = (units a <? units b) /\ fleb a b = (units a <=? units b)
  /\ fgtb a b = (units b <? units a) /\ fgeb a b = (units b <=? units a).
Proof.
  intros a b Ha Hb. apply canonical_good in Ha, Hb.
  unfold fltb, fleb, fgtb, fgeb, SFltb, SFleb, Z.ltb, Z.leb. rewrite !compare_units by assumption.
  repeat split; try (destruct (units a ?= units b); reflexivity); destruct (units b ?= units a); reflexivity.
Qed.
Print Assumptions C44_comparison.

(** Equal means: less than 2^-52 apart. *)
Theorem C44_equality : forall a b, canonical a -> canonical b ->
  (feq a b = true -> Z.abs (units a - units b) < 2 ^ 1022)
  /\ (Z.abs (units a - units b) <= 2 ^ 1022 - 2 ^ 969 -> feq a b = true)
  /\ fne a b = negb (feq a b).
Proof.
  intros a b Ha Hb. apply canonical_good in Ha, Hb. destruct (feq_close a b Ha Hb) as [A B].
  split; [exact A|]. split; [exact B|reflexivity].
Qed.
Print Assumptions C44_equality.

(** Integers written for a float variable are compared like integers. *)
Theorem C44_integers_compared : forall a b, Z.abs a <= 2 ^ 53 -> Z.abs b <= 2 ^ 53 ->
  fltb (f_of_Z a) (f_of_Z b) = (a <? b) /\ fleb (f_of_Z a) (f_of_Z b) = (a <=? b)
  /\ feq (f_of_Z a) (f_of_Z b) = (a =? b).
Proof.
  intros a b Ha Hb.
  assert (Big : forall z, Z.abs z <= 2 ^ 53 -> Z.abs z < 2 ^ 1023).
  { intros z Hz. eapply Z.le_lt_trans; [exact Hz|]. apply Z.pow_lt_mono_r; lia. }
  destruct (C44_integer_as_double a (Big _ Ha)) as (Ca & _ & Ua).
  destruct (C44_integer_as_double b (Big _ Hb)) as (Cb & _ & Ub).
  specialize (Ua Ha). specialize (Ub Hb).
  destruct (C44_comparison _ _ Ca Cb) as (L & M & _). rewrite Ua, Ub in L, M.
  destruct (C44_equality _ _ Ca Cb) as (E1 & E2 & _). rewrite Ua, Ub in E1, E2.
  assert (P : 0 < 2 ^ 1074) by (apply Z.pow_pos_nonneg; lia).
  assert (P2 : 2 ^ 1022 < 2 ^ 1074) by (apply Z.pow_lt_mono_r; lia).
  assert (P3 : 2 ^ 969 < 2 ^ 1022) by (apply Z.pow_lt_mono_r; lia).
  set (X := 2 ^ 1074) in *. set (Y := 2 ^ 1022) in *. set (W := 2 ^ 969) in *. clearbody X Y W.
  split; [|split].
  - rewrite L. destruct (Z.ltb_spec (a * X) (b * X)), (Z.ltb_spec a b); try reflexivity; nia.
  - rewrite M. destruct (Z.leb_spec (a * X) (b * X)), (Z.leb_spec a b); try reflexivity; nia.
  - destruct (Z.eqb_spec a b) as [->|Ne].
    + apply E2. rewrite Z.sub_diag. cbn. lia.
    + destruct (feq (f_of_Z a) (f_of_Z b)); [|reflexivity]. specialize (E1 eq_refl). exfalso.
      rewrite <- Z.mul_sub_distr_r, Z.abs_mul, (Z.abs_eq X) in E1 by lia.
      assert (1 <= Z.abs (a - b)) by lia. nia.
Qed.
Print Assumptions C44_integers_compared.

Example C44_case :
  lex "0.1" = [KFlt (S754_finite false 7205759403792794 (-56))]
  /\ lex "9007199254740993.0" = [KFlt (S754_finite false 4503599627370496 1)]
  /\ f_of_Z 9007199254740993 = S754_finite false 4503599627370496 1
  /\ canonical (S754_finite false 7205759403792794 (-56))
  /\ fltb (f_of_Z (-3)) (f_of_Z 2) = true.
Proof. repeat split; try (left; vm_compute; congruence); vm_compute; congruence. Qed.
