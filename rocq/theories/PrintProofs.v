(** Printed texts are read back. *)
From Coq Require Import ZArith NArith String Ascii Bool List Lia Decimal DecimalString DecimalPos Floats.SpecFloat Permutation.
From Coq Require Import ZifyBool ZifyNat ZifyN.
From Verif Require Import Base Float Value Ast Config Assign Special Source Api Spec FloatSpec Lexer LexSpec Grammar HelpSpec PrintSpec Printer.
From Verif Require Import RoundProofs LexProofs TextProofs PropsWords HelpProofs.
Import ListNotations.
Local Open Scope string_scope.

Notation TT := (text_then expr_lexicon "").

Lemma blank ts v : TT ts v -> TT ts (" " ++ v).
Proof.
  intros H. inversion H; subst.
  - change (" " ++ w ++ "") with ((" " ++ w) ++ ""). constructor. now cbn.
  - change (" " ++ w ++ u ++ v0) with ((" " ++ w) ++ u ++ v0). now constructor.
Qed.
Lemma tok t u ts v : spells expr_lexicon t u -> apart expr_lexicon u v = true -> TT ts v -> TT (t :: ts) (u ++ v).
Proof. intros A B C. change (u ++ v) with ("" ++ u ++ v). now constructor. Qed.
Lemma fixed u t ts v : In (u, t) (lx_fixed expr_lexicon) -> apart expr_lexicon u v = true -> TT ts v -> TT (t :: ts) (u ++ v).
Proof. intros A B C. apply tok; auto. now constructor. Qed.

(** What may follow a number or a string. *)
Definition sep (v : string) : Prop := match v with "" => True | String d _ => d = ","%char \/ d = ")"%char \/ d = " "%char end.

Lemma no_fixed c w u : is_digit c = true \/ c = c_dq ->
  forallb (fun p => (String.length (fst p) <=? String.length u)%nat || negb (prefix (fst p) (String c w))) (lx_fixed expr_lexicon) = true.
Proof.
  intros H. apply forallb_forall. intros [k t] I. apply orb_true_iff. right. cbn [fst].
  destruct (kw_first expr_lexicon expr_lexicon_ok k t I) as (c' & x & -> & _ & D & Q & _).
  cbn [prefix]. destruct (ascii_dec c' c) as [->|]; [|easy]. exfalso.
  destruct H as [H| ->]; [congruence|discriminate].
Qed.
Lemma apart_digits u v : u <> "" -> (forall c u', u = String c u' -> is_digit c = true) -> sep v -> apart expr_lexicon u v = true.
Proof.
  intros N D S. destruct u as [|c u]; [easy|]. pose proof (D c u eq_refl) as Dc. unfold apart.
  rewrite (no_fixed c (u ++ v)) by now left. cbn [andb]. destruct v as [|d v]; [easy|].
  rewrite (digit_not_start c Dc), Dc. cbn [sep] in S. destruct S as [->|[->| ->]]; cbn; now rewrite orb_true_r.
Qed.
Lemma apart_str s v : apart expr_lexicon (String c_dq s) v = true.
Proof. unfold apart. rewrite (no_fixed c_dq (s ++ v)) by now right. now destruct v. Qed.

Lemma str_frag s v ts : readable_str s -> TT ts v -> TT (KStr s :: ts) (show_str s ++ v).
Proof.
  intros H T. apply tok; [|unfold show_str; apply apart_str|easy].
  unfold show_str. apply (sp_str expr_lexicon c_dq s); [now left|exact H].
Qed.

(** *** Integers *)
Lemma show_pos z : (0 <= z)%Z -> exists u, u <> Nil /\ show_Z z = text u /\ num u = z.
Proof.
  intros H. unfold show_Z. destruct z as [|p|p]; [| |lia].
  - exists (D0 Nil). repeat split. discriminate.
  - exists (Pos.to_uint p). cbn [Z.to_int NilEmpty.string_of_int]. split; [|split; [reflexivity|]].
    + intros E. pose proof (Unsigned.of_to p) as K. rewrite E in K. discriminate.
    + unfold num, N.of_uint. rewrite Unsigned.of_to. reflexivity.
Qed.
Lemma show_neg z : (z < 0)%Z -> show_Z z = "-" ++ show_Z (- z).
Proof. destruct z; cbn; intros; try lia. reflexivity. Qed.

Definition int_toks (z : Z) : list token := if (z <? 0)%Z then [KMinus; KInt (- z)] else [KInt z].
Lemma int_toks_ok z : g_int (int_toks z) z.
Proof.
  unfold int_toks. destruct (z <? 0)%Z; [|constructor]. replace z with (- (- z))%Z at 2 by lia. constructor.
Qed.
Lemma digits_first u : forall c x, text u = String c x -> is_digit c = true.
Proof. intros c x E. pose proof (text_digits u) as D. rewrite E in D. cbn in D. now apply andb_prop in D. Qed.
Lemma nat_frag z v ts : (0 <= z <= INT64_MAX)%Z -> sep v -> TT ts v -> TT (KInt z :: ts) (show_Z z ++ v).
Proof.
  intros H S T. destruct (show_pos z) as (u & N & -> & E); [lia|].
  apply tok; [|apply apart_digits; [now apply text_nonempty|apply digits_first|easy]|easy].
  pose proof (sp_int expr_lexicon (text u)) as K. cbn [lx_int expr_lexicon] in K. rewrite digits_text, E in K.
  apply K; [now apply text_nonempty|apply text_digits|lia].
Qed.
Lemma minus ts v : TT ts v -> TT (KMinus :: ts) ("-" ++ v).
Proof. intros T. apply fixed; [cbn; tauto|now destruct v|easy]. Qed.
Lemma int_frag z v ts : readable_int z -> sep v -> TT ts v -> TT (int_toks z ++ ts) (show_Z z ++ v).
Proof.
  unfold readable_int, int_toks. intros H S T. destruct (Z.ltb_spec z 0).
  - rewrite show_neg by easy. rewrite sapp_assoc. apply minus. apply nat_frag; auto. lia.
  - apply nat_frag; auto. lia.
Qed.

(** *** Doubles *)
Lemma near_div_ok a b N : (0 < b -> 2 * Z.abs (a - N * b) < b -> near_div a b = N)%Z.
Proof.
  intros B H. unfold near_div. pose proof (Z.div_mod a b ltac:(lia)) as E. pose proof (Z.mod_pos_bound a b B) as M.
  assert (a / b = N \/ a / b = N - 1)%Z as [Q|Q] by nia.
  - assert (a mod b = a - N * b)%Z as K by nia. destruct (Z.ltb_spec (2 * (a mod b)) b); lia.
  - assert (a mod b = a - N * b + b)%Z as K by nia.
    destruct (Z.ltb_spec (2 * (a mod b)) b); [lia|]. destruct (Z.ltb_spec b (2 * (a mod b))); lia.
Qed.
Lemma near_two g N : (0 <= N < 100 * 2 ^ 45)%Z -> nearest g N 100 ->
  (Z.abs (100 * units g - N * 2 ^ 1074) < 2 ^ 1073)%Z.
Proof.
  intros B [_ H].
  assert (exists h, is_double h /\ units h = (256 * N / 100) * 2 ^ 1066)%Z as (h & Dh & Uh).
  { pose proof (Z.div_pos (256 * N) 100 ltac:(lia) ltac:(lia)) as P.
    assert (256 * N / 100 < 2 ^ 53)%Z as L by (apply Z.div_lt_upper_bound; lia).
    destruct (256 * N / 100)%Z as [|k|k] eqn:E; [| |lia].
    - exists (S754_zero false). split; [exact I|reflexivity].
    - exists (S754_finite false k (-8)). split; [cbn; lia|]. unfold units. change (-8 + 1074)%Z with 1066%Z. lia. }
  destruct (H h Dh) as [K _]. rewrite Uh in K. eapply Z.le_lt_trans; [exact K|].
  pose proof (Z.div_mod (256 * N) 100 ltac:(lia)) as E. pose proof (Z.mod_pos_bound (256 * N) 100 ltac:(lia)) as M.
  replace (2 ^ 1074)%Z with (256 * 2 ^ 1066)%Z by (change (2 ^ 1074)%Z with (2 ^ (8 + 1066))%Z; rewrite Z.pow_add_r by lia; reflexivity).
  replace (2 ^ 1073)%Z with (128 * 2 ^ 1066)%Z by (change (2 ^ 1073)%Z with (2 ^ (7 + 1066))%Z; rewrite Z.pow_add_r by lia; reflexivity).
  pose proof (Z.pow_pos_nonneg 2 1066 ltac:(lia) ltac:(lia)) as P. revert P. generalize (2 ^ 1066)%Z. intros V P. nia.
Qed.

Lemma show_double g N : (0 <= N < 100 * 2 ^ 45)%Z -> rounded g N 100 ->
  show_flt g = show_Z (N / 100) ++ "." ++ two_digits N /\ show_flt (fopp g) = "-" ++ show_flt g.
Proof.
  intros B (C & H & Z). pose proof (near_two g N B H) as K. pose proof (nearest_pos g N 100 ltac:(lia) ltac:(lia) H) as P.
  destruct g as [[]| | |s m e]; cbn [canonical] in C; [destruct (Z eq_refl)| |destruct C|destruct C|].
  - assert (N = 0)%Z as ->; [|split; reflexivity]. cbn [units] in K.
    replace (2 ^ 1074)%Z with (2 * 2 ^ 1073)%Z in K by (change (2 ^ 1074)%Z with (2 ^ (1 + 1073))%Z; rewrite Z.pow_add_r by lia; reflexivity).
    pose proof (Z.pow_pos_nonneg 2 1073 ltac:(lia) ltac:(lia)) as Q. revert K Q. generalize (2 ^ 1073)%Z. intros V K Q. nia.
  - destruct C as (C1 & C2 & _).
    assert (s = false) as ->.
    { destruct s; [|reflexivity]. exfalso. clear K. unfold units in P. pose proof (Z.pow_pos_nonneg 2 (e + 1074) ltac:(lia) ltac:(lia)). nia. }
    assert ((if (e <? 0)%Z then near_div (100 * Z.pos m) (2 ^ (- e)) else (100 * Z.pos m * 2 ^ e)%Z) = N) as E.
    { unfold units in K. destruct (Z.ltb_spec e 0).
      - apply near_div_ok; [apply Z.pow_pos_nonneg; lia|].
        replace (2 ^ 1074)%Z with (2 ^ (- e) * 2 ^ (e + 1074))%Z in K by (rewrite <- Z.pow_add_r by lia; f_equal; lia).
        assert (2 * 2 ^ 1073 = 2 ^ (- e) * 2 ^ (e + 1074))%Z as K2.
        { rewrite <- Z.pow_add_r by lia. replace (- e + (e + 1074))%Z with (1 + 1073)%Z by lia. rewrite Z.pow_add_r by lia. reflexivity. }
        pose proof (Z.pow_pos_nonneg 2 (e + 1074) ltac:(lia) ltac:(lia)) as Q.
        revert K K2 Q. generalize (2 ^ (e + 1074))%Z (2 ^ (- e))%Z (2 ^ 1073)%Z. intros V W U K K2 Q.
        assert (Z.abs (100 * Z.pos m - N * W) * V < U)%Z as K3.
        { replace (100 * (1 * (Z.pos m * V)) - N * (W * V))%Z with ((100 * Z.pos m - N * W) * V)%Z in K by ring.
          rewrite Z.abs_mul, (Z.abs_eq V) in K by lia. exact K. }
        assert (2 * Z.abs (100 * Z.pos m - N * W) * V < W * V)%Z by lia. nia.
      - replace (2 ^ (e + 1074))%Z with (2 ^ e * (2 * 2 ^ 1073))%Z in K
          by (change (2 * 2 ^ 1073)%Z with (2 ^ 1 * 2 ^ 1073)%Z; rewrite <- !Z.pow_add_r by lia; f_equal; lia).
        replace (2 ^ 1074)%Z with (2 * 2 ^ 1073)%Z in K by (change (2 ^ 1074)%Z with (2 ^ (1 + 1073))%Z; rewrite Z.pow_add_r by lia; reflexivity).
        pose proof (Z.pow_pos_nonneg 2 1073 ltac:(lia) ltac:(lia)) as Q. revert K Q. generalize (2 ^ 1073)%Z (2 ^ e)%Z.
        intros V W K Q. replace (100 * (1 * (Z.pos m * (W * (2 * V)))) - N * (2 * V))%Z with ((100 * Z.pos m * W - N) * (2 * V))%Z in K by ring.
        rewrite Z.abs_mul, (Z.abs_eq (2 * V)) in K by lia. nia. }
    cbn [show_flt fopp SFopp negb]. rewrite E. split; reflexivity.
Qed.

Lemma digit_val k : (0 <= k < 10)%Z -> is_digit (ascii_of_N (48 + Z.to_N k)) = true
  /\ forall acc s, digits (String (ascii_of_N (48 + Z.to_N k)) s) acc = digits s (10 * acc + k)%Z.
Proof.
  intros H. assert (k = 0 \/ k = 1 \/ k = 2 \/ k = 3 \/ k = 4 \/ k = 5 \/ k = 6 \/ k = 7 \/ k = 8 \/ k = 9)%Z as K by lia.
  repeat (destruct K as [->|K]; [split; [reflexivity|intros; cbn [digits]; f_equal; reflexivity]|]).
  subst. split; [reflexivity|intros; cbn [digits]; f_equal; reflexivity].
Qed.
Lemma two_digits_ok n : (0 <= n)%Z -> all_chars is_digit (two_digits n) = true
  /\ forall acc, digits (two_digits n) acc = (100 * acc + n mod 100)%Z.
Proof.
  intros H. unfold two_digits.
  destruct (digit_val (n / 10 mod 10)) as [A1 A2]; [apply Z.mod_pos_bound; lia|].
  destruct (digit_val (n mod 10)) as [B1 B2]; [apply Z.mod_pos_bound; lia|].
  split; [cbn [all_chars]; now rewrite A1, B1|]. intros acc. rewrite A2, B2. cbn [digits].
  change 100%Z with (10 * 10)%Z. rewrite Z.rem_mul_r by lia. ring.
Qed.
Lemma flt_frag f : two_decimals f -> exists fs, g_flt fs f /\ forall v ts, sep v -> TT ts v -> TT (fs ++ ts) (show_flt f ++ v).
Proof.
  intros (N & g & B & R & F). destruct (show_double g N B R) as [S1 S2].
  assert (forall v ts, sep v -> TT ts v -> TT (KFlt g :: ts) (show_flt g ++ v)) as K.
  { intros v ts S T. rewrite S1. destruct (show_pos (N / 100)) as (u & Nu & -> & E); [apply Z.div_pos; lia|].
    destruct (two_digits_ok N ltac:(lia)) as [D1 D2].
    apply tok; [|apply apart_digits; [|intros c x|easy]|easy].
    - pose proof (sp_flt expr_lexicon (text u) (two_digits N) (text_nonempty u Nu) (text_digits u) D1) as K.
      cbn [lx_flt expr_lexicon] in K. rewrite digits_app, digits_text, E, D2 in K.
      change (String.length (two_digits N)) with 2%nat in K.
      replace (100 * (N / 100) + N mod 100)%Z with N in K by (apply Z.div_mod; lia).
      replace g with (dec_flt N 2); [exact K|].
      apply (rounded_unique _ _ N 100); [lia|lia| |exact R].
      apply (dec_flt_rounded N 2); [lia|]. change (10 ^ Z.of_nat 2)%Z with 100%Z.
      assert (0 < 2 ^ 45)%Z by lia.
      assert (2 ^ 45 <= (2 ^ 54 - 1) * 2 ^ 970)%Z; [|lia].
      apply Z.le_trans with (2 ^ 970)%Z; [apply Z.pow_le_mono_r; lia|]. pose proof (Z.pow_pos_nonneg 2 970 ltac:(lia) ltac:(lia)). nia.
    - destruct (text u) eqn:E'; [now apply text_nonempty in Nu|discriminate].
    - destruct (text u) as [|c' x'] eqn:E'; [now apply text_nonempty in Nu|]. cbn. intros J. injection J as -> _.
      eapply digits_first; eassumption. }
  destruct F as [->| ->].
  - exists [KFlt g]. split; [constructor|]. intros v ts. cbn [app]. apply K.
  - exists [KMinus; KFlt g]. split; [constructor|]. intros v ts S T. rewrite S2, sapp_assoc. cbn [app]. apply minus. now apply K.
Qed.

(** *** Names *)
(** What may follow a name: no character of names, and no blank with the rest of a fixed text of two words. *)
Definition after_name (v : string) : Prop :=
  match v with
  | "" => True
  | String d w =>
      is_id_char d = false
      /\ (d = " "%char -> prefix "of" w = false /\ prefix "null" w = false /\ prefix "not null" w = false /\ prefix "empty" w = false)
  end.
Lemma prefix_split p : forall x v, prefix p (x ++ v) = true -> (String.length x < String.length p)%nat ->
  exists d w, p = x ++ String d w /\ prefix (String d w) v = true.
Proof.
  induction p as [|c p IH]; intros [|c' x] v H L; cbn in *; try lia.
  - exists c, p. split; [easy|exact H].
  - destruct (ascii_dec c c') as [->|]; [|discriminate]. destruct (IH x v H ltac:(lia)) as (d & w & -> & K). exists d, w. auto.
Qed.
Lemma id_prefix x : forall q c y, all_chars is_id_char x = true -> is_id_char c = false -> all_chars is_id_char q = true ->
  forall d w, q ++ String c y = x ++ String d w -> is_id_char d = false -> x = q /\ d = c /\ w = y.
Proof.
  induction x as [|a x IH]; intros [|b q] c y X C Q d w E D; cbn in *.
  - injection E as <- <-. auto.
  - injection E as <- _. apply andb_prop in Q. destruct Q. congruence.
  - injection E as <- _. apply andb_prop in X. destruct X. congruence.
  - injection E as <- E. apply andb_prop in X, Q. destruct X as [_ X], Q as [_ Q].
    destruct (IH q c y X C Q d w E D) as (-> & -> & ->). auto.
Qed.
Lemma name_chars x : readable_name x -> x <> "" /\ all_chars is_id_char x = true
  /\ (exists c x', x = String c x' /\ is_id_start c = true) /\ forall k t, In (k, t) (lx_fixed expr_lexicon) -> k <> x.
Proof.
  unfold readable_name, ident_ok. intros H. apply andb_prop in H. destruct H as [H1 H2].
  destruct x as [|c x]; [discriminate|]. apply andb_prop in H1. destruct H1 as [A B].
  split; [easy|]. split; [cbn [all_chars]; rewrite (start_id_char c A); exact B|]. split; [eauto|].
  intros k t I ->. apply negb_true_iff in H2. apply not_true_iff_false in H2. apply H2.
  apply existsb_exists. exists (String c x, t). split; [easy|]. apply String.eqb_refl.
Qed.
Lemma two_words k t : In (k, t) (lx_fixed expr_lexicon) -> forall x d w, k = x ++ String d w -> x <> "" ->
  all_chars is_id_char x = true -> is_id_char d = false ->
  d = " "%char /\ ((x = "not" /\ w = "in") \/ (x = "one" \/ x = "none" \/ x = "all") /\ w = "of"
                  \/ x = "is" /\ (w = "not null" \/ w = "null" \/ w = "empty")).
Proof.
  intros I x d w E N X D.
  assert (all_chars is_id_char k = false) as NK by (rewrite E, all_chars_app; cbn; rewrite D, andb_false_r; reflexivity).
  assert (forall q c y, k = q ++ String c y -> is_id_char c = false -> all_chars is_id_char q = true -> x = q /\ d = c /\ w = y) as K.
  { intros q c y E' C Q. rewrite E in E'. symmetry in E'. eapply (id_prefix x q c y); eauto. }
  assert (In (k, t) [("=", KEq); ("<>", KNe); (">", KGt); (">=", KGe); ("<", KLt); ("<=", KLe); ("(", KLParen);
     (")", KRParen); (",", KComma); ("&&", KAnd); ("||", KOr)] \/ In (k, t) [("not in", KNotIn); ("one of", KOneOf);
     ("none of", KNoneOf); ("all of", KAllOf); ("is not null", KIsNotNull); ("is null", KIsNull); ("is empty", KIsEmpty)]) as [J|J].
  { cbn [lx_fixed expr_lexicon] in I.
    repeat (destruct I as [I|I]; [injection I as <- <-; try discriminate NK; cbn; tauto|]). destruct I. }
  - exfalso. apply N. cbn [In] in J.
    repeat (destruct J as [J|J]; [injection J as <- <-; symmetry in E;
      destruct (K "" _ _ eq_refl eq_refl eq_refl) as (-> & _); reflexivity|]). destruct J.
  - cbn [In] in J.
    repeat (destruct J as [J|J]; [injection J as <- <-;
      match goal with
      | E : "not in" = _ |- _ => destruct (K "not" _ _ eq_refl eq_refl eq_refl) as (-> & -> & ->)
      | E : "one of" = _ |- _ => destruct (K "one" _ _ eq_refl eq_refl eq_refl) as (-> & -> & ->)
      | E : "none of" = _ |- _ => destruct (K "none" _ _ eq_refl eq_refl eq_refl) as (-> & -> & ->)
      | E : "all of" = _ |- _ => destruct (K "all" _ _ eq_refl eq_refl eq_refl) as (-> & -> & ->)
      | E : _ = _ |- _ => destruct (K "is" _ _ eq_refl eq_refl eq_refl) as (-> & -> & ->)
      end; tauto|]). destruct J.
Qed.
Lemma apart_name x v : readable_name x -> after_name v -> apart expr_lexicon x v = true.
Proof.
  intros H V. destruct (name_chars x H) as (N & X & (c & x' & Ex & St) & NF). unfold apart. apply andb_true_iff. split.
  - apply forallb_forall. intros [k t] I. cbn [fst]. apply orb_true_iff.
    destruct (Nat.leb_spec (String.length k) (String.length x)) as [L|L]; [now left|right].
    apply negb_true_iff. apply not_true_iff_false. intros P.
    destruct (prefix_split k x v P L) as (d & w & E & P').
    destruct v as [|d' v]; [discriminate|]. cbn [prefix] in P'. destruct (ascii_dec d d') as [<-|]; [|discriminate].
    cbn [after_name] in V. destruct V as [V1 V2].
    destruct (two_words k t I x d w E N X V1) as (-> & [[-> ->]|[[_ ->]|[-> W]]]).
    + exact (NF "not" KNot ltac:(cbn; tauto) eq_refl).
    + destruct (V2 eq_refl) as (K & _). congruence.
    + destruct (V2 eq_refl) as (_ & K1 & K2 & K3). destruct W as [->|[->| ->]]; congruence.
  - rewrite Ex. destruct v as [|d v]; [reflexivity|]. rewrite St. cbn [after_name] in V. destruct V as [-> _]. reflexivity.
Qed.
Lemma name_frag x v ts : readable_name x -> after_name v -> TT ts v -> TT (KIdent x :: ts) (x ++ v).
Proof. intros H V T. apply tok; [|now apply apart_name|easy]. now apply (sp_ident expr_lexicon KIdent x). Qed.

(** *** Lists *)
Lemma int_loop_cons a z b l : g_int a z -> g_int_loop b l -> g_int_loop (a ++ KComma :: b) (z :: l).
Proof.
  intros A. induction 1 as [b y B|b l c y L IH C].
  - change [z; y] with ([z] ++ [y])%list. constructor; [now constructor|easy].
  - change (KComma :: b ++ KComma :: c)%list with ((KComma :: b) ++ KComma :: c)%list. rewrite List.app_assoc.
    change (z :: l ++ [y])%list with ((z :: l) ++ [y])%list. now constructor.
Qed.
Lemma str_loop_cons s b l : g_str_loop b l -> g_str_loop (KStr s :: KComma :: b) (s :: l).
Proof.
  induction 1 as [y|b l y L IH].
  - change [KStr s; KComma; KStr y] with ([KStr s] ++ [KComma; KStr y])%list. change [s; y] with ([s] ++ [y])%list.
    constructor. constructor.
  - change (KStr s :: KComma :: b ++ [KComma; KStr y])%list with ((KStr s :: KComma :: b) ++ [KComma; KStr y])%list.
    change (s :: l ++ [y])%list with ((s :: l) ++ [y])%list. now constructor.
Qed.
Lemma comma ts v : TT ts v -> TT (KComma :: ts) ("," ++ v).
Proof. intros T. apply fixed; [cbn; tauto|now destruct v|easy]. Qed.
Lemma lparen ts v : TT ts v -> TT (KLParen :: ts) ("(" ++ v).
Proof. intros T. apply fixed; [cbn; tauto|now destruct v|easy]. Qed.
Lemma rparen ts v : TT ts v -> TT (KRParen :: ts) (")" ++ v).
Proof. intros T. apply fixed; [cbn; tauto|now destruct v|easy]. Qed.
Lemma commab ts v : TT ts v -> TT (KComma :: ts) (", " ++ v).
Proof. intros T. change (", " ++ v) with ("," ++ " " ++ v). apply comma. now apply blank. Qed.

Lemma int_items l : l <> [] -> Forall readable_int l ->
  exists a, g_int_loop a l /\ forall v ts, sep v -> TT ts v -> TT (a ++ ts) (show_items show_Z l ++ v).
Proof.
  induction l as [|z [|y l] IH]; intros N F; [easy| |]; apply Forall_cons_iff in F; destruct F as [Z F].
  - exists (int_toks z). split; [constructor; apply int_toks_ok|]. intros v ts S T. cbn [show_items]. now apply int_frag.
  - destruct (IH ltac:(discriminate) F) as (a & A & K). exists (int_toks z ++ KComma :: a)%list.
    split; [apply int_loop_cons; [apply int_toks_ok|easy]|]. intros v ts S T.
    change (show_items show_Z (z :: y :: l)) with (show_Z z ++ ", " ++ show_items show_Z (y :: l)).
    rewrite !sapp_assoc, <- List.app_assoc. apply int_frag; [easy|cbn; tauto|]. cbn [app]. apply commab. now apply K.
Qed.
Lemma str_items l : l <> [] -> Forall (fun s => readable_str (sv_string s)) l ->
  exists a, g_str_loop a (map sv_string l)
    /\ forall v ts, sep v -> TT ts v -> TT (a ++ ts) (show_items (fun s => show_str (sv_string s)) l ++ v).
Proof.
  induction l as [|z [|y l] IH]; intros N F; [easy| |]; apply Forall_cons_iff in F; destruct F as [Z F].
  - exists [KStr (sv_string z)]. split; [constructor|]. intros v ts S T. cbn [show_items]. now apply str_frag.
  - destruct (IH ltac:(discriminate) F) as (a & A & K). exists (KStr (sv_string z) :: KComma :: a)%list.
    split; [now apply str_loop_cons|]. intros v ts S T.
    change (show_items (fun s => show_str (sv_string s)) (z :: y :: l))
      with (show_str (sv_string z) ++ ", " ++ show_items (fun s => show_str (sv_string s)) (y :: l)).
    rewrite !sapp_assoc. cbn [app]. apply str_frag; [easy|]. apply commab. now apply K.
Qed.
Lemma int_list l : l <> [] -> Forall readable_int l ->
  exists u a, show_list show_Z l = Ok u /\ g_ints a l /\ forall v ts, TT ts v -> TT (a ++ ts) (u ++ v).
Proof.
  intros N F. destruct (int_items l N F) as (a & A & K). exists ("(" ++ show_items show_Z l ++ ")"), (KLParen :: a ++ [KRParen])%list.
  split; [destruct l; [easy|reflexivity]|]. split; [now constructor|]. intros v ts T. rewrite !sapp_assoc.
  rewrite <- List.app_comm_cons, <- List.app_assoc. apply lparen. apply K; [cbn; tauto|]. now apply rparen.
Qed.
Lemma str_list l : l <> [] -> Forall (fun s => readable_str (sv_string s)) l ->
  exists u a, show_list (fun s => show_str (sv_string s)) l = Ok u /\ g_strs a (map sv_string l)
    /\ forall v ts, TT ts v -> TT (a ++ ts) (u ++ v).
Proof.
  intros N F. destruct (str_items l N F) as (a & A & K).
  exists ("(" ++ show_items (fun s => show_str (sv_string s)) l ++ ")"), (KLParen :: a ++ [KRParen])%list.
  split; [destruct l; [easy|reflexivity]|]. split; [now constructor|]. intros v ts T. rewrite !sapp_assoc.
  rewrite <- List.app_comm_cons, <- List.app_assoc. apply lparen. apply K; [cbn; tauto|]. now apply rparen.
Qed.

(** *** Predicates *)
(** What may follow an expression. *)
Definition fin (v : string) : Prop := match v with "" => True | String d _ => d = ")"%char end.
Lemma fin_sep v : fin v -> sep v.
Proof. destruct v; cbn; tauto. Qed.
Lemma fin_name v : fin v -> after_name v.
Proof. destruct v; cbn; [easy|]. intros ->. split; [easy|discriminate]. Qed.

(** The pieces of the text of a predicate and their tokens. *)
Definition piece (u : string) (a : list token) : Prop := forall v ts, fin v -> TT ts v -> TT (a ++ ts) (u ++ v).

Lemma comp_frag op x c : readable_name x -> match c with CInt z => readable_int z | CFloat f => two_decimals f end ->
  exists a, g_atom a (PCmp op (mk_var x) c) /\ piece (x ++ " " ++ show_cmp op ++ " " ++ show_cval c) a.
Proof.
  intros X C.
  assert (exists b, g_num b c /\ forall v ts, sep v -> TT ts v -> TT (b ++ ts) (show_cval c ++ v)) as (b & B & K).
  { destruct c as [z|f].
    - exists (int_toks z). split; [constructor; apply int_toks_ok|]. intros v ts. now apply int_frag.
    - destruct (flt_frag f C) as (b & B & K). exists b. split; [now constructor|exact K]. }
  exists (KIdent x :: (match op with CLt => KLt | CLe => KLe | CGt => KGt | CGe => KGe end) :: b)%list.
  split; [destruct op; now constructor|]. intros v ts F T. rewrite !sapp_assoc. cbn [app].
  apply name_frag; [easy|destruct op; cbn; repeat split; easy|]. apply blank.
  destruct op; (apply fixed; [cbn; tauto|reflexivity|]; apply blank; apply K; [now apply fin_sep|easy]).
Qed.
Lemma eq_frag op x q : readable_name x ->
  match q with QInt z => readable_int z | QFloat f => two_decimals f | QStr s => readable_str (sv_string s) | QIEnum e => readable_int (ie_int e) end ->
  exists a, g_atom a (PEq op (mk_var x) (match q with QStr s => QStr (fresh_str s) | QIEnum e => QInt (ie_int e) | _ => q end))
    /\ piece (x ++ " " ++ show_eq op ++ " " ++ show_qval q) a.
Proof.
  intros X C.
  assert (exists b, g_eqv b (match q with QStr s => QStr (fresh_str s) | QIEnum e => QInt (ie_int e) | _ => q end)
    /\ forall v ts, sep v -> TT ts v -> TT (b ++ ts) (show_qval q ++ v)) as (b & B & K).
  { destruct q as [z|f|s|e].
    - exists (int_toks z). split; [constructor; apply int_toks_ok|]. intros v ts. now apply int_frag.
    - destruct (flt_frag f C) as (b & B & K). exists b. split; [now constructor|exact K].
    - exists [KStr (sv_string s)]. split; [constructor|]. intros v ts S T. cbn [app show_qval]. now apply str_frag.
    - exists (int_toks (ie_int e)). split; [constructor; apply int_toks_ok|]. intros v ts. now apply int_frag. }
  exists (KIdent x :: (match op with QEq => KEq | QNe => KNe end) :: b)%list.
  split; [destruct op; now constructor|]. intros v ts F T. rewrite !sapp_assoc. cbn [app].
  apply name_frag; [easy|destruct op; cbn; repeat split; easy|]. apply blank.
  destruct op; (apply fixed; [cbn; tauto|reflexivity|]; apply blank; apply K; [now apply fin_sep|easy]).
Qed.

Lemma prefix_rest p : forall s, prefix p s = true -> exists s', s = p ++ s'.
Proof.
  induction p as [|a p IH]; intros s H; [exists s; reflexivity|]. destruct s as [|b s]; [discriminate H|]. cbn in H.
  destruct (ascii_dec a b) as [<-|]; [|discriminate H]. destruct (IH s H) as (s' & ->). exists s'. reflexivity.
Qed.
Lemma right_frag r : match r with
    | SRInts l => l <> [] /\ Forall readable_int l
    | SRStrs l => l <> [] /\ Forall (fun s => readable_str (sv_string s)) l
    | SRVar v => readable_name (av_attr v)
    end ->
  exists u b, show_right r = Ok u
    /\ g_right b (match r with SRInts l => SRInts l | SRStrs l => SRStrs (map fresh_str l) | SRVar v => SRVar (fresh_var v) end)
    /\ piece u b.
Proof.
  destruct r as [l|l|v].
  - intros [N F]. destruct (int_list l N F) as (u & b & E & B & K). exists u, b. split; [exact E|]. split; [now constructor|].
    intros v ts _. apply K.
  - intros [N F]. destruct (str_list l N F) as (u & b & E & B & K). exists u, b. split; [exact E|]. split.
    + replace (map fresh_str l) with (map mk_str (map sv_string l)) by apply map_map. now constructor.
    + intros v ts _. apply K.
  - intros H. exists (av_attr v), [KIdent (av_attr v)]. split; [reflexivity|]. split; [constructor|].
    intros w ts F T. cbn [app]. apply name_frag; [easy|now apply fin_name|easy].
Qed.
Lemma set_frag op l r : printable_leaf (PSet op l r) ->
  exists u a, show_leaf (PSet op l r) = Ok u /\ g_atom a (fresh_leaf (PSet op l r)) /\ piece u a.
Proof.
  cbn [printable_leaf]. intros [L R]. destruct (right_frag r R) as (u & b & E & B & K).
  assert (exists c, g_left c (match l with SLInt z => SLInt z | SLStr s => SLStr (fresh_str s) | SLVar v => SLVar (fresh_var v) end)
    /\ forall w ts, prefix "in" w = true \/ prefix "not in" w = true -> TT ts (" " ++ w) -> TT (c ++ ts) (show_left l ++ " " ++ w)) as (c & C & KL).
  { destruct l as [z|s|v].
    - exists (int_toks z). split; [constructor; apply int_toks_ok|]. intros w ts _ T. apply int_frag; [easy|cbn; tauto|easy].
    - exists [KStr (sv_string s)]. split; [constructor|]. intros w ts _ T. cbn [app show_left]. now apply str_frag.
    - exists [KIdent (av_attr v)]. split; [constructor|]. intros w ts P T. cbn [app show_left]. apply name_frag; [easy| |easy].
      cbn [after_name]. split; [reflexivity|]. intros _.
      destruct P as [P|P]; apply prefix_rest in P; destruct P as (w' & ->); repeat split. }
  exists (show_left l ++ " " ++ show_set op ++ " " ++ u), (c ++ match op with SIn => KIn | SNotIn => KNotIn end :: b)%list.
  split; [cbn [show_leaf]; rewrite E; reflexivity|]. split; [cbn [fresh_leaf]; destruct op; now constructor|].
  intros v ts F T. rewrite !sapp_assoc, <- List.app_assoc, <- List.app_comm_cons. apply KL; [destruct op; cbn; auto|].
  apply blank. destruct op; (apply fixed; [cbn; tauto|reflexivity|]; apply blank; now apply K).
Qed.
Lemma list_frag op x l : printable_leaf (PList op x l) ->
  exists u a, show_leaf (PList op x l) = Ok u /\ g_atom a (fresh_leaf (PList op x l)) /\ piece u a.
Proof.
  cbn [printable_leaf]. intros [X L].
  assert (exists u b, show_lval l = Ok u /\ g_listv b (match l with LInts l => LInts l | LStrs l => LStrs (map fresh_str l) end)
    /\ piece u b) as (u & b & E & B & K).
  { destruct l as [l|l].
    - destruct L as [N F]. destruct (int_list l N F) as (u & b & E & B & K). exists u, b. split; [exact E|]. split; [now constructor|].
      intros v ts _. apply K.
    - destruct L as [N F]. destruct (str_list l N F) as (u & b & E & B & K). exists u, b. split; [exact E|]. split.
      + replace (map fresh_str l) with (map mk_str (map sv_string l)) by apply map_map. now constructor.
      + intros v ts _. apply K. }
  exists (av_attr x ++ " " ++ show_lop op ++ " " ++ u),
    (KIdent (av_attr x) :: match op with LOneOf => KOneOf | LNoneOf => KNoneOf | LAllOf => KAllOf end :: b)%list.
  split; [cbn [show_leaf]; rewrite E; reflexivity|]. split; [cbn [fresh_leaf]; destruct op; now constructor|].
  intros v ts F T. rewrite !sapp_assoc. cbn [app]. apply name_frag; [easy|destruct op; cbn; repeat split; easy|].
  apply blank. destruct op; (apply fixed; [cbn; tauto|reflexivity|]; apply blank; now apply K).
Qed.
Lemma type_back ty : ty <> FTInvalid -> exists s, show_ftype ty = Ok s /\ get_type_from_string s = ty /\ readable_str s.
Proof. destruct ty; intros H; try (eexists; split; [reflexivity|]; split; reflexivity). now destruct H. Qed.
Lemma small_uint z : (0 <= z <= INT64_MAX)%Z -> to_uint 64 z = z.
Proof. unfold INT64_MAX, to_uint. intros H. apply Z.mod_small. lia. Qed.
Lemma int_sep z v ts : readable_int z -> TT ts (", " ++ v) -> TT (int_toks z ++ ts) (show_Z z ++ ", " ++ v).
Proof. intros H T. apply int_frag; [easy|cbn; tauto|easy]. Qed.
Ltac flat := repeat first [rewrite <- List.app_comm_cons | rewrite <- List.app_assoc].
Lemma freq_frag v ty ns value len now id : printable_leaf (PFreq v ty ns value len now id) ->
  exists u a, show_leaf (PFreq v ty ns value len now id) = Ok u /\ g_atom a (fresh_leaf (PFreq v ty ns value len now id)) /\ piece u a.
Proof.
  cbn [printable_leaf]. intros (T & N & V & L). destruct (type_back ty T) as (s & E & G & R).
  cbn [show_leaf fresh_leaf]. rewrite E. cbn [bind]. eexists. eexists. split; [reflexivity|]. split.
  - replace (PFreq (mk_var "frequency_caps") ty (fresh_str ns) value len (mk_var "now") (2 ^ 32 - 1)) with (mk_freq s (sv_string ns) value len)
      by (unfold mk_freq; rewrite G, small_uint by easy; reflexivity).
    apply ga_freq; apply int_toks_ok.
  - intros w ts F K. rewrite !sapp_assoc.
    change ("within_frequency_cap(" ++ ?r) with ("within_frequency_cap" ++ "(" ++ r). 
    flat.
    apply fixed; [cbn; tauto|reflexivity|]. apply lparen. apply str_frag; [easy|]. apply commab. apply str_frag; [easy|]. apply commab.
    apply int_sep; [easy|]. apply commab. apply int_frag; [unfold readable_int; lia|cbn; tauto|]. now apply rparen.
Qed.
Lemma seg_frag op h x id sec now : printable_leaf (PSeg op h x id sec now) ->
  exists u a, show_leaf (PSeg op h x id sec now) = Ok u /\ g_atom a (fresh_leaf (PSeg op h x id sec now)) /\ piece u a.
Proof.
  cbn [printable_leaf]. intros (X & I & S). cbn [show_leaf fresh_leaf].
  exists (show_seg op ++ "(" ++ av_attr x ++ ", " ++ show_Z id ++ ", " ++ show_Z sec ++ ")"),
    (match op with SegWithin => KSegWithin | SegBefore => KSegBefore end :: KLParen :: KIdent (av_attr x) :: KComma :: int_toks id ++ KComma :: int_toks sec ++ [KRParen])%list.
  split; [reflexivity|]. split.
  - replace (PSeg op true (fresh_var x) id sec (mk_var "now")) with (mk_seg op (Some (av_attr x)) id sec)
      by (unfold mk_seg; rewrite small_uint by easy; reflexivity).
    destruct op; [apply ga_seg_within_var|apply ga_seg_before_var]; apply int_toks_ok.
  - intros w ts F K. rewrite !sapp_assoc.
    flat.
    assert (forall r tr, TT tr r -> TT ((match op with SegWithin => KSegWithin | SegBefore => KSegBefore end) :: KLParen :: tr) (show_seg op ++ "(" ++ r)) as O.
    { intros r tr R. destruct op; (apply fixed; [cbn; tauto|reflexivity|now apply lparen]). }
    apply O. apply name_frag; [easy|cbn; split; [easy|discriminate]|]. apply commab.
    apply int_sep; [unfold readable_int; lia|]. apply commab. apply int_frag; [easy|cbn; tauto|]. now apply rparen.
Qed.
Lemma geo_frag h lat lon r x y : printable_leaf (PGeo h lat lon r x y) ->
  exists u a, show_leaf (PGeo h lat lon r x y) = Ok u /\ g_atom a (fresh_leaf (PGeo h lat lon r x y)) /\ piece u a.
Proof.
  cbn [printable_leaf]. intros (A & B & C).
  destruct (flt_frag _ A) as (a & Ga & Ka). destruct (flt_frag _ B) as (b & Gb & Kb). destruct (flt_frag _ C) as (c & Gc & Kc).
  cbn [show_leaf fresh_leaf]. eexists. eexists. split; [reflexivity|]. split.
  - exact (ga_geo_flt a lat b lon c r Ga Gb Gc).
  - intros w ts F K. rewrite !sapp_assoc.
    change ("geo_within_radius(" ++ ?r) with ("geo_within_radius" ++ "(" ++ r).
    flat.
    apply fixed; [cbn; tauto|reflexivity|]. apply lparen.
    apply Ka; [cbn; tauto|]. apply commab. apply Kb; [cbn; tauto|]. apply commab. apply Kc; [cbn; tauto|]. now apply rparen.
Qed.
Lemma strp_frag op x pat : readable_name x -> readable_str pat ->
  exists a, g_atom a (PStr op (mk_var x) pat) /\ piece (show_sop op ++ "(" ++ x ++ ", " ++ show_str pat ++ ")") a.
Proof.
  intros X P. exists (match op with StContains => KContains | StStartsWith => KStartsWith | StEndsWith => KEndsWith end
    :: [KLParen; KIdent x; KComma; KStr pat; KRParen])%list.
  split; [destruct op; constructor|]. intros w ts F K. rewrite !sapp_assoc. cbn [app].
  assert (TT (KLParen :: KIdent x :: KComma :: KStr pat :: KRParen :: ts) ("(" ++ x ++ ", " ++ show_str pat ++ ")" ++ w)) as R.
  { apply lparen. apply name_frag; [easy|cbn; split; [easy|discriminate]|]. apply commab. apply str_frag; [easy|]. now apply rparen. }
  destruct op; (apply fixed; [cbn; tauto|reflexivity|exact R]).
Qed.

Theorem leaf_back p : printable_leaf p -> exists u a, show_leaf p = Ok u /\ g_atom a (fresh_leaf p) /\ piece u a.
Proof.
  destruct p as [b|v|op v x|op v x|op l r|op v x|op v|v ty ns vl w now id|op h v id s now|h la lo r x y|op v pat].
  - intros _. exists (if b then "true" else "false"), [if b then KTrue else KFalse]. split; [reflexivity|].
    split; [destruct b; constructor|]. intros v ts F T. cbn [app].
    destruct b; (apply fixed; [cbn; tauto| |easy]); (destruct v as [|d v]; [reflexivity|]; cbn in F; subst; reflexivity).
  - cbn [printable_leaf]. intros H. exists (av_attr v), [KIdent (av_attr v)]. split; [reflexivity|]. split; [constructor|].
    intros w ts F T. cbn [app]. apply name_frag; [easy|now apply fin_name|easy].
  - cbn [printable_leaf]. intros [X C]. destruct (comp_frag op (av_attr v) x X C) as (a & A & K). eexists. exists a. split; [reflexivity|]. auto.
  - cbn [printable_leaf]. intros [X C]. destruct (eq_frag op (av_attr v) x X C) as (a & A & K). eexists. exists a. split; [reflexivity|]. auto.
  - apply set_frag.
  - apply list_frag.
  - cbn [printable_leaf]. tauto.
  - apply freq_frag.
  - apply seg_frag.
  - apply geo_frag.
  - cbn [printable_leaf]. intros [X C]. destruct (strp_frag op (av_attr v) pat X C) as (a & A & K). eexists. exists a. split; [reflexivity|]. auto.
Qed.

(** *** Expressions *)
Lemma paren_piece u a : piece u a -> forall v ts, TT ts v -> TT (KLParen :: a ++ KRParen :: ts) ("(" ++ u ++ ")" ++ v).
Proof. intros P v ts T. apply lparen. apply P; [reflexivity|]. now apply rparen. Qed.
Theorem expr_back e : printable e -> exists u a, ast_to_string e = Ok u /\ derives LUn a (fresh e) /\ piece u a.
Proof.
  unfold printable. induction e as [g p|g a IHa b IHb|g a IHa b IHb|g a IHa]; cbn [expr_leaves]; intros H.
  - apply Forall_cons_iff in H. destruct H as [H _]. destruct (leaf_back p H) as (u & a & E & A & K). exists u, a. split; [exact E|]. split; [now constructor|exact K].
  - apply Forall_app in H. destruct H as [Ha Hb]. destruct (IHa Ha) as (u & ta & E & A & K). destruct (IHb Hb) as (u' & tb & E' & A' & K').
    exists ("((" ++ u ++ ") and (" ++ u' ++ "))"), (KLParen :: ((KLParen :: ta ++ [KRParen]) ++ KAnd :: KLParen :: tb ++ [KRParen]) ++ [KRParen])%list.
    split; [cbn [ast_to_string]; rewrite E, E'; reflexivity|]. split.
    + cbn [fresh]. apply d_paren. apply d_or_and. apply d_and; [apply d_and_un|]; apply d_paren, d_or_and, d_and_un; assumption.
    + intros v ts F T. rewrite !sapp_assoc. change ("((" ++ ?r) with ("(" ++ "(" ++ r). change (") and (" ++ ?r) with (")" ++ " " ++ "and" ++ " " ++ "(" ++ r).
      change ("))" ++ ?r) with (")" ++ ")" ++ r).
      flat.
      apply lparen. cbn [app]. apply paren_piece; [exact K|]. apply blank. apply fixed; [cbn; tauto|reflexivity|]. apply blank. apply paren_piece; [exact K'|].
      now apply rparen.
  - apply Forall_app in H. destruct H as [Ha Hb]. destruct (IHa Ha) as (u & ta & E & A & K). destruct (IHb Hb) as (u' & tb & E' & A' & K').
    exists ("((" ++ u ++ ") or (" ++ u' ++ "))"), (KLParen :: ((KLParen :: ta ++ [KRParen]) ++ KOr :: KLParen :: tb ++ [KRParen]) ++ [KRParen])%list.
    split; [cbn [ast_to_string]; rewrite E, E'; reflexivity|]. split.
    + cbn [fresh]. apply d_paren. apply d_or; [apply d_or_and|]; apply d_and_un, d_paren, d_or_and, d_and_un; assumption.
    + intros v ts F T. rewrite !sapp_assoc. change ("((" ++ ?r) with ("(" ++ "(" ++ r). change (") or (" ++ ?r) with (")" ++ " " ++ "or" ++ " " ++ "(" ++ r).
      change ("))" ++ ?r) with (")" ++ ")" ++ r).
      flat.
      apply lparen. cbn [app]. apply paren_piece; [exact K|]. apply blank. apply fixed; [cbn; tauto|reflexivity|]. apply blank. apply paren_piece; [exact K'|].
      now apply rparen.
  - destruct (IHa H) as (u & ta & E & A & K).
    exists ("(not (" ++ u ++ "))"), (KLParen :: (KNot :: KLParen :: ta ++ [KRParen]) ++ [KRParen])%list.
    split; [cbn [ast_to_string]; rewrite E; reflexivity|]. split.
    + cbn [fresh]. apply d_paren, d_or_and, d_and_un, d_not, d_paren, d_or_and, d_and_un; assumption.
    + intros v ts F T. rewrite !sapp_assoc. change ("(not (" ++ ?r) with ("(" ++ "not" ++ " " ++ "(" ++ r). change ("))" ++ ?r) with (")" ++ ")" ++ r).
      flat.
      apply lparen. apply fixed; [cbn; tauto|reflexivity|]. apply blank. cbn [app]. apply paren_piece; [exact K|]. now apply rparen.
Qed.

(** *** Expressions made by the parser *)
Lemma fresh_strs l : map fresh_str (map mk_str l) = map mk_str l.
Proof. rewrite map_map. reflexivity. Qed.
Lemma fresh_listv a l : g_listv a l -> (match l with LInts l => LInts l | LStrs l => LStrs (map fresh_str l) end) = l.
Proof. destruct 1; [reflexivity|]. now rewrite fresh_strs. Qed.
Lemma fresh_left a l : g_left a l -> (match l with SLInt z => SLInt z | SLStr s => SLStr (fresh_str s) | SLVar v => SLVar (fresh_var v) end) = l.
Proof. now destruct 1. Qed.
Lemma fresh_right a r : g_right a r -> (match r with SRInts l => SRInts l | SRStrs l => SRStrs (map fresh_str l) | SRVar v => SRVar (fresh_var v) end) = r.
Proof. destruct 1; [reflexivity| |reflexivity]. now rewrite fresh_strs. Qed.
Lemma fresh_eqv a q : g_eqv a q -> (match q with QStr s => QStr (fresh_str s) | QIEnum e => QInt (ie_int e) | _ => q end) = q.
Proof. now destruct 1. Qed.
Lemma fresh_atom a p : g_atom a p -> (forall op v id sec w, p <> PSeg op false v id sec w) -> fresh_leaf p = p.
Proof.
  destruct 1; intros S; cbn [fresh_leaf]; try reflexivity;
    try (erewrite fresh_eqv by eassumption; reflexivity); try (erewrite fresh_listv by eassumption; reflexivity);
    try (erewrite fresh_left, fresh_right by eassumption; reflexivity).
  - destruct (S SegWithin (mk_var "segments_with_timestamp") (to_uint 64 id) sec (mk_var "now") eq_refl).
  - destruct (S SegBefore (mk_var "segments_with_timestamp") (to_uint 64 id) sec (mk_var "now") eq_refl).
Qed.
Lemma no_default_and x y : no_default_segment (mk_and x y) -> no_default_segment x /\ no_default_segment y.
Proof.
  unfold no_default_segment, mk_and. destruct (_ <? _)%Z; cbn [expr_leaves]; intros H;
    split; intros op v id sec w I; apply (H op v id sec w), in_or_app; auto.
Qed.
Lemma no_default_or x y : no_default_segment (mk_or x y) -> no_default_segment x /\ no_default_segment y.
Proof.
  unfold no_default_segment, mk_or. destruct (_ <? _)%Z; cbn [expr_leaves]; intros H;
    split; intros op v id sec w I; apply (H op v id sec w), in_or_app; auto.
Qed.
Lemma fresh_parsed l a e : derives l a e -> no_default_segment e -> fresh e = e.
Proof.
  induction 1 as [a x b y _ IHa _ IHb|a x _ IH|a x b y _ IHa _ IHb|a x _ IH|a x _ IH|a x _ IH|a p A]; intros N; auto.
  - destruct (no_default_or _ _ N) as [N1 N2]. specialize (IHa N1). specialize (IHb N2). unfold mk_or.
    destruct (Z.ltb_spec (score_node y) (score_node x)); cbn [fresh]; rewrite IHa, IHb; unfold mk_or.
    + destruct (Z.ltb_spec (score_node x) (score_node y)); [lia|reflexivity].
    + destruct (Z.ltb_spec (score_node y) (score_node x)); [lia|reflexivity].
  - destruct (no_default_and _ _ N) as [N1 N2]. specialize (IHa N1). specialize (IHb N2). unfold mk_and.
    destruct (Z.ltb_spec (score_node y) (score_node x)); cbn [fresh]; rewrite IHa, IHb; unfold mk_and.
    + destruct (Z.ltb_spec (score_node x) (score_node y)); [lia|reflexivity].
    + destruct (Z.ltb_spec (score_node y) (score_node x)); [lia|reflexivity].
  - unfold mk_not in *. cbn [fresh]. rewrite IH by exact N. reflexivity.
  - unfold mk_leaf in *. cbn [fresh]. rewrite (fresh_atom a p A); [reflexivity|]. intros op v id sec w ->. apply (N op v id sec w). now left.
Qed.

(** *** Stored expressions *)
Lemma two_decimals_int z : (Z.abs z < 2 ^ 45)%Z -> two_decimals (f_of_Z z).
Proof.
  intros H.
  assert (forall n, (0 <= n < 2 ^ 45)%Z -> rounded (f_of_Z n) (n * 100) 100) as R.
  { intros n B. assert (Z.abs n < 2 ^ 1023)%Z as L.
    { rewrite Z.abs_eq by lia. apply Z.lt_trans with (2 ^ 45)%Z; [lia|]. apply Z.pow_lt_mono_r; lia. }
    split; [|split].
    - apply canonical_good. now apply of_Z_good.
    - pose proof (of_Z_nearest n L) as [D K]. split; [exact D|]. intros g Dg. destruct (K g Dg) as [K1 K2].
      replace (n * 100 * 2 ^ 1074)%Z with (100 * (n * 2 ^ 1074))%Z by ring. rewrite <- !Z.mul_sub_distr_l, !Z.abs_mul.
      rewrite !Z.mul_1_l in K1, K2. split; [lia|]. intros E. apply K2. lia.
    - destruct n as [|p|p]; [discriminate| |lia]. unfold f_of_Z, binary_normalize, binary_round.
      destruct (shl_align _ _ _) as [mz ez]. apply round_sign. }
  destruct (Z.le_gt_cases 0 z).
  - exists (z * 100)%Z, (f_of_Z z). split; [lia|]. split; [apply R; lia|now left].
  - exists (- z * 100)%Z, (f_of_Z (- z)). split; [lia|]. split; [apply R; lia|right].
    destruct z as [|p|p]; try lia. exact (round_opp p 0).
Qed.
