(** A text that spells a sequence of tokens is read as these tokens. *)
From Coq Require Import ZArith NArith Ascii String Bool List Lia.
From Verif Require Import Base Float Lexer LexSpec LexProofs.
Import ListNotations.
Local Open Scope string_scope.

(** * Characters *)

Lemma digit_not_start c : is_digit c = true -> is_id_start c = false.
Proof. destruct c as [[] [] [] [] [] [] [] []]; now vm_compute. Qed.
Lemma digit_not_space c : is_digit c = true -> is_space c = false.
Proof. destruct c as [[] [] [] [] [] [] [] []]; now vm_compute. Qed.
Lemma start_not_space c : is_id_start c = true -> is_space c = false.
Proof. destruct c as [[] [] [] [] [] [] [] []]; now vm_compute. Qed.
Lemma start_id_char c : is_id_start c = true -> is_id_char c = true.
Proof. intros H. unfold is_id_char. now rewrite H. Qed.
Lemma quote_class q : q = c_dq \/ q = c_sq ->
  is_id_start q = false /\ is_digit q = false /\ is_space q = false /\ Ascii.eqb q c_bs = false.
Proof. intros [->| ->]; repeat split. Qed.

Lemma all_chars_app p a b : all_chars p (a ++ b) = all_chars p a && all_chars p b.
Proof. induction a as [|c a IH]; cbn; [easy|]. now rewrite IH, andb_assoc. Qed.

Lemma prefix_app k v : prefix k (k ++ v) = true.
Proof.
  induction k as [|c k IH]; cbn; [now destruct v|]. destruct (ascii_dec c c); [exact IH|easy].
Qed.

(** A longer prefix of the same text. *)
Lemma longer_prefix u' v' u v : u' ++ v' = u ++ v -> (String.length u < String.length u')%nat ->
  exists d w, u' = u ++ String d w /\ v = String d (w ++ v').
Proof.
  revert u'. induction u as [|c u IH]; intros [|c' u'] H K; cbn in *; try lia.
  - exists c', u'. now rewrite <- H.
  - injection H as <- H. destruct (IH u' H) as (d & w & -> & ->); [lia|]. now exists d, w.
Qed.

(** * The rules of a lexicon *)

(** A rule for a fixed text. *)
Definition frule {T} (p : string * T) : rule T := (rlit (fst p), ATok (fun _ => snd p)).
(** The rules before the strings: blanks and fixed texts. *)
Definition head_rules {T} (lx : lexicon T) : list (rule T) :=
  (RCls is_space, ASkip) :: map frule (lx_fixed lx).
(** The rule of identifiers. *)
Definition ident_rules {T} (lx : lexicon T) : list (rule T) :=
  match lx_ident lx with Some f => [(rident, ATok f)] | None => [] end.
(** Rules of strings. *)
Definition str_rules {T} (lx : lexicon T) : list (rule T) :=
  [(rquoted c_dq, ATok (fun s => lx_str lx (unquote s)));
   (rquoted c_sq, ATok (fun s => lx_str lx (unquote s)))].
(** Rules of numbers. *)
Definition num_rules {T} (lx : lexicon T) : list (rule T) :=
  [(rint, ATok (fun s => lx_int lx (strtoll s))); (rflt, ATok (fun s => lx_flt lx (atof s)))].
(** The rules of a scanner. *)
Definition rules_of {T} (lx : lexicon T) : list (rule T) :=
  (head_rules lx ++ str_rules lx ++ ident_rules lx ++ num_rules lx ++ [(RCls is_dot, AStop)])%list.

Lemma expr_rules_shape : expr_rules = rules_of expr_lexicon.
Proof. reflexivity. Qed.
Lemma event_rules_shape : event_rules = rules_of event_lexicon.
Proof. reflexivity. Qed.

(** Fixed texts do not start with a blank, digit or quote and are distinct. *)
Definition lexicon_ok {T} (lx : lexicon T) : Prop :=
  forallb (fun p => match fst p with
    | "" => false
    | String c _ => negb (is_space c) && negb (is_digit c) && negb (Ascii.eqb c c_dq) &&
                    negb (Ascii.eqb c c_sq) end) (lx_fixed lx) = true /\
  NoDup (map fst (lx_fixed lx)).

Lemma expr_lexicon_ok : lexicon_ok expr_lexicon.
Proof.
  split; [reflexivity|]. cbn [lx_fixed expr_lexicon map fst].
  repeat (constructor; [intros K; cbn [In] in K; repeat (destruct K as [K|K]; [discriminate|]); exact K|]).
  constructor.
Qed.
Lemma event_lexicon_ok : lexicon_ok event_lexicon.
Proof.
  split; [reflexivity|]. cbn [lx_fixed event_lexicon map fst].
  repeat (constructor; [intros K; cbn [In] in K; repeat (destruct K as [K|K]; [discriminate|]); exact K|]).
  constructor.
Qed.

Section Scanner.
Context {T : Type} (lx : lexicon T) (Hok : lexicon_ok lx).

Lemma kw_first : forall k t, In (k, t) (lx_fixed lx) -> exists c x, k = String c x /\
  is_space c = false /\ is_digit c = false /\ Ascii.eqb c c_dq = false /\ Ascii.eqb c c_sq = false.
Proof.
  intros k t H. destruct Hok as [E _].
  rewrite forallb_forall in E. specialize (E _ H). cbn [fst] in E.
  destruct k as [|c x]; [discriminate|]. exists c, x.
  repeat (apply andb_true_iff in E; destruct E as [E ?]).
  repeat match goal with K : negb _ = true |- _ => apply negb_true_iff in K end. auto.
Qed.

Lemma in_rules r a : In (r, a) (rules_of lx) ->
  r = RCls is_space \/ (exists k t, In (k, t) (lx_fixed lx) /\ r = rlit k) \/
  (exists q, (q = c_dq \/ q = c_sq) /\ r = rquoted q) \/
  (r = rident /\ exists f, lx_ident lx = Some f) \/ r = rint \/ r = rflt \/
  r = RCls is_dot.
Proof.
  unfold rules_of. intros H. apply in_app_or in H. destruct H as [[H|H]|H].
  - injection H as <- _. now left.
  - apply in_map_iff in H. destruct H as ([k t] & H & Hin). injection H as <- _.
    right; left. now exists k, t.
  - apply in_app_or in H. destruct H as [[H|[H|[]]]|H].
    + injection H as <- _. right; right; left. exists c_dq. auto.
    + injection H as <- _. right; right; left. exists c_sq. auto.
    + unfold ident_rules in H. apply in_app_or in H. destruct H as [H|H].
      * destruct (lx_ident lx) as [f|]; [|easy]. destruct H as [H|[]]. injection H as <- _.
        right; right; right; left. eauto.
      * destruct H as [H|[H|[H|[]]]]; injection H as <- _; tauto.
Qed.

Lemma flt_prefix D E u d w : all_chars is_digit D = true -> all_chars is_digit E = true ->
  D ++ String "." E = u ++ String d w ->
  is_digit d = true \/ (all_chars is_digit u = true /\ d = "."%char).
Proof.
  intros HD HE. revert D HD. induction u as [|c u IH]; intros D HD H.
  - destruct D as [|c D]; cbn in H; injection H as <- H.
    + now right.
    + left. cbn in HD. now apply andb_true_iff in HD.
  - destruct D as [|c' D]; cbn in H; injection H as <- H.
    + left. subst E. rewrite all_chars_app in HE. apply andb_true_iff in HE. destruct HE as [_ HE].
      cbn in HE. now apply andb_true_iff in HE.
    + cbn in HD. apply andb_true_iff in HD. destruct HD as [Hc HD].
      destruct (IH D HD H) as [K|[K K']]; [now left|]. right. cbn [all_chars]. now rewrite Hc.
Qed.

(** No rule matches more than a spelled token that stands apart. *)
Lemma apart_longest t u v : spells lx t u -> apart lx u v = true ->
  forall r a u' v', In (r, a) (rules_of lx) -> u' ++ v' = u ++ v -> lang r u' ->
  (String.length u' <= String.length u)%nat.
Proof.
  intros Hs Ha r a u' v' Hin Heq Hl.
  destruct (Nat.le_gt_cases (String.length u') (String.length u)) as [|Hlt]; [easy|exfalso].
  assert (Hlong := longer_prefix _ _ _ _ Heq Hlt). destruct Hlong as (d & w & -> & ->).
  clear Heq. unfold apart in Ha. apply andb_true_iff in Ha. destruct Ha as [Hkw Ha].
  assert (Hu : u <> "").
  { destruct Hs as [k t H|q s Hq H|f x Hf H|x H|x y H].
    - apply kw_first in H. destruct H as (c & x & -> & _). easy.
    - easy.
    - now destruct x.
    - easy.
    - now destruct x. }
  destruct u as [|c u]; [easy|]. clear Hu.
  apply in_rules in Hin.
  destruct Hin as [->|[(k & t' & Hk & ->)|[(q & Hq & ->)|[[-> (f0 & Hf0)]|[->|[->| ->]]]]]].
  - apply lang_cls in Hl. destruct Hl as (e & Hl & _). cbn in Hl. injection Hl as _ Hl.
    now destruct u.
  - apply lang_lit in Hl. rewrite forallb_forall in Hkw. specialize (Hkw _ Hk). cbn [fst] in Hkw.
    apply orb_true_iff in Hkw. destruct Hkw as [Hkw|Hkw].
    + apply Nat.leb_le in Hkw. rewrite <- Hl in Hkw. cbn in Hkw.
      rewrite slength_app in Hkw. cbn in Hkw. lia.
    + apply negb_true_iff in Hkw.
      change (String d (w ++ v')) with (String d w ++ v') in Hkw.
      rewrite <- sapp_assoc, Hl, prefix_app in Hkw. discriminate.
  - apply lang_quoted in Hl. destruct Hl as (s & Hl & Hqs). cbn in Hl. injection Hl as -> Hl.
    destruct (quote_class q Hq) as (Q1 & Q2 & Q3 & Q4). remember (String q u) as qu eqn:Hqu.
    destruct Hs as [k t H|q' s' Hq' H|f x Hf H|x H H0 H1|x y H H0 H1].
    + apply kw_first in H. destruct H as (e & x & -> & _ & _ & K1 & K2). injection Hqu as -> _.
      destruct Hq as [->| ->].
      * now rewrite Ascii.eqb_refl in K1.
      * now rewrite Ascii.eqb_refl in K2.
    + injection Hqu as -> <-. rewrite sapp_assoc in Hl. cbn [append] in Hl.
      destruct (quoted_prefix q s' (String d w) Q4 H s "" Hqs Hl) as [_ K]. discriminate.
    + unfold ident_ok in H. apply andb_true_iff in H. destruct H as [H _].
      rewrite Hqu, Q1 in H. discriminate.
    + rewrite Hqu in H0. cbn [all_chars] in H0. rewrite Q2 in H0. discriminate.
    + destruct x as [|e x]; [easy|]. cbn in Hqu. injection Hqu as -> _. cbn [all_chars] in H0.
      rewrite Q2 in H0. discriminate.
  - apply lang_ident in Hl. cbn [append] in Hl. destruct Hl as [Hc Hl]. rewrite Hc in Ha.
    rewrite all_chars_app in Hl. apply andb_true_iff in Hl. destruct Hl as [_ Hl].
    cbn [all_chars] in Hl. apply andb_true_iff in Hl. destruct Hl as [Hd _].
    rewrite Hd in Ha. discriminate.
  - apply lang_plus_cls in Hl. destruct Hl as [_ Hl]. rewrite all_chars_app in Hl.
    apply andb_true_iff in Hl. destruct Hl as [Hc Hl]. cbn [all_chars] in Hc, Hl.
    apply andb_true_iff in Hc, Hl. destruct Hc as [Hc _], Hl as [Hd _].
    rewrite (digit_not_start _ Hc), Hc, Hd in Ha. discriminate.
  - apply lang_flt in Hl. destruct Hl as (D & E & Hl & HD & HD' & HE).
    assert (Hc : is_digit c = true).
    { destruct D as [|e D]; [easy|]. cbn in Hl. injection Hl as -> _.
      cbn [all_chars] in HD'. now apply andb_true_iff in HD'. }
    rewrite (digit_not_start _ Hc), Hc in Ha. apply andb_true_iff in Ha. destruct Ha as [Ha Ha'].
    symmetry in Hl. destruct (flt_prefix D E (String c u) d w HD' HE Hl) as [K|[K ->]].
    + rewrite K in Ha. discriminate.
    + rewrite K in Ha'. discriminate.
  - apply lang_cls in Hl. destruct Hl as (e & Hl & _). cbn in Hl. injection Hl as _ Hl.
    now destruct u.
Qed.

(** ** The token of a spelling *)

Lemma unquote_quoted q s : unquote (String q (s ++ String q "")) = s.
Proof.
  unfold unquote. cbn [String.length drop]. rewrite slength_app. cbn [String.length].
  replace (S (String.length s + 1) - 2)%nat with (String.length s) by lia.
  now rewrite take_app.
Qed.

Lemma split_point_digits d e : all_chars is_digit d = true -> split_point (d ++ String "." e) = (d, e).
Proof.
  induction d as [|c d IH]; intros H; cbn [append split_point]; [reflexivity|].
  cbn [all_chars] in H. apply andb_true_iff in H. destruct H as [Hc H].
  assert (E : Ascii.eqb c "." = false)
    by (revert Hc; destruct c as [[] [] [] [] [] [] [] []]; now vm_compute).
  rewrite E, IH by easy. reflexivity.
Qed.

Lemma digits_mono s a : all_chars is_digit s = true -> (0 <= a)%Z -> (0 <= digits s a)%Z.
Proof.
  revert a. induction s as [|c s IH]; intros a H Ha; cbn [digits]; [easy|].
  cbn [all_chars] in H. apply andb_true_iff in H. destruct H as [Hc H]. apply IH; [easy|].
  unfold is_digit, between in Hc. apply andb_true_iff in Hc. destruct Hc as [Hc _].
  apply N.leb_le in Hc. change (N_of_ascii "0") with 48%N in Hc. lia.
Qed.

(** Blanks and fixed texts do not match a text that is neither. *)
Lemma head_no c u : is_space c = false ->
  existsb (fun p => String.eqb (fst p) (String c u)) (lx_fixed lx) = false ->
  forall r a, In (r, a) (head_rules lx) -> ~ lang r (String c u).
Proof.
  intros Hc Hk r a [H|H] Hl.
  - injection H as <- _. apply lang_cls in Hl. destruct Hl as (d & Hl & Hd).
    injection Hl as -> ->. congruence.
  - apply in_map_iff in H. destruct H as ([k t] & H & Hin). injection H as <- _.
    apply lang_lit in Hl. cbn [fst] in Hl. subst k.
    assert (K : existsb (fun p => String.eqb (fst p) (String c u)) (lx_fixed lx) = true).
    { apply existsb_exists. exists (String c u, t). split; [easy|apply String.eqb_refl]. }
    congruence.
Qed.

Lemma kw_first_no c u :
  (is_digit c = true \/ c = c_dq \/ c = c_sq) ->
  existsb (fun p => String.eqb (fst p) (String c u)) (lx_fixed lx) = false.
Proof.
  intros H. apply not_true_is_false. intros K. apply existsb_exists in K.
  destruct K as ([k t] & Hin & K). cbn [fst] in K. apply String.eqb_eq in K. subst k.
  apply kw_first in Hin. destruct Hin as (d & x & E & _ & Hd & H1 & H2). injection E as <- <-.
  destruct H as [H|[->| ->]].
  - congruence.
  - now rewrite Ascii.eqb_refl in H1.
  - now rewrite Ascii.eqb_refl in H2.
Qed.

Lemma lang_quoted_first q c u : lang (rquoted q) (String c u) -> c = q.
Proof. intros H. apply lang_quoted in H. destruct H as (s & H & _). now injection H. Qed.

(** The rules of strings and identifiers do not match numbers. *)
Lemma mid_no c u : is_digit c = true ->
  forall r a, In (r, a) (str_rules lx ++ ident_rules lx) -> ~ lang r (String c u).
Proof.
  intros Hc r a H Hl. apply in_app_or in H. destruct H as [[K|[K|[]]]|K].
  - injection K as <- _. apply lang_quoted_first in Hl. now subst c.
  - injection K as <- _. apply lang_quoted_first in Hl. now subst c.
  - unfold ident_rules in K. destruct (lx_ident lx); [|easy]. destruct K as [K|[]].
    injection K as <- _.
    apply lang_ident in Hl. destruct Hl as [Hl _]. apply digit_not_start in Hc. congruence.
Qed.

(** The rule of a spelled token. *)
Lemma spells_chosen t u v : spells lx t u -> apart lx u v = true ->
  exists f, chosen (rules_of lx) u v (ATok f) /\ f u = t.
Proof.
  intros Hs Ha. pose proof (apart_longest t u v Hs Ha) as Hmax.
  assert (Hdone : forall f (pre : list (rule T)) r post, u <> "" -> f u = t ->
    (str_rules lx ++ ident_rules lx ++ num_rules lx ++ [(RCls is_dot, AStop)] =
     pre ++ (r, ATok f) :: post)%list -> lang r u ->
    (forall r' a', In (r', a') (head_rules lx) -> ~ lang r' u) ->
    (forall r' a', In (r', a') pre -> ~ lang r' u) ->
    exists f, chosen (rules_of lx) u v (ATok f) /\ f u = t).
  { intros f pre r post Hu Hf Ht Hl H1 H2. exists f. split; [|easy]. split; [easy|].
    split; [|exact Hmax].
    exists (head_rules lx ++ pre)%list, r, post. split.
    - unfold rules_of. rewrite Ht, <- app_assoc. reflexivity.
    - split; [easy|]. intros r' a' Hin. apply in_app_or in Hin. destruct Hin; eauto. }
  destruct Hs as [k t Hk|q s Hq H|f x Hf H|x Hx Hd Hle|x y Hx Hd He].
  - (* fixed texts *)
    clear Hdone. destruct (kw_first k t Hk) as (c & x & E & Hsp & Hrest).
    apply in_split in Hk. destruct Hk as (l1 & l2 & El).
    assert (Hn : ~ In k (map fst l1)).
    { destruct Hok as [_ Hnd]. rewrite El, map_app in Hnd. cbn [map fst] in Hnd.
      apply NoDup_remove_2 in Hnd. intros K. apply Hnd, in_or_app. now left. }
    exists (fun _ => t). split; [|easy]. split; [subst k; easy|]. split; [|exact Hmax].
    exists ((RCls is_space, ASkip) :: map frule l1)%list, (rlit k),
      (map frule l2 ++ str_rules lx ++ ident_rules lx ++ num_rules lx ++ [(RCls is_dot, AStop)])%list.
    split; [|split; [now apply lang_lit|]].
    + unfold rules_of, head_rules. rewrite El, map_app. cbn [map app]. rewrite <- app_assoc.
      reflexivity.
    + intros r' a' [K|K] Hl.
      * injection K as <- _. apply lang_cls in Hl. destruct Hl as (d & Hl & Hd).
        rewrite E in Hl. injection Hl as -> _. congruence.
      * apply in_map_iff in K. destruct K as ([k' t''] & K & Hin'). injection K as <- _.
        apply lang_lit in Hl. cbn [fst] in Hl. subst k'. apply Hn.
        apply in_map_iff. now exists (k, t'').
  - (* strings *)
    destruct (quote_class q Hq) as (Q1 & Q2 & Q3 & Q4).
    assert (Hh : forall r' a', In (r', a') (head_rules lx) -> ~ lang r' (String q (s ++ String q ""))).
    { apply head_no; [easy|]. apply kw_first_no. now right. }
    destruct Hq as [->| ->].
    + eapply (Hdone (fun s => lx_str lx (unquote s)) [] (rquoted c_dq));
        [easy|now rewrite unquote_quoted|reflexivity| |exact Hh|easy].
      apply lang_quoted. now exists s.
    + eapply (Hdone (fun s => lx_str lx (unquote s)) [_] (rquoted c_sq));
        [easy|now rewrite unquote_quoted|reflexivity| |exact Hh|].
      * apply lang_quoted. now exists s.
      * intros r' a' [K|[]] Hl. injection K as <- _. now apply lang_quoted_first in Hl.
  - (* identifiers *)
    unfold ident_ok in H. apply andb_true_iff in H. destruct H as [H Hk].
    apply negb_true_iff in Hk. destruct x as [|c x]; [discriminate|].
    apply andb_true_iff in H. destruct H as [Hc Hx].
    eapply (Hdone f (str_rules lx) rident); [easy|easy|unfold ident_rules; rewrite Hf; reflexivity| | |].
    + apply lang_ident. now split.
    + apply head_no; [now apply start_not_space|easy].
    + intros r' a' [K|[K|[]]] Hl; injection K as <- _; apply lang_quoted_first in Hl; subst c;
        discriminate.
  - (* integers *)
    destruct x as [|c x]; [easy|].
    assert (Hc : is_digit c = true) by (cbn [all_chars] in Hd; now apply andb_true_iff in Hd).
    eapply (Hdone (fun s => lx_int lx (strtoll s)) (str_rules lx ++ ident_rules lx)%list rint);
      [easy| |rewrite <- app_assoc; reflexivity| | |].
    + unfold strtoll. now rewrite Z.min_l.
    + now apply lang_plus_cls.
    + apply head_no; [now apply digit_not_space|]. apply kw_first_no. now left.
    + now apply mid_no.
  - (* floats *)
    destruct x as [|c x]; [easy|].
    assert (Hc : is_digit c = true) by (cbn [all_chars] in Hd; now apply andb_true_iff in Hd).
    eapply (Hdone (fun s => lx_flt lx (atof s))
              ((str_rules lx ++ ident_rules lx) ++ [(rint, ATok (fun s => lx_int lx (strtoll s)))])%list rflt);
      [easy| |rewrite <- !app_assoc; reflexivity| | |].
    + unfold atof. now rewrite split_point_digits.
    + apply lang_flt. now exists (String c x), y.
    + apply head_no; [now apply digit_not_space|]. apply kw_first_no. now left.
    + intros r' a' Hin. apply in_app_or in Hin. destruct Hin as [Hin|[K|[]]].
      * exact (mid_no c _ Hc r' a' Hin).
      * injection K as <- _. intros Hl. apply lang_plus_cls in Hl. destruct Hl as [_ Hl].
        rewrite all_chars_app in Hl. apply andb_true_iff in Hl. destruct Hl as [_ Hl]. discriminate.
Qed.

(** ** Blanks *)

Lemma blank_chosen c v : is_space c = true -> chosen (rules_of lx) (String c "") v ASkip.
Proof.
  intros Hc. split; [easy|]. split.
  - exists [], (RCls is_space), (tl (rules_of lx)). split; [reflexivity|]. split; [now constructor|easy].
  - intros r a u' v' Hin Heq Hl. destruct u' as [|d u']; [cbn; lia|].
    cbn in Heq. injection Heq as -> Heq. apply in_rules in Hin.
    destruct Hin as [->|[(k & t' & Hk & ->)|[(q & Hq & ->)|[[-> (f0 & Hf0)]|[->|[->| ->]]]]]].
    + apply lang_cls in Hl. destruct Hl as (e & Hl & _). injection Hl as _ ->. cbn. lia.
    + apply lang_lit in Hl. apply kw_first in Hk. destruct Hk as (e & x & -> & Hk & _).
      injection Hl as -> _. congruence.
    + apply lang_quoted_first in Hl. subst c. destruct (quote_class q Hq) as (_ & _ & K & _). congruence.
    + apply lang_ident in Hl. destruct Hl as [Hl _]. apply start_not_space in Hl. congruence.
    + apply lang_plus_cls in Hl. destruct Hl as [_ Hl]. cbn [all_chars] in Hl.
      apply andb_true_iff in Hl. destruct Hl as [Hl _]. apply digit_not_space in Hl. congruence.
    + apply lang_flt in Hl. destruct Hl as (D & E & Hl & HD & HD' & HE).
      destruct D as [|e D]; [easy|]. cbn in Hl. injection Hl as -> _. cbn [all_chars] in HD'.
      apply andb_true_iff in HD'. destruct HD' as [HD' _]. apply digit_not_space in HD'. congruence.
    + apply lang_cls in Hl. destruct Hl as (e & Hl & _). injection Hl as _ ->. cbn. lia.
Qed.

Lemma covers_lx : covers (rules_of lx).
Proof.
  eapply covers_dot; [left; reflexivity|]. unfold rules_of. rewrite !app_assoc.
  apply in_or_app. right. left. reflexivity.
Qed.

(** Reading one token or blank. *)
Lemma scan_tok u v f : chosen (rules_of lx) u v (ATok f) ->
  scan (rules_of lx) (u ++ v) = f u :: scan (rules_of lx) v.
Proof.
  intros H. apply scan_iff; [exact covers_lx|]. apply fx_tok; [easy|].
  now apply scan_iff; [exact covers_lx|].
Qed.
Lemma scan_skip u v : chosen (rules_of lx) u v ASkip ->
  scan (rules_of lx) (u ++ v) = scan (rules_of lx) v.
Proof.
  intros H. apply scan_iff; [exact covers_lx|]. apply fx_skip; [easy|].
  now apply scan_iff; [exact covers_lx|].
Qed.

Lemma scan_blanks w v : all_chars is_space w = true ->
  scan (rules_of lx) (w ++ v) = scan (rules_of lx) v.
Proof.
  induction w as [|c w IH]; intros H; [easy|]. cbn [all_chars] in H. apply andb_true_iff in H.
  destruct H as [Hc H]. cbn [append].
  change (String c (w ++ v)) with (String c "" ++ (w ++ v)).
  rewrite scan_skip by now apply blank_chosen. now apply IH.
Qed.

Lemma scan_text_then z ts s : text_then lx z ts s ->
  scan (rules_of lx) s = (ts ++ scan (rules_of lx) z)%list.
Proof.
  intros H. induction H as [w Hw|w t u ts v Hw Hs Ha H IH].
  - now rewrite scan_blanks.
  - rewrite scan_blanks by easy. destruct (spells_chosen t u v Hs Ha) as (f & Hc & <-).
    rewrite (scan_tok u v f Hc). now rewrite IH.
Qed.

Lemma scan_text ts s : text_of lx ts s -> scan (rules_of lx) s = ts.
Proof. intros H. apply scan_text_then in H. now rewrite app_nil_r in H. Qed.

(** ** Characters that start no token end the input *)

Lemma foreign_no c s r a : foreign lx c = true -> In (r, a) (rules_of lx) -> r <> RCls is_dot ->
  ~ lang r (String c s).
Proof.
  intros Hf Hin Hr Hl. unfold foreign in Hf. apply negb_true_iff in Hf.
  do 5 (apply orb_false_iff in Hf; destruct Hf as [Hf ?Hf]).
  apply in_rules in Hin.
  destruct Hin as [->|[(k & t' & Hk & ->)|[(q & Hq & ->)|[[-> (f0 & Hid)]|[->|[->| ->]]]]]].
  - apply lang_cls in Hl. destruct Hl as (e & Hl & K). injection Hl as -> _. congruence.
  - apply lang_lit in Hl. subst k.
    assert (K : existsb (fun p => prefix (String c "") (fst p)) (lx_fixed lx) = true).
    { apply existsb_exists. exists (String c s, t'). split; [easy|].
      apply (prefix_app (String c "") s). }
    congruence.
  - apply lang_quoted_first in Hl. subst c. destruct Hq as [->| ->].
    + now rewrite Ascii.eqb_refl in Hf2.
    + now rewrite Ascii.eqb_refl in Hf1.
  - rewrite Hid in *. apply lang_ident in Hl. destruct Hl as [Hl _]. congruence.
  - apply lang_plus_cls in Hl. destruct Hl as [_ Hl]. cbn [all_chars] in Hl.
    apply andb_true_iff in Hl. destruct Hl as [Hl _]. congruence.
  - apply lang_flt in Hl. destruct Hl as (D & E & Hl & HD & HD' & HE).
    destruct D as [|e D]; [easy|]. cbn in Hl. injection Hl as -> _. cbn [all_chars] in HD'.
    apply andb_true_iff in HD'. destruct HD' as [HD' _]. congruence.
  - easy.
Qed.

Lemma scan_foreign c s : foreign lx c = true -> scan (rules_of lx) (String c s) = [].
Proof.
  intros Hf. apply scan_iff; [exact covers_lx|].
  change (String c s) with (String c "" ++ s). apply fx_stop.
  assert (Hd : is_dot c = true).
  { unfold foreign in Hf. apply negb_true_iff in Hf.
    do 5 (apply orb_false_iff in Hf; destruct Hf as [Hf ?Hf]).
    unfold is_space in Hf. apply orb_false_iff in Hf. unfold is_dot. now rewrite (proj2 Hf). }
  set (pre := (head_rules lx ++ str_rules lx ++ ident_rules lx ++ num_rules lx)%list).
  assert (Hshape : rules_of lx = (pre ++ [(RCls is_dot, AStop)])%list).
  { unfold rules_of, pre. now rewrite <- !app_assoc. }
  assert (Hpre : forall r a, In (r, a) pre -> r <> RCls is_dot).
  { intros r a Hin ->. unfold pre in Hin. apply in_app_or in Hin. destruct Hin as [[K|K]|Hin].
    - injection K as K _. apply (f_equal (fun p => p "@"%char)) in K. discriminate.
    - apply in_map_iff in K. destruct K as ([k t] & K & _). injection K as K _. cbn [fst] in K.
      now destruct k.
    - apply in_app_or in Hin. destruct Hin as [[K|[K|[]]]|Hin]; [discriminate|discriminate|].
      apply in_app_or in Hin. unfold ident_rules in Hin.
      destruct Hin as [K|[K|[K|[]]]]; [|discriminate|discriminate].
      destruct (lx_ident lx); [|easy]. destruct K as [K|[]]. discriminate. }
  split; [easy|]. split.
  - exists pre, (RCls is_dot), []. split; [exact Hshape|].
    split; [now constructor|]. intros r a Hin. apply foreign_no with a; [easy| |eauto].
    rewrite Hshape. apply in_or_app. now left.
  - intros r a u v Hin Heq Hl. pose proof Hin as Hin'. rewrite Hshape in Hin.
    apply in_app_or in Hin. destruct Hin as [Hin|[Hin|[]]].
    + destruct u as [|d u]; [cbn; lia|]. cbn in Heq. injection Heq as -> _. exfalso.
      apply (foreign_no c u r a Hf Hin'); [eauto|easy].
    + injection Hin as <- _. apply lang_cls in Hl. destruct Hl as (e & -> & _). cbn. lia.
Qed.
End Scanner.

(** * The two scanners *)

Lemma lex_text_then z ts s : text_then expr_lexicon z ts s -> lex s = (ts ++ lex z)%list.
Proof.
  intros H. unfold lex. rewrite expr_rules_shape. now apply scan_text_then; [exact expr_lexicon_ok|].
Qed.
Lemma lex_text ts s : text_of expr_lexicon ts s -> lex s = ts.
Proof. intros H. apply lex_text_then in H. now rewrite app_nil_r in H. Qed.
Lemma lex_foreign c s : foreign expr_lexicon c = true -> lex (String c s) = [].
Proof.
  intros H. unfold lex. rewrite expr_rules_shape. now apply scan_foreign.
Qed.
Lemma elex_text_then z ts s : text_then event_lexicon z ts s -> elex s = (ts ++ elex z)%list.
Proof.
  intros H. unfold elex. rewrite event_rules_shape. now apply scan_text_then; [exact event_lexicon_ok|].
Qed.
Lemma elex_text ts s : text_of event_lexicon ts s -> elex s = ts.
Proof. intros H. apply elex_text_then in H. now rewrite app_nil_r in H. Qed.
Lemma elex_foreign c s : foreign event_lexicon c = true -> elex (String c s) = [].
Proof.
  intros H. unfold elex. rewrite event_rules_shape. now apply scan_foreign.
Qed.
