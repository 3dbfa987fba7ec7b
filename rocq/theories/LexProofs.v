(** The scanner of Lexer.v follows the contract of LexSpec.v, and a spelled text is read as its
    tokens. *)
From Coq Require Import ZArith NArith Ascii String Bool List Lia.
From Verif Require Import Base Float Lexer LexSpec.
Import ListNotations.
Local Open Scope string_scope.

(** * Strings *)

Lemma sapp_nil s : s ++ "" = s.
Proof. induction s as [|c s IH]; cbn; [easy|now rewrite IH]. Qed.
Lemma sapp_assoc a b c : (a ++ b) ++ c = a ++ (b ++ c).
Proof. induction a as [|x a IH]; cbn; [easy|now rewrite IH]. Qed.
Lemma slength_app a b : String.length (a ++ b) = (String.length a + String.length b)%nat.
Proof. induction a as [|x a IH]; cbn; [easy|now rewrite IH]. Qed.
Lemma take_drop k s : take k s ++ drop k s = s.
Proof. revert s. induction k as [|k IH]; intros [|c s]; cbn; try easy. now rewrite IH. Qed.
Lemma take_app u v : take (String.length u) (u ++ v) = u.
Proof. induction u as [|c u IH]; cbn; [now destruct v|now rewrite IH]. Qed.
Lemma drop_app u v : drop (String.length u) (u ++ v) = v.
Proof. induction u as [|c u IH]; cbn; [now destruct v|easy]. Qed.
Lemma length_take k s : (k <= String.length s)%nat -> String.length (take k s) = k.
Proof.
  revert s. induction k as [|k IH]; intros [|c s] H; cbn in *; try lia. rewrite IH; lia.
Qed.
Lemma length_drop k s : String.length (drop k s) = (String.length s - k)%nat.
Proof. revert s. induction k as [|k IH]; intros [|c s]; cbn; try easy. Qed.

(** * Derivatives *)

Lemma lang_none u : lang RNone u -> False.
Proof. intros H. inversion H. Qed.
Lemma lang_eps u : lang REps u <-> u = "".
Proof. split; [intros H; inversion H; easy|intros ->; constructor]. Qed.
Lemma lang_cls p u : lang (RCls p) u <-> exists c, u = String c "" /\ p c = true.
Proof.
  split; [intros H; inversion H; subst; eauto|intros (c & -> & H); now constructor].
Qed.
Lemma lang_cat a b w : lang (RCat a b) w <-> exists u v, w = u ++ v /\ lang a u /\ lang b v.
Proof.
  split; [intros H; inversion H; subst; eauto|intros (u & v & -> & H & K); now constructor].
Qed.
Lemma lang_alt a b w : lang (RAlt a b) w <-> lang a w \/ lang b w.
Proof.
  split; [intros H; inversion H; subst; eauto|intros [H|H]; now constructor].
Qed.

Lemma nullable_iff r : nullable r = true <-> lang r "".
Proof.
  induction r as [| |p|a IHa b IHb|a IHa b IHb|a IH]; cbn.
  - split; [easy|intros H; now apply lang_none in H].
  - split; [constructor|easy].
  - split; [easy|]. intros H. apply lang_cls in H. now destruct H as (c & H & _).
  - rewrite andb_true_iff, IHa, IHb, lang_cat. split.
    + intros [H K]. now exists "", "".
    + intros ([|c u] & v & H & Ka & Kb); [|easy]. cbn in H. subst. easy.
  - rewrite orb_true_iff, IHa, IHb. symmetry. apply lang_alt.
  - split; [constructor|easy].
Qed.

Lemma lang_rcat a b u : lang (rcat a b) u <-> lang (RCat a b) u.
Proof.
  assert (Hn : forall x, lang RNone u <-> lang (RCat RNone x) u).
  { intros x. split; intros H; [now apply lang_none in H|].
    apply lang_cat in H. destruct H as (v & w & _ & H & _). now apply lang_none in H. }
  assert (Hn' : forall x, lang RNone u <-> lang (RCat x RNone) u).
  { intros x. split; intros H; [now apply lang_none in H|].
    apply lang_cat in H. destruct H as (v & w & _ & _ & H). now apply lang_none in H. }
  assert (He : lang b u <-> lang (RCat REps b) u).
  { split; intros H.
    - apply lang_cat. exists "", u. split; [easy|split; [constructor|easy]].
    - apply lang_cat in H. destruct H as (v & w & -> & H & K). apply lang_eps in H. now subst. }
  destruct a, b; cbn [rcat]; easy.
Qed.
Lemma lang_ralt a b u : lang (ralt a b) u <-> lang (RAlt a b) u.
Proof.
  assert (Hn : lang b u <-> lang (RAlt RNone b) u).
  { rewrite lang_alt. split; [now right|]. intros [H|H]; [now apply lang_none in H|easy]. }
  assert (Hn' : lang a u <-> lang (RAlt a RNone) u).
  { rewrite lang_alt. split; [now left|]. intros [H|H]; [easy|now apply lang_none in H]. }
  destruct a, b; cbn [ralt]; easy.
Qed.

Lemma star_head a w : lang (RStar a) w -> w <> "" ->
  exists c u v, w = String c (u ++ v) /\ lang a (String c u) /\ lang (RStar a) v.
Proof.
  intros H. remember (RStar a) as r eqn:Hr. revert Hr.
  induction H as [|p c Hp|x y u v|x y u|x y u|x|x u v Hu _ Hv IHv]; intros Hr Hw; try discriminate.
  - easy.
  - injection Hr as ->. destruct u as [|c u]; [now apply IHv|].
    exists c, u, v. now repeat split.
Qed.

Lemma deriv_iff c r u : lang (deriv c r) u <-> lang r (String c u).
Proof.
  revert u. induction r as [| |p|a IHa b IHb|a IHa b IHb|a IH]; intros u; cbn [deriv].
  - split; intros H; now apply lang_none in H.
  - split; intros H; [now apply lang_none in H|now apply lang_eps in H].
  - destruct (p c) eqn:E.
    + rewrite lang_eps, lang_cls. split; [intros ->; eauto|].
      intros (d & H & _). now injection H.
    + split; intros H; [now apply lang_none in H|].
      apply lang_cls in H. destruct H as (d & H & K). injection H as <- ->. congruence.
  - assert (Hc : lang (rcat (deriv c a) b) u <->
      exists u1 v, u = u1 ++ v /\ lang a (String c u1) /\ lang b v).
    { rewrite lang_rcat, lang_cat. split; intros (u1 & v & H & K & L); exists u1, v;
        (split; [easy|split; [now apply IHa|easy]]). }
    assert (Hd : lang (RCat a b) (String c u) <->
      (exists u1 v, u = u1 ++ v /\ lang a (String c u1) /\ lang b v) \/
      (lang a "" /\ lang b (String c u))).
    { rewrite lang_cat. split.
      - intros ([|d u1] & v & H & K & L); [right; cbn in H; now subst v|].
        injection H as <- ->. left. now exists u1, v.
      - intros [(u1 & v & -> & K & L)|[K L]].
        + now exists (String c u1), v.
        + now exists "", (String c u). }
    rewrite Hd. destruct (nullable a) eqn:E.
    + rewrite lang_ralt, lang_alt, Hc, IHb. apply nullable_iff in E. tauto.
    + rewrite Hc. split; [tauto|]. intros [H|[H _]]; [easy|].
      apply nullable_iff in H. congruence.
  - rewrite lang_ralt, lang_alt, lang_alt, IHa, IHb. tauto.
  - rewrite lang_rcat, lang_cat. split.
    + intros (u1 & v & -> & K & L). apply IH in K.
      change (String c (u1 ++ v)) with (String c u1 ++ v). now constructor.
    + intros H. apply star_head in H; [|easy]. destruct H as (d & u1 & v & H & K & L).
      injection H as <- ->. exists u1, v. split; [easy|split; [now apply IH|easy]].
Qed.

(** * Longest match *)

(** k is the length of the longest matched prefix, counted from k0 characters already read. *)
Lemma longest_from_spec r s k0 best :
  match longest_from r s k0 best with
  | Some k =>
      ((exists u v, s = u ++ v /\ k = (k0 + String.length u)%nat /\ lang r u /\
         forall u' v', s = u' ++ v' -> lang r u' -> (String.length u' <= String.length u)%nat) \/
       (best = Some k /\ forall u v, s = u ++ v -> ~ lang r u))
  | None => best = None /\ forall u v, s = u ++ v -> ~ lang r u
  end.
Proof.
  revert r k0 best. induction s as [|c s IH]; intros r k0 best; cbn [longest_from].
  - destruct (nullable r) eqn:E.
    + left. exists "", "". apply nullable_iff in E. repeat split; [cbn; lia|easy|].
      intros [|d u'] v' H _; [cbn; lia|easy].
    + assert (Hno : forall u v, "" = u ++ v -> ~ lang r u).
      { intros [|d u] v H K; [|easy]. apply nullable_iff in K. congruence. }
      destruct best as [k|]; [right|]; now split.
  - assert (Hr : forall x, deriv c r = x ->
      match longest_from x s (S k0) (if nullable r then Some k0 else best) with
      | Some k =>
          ((exists u v, String c s = u ++ v /\ k = (k0 + String.length u)%nat /\ lang r u /\
             forall u' v', String c s = u' ++ v' -> lang r u' ->
               (String.length u' <= String.length u)%nat) \/
           (best = Some k /\ forall u v, String c s = u ++ v -> ~ lang r u))
      | None => best = None /\ forall u v, String c s = u ++ v -> ~ lang r u
      end).
    { intros x Hx. specialize (IH x (S k0) (if nullable r then Some k0 else best)).
      assert (Hstep : forall u v, String c s = String c u ++ v -> lang r (String c u) -> lang x u).
      { intros u v _ H. rewrite <- Hx. now apply deriv_iff. }
      assert (Hno : (forall u v, s = u ++ v -> ~ lang x u) -> nullable r = false ->
        forall u v, String c s = u ++ v -> ~ lang r u).
      { intros H E [|d u] v K L.
        - apply nullable_iff in L. congruence.
        - cbn in K. injection K as <- ->. apply (H u v); [easy|]. rewrite <- Hx. now apply deriv_iff. }
      destruct (longest_from x s (S k0) (if nullable r then Some k0 else best)) as [k|].
      - destruct IH as [(u & v & -> & -> & Hu & Hmax)|[Hb H]].
        + left. exists (String c u), v. split; [easy|]. split; [cbn; lia|].
          split; [apply deriv_iff; now rewrite Hx|].
          intros [|d u'] v' K L; [cbn; lia|]. cbn in K. injection K as <- K.
          cbn. apply le_n_S. apply (Hmax u' v'); [easy|]. rewrite <- Hx. now apply deriv_iff.
        + destruct (nullable r) eqn:E.
          * injection Hb as <-. left. exists "", (String c s). apply nullable_iff in E.
            split; [easy|split; [cbn; lia|split; [easy|]]].
            intros [|d u'] v' K L; [cbn; lia|]. cbn in K. injection K as <- K.
            exfalso. apply (H u' v' K). rewrite <- Hx. now apply deriv_iff.
          * right. split; [easy|]. now apply Hno.
      - destruct IH as [Hb H]. destruct (nullable r) eqn:E; [discriminate|].
        split; [easy|]. now apply Hno. }
    destruct (deriv c r) eqn:Hd; try (exact (Hr _ eq_refl)).
    assert (K : longest_from RNone s (S k0) (if nullable r then Some k0 else best) =
                (if nullable r then Some k0 else best)).
    { clear. destruct s as [|d s]; reflexivity. }
    specialize (Hr RNone eq_refl). now rewrite K in Hr.
Qed.

Lemma longest_some r s k : longest r s = Some k ->
  lang r (take k s) /\ (k <= String.length s)%nat /\
  forall u v, s = u ++ v -> lang r u -> (String.length u <= k)%nat.
Proof.
  intros H. pose proof (longest_from_spec r s 0 None) as K. unfold longest in H. rewrite H in K.
  destruct K as [(u & v & -> & -> & Hu & Hm)|[K _]]; [|discriminate].
  cbn [Nat.add]. rewrite take_app. split; [easy|]. split; [rewrite slength_app; lia|easy].
Qed.
Lemma longest_none r s : longest r s = None -> forall u v, s = u ++ v -> ~ lang r u.
Proof.
  intros H. pose proof (longest_from_spec r s 0 None) as K. unfold longest in H. rewrite H in K.
  apply K.
Qed.

(** * Selection of the rule *)

(** The best rule of rs for s: matched length and action. *)
Definition best_of {T} (rs : list (rule T)) (s : string) (o : option (nat * act T)) : Prop :=
  match o with
  | None => forall r a u v, In (r, a) rs -> s = u ++ v -> lang r u -> u = ""
  | Some (k, a) =>
      (1 <= k <= String.length s)%nat /\
      (exists pre r post, rs = (pre ++ (r, a) :: post)%list /\ lang r (take k s) /\
         forall r' a', In (r', a') pre -> ~ lang r' (take k s)) /\
      forall r' a' u' v', In (r', a') rs -> s = u' ++ v' -> lang r' u' ->
        (String.length u' <= k)%nat
  end.

Lemma select_spec {T} (rs pre : list (rule T)) s best :
  best_of pre s best -> best_of (pre ++ rs) s (select rs s best).
Proof.
  revert pre best. induction rs as [|[r a] rs IH]; intros pre best H; cbn [select].
  - now rewrite app_nil_r.
  - pose proof (app_assoc pre [(r, a)] rs) as Ea. cbn [app] in Ea. unfold rule in *.
    rewrite Ea. clear Ea. apply IH. destruct (longest r s) as [k|] eqn:E.
    + apply longest_some in E. destruct E as (Hk & Hle & Hm). destruct k as [|k].
      * (* only the empty prefix *)
        assert (Hr : forall u v, s = u ++ v -> lang r u -> u = "").
        { intros u v Hs Hu. specialize (Hm u v Hs Hu). destruct u; [easy|cbn in Hm; lia]. }
        destruct best as [[m b]|]; cbn [best_of] in *.
        -- destruct H as (H1 & (p & q & t & -> & Hq & Hp) & H3). split; [easy|]. split.
           ++ exists p, q, (t ++ [(r, a)])%list. rewrite <- app_assoc. now split.
           ++ intros r' a' u' v' Hin Hs Hu. apply in_app_or in Hin.
              destruct Hin as [Hin|[Hin|[]]]; [now apply (H3 r' a' u' v')|].
              injection Hin as <- <-. specialize (Hm _ _ Hs Hu). lia.
        -- intros r' a' u v Hin Hs Hu. apply in_app_or in Hin.
           destruct Hin as [Hin|[Hin|[]]]; [now apply (H r' a' u v)|].
           injection Hin as <- <-. now apply (Hr u v).
      * assert (Hnew : (forall r' a' u' v', In (r', a') pre -> s = u' ++ v' -> lang r' u' ->
                          (String.length u' <= k)%nat) ->
          best_of (pre ++ [(r, a)]) s (Some (S k, a))).
        { intros Hpre. cbn [best_of]. split; [lia|]. split.
          - exists pre, r, []. split; [easy|]. split; [easy|].
            intros r' a' Hin Hl. specialize (Hpre r' a' (take (S k) s) (drop (S k) s) Hin).
            rewrite take_drop in Hpre. specialize (Hpre eq_refl Hl).
            rewrite length_take in Hpre; lia.
          - intros r' a' u' v' Hin Hs Hu. apply in_app_or in Hin.
            destruct Hin as [Hin|[Hin|[]]].
            + specialize (Hpre r' a' u' v' Hin Hs Hu). lia.
            + injection Hin as <- <-. now apply (Hm u' v'). }
        destruct best as [[m b]|].
        -- destruct (Nat.ltb_spec m (S k)) as [Hlt|Hge].
           ++ apply Hnew. intros r' a' u' v' Hin Hs Hu.
              destruct H as (_ & _ & H3). specialize (H3 r' a' u' v' Hin Hs Hu). lia.
           ++ cbn [best_of] in *. destruct H as (H1 & (p & q & t & -> & Hq & Hp) & H3).
              split; [easy|]. split.
              ** exists p, q, (t ++ [(r, a)])%list. rewrite <- app_assoc. now split.
              ** intros r' a' u' v' Hin Hs Hu. apply in_app_or in Hin.
                 destruct Hin as [Hin|[Hin|[]]]; [now apply (H3 r' a' u' v')|].
                 injection Hin as <- <-. specialize (Hm u' v' Hs Hu). lia.
        -- apply Hnew. intros r' a' u' v' Hin Hs Hu. cbn [best_of] in H.
           rewrite (H r' a' u' v' Hin Hs Hu). cbn. lia.
    + pose proof (longest_none _ _ E) as Hno. destruct best as [[m b]|]; cbn [best_of] in *.
      * destruct H as (H1 & (p & q & t & -> & Hq & Hp) & H3). split; [easy|]. split.
        -- exists p, q, (t ++ [(r, a)])%list. rewrite <- app_assoc. now split.
        -- intros r' a' u' v' Hin Hs Hu. apply in_app_or in Hin.
           destruct Hin as [Hin|[Hin|[]]]; [now apply (H3 r' a' u' v')|].
           injection Hin as <- <-. exfalso. eapply Hno; eauto.
      * intros r' a' u v Hin Hs Hu. apply in_app_or in Hin.
        destruct Hin as [Hin|[Hin|[]]]; [now apply (H r' a' u v)|].
        injection Hin as <- <-. exfalso. eapply Hno; eauto.
Qed.

Lemma select_best {T} (rs : list (rule T)) s : best_of rs s (select rs s None).
Proof. apply (select_spec rs [] s None). intros r a u v []. Qed.

Lemma select_chosen {T} (rs : list (rule T)) s k a : select rs s None = Some (k, a) ->
  chosen rs (take k s) (drop k s) a /\ (1 <= k <= String.length s)%nat.
Proof.
  intros H. pose proof (select_best rs s) as K. rewrite H in K. cbn in K.
  destruct K as (H1 & H2 & H3). split; [|easy]. unfold chosen. split.
  - intros E. apply (f_equal String.length) in E. rewrite length_take in E; cbn in E; lia.
  - split; [easy|]. rewrite take_drop. intros r' a' u' v' Hin Hs Hu.
    rewrite length_take by lia. now apply (H3 r' a' u' v').
Qed.

Lemma app_split {A} (p q p' q' : list A) x x' :
  (p ++ x :: q)%list = (p' ++ x' :: q')%list ->
  (p = p' /\ x = x' /\ q = q') \/ In x p' \/ In x' p.
Proof.
  revert p'. induction p as [|a p IH]; intros [|b p'] H; cbn in *.
  - injection H as -> ->. auto.
  - injection H as -> H. auto.
  - injection H as -> H. auto.
  - injection H as -> H. destruct (IH p' H) as [(-> & -> & ->)|[K|K]]; auto.
Qed.

(** The chosen prefix and action are determined by the text. *)
Lemma chosen_fun {T} (rs : list (rule T)) u v a u' v' a' :
  chosen rs u v a -> chosen rs u' v' a' -> u ++ v = u' ++ v' -> u = u' /\ v = v' /\ a = a'.
Proof.
  intros (H1 & (p & r & q & E & Hr & Hp) & H3) (K1 & (p' & r' & q' & E' & Kr & Kp) & K3) Heq.
  assert (Hl : String.length u = String.length u').
  { apply Nat.le_antisymm.
    - apply (K3 r a u v); [rewrite E; apply in_elt|easy|easy].
    - apply (H3 r' a' u' v'); [rewrite E'; apply in_elt|easy|easy]. }
  assert (Hu : u = u').
  { rewrite <- (take_app u v), <- (take_app u' v'). now rewrite Heq, Hl. }
  subst u'. assert (v = v').
  { rewrite <- (drop_app u v), <- (drop_app u v'). now rewrite Heq. }
  subst v'. repeat split. rewrite E in E'. apply app_split in E'.
  destruct E' as [(_ & K & _)|[K|K]].
  - now injection K.
  - exfalso. exact (Kp r a K Hr).
  - exfalso. exact (Hp r' a' K Kr).
Qed.

Lemma chosen_select {T} (rs : list (rule T)) u v a : chosen rs u v a ->
  select rs (u ++ v) None = Some (String.length u, a).
Proof.
  intros H. destruct (select rs (u ++ v) None) as [[k b]|] eqn:E.
  - apply select_chosen in E. destruct E as [K Hk].
    destruct (chosen_fun _ _ _ _ _ _ _ H K) as (Hu & _ & ->); [now rewrite take_drop|].
    rewrite Hu, length_take by lia. reflexivity.
  - exfalso. pose proof (select_best rs (u ++ v)) as K. rewrite E in K. cbn in K.
    destruct H as (H1 & (p & r & q & -> & Hr & _) & _). apply H1.
    apply (K r a u v); [apply in_elt|easy|easy].
Qed.

(** * The scanner *)

(** Every text has a selected rule. *)
Definition covers {T} (rs : list (rule T)) : Prop :=
  forall c s, exists k a, select rs (String c s) None = Some (k, a).

Lemma scan_fuel_flex {T} (rs : list (rule T)) n s : covers rs -> (String.length s <= n)%nat ->
  flex rs s (scan_fuel rs n s).
Proof.
  intros Hc. revert s. induction n as [|n IH]; intros s Hn.
  - destruct s; [constructor|cbn in Hn; lia].
  - destruct s as [|c s']; [constructor|]. cbn [scan_fuel]. remember (String c s') as s eqn:Hs.
    destruct (Hc c s') as (k & a & E). rewrite <- Hs in E. rewrite E.
    apply select_chosen in E. destruct E as [E Hk].
    assert (Hd : (String.length (drop k s) <= n)%nat) by (rewrite length_drop; lia).
    specialize (IH _ Hd). rewrite <- (take_drop k s) at 1. destruct a as [|f|].
    + now apply fx_skip.
    + now apply fx_tok.
    + now apply fx_stop.
Qed.

Lemma flex_fun {T} (rs : list (rule T)) s ts : flex rs s ts -> forall ts', flex rs s ts' -> ts = ts'.
Proof.
  assert (Hne : forall u v w (a : act T), chosen rs u v a -> u ++ v = "" -> w).
  { intros u v w a (H & _) E. destruct u; [exfalso; now apply H|discriminate]. }
  intros H. induction H as [|u v ts Hc H IH|u v f ts Hc H IH|u v Hc]; intros ts' H'.
  - inversion H' as [|u v ts'' K _ E|u v f ts'' K _ E|u v K E]; subst; [easy| | |];
      exact (Hne _ _ _ _ K E).
  - remember (u ++ v) as s eqn:Hs.
    destruct H' as [|u' v' ts' K H'|u' v' f' ts' K H'|u' v' K].
    + exact (Hne _ _ _ _ Hc (eq_sym Hs)).
    + destruct (chosen_fun _ _ _ _ _ _ _ K Hc Hs) as (-> & -> & E). now apply IH.
    + destruct (chosen_fun _ _ _ _ _ _ _ K Hc Hs) as (-> & -> & E). discriminate.
    + destruct (chosen_fun _ _ _ _ _ _ _ K Hc Hs) as (-> & -> & E). discriminate.
  - remember (u ++ v) as s eqn:Hs.
    destruct H' as [|u' v' ts' K H'|u' v' f' ts' K H'|u' v' K].
    + exact (Hne _ _ _ _ Hc (eq_sym Hs)).
    + destruct (chosen_fun _ _ _ _ _ _ _ K Hc Hs) as (-> & -> & E). discriminate.
    + destruct (chosen_fun _ _ _ _ _ _ _ K Hc Hs) as (-> & -> & E). injection E as ->.
      f_equal. now apply IH.
    + destruct (chosen_fun _ _ _ _ _ _ _ K Hc Hs) as (-> & -> & E). discriminate.
  - remember (u ++ v) as s eqn:Hs.
    destruct H' as [|u' v' ts' K H'|u' v' f' ts' K H'|u' v' K].
    + exact (Hne _ _ _ _ Hc (eq_sym Hs)).
    + destruct (chosen_fun _ _ _ _ _ _ _ K Hc Hs) as (-> & -> & E). discriminate.
    + destruct (chosen_fun _ _ _ _ _ _ _ K Hc Hs) as (-> & -> & E). discriminate.
    + reflexivity.
Qed.

Lemma scan_iff {T} (rs : list (rule T)) s ts : covers rs -> (scan rs s = ts <-> flex rs s ts).
Proof.
  intros Hc. split.
  - intros <-. now apply scan_fuel_flex.
  - intros H. apply (flex_fun rs s); [|easy]. now apply scan_fuel_flex.
Qed.

(** Blanks and all other characters have a rule in both scanners. *)
Lemma covers_dot {T} (rs : list (rule T)) a b :
  In (RCls is_space, a) rs -> In (RCls is_dot, b) rs -> covers rs.
Proof.
  intros Hs Hd c s. destruct (select rs (String c s) None) as [[k x]|] eqn:E; [eauto|].
  exfalso. pose proof (select_best rs (String c s)) as K. rewrite E in K. cbn in K.
  destruct (is_dot c) eqn:Ec.
  - specialize (K _ _ (String c "") s Hd eq_refl). discriminate K. now constructor.
  - specialize (K _ _ (String c "") s Hs eq_refl). discriminate K. constructor.
    unfold is_dot in Ec. apply negb_false_iff in Ec. unfold is_space. rewrite Ec.
    now rewrite !orb_true_r.
Qed.

Lemma expr_covers : covers expr_rules.
Proof.
  eapply covers_dot; [left; reflexivity|]. unfold expr_rules. do 38 right. left. reflexivity.
Qed.
Lemma event_covers : covers event_rules.
Proof.
  eapply covers_dot; [left; reflexivity|]. unfold event_rules. do 15 right. left. reflexivity.
Qed.

Lemma lex_iff s ts : lex s = ts <-> flex expr_rules s ts.
Proof. apply scan_iff, expr_covers. Qed.
Lemma elex_iff s ts : elex s = ts <-> flex event_rules s ts.
Proof. apply scan_iff, event_covers. Qed.

(** Reading one token, blank or the end. *)
Lemma lex_tok u v f : chosen expr_rules u v (ATok f) -> lex (u ++ v) = f u :: lex v.
Proof. intros H. apply lex_iff. apply fx_tok; [easy|]. now apply lex_iff. Qed.
Lemma lex_skip u v : chosen expr_rules u v ASkip -> lex (u ++ v) = lex v.
Proof. intros H. apply lex_iff. apply fx_skip; [easy|]. now apply lex_iff. Qed.
Lemma elex_tok u v f : chosen event_rules u v (ATok f) -> elex (u ++ v) = f u :: elex v.
Proof. intros H. apply elex_iff. apply fx_tok; [easy|]. now apply elex_iff. Qed.
Lemma elex_skip u v : chosen event_rules u v ASkip -> elex (u ++ v) = elex v.
Proof. intros H. apply elex_iff. apply fx_skip; [easy|]. now apply elex_iff. Qed.

(** * Languages of the rules *)

Lemma lang_lit s u : lang (rlit s) u <-> u = s.
Proof.
  revert u. induction s as [|c s IH]; intros u; cbn [rlit]; [apply lang_eps|].
  rewrite lang_cat. split.
  - intros (x & y & -> & Hx & Hy). apply lang_cls in Hx. destruct Hx as (d & -> & Hd).
    apply IH in Hy. apply Ascii.eqb_eq in Hd. now subst.
  - intros ->. exists (String c ""), s. split; [easy|]. split; [|now apply IH].
    constructor. apply Ascii.eqb_refl.
Qed.

Lemma lang_star_cls p u : lang (RStar (RCls p)) u <-> all_chars p u = true.
Proof.
  split.
  - intros H. remember (RStar (RCls p)) as r eqn:Hr. revert Hr.
    induction H as [|q c Hp|x y u v|x y u|x y u|x|x u v Hu _ Hv IHv]; intros Hr; try discriminate.
    + easy.
    + injection Hr as ->. apply lang_cls in Hu. destruct Hu as (c & -> & Hc). cbn.
      rewrite Hc. now apply IHv.
  - induction u as [|c u IH]; intros H; [constructor|]. cbn in H. apply andb_true_iff in H.
    change (String c u) with (String c "" ++ u). constructor; [now constructor|now apply IH].
Qed.

Lemma lang_plus_cls p u : lang (rplus (RCls p)) u <-> u <> "" /\ all_chars p u = true.
Proof.
  unfold rplus. rewrite lang_cat. split.
  - intros (x & y & -> & Hx & Hy). apply lang_cls in Hx. destruct Hx as (c & -> & Hc).
    apply lang_star_cls in Hy. cbn. now rewrite Hc, Hy.
  - intros [Hn H]. destruct u as [|c u]; [easy|]. cbn in H. apply andb_true_iff in H.
    exists (String c ""), u. split; [easy|]. split; [now constructor|now apply lang_star_cls].
Qed.

Lemma lang_ident u : lang rident u <->
  match u with "" => False | String c x => is_id_start c = true /\ all_chars is_id_char x = true end.
Proof.
  unfold rident. rewrite lang_cat. split.
  - intros (x & y & -> & Hx & Hy). apply lang_cls in Hx. destruct Hx as (c & -> & Hc).
    apply lang_star_cls in Hy. cbn. easy.
  - destruct u as [|c u]; [easy|]. intros [H K]. exists (String c ""), u. split; [easy|].
    split; [now constructor|now apply lang_star_cls].
Qed.

Lemma lang_flt u : lang rflt u <->
  exists d e, u = d ++ String "." e /\ d <> "" /\ all_chars is_digit d = true /\
    all_chars is_digit e = true.
Proof.
  unfold rflt. rewrite lang_cat. split.
  - intros (d & y & -> & Hx & Hy). apply lang_plus_cls in Hx. apply lang_cat in Hy.
    destruct Hy as (p & e & -> & Hp & He). apply lang_cls in Hp. destruct Hp as (c & -> & Hc).
    apply Ascii.eqb_eq in Hc. subst c. apply lang_star_cls in He. now exists d, e.
  - intros (d & e & -> & H1 & H2 & H3). exists d, (String "." e). split; [easy|].
    split; [now apply lang_plus_cls|]. apply lang_cat. exists ".", e. split; [easy|].
    split; [now constructor|now apply lang_star_cls].
Qed.

(** Induction on quotable texts: one character or an escape at a time. *)
Lemma quotable_ind q (P : string -> Prop) :
  P "" ->
  (forall c s, Ascii.eqb c c_bs = false -> Ascii.eqb c q = false -> quotable q s = true ->
     P s -> P (String c s)) ->
  (forall d s, Ascii.eqb d c_nl = false -> quotable q s = true -> P s ->
     P (String c_bs (String d s))) ->
  forall s, quotable q s = true -> P s.
Proof.
  intros H0 H1 H2 s. remember (String.length s) as n eqn:Hn.
  assert (K : (String.length s <= n)%nat) by lia. clear Hn. revert s K.
  induction n as [|n IH]; intros s K H.
  - destruct s; [easy|cbn in K; lia].
  - destruct s as [|c s]; [easy|]. cbn [quotable] in H. cbn in K.
    destruct (Ascii.eqb c c_bs) eqn:E.
    + apply Ascii.eqb_eq in E. subst c. destruct s as [|d s]; [discriminate|].
      apply andb_true_iff in H. destruct H as [H H']. apply negb_true_iff in H. cbn in K.
      apply H2; [easy|easy|]. apply IH; [lia|easy].
    + apply andb_true_iff in H. destruct H as [H H']. apply negb_true_iff in H.
      apply H1; [easy|easy|easy|]. apply IH; [lia|easy].
Qed.

(** What may stand between the quotes. *)
Definition rbody (q : ascii) : re :=
  RStar (RAlt (RCat (RCls (Ascii.eqb c_bs)) (RCls is_dot))
              (RCls (fun c => negb (Ascii.eqb c q) && negb (Ascii.eqb c c_bs)))).

Lemma lang_body q s : lang (rbody q) s <-> quotable q s = true.
Proof.
  split.
  - intros H. unfold rbody in H. match type of H with lang (RStar ?x) _ => set (a := x) in H end.
    remember (RStar a) as r eqn:Hr. revert Hr.
    induction H as [|p c Hp|x y u v|x y u|x y u|x|x u v Hu _ Hv IHv]; intros Hr; try discriminate.
    + easy.
    + injection Hr as ->. specialize (IHv eq_refl). unfold a in Hu. apply lang_alt in Hu.
      destruct Hu as [Hu|Hu].
      * apply lang_cat in Hu. destruct Hu as (y & z & -> & Hy & Hz).
        apply lang_cls in Hy, Hz. destruct Hy as (c & -> & Hc), Hz as (d & -> & Hd).
        apply Ascii.eqb_eq in Hc. subst c. cbn [append quotable].
        rewrite Ascii.eqb_refl. unfold is_dot in Hd. now rewrite Hd, IHv.
      * apply lang_cls in Hu. destruct Hu as (c & -> & Hc). apply andb_true_iff in Hc.
        destruct Hc as [Hc Hc']. apply negb_true_iff in Hc'. cbn [append quotable].
        now rewrite Hc', Hc, IHv.
  - intros H. apply (quotable_ind q (fun s => lang (rbody q) s)); [constructor| | |exact H].
    + intros c u Hb Hq _ IH. change (String c u) with (String c "" ++ u). unfold rbody.
      apply l_star_more; [|exact IH]. apply l_alt_r. constructor. now rewrite Hb, Hq.
    + intros d u Hd _ IH. change (String c_bs (String d u)) with ((String c_bs "" ++ String d "") ++ u).
      unfold rbody. apply l_star_more; [|exact IH]. apply l_alt_l.
      constructor; constructor; [apply Ascii.eqb_refl|]. unfold is_dot. now rewrite Hd.
Qed.

Lemma lang_quoted q u : lang (rquoted q) u <->
  exists s, u = String q (s ++ String q "") /\ quotable q s = true.
Proof.
  unfold rquoted. fold (rbody q). rewrite lang_cat. split.
  - intros (x & y & -> & Hx & Hy). apply lang_cls in Hx. destruct Hx as (c & -> & Hc).
    apply Ascii.eqb_eq in Hc. subst c. apply lang_cat in Hy.
    destruct Hy as (s & z & -> & Hs & Hz). apply lang_cls in Hz. destruct Hz as (c & -> & Hc).
    apply Ascii.eqb_eq in Hc. subst c. exists s. split; [easy|now apply lang_body].
  - intros (s & -> & H). exists (String q ""), (s ++ String q ""). split; [easy|].
    split; [constructor; apply Ascii.eqb_refl|]. apply lang_cat. exists s, (String q "").
    split; [easy|]. split; [now apply lang_body|constructor; apply Ascii.eqb_refl].
Qed.

(** The closing quote is determined by the text. *)
Lemma quoted_prefix q s v : Ascii.eqb q c_bs = false -> quotable q s = true ->
  forall s' v', quotable q s' = true -> s ++ String q v = s' ++ String q v' -> s = s' /\ v = v'.
Proof.
  intros Hq H. apply (quotable_ind q (fun s => forall s' v', quotable q s' = true ->
    s ++ String q v = s' ++ String q v' -> s = s' /\ v = v')); [| | |exact H].
  - intros [|c s'] v' H' E; [now injection E|]. cbn in E. injection E as <- E.
    cbn [quotable] in H'. rewrite Hq, Ascii.eqb_refl in H'. discriminate.
  - intros c t Hb Hc Ht IH [|d s'] v' H' E.
    + cbn in E. injection E as -> _. now rewrite Ascii.eqb_refl in Hc.
    + cbn in E. injection E as <- E. cbn [quotable] in H'. rewrite Hb in H'.
      apply andb_true_iff in H'. destruct H' as [_ H']. destruct (IH _ _ H' E) as [-> ->]. easy.
  - intros d t Hd Ht IH [|c s'] v' H' E.
    + cbn in E. injection E as E _. subst q. now rewrite Ascii.eqb_refl in Hq.
    + cbn in E. injection E as <- E. cbn [quotable] in H'. rewrite Ascii.eqb_refl in H'.
      destruct s' as [|e s']; [discriminate|]. apply andb_true_iff in H'. destruct H' as [_ H'].
      cbn in E. injection E as <- E. destruct (IH _ _ H' E) as [-> ->]. easy.
Qed.
