(** Reading the tokens one by one makes no difference. *)
From Coq Require Import ZArith NArith Ascii String Bool List Lia Permutation ZifyBool ZifyNat.
From Verif Require Import Base Float Value Ast Lexer LexSpec Flex FlexTables FlexProofs Bison BisonTables.
From Verif Require Import Ledger HeapExpr HeapEvent HeapSpec LedgerProofs FlexBuffer FlexBufferProofs BisonStack BisonStackProofs BisonLive HeapStack.
Import ListNotations.
Local Open Scope Z_scope.
Local Open Scope list_scope.

(** ** A block that was released does not come back *)
Definition wise {A} (c : cmd A) : Prop := forall m x m', c m = Ok (x, m') ->
  l_next m <= l_next m' /\ forall a, a < l_next m -> In a (l_live m') -> In a (l_live m).
Lemma wise_ret {A} (a : A) : wise (ret a).
Proof. intros m x m' E. injection E as <- <-. split; [lia|auto]. Qed.
Lemma wise_fail {A} (r : result A) : wise (fail r).
Proof. intros m x m' E. apply fail_inv in E. destruct E as (_ & ->). split; [lia|auto]. Qed.
Lemma wise_then {A B} (c : cmd A) (f : A -> cmd B) : wise c -> (forall a, wise (f a)) -> wise (then_ c f).
Proof.
  intros W F m x m' E. apply then_inv in E. destruct E as (a & m1 & E1 & E2). destruct (W m a m1 E1) as (N1 & L1).
  destruct (F a m1 x m' E2) as (N2 & L2). split; [lia|]. intros b B1 I. apply L1; [exact B1|]. apply L2; [lia|exact I].
Qed.
Lemma wise_malloc : wise malloc.
Proof. intros m x m' E. injection E as <- <-. cbn. split; [lia|]. intros a L [<-|I]; [lia|exact I]. Qed.
Lemma wise_use a : wise (use a).
Proof. intros m x m' E. unfold use in E. destruct (is_live m a); [|discriminate E]. injection E as <- <-. split; [lia|auto]. Qed.
Lemma drop_one_in a b l : In a (drop_one b l) -> In a l.
Proof. induction l as [|x t IH]; cbn; [auto|]. destruct (b =? x); cbn; [auto|]. intros [->|I]; auto. Qed.
Lemma wise_free a : wise (free a).
Proof.
  intros m x m' E. unfold free in E. destruct (a =? 0); [injection E as <- <-; split; [lia|auto]|].
  destruct (is_live m a); [|discriminate E]. injection E as <- <-. cbn. split; [lia|]. intros b _ I. now apply drop_one_in in I.
Qed.
Lemma wise_realloc a : wise (realloc a).
Proof. unfold realloc. repeat (apply wise_then; [|intros]); auto using wise_use, wise_malloc, wise_free, wise_ret. Qed.

Ltac wise1 :=
  match goal with
  | |- wise (ret _) => apply wise_ret
  | |- wise (fail _) => apply wise_fail
  | |- wise malloc => apply wise_malloc
  | |- wise (use _) => apply wise_use
  | |- wise (free _) => apply wise_free
  | |- wise (realloc _) => apply wise_realloc
  | |- wise (then_ _ _) => apply wise_then; [|intros]
  | |- wise (match ?x with _ => _ end) => destruct x
  | |- wise (if ?x then _ else _) => destruct x
  end.
Ltac wises := repeat wise1.

Lemma wise_h_score e : wise (h_score e).
Proof. induction e; cbn [h_score]; wises; assumption. Qed.
Ltac wise_tac := repeat (wise1 || apply wise_h_score).
Lemma wise_xp_scan t : wise (xp_scan t).
Proof. unfold xp_scan. wises. Qed.
Lemma wise_hx_act0 k vs : wise (hx_act0 k vs).
Proof.
  unfold hx_act0, string_and_free, named_and_free, h_named, h_string, h_geo, h_seg, h_freq, h_unary, h_binary, h_leaf, h_add_int, h_add_str, h_make_ints, h_make_strs,
    h_make_attr_var, h_make_attr_lit, bstrdup, bstrdup_lit, a_string, a_int, a_flt, a_ints, a_strs, a_str, a_cmp, a_eq, a_var, a_left, a_right, a_list, a_node, h_arg.
  wise_tac.
Qed.
Lemma wise_hx_act k vs : wise (hx_act k vs).
Proof. unfold hx_act. apply wise_then; [apply wise_hx_act0|]. intros. wises. Qed.
Lemma wise_ep_scan t : wise (ep_scan t).
Proof. unfold ep_scan. wises. Qed.
Lemma wise_he_act k vs : wise (he_act k vs).
Proof.
  unfold he_act, he_act0, h_make_cap, h_make_segment, h_make_pred, h_add_variable, h_make_event, h_add_seg, h_add_cap, h_make_segs, h_make_caps,
    h_add_int, h_add_str, h_make_ints, h_make_strs, bstrdup, g_bool, g_int, g_flt, g_string, g_str, g_ints, g_strs, g_seg, g_segs, g_cap, g_caps, g_value, g_variable, g_event, g_arg.
  apply wise_then; [wise_tac|]. intros. wise_tac.
Qed.

Ltac ok := erewrite then_ok; [|first [apply fail_ok; eassumption|eassumption]]; cbn beta iota.
Ltac step1 E := apply then_inv in E; destruct E as (? & ? & ? & E);
  repeat match goal with H : fail _ _ = Ok _ |- _ => apply fail_inv in H; destruct H as (? & ->) end.

(** ** The tokens one by one *)
Section Sim.
Context {K V R : Type}.
Variables (P : ptables) (code : K -> Z) (scan : K -> cmd V) (garbage : V).
Variables (T : tables) (acts : list (act K)) (c : scanner).
Variable act : Z -> list V -> cmd (V * option R).
Variable z : sizes.
Hypothesis Wscan : forall t, wise (scan t).
Hypothesis Wact : forall n vs, wise (act n vs).
Hypothesis Hend : forall q q', move_of P q (Ok 0) = Ok (Shift q') -> q' = p_final P.

Definition kept (m : ledger) : Prop :=
  is_live m (sc_guts c) = true /\ is_live m (sc_stack c) = true /\ is_live m (sc_current c) = true /\ is_live m (sc_chars c) = true.
Definition older (m : ledger) : Prop :=
  sc_guts c < l_next m /\ sc_stack c < l_next m /\ sc_current c < l_next m /\ sc_chars c < l_next m.
Lemma live_in m a : is_live m a = true <-> In a (l_live m).
Proof.
  unfold is_live. rewrite existsb_exists. split; [intros (x & I & E); apply Z.eqb_eq in E; now subst|]. intros I. exists a. split; [exact I|apply Z.eqb_refl].
Qed.
Lemma kept_back {A} (d : cmd A) m x m' : wise d -> d m = Ok (x, m') -> older m -> kept m' -> kept m.
Proof.
  intros W E (O1 & O2 & O3 & O4) (K1 & K2 & K3 & K4). destruct (W m x m' E) as (_ & L).
  rewrite live_in in K1, K2, K3, K4. unfold kept. rewrite !live_in. auto.
Qed.
Lemma older_on {A} (d : cmd A) m x m' : wise d -> d m = Ok (x, m') -> older m -> older m'.
Proof. intros W E (O1 & O2 & O3 & O4). destruct (W m x m' E) as (N & _). unfold older. lia. Qed.

Lemma wise_fetch q la ts : wise (fetch P scan q la ts).
Proof. unfold fetch. repeat (wise1 || apply Wscan). Qed.
Lemma wise_s_reduce n k r : wise (s_reduce P act n k r).
Proof. unfold s_reduce. repeat (wise1 || apply Wact). Qed.
Lemma wise_s_step q k la ts r : wise (s_step P code scan garbage act z q k la ts r).
Proof. unfold s_step. repeat (wise1 || apply wise_fetch || apply wise_s_reduce). Qed.
Lemma wise_s_run n : forall q k la ts r, wise (s_run P code scan garbage act z n q k la ts r).
Proof.
  induction n as [|n IH]; intros; cbn [s_run]; [apply wise_fail|]. apply wise_then; [apply wise_s_step|]. intros [e|((((q' & k') & la') & ts') & r')]; [apply wise_ret|apply IH].
Qed.

(** The scanner would go on with these tokens. *)
Definition yields (g : yyguts) (ts : list K) : Prop := exists n g', buf_all T acts n g = Ok (ts, g').
(** yychar and the scanner against the tokens that were not shifted.  After the end was shifted nothing is read. *)
Definition ahead (q : Z) (la : option V) (ts : list K) (lk : look) (g : yyguts) : Prop :=
  match lk with
  | Empty => la = None /\ (q = p_final P /\ ts = [] \/ yields g ts)
  | End => la = None /\ ts = []
  | Next t v => la = Some v /\ exists ts', ts = t :: ts' /\ yields g ts'
  end.
Lemma yields_lex g ts : yields g ts ->
  exists o g', buf_lex T acts g = Ok (o, g') /\ match o with None => ts = [] | Some t => exists ts', ts = t :: ts' /\ yields g' ts' end.
Proof.
  intros (n & g' & E). destruct n as [|n]; [discriminate E|]. cbn [buf_all] in E. destruct (buf_lex T acts g) as [(o & g1)| | |]; cbn [bind] in E; try discriminate E.
  exists o, g1. split; [reflexivity|]. destruct o as [t|]; [|now injection E as <- <-].
  destruct (buf_all T acts n g1) as [(ts' & g2)| | |] eqn:E2; cbn [bind] in E; try discriminate E. injection E as <- <-. exists ts'. split; [reflexivity|]. now exists n, g2.
Qed.
Lemma use_live m a : is_live m a = true -> use a m = Ok (tt, m).
Proof. intros L. unfold use. now rewrite L. Qed.
Lemma live_lex_ok m g o g' : kept m -> buf_lex T acts g = Ok (o, g') -> live_lex T acts c g m = Ok ((o, g'), m).
Proof.
  intros (L1 & L2 & L3 & L4) E. unfold live_lex. do 4 (erewrite then_ok; [|apply use_live; assumption]). now apply fail_ok.
Qed.
(** Reading a token. *)
Lemma fetch_sim q la ts lk g m la' m' : q <> p_final P -> ahead q la ts lk g -> kept m -> fetch P scan q la ts m = Ok (la', m') ->
  exists lk' g', live_fetch P scan T acts c q lk g m = Ok ((lk', g'), m') /\ ahead q la' ts lk' g' /\
    (forall p, at_ (p_pact P) q = Ok p -> (p =? p_ninf P) = false -> lk' <> Empty).
Proof.
  intros Nf A Kp E. unfold fetch in E. apply then_inv in E. destruct E as (p & m1 & E1 & E). apply fail_inv in E1. destruct E1 as (Ep & ->).
  unfold live_fetch. erewrite then_ok; [|apply fail_ok; exact Ep]. destruct (p =? p_ninf P) eqn:Ed.
  { injection E as <- <-. exists lk, g. split; [reflexivity|]. split; [exact A|]. intros p' Ep'. rewrite Ep in Ep'. injection Ep' as <-. congruence. }
  destruct lk as [| |t v]; cbn [ahead] in A.
  - destruct A as (-> & [(X & _)|Y]); [contradiction|]. destruct (yields_lex g ts Y) as (o & g' & El & X).
    erewrite then_ok; [|exact (live_lex_ok m g o g' Kp El)]. cbn beta iota.
    destruct o as [t|].
    + destruct X as (ts' & -> & Y'). cbn [hd] in E. apply then_inv in E. destruct E as (v & m1 & Ev & E). injection E as <- <-.
      exists (Next t v), g'. erewrite then_ok; [|exact Ev]. split; [reflexivity|]. split; [|discriminate]. split; [reflexivity|]. now exists ts'.
    + subst ts. injection E as <- <-. exists End, g'. split; [reflexivity|]. split; [now split|discriminate].
  - destruct A as (-> & ->). injection E as <- <-. exists End, g. split; [reflexivity|]. split; [now split|discriminate].
  - destruct A as (-> & ts' & -> & Y). injection E as <- <-. exists (Next t v), g. split; [reflexivity|]. split; [|discriminate]. split; [reflexivity|]. now exists ts'.
Qed.
Lemma move_same q lk la ts g mv : ahead q la ts lk g -> (forall p, at_ (p_pact P) q = Ok p -> (p =? p_ninf P) = false -> lk <> Empty) ->
  move_of P q (lookahead P code ts) = Ok mv -> move_of P q (symbol P code lk) = Ok mv.
Proof.
  intros A Ne E. destruct lk as [| |t v].
  - unfold move_of in *. destruct (at_ (p_pact P) q) as [p| | |]; cbn [bind] in *; try discriminate E.
    destruct (p =? p_ninf P) eqn:Ed; [exact E|]. exfalso. now apply (Ne p).
  - destruct A as (_ & ->). exact E.
  - destruct A as (_ & ts' & -> & _). exact E.
Qed.

Lemma step_live q k la ts r m x m1 lk g : ahead q la ts lk g -> older m -> kept m1 ->
  s_step P code scan garbage act z q k la ts r m = Ok (x, m1) ->
  exists y, live_step P code scan garbage T acts c act z q k lk g r m = Ok (y, m1) /\
    match x, y with
    | inl e, inl f => le_out f = en_out e /\ le_root f = en_root e /\ le_mem f = en_mem e /\ ahead q (en_la e) (en_rest e) (le_la f) (le_guts f)
    | inr (q1, k1, la1, ts1, r1), inr (q2, k2, lk2, g2, r2) => q2 = q1 /\ k2 = k1 /\ r2 = r1 /\ ahead q1 la1 ts1 lk2 g2
    | _, _ => False
    end.
Proof.
  intros A Ol Kp E. unfold s_step in E. unfold live_step. step1 E. ok. step1 E. ok. destruct x1 as [k1|k1|k1].
  - destruct (q =? p_final P) eqn:Ef.
    + step1 E. ok. injection E as <- <-. eexists. split; [reflexivity|]. cbn. repeat split. exact A.
    + apply then_inv in E. destruct E as (la1 & m2 & Efe & E).
      assert (Kp0 : kept m).
      { eapply kept_back; [|exact Efe|exact Ol|]; [apply wise_fetch|].
        eapply kept_back; [|exact E| |exact Kp]; [repeat (wise1 || apply wise_s_reduce)|]. eapply older_on; [apply wise_fetch|exact Efe|exact Ol]. }
      destruct (fetch_sim q la ts lk g m la1 m2 ltac:(lia) A Kp0 Efe) as (lk1 & g1 & Elf & A1 & Ne). ok.
      apply then_inv in E. destruct E as (mv & m0 & X & E). apply fail_inv in X. destruct X as (Em & ->).
      pose proof (move_same q lk1 la1 ts g1 mv A1 Ne Em) as Em'. ok.
      destruct mv as [q'|rn|].
      * destruct lk1 as [| |t v]; cbn [ahead] in A1.
        -- exfalso. unfold move_of, yydefault in Em'. cbn [symbol] in Em'. destruct (at_ (p_pact P) q) as [p| | |] eqn:Ep; cbn [bind] in Em'; try discriminate Em'.
           destruct (p =? p_ninf P) eqn:Ed; [|now apply (Ne p)]. destruct (at_ (p_defact P) q) as [d| | |]; cbn [bind] in Em'; try discriminate Em'. destruct (d =? 0); discriminate Em'.
        -- destruct A1 as (-> & ->). step1 E. ok. injection E as <- <-. eexists. split; [reflexivity|]. cbn [ahead]. repeat split. left. split; [|reflexivity]. exact (Hend q q' Em').
        -- destruct A1 as (-> & ts' & -> & Y). step1 E. ok. injection E as <- <-. eexists. split; [reflexivity|]. cbn [ahead]. repeat split. now right.
      * apply then_inv in E. destruct E as (((k2 & q2) & r2) & m3 & Er & E). ok. injection E as <- <-. eexists. split; [reflexivity|]. cbn. repeat split.
        destruct lk1 as [| |t v]; cbn [ahead] in *; [|exact A1|exact A1]. destruct A1 as (-> & [(X & _)|Y]); [lia|]. split; [reflexivity|now right].
      * step1 E. ok. step1 E. ok. injection E as <- <-. eexists. split; [reflexivity|]. cbn. repeat split. exact A1.
  - step1 E. ok. injection E as <- <-. eexists. split; [reflexivity|]. cbn. repeat split. exact A.
  - step1 E. ok. injection E as <- <-. eexists. split; [reflexivity|]. cbn. repeat split. exact A.
Qed.
Lemma run_live : forall n n' q k la ts r m e m' lk g, (n <= n')%nat -> ahead q la ts lk g -> older m -> kept m' ->
  s_run P code scan garbage act z n q k la ts r m = Ok (e, m') ->
  exists f q', live_run P code scan garbage T acts c act z n' q k lk g r m = Ok (f, m') /\
    le_out f = en_out e /\ le_root f = en_root e /\ le_mem f = en_mem e /\ ahead q' (en_la e) (en_rest e) (le_la f) (le_guts f).
Proof.
  induction n as [|n IH]; intros n' q k la ts r m e m' lk g Ln A Ol Kp E; [discriminate E|]. destruct n' as [|n']; [lia|].
  cbn [s_run] in E. apply then_inv in E. destruct E as (x & m1 & E1 & E2). cbn [live_run].
  assert (Ol1 : older m1) by (eapply older_on; [apply wise_s_step|exact E1|exact Ol]).
  assert (Kp1 : kept m1).
  { destruct x as [e0|((((q' & k') & la') & ts') & r')]; [injection E2 as <- <-; exact Kp|].
    eapply kept_back; [apply wise_s_run|exact E2|exact Ol1|exact Kp]. }
  destruct (step_live q k la ts r m x m1 lk g A Ol Kp1 E1) as (y & Ey & Q). erewrite then_ok; [|exact Ey].
  destruct x as [e0|((((q1 & k1) & la1) & ts1) & r1)], y as [f|((((q2 & k2) & lk2) & g2) & r2)]; try contradiction.
  - injection E2 as <- <-. exists f, q. split; [reflexivity|exact Q].
  - destruct Q as (-> & -> & -> & A2). apply (IH n' q1 k1 la1 ts1 r1 m1 e m' lk2 g2); [lia|exact A2|exact Ol1|exact Kp|exact E2].
Qed.
Lemma yyparse_live n n' ts sm m e m' : (n <= n')%nat -> yields (sc_state c) ts -> older m -> kept m' ->
  s_yyparse P code scan garbage act z n ts sm m = Ok (e, m') ->
  exists f q', live_yyparse P code scan garbage T acts c act z n' sm m = Ok (f, m') /\
    le_out f = en_out e /\ le_root f = en_root e /\ le_mem f = en_mem e /\ ahead q' (en_la e) (en_rest e) (le_la f) (le_guts f).
Proof. intros Ln Y Ol Kp E. eapply run_live; [exact Ln| |exact Ol|exact Kp|exact E]. split; [reflexivity|now right]. Qed.
End Sim.

Lemma all_length {K} T (acts : list (act K)) n : forall g ts g', buf_all T acts n g = Ok (ts, g') -> (List.length ts < n)%nat.
Proof.
  induction n as [|n IH]; intros g ts g' E; [discriminate E|]. cbn [buf_all] in E. destruct (buf_lex T acts g) as [(o & g1)| | |]; cbn [bind] in E; try discriminate E.
  destruct o as [t|]; [|injection E as <- <-; cbn; lia]. destruct (buf_all T acts n g1) as [(ts' & g2)| | |] eqn:E2; cbn [bind] in E; try discriminate E.
  injection E as <- <-. apply IH in E2. cbn. lia.
Qed.
(** The end of the text is shifted only before the final state. *)
Definition ends_finally (P : ptables) : bool :=
  forallb (fun x => negb (fst x =? 0) || (snd x <=? 0) || (snd x =? p_final P)) (combine (p_check P) (p_table P)).
Lemma nth_combine {A B} (l : list A) : forall (l' : list B) i x y, nth_error l i = Some x -> nth_error l' i = Some y -> In (x, y) (combine l l').
Proof.
  induction l as [|a l IH]; intros [|b l'] [|i] x y E1 E2; cbn in *; try discriminate; [left; congruence|right; eauto].
Qed.
Lemma at_some l i (x : Z) : at_ l i = Ok x -> nth_error l (Z.to_nat i) = Some x.
Proof. unfold at_. destruct (i <? 0); [discriminate|]. destruct (nth_error l (Z.to_nat i)); [|discriminate]. now intros [= ->]. Qed.
Lemma ends_ok P : ends_finally P = true -> forall q q', move_of P q (Ok 0) = Ok (Shift q') -> q' = p_final P.
Proof.
  intros F q q' E. unfold move_of, yydefault in E. destruct (at_ (p_pact P) q) as [p| | |]; cbn [bind] in E; try discriminate E.
  assert (D : forall r : result Z, (do k <- r; Ok (if k =? 0 then Error else Reduce k))%res <> Ok (Shift q')) by (intros [k| | |]; cbn; try discriminate; destruct (k =? 0); discriminate).
  destruct (p =? p_ninf P); [now apply D in E|]. destruct ((p + 0 <? 0) || (p_last P <? p + 0)); [now apply D in E|].
  destruct (at_ (p_check P) (p + 0)) as [x| | |] eqn:Ec; cbn [bind] in E; try discriminate E. destruct (x =? 0) eqn:Ex; cbn [negb] in E; [|now apply D in E].
  destruct (at_ (p_table P) (p + 0)) as [a| | |] eqn:Ea; cbn [bind] in E; try discriminate E. destruct (a <=? 0) eqn:La; [discriminate E|]. injection E as <-.
  unfold ends_finally in F. rewrite forallb_forall in F. specialize (F (x, a) (nth_combine _ _ _ _ _ (at_some _ _ _ Ec) (at_some _ _ _ Ea))). cbn [fst snd] in F. lia.
Qed.

(** ** With the scanner *)
(** What a scanner has needed can be read at the end, so it could be read all the time. *)
Lemma use_inv a m x m' : use a m = Ok (x, m') -> is_live m a = true /\ m' = m.
Proof. unfold use. destruct (is_live m a); [|discriminate]. now intros [= _ <-]. Qed.
Lemma free_live a m x m' : free a m = Ok (x, m') -> a <> 0 -> is_live m a = true.
Proof. unfold free. intros E N. destruct (Z.eqb_spec a 0); [contradiction|]. now destruct (is_live m a). Qed.
Lemma start_ok junk text m l gu m1 c m2 : holds m l -> h_lex_init m = Ok (gu, m1) -> h_scan_string gu junk text m1 = Ok (c, m2) ->
  older c m2 /\ sc_chars c <> 0 /\ sc_current c = sc_buffer c.
Proof.
  intros H E1 E2. assert (E : then_ h_lex_init (fun g => h_scan_string g junk text) m = Ok (c, m2)) by (erewrite then_ok; [exact E2|exact E1]).
  assert (exists g, scan_string junk text = Ok g) as (g & Eg).
  { unfold h_scan_string in E2. step1 E2. step1 E2. apply then_inv in E2. destruct E2 as (g & ? & X & _). apply fail_inv in X. exists g. exact (proj1 X). }
  assert (W : wp (then_ h_lex_init (fun g => h_scan_string g junk text)) m (fun c m2 => older c m2 /\ sc_chars c <> 0 /\ sc_current c = sc_buffer c)).
  { unfold h_lex_init, h_scan_string. repeat lstep. eapply wp_fail; [exact Eg|]. repeat lstep. unfold older. cbn [sc_guts sc_stack sc_buffer sc_chars sc_current].
    match goal with H : holds ?m ?l |- _ => destruct H as (_ & _ & _ & F) end.
    repeat match goal with F : Forall _ (_ :: _) |- _ => inversion F; clear F; subst end. lia. }
  destruct W as (c' & m2' & E' & Q). rewrite E in E'. injection E' as <- <-. exact Q.
Qed.
Lemma scanned_same {K A B} (T : tables) (acts : list (act K)) (parser : list K -> cmd A) (live : scanner -> cmd B) (R : A -> B -> Prop) junk text m l o m' :
  holds m l -> h_scanned T acts parser junk text m = Ok (o, m') ->
  (forall c ts g' m1 e m2, buf_all T acts (S (y_n (sc_state c))) (sc_state c) = Ok (ts, g') -> older c m1 -> kept c m2 -> parser ts m1 = Ok (e, m2) ->
    exists f, live c m1 = Ok (f, m2) /\ R e f) ->
  exists o', live_scanned live junk text m = Ok (o', m') /\ R o o'.
Proof.
  intros H E L. unfold h_scanned in E. unfold live_scanned.
  apply then_inv in E. destruct E as (gu & m1 & E1 & E). ok. apply then_inv in E. destruct E as (c & m2 & E2 & E). ok.
  apply then_inv in E. destruct E as (ts & m3 & E3 & E). apply then_inv in E. destruct E as (e & m4 & E4 & E).
  apply then_inv in E. destruct E as (c' & m5 & E5 & E). apply then_inv in E. destruct E as (u & m6 & E6 & E). injection E as <- <-.
  destruct (start_ok junk text m l gu m1 c m2 H E1 E2) as (Ol & Nz & Cb).
  unfold h_lex_all in E3. do 4 (apply then_inv in E3; destruct E3 as (? & ? & U & E3); apply use_inv in U; destruct U as (_ & ->)).
  apply then_inv in E3. destruct E3 as ((ts' & g') & mm & X & E3). apply fail_inv in X. destruct X as (El & ->). injection E3 as <- <-.
  assert (Kp : kept c m4).
  { pose proof E5 as D. unfold h_delete_buffer in D. do 3 (apply then_inv in D; destruct D as (? & ? & U & D); apply use_inv in U; destruct U as (? & ->)).
    apply then_inv in D. destruct D as (? & ? & U & _). apply free_live in U; [|exact Nz]. unfold kept. rewrite Cb. auto. }
  destruct (L c ts' g' m2 e m4 El Ol Kp E4) as (f & Ef & Rf). exists f. split; [|exact Rf]. ok. ok. ok. reflexivity.
Qed.

Lemma x_ends q q' : move_of xp_tables q (Ok 0) = Ok (Shift q') -> q' = p_final xp_tables.
Proof. apply ends_ok. vm_compute. reflexivity. Qed.
Lemma e_ends q q' : move_of ep_tables q (Ok 0) = Ok (Shift q') -> q' = p_final ep_tables.
Proof. apply ends_ok. vm_compute. reflexivity. Qed.
(** The parser of expressions. *)
Lemma live_xxparse_ok z sm c ts g' m1 e m2 : buf_all x_tables x_actions (S (y_n (sc_state c))) (sc_state c) = Ok (ts, g') -> older c m1 -> kept c m2 ->
  s_xxparse z ts sm m1 = Ok (e, m2) ->
  exists f q, live_xxparse z sm c m1 = Ok (f, m2) /\ le_out f = en_out e /\ le_root f = en_root e /\ le_mem f = en_mem e /\
    ahead xp_tables x_tables x_actions q (en_la e) (en_rest e) (le_la f) (le_guts f).
Proof.
  intros El Ol Kp E. pose proof (all_length _ _ _ _ _ _ El) as Len. unfold s_xxparse in E. unfold live_xxparse.
  eapply yyparse_live; [apply wise_xp_scan|apply wise_hx_act|apply x_ends| | |exact Ol|exact Kp|exact E]; [lia|]. now exists (S (y_n (sc_state c))), g'.
Qed.
Lemma live_zzparse_ok z sm c ts g' m1 e m2 : buf_all e_tables e_actions (S (y_n (sc_state c))) (sc_state c) = Ok (ts, g') -> older c m1 -> kept c m2 ->
  s_zzparse z ts sm m1 = Ok (e, m2) ->
  exists f q, live_zzparse z sm c m1 = Ok (f, m2) /\ le_out f = en_out e /\ le_root f = en_root e /\ le_mem f = en_mem e /\
    ahead ep_tables e_tables e_actions q (en_la e) (en_rest e) (le_la f) (le_guts f).
Proof.
  intros El Ol Kp E. pose proof (all_length _ _ _ _ _ _ El) as Len. unfold s_zzparse in E. unfold live_zzparse.
  eapply yyparse_live; [apply wise_ep_scan|apply wise_he_act|apply e_ends| | |exact Ol|exact Kp|exact E]; [lia|]. now exists (S (y_n (sc_state c))), g'.
Qed.
Lemma live_parse_same z junk text sm m l x m' : holds m l -> full_parse z junk text sm m = Ok (x, m') -> live_parse z junk text sm m = Ok (x, m').
Proof.
  intros H E. unfold full_parse in E. apply then_inv in E. destruct E as (e & m1 & E & X). injection X as <- <-.
  destruct (scanned_same _ _ _ (live_xxparse z sm) (fun e f => le_out f = en_out e /\ le_mem f = en_mem e) junk text m l e m1 H E) as (f & Ef & E1 & E2).
  - intros c ts g' ma e0 mb El Ol Kp Ee. destruct (live_xxparse_ok z sm c ts g' ma e0 mb El Ol Kp Ee) as (f & q & Ef & E1 & _ & E2 & _). exists f. auto.
  - unfold live_parse. ok. now rewrite E1, E2.
Qed.
Lemma live_event_parse_same z junk text sm m l x m' : holds m l -> full_event_parse z junk text sm m = Ok (x, m') -> live_event_parse z junk text sm m = Ok (x, m').
Proof.
  intros H E. unfold full_event_parse in E. apply then_inv in E. destruct E as (e & m1 & E & X). injection X as <- <-.
  destruct (scanned_same _ _ _ (live_zzparse z sm) (fun e f => le_out f = en_out e /\ le_mem f = en_mem e) junk text m l e m1 H E) as (f & Ef & E1 & E2).
  - intros c ts g' ma e0 mb El Ol Kp Ee. destruct (live_zzparse_ok z sm c ts g' ma e0 mb El Ol Kp Ee) as (f & q & Ef & E1 & _ & E2 & _). exists f. auto.
  - unfold live_event_parse. ok. now rewrite E1, E2.
Qed.
