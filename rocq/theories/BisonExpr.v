(** The generated parser of expressions follows the grammar. *)
From Coq Require Import ZArith NArith String Bool List Lia ZifyBool ZifyNat.
From Verif Require Import Base Float Value Ast Lexer Grammar Parser ParseProofs Flex Bison BisonTables BisonData BisonProofs BisonSpec.
Import ListNotations.
Local Open Scope Z_scope.

Notation xsym := (sym xp_tables xp_code).
Lemma xsym_ok t : at_ (p_translate xp_tables) (xp_code t) = Ok (xsym t) /\ 1 <= xsym t < p_ntokens xp_tables.
Proof. destruct t; (split; [vm_compute; reflexivity|split; vm_compute; [intros E; discriminate E|reflexivity]]). Qed.

Lemma x_sound_checked : sound_check xp_tables 168 xp_stos xp_preds xp_rhs xp_weights 38 17 6 = true.
Proof. vm_compute. reflexivity. Qed.

(** The extra symbols 65-67 are expr at the levels or, and, not; 68-70 are bool_expr at these levels. *)
Definition x_real (x : Z) : Z := if x <? 65 then x else if x <? 68 then 47 else 59.
Lemma x_complete_checked : complete_check xp_tables xp_prods xp_first xp_expects x_real = true.
Proof. vm_compute. reflexivity. Qed.

(** What the symbols stand for. *)
Definition punct (t : token) (w : list token) (v : xval) : Prop := w = [t] /\ v = XTok.
Definition xspec (x : Z) (w : list token) (v : xval) : Prop :=
  match x with
  | 3 => punct KMinus w v | 4 => punct KEq w v | 5 => punct KNe w v | 6 => punct KGt w v | 7 => punct KGe w v
  | 8 => punct KLt w v | 9 => punct KLe w v | 10 => punct KLParen w v | 11 => punct KRParen w v | 12 => punct KComma w v
  | 13 => punct KNotIn w v | 14 => punct KIn w v | 15 => punct KOneOf w v | 16 => punct KNoneOf w v
  | 17 => punct KAllOf w v | 18 => punct KAnd w v | 19 => punct KOr w v | 20 => punct KNot w v | 21 => punct KFreqCap w v
  | 22 => punct KSegWithin w v | 23 => punct KSegBefore w v | 24 => punct KGeo w v | 25 => punct KContains w v
  | 26 => punct KStartsWith w v | 27 => punct KEndsWith w v | 28 => punct KIsNotNull w v | 29 => punct KIsNull w v
  | 30 => punct KIsEmpty w v | 31 => punct KTrue w v | 32 => punct KFalse w v
  | 33 => exists s, w = [KStr s] /\ v = XString s
  | 34 | 39 => exists s, w = [KIdent s] /\ v = XString s
  | 35 => exists z, w = [KInt z] /\ v = XInt z
  | 36 => exists f, w = [KFlt f] /\ v = XFlt f
  | 40 => exists z, g_int w z /\ v = XInt z
  | 41 => exists f, g_flt w f /\ v = XFlt f
  | 42 => exists s, w = [KStr s] /\ v = XStr s
  | 43 => exists l, g_ints w l /\ v = XInts l
  | 44 => exists l, g_int_loop w l /\ v = XInts l
  | 45 => exists l, g_strs w l /\ v = XStrs l
  | 46 => exists l, g_str_loop w l /\ v = XStrs l
  | 49 => exists c, g_num w c /\ v = XCmp c
  | 51 => exists q, g_eqv w q /\ v = XEq q
  | 53 => exists s, w = [KIdent s] /\ v = XVar s
  | 54 => exists l, g_left w l /\ v = XLeft l
  | 55 => exists r, g_right w r /\ v = XRight r
  | 57 => exists l, g_listv w l /\ v = XList l
  | 48 | 50 | 52 | 56 | 58 | 60 | 61 | 62 | 63 | 64 => exists l, g_atom w l /\ v = XNode (mk_leaf l)
  | 38 | 47 | 59 => exists e, g_expr w e /\ v = XNode e
  | _ => False
  end.
Lemma xspec_token t : xspec (xsym t) [t] (xp_lval t).
Proof. destruct t; vm_compute; eauto. Qed.

Lemma xspec_rule k x w vs : at_ (p_r1 xp_tables) k = Ok x -> specs xspec (right xp_rhs k) w vs -> 2 <= k ->
  exists v o, xp_act k vs = Ok (v, o) /\ xspec x w v /\ (x = 38 -> exists r, o = Some r /\ g_expr w r).
Proof.
  intros E S B.
  assert (I : In k (map (fun i => Z.of_nat (2 + i)) (seq 0 75))).
  { apply in_map_iff. exists (Z.to_nat (k - 2)). split; [lia|]. apply in_seq. split; [lia|].
    unfold at_ in E. destruct (k <? 0); [discriminate E|].
    destruct (nth_error (p_r1 xp_tables) (Z.to_nat k)) eqn:N; [|discriminate E].
    assert (Z.to_nat k < List.length (p_r1 xp_tables))%nat by (apply nth_error_Some; congruence).
    change (List.length (p_r1 xp_tables)) with 77%nat in *. lia. }
  cbn [map seq] in I.
  repeat (destruct I as [<-|I]; [
    (match type of E with ?a = _ => let b := eval vm_compute in a in change a with b in E end);
    (match type of S with context [right ?a ?b] => let c := eval vm_compute in (right a b) in change (right a b) with c in S end);
    injection E as <-; 
    repeat match goal with
    | H : specs _ [] _ _ |- _ => inversion H; clear H; subst
    | H : specs _ (_ :: _) _ _ |- _ => inversion H; clear H; subst
    end;
    repeat match goal with
    | H : xspec _ _ _ |- _ => cbn [xspec] in H
    | H : punct _ _ _ |- _ => destruct H as (-> & ->)
    | H : exists _, _ |- _ => let y := fresh "y" in destruct H as (y & H)
    | H : _ /\ _ |- _ => destruct H as (? & H); subst
    end; subst; cbn [app]; rewrite ?app_nil_r;
    (eexists; eexists; split; [reflexivity|]; split; [|intros E'; first [discriminate E'|eauto]]);
    cbn [xspec]|]).
  all: try contradiction.
  all: try (eexists; split; [reflexivity|assumption]).
  all: try (eexists; split; [|reflexivity]; first [assumption|econstructor; eauto; fail|apply gx_atom; constructor]).
Qed.

(** ** What the grammar derives *)
Notation xcd := (cd xp_tables xp_code xp_lval xp_act xp_prods).
Notation xcds := (cds xp_tables xp_code xp_lval xp_act xp_prods).

Lemma xcds_one y t v ss ws vs n : xcd y [t] v 1 -> xcds ss ws vs n -> xcds (y :: ss) (t :: ws) (v :: vs) (S n).
Proof.
  intros D H. change (t :: ws) with ([t] ++ ws)%list. constructor; [|exact H]. eapply cd_mono; [exact D|lia].
Qed.
Lemma xcds_last y w v n : xcd y w v (S n) -> xcds [y] w [v] (S n).
Proof. intros H. rewrite <- (app_nil_r w). constructor; [exact H|constructor]. Qed.
Lemma xcd_token y t : y = xsym t -> xcd y [t] (xp_lval t) 1.
Proof. intros ->. constructor. lia. Qed.

Create HintDb xcd.
Ltac tok := apply xcd_token; vm_compute; reflexivity.
Ltac sub := eapply cd_mono; [solve [eauto with xcd]|cbn; lia].
Ltac parts :=
  repeat first
    [ apply cds_nil
    | eapply xcds_one; [first [tok|solve [eauto with xcd]]|]
    | eapply xcds_last; sub
    | eapply cds_cons; [sub|] ].
Ltac rule ss0 k0 :=
  eapply cd_rule with (ss := ss0) (k := k0); [apply in_prods; vm_compute; reflexivity|lia|parts|reflexivity].

Lemma xcd_ident x : xcd 39 [KIdent x] (XString x) 1.
Proof. rule [34] 3. Qed.
Lemma xcd_str s : xcd 42 [KStr s] (XStr s) 1.
Proof. rule [33] 8. Qed.
#[local] Hint Resolve xcd_ident xcd_str : xcd.
Lemma xcd_int a z : g_int a z -> xcd 40 a (XInt z) 2.
Proof. intros []; [rule [35] 4|rule [3; 35] 5]. Qed.
Lemma xcd_flt a f : g_flt a f -> xcd 41 a (XFlt f) 2.
Proof. intros []; [rule [36] 6|rule [3; 36] 7]. Qed.
Lemma xcd_var x : xcd 53 [KIdent x] (XVar x) 1.
Proof. rule [39] 43. Qed.
#[local] Hint Resolve xcd_int xcd_flt xcd_var : xcd.
Lemma xcd_int_loop a l : g_int_loop a l -> xcd 44 a (XInts l) 4.
Proof. induction 1; [rule [40] 10|rule [44; 12; 40] 11]. Qed.
Lemma xcd_str_loop a l : g_str_loop a l -> xcd 46 a (XStrs l) 4.
Proof. induction 1; [rule [42] 13|rule [46; 12; 42] 14]. Qed.
#[local] Hint Resolve xcd_int_loop xcd_str_loop : xcd.
Lemma xcd_ints a l : g_ints a l -> xcd 43 a (XInts l) 5.
Proof. intros []. rule [10; 44; 11] 9. Qed.
Lemma xcd_strs a l : g_strs a l -> xcd 45 a (XStrs l) 5.
Proof. intros []. rule [10; 46; 11] 12. Qed.
#[local] Hint Resolve xcd_ints xcd_strs : xcd.
Lemma xcd_num a c : g_num a c -> xcd 49 a (XCmp c) 2.
Proof. intros []; [rule [40] 26|rule [41] 27]. Qed.
Lemma xcd_eqv a q : g_eqv a q -> xcd 51 a (XEq q) 2.
Proof. intros []; [rule [40] 36|rule [41] 37|rule [42] 38]. Qed.
Lemma xcd_left a l : g_left a l -> xcd 54 a (XLeft l) 2.
Proof. intros []; [rule [40] 44|rule [42] 45|rule [53] 46]. Qed.
Lemma xcd_right a r : g_right a r -> xcd 55 a (XRight r) 5.
Proof. intros []; [rule [43] 47|rule [45] 48|rule [53] 49]. Qed.
Lemma xcd_listv a l : g_listv a l -> xcd 57 a (XList l) 5.
Proof. intros []; [rule [43] 52|rule [45] 53]. Qed.
#[local] Hint Resolve xcd_num xcd_eqv xcd_left xcd_right xcd_listv : xcd.
(** Every expression without a connective outside. *)
Lemma xcd_un1 x k a v n : existsb (same_prod (67, [x], k)) xp_prods = true -> 0 <= k ->
  xcd x a (XNode v) (S n) ->
  xp_act k [XNode v] = Ok (XNode v, None) -> xcd 67 a (XNode v) (S n).
Proof. intros I B D E. eapply cd_rule; [apply in_prods; exact I|exact B|apply xcds_last; exact D|exact E]. Qed.
Ltac unary x0 k0 := apply (xcd_un1 x0 k0); [vm_compute; reflexivity|lia| |reflexivity].
Lemma xcd_special x k a v n : existsb (same_prod (60, [x], k)) xp_prods = true -> 0 <= k -> xcd x a (XNode v) (S n) ->
  xp_act k [XNode v] = Ok (XNode v, None) -> xcd 67 a (XNode v) (S n).
Proof.
  intros I B D E. unary 60 21.
  eapply cd_rule; [apply in_prods; exact I|exact B|apply xcds_last; exact D|exact E].
Qed.
Ltac special x0 k0 := apply (xcd_special x0 k0); [vm_compute; reflexivity|lia| |reflexivity].
Lemma xcd_atom a l : g_atom a l -> xcd 67 a (XNode (mk_leaf l)) 20.
Proof.
  intros [].
  - unary 48 22. rule [39; 29] 23.
  - unary 48 22. rule [39; 28] 24.
  - unary 48 22. rule [39; 30] 25.
  - unary 50 16. rule [39; 6; 49] 28.
  - unary 50 16. rule [39; 7; 49] 29.
  - unary 50 16. rule [39; 8; 49] 30.
  - unary 50 16. rule [39; 9; 49] 31.
  - unary 50 16. rule [49; 8; 39] 32.
  - unary 50 16. rule [49; 9; 39] 33.
  - unary 50 16. rule [49; 6; 39] 34.
  - unary 50 16. rule [49; 7; 39] 35.
  - unary 52 17. rule [39; 4; 51] 39.
  - unary 52 17. rule [39; 5; 51] 40.
  - unary 52 17. rule [51; 4; 39] 41.
  - unary 52 17. rule [51; 5; 39] 42.
  - unary 56 18. rule [54; 13; 55] 50.
  - unary 56 18. rule [54; 14; 55] 51.
  - unary 58 19. rule [39; 15; 57] 54.
  - unary 58 19. rule [39; 16; 57] 55.
  - unary 58 19. rule [39; 17; 57] 56.
  - unary 70 20. rule [39] 60.
  - unary 70 20. rule [31] 61.
  - unary 70 20. rule [32] 62.
  - special 61 63. rule [21; 10; 33; 12; 42; 12; 40; 12; 40; 11] 67.
  - special 62 64. rule [22; 10; 40; 12; 40; 11] 68.
  - special 62 64. rule [22; 10; 39; 12; 40; 12; 40; 11] 69.
  - special 62 64. rule [23; 10; 40; 12; 40; 11] 70.
  - special 62 64. rule [23; 10; 39; 12; 40; 12; 40; 11] 71.
  - special 63 65. rule [24; 10; 40; 12; 40; 12; 40; 11] 72.
  - special 63 65. rule [24; 10; 41; 12; 41; 12; 41; 11] 73.
  - special 64 66. rule [25; 10; 39; 12; 42; 11] 74.
  - special 64 66. rule [26; 10; 39; 12; 42; 11] 75.
  - special 64 66. rule [27; 10; 39; 12; 42; 11] 76.
Qed.

(** *** Nesting *)
Definition bal (a : list token) (k : nat) : Prop :=
  forall d b, nesting_from d (a ++ b) = Nat.max (d + k) (nesting_from d b).
Lemma nesting_ge b : forall d, (d <= nesting_from d b)%nat.
Proof.
  induction b as [|t b IH]; intros d; [cbn; lia|].
  destruct t; cbn [nesting_from]; try lia; apply IH.
Qed.
Definition plain (t : token) : Prop := t <> KLParen /\ t <> KRParen.
Lemma bal_one t : plain t -> bal [t] 0.
Proof.
  intros (P1 & P2) d b. pose proof (nesting_ge b d). rewrite Nat.add_0_r.
  destruct t; cbn [app nesting_from]; try contradiction; lia.
Qed.
Lemma bal_app a k b m : bal a k -> bal b m -> bal (a ++ b) (Nat.max k m).
Proof. intros H H' d c. rewrite <- app_assoc, H, H'. lia. Qed.
Lemma bal_cons t a k : plain t -> bal a k -> bal (t :: a) k.
Proof. intros H H'. exact (bal_app [t] 0 a k (bal_one t H) H'). Qed.
Lemma bal_paren a k : bal a k -> bal (KLParen :: a ++ [KRParen]) (S k).
Proof.
  intros H d b. cbn [app nesting_from]. rewrite <- app_assoc, H. cbn [app nesting_from pred]. lia.
Qed.
Lemma bal_nesting a k : bal a k -> nesting a = k.
Proof. intros H. unfold nesting. rewrite <- (app_nil_r a), H. cbn. lia. Qed.
Lemma bal_nil : bal [] 0.
Proof. intros d b. cbn [app]. pose proof (nesting_ge b d). lia. Qed.
Lemma bal_int a z : g_int a z -> bal a 0.
Proof. intros []; repeat (apply bal_cons; [easy|]); apply bal_nil. Qed.
Lemma bal_flt a z : g_flt a z -> bal a 0.
Proof. intros []; repeat (apply bal_cons; [easy|]); apply bal_nil. Qed.
Lemma bal_int_loop a l : g_int_loop a l -> bal a 0.
Proof.
  induction 1 as [a z H|a l b z _ IH H]; [now apply bal_int with z|].
  apply (bal_app a 0 (KComma :: b) 0 IH). apply bal_cons; [easy|]. now apply bal_int with z.
Qed.
Lemma bal_str_loop a l : g_str_loop a l -> bal a 0.
Proof.
  induction 1 as [s|a l s _ IH]; [now apply bal_one|].
  apply (bal_app a 0 [KComma; KStr s] 0 IH). apply bal_cons; [easy|]. now apply bal_one.
Qed.
Lemma bal_ints a l : g_ints a l -> bal a 1.
Proof. intros [b l' H]. apply bal_paren. now apply bal_int_loop with l'. Qed.
Lemma bal_strs a l : g_strs a l -> bal a 1.
Proof. intros [b l' H]. apply bal_paren. now apply bal_str_loop with l'. Qed.
Lemma bal_num a c : g_num a c -> bal a 0.
Proof. intros [b z H|b z H]; [now apply bal_int with z|now apply bal_flt with z]. Qed.
Lemma bal_eqv a c : g_eqv a c -> bal a 0.
Proof. intros [b z H|b z H|s]; [now apply bal_int with z|now apply bal_flt with z|now apply bal_one]. Qed.
Lemma bal_left a c : g_left a c -> bal a 0.
Proof. intros [b z H|s|s]; [now apply bal_int with z|now apply bal_one|now apply bal_one]. Qed.
Lemma bal_right a c : g_right a c -> exists k, bal a k.
Proof.
  intros [b z H|b z H|s]; [exists 1%nat; now apply bal_ints with z|exists 1%nat; now apply bal_strs with z|].
  exists 0%nat. now apply bal_one.
Qed.
Lemma bal_listv a c : g_listv a c -> bal a 1.
Proof. intros [b z H|b z H]; [now apply bal_ints with z|now apply bal_strs with z]. Qed.
Lemma bal_atom a l : g_atom a l -> exists k, bal a k.
Proof.
  assert (T : forall a k u t, bal a k -> plain u -> plain t -> exists m, bal (a ++ [u; t]) m).
  { intros b k u t H U V. eexists. eapply bal_app; [exact H|]. apply bal_cons; [easy|]. now apply bal_one. }
  intros H; inversion H; subst;
    repeat match goal with
    | J : g_num _ _ |- _ => apply bal_num in J
    | J : g_eqv _ _ |- _ => apply bal_eqv in J
    | J : g_left _ _ |- _ => apply bal_left in J
    | J : g_right _ _ |- _ => apply bal_right in J; destruct J as (? & J)
    | J : g_listv _ _ |- _ => apply bal_listv in J
    | J : g_int _ _ |- _ => apply bal_int in J
    | J : g_flt _ _ |- _ => apply bal_flt in J
    end;
    try (eexists; repeat (apply bal_cons; [easy|]); eassumption);
    try (eexists; repeat (apply bal_cons; [easy|]); apply bal_nil);
    try (eapply T; [eassumption|easy|easy]);
    try (eexists; eapply bal_app; [eassumption|apply bal_cons; [easy|eassumption]]);
    exists 1%nat; intros d r; pose proof (nesting_ge r d); cbn [app nesting_from];
    rewrite <- ?app_assoc; cbn [app];
    repeat match goal with J : bal ?x _ |- context [nesting_from _ (?x ++ _)] => rewrite J; cbn [app nesting_from]; rewrite <- ?app_assoc; cbn [app] end;
    cbn [nesting_from pred]; lia.
Qed.
Lemma nots_app a b : nots (a ++ b) = (nots a + nots b)%nat.
Proof. induction a as [|t a IH]; [reflexivity|]. destruct t; cbn [app nots]; rewrite ?IH; reflexivity. Qed.
Lemma bal_derives x a e : derives x a e -> exists k, bal a k.
Proof.
  induction 1 as [a x b y _ (k & A) _ (m & B)|a x _ IH|a x b y _ (k & A) _ (m & B)|a x _ IH|a x _ (k & A)|a x _ (k & A)|a l H];
    try exact IH.
  - eexists. eapply bal_app; [exact A|]. apply bal_cons; [easy|exact B].
  - eexists. eapply bal_app; [exact A|]. apply bal_cons; [easy|exact B].
  - exists k. now apply bal_cons.
  - eexists. now apply bal_paren.
  - now apply bal_atom with l.
Qed.

(** ** The whole *)
Definition base (x : level) : nat := match x with LUn => 20 | LAnd => 22 | LOr => 24 end.
Definition lsym (x : level) : Z := match x with LUn => 67 | LAnd => 66 | LOr => 65 end.
Lemma xcd_derives x a e : derives x a e -> xcd (lsym x) a (XNode e) (base x + 5 * nesting a + nots a).
Proof.
  induction 1 as [a x b y D1 IH1 D2 IH2|a x D IH|a x b y D1 IH1 D2 IH2|a x D IH|a x D IH|a x D IH|a l H]; cbn [lsym] in *.
  - destruct (bal_derives _ _ _ D1) as (k & A). destruct (bal_derives _ _ _ D2) as (m & B).
    assert (N := bal_app _ _ _ _ A (bal_cons KOr b m ltac:(easy) B)).
    apply bal_nesting in A, B, N. rewrite nots_app. cbn [nots].
    replace (base LOr + 5 * nesting (a ++ KOr :: b) + (nots a + nots b))%nat
      with (S (S (S (21 + 5 * Nat.max k m + nots a + nots b)))) by (rewrite N; cbn; lia).
    rewrite A in IH1. rewrite B in IH2.
    eapply cd_rule with (ss := [68]) (k := 20) (vs := [XNode (mk_or x y)]); [apply in_prods; vm_compute; reflexivity|lia|apply xcds_last|reflexivity].
    eapply cd_rule with (ss := [65; 19; 66]) (k := 58) (vs := [XNode x; XTok; XNode y]); [apply in_prods; vm_compute; reflexivity|lia| |reflexivity].
    apply cds_cons; [eapply cd_mono; [exact IH1|cbn; lia]|].
    apply (xcds_one _ _ XTok); [tok|]. apply xcds_last. eapply cd_mono; [exact IH2|cbn; lia].
  - eapply cd_unit; [apply in_prods with (x := 65) (ss := [66]) (k := -1); vm_compute; reflexivity|].
    eapply cd_mono; [exact IH|cbn; lia].
  - destruct (bal_derives _ _ _ D1) as (k & A). destruct (bal_derives _ _ _ D2) as (m & B).
    assert (N := bal_app _ _ _ _ A (bal_cons KAnd b m ltac:(easy) B)).
    apply bal_nesting in A, B, N. rewrite nots_app. cbn [nots].
    replace (base LAnd + 5 * nesting (a ++ KAnd :: b) + (nots a + nots b))%nat
      with (S (S (S (19 + 5 * Nat.max k m + nots a + nots b)))) by (rewrite N; cbn; lia).
    rewrite A in IH1. rewrite B in IH2.
    eapply cd_rule with (ss := [69]) (k := 20) (vs := [XNode (mk_and x y)]); [apply in_prods; vm_compute; reflexivity|lia|apply xcds_last|reflexivity].
    eapply cd_rule with (ss := [66; 18; 67]) (k := 57) (vs := [XNode x; XTok; XNode y]); [apply in_prods; vm_compute; reflexivity|lia| |reflexivity].
    apply cds_cons; [eapply cd_mono; [exact IH1|cbn; lia]|].
    apply (xcds_one _ _ XTok); [tok|]. apply xcds_last. eapply cd_mono; [exact IH2|cbn; lia].
  - eapply cd_unit; [apply in_prods with (x := 66) (ss := [67]) (k := -1); vm_compute; reflexivity|].
    eapply cd_mono; [exact IH|cbn; lia].
  - cbn [nots].
    replace (base LUn + 5 * nesting (KNot :: a) + S (nots a))%nat
      with (S (S (19 + 5 * nesting a + nots a))) by (unfold nesting; cbn; lia).
    unary 70 20.
    eapply cd_rule with (ss := [20; 67]) (k := 59) (vs := [XTok; XNode x]); [apply in_prods; vm_compute; reflexivity|lia| |reflexivity].
    apply (xcds_one _ _ XTok); [tok|]. apply xcds_last. eapply cd_mono; [exact IH|cbn; lia].
  - destruct (bal_derives _ _ _ D) as (k & A). assert (N := bal_paren _ _ A). apply bal_nesting in A, N.
    cbn [nots]. rewrite nots_app. cbn [nots]. rewrite A in IH.
    replace (base LUn + 5 * nesting (KLParen :: a ++ [KRParen]) + (nots a + 0))%nat
      with (S (S (S (22 + 5 * k + nots a)))) by (rewrite N; cbn; lia).
    eapply cd_rule with (ss := [10; 65; 11]) (k := 15) (vs := [XTok; XNode x; XTok]); [apply in_prods; vm_compute; reflexivity|lia| |reflexivity].
    apply (xcds_one _ _ XTok); [tok|]. apply cds_cons; [eapply cd_mono; [exact IH|cbn; lia]|].
    apply (xcds_one _ _ XTok); [tok|]. apply cds_nil.
  - eapply cd_mono; [now apply xcd_atom|cbn; lia].
Qed.

Theorem xxparse_ok ts : exists o, xxparse ts = Ok o /\
  match o with
  | Accepted r => exists e, r = Some e /\ derives LOr ts e
  | Rejected => forall e, ~ derives LOr ts e
  | Exhausted => ~ shallow ts \/ forall e, ~ derives LOr ts e
  end.
Proof.
  destruct (parse_sound xp_tables xp_code xp_lval XTok xp_act xsym_ok 168 xp_stos xp_preds xp_rhs xp_weights 38 17 6
    x_sound_checked xspec g_expr xspec_token xspec_rule (10 * List.length ts + 10) ts) as (o & E & S).
  { change (wt xp_weights (stos xp_stos 0)) with 1. lia. }
  fold (xxparse ts) in E. exists o. split; [exact E|].
  assert (Cpl : forall e, derives LOr ts e -> o = Accepted (Some e) \/ o = Exhausted /\ ~ shallow ts).
  { intros e D. apply xcd_derives in D. cbn [lsym base] in D.
    destruct (parse_complete xp_tables xp_code xp_lval XTok xp_act xsym_ok 168 xp_stos xp_preds xp_rhs xp_weights 38 17 6
      x_sound_checked xspec g_expr xspec_token xspec_rule xp_prods xp_first xp_expects x_real x_complete_checked
      [65] 2 ts [XNode e] (XNode e) e (24 + 5 * nesting ts + nots ts) 17) as (m & [H|(H & B)]).
    - apply in_prods. vm_compute. reflexivity.
    - lia.
    - apply xcds_last. exact D.
    - reflexivity.
    - reflexivity.
    - reflexivity.
    - cbn. lia.
    - reflexivity.
    - discriminate.
    - reflexivity.
    - left. exact (run_same xp_tables xp_code xp_lval XTok xp_act _ _ _ _ _ _ _ E H).
    - right. split; [exact (run_same xp_tables xp_code xp_lval XTok xp_act _ _ _ _ _ _ _ E H)|]. unfold shallow, YYMAXDEPTH in *. lia. }
  destruct o as [r| |].
  - destruct (S r eq_refl) as (e & -> & G). destruct (expr_derives _ _ G) as (e' & D).
    destruct (Cpl e' D) as [H|(H & _)]; [|discriminate H]. injection H as ->. now exists e'.
  - intros e D. destruct (Cpl e D) as [H|(H & _)]; discriminate H.
  - destruct (parse_tokens ts) as [e|] eqn:Ep.
    + left. apply parse_tokens_iff in Ep. destruct (Cpl e Ep) as [H|(_ & H)]; [discriminate H|exact H].
    + right. intros e D. apply parse_tokens_iff in D. congruence.
Qed.
