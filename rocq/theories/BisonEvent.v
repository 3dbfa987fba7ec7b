(** The generated parser of events follows the grammar. *)
From Coq Require Import ZArith NArith String Bool List Lia ZifyBool ZifyNat.
From Verif Require Import Base Float Value Ast Lexer EventGrammar EventText EventProofs Flex Bison BisonTables BisonData
  BisonProofs.
Import ListNotations.
Local Open Scope Z_scope.

Notation esym := (sym ep_tables ep_code).
Lemma esym_ok t : at_ (p_translate ep_tables) (ep_code t) = Ok (esym t) /\ 1 <= esym t < p_ntokens ep_tables.
Proof. destruct t; (split; [vm_compute; reflexivity|split; vm_compute; [intros E; discriminate E|reflexivity]]). Qed.

Lemma e_sound_checked : sound_check ep_tables 83 ep_stos ep_preds ep_rhs ep_weights 17 2 4 = true.
Proof. vm_compute. reflexivity. Qed.
Lemma e_complete_checked : complete_check ep_tables ep_prods ep_first ep_expects (fun x => x) = true.
Proof. vm_compute. reflexivity. Qed.

(** The variables without the nulls. *)
Definition somes (l : list (string * option value)) : list (string * value) :=
  flat_map (fun p => match snd p with Some v => [(fst p, v)] | None => [] end) l.
Lemma somes_snoc l p : somes (l ++ [p]) = add_variable (match snd p with Some v => Some (fst p, v) | None => None end) (somes l).
Proof.
  unfold somes. rewrite flat_map_app. cbn [flat_map]. destruct p as (x, [v|]); cbn [fst snd add_variable app];
    [reflexivity|apply app_nil_r].
Qed.

(** What the symbols stand for. *)
Definition epunct (t : etoken) (w : list etoken) (v : eval) : Prop := w = [t] /\ v = YTok.
Definition espec (x : Z) (w : list etoken) (v : eval) : Prop :=
  match x with
  | 3 => epunct JLCu w v | 4 => epunct JRCu w v | 5 => epunct JLSq w v | 6 => epunct JRSq w v | 7 => epunct JComma w v
  | 8 => epunct JColon w v | 9 => epunct JMinus w v | 10 => epunct JNull w v | 11 => epunct JTrue w v
  | 12 => epunct JFalse w v
  | 13 => exists z, w = [JInt z] /\ v = YInt z
  | 14 => exists f, w = [JFlt f] /\ v = YFlt f
  | 15 => exists s, w = [JStr s] /\ v = YString s
  | 17 => exists l, e_event w l /\ v = YTok
  | 18 => exists l, e_loop e_variable w l /\ v = YEvent (somes l)
  | 19 => exists p, e_variable w p /\ v = YVariable (match snd p with Some x => Some (fst p, x) | None => None end)
  | 20 => exists x, e_value w x /\ v = YValue x
  | 21 => exists b, e_value w (VBool b) /\ v = YBool b
  | 22 => exists z, e_int w z /\ v = YInt z
  | 23 => exists f, e_flt w f /\ v = YFlt f
  | 24 => exists s, w = [JStr s] /\ v = YStr s
  | 25 => w = [JLSq; JRSq] /\ v = YInts []
  | 26 => exists l, e_value w (VIntList l) /\ v = YInts l
  | 27 => exists l, e_loop e_int w l /\ v = YInts l
  | 28 => exists l, e_value w (VStrList (map mk_str l)) /\ v = YStrs l
  | 29 => exists l, e_loop e_str w l /\ v = YStrs l
  | 30 => exists l, e_value w (VSegs l) /\ v = YSegs l
  | 31 => exists l, e_loop e_seg w l /\ v = YSegs l
  | 32 => exists s, e_seg w s /\ v = YSeg s
  | 33 => exists l, e_value w (VFreqs l) /\ v = YCaps l
  | 34 => exists l, e_loop e_cap w l /\ v = YCaps l
  | 35 => exists c, e_cap w c /\ v = YCap c
  | _ => False
  end.
Lemma espec_token t : espec (esym t) [t] (ep_lval t).
Proof. destruct t; vm_compute; eauto. Qed.
Definition event_of (w : list etoken) (r : list (string * value)) : Prop := exists l, e_event w l /\ r = somes l.

Lemma espec_rule k x w vs : at_ (p_r1 ep_tables) k = Ok x -> specs espec (right ep_rhs k) w vs -> 2 <= k ->
  exists v o, ep_act k vs = Ok (v, o) /\ espec x w v /\ (x = 17 -> exists r, o = Some r /\ event_of w r).
Proof.
  intros E S B.
  assert (I : In k (map (fun i => Z.of_nat (2 + i)) (seq 0 38))).
  { apply in_map_iff. exists (Z.to_nat (k - 2)). split; [lia|]. apply in_seq. split; [lia|].
    unfold at_ in E. destruct (k <? 0); [discriminate E|].
    destruct (nth_error (p_r1 ep_tables) (Z.to_nat k)) eqn:N; [|discriminate E].
    assert (Z.to_nat k < List.length (p_r1 ep_tables))%nat by (apply nth_error_Some; congruence).
    change (List.length (p_r1 ep_tables)) with 40%nat in *. lia. }
  cbn [map seq] in I.
  repeat (destruct I as [<-|I]; [
    (match type of E with ?a = _ => let b := eval vm_compute in a in change a with b in E end);
    (match type of S with context [right ?a ?b] => let c := eval vm_compute in (right a b) in change (right a b) with c in S end);
    injection E as <-;
    repeat match goal with
    | H : specs _ [] _ _ |- _ => inversion H; clear H; subst
    | H : specs _ (_ :: _) _ _ |- _ => inversion H; clear H; subst
    end;
    repeat match goal with
    | H : espec _ _ _ |- _ => cbn [espec] in H
    | H : epunct _ _ _ |- _ => destruct H as (-> & ->)
    | H : exists _, _ |- _ => let y := fresh "y" in destruct H as (y & H)
    | H : _ /\ _ |- _ => destruct H as (? & H); subst
    end; subst; cbn [app]; rewrite ?app_nil_r;
    (eexists; eexists; split; [reflexivity|]; split; [|intros E'; try discriminate E'; clear E']);
    cbn [espec]|]).
  all: try contradiction.
  all: try (eexists; split; [|reflexivity]; first [assumption|econstructor; eauto; fail]).
  - exists []. split; [reflexivity|]. exists []. split; [constructor|reflexivity].
  - eexists. split; [reflexivity|]. exists y. split; [now constructor|reflexivity].
  - exists [y]. split; [now constructor|]. now rewrite (somes_snoc [] y : somes [y] = _).
  - exists (y0 ++ [y])%list. split; [now constructor|]. now rewrite somes_snoc.
  - exists (y0, Some y). split; [now constructor|reflexivity].
  - exists (y, None). split; [constructor|reflexivity].
  - eexists. split; [|reflexivity]. repeat constructor.
  - easy.
  - eexists. split; [|reflexivity]. repeat constructor.
  - eexists. split; [|reflexivity]. apply el_more with (b := [JStr y]); [assumption|constructor].
Qed.

(** ** What the grammar derives *)
Notation ycd := (cd ep_tables ep_code ep_lval ep_act ep_prods).
Notation ycds := (cds ep_tables ep_code ep_lval ep_act ep_prods).
Lemma ycds_one y t v ss ws vs n : ycd y [t] v 1 -> ycds ss ws vs n -> ycds (y :: ss) (t :: ws) (v :: vs) (S n).
Proof.
  intros D H. change (t :: ws) with ([t] ++ ws)%list. constructor; [|exact H]. eapply cd_mono; [exact D|lia].
Qed.
Lemma ycds_last y w v n : ycd y w v (S n) -> ycds [y] w [v] (S n).
Proof. intros H. rewrite <- (app_nil_r w). constructor; [exact H|constructor]. Qed.
Lemma ycd_token y t : y = esym t -> ycd y [t] (ep_lval t) 1.
Proof. intros ->. constructor. lia. Qed.

Create HintDb ycd.
Ltac ytok := apply ycd_token; vm_compute; reflexivity.
Ltac ysub := eapply cd_mono; [solve [eauto with ycd]|cbn; lia].
Ltac yparts :=
  repeat first
    [ apply cds_nil
    | eapply ycds_one; [first [ytok|solve [eauto with ycd]]|]
    | eapply ycds_last; ysub
    | eapply cds_cons; [ysub|] ].
Ltac yrule ss0 k0 :=
  eapply cd_rule with (ss := ss0) (k := k0); [apply in_prods; vm_compute; reflexivity|lia|yparts|reflexivity].

Lemma ycd_str s : ycd 24 [JStr s] (YStr s) 1.
Proof. yrule [15] 23. Qed.
Lemma ycd_int a z : e_int a z -> ycd 22 a (YInt z) 2.
Proof. intros []; [yrule [13] 19|yrule [9; 13] 20]. Qed.
Lemma ycd_flt a z : e_flt a z -> ycd 23 a (YFlt z) 2.
Proof. intros []; [yrule [14] 21|yrule [9; 14] 22]. Qed.
#[local] Hint Resolve ycd_str ycd_int ycd_flt : ycd.
Lemma ycd_seg a s : e_seg a s -> ycd 32 a (YSeg s) 6.
Proof. intros []. yrule [5; 22; 7; 22; 6] 34. Qed.
Lemma ycd_cap a c : e_cap a c -> ycd 35 a (YCap c) 14.
Proof.
  intros [].
  - yrule [5; 15; 7; 22; 7; 24; 7; 22; 7; 22; 6] 38.
  - yrule [5; 5; 15; 7; 22; 7; 24; 6; 7; 22; 7; 22; 6] 39.
Qed.
#[local] Hint Resolve ycd_seg ycd_cap : ycd.
Lemma ycd_ints a l : e_loop e_int a l -> ycd 27 a (YInts l) 16.
Proof. induction 1; [yrule [22] 26|yrule [27; 7; 22] 27]. Qed.
Lemma ycd_strs a l : e_loop e_str a l -> ycd 29 a (YStrs l) 16.
Proof. induction 1 as [a s H|a l b s _ IH H]; destruct H; [yrule [24] 29|yrule [29; 7; 24] 30]. Qed.
Lemma ycd_segs a l : e_loop e_seg a l -> ycd 31 a (YSegs l) 16.
Proof. induction 1; [yrule [32] 32|yrule [31; 7; 32] 33]. Qed.
Lemma ycd_caps a l : e_loop e_cap a l -> ycd 34 a (YCaps l) 16.
Proof. induction 1; [yrule [35] 36|yrule [34; 7; 35] 37]. Qed.
#[local] Hint Resolve ycd_ints ycd_strs ycd_segs ycd_caps : ycd.
Lemma ycd_bool (b : bool) : ycd 21 [if b then JTrue else JFalse] (YBool b) 1.
Proof. destruct b; [yrule [11] 17|yrule [12] 18]. Qed.
Lemma ycd_empty : ycd 25 [JLSq; JRSq] (YInts []) 2.
Proof. yrule [5; 6] 24. Qed.
Lemma ycd_intlist a l : e_loop e_int a l -> ycd 26 (JLSq :: a ++ [JRSq]) (YInts l) 18.
Proof. intros H. yrule [5; 27; 6] 25. Qed.
Lemma ycd_strlist a l : e_loop e_str a l -> ycd 28 (JLSq :: a ++ [JRSq]) (YStrs l) 18.
Proof. intros H. yrule [5; 29; 6] 28. Qed.
Lemma ycd_seglist a l : e_loop e_seg a l -> ycd 30 (JLSq :: a ++ [JRSq]) (YSegs l) 18.
Proof. intros H. yrule [5; 31; 6] 31. Qed.
Lemma ycd_caplist a l : e_loop e_cap a l -> ycd 33 (JLSq :: a ++ [JRSq]) (YCaps l) 18.
Proof. intros H. yrule [5; 34; 6] 35. Qed.
#[local] Hint Resolve ycd_empty ycd_intlist ycd_strlist ycd_seglist ycd_caplist : ycd.
Lemma ycd_value a v : e_value a v -> ycd 20 a (YValue v) 20.
Proof.
  intros [].
  - eapply cd_rule with (ss := [21]) (k := 8); [apply in_prods; vm_compute; reflexivity|lia|
      eapply ycds_last, cd_mono; [exact (ycd_bool true)|cbn; lia]|reflexivity].
  - eapply cd_rule with (ss := [21]) (k := 8); [apply in_prods; vm_compute; reflexivity|lia|
      eapply ycds_last, cd_mono; [exact (ycd_bool false)|cbn; lia]|reflexivity].
  - yrule [22] 9.
  - yrule [23] 10.
  - match goal with H : e_str _ _ |- _ => destruct H end. yrule [24] 11.
  - yrule [25] 12.
  - yrule [26] 13.
  - yrule [28] 14.
  - yrule [30] 15.
  - yrule [33] 16.
Qed.
#[local] Hint Resolve ycd_value : ycd.
Lemma ycd_variable a p : e_variable a p ->
  ycd 19 a (YVariable (match snd p with Some x => Some (fst p, x) | None => None end)) 22.
Proof. intros []; [yrule [15; 8; 20] 6|yrule [15; 8; 10] 7]. Qed.
Lemma ycd_loop a l : e_loop e_variable a l -> ycd 18 a (YEvent (somes l)) 24.
Proof.
  induction 1 as [a x H|a l b x _ IH H]; apply ycd_variable in H.
  - rewrite (somes_snoc [] x : somes [x] = _). yrule [19] 4.
  - rewrite somes_snoc. yrule [18; 7; 19] 5.
Qed.

Lemma zz_done ts : exists o, zzparse ts = Ok o /\
  (forall r, o = Accepted r -> exists r0, r = Some r0 /\ event_of ts r0) /\
  (forall r, event_of ts r -> o = Accepted (Some r)).
Proof.
  destruct (parse_sound ep_tables ep_code ep_lval YTok ep_act esym_ok 83 ep_stos ep_preds ep_rhs ep_weights 17 2 4
    e_sound_checked espec event_of espec_token espec_rule (10 * List.length ts + 10) ts) as (o & E & S).
  { change (wt ep_weights (stos ep_stos 0)) with 1. lia. }
  fold (zzparse ts) in E. exists o. split; [exact E|]. split; [exact S|].
  intros r (l & H & ->).
  assert (D : exists ss k vs, In (17, ss, k) ep_prods /\ 0 <= k /\ ycds ss ts vs 26 /\ ep_act k vs = Ok (YTok, Some (somes l))).
  { destruct H as [|a l H].
    - exists [3; 4], 2, [YTok; YTok]. split; [apply in_prods; vm_compute; reflexivity|]. split; [lia|].
      split; [|reflexivity]. apply (ycds_one 3 JLCu YTok); [ytok|]. apply (ycds_one 4 JRCu YTok); [ytok|]. apply cds_nil.
    - exists [3; 18; 4], 3, [YTok; YEvent (somes l); YTok]. split; [apply in_prods; vm_compute; reflexivity|]. split; [lia|].
      split; [|reflexivity]. apply (ycds_one 3 JLCu YTok); [ytok|]. apply cds_cons.
      + eapply cd_mono; [apply ycd_loop; exact H|cbn; lia].
      + apply (ycds_one 4 JRCu YTok); [ytok|]. apply cds_nil. }
  destruct D as (ss & k & vs & I & Bk & D & A).
  destruct (parse_complete ep_tables ep_code ep_lval YTok ep_act esym_ok 83 ep_stos ep_preds ep_rhs ep_weights 17 2 4
    e_sound_checked espec event_of espec_token espec_rule ep_prods ep_first ep_expects (fun x => x) e_complete_checked
    ss k ts vs YTok (somes l) 26 2 I Bk D A eq_refl) as (m & [H'|(_ & B)]).
  - reflexivity.
  - cbn. lia.
  - reflexivity.
  - discriminate.
  - reflexivity.
  - exact (run_same ep_tables ep_code ep_lval YTok ep_act _ _ _ _ _ _ _ E H').
  - exfalso. unfold YYMAXDEPTH in B. lia.
Qed.

Theorem zzparse_ok ts : exists o, zzparse ts = Ok o /\
  match o with
  | Accepted r => exists l, e_event ts l /\ r = Some (somes l)
  | Rejected => forall l, ~ e_event ts l
  | Exhausted => forall l, ~ e_event ts l
  end.
Proof.
  destruct (zz_done ts) as (o & E & S & C). exists o. split; [exact E|].
  destruct o as [r| |].
  - destruct (S r eq_refl) as (r0 & -> & l & H & ->). now exists l.
  - intros l H. discriminate (C _ (ex_intro _ l (conj H eq_refl))).
  - intros l H. discriminate (C _ (ex_intro _ l (conj H eq_refl))).
Qed.
