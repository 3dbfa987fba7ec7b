(** The actions of the grammar of events: the value with pointers is like the one without, and owns what was made. *)
From Coq Require Import ZArith NArith String Bool List Lia Permutation ZifyBool ZifyNat.
From Verif Require Import Base Float Value Ast Lexer EventGrammar Flex Bison BisonTables BisonData BisonProofs BisonEvent EventObj.
From Verif Require Import Ledger HeapExpr HeapSpec HeapEvent HeapEventSpec PermTac LedgerProofs HeapProofs HeapParse HeapRules HeapEventProofs.
Import ListNotations.
Local Open Scope Z_scope.
Local Open Scope list_scope.

(** The value with pointers is like the value without. *)
Definition e_like (h : heval) (y : eval) : Prop :=
  match h, y with
  | GTok, YTok => True
  | GBool a, YBool b => a = b
  | GInt a, YInt b => a = b
  | GFlt a, YFlt b => a = b
  | GString a, YString s => hs_text a = s
  | GStr a, YStr s => er_sval a = mk_str s
  | GInts a, YInts b => hi_items a = b
  | GStrs a, YStrs b => er_strs a = map mk_str b
  | GSeg a, YSeg b => hg_seg a = b
  | GSegs a, YSegs b => map hg_seg (hgs_items a) = b
  | GCap a, YCap b => er_cap a = b
  | GCaps a, YCaps b => map er_cap (hcs_items a) = b
  | GValue a, YValue b => er_value a = b
  | GVariable a, YVariable b => option_map er_variable a = b
  | GEvent a, YEvent b => er_event a = map Some b /\ (he_vars a = [] -> he_arr a = 0)
  | _, _ => False
  end.
Definition e_likeR (a : hevent) (b : list (string * value)) : Prop := er_event a = map Some b.
(** Tokens with a string; the values that are followed have blocks or stand for a name that was released. *)
Definition e_heavy (t : etoken) : Prop := match t with JStr _ => True | _ => False end.
Definition e_hv (v : heval) : Prop := match v with GVariable None => True | _ => bl_eval v <> [] end.
Definition e_hvR (e : hevent) : Prop := bl_event e <> [].

Lemma e_scan_ok t m l : holds m l ->
  wp (ep_scan t) m (fun v m' => (e_like v (ep_lval t) /\ (e_heavy t -> e_hv v)) /\ holds m' (bl_eval v ++ l)).
Proof.
  intros H. destruct t; cbn [ep_scan]; repeat lstep; (split; [split; [reflexivity || exact I|]|]); cbn; try easy.
Qed.

Lemma e_loop_some {A} (g : list etoken -> A -> Prop) w l : e_loop g w l -> l <> [].
Proof. intros [a z G|a l0 b z G1 G2]; [discriminate|]. now destruct l0. Qed.

Ltac he_unfold :=
  cbv beta iota delta [he_act he_act0 g_bool g_int g_flt g_string g_str g_ints g_strs g_seg g_segs g_cap g_caps g_value g_variable g_event g_arg arg
    nth_error Nat.sub h_make_pred h_make_event h_make_segment h_make_segs h_make_cap h_make_caps h_make_ints h_make_strs].

Lemma e_act_ok k x w vs vs' m l : at_ (p_r1 ep_tables) k = Ok x -> specs espec (right ep_rhs k) w vs -> 2 <= k ->
  Forall2 e_like vs' vs -> holds m (flat_map bl_eval vs' ++ l) ->
  wp (he_act k vs') m (fun vo m' => exists v o, ep_act k vs = Ok (v, o) /\ e_like (fst vo) v /\
    if x =? 17 then exists r r', o = Some r /\ snd vo = Some r' /\ e_likeR r' r /\ (Exists e_hv vs' -> e_hvR r') /\ holds m' (bl_event r' ++ l)
    else o = None /\ snd vo = None /\ (Exists e_hv vs' -> e_hv (fst vo)) /\ holds m' (bl_eval (fst vo) ++ l)).
Proof.
  intros E S B L H.
  assert (I : In k (map (fun i => Z.of_nat (2 + i)) (seq 0 38))).
  { apply in_map_iff. exists (Z.to_nat (k - 2)). split; [lia|]. apply in_seq. split; [lia|].
    unfold at_ in E. destruct (k <? 0); [discriminate E|].
    destruct (nth_error (p_r1 ep_tables) (Z.to_nat k)) eqn:N; [|discriminate E].
    assert (Z.to_nat k < List.length (p_r1 ep_tables))%nat by (apply nth_error_Some; congruence).
    change (List.length (p_r1 ep_tables)) with 40%nat in *. lia. }
  match type of I with In k ?L => let L' := eval vm_compute in L in change L with L' in I end.
  repeat (destruct I as [<-|I]; [
    (match type of E with ?a = _ => let b := eval vm_compute in a in change a with b in E end);
    (match type of S with context [right ?a ?b] => let c := eval vm_compute in (right a b) in change (right a b) with c in S end);
    injection E as <-;
    repeat match goal with
    | H : specs _ [] _ _ |- _ => inversion H; clear H; subst
    | H : specs _ (_ :: _) _ _ |- _ => inversion H; clear H; subst
    end;
    repeat match goal with
    | H : espec _ _ _ |- _ => cbn [espec] in H
    | H : epunct _ _ _ |- _ => destruct H as (-> & ->)
    | H : exists _, _ |- _ => let y := fresh "y" in destruct H as (y & H)
    | H : _ /\ _ |- _ => destruct H as (? & H); subst
    end; subst;
    repeat match goal with
    | H : Forall2 e_like _ [] |- _ => inversion H; clear H; subst
    | H : Forall2 e_like _ (_ :: _) |- _ => inversion H; clear H; subst
    end;
    repeat match goal with H : e_like ?h _ |- _ => is_var h; destruct h; cbn [e_like] in H; try contradiction end;
    repeat match goal with H : _ /\ _ |- _ => destruct H end;
    cbn [flat_map bl_eval] in *; unfold bl_sval in *; he_unfold; cbn [app] in *;
    repeat first [lstep|mstep|progress cbv beta iota]
    |]).
  all: try contradiction.
  (* the lists *)
  all: try match goal with
    | H : holds ?m _ |- wp (h_add_int _ (mkHI ?a 0 [])) ?m _ =>
        apply add_int_ok with (l := a :: l) (l' := l); [eapply holds_perm; [exact H|perm]|reflexivity|now right|]
    | H : holds ?m _, G : e_loop e_int _ _ |- wp (h_add_int _ ?a) ?m _ =>
        apply add_int_ok with (l := bl_ints a ++ l) (l' := l);
          [eapply holds_perm; [exact H|perm]|reflexivity|left; apply e_loop_some in G; congruence|]
    | H : holds ?m _ |- wp (h_add_str ?s (mkHL ?a 0 [])) ?m _ =>
        apply add_str_ok with (l := a :: bl_sval s ++ l) (l' := l); [eapply holds_perm; [exact H|unfold bl_sval; perm]|reflexivity|now right|]
    | H : holds ?m _, G : e_loop e_str _ _, E : er_strs ?a = _ |- wp (h_add_str ?s ?a) ?m _ =>
        apply add_str_ok with (l := bl_strs a ++ bl_sval s ++ l) (l' := l);
          [eapply holds_perm; [exact H|unfold bl_sval; perm]|reflexivity
          |left; apply e_loop_some in G; intros E'; unfold er_strs in E; rewrite E' in E;
            match type of E with _ = map _ ?z => destruct z end; [now apply G|discriminate E]|]
    | H : holds ?m _ |- wp (h_add_seg ?s (mkHGs ?a 0 [])) ?m _ =>
        apply add_seg_ok with (l := a :: hg_at s :: l) (l' := l); [eapply holds_perm; [exact H|perm]|reflexivity|now right|]
    | H : holds ?m _, G : e_loop e_seg _ _ |- wp (h_add_seg ?s ?a) ?m _ =>
        apply add_seg_ok with (l := bl_segs a ++ hg_at s :: l) (l' := l);
          [eapply holds_perm; [exact H|perm]|reflexivity
          |left; subst; apply e_loop_some in G; intros E'; rewrite E' in G; now apply G|]
    | H : holds ?m _ |- wp (h_add_cap ?s (mkHCs ?a 0 [])) ?m _ =>
        apply add_cap_ok with (l := a :: bl_cap s ++ l) (l' := l); [eapply holds_perm; [exact H|perm]|reflexivity|now right|]
    | H : holds ?m _, G : e_loop e_cap _ _ |- wp (h_add_cap ?s ?a) ?m _ =>
        apply add_cap_ok with (l := bl_caps a ++ bl_cap s ++ l) (l' := l);
          [eapply holds_perm; [exact H|perm]|reflexivity
          |left; subst; apply e_loop_some in G; intros E'; rewrite E' in G; now apply G|]
    | H : holds ?m _ |- wp (h_add_variable ?x (mkHE ?a 0 [])) ?m _ =>
        apply add_variable_ok with (l := a :: bl_slot x ++ l) (l' := l); [eapply holds_perm; [exact H|perm]|reflexivity|reflexivity|]
    | H : holds ?m _ |- wp (h_add_variable ?x ?a) ?m _ =>
        apply add_variable_ok with (l := bl_event a ++ bl_slot x ++ l) (l' := l); [eapply holds_perm; [exact H|perm]|reflexivity|assumption|]
    end.
  all: try match goal with
    | |- forall b m', _ -> holds _ _ -> _ => let b := fresh "b" in let m' := fresh "m" in let E := fresh "E" in
        let H' := fresh "H" in intros b m' E H'; repeat lstep
    | |- forall b m', _ -> _ -> holds _ _ -> _ => let b := fresh "b" in let m' := fresh "m" in let E := fresh "E" in
        let N := fresh "N" in let H' := fresh "H" in intros b m' E N H'; repeat lstep
    end.
  all: eexists; eexists; split; [reflexivity|].
  all: cbn [Z.eqb Pos.eqb fst snd].
  all: split; [cbn [e_like]; try easy|].
  all: try match goal with H : holds _ _ |- None = None /\ _ => split; [reflexivity|split; [reflexivity|split;
    [|eapply holds_perm; [exact H|cbn [bl_eval bl_value bl_slot]; unfold bl_variable, bl_cap, bl_sval; cbn [hw_string hc_ns hc_at hy_at hy_attr hv_attr hy_value]; perm]]]] end.
  all: try (intros X; repeat (apply Exists_cons in X; destruct X as [X|X]); try (inversion X; fail); cbn [e_hv bl_eval] in X |- *;
    first [exact I | easy | now apply X | congruence]).
  all: try (cbn [er_value]; congruence).
  all: try (cbn [er_value]; now repeat match goal with H : _ = _ |- _ => rewrite H end).
  all: try (subst; cbn [er_value er_sval option_map er_variable hg_seg]; try reflexivity; unfold er_variable, hy_name, er_sval, mk_str in *; cbn; congruence).
  all: try (subst; repeat match goal with E : hgs_items _ = _ |- _ => rewrite E | E : hcs_items _ = _ |- _ => rewrite E | E : hi_items _ = _ |- _ => rewrite E end;
    rewrite ?map_app; reflexivity).
  - exists [], (mkHE a 0 []). repeat (split; [reflexivity|]). split; [intros _; unfold e_hvR, bl_event; discriminate|]. cbn. exact H0.
  - exists (somes y), e. repeat (split; [reflexivity|]). split; [assumption|]. split; [intros _; unfold e_hvR, bl_event; discriminate|].
    eapply holds_perm; [exact H|perm].
  - split; [|assumption]. unfold er_event. match goal with E : he_vars _ = _ |- _ => rewrite E end. destruct x as [x|];
      match goal with E : option_map _ _ = _ |- _ => cbn in E; rewrite <- E end; reflexivity.
  - split; [|assumption]. unfold er_event in *. match goal with E : he_vars b0 = _ |- _ => rewrite E end. rewrite map_app.
    match goal with E : map _ _ = map Some (somes y0) |- _ => rewrite E end.
    destruct x1 as [x1|]; match goal with E : option_map _ _ = _ |- _ => cbn in E; rewrite <- E end; cbn [map option_map add_variable].
    + now rewrite map_app.
    + now rewrite app_nil_r.
  - cbn [option_map]. unfold er_variable, hy_name. cbn [hy_attr hv_attr hy_value]. now repeat match goal with H : _ = _ |- _ => rewrite H end.
  - match goal with E : er_strs b0 = _, F : er_sval _ = _, G : er_strs _ = map _ _ |- _ => rewrite E, F, G end. now rewrite map_app.
  - subst. unfold er_cap, make_cap. cbn [hc_type hc_id hc_ns hc_tsdef hc_ts hc_value]. congruence.
  - subst. unfold er_cap, make_cap. cbn [hc_type hc_id hc_ns hc_tsdef hc_ts hc_value]. congruence.
Qed.
