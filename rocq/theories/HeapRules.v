(** The actions of the grammar of expressions: the value with pointers is like the one without, and owns what was made. *)
From Coq Require Import ZArith NArith String Bool List Lia Permutation ZifyBool ZifyNat.
From Verif Require Import Base Float Value Ast Lexer Grammar Flex Bison BisonTables BisonData BisonProofs BisonExpr.
From Verif Require Import Ledger HeapExpr HeapSpec PermTac LedgerProofs HeapProofs HeapParse.
Import ListNotations.
Local Open Scope Z_scope.
Local Open Scope list_scope.

Definition left_named (l : hleft) : Prop := match l with HLVar v => has_name v | _ => True end.
Definition right_named (r : hright) : Prop := match r with HRVar v => has_name v | _ => True end.
(** All names are there. *)
Definition full_leaf (p : hleaf) : Prop :=
  named_leaf p /\
  match p with
  | HPFreq _ _ _ _ _ now _ | HPSeg _ _ _ _ _ now => has_name now
  | HPGeo _ _ _ _ latv lonv => has_name latv /\ has_name lonv
  | _ => True
  end.
Fixpoint full (e : hexpr) : Prop :=
  match e with
  | HLeaf _ _ p => full_leaf p
  | HAnd _ _ x y | HOr _ _ x y => full x /\ full y
  | HNot _ _ x => full x
  end.
Lemma full_named e : full e -> named e.
Proof. induction e; cbn [full named]; [intros (N & _); exact N|intros (A & B); split; auto..|assumption]. Qed.
(** The value with pointers is like the value without. *)
Definition like (h : hval) (x : xval) : Prop :=
  match h, x with
  | HTok, XTok => True
  | HString a, XString s => hs_text a = s
  | HInt a, XInt b => a = b
  | HFlt a, XFlt b => a = b
  | HInts a, XInts b => hi_items a = b
  | HStrs a, XStrs b => er_strs a = map mk_str b
  | HStr a, XStr s => er_sval a = mk_str s
  | HCmp a, XCmp b => a = b
  | HEq a, XEq b => er_qval a = b
  | HVar a, XVar b => er_var a = mk_var b /\ has_name a
  | HLeft a, XLeft b => er_left a = b /\ left_named a
  | HRight a, XRight b => er_right a = b /\ right_named a
  | HList a, XList b => er_lval a = b
  | HNode a, XNode b => er_expr a = b /\ full a
  | _, _ => False
  end.
Definition likeR (a : hexpr) (b : expr) : Prop := er_expr a = b /\ full a.
(** Tokens with a string. *)
Definition heavy (t : token) : Prop := match t with KStr _ | KIdent _ => True | _ => False end.

Lemma x_scan_ok t m l : holds m l ->
  wp (xp_scan t) m (fun v m' => (like v (xp_lval t) /\ (heavy t -> bl_val v <> [])) /\ holds m' (bl_val v ++ l)).
Proof.
  intros H. destruct t; cbn [xp_scan]; repeat lstep; (split; [split; [reflexivity || exact I|]|]); cbn; try easy.
Qed.

(** Lists in the text are not empty. *)
Lemma int_loop_some w l : g_int_loop w l -> l <> [].
Proof. intros [a z G|a l0 b z G1 G2]; [discriminate|]. now destruct l0. Qed.
Lemma str_loop_some w l : g_str_loop w l -> l <> [].
Proof. intros [s|a l0 s G]; [discriminate|]. now destruct l0. Qed.
Lemma add_int_ok z a m l l' (Q : hints -> ledger -> Prop) : holds m l -> Permutation l (bl_ints a ++ l') -> hi_items a <> [] \/ hi_arr a = 0 ->
  (forall b m', hi_items b = hi_items a ++ [z] -> holds m' (bl_ints b ++ l') -> Q b m') -> wp (h_add_int z a) m Q.
Proof.
  intros H P N HQ. apply (holds_perm _ _ _ H) in P. clear H. unfold h_add_int, bl_ints in *. cbn [app] in P. lstep. lstep.
  destruct (hi_items a) as [|i r] eqn:E.
  - destruct N as [N|N]; [easy|]. rewrite N in P. change (opt_at 0) with (@nil Z) in P. cbn [app] in P. lstep. lstep. lstep. apply HQ; [reflexivity|]. cbn. eapply holds_perm; [exact H|perm].
  - lstep. lstep. lstep. apply HQ; [reflexivity|]. cbn. eapply holds_perm; [exact H|perm].
Qed.
Lemma add_str_ok s a m l l' (Q : hstrs -> ledger -> Prop) : holds m l -> Permutation l (bl_strs a ++ bl_sval s ++ l') -> hl_items a <> [] \/ hl_arr a = 0 ->
  (forall b m', er_strs b = er_strs a ++ [er_sval s] -> holds m' (bl_strs b ++ l') -> Q b m') -> wp (h_add_str s a) m Q.
Proof.
  intros H P N HQ. apply (holds_perm _ _ _ H) in P. clear H. unfold h_add_str, bl_strs, er_strs in *. cbn [app] in P. lstep. lstep.
  destruct (hl_items a) as [|i r] eqn:E.
  - destruct N as [N|N]; [easy|]. rewrite N in P. change (opt_at 0) with (@nil Z) in P. cbn [app] in P. lstep. lstep. lstep. apply HQ; [reflexivity|].
    cbn [hl_items hl_at hl_arr flat_map]. eapply holds_perm; [exact H|cbn [flat_map]; perm].
  - lstep. lstep. lstep. apply HQ; [cbn; now rewrite map_app|].
    cbn [hl_items hl_at hl_arr flat_map app]. rewrite flat_map_app. eapply holds_perm; [exact H|cbn [flat_map]; perm].
Qed.
Lemma make_ok s m l l' (Q : hvar -> ledger -> Prop) : holds m l -> Permutation l (hs_at s :: l') ->
  (forall v m', er_var v = mk_var (hs_text s) -> has_name v -> holds m' (bl_var v ++ l) -> Q v m') -> wp (h_make_attr_var s) m Q.
Proof.
  intros H P HQ. eapply wp_mono; [exact (make_attr_ok s m l l' H P)|]. intros v m' ((E & N) & H'). now apply HQ.
Qed.
Lemma make_lit s m l (Q : hvar -> ledger -> Prop) : holds m l ->
  (forall v m', er_var v = mk_var s -> has_name v -> holds m' (bl_var v ++ l) -> Q v m') -> wp (h_make_attr_lit s) m Q.
Proof.
  intros H HQ. eapply wp_mono; [exact (make_lit_ok s m l l H ltac:(reflexivity))|]. intros v m' ((E & N) & H'). now apply HQ.
Qed.
Lemma dup_ok s m l l' (Q : hstr -> ledger -> Prop) : holds m l -> Permutation l (hs_at s :: l') ->
  (forall x m', hs_text x = hs_text s -> hs_at x <> 0 -> holds m' (hs_at x :: l) -> Q x m') -> wp (bstrdup s) m Q.
Proof.
  intros H P HQ. eapply wp_mono; [exact (bstrdup_ok s m l l' H P)|]. intros v m' ((E & N) & H'). now apply HQ.
Qed.

Ltac mstep :=
  match goal with
  | H : holds ?m ?l |- wp (h_make_attr_var ?s) ?m _ => let l' := without constr:(hs_at s) l in
      let v := fresh "v" in let m' := fresh "m" in let E := fresh "E" in let N := fresh "N" in let H' := fresh "H" in
      apply make_ok with l l'; [exact H|perm|]; intros v m' E N H'; clear H
  | H : holds ?m ?l |- wp (bstrdup ?s) ?m _ => let l' := without constr:(hs_at s) l in
      let v := fresh "v" in let m' := fresh "m" in let E := fresh "E" in let N := fresh "N" in let H' := fresh "H" in
      apply dup_ok with l l'; [exact H|perm|]; intros v m' E N H'; clear H
  | H : holds ?m ?l |- wp (h_make_attr_lit ?s) ?m _ =>
      let v := fresh "v" in let m' := fresh "m" in let E := fresh "E" in let N := fresh "N" in let H' := fresh "H" in
      apply make_lit with l; [exact H|]; intros v m' E N H'; clear H
  | H : holds ?m ?l |- wp (h_score ?e) ?m _ => let l' := apart constr:(blocks e) l in
      apply score_ok with l l'; [exact H|perm|]
  | H : holds ?m ?l |- wp (h_add_int ?z ?a) ?m _ =>
      let v := fresh "v" in let m' := fresh "m" in let E := fresh "E" in let H' := fresh "H" in
      eapply add_int_ok with (l := l); [exact H| | |]; [ | |intros v m' E H'; clear H]
  end.
Ltac hx_unfold :=
  cbv beta iota delta [hx_act hx_act0 a_string a_int a_flt a_ints a_strs a_str a_cmp a_eq a_var a_left a_right a_list a_node h_arg arg
    nth_error Nat.sub named_and_free string_and_free h_named h_leaf h_unary h_binary h_freq h_seg h_geo h_string h_make_ints h_make_strs].

Lemma x_act_ok k x w vs vs' m l : at_ (p_r1 xp_tables) k = Ok x -> specs xspec (right xp_rhs k) w vs -> 2 <= k ->
  Forall2 like vs' vs -> holds m (flat_map bl_val vs' ++ l) ->
  wp (hx_act k vs') m (fun vo m' => exists v o, xp_act k vs = Ok (v, o) /\ like (fst vo) v /\
    if x =? 38 then exists r r', o = Some r /\ snd vo = Some r' /\ likeR r' r /\
      (flat_map bl_val vs' <> [] -> blocks r' <> []) /\ holds m' (blocks r' ++ l)
    else o = None /\ snd vo = None /\ (flat_map bl_val vs' <> [] -> bl_val (fst vo) <> []) /\ holds m' (bl_val (fst vo) ++ l)).
Proof.
  intros E S B L H.
  assert (I : In k (map (fun i => Z.of_nat (2 + i)) (seq 0 75))).
  { apply in_map_iff. exists (Z.to_nat (k - 2)). split; [lia|]. apply in_seq. split; [lia|].
    unfold at_ in E. destruct (k <? 0); [discriminate E|].
    destruct (nth_error (p_r1 xp_tables) (Z.to_nat k)) eqn:N; [|discriminate E].
    assert (Z.to_nat k < List.length (p_r1 xp_tables))%nat by (apply nth_error_Some; congruence).
    change (List.length (p_r1 xp_tables)) with 77%nat in *. lia. }
  match type of I with In k ?L => let L' := eval vm_compute in L in change L with L' in I end.
  repeat (destruct I as [<-|I]; [
    (match type of E with ?a = _ => let b := eval vm_compute in a in change a with b in E end);
    (match type of S with context [right ?a ?b] => let c := eval vm_compute in (right a b) in change (right a b) with c in S end);
    injection E as <-;
    repeat match goal with
    | H : specs _ [] _ _ |- _ => inversion H; clear H; subst
    | H : specs _ (_ :: _) _ _ |- _ => inversion H; clear H; subst
    end;
    repeat match goal with
    | H : xspec _ _ _ |- _ => cbn [xspec] in H
    | H : punct _ _ _ |- _ => destruct H as (-> & ->)
    | H : exists _, _ |- _ => let y := fresh "y" in destruct H as (y & H)
    | H : _ /\ _ |- _ => destruct H as (? & H); subst
    end; subst;
    repeat match goal with
    | H : Forall2 like _ [] |- _ => inversion H; clear H; subst
    | H : Forall2 like _ (_ :: _) |- _ => inversion H; clear H; subst
    end;
    repeat match goal with H : like ?h _ |- _ => is_var h; destruct h; cbn [like] in H; try contradiction end;
    repeat match goal with H : _ /\ _ |- _ => destruct H end;
    cbn [flat_map bl_val] in *; unfold bl_sval in *; hx_unfold; cbn [app] in *;
    repeat first [lstep|mstep|progress cbv beta iota]
    |]).
  all: try contradiction.
  (* the lists *)
  all: try match goal with
    | H : holds ?m _ |- wp (h_add_int _ (mkHI ?a 0 [])) ?m _ =>
        apply add_int_ok with (l := a :: l) (l' := l); [eapply holds_perm; [exact H|perm]|reflexivity|now right|]
    | H : holds ?m _, G : g_int_loop _ _ |- wp (h_add_int _ ?a) ?m _ =>
        apply add_int_ok with (l := bl_ints a ++ l) (l' := l);
          [eapply holds_perm; [exact H|perm]|reflexivity|left; apply int_loop_some in G; congruence|]
    | H : holds ?m _ |- wp (h_add_str ?s (mkHL ?a 0 [])) ?m _ =>
        apply add_str_ok with (l := a :: bl_sval s ++ l) (l' := l); [eapply holds_perm; [exact H|unfold bl_sval; perm]|reflexivity|now right|]
    | H : holds ?m _, G : g_str_loop _ _, E : er_strs ?a = _ |- wp (h_add_str ?s ?a) ?m _ =>
        apply add_str_ok with (l := bl_strs a ++ bl_sval s ++ l) (l' := l);
          [eapply holds_perm; [exact H|unfold bl_sval; perm]|reflexivity
          |left; apply str_loop_some in G; intros E'; unfold er_strs in E; rewrite E' in E;
            match type of E with _ = map _ ?z => destruct z end; [now apply G|discriminate E]|]
    end.
  all: try match goal with |- forall b m', _ -> holds _ _ -> _ => let b := fresh "b" in let m' := fresh "m" in let E := fresh "E" in
    let H' := fresh "H" in intros b m' E H'; repeat lstep end.
  all: eexists; eexists; split; [reflexivity|].
  all: cbn [Z.eqb Pos.eqb fst snd].
  all: split; [cbn [like]; try (unfold likeR; easy)|].
  all: try match goal with H : holds _ _ |- None = None /\ _ => split; [reflexivity|split; [reflexivity|split;
    [|eapply holds_perm; [exact H|cbn [bl_val blocks bl_leaf bl_qval bl_left bl_right bl_lval hw_string]; unfold bl_sval; cbn [hw_string]; perm]]]] end.
  all: try (cbn [bl_val blocks bl_qval bl_left bl_right bl_lval]; intros N1; solve [discriminate | (rewrite app_nil_r in N1; exact N1) | now apply N1]).
  all: try (cbn [like er_expr er_leaf er_qval er_left er_right er_lval]; unfold er_sval, mk_leaf, mk_str, likeR in *; cbn; try split; solve [congruence | easy]).
  all: try (subst; cbn [er_qval er_left er_right er_lval left_named right_named]; try split; [f_equal; assumption|exact I]).
  all: try (subst; cbn [er_qval er_lval]; f_equal; assumption).
  - exists y, e. split; [reflexivity|]. split; [reflexivity|]. split; [now split|].
    split; [rewrite app_nil_r; easy|]. eapply holds_perm; [exact H|perm].
  - cbn in *. congruence.
  - match goal with E : er_strs b0 = _, F : er_sval _ = _, G : er_strs _ = map _ _ |- _ => rewrite E, F, G end. now rewrite map_app.
  - intros _. cbn. unfold bl_var. now rewrite (opt_at_some _ N).
  - unfold mk_and. subst. destruct (_ <? _); easy.
  - split; [reflexivity|]. split; [reflexivity|]. destruct (_ <? _); (split; [easy|]);
      (eapply holds_perm; [eassumption|cbn [bl_val blocks]; perm]).
  - unfold mk_or. subst. destruct (_ <? _); easy.
  - split; [reflexivity|]. split; [reflexivity|]. destruct (_ <? _); (split; [easy|]);
      (eapply holds_perm; [eassumption|cbn [bl_val blocks]; perm]).
  - subst. easy.
  - subst. unfold mk_leaf, mk_freq. cbn [er_expr er_leaf full]. split; [|now split].
    repeat match goal with E : er_var _ = _ |- _ => rewrite E; clear E | E : er_sval _ = _ |- _ => rewrite E; clear E end. reflexivity.
  - subst. unfold mk_leaf, mk_geo. cbn [er_expr er_leaf full]. split; [|now repeat split]. congruence.
  - subst. unfold mk_leaf, mk_geo. cbn [er_expr er_leaf full]. split; [|now repeat split]. congruence.
Qed.
