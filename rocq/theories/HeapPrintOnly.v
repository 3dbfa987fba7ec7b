(** What can be said when printing succeeds. *)
From Coq Require Import ZArith NArith Ascii String Bool List Lia Permutation.
From Verif Require Import Base Float Value Ast Printer Flex Ledger HeapExpr HeapSpec HeapEvent HeapEventSpec PermTac LedgerProofs HeapProofs FlexBuffer HeapPrint HeapPrintProofs.
Import ListNotations.
Local Open Scope Z_scope.
Local Open Scope string_scope.
Local Open Scope list_scope.

(** If the command ends, its value satisfies R. *)
Definition only {A} (c : cmd A) (R : A -> Prop) : Prop := forall m x m', c m = Ok (x, m') -> R x.
Lemma only_then {A B} (c : cmd A) (k : A -> cmd B) P R : only c P -> (forall x, P x -> only (k x) R) -> only (then_ c k) R.
Proof.
  intros Hc Hk m x m' E. unfold then_ in E. destruct (c m) as [[a m1]| | |] eqn:Ec; try discriminate E. cbn [bind] in E.
  now apply (Hk a (Hc _ _ _ Ec) m1 x m').
Qed.
Lemma only_any {A} (c : cmd A) : only c (fun _ => True).
Proof. now intros m x m' _. Qed.
Lemma only_ret {A} (a : A) (R : A -> Prop) : R a -> only (ret a) R.
Proof. intros H m x m' E. now injection E as <- <-. Qed.
Lemma only_fail {A} (r : result A) (R : A -> Prop) : (forall a, r = Ok a -> R a) -> only (fail r) R.
Proof. intros H m x m' E. unfold fail in E. destruct r; try discriminate E. injection E as <- <-. now apply H. Qed.
Lemma only_mono {A} (c : cmd A) (P R : A -> Prop) : only c P -> (forall x, P x -> R x) -> only c R.
Proof. intros Hc H m x m' E. eapply H, Hc, E. Qed.
Lemma only_arg s : only (arg s) (fun t => t = hs_text s /\ hs_at s <> 0).
Proof.
  unfold arg. destruct (Z.eqb_spec (hs_at s) 0); [apply only_fail; discriminate|].
  eapply only_then; [apply only_any|]. intros _ _. now apply only_ret.
Qed.
Lemma only_print s : only (basprintf s) (fun h => hs_text h = s /\ short s).
Proof.
  unfold basprintf, short. destruct (Z.ltb_spec INT_MAX (Z.of_nat (String.length s))); [apply only_fail; discriminate|].
  destruct (Z.eqb_spec (Z.of_nat (String.length s)) INT_MAX); [apply only_fail; discriminate|].
  eapply only_then; [apply only_any|]. intros a _. apply only_ret. split; [reflexivity|]. lia.
Qed.

Section Join.
Context {A : Type} (show : A -> cmd string) (f : A -> string).
Hypothesis Show : forall x, only (show x) (fun t => t = f x).
Lemma join_rest_only l : forall str i, only (join_loop show str (S i) l) (fun h => hs_text h = (hs_text str ++ rest_text f l)%string).
Proof.
  induction l as [|x l IH]; intros str i; cbn [join_loop rest_text].
  - apply only_ret. now rewrite append_nil.
  - apply only_then with (fun h => hs_text h = (hs_text str ++ ", " ++ f x)%string).
    + eapply only_then; [apply only_arg|]. intros a (-> & _). eapply only_then; [apply Show|]. intros b ->.
      eapply only_then; [apply only_print|]. intros h (E & _). eapply only_then; [apply only_any|]. intros _ _. now apply only_ret.
    + intros h E. eapply only_mono; [apply IH|]. intros h' ->. now rewrite E, !append_assoc.
Qed.
Lemma join_only l : only (join_loop show NULL 0 l) (fun h => hs_at h <> 0 -> l <> [] /\ hs_text h = show_items f l).
Proof.
  destruct l as [|x l]; [apply only_ret; easy|]. cbn [join_loop]. apply only_then with (fun h => hs_text h = f x).
  - eapply only_then; [apply Show|]. intros b ->. eapply only_mono; [apply only_print|]. now intros h (E & _).
  - intros h E. eapply only_mono; [apply join_rest_only|]. intros h' E' _. split; [easy|]. now rewrite E', E, items_rest.
Qed.
End Join.
Section Texts.
Context {A : Type} (text : A -> cmd hstr) (R : A -> string -> Prop).
Hypothesis Text : forall x, only (text x) (fun h => R x (hs_text h)).
Lemma texts_rest_only l : forall str i, only (join_texts text str (S i) l)
  (fun h => exists ts, Forall2 R l ts /\ hs_text h = (hs_text str ++ rest_text (fun t => t) ts)%string).
Proof.
  induction l as [|x l IH]; intros str i; cbn [join_texts].
  - apply only_ret. exists []. split; [constructor|]. cbn. now rewrite append_nil.
  - eapply only_then; [apply Text|]. intros p Rp. apply only_then with (fun h => hs_text h = (hs_text str ++ ", " ++ hs_text p)%string).
    + eapply only_then; [apply only_arg|]. intros a (-> & _). eapply only_then; [apply only_arg|]. intros b (-> & _).
      eapply only_then; [apply only_print|]. intros h (E & _). eapply only_then; [apply only_any|]. intros _ _. now apply only_ret.
    + intros h E. eapply only_then; [apply only_any|]. intros _ _. eapply only_mono; [apply IH|]. intros h' (ts & F & E').
      exists (hs_text p :: ts). split; [now constructor|]. cbn [rest_text]. now rewrite E', E, !append_assoc.
Qed.
Lemma texts_only l : only (join_texts text NULL 0 l)
  (fun h => hs_at h <> 0 -> l <> [] /\ exists ts, Forall2 R l ts /\ hs_text h = show_items (fun t => t) ts).
Proof.
  destruct l as [|x l]; [apply only_ret; easy|]. cbn [join_texts]. eapply only_then; [apply Text|]. intros p Rp.
  apply only_then with (fun h => hs_text h = hs_text p).
  - eapply only_then; [apply only_arg|]. intros b (-> & _). eapply only_mono; [apply only_print|]. now intros h (E & _).
  - intros h E. eapply only_then; [apply only_any|]. intros _ _. eapply only_mono; [apply texts_rest_only|].
    intros h' (ts & F & E') _. split; [easy|]. exists (hs_text p :: ts). split; [now constructor|]. now rewrite items_rest, E', E.
Qed.
End Texts.

Lemma ints_only x : only (h_ints_text x) (fun h => hs_at h <> 0 -> hi_items x <> [] /\ hs_text h = show_items show_Z (hi_items x)).
Proof.
  eapply only_then; [apply only_any|]. intros _ _. apply join_only. intros z. eapply only_then; [apply only_any|]. intros _ _. now apply only_ret.
Qed.
Lemma strs_only x : only (h_strs_text x) (fun h => hs_at h <> 0 -> hl_items x <> [] /\ hs_text h = show_items str_text (hl_items x)).
Proof.
  eapply only_then; [apply only_any|]. intros _ _. apply join_only. intros z. eapply only_then; [apply only_any|]. intros _ _.
  eapply only_then; [apply only_arg|]. intros t (-> & _). now apply only_ret.
Qed.
Lemma parens_only c (P : string -> Prop) : only c (fun h => hs_at h <> 0 -> P (hs_text h)) ->
  only (h_parens c) (fun h => exists t, P t /\ hs_text h = ("(" ++ t ++ ")")%string).
Proof.
  intros Hc. eapply only_then; [apply Hc|]. intros s Ps. eapply only_then; [apply only_arg|]. intros a (-> & N).
  eapply only_then; [apply only_print|]. intros h (E & _). eapply only_then; [apply only_any|]. intros _ _. apply only_ret. eauto.
Qed.
Lemma show_list_ok {A} (f : A -> string) l : l <> [] -> show_list f l = Ok ("(" ++ show_items f l ++ ")")%string.
Proof. now destruct l. Qed.
Lemma strs_list x : hl_items x <> [] -> show_list (fun s => show_str (sv_string s)) (er_strs x) = Ok ("(" ++ show_items str_text (hl_items x) ++ ")")%string.
Proof. intros N. rewrite <- strs_items. apply show_list_ok. unfold er_strs. now destruct (hl_items x). Qed.

(** ** Expressions *)
Lemma qval_only q : only (h_show_qval q) (fun h => hs_text h = show_qval (er_qval q)).
Proof.
  destruct q; cbn [h_show_qval]; try (eapply only_mono; [apply only_print|]; now intros h (E & _)).
  eapply only_then; [apply only_arg|]. intros t (-> & _). eapply only_mono; [apply only_print|]. now intros h (E & _).
Qed.
Lemma left_only x : only (h_show_left x) (fun h => hs_text h = show_left (er_left x)).
Proof.
  destruct x; cbn [h_show_left]; [eapply only_mono; [apply only_print|]; now intros h (E & _)|..];
    (eapply only_then; [apply only_arg|]; intros t (-> & _); eapply only_mono; [apply only_print|]; now intros h (E & _)).
Qed.
Lemma right_only x : only (h_show_right x) (fun h => show_right (er_right x) = Ok (hs_text h)).
Proof.
  destruct x as [x|x|v]; cbn [h_show_right er_right show_right].
  - eapply only_mono; [apply (parens_only _ (fun t => hi_items x <> [] /\ t = show_items show_Z (hi_items x)) (ints_only x))|].
    intros h (t & (N & ->) & ->). now apply show_list_ok.
  - eapply only_mono; [apply (parens_only _ (fun t => hl_items x <> [] /\ t = show_items str_text (hl_items x)) (strs_only x))|].
    intros h (t & (N & ->) & ->). now apply strs_list.
  - eapply only_then; [apply only_arg|]. intros t (-> & _). eapply only_mono; [apply only_print|]. intros h (E & _). now rewrite E.
Qed.
Lemma lval_only x : only (h_show_lval x) (fun h => show_lval (er_lval x) = Ok (hs_text h)).
Proof. destruct x as [x|x]; [apply (right_only (HRInts x))|apply (right_only (HRStrs x))]. Qed.
(** Texts that are copies: bstrdup has no limit. *)
Definition word (p : hleaf) : Prop := match p with HPLit _ | HPVar _ => True | _ => False end.
Definition a_word (e : hexpr) : Prop := match e with HLeaf _ _ p => word p | _ => False end.
Ltac ostep :=
  match goal with
  | |- only (then_ (arg _) _) _ => eapply only_then; [apply only_arg|]; intros ? (-> & _)
  | |- only (then_ (free _) _) _ => eapply only_then; [apply only_any|]; intros ? _
  | |- only (then_ (use _) _) _ => eapply only_then; [apply only_any|]; intros ? _
  | |- only (then_ (basprintf _) _) _ => let h := fresh "h" in let E := fresh "E" in let B := fresh "B" in eapply only_then; [apply only_print|]; intros h (E & B)
  | |- only (basprintf _) _ => let h := fresh "h" in let E := fresh "E" in let B := fresh "B" in eapply only_mono; [apply only_print|]; intros h (E & B)
  | |- only (ret _) _ => apply only_ret
  end.
Ltac final := cbn [bind] in *; repeat match goal with E : hs_text _ = _ |- _ => rewrite E in * end; (split; [reflexivity|left; assumption]).
Lemma leaf_only p : only (h_show_leaf p) (fun h => show_leaf (er_leaf p) = Ok (hs_text h) /\ (short (hs_text h) \/ word p)).
Proof.
  destruct p as [b|v|op v c|op v q|op x y|op v x|op v|v ty ns va n now id|op h v id s now|h a b c v w|op v s];
    cbn [h_show_leaf er_leaf show_leaf].
  - eapply only_then; [apply only_any|]. intros a _. apply only_ret. split; [reflexivity|right; exact Logic.I].
  - eapply only_then; [apply only_any|]. intros _ _. eapply only_then; [apply only_any|]. intros a _. apply only_ret. split; [reflexivity|right; exact Logic.I].
  - repeat ostep. final.
  - eapply only_then; [apply qval_only|]. intros u Eu. repeat ostep. final.
  - eapply only_then; [apply left_only|]. intros u Eu. eapply only_then; [apply right_only|]. intros w Ew. repeat ostep. rewrite Ew. final.
  - eapply only_then; [apply lval_only|]. intros w Ew. repeat ostep. rewrite Ew. final.
  - repeat ostep. final.
  - eapply only_then; [apply only_fail with (R := fun a => show_ftype ty = Ok a); now intros a|]. intros t Et. repeat ostep. rewrite Et. final.
  - repeat ostep. final.
  - repeat ostep. final.
  - repeat ostep. final.
Qed.
Lemma ast_only e : only (h_ast_to_string e) (fun h => ast_to_string (er_expr e) = Ok (hs_text h) /\ (short (hs_text h) \/ a_word e)).
Proof.
  induction e as [a g p|a g x IHx y IHy|a g x IHx y IHy|a g x IHx]; cbn [h_ast_to_string er_expr ast_to_string a_word]; ostep.
  - apply leaf_only.
  - eapply only_then; [apply IHx|]. intros u (Eu & _). eapply only_then; [apply IHy|]. intros w (Ew & _). repeat ostep. rewrite Eu, Ew. final.
  - eapply only_then; [apply IHx|]. intros u (Eu & _). eapply only_then; [apply IHy|]. intros w (Ew & _). repeat ostep. rewrite Eu, Ew. final.
  - eapply only_then; [apply IHx|]. intros u (Eu & _). repeat ostep. rewrite Eu. final.
Qed.
