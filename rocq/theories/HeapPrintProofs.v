(** Printing in memory. *)
From Coq Require Import ZArith NArith Ascii String Bool List Lia Permutation.
From Verif Require Import Base Float Value Ast Printer Flex Ledger HeapExpr HeapSpec HeapEvent HeapEventSpec PermTac LedgerProofs HeapProofs FlexBuffer HeapPrint.
Import ListNotations.
Local Open Scope Z_scope.
Local Open Scope string_scope.
Local Open Scope list_scope.

(** Reading what is there. *)
Definition reading {A} (c : cmd A) (need : list Z) (t : A) : Prop :=
  forall m l, holds m l -> incl need l -> wp c m (fun x m' => x = t /\ m' = m).
(** A new string with the text [t]. *)
Definition gives (c : cmd hstr) (need : list Z) (t : string) : Prop :=
  forall m l, holds m l -> incl need l -> wp c m (fun s m' => hs_text s = t /\ hs_at s <> 0 /\ holds m' (hs_at s :: l)).
Definition short (s : string) : Prop := Z.of_nat (String.length s) < INT_MAX.

Lemma len_app (a b : string) : String.length (a ++ b) = (String.length a + String.length b)%nat.
Proof. induction a as [|c a IH]; [reflexivity|]. cbn. now rewrite IH. Qed.
Lemma short_l a b : short (a ++ b) -> short a.
Proof. unfold short. rewrite len_app. lia. Qed.
Lemma short_r a b : short (a ++ b) -> short b.
Proof. unfold short. rewrite len_app. lia. Qed.
Lemma append_assoc (a b c : string) : ((a ++ b) ++ c = a ++ b ++ c)%string.
Proof. induction a as [|x a IH]; [reflexivity|]. cbn. now rewrite IH. Qed.

Lemma append_nil (a : string) : (a ++ "" = a)%string.
Proof. induction a as [|x a IH]; [reflexivity|]. cbn. now rewrite IH. Qed.

Lemma wp_arg s m l (Q : string -> ledger -> Prop) : holds m l -> In (hs_at s) l -> Q (hs_text s) m -> wp (arg s) m Q.
Proof.
  intros H I HQ. unfold arg. pose proof (holds_pos _ _ _ H I). rewrite (proj2 (Z.eqb_neq _ _)) by lia. apply wp_then. apply wp_use with l; [exact H|exact I|]. now apply wp_ret.
Qed.
Lemma wp_print s m l (Q : hstr -> ledger -> Prop) : short s -> holds m l ->
  (forall a m', a <> 0 -> holds m' (a :: l) -> Q (mkHS a s) m') -> wp (basprintf s) m Q.
Proof.
  unfold short. intros B H HQ. unfold basprintf.
  rewrite (proj2 (Z.ltb_ge INT_MAX _)) by lia. rewrite (proj2 (Z.eqb_neq _ INT_MAX)) by lia.
  apply wp_then. apply wp_malloc with l; [exact H|]. intros a m' N H'. apply wp_ret. now apply HQ.
Qed.
Lemma wp_drop x m l (Q : unit -> ledger -> Prop) : holds m (x :: l) -> (forall m', holds m' l -> Q tt m') -> wp (free x) m Q.
Proof. intros H HQ. now apply wp_free with (x :: l) l. Qed.

(** ** Lists *)
Lemma items_concat {A} (f : A -> string) l : show_items f l = String.concat ", " (map f l).
Proof. induction l as [|a [|b l] IH]; [reflexivity|reflexivity|]. cbn [show_items map String.concat] in *. now rewrite IH. Qed.
(** The rest of a list that is not empty. *)
Fixpoint rest_text {A} (f : A -> string) (l : list A) : string :=
  match l with [] => "" | x :: t => ", " ++ f x ++ rest_text f t end.
Lemma items_rest {A} (f : A -> string) x l : show_items f (x :: l) = (f x ++ rest_text f l)%string.
Proof.
  revert x. induction l as [|y l IH]; intros x; [cbn; now rewrite append_nil|].
  change (show_items f (x :: y :: l)) with (f x ++ ", " ++ show_items f (y :: l))%string. now rewrite IH.
Qed.

Section Join.
Context {A : Type} (show : A -> cmd string) (f : A -> string) (need : list Z).
Lemma join_rest l : (forall x, In x l -> reading (show x) need (f x)) -> forall str i m k,
  short (hs_text str ++ rest_text f l) -> hs_at str <> 0 -> holds m (hs_at str :: k) -> incl need k ->
  wp (join_loop show str (S i) l) m (fun s m' => hs_text s = (hs_text str ++ rest_text f l)%string /\ hs_at s <> 0 /\ holds m' (hs_at s :: k)).
Proof.
  induction l as [|x l IH]; intros R str i m k B N H I; cbn [join_loop rest_text] in *.
  - apply wp_ret. rewrite append_nil. now split.
  - apply wp_then. apply wp_then. apply wp_arg with (hs_at str :: k); [exact H|now left|].
    apply wp_then. eapply wp_mono; [apply (R x (or_introl eq_refl) m (hs_at str :: k) H); intros y Hy; right; now apply I|].
    intros b m' (-> & ->). apply wp_then. rewrite <- !append_assoc in B. rewrite <- !append_assoc.
    apply wp_print with (hs_at str :: k); [now apply short_l in B|exact H|]. intros a m' Na H'.
    apply wp_then. apply wp_free with (a :: hs_at str :: k) (a :: k); [exact H'|apply perm_swap|].
    intros m2 H2. apply wp_ret. apply IH; [intros y Hy; apply R; now right|exact B|exact Na|exact H2|exact I].
Qed.
Lemma join_ok l : (forall x, In x l -> reading (show x) need (f x)) -> l <> [] -> short (show_items f l) -> gives (join_loop show NULL 0 l) need (show_items f l).
Proof.
  intros R N B m k H I. destruct l as [|x l]; [easy|]. rewrite items_rest in *. cbn [join_loop].
  apply wp_then. apply wp_then. eapply wp_mono; [now apply (R x (or_introl eq_refl) m k)|]. intros b m' (-> & ->).
  apply wp_print with k; [now apply short_l in B|exact H|]. intros a m' Na H'.
  apply (join_rest l (fun y Hy => R y (or_intror Hy)) (mkHS a (f x)) 0 m' k); [exact B|exact Na|exact H'|exact I].
Qed.
End Join.
Section Texts.
Context {A : Type} (text : A -> cmd hstr) (f : A -> string) (need : list Z).
Lemma texts_rest l : (forall x, In x l -> short (f x) -> gives (text x) need (f x)) -> forall str i m k,
  short (hs_text str ++ rest_text f l) -> hs_at str <> 0 -> holds m (hs_at str :: k) -> incl need k ->
  wp (join_texts text str (S i) l) m (fun s m' => hs_text s = (hs_text str ++ rest_text f l)%string /\ hs_at s <> 0 /\ holds m' (hs_at s :: k)).
Proof.
  induction l as [|x l IH]; intros R str i m k B N H I; cbn [join_texts rest_text] in *.
  - apply wp_ret. rewrite append_nil. now split.
  - apply wp_then. rewrite <- !append_assoc in B. rewrite <- !append_assoc.
    eapply wp_mono; [apply (R x (or_introl eq_refl) (short_r _ _ (short_l _ _ B)) m (hs_at str :: k) H); intros y Hy; right; now apply I|].
    intros p m1 (Ep & Np & H1). apply wp_then. apply wp_then. apply wp_arg with (hs_at p :: hs_at str :: k); [exact H1|right; now left|].
    apply wp_then. apply wp_arg with (hs_at p :: hs_at str :: k); [exact H1|now left|]. rewrite Ep.
    apply wp_then. rewrite <- !append_assoc. apply wp_print with (hs_at p :: hs_at str :: k); [now apply short_l in B|exact H1|]. intros a m' Na H'.
    apply wp_then. apply wp_free with (a :: hs_at p :: hs_at str :: k) (a :: hs_at p :: k); [exact H'|perm|].
    intros m2 H2. apply wp_ret. apply wp_then. cbv beta. apply wp_free with (a :: hs_at p :: k) (a :: k); [exact H2|apply perm_swap|].
    intros m3 H3. apply IH; [intros y Hy; apply R; now right|exact B|exact Na|exact H3|exact I].
Qed.
Lemma texts_ok l : (forall x, In x l -> short (f x) -> gives (text x) need (f x)) -> l <> [] -> short (show_items f l) -> gives (join_texts text NULL 0 l) need (show_items f l).
Proof.
  intros R N B m k H I. destruct l as [|x l]; [easy|]. rewrite items_rest in *. cbn [join_texts].
  apply wp_then. eapply wp_mono; [now apply (R x (or_introl eq_refl) (short_l _ _ B) m k)|]. intros p m1 (Ep & Np & H1).
  apply wp_then. apply wp_then. apply wp_arg with (hs_at p :: k); [exact H1|now left|]. rewrite Ep.
  apply wp_print with (hs_at p :: k); [now apply short_l in B|exact H1|]. intros a m' Na H'.
  apply wp_then. cbv beta. apply wp_free with (a :: hs_at p :: k) (a :: k); [exact H'|apply perm_swap|]. intros m2 H2.
  apply (texts_rest l (fun y Hy => R y (or_intror Hy)) (mkHS a (f x)) 0 m2 k); [exact B|exact Na|exact H2|exact I].
Qed.
End Texts.

(** ** Tactics *)
Ltac mem :=
  match goal with
  | |- In ?x (?x :: _) => now left
  | I : incl ?n ?l |- In ?x ?l => apply I; clear; is_in
  | |- In ?x (_ :: _) => right; mem
  end.
Ltac shorter :=
  match goal with B : short _ |- _ => first [exact B|unfold short in *; do 8 (try rewrite !len_app in *; cbn [String.length String.append av_attr er_var er_sval sv_string hs_text hs_at] in *);
    repeat match goal with E : hs_text _ = _ |- _ => rewrite E in * end; lia] end.
Ltac pstep :=
  match goal with
  | |- wp (then_ _ _) _ _ => apply wp_then
  | |- wp (ret _) _ _ => apply wp_ret
  | H : holds ?m ?l |- wp (use ?a) ?m _ => apply wp_use with l; [exact H|cbn [hs_at]; mem|]
  | H : holds ?m ?l |- wp (arg ?s) ?m _ => apply wp_arg with l; [exact H|cbn [hs_at]; mem|]
  | H : holds ?m ?l |- wp (basprintf ?s) ?m _ =>
      let a := fresh "a" in let m' := fresh "m" in let N := fresh "N" in let H' := fresh "H" in
      apply wp_print with l; [shorter|exact H|]; intros a m' N H'; clear H; cbn [hs_text hs_at] in *
  | H : holds ?m ?l |- wp (free ?a) ?m _ =>
      let l' := without a l in
      let m' := fresh "m" in let H' := fresh "H" in
      apply wp_free with l l'; [exact H|perm|]; intros m' H'; clear H
  end.
Ltac incls := match goal with I : incl ?n ?l |- incl ?n ?k => intros z Hz; repeat first [exact (I z Hz)|right] end.
(** A call that makes a string. *)
Ltac given L :=
  match goal with
  | H : holds ?m ?l |- wp _ ?m _ =>
      let s := fresh "s" in let m' := fresh "m" in let E := fresh "E" in let N := fresh "N" in let H' := fresh "H" in
      eapply wp_mono; [apply (L m l H); incls|]; intros s m' (E & N & H'); clear H; rewrite ?E in *
  end.
Ltac done_ := cbn [hs_text hs_at] in *; (split; [repeat match goal with E : hs_text _ = _ |- _ => rewrite E end; reflexivity|split; [assumption|assumption]]).

Lemma incl_var v l : has_name v -> incl (bl_var v) l -> In (hs_at (hv_attr v)) l.
Proof. intros N I. unfold bl_var in I. rewrite (opt_at_some _ N) in I. apply I. now left. Qed.
Lemma ints_ok x : hi_items x <> [] -> short (show_items show_Z (hi_items x)) -> gives (h_ints_text x) (bl_ints x) (show_items show_Z (hi_items x)).
Proof.
  intros N B m l H I. unfold h_ints_text, bl_ints in *. destruct (hi_items x) as [|z t] eqn:E; [easy|].
  assert (J : In (hi_arr x) l) by (apply I; right; now left). pstep. pstep.
  apply (join_ok _ show_Z [hi_arr x]); [|easy|exact B|exact H|intros y [<-|[]]; exact J].
  intros y _ m0 l0 H0 I0. pstep. pstep. pstep. now split.
Qed.
Definition str_text (s : hsval) : string := show_str (hs_text (hw_string s)).
Lemma strs_items x : show_items (fun s => show_str (sv_string s)) (er_strs x) = show_items str_text (hl_items x).
Proof. unfold er_strs. rewrite !items_concat, map_map. reflexivity. Qed.
Lemma strs_ok x : hl_items x <> [] -> short (show_items str_text (hl_items x)) -> gives (h_strs_text x) (bl_strs x) (show_items str_text (hl_items x)).
Proof.
  intros N B m l H I. unfold h_strs_text, bl_strs in *.
  assert (I1 : incl (match hl_items x with [] => opt_at (hl_arr x) | _ => [hl_arr x] end ++ flat_map bl_sval (hl_items x)) l).
  { intros y Hy. apply I. now right. }
  pstep. apply wp_use with l; [exact H|apply I; now left|].
  apply (join_ok _ str_text (hl_arr x :: flat_map bl_sval (hl_items x))); [|exact N|exact B|exact H|].
  - intros y Hy m0 l0 H0 I0. pstep. pstep. pstep. apply wp_arg with l0; [exact H0| |].
    + apply I0. right. apply in_flat_map. exists y. split; [exact Hy|]. now left.
    + pstep. now split.
  - destruct (hl_items x) as [|z t]; [easy|]. exact I1.
Qed.
Lemma parens_ok c need t : gives c need t -> short ("(" ++ t ++ ")") -> gives (h_parens c) need ("(" ++ t ++ ")").
Proof.
  intros G B m l H I. unfold h_parens. pstep. eapply wp_mono; [exact (G m l H I)|]. intros s m' (E & N & H'). clear H.
  pstep. pstep. pstep. rewrite E. pstep. pstep. pstep. pstep. done_.
Qed.
Lemma show_list_some {A} (f : A -> string) l t : show_list f l = Ok t -> l <> [] /\ t = ("(" ++ show_items f l ++ ")")%string.
Proof. destruct l; [discriminate|]. intros E. injection E as <-. now split. Qed.

(** ** Expressions *)
Lemma qval_ok q : short (show_qval (er_qval q)) -> gives (h_show_qval q) (bl_qval q) (show_qval (er_qval q)).
Proof.
  intros B m l H I. destruct q as [z|f|s|e]; cbn [h_show_qval bl_qval er_qval show_qval] in *.
  1, 2, 4: pstep; done_.
  unfold bl_sval in I. pstep. pstep. cbn in B. pstep. done_.
Qed.
Lemma left_ok x : match x with HLVar v => has_name v | _ => True end -> short (show_left (er_left x)) -> gives (h_show_left x) (bl_left x) (show_left (er_left x)).
Proof.
  intros N B m l H I. destruct x as [z|s|v]; cbn [h_show_left bl_left er_left show_left] in *.
  - pstep. done_.
  - unfold bl_sval in I. pstep. pstep. cbn in B. pstep. done_.
  - apply incl_var in I; [|exact N]. pstep. apply wp_arg with l; [exact H|exact I|]. cbn in B. pstep. done_.
Qed.
Lemma right_ok x t : match x with HRVar v => has_name v | _ => True end -> show_right (er_right x) = Ok t -> short t -> gives (h_show_right x) (bl_right x) t.
Proof.
  intros N E B. destruct x as [x|x|v]; cbn [h_show_right bl_right er_right show_right] in *.
  - apply show_list_some in E as (Ne & ->). apply parens_ok; [|exact B]. apply ints_ok; [exact Ne|shorter].
  - apply show_list_some in E as (Ne & ->). rewrite strs_items in *. apply parens_ok; [|exact B]. apply strs_ok; [|shorter].
    intros X. apply Ne. unfold er_strs. now rewrite X.
  - injection E as <-. intros m l H I. apply incl_var in I; [|exact N]. pstep. apply wp_arg with l; [exact H|exact I|]. cbn in *. pstep. done_.
Qed.
Lemma lval_ok x t : show_lval (er_lval x) = Ok t -> short t -> gives (h_show_lval x) (bl_lval x) t.
Proof.
  intros E B. destruct x as [x|x]; [exact (right_ok (HRInts x) t Logic.I E B)|exact (right_ok (HRStrs x) t Logic.I E B)].
Qed.
Lemma leaf_ok p t : named_leaf p -> show_leaf (er_leaf p) = Ok t -> short t -> gives (h_show_leaf p) (bl_leaf p) t.
Proof.
  intros N E B m l H I.
  destruct p as [b|v|op v c|op v q|op x y|op v x|op v|v ty ns va n now id|op h v id s now|h a b c v w|op v s];
    cbn [h_show_leaf bl_leaf named_leaf er_leaf show_leaf] in *.
  - injection E as <-. unfold bstrdup_lit. lstep. lstep. lstep. done_.
  - injection E as <-. apply incl_var in I; [|exact N]. unfold bstrdup. lstep. apply wp_use with l; [exact H|exact I|]. lstep. lstep. lstep. done_.
  - injection E as <-. apply incl_var in I; [|exact N]. pstep. pstep. pstep. apply wp_arg with (a :: l); [exact H0|right; exact I|].
    repeat pstep. done_.
  - injection E as <-. apply incl_app_inv in I as (Iv & Iq). apply incl_var in Iv; [|exact N]. pstep. given (qval_ok q ltac:(shorter)). pstep.
    apply wp_arg with (hs_at s :: l); [exact H0|right; exact Iv|]. pstep. pstep. repeat pstep. done_.
  - destruct (show_right (er_right y)) as [r| | |] eqn:Er; try discriminate E. cbn [bind] in E. injection E as <-.
    apply incl_app_inv in I as (Ix & Iy). destruct N as (Nx & Ny). pstep. given (left_ok x Nx ltac:(shorter)). pstep. given (right_ok y r Ny Er ltac:(shorter)).
    repeat pstep. done_.
  - destruct (show_lval (er_lval x)) as [r| | |] eqn:Er; try discriminate E. cbn [bind] in E. injection E as <-.
    apply incl_app_inv in I as (Iv & Ix). apply incl_var in Iv; [|exact N]. pstep. given (lval_ok x r Er ltac:(shorter)). pstep.
    apply wp_arg with (hs_at s :: l); [exact H0|right; exact Iv|]. pstep. pstep. repeat pstep. done_.
  - injection E as <-. apply incl_var in I; [|exact N]. pstep. apply wp_arg with l; [exact H|exact I|]. cbn [er_var av_attr] in *. pstep. done_.
  - destruct (show_ftype ty) as [k| | |] eqn:Ek; try discriminate E. cbn [bind] in E. injection E as <-.
    pstep. eapply wp_fail; [exact eq_refl|]. pstep. apply wp_arg with l; [exact H|apply I; apply in_or_app; right; now left|].
    cbn [er_sval sv_string] in *. pstep. done_.
  - injection E as <-. apply incl_app_inv in I as (Iv & _). apply incl_var in Iv; [|exact N]. pstep. apply wp_arg with l; [exact H|exact Iv|].
    cbn [er_var av_attr] in *. pstep. done_.
  - injection E as <-. pstep. done_.
  - injection E as <-. apply incl_app_inv in I as (Iv & Is). apply incl_var in Iv; [|exact N]. pstep. apply wp_arg with l; [exact H|exact Iv|].
    pstep. apply wp_arg with l; [exact H|apply Is; now left|]. cbn [er_var av_attr] in *. pstep. done_.
Qed.
Lemma ast_ok e : forall t, named e -> ast_to_string (er_expr e) = Ok t -> short t -> gives (h_ast_to_string e) (blocks e) t.
Proof.
  induction e as [a g p|a g x IHx y IHy|a g x IHx y IHy|a g x IHx]; intros t N E B m l H I;
    cbn [named er_expr ast_to_string h_ast_to_string blocks h_at] in *.
  - pstep. apply wp_use with l; [exact H|apply I; now left|]. apply (leaf_ok p t N E B m l H). intros z Hz. apply I. now right.
  - destruct (ast_to_string (er_expr x)) as [s| | |] eqn:Ex; try discriminate E. destruct (ast_to_string (er_expr y)) as [s'| | |] eqn:Ey; try discriminate E.
    injection E as <-. destruct N as (Nx & Ny). pstep. apply wp_use with l; [exact H|apply I; now left|].
    apply incl_cons_inv in I as (_ & I). apply incl_app_inv in I as (Ix & Iy).
    pstep. given (IHx s Nx eq_refl ltac:(shorter)). pstep. given (IHy s' Ny eq_refl ltac:(shorter)).
    repeat pstep. done_.
  - destruct (ast_to_string (er_expr x)) as [s| | |] eqn:Ex; try discriminate E. destruct (ast_to_string (er_expr y)) as [s'| | |] eqn:Ey; try discriminate E.
    injection E as <-. destruct N as (Nx & Ny). pstep. apply wp_use with l; [exact H|apply I; now left|].
    apply incl_cons_inv in I as (_ & I). apply incl_app_inv in I as (Ix & Iy).
    pstep. given (IHx s Nx eq_refl ltac:(shorter)). pstep. given (IHy s' Ny eq_refl ltac:(shorter)).
    repeat pstep. done_.
  - destruct (ast_to_string (er_expr x)) as [s| | |] eqn:Ex; try discriminate E.
    injection E as <-. pstep. apply wp_use with l; [exact H|apply I; now left|].
    apply incl_cons_inv in I as (_ & I).
    pstep. given (IHx s N eq_refl ltac:(shorter)).
    repeat pstep. done_.
Qed.
