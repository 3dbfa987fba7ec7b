(** The parser of Parser.v accepts the sentences of the grammar of Grammar.v and builds their
    trees. *)
From Coq Require Import ZArith NArith String Bool List Lia.
From Verif Require Import Base Float Value Ast Lexer Parser Grammar.
Import ListNotations.

(** * Steps *)

(** Take apart a successful sequence of steps. *)
Ltac stp :=
  repeat match goal with
  | H : obind ?e _ = Some _ |- _ =>
      let E := fresh "E" in
      destruct e as [?v|] eqn:E; cbn [obind] in H; [|discriminate H]
  | H : (let '(_, _) := ?v in _) = Some _ |- _ =>
      let a := fresh "a" in let b := fresh "r" in destruct v as [a b]
  | H : Some _ = Some _ |- _ => injection H; clear H; intros; subst
  end.

(** A parser is sound for a relation. *)
Definition snd_for {A} (p : parser A) (R : list token -> A -> Prop) : Prop :=
  forall ts v r, p ts = Some (v, r) -> exists a, ts = a ++ r /\ R a v.
(** A parser is complete for a relation. *)
Definition cpl_for {A} (p : parser A) (R : list token -> A -> Prop) : Prop :=
  forall a v r, R a v -> p (a ++ r) = Some (v, r).

Lemma p_lparen_inv ts r : p_lparen ts = Some r -> ts = KLParen :: r.
Proof. destruct ts as [|[] ?]; cbn; congruence. Qed.
Lemma p_rparen_inv ts r : p_rparen ts = Some r -> ts = KRParen :: r.
Proof. destruct ts as [|[] ?]; cbn; congruence. Qed.
Lemma p_comma_inv ts r : p_comma ts = Some r -> ts = KComma :: r.
Proof. destruct ts as [|[] ?]; cbn; congruence. Qed.
Lemma p_id_inv ts x r : p_id ts = Some (x, r) -> ts = KIdent x :: r.
Proof. destruct ts as [|[] ?]; cbn; congruence. Qed.
Lemma p_string_inv ts x r : p_string ts = Some (x, r) -> ts = KStr x :: r.
Proof. destruct ts as [|[] ?]; cbn; congruence. Qed.

Lemma p_int_snd : snd_for p_int g_int.
Proof.
  intros [|t ts] v r H; [discriminate|].
  destruct t; try discriminate H; cbn in H.
  - destruct ts as [|[] ts]; try discriminate. injection H as <- <-.
    eexists [_; _]; split; [reflexivity|constructor].
  - injection H as <- <-. eexists [_]; split; [reflexivity|constructor].
Qed.
Lemma p_int_cpl : cpl_for p_int g_int.
Proof. intros a v r []; reflexivity. Qed.

Lemma p_flt_snd : snd_for p_flt g_flt.
Proof.
  intros [|t ts] v r H; [discriminate|].
  destruct t; try discriminate H; cbn in H.
  - destruct ts as [|[] ts]; try discriminate. injection H as <- <-.
    eexists [_; _]; split; [reflexivity|constructor].
  - injection H as <- <-. eexists [_]; split; [reflexivity|constructor].
Qed.
Lemma p_flt_cpl : cpl_for p_flt g_flt.
Proof. intros a v r []; reflexivity. Qed.

Lemma int_not_flt a f r : g_flt a f -> p_int (a ++ r) = None.
Proof. intros []; reflexivity. Qed.

(** * Lists *)

(** A comma-separated sequence, read from the left. *)
Inductive ritems {A} (it : list token -> A -> Prop) : list token -> list A -> Prop :=
| ri_one a v : it a v -> ritems it a [v]
| ri_more a v b l : it a v -> ritems it b l -> ritems it (a ++ KComma :: b) (v :: l).

Lemma ritems_snoc {A} (it : list token -> A -> Prop) a l b v :
  ritems it a l -> it b v -> ritems it (a ++ KComma :: b) (l ++ [v]).
Proof.
  intros H Hb. induction H as [a w Hw|a w c l Hw H IH].
  - now apply ri_more; [|apply ri_one].
  - rewrite <- app_assoc. cbn [app]. now apply ri_more.
Qed.

(** The items of a string list. *)
Inductive g_str : list token -> string -> Prop := gst s : g_str [KStr s] s.

Lemma int_loop_ritems a l : g_int_loop a l <-> ritems g_int a l.
Proof.
  split; intros H.
  - induction H; [now constructor|now apply ritems_snoc].
  - induction H as [a w Hw|a w c l Hw H IH]; [now constructor|].
    clear H. revert a w Hw. induction IH as [b z Hz|b l' c z Hb IH Hz]; intros.
    + apply (gil_more a [w]); [now constructor|easy].
    + rewrite app_comm_cons, app_assoc. apply (gil_more (a ++ KComma :: b) (w :: l')); auto.
Qed.

Lemma str_loop_ritems a l : g_str_loop a l <-> ritems g_str a l.
Proof.
  split; intros H.
  - induction H; [now constructor|]. apply (ritems_snoc g_str a l [KStr s] s); [easy|constructor].
  - induction H as [a w Hw|a w c l Hw H IH]; [destruct Hw; constructor|].
    destruct Hw as [s]. clear H. induction IH as [z|b l' z Hb IH].
    + apply (gsl_more [KStr s] [s]). constructor.
    + cbn [app]. apply (gsl_more (KStr s :: KComma :: b) (s :: l')). exact IH.
Qed.

Lemma p_items_snd {A} (item : parser A) it n : snd_for item it ->
  forall ts l r, p_items item n ts = Some (l, r) ->
  exists a, ts = a ++ KRParen :: r /\ ritems it a l.
Proof.
  intros Hi. induction n as [|n IH]; intros ts l r H; [discriminate|].
  cbn [p_items] in H. stp. apply Hi in E. destruct E as (b & -> & Hb).
  destruct r0 as [|t r0]; [discriminate|]. destruct t; try discriminate.
  - stp. exists b. split; [easy|now constructor].
  - stp. apply IH in E. destruct E as (c & -> & Hc).
    exists (b ++ KComma :: c). split; [now rewrite <- app_assoc|now constructor].
Qed.

Lemma p_items_cpl {A} (item : parser A) it : cpl_for item it ->
  forall a l, ritems it a l -> forall n r, List.length l <= n ->
  p_items item n (a ++ KRParen :: r) = Some (l, r).
Proof.
  intros Hi a l H. induction H as [a v Hv|a v b l Hv H IH]; intros [|n] r Hn;
    cbn [List.length] in Hn; try lia; cbn [p_items].
  - now rewrite (Hi a v _ Hv).
  - rewrite <- app_assoc. rewrite (Hi a v _ Hv). cbn [obind app].
    rewrite IH by lia. reflexivity.
Qed.

Lemma ritems_length {A} (it : list token -> A -> Prop) a l :
  (forall b v, it b v -> 1 <= List.length b) -> ritems it a l -> List.length l <= List.length a.
Proof.
  intros Hi H. induction H as [a v Hv|a v b l Hv H IH]; cbn.
  - now apply Hi in Hv.
  - rewrite app_length. cbn. apply Hi in Hv. lia.
Qed.

Lemma g_int_length a z : g_int a z -> 1 <= List.length a.
Proof. intros []; cbn; lia. Qed.
Lemma g_str_length a z : g_str a z -> 1 <= List.length a.
Proof. intros []; cbn; lia. Qed.
Lemma p_string_snd : snd_for p_string g_str.
Proof. intros ts v r H. apply p_string_inv in H. exists [KStr v]. now split. Qed.
Lemma p_string_cpl : cpl_for p_string g_str.
Proof. intros a v r []; reflexivity. Qed.

Lemma p_ints_snd : snd_for p_ints g_ints.
Proof.
  intros ts v r H. unfold p_ints in H. stp. apply p_lparen_inv in E. subst ts.
  apply (p_items_snd _ _ _ p_int_snd) in H. destruct H as (a & -> & Ha).
  exists (KLParen :: a ++ [KRParen]). split; [cbn; now rewrite <- app_assoc|].
  constructor. now apply int_loop_ritems.
Qed.
Lemma p_ints_cpl : cpl_for p_ints g_ints.
Proof.
  intros a v r [b l H]. apply int_loop_ritems in H. unfold p_ints. cbn [app p_lparen obind].
  rewrite <- app_assoc. cbn [app]. apply (p_items_cpl _ _ p_int_cpl _ _ H).
  apply ritems_length in H; [|exact g_int_length]. rewrite app_length. lia.
Qed.
Lemma p_strs_snd : snd_for p_strs g_strs.
Proof.
  intros ts v r H. unfold p_strs in H. stp. apply p_lparen_inv in E. subst ts.
  apply (p_items_snd _ _ _ p_string_snd) in H. destruct H as (a & -> & Ha).
  exists (KLParen :: a ++ [KRParen]). split; [cbn; now rewrite <- app_assoc|].
  constructor. now apply str_loop_ritems.
Qed.
Lemma p_strs_cpl : cpl_for p_strs g_strs.
Proof.
  intros a v r [b l H]. apply str_loop_ritems in H. unfold p_strs. cbn [app p_lparen obind].
  rewrite <- app_assoc. cbn [app]. apply (p_items_cpl _ _ p_string_cpl _ _ H).
  apply ritems_length in H; [|exact g_str_length]. rewrite app_length. lia.
Qed.

Lemma ints_not_strs a l r : g_strs a l -> p_ints (a ++ r) = None.
Proof.
  intros [b l' H]. apply str_loop_ritems in H.
  destruct H as [c v []|c v d l'' [] H]; reflexivity.
Qed.
Lemma ints_not_id x r : p_ints (KIdent x :: r) = None.
Proof. reflexivity. Qed.

(** * Values *)

Lemma p_num_snd : snd_for p_num g_num.
Proof.
  intros ts v r H. unfold p_num in H. destruct (p_int ts) as [[z r']|] eqn:E.
  - stp. apply p_int_snd in E. destruct E as (a & -> & Ha). exists a. split; [easy|now constructor].
  - stp. apply p_flt_snd in E0. destruct E0 as (a' & -> & Ha). exists a'. split; [easy|now constructor].
Qed.
Lemma p_num_cpl : cpl_for p_num g_num.
Proof.
  intros a v r [b z H|b f H]; unfold p_num.
  - now rewrite (p_int_cpl _ _ _ H).
  - rewrite (int_not_flt _ _ _ H). now rewrite (p_flt_cpl _ _ _ H).
Qed.

Lemma p_eqv_snd : snd_for p_eq_value g_eqv.
Proof.
  intros ts v r H. unfold p_eq_value in H. destruct (p_num ts) as [[c r']|] eqn:E.
  - apply p_num_snd in E. destruct E as (a & -> & Ha). exists a.
    destruct Ha; stp; (split; [easy|now constructor]).
  - stp. apply p_string_inv in E0. subst ts. eexists [_]. split; [easy|constructor].
Qed.
Lemma p_eqv_cpl : cpl_for p_eq_value g_eqv.
Proof.
  intros a v r [b z H|b f H|s]; unfold p_eq_value.
  - now rewrite (p_num_cpl _ _ _ (gn_int _ _ H)).
  - now rewrite (p_num_cpl _ _ _ (gn_flt _ _ H)).
  - reflexivity.
Qed.

Lemma p_listv_snd : snd_for p_list_value g_listv.
Proof.
  intros ts v r H. unfold p_list_value in H. destruct (p_ints ts) as [[l r']|] eqn:E.
  - stp. apply p_ints_snd in E. destruct E as (a & -> & Ha). exists a. split; [easy|now constructor].
  - stp. apply p_strs_snd in E0. destruct E0 as (a' & -> & Ha). exists a'. split; [easy|now constructor].
Qed.
Lemma p_listv_cpl : cpl_for p_list_value g_listv.
Proof.
  intros a v r [b l H|b l H]; unfold p_list_value.
  - now rewrite (p_ints_cpl _ _ _ H).
  - rewrite (ints_not_strs _ _ _ H). now rewrite (p_strs_cpl _ _ _ H).
Qed.

Lemma p_right_snd : snd_for p_set_right g_right.
Proof.
  intros ts v r H. unfold p_set_right in H. destruct (p_id ts) as [[x r']|] eqn:E.
  - stp. apply p_id_inv in E. subst ts. eexists [_]. split; [easy|constructor].
  - stp. apply p_listv_snd in E0. destruct E0 as (b & -> & Hb). exists b. split; [easy|].
    destruct Hb; now constructor.
Qed.
Lemma p_right_cpl : cpl_for p_set_right g_right.
Proof.
  intros a v r [b l H|b l H|x]; unfold p_set_right.
  - assert (E : p_id (b ++ r) = None) by (destruct H; reflexivity). rewrite E.
    now rewrite (p_listv_cpl _ _ _ (gv_ints _ _ H)).
  - assert (E : p_id (b ++ r) = None) by (destruct H; reflexivity). rewrite E.
    now rewrite (p_listv_cpl _ _ _ (gv_strs _ _ H)).
  - reflexivity.
Qed.

(** * Atoms *)

Lemma p_after_ident_snd x ts l r : p_after_ident x ts = Some (l, r) ->
  exists a, ts = a ++ r /\ g_atom (KIdent x :: a) l.
Proof.
  unfold p_after_ident. destruct ts as [|t ts]; intros H.
  - stp. exists []. split; [easy|constructor].
  - assert (Hvar : Some (PVar (mk_var x), t :: ts) = Some (l, r) ->
      exists a, t :: ts = a ++ r /\ g_atom (KIdent x :: a) l).
    { intros K. stp. exists []. split; [easy|constructor]. }
    destruct t; cbn in H; try (exact (Hvar H)); clear Hvar; stp;
      repeat match goal with
      | E : p_num _ = Some _ |- _ => apply p_num_snd in E; destruct E as (b & -> & Hb)
      | E : p_eq_value _ = Some _ |- _ => apply p_eqv_snd in E; destruct E as (b & -> & Hb)
      | E : p_set_right _ = Some _ |- _ => apply p_right_snd in E; destruct E as (b & -> & Hb)
      | E : p_list_value _ = Some _ |- _ => apply p_listv_snd in E; destruct E as (b & -> & Hb)
      end;
      try (eexists (_ :: b); split; [reflexivity|]; now constructor);
      try (eexists [_]; split; [reflexivity|]; now constructor).
    + exists (KNotIn :: b). split; [easy|].
      apply (ga_not_in [KIdent x]); [constructor|easy].
    + exists (KIn :: b). split; [easy|].
      apply (ga_in [KIdent x]); [constructor|easy].
Qed.

(** The tokens after which an expression may end. *)
Definition follow (r : list token) : Prop :=
  match r with [] => True | t :: _ => t = KAnd \/ t = KOr \/ t = KRParen end.

Lemma p_after_var x r : follow r -> p_after_ident x r = Some (PVar (mk_var x), r).
Proof. destruct r as [|t r]; [reflexivity|]. intros [->|[->| ->]]; reflexivity. Qed.

Lemma p_after_num_snd c ts l r : p_after_num c ts = Some (l, r) ->
  exists a, ts = a ++ r /\ forall b, g_num b c -> g_atom (b ++ a) l.
Proof.
  unfold p_after_num. destruct ts as [|t ts]; intros H; [discriminate|].
  destruct t; cbn in H; try discriminate; try (destruct c; [|discriminate H]); stp;
    repeat match goal with
    | E : p_id _ = Some _ |- _ => apply p_id_inv in E; subst
    | E : p_set_right _ = Some _ |- _ => apply p_right_snd in E; destruct E as (b & -> & Hb)
    end;
    try (eexists [_; _]; split; [reflexivity|]; intros b Hb; now constructor).
  1-2: eexists [_; _]; (split; [reflexivity|]); intros b Hb; constructor;
    inversion Hb; subst; now constructor.
  all: eexists (_ :: b); (split; [reflexivity|]); intros d Hd; constructor; [|easy];
    inversion Hd; subst; now constructor.
Qed.

Lemma p_after_string_snd s ts l r : p_after_string s ts = Some (l, r) ->
  exists a, ts = a ++ r /\ g_atom (KStr s :: a) l.
Proof.
  unfold p_after_string. destruct ts as [|t ts]; intros H; [discriminate|].
  destruct t; cbn in H; try discriminate; stp;
    repeat match goal with
    | E : p_id _ = Some _ |- _ => apply p_id_inv in E; subst
    | E : p_set_right _ = Some _ |- _ => apply p_right_snd in E; destruct E as (b & -> & Hb)
    end.
  - eexists [_; _]; (split; [reflexivity|]). apply (ga_val_eq _ [KStr s]). constructor.
  - eexists [_; _]; (split; [reflexivity|]). apply (ga_val_ne _ [KStr s]). constructor.
  - eexists (_ :: b); (split; [reflexivity|]). apply (ga_not_in [KStr s]); [constructor|easy].
  - eexists (_ :: b); (split; [reflexivity|]). apply (ga_in [KStr s]); [constructor|easy].
Qed.

(** Turn successful steps into the tokens they consumed. *)
Ltac toks :=
  repeat match goal with
  | E : p_lparen _ = Some _ |- _ => apply p_lparen_inv in E; subst
  | E : p_rparen _ = Some _ |- _ => apply p_rparen_inv in E; subst
  | E : p_comma _ = Some _ |- _ => apply p_comma_inv in E; subst
  | E : p_id _ = Some _ |- _ => apply p_id_inv in E; subst
  | E : p_string _ = Some _ |- _ => apply p_string_inv in E; subst
  | E : p_int _ = Some _ |- _ =>
      let b := fresh "b" in let H := fresh "Hi" in
      apply p_int_snd in E; destruct E as (b & -> & H)
  | E : p_flt _ = Some _ |- _ =>
      let b := fresh "b" in let H := fresh "Hf" in
      apply p_flt_snd in E; destruct E as (b & -> & H)
  end.

Lemma p_atom_snd : snd_for p_atom g_atom.
Proof.
  intros ts l r H. unfold p_atom in H.
  assert (Hn : (do (c, r) <- p_num ts; p_after_num c r) = Some (l, r) ->
    exists a, ts = a ++ r /\ g_atom a l).
  { clear H. intros H. stp. apply p_num_snd in E. destruct E as (b & -> & Hb).
    apply p_after_num_snd in H. destruct H as (c & -> & Hc). exists (b ++ c).
    split; [now rewrite app_assoc|auto]. }
  destruct ts as [|t ts]; [exact (Hn H)|].
  destruct t; try (exact (Hn H)); clear Hn.
  - unfold p_freq in H. stp. toks. eexists (_ :: _ :: _ :: _ :: _ :: _ :: b0 ++ _ :: b ++ [_]).
    split; [cbn [app]; repeat (rewrite <- app_assoc; cbn [app]); reflexivity|now constructor].
  - unfold p_seg in H. stp. destruct (p_id v) as [[x r']|] eqn:Ex; stp; toks.
    + eexists (_ :: _ :: _ :: _ :: b0 ++ _ :: b ++ [_]).
      split; [cbn [app]; repeat (rewrite <- app_assoc; cbn [app]); reflexivity|now constructor].
    + eexists (_ :: _ :: b0 ++ _ :: b ++ [_]).
      split; [cbn [app]; repeat (rewrite <- app_assoc; cbn [app]); reflexivity|now constructor].
  - unfold p_seg in H. stp. destruct (p_id v) as [[x r']|] eqn:Ex; stp; toks.
    + eexists (_ :: _ :: _ :: _ :: b0 ++ _ :: b ++ [_]).
      split; [cbn [app]; repeat (rewrite <- app_assoc; cbn [app]); reflexivity|now constructor].
    + eexists (_ :: _ :: b0 ++ _ :: b ++ [_]).
      split; [cbn [app]; repeat (rewrite <- app_assoc; cbn [app]); reflexivity|now constructor].
  - unfold p_geo in H. stp. destruct (p_int v) as [[x r']|] eqn:Ex; stp; toks.
    + eexists (_ :: _ :: b1 ++ _ :: b0 ++ _ :: b ++ [_]).
      split; [cbn [app]; repeat (rewrite <- app_assoc; cbn [app]); reflexivity|now apply ga_geo_int].
    + eexists (_ :: _ :: b1 ++ _ :: b0 ++ _ :: b ++ [_]).
      split; [cbn [app]; repeat (rewrite <- app_assoc; cbn [app]); reflexivity|now apply ga_geo_flt].
  - unfold p_strop in H. stp. toks. eexists [_; _; _; _; _; _]. split; [reflexivity|constructor].
  - unfold p_strop in H. stp. toks. eexists [_; _; _; _; _; _]. split; [reflexivity|constructor].
  - unfold p_strop in H. stp. toks. eexists [_; _; _; _; _; _]. split; [reflexivity|constructor].
  - stp. eexists [_]. split; [reflexivity|constructor].
  - stp. eexists [_]. split; [reflexivity|constructor].
  - apply p_after_string_snd in H. destruct H as (b & -> & Hb). now exists (KStr s :: b).
  - apply p_after_ident_snd in H. destruct H as (b & -> & Hb). now exists (KIdent s :: b).
Qed.

Lemma p_atom_num a c r : g_num a c -> p_atom (a ++ r) = p_after_num c r.
Proof.
  intros H. assert (E : p_atom (a ++ r) = obind (p_num (a ++ r)) (fun '(c, r) => p_after_num c r)).
  { destruct H as [b z []|b f []]; reflexivity. }
  rewrite E. now rewrite (p_num_cpl _ _ _ H).
Qed.

(** Numbers as operands of `=` and `in`. *)
Lemma eqv_num a q : g_eqv a q ->
  (exists c, g_num a c /\ q = match c with CInt z => QInt z | CFloat f => QFloat f end) \/
  exists s, a = [KStr s] /\ q = QStr (mk_str s).
Proof.
  intros [b z H|b f H|s].
  - left. exists (CInt z). split; [now constructor|easy].
  - left. exists (CFloat f). split; [now constructor|easy].
  - right. now exists s.
Qed.

(** Normal form of the tokens in a goal. *)
Ltac tapp := repeat (rewrite <- app_assoc; cbn [app]).
(** Replace a step on known tokens by its result. *)
Ltac go :=
  repeat (cbn [obind app p_lparen p_rparen p_comma p_id p_string];
    match goal with
    | H : g_int ?a ?z |- context [p_int (?a ++ ?r)] => rewrite (p_int_cpl a z r H)
    | H : g_flt ?a ?z |- context [p_int (?a ++ ?r)] => rewrite (int_not_flt a z r H)
    | H : g_flt ?a ?z |- context [p_flt (?a ++ ?r)] => rewrite (p_flt_cpl a z r H)
    end);
  cbn [obind app p_lparen p_rparen p_comma p_id p_string].

Lemma p_seg_cpl op x a id b sec r : g_int a id -> g_int b sec ->
  p_seg op (match x with Some x => KLParen :: KIdent x :: KComma :: a ++ KComma :: b ++ KRParen :: r
                    | None => KLParen :: a ++ KComma :: b ++ KRParen :: r end)
  = Some (mk_seg op x id sec, r).
Proof.
  intros Ha Hb. destruct x as [x|]; unfold p_seg; go; [reflexivity|].
  assert (E : forall t, p_id (a ++ t) = None) by (intros; destruct Ha; reflexivity).
  rewrite E. now go.
Qed.

Lemma p_atom_cpl a l r : g_atom a l -> follow r -> p_atom (a ++ r) = Some (l, r).
Proof.
  intros H Hr. destruct H; cbn [app]; tapp.
  - reflexivity.
  - reflexivity.
  - reflexivity.
  - cbn. now rewrite (p_num_cpl _ _ _ H).
  - cbn. now rewrite (p_num_cpl _ _ _ H).
  - cbn. now rewrite (p_num_cpl _ _ _ H).
  - cbn. now rewrite (p_num_cpl _ _ _ H).
  - now rewrite (p_atom_num _ _ _ H).
  - now rewrite (p_atom_num _ _ _ H).
  - now rewrite (p_atom_num _ _ _ H).
  - now rewrite (p_atom_num _ _ _ H).
  - cbn. now rewrite (p_eqv_cpl _ _ _ H).
  - cbn. now rewrite (p_eqv_cpl _ _ _ H).
  - destruct (eqv_num _ _ H) as [(c & Hc & ->)|(s & -> & ->)]; [|reflexivity].
    rewrite (p_atom_num _ _ _ Hc). now destruct c.
  - destruct (eqv_num _ _ H) as [(c & Hc & ->)|(s & -> & ->)]; [|reflexivity].
    rewrite (p_atom_num _ _ _ Hc). now destruct c.
  - destruct H as [a z H|s|x].
    + rewrite (p_atom_num _ _ _ (gn_int _ _ H)). cbn. now rewrite (p_right_cpl _ _ _ H0).
    + cbn. now rewrite (p_right_cpl _ _ _ H0).
    + cbn. now rewrite (p_right_cpl _ _ _ H0).
  - destruct H as [a z H|s|x].
    + rewrite (p_atom_num _ _ _ (gn_int _ _ H)). cbn. now rewrite (p_right_cpl _ _ _ H0).
    + cbn. now rewrite (p_right_cpl _ _ _ H0).
    + cbn. now rewrite (p_right_cpl _ _ _ H0).
  - cbn. now rewrite (p_listv_cpl _ _ _ H).
  - cbn. now rewrite (p_listv_cpl _ _ _ H).
  - cbn. now rewrite (p_listv_cpl _ _ _ H).
  - now apply p_after_var.
  - reflexivity.
  - reflexivity.
  - cbn [p_atom]. unfold p_freq. now go.
  - exact (p_seg_cpl SegWithin None a id b sec r H H0).
  - exact (p_seg_cpl SegWithin (Some x) a id b sec r H H0).
  - exact (p_seg_cpl SegBefore None a id b sec r H H0).
  - exact (p_seg_cpl SegBefore (Some x) a id b sec r H H0).
  - cbn [p_atom]. unfold p_geo. now go.
  - cbn [p_atom]. unfold p_geo. now go.
  - reflexivity.
  - reflexivity.
  - reflexivity.
Qed.

(** The first token of an atom decides that it is not `not` or a parenthesis. *)
Lemma g_atom_head a l : g_atom a l -> exists t a', a = t :: a' /\ t <> KNot /\ t <> KLParen.
Proof.
  assert (Hi : forall a z, g_int a z -> exists t a', a = t :: a' /\ t <> KNot /\ t <> KLParen)
    by (intros b z []; do 2 eexists; (split; [reflexivity|split; discriminate])).
  assert (Hf : forall a z, g_flt a z -> exists t a', a = t :: a' /\ t <> KNot /\ t <> KLParen)
    by (intros b z []; do 2 eexists; (split; [reflexivity|split; discriminate])).
  assert (Hn : forall a c, g_num a c -> exists t a', a = t :: a' /\ t <> KNot /\ t <> KLParen)
    by (intros b z []; eauto).
  assert (He : forall a c, g_eqv a c -> exists t a', a = t :: a' /\ t <> KNot /\ t <> KLParen).
  { intros b z []; eauto. do 2 eexists; (split; [reflexivity|split; discriminate]). }
  assert (Hl : forall a c, g_left a c -> exists t a', a = t :: a' /\ t <> KNot /\ t <> KLParen).
  { intros b z []; eauto; do 2 eexists; (split; [reflexivity|split; discriminate]). }
  assert (Happ : forall a b, (exists t a', a = t :: a' /\ t <> KNot /\ t <> KLParen) ->
    exists t a', a ++ b = t :: a' /\ t <> KNot /\ t <> KLParen).
  { intros x y (t & a' & -> & H). exists t, (a' ++ y). now split. }
  intros H. destruct H; eauto;
    do 2 eexists; (split; [reflexivity|split; discriminate]).
Qed.

(** * Connectives *)

Lemma p_ands_snd p n acc ts x r a :
  snd_for p (derives LUn) -> derives LAnd a acc -> p_ands p n acc ts = Some (x, r) ->
  exists b, ts = b ++ r /\ derives LAnd (a ++ b) x.
Proof.
  intros Hp. revert acc ts a. induction n as [|n IH]; intros acc ts a Ha H; cbn [p_ands] in H.
  - stp. exists []. now rewrite app_nil_r.
  - assert (Hstop : Some (acc, ts) = Some (x, r) ->
      exists b, ts = b ++ r /\ derives LAnd (a ++ b) x).
    { intros K. stp. exists []. now rewrite app_nil_r. }
    destruct ts as [|t ts]; [exact (Hstop H)|].
    destruct t; try (exact (Hstop H)). clear Hstop. stp.
    apply Hp in E. destruct E as (b & -> & Hb).
    apply (IH _ _ (a ++ KAnd :: b)) in H; [|now constructor].
    destruct H as (c & -> & Hc). exists (KAnd :: b ++ c).
    split; [cbn; now rewrite <- app_assoc|].
    rewrite <- app_assoc in Hc. exact Hc.
Qed.

Lemma p_and_snd p n : snd_for p (derives LUn) -> snd_for (p_and p n) (derives LAnd).
Proof.
  intros Hp ts x r H. unfold p_and in H. stp. apply Hp in E. destruct E as (b & -> & Hb).
  apply (p_ands_snd _ _ _ _ _ _ b) in H; [|easy|now constructor].
  destruct H as (c & -> & Hc). exists (b ++ c). now rewrite app_assoc.
Qed.

Lemma p_ors_snd p n acc ts x r a :
  snd_for p (derives LAnd) -> derives LOr a acc -> p_ors p n acc ts = Some (x, r) ->
  exists b, ts = b ++ r /\ derives LOr (a ++ b) x.
Proof.
  intros Hp. revert acc ts a. induction n as [|n IH]; intros acc ts a Ha H; cbn [p_ors] in H.
  - stp. exists []. now rewrite app_nil_r.
  - assert (Hstop : Some (acc, ts) = Some (x, r) ->
      exists b, ts = b ++ r /\ derives LOr (a ++ b) x).
    { intros K. stp. exists []. now rewrite app_nil_r. }
    destruct ts as [|t ts]; [exact (Hstop H)|].
    destruct t; try (exact (Hstop H)). clear Hstop. stp.
    apply Hp in E. destruct E as (b & -> & Hb).
    apply (IH _ _ (a ++ KOr :: b)) in H; [|now constructor].
    destruct H as (c & -> & Hc). exists (KOr :: b ++ c).
    split; [cbn; now rewrite <- app_assoc|].
    rewrite <- app_assoc in Hc. exact Hc.
Qed.

Lemma p_or_snd p n : snd_for p (derives LAnd) -> snd_for (p_or p n) (derives LOr).
Proof.
  intros Hp ts x r H. unfold p_or in H. stp. apply Hp in E. destruct E as (b & -> & Hb).
  apply (p_ors_snd _ _ _ _ _ _ b) in H; [|easy|now constructor].
  destruct H as (c & -> & Hc). exists (b ++ c). now rewrite app_assoc.
Qed.

Lemma p_unary_snd n : snd_for (p_unary n) (derives LUn).
Proof.
  induction n as [|n IH]; intros ts x r H; [discriminate|]. cbn [p_unary] in H.
  assert (Ha : (do (l, r) <- p_atom ts; Some (mk_leaf l, r)) = Some (x, r) ->
    exists a, ts = a ++ r /\ derives LUn a x).
  { clear H. intros H. stp. apply p_atom_snd in E. destruct E as (b & -> & Hb).
    exists b. split; [easy|now constructor]. }
  destruct ts as [|t ts]; [exact (Ha H)|]. destruct t; try (exact (Ha H)); clear Ha; stp.
  - apply (p_or_snd _ _ (p_and_snd _ _ IH)) in E. destruct E as (b & -> & Hb). toks.
    exists (KLParen :: b ++ [KRParen]). split; [cbn; now rewrite <- app_assoc|now constructor].
  - apply IH in E. destruct E as (b & -> & Hb). exists (KNot :: b). split; [easy|now constructor].
Qed.

(** ** Completeness *)

(** A derivation at the level of `and` as its operands from the left. *)
Inductive conj : list token -> expr -> Prop :=
| cj a x b y : derives LUn a x -> conj_rest x b y -> conj (a ++ b) y
with conj_rest : expr -> list token -> expr -> Prop :=
| cr_nil x : conj_rest x [] x
| cr_cons x a y b z : derives LUn a y -> conj_rest (mk_and x y) b z ->
    conj_rest x (KAnd :: a ++ b) z.

Lemma conj_rest_snoc x a y b z :
  conj_rest x a y -> derives LUn b z -> conj_rest x (a ++ KAnd :: b) (mk_and y z).
Proof.
  intros H Hb. induction H as [x|x a y c w Ha H IH].
  - cbn. rewrite <- (app_nil_r b). apply cr_cons with z; [easy|]. constructor.
  - cbn. rewrite <- app_assoc. now apply cr_cons with y.
Qed.

Lemma derives_conj a x : derives LAnd a x -> conj a x.
Proof.
  intros H. remember LAnd as lv eqn:Hlv. revert Hlv.
  induction H as [| |a x b y H IH Hb _|a x H _| | |]; intros K; try discriminate.
  - destruct (IH K) as [a x c y' Ha Hc]. rewrite <- app_assoc.
    apply cj with x; [easy|]. now apply conj_rest_snoc.
  - rewrite <- (app_nil_r a). apply cj with x; [easy|constructor].
Qed.

(** A derivation at the level of `or` as its operands from the left. *)
Inductive disj : list token -> expr -> Prop :=
| dj a x b y : derives LAnd a x -> disj_rest x b y -> disj (a ++ b) y
with disj_rest : expr -> list token -> expr -> Prop :=
| dr_nil x : disj_rest x [] x
| dr_cons x a y b z : derives LAnd a y -> disj_rest (mk_or x y) b z ->
    disj_rest x (KOr :: a ++ b) z.

Lemma disj_rest_snoc x a y b z :
  disj_rest x a y -> derives LAnd b z -> disj_rest x (a ++ KOr :: b) (mk_or y z).
Proof.
  intros H Hb. induction H as [x|x a y c w Ha H IH].
  - cbn. rewrite <- (app_nil_r b). apply dr_cons with z; [easy|]. constructor.
  - cbn. rewrite <- app_assoc. now apply dr_cons with y.
Qed.

Lemma derives_disj a x : derives LOr a x -> disj a x.
Proof.
  intros H. remember LOr as lv eqn:Hlv. revert Hlv.
  induction H as [a x b y H IH Hb _|a x H _| | | | |]; intros K; try discriminate.
  - destruct (IH K) as [a x c y' Ha Hc]. rewrite <- app_assoc.
    apply dj with x; [easy|]. now apply disj_rest_snoc.
  - rewrite <- (app_nil_r a). apply dj with x; [easy|constructor].
Qed.

(** Complete on sequences of fewer than m tokens. *)
Definition cpl_below (m : nat) (p : parser expr) (lv : level) : Prop :=
  forall a x r, List.length a < m -> derives lv a x -> follow r -> p (a ++ r) = Some (x, r).

Lemma p_ands_cpl m p x a y : cpl_below m p LUn -> conj_rest x a y -> forall n r,
  List.length a < m -> List.length a <= n -> follow r -> match r with KAnd :: _ => False | _ => True end ->
  p_ands p n x (a ++ r) = Some (y, r).
Proof.
  intros Hp H. induction H as [x|x a y b z Ha H IH]; intros n r Hm Hn Hr Hs.
  - cbn [app]. destruct n; cbn [p_ands]; [reflexivity|]. destruct r as [|[] r]; easy.
  - cbn [List.length] in Hm, Hn. rewrite app_length in Hm, Hn. destruct n as [|n]; [lia|].
    cbn [p_ands app]. rewrite <- app_assoc. rewrite (Hp a y); [|lia|easy|].
    + cbn [obind]. apply IH; [lia|lia|easy|easy].
    + destruct H; cbn; [easy|now left].
Qed.

Lemma p_and_cpl m n p : cpl_below m p LUn -> m <= S n ->
  forall a x r, List.length a < m -> derives LAnd a x -> follow r ->
  match r with KAnd :: _ => False | _ => True end -> p_and p n (a ++ r) = Some (x, r).
Proof.
  intros Hp Hmn a x r Hm H Hr Hs. apply derives_conj in H. destruct H as [a x b y Ha Hb].
  rewrite app_length in Hm. unfold p_and. rewrite <- app_assoc. rewrite (Hp a x); [|lia|easy|].
  - cbn [obind]. apply (p_ands_cpl m); [easy|easy|lia|lia|easy|easy].
  - destruct Hb; cbn; [easy|now left].
Qed.

Lemma p_ors_cpl m n p x a y : cpl_below m p LUn -> m <= S n -> disj_rest x a y -> forall k r,
  List.length a < m -> List.length a <= k -> follow r ->
  match r with KAnd :: _ | KOr :: _ => False | _ => True end ->
  p_ors (p_and p n) k x (a ++ r) = Some (y, r).
Proof.
  intros Hp Hmn H. induction H as [x|x a y b z Ha H IH]; intros k r Hm Hn Hr Hs.
  - cbn [app]. destruct k; cbn [p_ors]; [reflexivity|]. destruct r as [|[] r]; easy.
  - cbn [List.length] in Hm, Hn. rewrite app_length in Hm, Hn. destruct k as [|k]; [lia|].
    cbn [p_ors app]. rewrite <- app_assoc. rewrite (p_and_cpl m n p Hp Hmn a y); [|lia|easy| |].
    + cbn [obind]. apply IH; [lia|lia|easy|easy].
    + destruct H; cbn; [easy|now right; left].
    + destruct H; cbn; [now destruct r as [|[] r]|easy].
Qed.

Lemma p_or_cpl m n p : cpl_below m p LUn -> m <= S n ->
  forall a x r, List.length a < m -> derives LOr a x -> follow r ->
  match r with KAnd :: _ | KOr :: _ => False | _ => True end ->
  p_or (p_and p n) n (a ++ r) = Some (x, r).
Proof.
  intros Hp Hmn a x r Hm H Hr Hs. apply derives_disj in H. destruct H as [a x b y Ha Hb].
  rewrite app_length in Hm. unfold p_or. rewrite <- app_assoc.
  rewrite (p_and_cpl m n p Hp Hmn a x); [|lia|easy| |].
  - cbn [obind]. apply (p_ors_cpl m); [easy|easy|easy|lia|lia|easy|easy].
  - destruct Hb; cbn; [easy|now right; left].
  - destruct Hb; cbn; [now destruct r as [|[] r]|easy].
Qed.

Lemma p_unary_cpl n : cpl_below (S n) (p_unary (S n)) LUn.
Proof.
  induction n as [|n IH]; intros a x r Hn H Hr; inversion H; subst.
  - cbn in Hn. lia.
  - cbn in Hn. lia.
  - match goal with K : g_atom _ _ |- _ => apply g_atom_head in K; destruct K as (t & a' & -> & _) end.
    cbn in Hn. lia.
  - remember (S n) as n'. cbn [p_unary app]. subst n'. cbn in Hn.
    rewrite IH with (x := x0); [reflexivity|lia|easy|easy].
  - remember (S n) as n'. cbn [p_unary app]. subst n'. cbn in Hn. rewrite app_length in Hn. cbn in Hn.
    rewrite <- app_assoc.
    rewrite (p_or_cpl (S n) (S n) (p_unary (S n)) IH ltac:(lia) a0 x); [|lia|easy| |exact I].
    + reflexivity.
    + now right; right.
  - remember (S n) as n'. cbn [p_unary].
    match goal with K : g_atom _ _ |- _ => pose proof (g_atom_head _ _ K) as (t & a' & -> & H1 & H2);
      pose proof (p_atom_cpl _ _ r K Hr) as E end.
    cbn [app] in *. destruct t; try congruence; now rewrite E.
Qed.

(** The parser builds exactly the trees of the grammar with the precedence declarations. *)
Lemma parse_tokens_iff ts e : parse_tokens ts = Some e <-> derives LOr ts e.
Proof.
  unfold parse_tokens. split; intros H.
  - destruct (p_or _ _ ts) as [[x r]|] eqn:E; [|discriminate].
    destruct r; [|discriminate]. injection H as ->.
    apply (p_or_snd _ _ (p_and_snd _ _ (p_unary_snd _))) in E. destruct E as (a & -> & Ha).
    now rewrite app_nil_r.
  - pose proof (p_or_cpl (S (List.length ts)) (S (List.length ts)) _
      (p_unary_cpl (List.length ts)) ltac:(lia) ts e [] ltac:(lia) H I I) as E.
    rewrite app_nil_r in E. now rewrite E.
Qed.

Lemma derives_fun ts e e' : derives LOr ts e -> derives LOr ts e' -> e = e'.
Proof. intros H H'. apply parse_tokens_iff in H, H'. congruence. Qed.

(** ** The precedence declarations refuse nothing *)

Lemma derives_expr lv a x : derives lv a x -> g_expr a x.
Proof. intros H. induction H; eauto using g_expr. Qed.

Lemma conj_app a x b y : derives LAnd a x -> conj b y -> exists z, derives LAnd (a ++ KAnd :: b) z.
Proof.
  intros Ha [b' y' c z Hb Hc].
  assert (K : derives LAnd (a ++ KAnd :: b') (mk_and x y')) by now constructor.
  replace (a ++ KAnd :: b' ++ c) with ((a ++ KAnd :: b') ++ c) by now rewrite <- app_assoc.
  revert K. generalize (a ++ KAnd :: b') (mk_and x y'). clear Ha Hb.
  induction Hc as [w|w d v e u Hd He IH]; intros t s K.
  - rewrite app_nil_r. now exists s.
  - destruct (IH (t ++ KAnd :: d) (mk_and s v)) as (o & Ho); [now constructor|].
    exists o. now rewrite <- app_assoc in Ho.
Qed.

Lemma or_rest a x b y z : derives LOr a x -> disj_rest y b z -> exists w, derives LOr (a ++ b) w.
Proof.
  intros Ha Hb. revert a x Ha. induction Hb as [v|v d u e o Hd He IH]; intros.
  - rewrite app_nil_r. now exists x.
  - destruct (IH (a ++ KOr :: d) (mk_or x u)) as (w & Hw); [now constructor|].
    exists w. now rewrite <- app_assoc in Hw.
Qed.

Lemma or_app a x b y : derives LOr a x -> derives LOr b y ->
  (exists z, derives LOr (a ++ KOr :: b) z) /\ (exists z, derives LOr (a ++ KAnd :: b) z).
Proof.
  intros Ha Hb. apply derives_disj in Hb. destruct Hb as [b' y' c z Hb Hc]. split.
  - destruct (or_rest (a ++ KOr :: b') (mk_or x y') c y' z) as (w & Hw); [now constructor|easy|].
    exists w. now rewrite <- app_assoc in Hw.
  - pose proof (derives_conj _ _ Hb) as Hb'.
    assert (K : exists w, derives LOr (a ++ KAnd :: b') w).
    { clear Hb Hc. remember LOr as lv eqn:Hlv. revert Hlv.
      induction Ha as [a x d v H IH Hd _|a x H _| | | | |]; intros K; try discriminate; subst.
      - destruct (conj_app d v b' y' Hd Hb') as (w & Hw). rewrite <- app_assoc. cbn [app].
        eexists. apply d_or; eauto.
      - destruct (conj_app a x b' y' H Hb') as (w & Hw). exists w. now constructor. }
    destruct K as (w & Hw).
    destruct (or_rest (a ++ KAnd :: b') w c y' z) as (v & Hv); [easy|easy|].
    exists v. now rewrite <- app_assoc in Hv.
Qed.

Lemma not_app lv a x : derives lv a x -> exists y, derives lv (KNot :: a) y.
Proof.
  intros H. induction H as [a x b y H IH Hb _|a x H IH|a x b y H IH Hb _|a x H IH|a x H IH|a x H _|a l H];
    try (destruct IH as (w & Hw)).
  - eexists. apply (d_or (KNot :: a) w b y); eauto.
  - eexists. apply d_or_and; eauto.
  - eexists. apply (d_and (KNot :: a) w b y); eauto.
  - eexists. apply d_and_un; eauto.
  - eexists. apply d_not; eauto.
  - eexists. apply d_not, d_paren; eauto.
  - eexists. apply d_not, d_atom; eauto.
Qed.

Lemma expr_derives a x : g_expr a x -> exists y, derives LOr a y.
Proof.
  intros H. induction H as [a x H (y & Hy)|a l H|a x b y H (u & Hu) H0 (v & Hv)|a x b y H (u & Hu) H0 (v & Hv)|a x H (y & Hy)].
  - exists y. now apply d_or_and, d_and_un, d_paren.
  - eexists. apply d_or_and, d_and_un, d_atom; eauto.
  - exact (proj2 (or_app _ _ _ _ Hu Hv)).
  - exact (proj1 (or_app _ _ _ _ Hu Hv)).
  - now apply not_app with y.
Qed.
