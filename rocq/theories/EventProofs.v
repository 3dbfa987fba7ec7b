(** The parser of EventText.v accepts the sentences of the grammar of EventGrammar.v and returns
    their variables. *)
From Coq Require Import ZArith NArith String Bool List Lia.
From Verif Require Import Base Float Value Ast Lexer Parser ParseProofs EventText EventGrammar.
Import ListNotations.

(** A parser is sound for a relation. *)
Definition jsnd {A} (p : jparser A) (R : list etoken -> A -> Prop) : Prop :=
  forall ts v r, p ts = Some (v, r) -> exists a, ts = a ++ r /\ R a v.
(** A parser is complete for a relation. *)
Definition jcpl {A} (p : jparser A) (R : list etoken -> A -> Prop) : Prop :=
  forall a v r, R a v -> p (a ++ r) = Some (v, r).

Lemma j_lsq_inv ts r : j_lsq ts = Some r -> ts = JLSq :: r.
Proof. destruct ts as [|[] ?]; cbn; congruence. Qed.
Lemma j_rsq_inv ts r : j_rsq ts = Some r -> ts = JRSq :: r.
Proof. destruct ts as [|[] ?]; cbn; congruence. Qed.
Lemma j_rcu_inv ts r : j_rcu ts = Some r -> ts = JRCu :: r.
Proof. destruct ts as [|[] ?]; cbn; congruence. Qed.
Lemma j_comma_inv ts r : j_comma ts = Some r -> ts = JComma :: r.
Proof. destruct ts as [|[] ?]; cbn; congruence. Qed.
Lemma j_colon_inv ts r : j_colon ts = Some r -> ts = JColon :: r.
Proof. destruct ts as [|[] ?]; cbn; congruence. Qed.
Lemma j_string_inv ts x r : j_string ts = Some (x, r) -> ts = JStr x :: r.
Proof. destruct ts as [|[] ?]; cbn; congruence. Qed.

Lemma j_string_snd : jsnd j_string e_str.
Proof. intros ts v r H. apply j_string_inv in H. exists [JStr v]. now split. Qed.
Lemma j_string_cpl : jcpl j_string e_str.
Proof. intros a v r []; reflexivity. Qed.

Lemma j_int_snd : jsnd j_int e_int.
Proof.
  intros [|t ts] v r H; [discriminate|].
  destruct t; try discriminate H; cbn in H.
  - destruct ts as [|[] ts]; try discriminate. injection H as <- <-.
    eexists [_; _]; split; [reflexivity|constructor].
  - injection H as <- <-. eexists [_]; split; [reflexivity|constructor].
Qed.
Lemma j_int_cpl : jcpl j_int e_int.
Proof. intros a v r []; reflexivity. Qed.
Lemma j_flt_snd : jsnd j_flt e_flt.
Proof.
  intros [|t ts] v r H; [discriminate|].
  destruct t; try discriminate H; cbn in H.
  - destruct ts as [|[] ts]; try discriminate. injection H as <- <-.
    eexists [_; _]; split; [reflexivity|constructor].
  - injection H as <- <-. eexists [_]; split; [reflexivity|constructor].
Qed.
Lemma j_flt_cpl : jcpl j_flt e_flt.
Proof. intros a v r []; reflexivity. Qed.

(** Turn successful steps into the tokens they consumed. *)
Ltac jtoks :=
  repeat match goal with
  | E : j_lsq _ = Some _ |- _ => apply j_lsq_inv in E; subst
  | E : j_rsq _ = Some _ |- _ => apply j_rsq_inv in E; subst
  | E : j_comma _ = Some _ |- _ => apply j_comma_inv in E; subst
  | E : j_colon _ = Some _ |- _ => apply j_colon_inv in E; subst
  | E : j_string _ = Some _ |- _ => apply j_string_inv in E; subst
  | E : j_int _ = Some _ |- _ =>
      let b := fresh "b" in let H := fresh "Hi" in
      apply j_int_snd in E; destruct E as (b & -> & H)
  end.
(** Replace a step on known tokens by its result. *)
Ltac jgo :=
  repeat (cbn [obind app j_lsq j_rsq j_comma j_colon j_string];
    match goal with
    | H : e_int ?a ?z |- context [j_int (?a ++ ?r)] => rewrite (j_int_cpl a z r H)
    end);
  cbn [obind app j_lsq j_rsq j_comma j_colon j_string].
(** Normal form of the tokens in a goal. *)
Ltac japp := cbn [app]; repeat (rewrite <- app_assoc; cbn [app]).

Lemma j_segment_snd : jsnd j_segment e_seg.
Proof.
  intros ts v r H. unfold j_segment in H. stp. jtoks.
  eexists (_ :: b0 ++ _ :: b ++ [_]). split; [japp; reflexivity|now constructor].
Qed.
Lemma j_segment_cpl : jcpl j_segment e_seg.
Proof. intros a v r [a' id b t Ha Hb]. unfold j_segment. japp. now jgo. Qed.

Lemma j_freq_snd : jsnd j_freq e_cap.
Proof.
  intros ts v r H. unfold j_freq in H. stp. destruct (j_lsq v0) as [r'|] eqn:El; stp; jtoks.
  - eexists (_ :: _ :: _ :: _ :: b1 ++ _ :: _ :: _ :: _ :: b0 ++ _ :: b ++ [_]).
    split; [japp; reflexivity|now apply ec_nested].
  - eexists (_ :: _ :: _ :: b1 ++ _ :: _ :: _ :: b0 ++ _ :: b ++ [_]).
    split; [japp; reflexivity|now apply ec_flat].
Qed.
Lemma j_freq_cpl : jcpl j_freq e_cap.
Proof. intros a v r [ty a' id ns b w c t Ha Hb Hc|ty a' id ns b w c t Ha Hb Hc]; unfold j_freq; japp; now jgo. Qed.

(** ** Sequences *)

(** A comma-separated sequence, read from the left. *)
Inductive jitems {A} (it : list etoken -> A -> Prop) : list etoken -> list A -> Prop :=
| ji_one a v : it a v -> jitems it a [v]
| ji_more a v b l : it a v -> jitems it b l -> jitems it (a ++ JComma :: b) (v :: l).

Lemma jitems_snoc {A} (it : list etoken -> A -> Prop) a l b v :
  jitems it a l -> it b v -> jitems it (a ++ JComma :: b) (l ++ [v]).
Proof.
  intros H Hb. induction H as [a w Hw|a w c l Hw H IH].
  - now apply ji_more; [|apply ji_one].
  - rewrite <- app_assoc. cbn [app]. now apply ji_more.
Qed.

Lemma loop_jitems {A} (it : list etoken -> A -> Prop) a l : e_loop it a l <-> jitems it a l.
Proof.
  split; intros H.
  - induction H; [now constructor|now apply jitems_snoc].
  - induction H as [a w Hw|a w c l Hw H IH]; [now constructor|].
    clear H. revert a w Hw. induction IH as [b z Hz|b l' c z Hb IH Hz]; intros.
    + apply (el_more _ a [w]); [now constructor|easy].
    + rewrite app_comm_cons, app_assoc. apply (el_more _ (a ++ JComma :: b) (w :: l')); auto.
Qed.

Lemma j_items_snd {A} close t (item : jparser A) (it : list etoken -> A -> Prop) n :
  (forall ts r, close ts = Some r -> ts = t :: r) -> jsnd item it ->
  forall ts l r, j_items close item n ts = Some (l, r) ->
  exists a, ts = a ++ t :: r /\ jitems it a l.
Proof.
  intros Hc Hi. induction n as [|n IH]; intros ts l r H; [discriminate|].
  cbn [j_items] in H. stp. apply Hi in E. destruct E as (b & -> & Hb).
  destruct (close r0) as [r1|] eqn:Ec.
  - apply Hc in Ec. stp. exists b. split; [easy|now constructor].
  - stp. jtoks. apply IH in E0. destruct E0 as (c & -> & Hcc).
    exists (b ++ JComma :: c). split; [now rewrite <- app_assoc|now constructor].
Qed.

Lemma j_items_cpl {A} close t (item : jparser A) (it : list etoken -> A -> Prop) :
  (forall r, close (t :: r) = Some r) -> (forall r, close (JComma :: r) = None) -> jcpl item it ->
  forall a l, jitems it a l -> forall n r, List.length l <= n ->
  j_items close item n (a ++ t :: r) = Some (l, r).
Proof.
  intros Hc Hc' Hi a l H. induction H as [a v Hv|a v b l Hv H IH]; intros [|n] r Hn;
    cbn [List.length] in Hn; try lia; cbn [j_items].
  - rewrite (Hi a v _ Hv). cbn [obind]. now rewrite Hc.
  - rewrite <- app_assoc. rewrite (Hi a v _ Hv). cbn [obind app]. rewrite Hc'. cbn [j_comma obind].
    rewrite IH by lia. reflexivity.
Qed.

Lemma jitems_length {A} (it : list etoken -> A -> Prop) a l :
  (forall b v, it b v -> 1 <= List.length b) -> jitems it a l -> List.length l <= List.length a.
Proof.
  intros Hi H. induction H as [a v Hv|a v b l Hv H IH]; cbn.
  - now apply Hi in Hv.
  - rewrite app_length. cbn. apply Hi in Hv. lia.
Qed.

Lemma j_list_snd {A} (item : jparser A) (it : list etoken -> A -> Prop) : jsnd item it ->
  forall ts l r, j_list item ts = Some (l, r) ->
  exists a, ts = JLSq :: a ++ JRSq :: r /\ e_loop it a l.
Proof.
  intros Hi ts l r H. unfold j_list in H. stp. jtoks.
  apply (j_items_snd _ JRSq _ _ _ j_rsq_inv Hi) in H. destruct H as (a & -> & Ha).
  exists a. split; [easy|now apply loop_jitems].
Qed.
Lemma j_list_cpl {A} (item : jparser A) (it : list etoken -> A -> Prop) : (forall b v, it b v -> 1 <= List.length b) ->
  jcpl item it -> forall a l r, e_loop it a l ->
  j_list item (JLSq :: a ++ JRSq :: r) = Some (l, r).
Proof.
  intros Hn Hi a l r H. apply loop_jitems in H. unfold j_list. cbn [j_lsq obind].
  apply (j_items_cpl j_rsq JRSq item it); try easy.
  apply jitems_length in H; [|easy]. rewrite app_length. lia.
Qed.

Lemma e_int_length a z : e_int a z -> 1 <= List.length a.
Proof. intros []; cbn; lia. Qed.
Lemma e_str_length a z : e_str a z -> 1 <= List.length a.
Proof. intros []; cbn; lia. Qed.
Lemma e_seg_length a z : e_seg a z -> 1 <= List.length a.
Proof. intros []; cbn; lia. Qed.
Lemma e_cap_length a z : e_cap a z -> 1 <= List.length a.
Proof. intros []; cbn; lia. Qed.
Lemma e_variable_length a z : e_variable a z -> 1 <= List.length a.
Proof. intros []; cbn; lia. Qed.

(** A list parser fails when its item parser fails on the first item. *)
Lemma j_list_none {A} (item : jparser A) ts : item ts = None -> j_list item (JLSq :: ts) = None.
Proof.
  intros H. unfold j_list. cbn [j_lsq obind]. destruct (List.length ts); [reflexivity|].
  cbn [j_items]. now rewrite H.
Qed.

(** The first item of a loop. *)
Lemma loop_first {A} (it : list etoken -> A -> Prop) a l : e_loop it a l ->
  exists b v r, a = b ++ r /\ it b v.
Proof.
  intros H. apply loop_jitems in H. destruct H as [a v Hv|a v b l Hv H].
  - exists a, v, []. now rewrite app_nil_r.
  - now exists a, v, (JComma :: b).
Qed.

(** ** Values *)

Lemma j_map_some {A B} (f : A -> B) p ts v r : j_map f p ts = Some (v, r) ->
  exists a, p ts = Some (a, r) /\ v = f a.
Proof. unfold j_map. intros H. stp. eauto. Qed.
Lemma orelse_some {A} (a b : option A) v : orelse a b = Some v -> a = Some v \/ b = Some v.
Proof. destruct a; cbn; auto. Qed.

Lemma j_value_snd : jsnd j_value e_value.
Proof.
  intros ts v r H. unfold j_value in H.
  assert (Hnum : orelse (j_map VInt j_int ts) (j_map VFloat j_flt ts) = Some (v, r) ->
    exists a, ts = a ++ r /\ e_value a v).
  { clear H. intros H. apply orelse_some in H.
    destruct H as [H|H]; apply j_map_some in H; destruct H as (x & H & ->).
    - apply j_int_snd in H. destruct H as (a & -> & Ha). exists a. split; [easy|now constructor].
    - apply j_flt_snd in H. destruct H as (a & -> & Ha). exists a. split; [easy|now constructor]. }
  destruct ts as [|t ts]; [exact (Hnum H)|]. destruct t; try (exact (Hnum H)); clear Hnum.
  - assert (Hl : orelse (j_map VIntList (j_list j_int) (JLSq :: ts))
          (orelse (j_map (fun l => VStrList (map mk_str l)) (j_list j_string) (JLSq :: ts))
             (orelse (j_map VSegs (j_list j_segment) (JLSq :: ts))
                (j_map VFreqs (j_list j_freq) (JLSq :: ts)))) = Some (v, r) ->
      exists a, JLSq :: ts = a ++ r /\ e_value a v).
    { clear H. intros H. repeat (apply orelse_some in H; destruct H as [H|H]);
        apply j_map_some in H; destruct H as (x & H & ->).
      - apply (j_list_snd _ _ j_int_snd) in H. destruct H as (a & -> & Ha).
        exists (JLSq :: a ++ [JRSq]). split; [japp; reflexivity|now apply ev_ints].
      - apply (j_list_snd _ _ j_string_snd) in H. destruct H as (a & -> & Ha).
        exists (JLSq :: a ++ [JRSq]). split; [japp; reflexivity|now apply ev_strs].
      - apply (j_list_snd _ _ j_segment_snd) in H. destruct H as (a & -> & Ha).
        exists (JLSq :: a ++ [JRSq]). split; [japp; reflexivity|now apply ev_segs].
      - apply (j_list_snd _ _ j_freq_snd) in H. destruct H as (a & -> & Ha).
        exists (JLSq :: a ++ [JRSq]). split; [japp; reflexivity|now apply ev_caps]. }
    destruct ts as [|t ts]; [exact (Hl H)|]. destruct t; try (exact (Hl H)). stp.
    exists [JLSq; JRSq]. split; [easy|constructor].
  - stp. eexists [_]. split; [reflexivity|constructor].
  - stp. eexists [_]. split; [reflexivity|constructor].
  - stp. eexists [_]. split; [reflexivity|constructor]. constructor.
Qed.

(** The list branch of [j_value]. *)
Lemma j_value_list t ts : t <> JRSq -> j_value (JLSq :: t :: ts) =
  orelse (j_map VIntList (j_list j_int) (JLSq :: t :: ts))
    (orelse (j_map (fun l => VStrList (map mk_str l)) (j_list j_string) (JLSq :: t :: ts))
       (orelse (j_map VSegs (j_list j_segment) (JLSq :: t :: ts))
          (j_map VFreqs (j_list j_freq) (JLSq :: t :: ts)))).
Proof. intros H. destruct t; try reflexivity. easy. Qed.

Lemma j_value_cpl : jcpl j_value e_value.
Proof.
  intros a v r H. destruct H as [| |a z H|a f H|a s H| |a l H|a l H|a l H|a l H].
  - reflexivity.
  - reflexivity.
  - destruct H; reflexivity.
  - destruct H; reflexivity.
  - destruct H; reflexivity.
  - reflexivity.
  - japp. pose proof (j_list_cpl _ _ e_int_length j_int_cpl a l r H) as E.
    assert (Hh : exists t b, a ++ JRSq :: r = t :: b /\ t <> JRSq).
    { destruct (loop_first _ _ _ H) as (b & v & c & -> & []); do 2 eexists; (split; [reflexivity|discriminate]). }
    destruct Hh as (t & b & Hh & Ht). rewrite Hh in *. rewrite j_value_list by easy.
    unfold j_map. now rewrite E.
  - japp. pose proof (j_list_cpl _ _ e_str_length j_string_cpl a l r H) as E.
    destruct (loop_first _ _ _ H) as (b & v & c & -> & Hb). destruct Hb.
    cbn [app] in *. rewrite j_value_list by easy. unfold j_map.
    rewrite (j_list_none j_int) by reflexivity. cbn [obind orelse]. now rewrite E.
  - japp. pose proof (j_list_cpl _ _ e_seg_length j_segment_cpl a l r H) as E.
    destruct (loop_first _ _ _ H) as (b & v & c & -> & Hb). destruct Hb.
    cbn [app] in *. rewrite j_value_list by easy. unfold j_map.
    rewrite (j_list_none j_int) by reflexivity. rewrite (j_list_none j_string) by reflexivity.
    cbn [obind orelse]. now rewrite E.
  - japp. pose proof (j_list_cpl _ _ e_cap_length j_freq_cpl a l r H) as E.
    destruct (loop_first _ _ _ H) as (b & v & c & -> & Hc).
    destruct Hc; cbn [app] in *; rewrite j_value_list by easy; unfold j_map;
    rewrite (j_list_none j_int) by reflexivity; rewrite (j_list_none j_string) by reflexivity;
    rewrite (j_list_none j_segment) by reflexivity; cbn [obind orelse]; now rewrite E.
Qed.

Lemma j_variable_snd : jsnd j_variable e_variable.
Proof.
  intros ts v r H. unfold j_variable in H. stp. jtoks.
  assert (Hv : (do (v, r') <- j_value v0; Some ((a, Some v), r')) = Some (v, r) ->
    exists b, JStr a :: JColon :: v0 = b ++ r /\ e_variable b v).
  { clear H. intros H. stp. apply j_value_snd in E. destruct E as (b & -> & Hb).
    exists (JStr a :: JColon :: b). split; [easy|now constructor]. }
  destruct v0 as [|t v0]; [exact (Hv H)|]. destruct t; try (exact (Hv H)). stp.
  eexists [_; _; _]. split; [reflexivity|constructor].
Qed.
Lemma j_variable_cpl : jcpl j_variable e_variable.
Proof.
  intros a v r [x b w H|x]; [|reflexivity]. unfold j_variable. jgo.
  pose proof (j_value_cpl _ _ r H) as E.
  assert (Hh : match b ++ r with JNull :: _ => False | _ => True end).
  { destruct H as [| |c z []|c f []|c s []| |c l H|c l H|c l H|c l H]; exact I. }
  destruct (b ++ r) as [|t ts]; [discriminate|]. destruct t; try easy; now rewrite E.
Qed.

Lemma event_tokens_iff ts l' :
  event_tokens ts = Some l' <-> exists l, e_event ts l /\ l' = add_vars l.
Proof.
  split.
  - intros H. unfold event_tokens in H. destruct ts as [|t ts]; [discriminate|].
    destruct t; try discriminate.
    assert (Hl : (match j_items j_rcu j_variable (List.length ts) ts with
      | Some (l, []) => Some (add_vars l) | _ => None end) = Some l' ->
      exists l, e_event (JLCu :: ts) l /\ l' = add_vars l).
    { clear H. intros H. destruct (j_items _ _ _ ts) as [[l r]|] eqn:E; [|discriminate].
      destruct r; [|discriminate]. injection H as <-.
      apply (j_items_snd _ JRCu _ _ _ j_rcu_inv j_variable_snd) in E. destruct E as (a & -> & Ha).
      exists l. split; [|easy]. constructor. now apply loop_jitems. }
    destruct ts as [|t ts]; [exact (Hl H)|]. destruct t; try (exact (Hl H)).
    destruct ts as [|t' ts]; [|exact (Hl H)]. injection H as <-. exists []. split; [constructor|easy].
  - intros (l & H & ->). destruct H as [|a l H]; [reflexivity|].
    pose proof (loop_first _ _ _ H) as (b & v & c & Eb & Hb).
    apply loop_jitems in H.
    pose proof (j_items_cpl j_rcu JRCu j_variable e_variable (fun _ => eq_refl) (fun _ => eq_refl)
      j_variable_cpl a l H (List.length (a ++ [JRCu])) []) as E.
    assert (Hn : List.length l <= List.length (a ++ [JRCu])).
    { apply jitems_length in H; [|exact e_variable_length]. rewrite app_length. lia. }
    specialize (E Hn). subst a. unfold event_tokens.
    destruct Hb; cbn [app] in *; now rewrite E.
Qed.
