(** C49: the text of an expression.  C50: copies of expressions.

    [printable] (PrintSpec.v) says which expressions can be read back, [fresh] what they should be
    read as; [reads] (TextHist.v) what a text means, by the scanner rules and the grammar;
    [sem] (Spec.v) what a source expression means. *)
From Coq Require Import ZArith NArith String Ascii Bool List Lia.
From Verif Require Import Base Float Value Ast Config Assign Special Match Bound Tree PredMap Source Api Spec TreeSpec Hist.
From Verif Require Import FloatSpec HelpSpec Lexer LexSpec Grammar Parser TextApi TextHist Printer PrintSpec.
From Verif Require Import ResProofs PassProofs ExtProofs HistProofs LexProofs ParseProofs TextProofs TextLink PrintProofs PrintStored.
From Verif Require Import Check Cases PropsText.
Import ListNotations.
Local Open Scope Z_scope.

(** ** C49 *)
Theorem C49_read_back : forall e, printable e -> exists s, ast_to_string e = Ok s /\ reads s (fresh e).
Proof. exact read_back. Qed.
Print Assumptions C49_read_back.

(** An expression from the parser is read back as it is. *)
Theorem C49_parsed : forall s e, reads s e -> printable e -> no_default_segment e ->
  exists s', ast_to_string e = Ok s' /\ reads s' e.
Proof.
  intros s e (ts & _ & D) P N. destruct (read_back e P) as (s' & E & R). rewrite (fresh_parsed _ _ _ D N) in R. eauto.
Qed.
Print Assumptions C49_parsed.

(** Expressions with the same text are the same but for the numbers given to variables, strings and
    predicates. *)
Theorem C49_same_text : forall a b, printable a -> printable b -> ast_to_string a = ast_to_string b -> fresh a = fresh b.
Proof.
  intros a b Pa Pb E. destruct (read_back a Pa) as (s & Ea & Ra). destruct (read_back b Pb) as (s' & Eb & Rb).
  rewrite E, Eb in Ea. injection Ea as ->. apply parse_reads in Ra, Rb. congruence.
Qed.
Print Assumptions C49_same_text.

(** The text of a subscription in the tree, read back, means what was inserted, and is supported where
    the inserted expression is. *)
Theorem C49_stored : forall (G : Geo) m ds t pend log s e,
  reach_in m ds t pend log -> In s (subs_cnode (bt_root t)) -> In e log -> s_id s = e_id e ->
  printable_src ds (e_src e) ->
  exists text y, ast_to_string (s_expr s) = Ok text /\ reads text (build y)
    /\ src_ok ds (e_cs e) y /\ (range_ok false (e_src e) -> range_ok false y)
    /\ (forall ev, short_ok ds ev false (e_src e) -> short_ok ds ev false y)
    /\ forall ev, event_ok ds ev -> sem (e_cs e) ev y = sem (e_cs e) ev (e_src e).
Proof.
  intros G m ds t pend log s e R Hs He E P. destruct (stored_all _ _ _ _ R) as (SG & _ & V & K). specialize (K s e Hs He E).
  assert (printable_src (c_domains (bt_cfg t)) (e_src e)) as P'.
  { unfold printable_src in *. eapply Forall_impl; [|exact P]. intros a. now apply printable_atom_sig. }
  destruct (stored_src _ _ _ _ (st_res _ _ _ _ _ K) (st_src _ _ _ _ _ K) P') as (PE & y & F & A).
  destruct (read_back _ PE) as (text & T & D). rewrite F in D. exists text, y. split; [exact T|]. split; [exact D|]. split; [|split; [|split]].
  - eapply src_ok_sig; [symmetry; exact SG|]. eapply alike_ok; eauto.
  - eapply alike_range; exact A.
  - intros ev H. eapply short_ok_sig; [symmetry; exact SG|]. eapply alike_short; [exact A|]. eapply short_ok_sig; [exact SG|exact H].
  - intros ev HE. eapply alike_sem; [exact A|]. eapply event_ok_sig; [exact SG|exact HE].
Qed.
Print Assumptions C49_stored.

(** Which expressions have a text: lists are not empty, types of frequency caps are known. *)
Definition has_text (p : leaf) : Prop :=
  match p with
  | PSet _ _ (SRInts l) | PList _ _ (LInts l) => l <> []
  | PSet _ _ (SRStrs l) | PList _ _ (LStrs l) => l <> []
  | PFreq _ ty _ _ _ _ _ => ty <> FTInvalid
  | _ => True
  end.
Lemma leaf_text p : has_text p <-> exists s, show_leaf p = Ok s.
Proof.
  assert (forall A (f : A -> string) l, l <> [] <-> exists s, show_list f l = Ok s) as L.
  { intros A f [|a l]; split; intros H; [easy|now destruct H|cbn; eauto|discriminate]. }
  destruct p as [b|v|op v x|op v x|op l r|op v x|op v|v ty ns vl w now id|op h v id s now|h la lo r x y|op v pat];
    cbn [has_text show_leaf]; try (split; eauto; fail).
  - destruct r as [r|r|v]; cbn [show_right]; [| |split; cbn; eauto].
    + rewrite (L _ show_Z r). split; intros [s H]; [rewrite H; cbn; eauto|]. destruct (show_list _ r); [eauto|discriminate..].
    + rewrite (L _ (fun s => show_str (sv_string s)) r). split; intros [s H]; [rewrite H; cbn; eauto|].
      destruct (show_list _ r); [eauto|discriminate..].
  - destruct x as [r|r]; cbn [show_lval].
    + rewrite (L _ show_Z r). split; intros [s H]; [rewrite H; cbn; eauto|]. destruct (show_list _ r); [eauto|discriminate..].
    + rewrite (L _ (fun s => show_str (sv_string s)) r). split; intros [s H]; [rewrite H; cbn; eauto|].
      destruct (show_list _ r); [eauto|discriminate..].
  - destruct ty; cbn; split; try discriminate; eauto; [now intros H|intros [s H]; discriminate].
Qed.
Theorem C49_total : forall e, (exists s, ast_to_string e = Ok s) <-> Forall has_text (expr_leaves e).
Proof.
  induction e as [g p|g a IHa b IHb|g a IHa b IHb|g a IHa]; cbn [ast_to_string expr_leaves].
  - rewrite <- leaf_text. split; [intros H; constructor; auto|intros H; now inversion H].
  - rewrite Forall_app, <- IHa, <- IHb. split.
    + intros [s H]. destruct (ast_to_string a); [|discriminate..]. destruct (ast_to_string b); [|discriminate..]. eauto.
    + intros [[s ->] [s' ->]]. cbn. eauto.
  - rewrite Forall_app, <- IHa, <- IHb. split.
    + intros [s H]. destruct (ast_to_string a); [|discriminate..]. destruct (ast_to_string b); [|discriminate..]. eauto.
    + intros [[s ->] [s' ->]]. cbn. eauto.
  - rewrite <- IHa. split.
    + intros [s H]. destruct (ast_to_string a); [|discriminate..]. eauto.
    + intros [s ->]. cbn. eauto.
Qed.
Print Assumptions C49_total.

Definition text_in (t : betree) (id : Z) : option (result string) :=
  option_map (fun s => ast_to_string (s_expr s)) (find (fun s => s_id s =? id) (subs_cnode (bt_root t))).
Local Open Scope string_scope.
Example C49_case :
  text_in case_t 12 = Some (Ok "(((not (i = 5))) and (s not in (""x"", ""y"")))")
  /\ text_in case_t 14 = Some (Ok "((b) and (((i = 1) or (f < 2.00))))")
  /\ text_in case_t 9 = Some (Ok "within_frequency_cap(""flight"", ""ns"", 10, 100)")
  /\ text_in case_t 16 = Some (Ok "((segment_within(segments_with_timestamp, 3, 20)) and (contains(s, ""ell"")))")
  /\ ast_to_string (build (XAtom (AGeo (f_of_Z (-3)) (fdiv (f_of_Z 1) (f_of_Z 4)) (f_of_Z 10)))) = Ok "geo_within_radius(-3.00, 0.25, 10.00)"
  /\ Forall (fun e => printable_src case_ds (e_src e)) case_log.
Proof.
  do 5 (split; [vm_compute; reflexivity|]).
  unfold case_log, printable_src. repeat (apply Forall_cons; [cbn [e_src src_atoms app]|]); try apply Forall_nil.
  all: repeat (apply Forall_cons || apply Forall_nil).
  all: cbn [printable_atom]; repeat match goal with |- _ /\ _ => split end.
  all: lazymatch goal with
       | |- readable_name _ => reflexivity
       | |- readable_str _ => reflexivity
       | |- readable_int _ => split; vm_compute; discriminate
       | |- has_type _ _ _ -> _ => intros _; reflexivity
       | |- Forall _ _ => repeat (apply Forall_cons || apply Forall_nil); reflexivity
       | |- two_decimals _ => apply (two_decimals_int 2); reflexivity
       | |- (_ <= _)%Z => discriminate
       | |- True => exact I
       end.
Qed.

(** ** C50 *)
Theorem C50_copy : forall e, Forall plain_leaf (expr_leaves e) -> clone_node e = e.
Proof.
  induction e as [g p|g a IHa b IHb|g a IHa b IHb|g a IHa]; cbn [expr_leaves clone_node]; intros H.
  - inversion H as [|? ? K _]; subst. f_equal. now destruct p.
  - apply Forall_app in H. destruct H. now rewrite IHa, IHb.
  - apply Forall_app in H. destruct H. now rewrite IHa, IHb.
  - now rewrite IHa.
Qed.
Print Assumptions C50_copy.

(** The text of a copy is the same, whatever the expression. *)
Theorem C50_text : forall e, ast_to_string (clone_node e) = ast_to_string e.
Proof.
  induction e as [g p|g a IHa b IHb|g a IHa b IHb|g a IHa]; cbn [clone_node ast_to_string].
  - now destruct p.
  - now rewrite IHa, IHb.
  - now rewrite IHa, IHb.
  - now rewrite IHa.
Qed.
Print Assumptions C50_text.
(** So a copy is read back as its original. *)
Theorem C50_read_back : forall e, printable e -> exists s, ast_to_string (clone_node e) = Ok s /\ reads s (fresh e).
Proof. intros e P. rewrite C50_text. now apply C49_read_back. Qed.
Print Assumptions C50_read_back.

(** A copy of what the parser made is the same exactly if it has no frequency, segment or geo predicate. *)
Theorem C50_parsed : forall s e, reads s e -> (clone_node e = e <-> Forall plain_leaf (expr_leaves e)).
Proof.
  intros s e (ts & _ & D). split; [|apply C50_copy]. revert D.
  assert (forall l, derives l ts e -> clone_node e = e -> Forall plain_leaf (expr_leaves e)) as K; [|apply K].
  induction 1 as [a x b y _ IHa _ IHb|a x _ IH|a x b y _ IHa _ IHb|a x _ IH|a x _ IH|a x _ IH|a p A]; auto.
  - unfold mk_or. destruct (_ <? _)%Z; cbn [clone_node expr_leaves]; intros [= E1 E2]; apply Forall_app; auto.
  - unfold mk_and. destruct (_ <? _)%Z; cbn [clone_node expr_leaves]; intros [= E1 E2]; apply Forall_app; auto.
  - unfold mk_not. cbn [clone_node expr_leaves]. intros [= E]. auto.
  - unfold mk_leaf. cbn [clone_node expr_leaves]. intros E. injection E as E. constructor; [|constructor].
    destruct A; exact I || (exfalso; discriminate E) || idtac.
Qed.
Print Assumptions C50_parsed.

Example C50_case :
  let e := build (XAnd (XAtom (AVar "b")) (XNot (XOr (i_eq 3) (XAtom (AStr StContains "s" "x"))))) in
  clone_node e = e /\ reads "b and not (i = 3 or contains(s, ""x""))" e
  /\ Forall (fun s => if (s_id s =? 9)%Z then clone_node (s_expr s) <> s_expr s
                      else if (s_id s =? 16)%Z then clone_node (s_expr s) <> s_expr s
                      else clone_node (s_expr s) = s_expr s) (subs_cnode (bt_root case_t)).
Proof.
  cbv zeta. split; [reflexivity|]. split; [read|].
  let l := eval vm_compute in (subs_cnode (bt_root case_t)) in change (subs_cnode (bt_root case_t)) with l.
  repeat apply Forall_cons; try apply Forall_nil; cbn [s_id Z.eqb Pos.eqb s_expr clone_node clone_leaf];
    first [reflexivity|intros E; discriminate E].
Qed.
