(** The text of a stored expression: its source is like the source that was inserted. *)
From Coq Require Import ZArith NArith String Ascii Bool List Lia Floats.SpecFloat Permutation.
From Coq Require Import ZifyBool ZifyNat ZifyN.
From Verif Require Import Base Float Value Ast Config Assign Special Source Api Spec FloatSpec Lexer LexSpec Grammar HelpSpec PrintSpec Printer.
From Verif Require Import PredMap Tree TreeSpec Hist TextHist ResProofs PassProofs ExtProofs HistProofs LexProofs TextProofs PrintProofs.
Import ListNotations.
Local Open Scope Z_scope.
Section WithGeo.
  Context {G : Geo}.
  Record alike (ds : list domain) (cs : constants) (a b : atom) : Prop := {
    al_ok : atom_ok ds cs b;
    al_range : forall n, no_range (n, a) -> no_range (n, b);
    al_hold : forall ev n, may_hold ds ev (n, a) -> may_hold ds ev (n, b);
    al_fail : forall ev n, may_fail ds ev (n, a) -> may_fail ds ev (n, b);
    al_sem : forall ev, event_ok ds ev -> sem_atom cs ev b = sem_atom cs ev a }.
  Lemma alike_refl ds cs a : atom_ok ds cs a -> alike ds cs a a.
  Proof. intros H. constructor; auto. Qed.
  Lemma existsb_perm {A} (f : A -> bool) l l' : Permutation l l' -> existsb f l = existsb f l'.
  Proof. induction 1; cbn; auto; [now rewrite IHPermutation|now destruct (f x), (f y)|congruence]. Qed.
  Lemma forallb_perm {A} (f : A -> bool) l l' : Permutation l l' -> forallb f l = forallb f l'.
  Proof. induction 1; cbn; auto; [now rewrite IHPermutation|now destruct (f x), (f y)|congruence]. Qed.
  Lemma list_res_perm {A} (mem : A -> list A -> bool) op have l l' : Permutation l l' -> list_res mem op have l = list_res mem op have l'.
  Proof. intros P. destruct op; cbn; now rewrite ?(existsb_perm _ _ _ P), ?(forallb_perm _ _ _ P). Qed.
  Lemma perm_nonempty {A} (l l' : list A) : Permutation l' l -> l <> [] -> l' <> [].
  Proof. intros P N ->. apply Permutation_nil in P. auto. Qed.
  Lemma inner_readable z : inner_int z -> readable_int z.
  Proof. unfold inner_int, readable_int, INT64_MIN, INT64_MAX. lia. Qed.
  Lemma inner_all l : Forall inner_int l -> Forall readable_int l.
  Proof. apply Forall_impl. apply inner_readable. Qed.
  Lemma fresh_build l : map fresh_str l = build_strs (map sv_string l).
  Proof. unfold build_strs. rewrite map_map. reflexivity. Qed.
  Lemma readable_perm l l' : Permutation (map sv_string l') l -> Forall readable_str l -> Forall (fun s => readable_str (sv_string s)) l'.
  Proof. intros P F. apply Forall_map. eapply Permutation_Forall; [symmetry; exact P|exact F]. Qed.
  Lemma short_perm {A} (l l' : list A) : Permutation l' l -> short l -> short l'.
  Proof. unfold short. intros P. now rewrite (Permutation_length P). Qed.

  Lemma float_not_int c ev x v z : dv c x v TFloat -> event_ok (c_domains c) ev -> lookup ev x = Some (VInt z) -> False.
  Proof.
    intros (d & D1 & D2) E L. pose proof (lookup_typed _ _ _ _ _ _ E D1 L) as K. rewrite D2 in K. exact K.
  Qed.
  Lemma stored_leaf c cs a q : res_leaf c cs a q -> atom_ok (c_domains c) cs a -> printable_atom (c_domains c) a ->
    printable_leaf q /\ exists b, fresh_leaf q = build_atom b /\ alike (c_domains c) cs a b.
  Proof.
    intros R O P.
    destruct a as [x|b|op x [z|f]|op x [z|f|s]|op x [l|l]|op [z|f|s] x|op x [l|l]|op x|t ns value len|op x id s|a b r|op x p];
      cbn [res_leaf atom_ok printable_atom] in R, O, P.
    - destruct R as (v & D & ->). split; [exact P|]. exists (AVar x). split; [reflexivity|]. now apply alike_refl.
    - subst q. split; [exact I|]. exists (ALit b). split; [reflexivity|]. now apply alike_refl.
    - destruct R as (v & [[D ->]|[D ->]]).
      + split; [split; [easy|]|exists (ACmp op x (CInt z)); split; [reflexivity|now apply alike_refl]].
        destruct O as [[_ O]|(v' & d' & O1 & O2)]; [now apply inner_readable|].
        destruct D as (d & D1 & D2). rewrite D1 in O1. injection O1 as <- <-. congruence.
      + assert (has_type (c_domains c) x TFloat) as HT by (destruct D as (d & D1 & D2); exists v, d; auto).
        split; [split; [easy|apply two_decimals_int; now apply P]|]. exists (ACmp op x (CFloat (f_of_Z z))). split; [reflexivity|].
        constructor; auto.
        * split; [easy|]. apply FloatProofs.f_of_Z_not_nan.
        * intros ev E. cbn [sem_atom]. destruct (lookup ev x) as [y|] eqn:L; [|reflexivity]. destruct y; try reflexivity.
          exfalso. eapply float_not_int; eauto.
    - destruct R as (v & D & ->). split; [exact P|]. exists (ACmp op x (CFloat f)). split; [reflexivity|]. now apply alike_refl.
    - destruct P as (P1 & P2 & P3). destruct R as (v & [[D ->]|[[D ->]|[D (i & -> & _)]]]).
      + split; [split; easy|]. exists (AEq op x (SInt z)). split; [reflexivity|now apply alike_refl].
      + assert (has_type (c_domains c) x TFloat) as HT by (destruct D as (d & D1 & D2); exists v, d; auto).
        split; [split; [easy|apply two_decimals_int; now apply P3]|]. exists (AEq op x (SFlt (f_of_Z z))). split; [reflexivity|].
        constructor; auto.
        * split; [easy|]. apply FloatProofs.f_of_Z_not_nan.
        * intros ev E. cbn [sem_atom]. destruct (lookup ev x) as [y|] eqn:L; [|reflexivity]. destruct y; try reflexivity.
          exfalso. eapply float_not_int; eauto.
      + split; [split; easy|]. exists (AEq op x (SInt z)). split; [reflexivity|now apply alike_refl].
    - destruct R as (v & D & ->). split; [exact P|]. exists (AEq op x (SFlt f)). split; [reflexivity|]. now apply alike_refl.
    - destruct R as (v & i & D & -> & _). split; [exact P|]. exists (AEq op x (SStr s)). split; [reflexivity|]. now apply alike_refl.
    - destruct R as (v & l' & D & -> & _ & PM). destruct O as (O1 & O2 & O3 & O4). split.
      + split; [exact P|]. split; [now apply (perm_nonempty l)|]. apply inner_all. eapply Permutation_Forall; [symmetry; exact PM|exact O3].
      + exists (AIn op x (SInts l')). split; [reflexivity|]. constructor; auto.
        * cbn [atom_ok]. split; [easy|]. split; [now apply (perm_nonempty l)|]. split; [|now apply (short_perm l)].
          eapply Permutation_Forall; [symmetry; exact PM|exact O3].
        * intros ev _. cbn [sem_atom]. destruct (lookup ev x) as [y|]; [|reflexivity]. destruct y; try reflexivity.
          unfold memZ. now rewrite (existsb_perm _ _ _ PM).
    - destruct R as (v & l' & D & -> & _ & PM & _). destruct P as [P1 P2]. destruct O as (O1 & O2 & O4). split.
      + split; [exact P1|]. split; [|now apply (readable_perm l)]. intros ->. apply Permutation_nil in PM. auto.
      + exists (AIn op x (SStrs (map sv_string l'))). split; [cbn [fresh_leaf]; rewrite fresh_build; reflexivity|]. constructor; auto.
        * cbn [atom_ok]. split; [easy|]. split; [now apply (perm_nonempty l)|now apply (short_perm l)].
        * intros ev _. cbn [sem_atom]. destruct (lookup ev x) as [y|]; [|reflexivity]. destruct y; try reflexivity.
          unfold memS. now rewrite (existsb_perm _ _ _ PM).
    - destruct R as (v & D & ->). destruct O as [O1 O2]. split; [split; [now apply inner_readable|exact P]|].
      exists (AHas op (SInt z) x). split; [reflexivity|]. now apply alike_refl.
    - destruct R.
    - destruct R as (v & i & D & -> & _). split; [split; apply P|]. exists (AHas op (SStr s) x). split; [reflexivity|]. now apply alike_refl.
    - destruct R as (v & l' & D & -> & _ & PM). destruct O as (O1 & O2 & O3 & O4). split.
      + split; [exact P|]. split; [now apply (perm_nonempty l)|]. apply inner_all. eapply Permutation_Forall; [symmetry; exact PM|exact O3].
      + exists (AList op x (SInts l')). split; [reflexivity|]. constructor; auto.
        * cbn [atom_ok]. split; [easy|]. split; [now apply (perm_nonempty l)|]. split.
          -- eapply Permutation_Forall; [symmetry; exact PM|exact O3].
          -- intros E. eapply Permutation_NoDup; [symmetry; exact PM|now apply O4].
        * intros ev _. cbn [sem_atom]. destruct (lookup ev x) as [y|]; [|reflexivity]. destruct (ints_in y); [|reflexivity].
          now apply list_res_perm.
    - destruct R as (v & l' & D & -> & _ & PM & _). destruct P as [P1 P2]. destruct O as (O1 & O2 & O4). split.
      + split; [exact P1|]. split; [|now apply (readable_perm l)]. intros ->. apply Permutation_nil in PM. auto.
      + exists (AList op x (SStrs (map sv_string l'))). split; [cbn [fresh_leaf]; rewrite fresh_build; reflexivity|]. constructor; auto.
        * cbn [atom_ok]. split; [easy|]. split; [now apply (perm_nonempty l)|].
          intros E. eapply Permutation_NoDup; [symmetry; exact PM|now apply O4].
        * intros ev _. cbn [sem_atom]. destruct (lookup ev x) as [y|]; [|reflexivity]. destruct (strs_in y); [|reflexivity].
          now apply list_res_perm.
    - destruct P.
    - destruct R as (v & nv & i & z & _ & _ & _ & _ & ->). destruct O as (O1 & O2 & O3 & O4 & O5 & O6 & O7).
      assert (to_uint 64 len = len) as E by (apply small_uint; unfold INT64_MAX; lia). rewrite E.
      split; [split; [easy|]; split; [exact P|]; unfold readable_int, INT64_MAX; lia|].
      exists (AFreq t ns value len). split; [cbn [fresh_leaf build_atom]; unfold mk_freq; rewrite E; reflexivity|].
      apply alike_refl. cbn [atom_ok]. tauto.
    - destruct R as (v & nv & D & _ & ->). destruct O as (O1 & O2 & O3 & O4). destruct P as [P1 P2].
      assert (to_uint 64 id = id) as E by (apply small_uint; unfold is_int64, INT64_MAX, INT64_MIN in *; lia). rewrite E.
      split; [split; [destruct x; [exact P2|reflexivity]|]; unfold readable_int, is_int64, INT64_MAX, INT64_MIN in *; lia|].
      exists (ASeg op (Some (match x with Some x => x | None => "segments_with_timestamp"%string end)) id s).
      split; [cbn [fresh_leaf build_atom mk_seg]; rewrite E; reflexivity|].
      destruct x as [x|]; constructor; cbn [atom_ok]; auto.
    - destruct R as (v & w & _ & _ & ->). split; [exact P|]. exists (AGeo a b r). split; [reflexivity|]. now apply alike_refl.
    - destruct R as (v & D & ->). split; [exact P|]. exists (AStr op x p). split; [reflexivity|]. now apply alike_refl.
  Qed.

  (** The source of the printed text: the same with other atoms and operands exchanged. *)
  Inductive alike_src (ds : list domain) (cs : constants) : src -> src -> Prop :=
  | as_atom a b : alike ds cs a b -> alike_src ds cs (XAtom a) (XAtom b)
  | as_not x y : alike_src ds cs x y -> alike_src ds cs (XNot x) (XNot y)
  | as_and x x' y y' : alike_src ds cs x x' -> alike_src ds cs y y' -> alike_src ds cs (XAnd x y) (XAnd x' y')
  | as_and' x x' y y' : alike_src ds cs x x' -> alike_src ds cs y y' -> alike_src ds cs (XAnd x y) (XAnd y' x')
  | as_or x x' y y' : alike_src ds cs x x' -> alike_src ds cs y y' -> alike_src ds cs (XOr x y) (XOr x' y')
  | as_or' x x' y y' : alike_src ds cs x x' -> alike_src ds cs y y' -> alike_src ds cs (XOr x y) (XOr y' x').
  Lemma stored_src c cs x e : res_expr c cs x e -> src_ok (c_domains c) cs x -> printable_src (c_domains c) x ->
    printable e /\ exists y, fresh e = build y /\ alike_src (c_domains c) cs x y.
  Proof.
    unfold res_expr, src_ok, printable_src, printable. induction 1; cbn [src_atoms expr_leaves fresh]; intros O P.
    - inversion O; inversion P; subst. destruct (stored_leaf c cs a q) as (A & b & E & B); auto.
      split; [auto|]. exists (XAtom b). split; [cbn [build]; now rewrite E|now constructor].
    - destruct IHrel_src as (A & y & E & B); auto. split; [exact A|]. exists (XNot y). split; [cbn [build]; now rewrite E|now constructor].
    - apply Forall_app in O, P. destruct O, P. destruct IHrel_src1 as (A & x' & E & B); auto. destruct IHrel_src2 as (A' & y' & E' & B'); auto.
      split; [apply Forall_app; auto|]. exists (XAnd x' y'). split; [cbn [build]; now rewrite E, E'|now constructor].
    - apply Forall_app in O, P. destruct O, P. destruct IHrel_src1 as (A & x' & E & B); auto. destruct IHrel_src2 as (A' & y' & E' & B'); auto.
      split; [apply Forall_app; auto|]. exists (XAnd y' x'). split; [cbn [build]; now rewrite E, E'|now constructor].
    - apply Forall_app in O, P. destruct O, P. destruct IHrel_src1 as (A & x' & E & B); auto. destruct IHrel_src2 as (A' & y' & E' & B'); auto.
      split; [apply Forall_app; auto|]. exists (XOr x' y'). split; [cbn [build]; now rewrite E, E'|now constructor].
    - apply Forall_app in O, P. destruct O, P. destruct IHrel_src1 as (A & x' & E & B); auto. destruct IHrel_src2 as (A' & y' & E' & B'); auto.
      split; [apply Forall_app; auto|]. exists (XOr y' x'). split; [cbn [build]; now rewrite E, E'|now constructor].
  Qed.
  Lemma alike_sem ds cs x y ev : alike_src ds cs x y -> event_ok ds ev -> sem cs ev y = sem cs ev x.
  Proof.
    induction 1; intros E; cbn [sem]; try rewrite IHalike_src by easy; try rewrite IHalike_src1, IHalike_src2 by easy; auto.
    - now apply (al_sem ds cs a b).
    - apply andb_comm.
    - apply orb_comm.
  Qed.
  Lemma alike_ok ds cs x y : alike_src ds cs x y -> src_ok ds cs y.
  Proof.
    unfold src_ok. induction 1; cbn [src_atoms]; try (apply Forall_app; auto); auto.
    constructor; [|constructor]. now apply (al_ok ds cs a b).
  Qed.
  Lemma alike_signed ds cs x y (P : bool * atom -> Prop) : alike_src ds cs x y ->
    (forall n a b, alike ds cs a b -> P (n, a) -> P (n, b)) ->
    forall n, Forall P (signed_atoms n x) -> Forall P (signed_atoms n y).
  Proof.
    intros A K. induction A; intros n H'; cbn [signed_atoms] in *; auto.
    - inversion H'; subst. constructor; [|constructor]. eauto.
    - apply Forall_app in H'. apply Forall_app. destruct H'. auto.
    - apply Forall_app in H'. apply Forall_app. destruct H'. auto.
    - apply Forall_app in H'. apply Forall_app. destruct H'. auto.
    - apply Forall_app in H'. apply Forall_app. destruct H'. auto.
  Qed.
  Lemma alike_short ds cs x y ev : alike_src ds cs x y -> forall n, short_ok ds ev n x -> short_ok ds ev n y.
  Proof.
    assert (forall n a b, alike ds cs a b -> may_hold ds ev (n, a) -> may_hold ds ev (n, b)) as K1.
    { intros n a b A. now apply (al_hold ds cs a b). }
    assert (forall n a b, alike ds cs a b -> may_fail ds ev (n, a) -> may_fail ds ev (n, b)) as K2.
    { intros n a b A. now apply (al_fail ds cs a b). }
    induction 1 as [a b A|x y A IH|x x' y y' A IHa B IHb|x x' y y' A IHa B IHb|x x' y y' A IHa B IHb|x x' y y' A IHa B IHb];
      intros n H; cbn [short_ok] in *; auto; destruct H as (H1 & H2 & H3); (split; [|auto]); intros E; specialize (H1 E).
    - eapply (alike_signed ds cs (XAnd x y) (XAnd x' y') (may_hold ds ev)); eauto. now constructor.
    - eapply (alike_signed ds cs (XAnd x y) (XAnd y' x') (may_hold ds ev)); eauto. now constructor.
    - eapply (alike_signed ds cs (XOr x y) (XOr x' y') (may_fail ds ev)); eauto. now constructor.
    - eapply (alike_signed ds cs (XOr x y) (XOr y' x') (may_fail ds ev)); eauto. now constructor.
  Qed.
  Lemma alike_range ds cs x y : alike_src ds cs x y -> forall n, range_ok n x -> range_ok n y.
  Proof.
    assert (forall n a b, alike ds cs a b -> no_range (n, a) -> no_range (n, b)) as K1.
    { intros n a b A. now apply (al_range ds cs a b). }
    induction 1 as [a b A|x y A IH|x x' y y' A IHa B IHb|x x' y y' A IHa B IHb|x x' y y' A IHa B IHb|x x' y y' A IHa B IHb];
      intros n H; cbn [range_ok] in *; auto; try (destruct H as (H1 & H2 & H3); (split; [|auto]); intros E; specialize (H1 E)).
    - eapply (alike_signed ds cs (XAnd x y) (XAnd x' y') no_range); eauto. now constructor.
    - eapply (alike_signed ds cs (XAnd x y) (XAnd y' x') no_range); eauto. now constructor.
    - destruct H. auto.
    - destruct H. auto.
  Qed.

  Lemma printable_atom_sig ds ds' a : map dom_sig ds' = map dom_sig ds -> printable_atom ds a -> printable_atom ds' a.
  Proof.
    intros S. destruct a as [x|b|op x [z|f]|op x [z|f|s]|op x [l|l]|op [z|f|s] x|op x [l|l]|op x|t ns value len|op x id s|a b r|op x p];
      cbn [printable_atom]; auto; intuition eauto using has_type_sig.
  Qed.
  Lemma nodup_left {A} (l k : list A) : NoDup (l ++ k) -> NoDup l.
  Proof.
    induction l as [|a l IH]; cbn [app]; intros N; constructor; inversion N; subst; auto. intros I. apply H1. apply in_or_app. auto.
  Qed.
  Lemma stored_all {fm} ds t pend log : reach_in fm ds t pend log ->
    map dom_sig (c_domains (bt_cfg t)) = map dom_sig ds /\ cfg_ok (bt_cfg t)
    /\ exists V, forall s e, In s (subs_cnode (bt_root t)) -> In e log -> s_id s = e_id e ->
         stored_as (bt_cfg t) V (pm_count (bt_pm t)) s e.
  Proof.
    intros R. apply reach_inv in R. destruct R as [IS IC _ _ IN (V & l & _ & P & EL & F)].
    split; [exact IS|]. split; [exact IC|]. exists V. intros s e Hs He E. apply Forall_app in F. destruct F as [F _].
    apply (Permutation_in _ P) in Hs. apply in_map_iff in Hs. destruct Hs as ([s' e'] & <- & Hp).
    rewrite Forall_forall in F. pose proof (F _ Hp) as K. cbn [fst snd] in *.
    assert (e' = e) as ->; [|exact K].
    assert (In e' log) as He' by (rewrite <- EL; apply in_map_iff; exists (s', e'); auto).
    rewrite (st_id _ _ _ _ _ K) in E. unfold ids_of in IN. clear - IN E He He'.
    assert (NoDup (map e_id log)) as ND by exact (nodup_left _ _ IN).
    clear IN. induction log as [|a log IH]; [easy|]. cbn [map] in ND. inversion ND as [|? ? N ND']; subst.
    destruct He as [->|He], He' as [->|He']; auto.
    - destruct N. rewrite <- E. now apply in_map.
    - destruct N. rewrite E. now apply in_map.
  Qed.
  Lemma read_back e : printable e -> exists s, ast_to_string e = Ok s /\ reads s (fresh e).
  Proof.
    intros P. destruct (expr_back e P) as (u & a & E & D & K). exists u. split; [exact E|].
    exists a. split.
    - apply lex_iff, lex_text. specialize (K ""%string [] I). rewrite app_nil_r, sapp_nil in K. apply K. apply (tx_end _ _ ""%string). reflexivity.
    - apply d_or_and, d_and_un. exact D.
  Qed.
End WithGeo.
