(** The drawing on linked objects: its text is that of the statements of DotSpec.v, and memory is as before. *)
From Coq Require Import ZArith NArith String Ascii Bool List Permutation Lia ZifyBool ZifyNat ZifyN.
From Verif Require Import Base Float Value Ast Config Tree Printer Api Linked LinkedApi DotFile.
From Verif Require Import LinkedSpec PermTac LinkedHeap LinkedNode LinkedInsert LinkedUse DotSpec DotNames.
Import ListNotations.
Local Open Scope list_scope.
Local Open Scope string_scope.
Local Open Scope res_scope.
Local Open Scope dot_scope.

(** Statements as text. *)
Definition show (l : list item) : string := String.concat "" (map item_text l).
Lemma show_cons i l : show (i :: l) = item_text i ++ show l.
Proof. apply concat_cons. Qed.
Lemma show_app l l' : show (l ++ l')%list = show l ++ show l'.
Proof. unfold show. now rewrite map_app, concat_app. Qed.
Lemma show_nil : show [] = "".
Proof. reflexivity. Qed.

Lemma draws_eq L m t t' : draws L m t -> t = t' -> draws L m t'.
Proof. now intros H ->. Qed.
Lemma runs_draws L m t N M h (Q : unit -> string -> heap -> Prop) :
  (forall M h, incl L M -> holds h M -> runs m N h (fun _ s h' => s = t /\ holds h' M)) ->
  incl L M -> holds h M -> (forall h', holds h' M -> Q tt t h') -> forall N', (N <= N')%nat -> runs m N' h Q.
Proof. intros D I H q N' LE. eapply runs_mono; [apply (D M h I H)|exact LE|]. intros [] s h' (-> & K). now apply q. Qed.

(** *** Trees that can be drawn *)
Section Fine.
  Context (c : config).
  Fixpoint fine_cnode (T : cnode) : Prop := match T with CNode _ _ ps => fine_pdir ps end
  with fine_pdir (ps : pdir) : Prop :=
    match ps with PNil => True | PCons v _ D rest => known c v /\ fine_cdir D /\ fine_pdir rest end
  with fine_cdir (D : cdir) : Prop :=
    match D with
    | CLeaf b T => ranged b /\ fine_cnode T
    | CSplit b T l r => ranged b /\ fine_cnode T /\ fine_cdir l /\ fine_cdir r
    end.
End Fine.

Ltac inl I := let x := fresh in let K := fresh in intros x K; apply I; cbn [In] in *; repeat rewrite in_app_iff in *; tauto.
Ltac inb I := apply I; cbn [In]; repeat rewrite in_app_iff; cbn [In]; tauto.

Section Draw.
  Context (c : config).

  Lemma ranged_top D : fine_cdir c (er_cdir D) -> ranged (cd_b D).
  Proof. destruct D; cbn; tauto. Qed.
  Lemma er_bound D : cd_bound (er_cdir D) = cd_b D.
  Proof. now destruct D. Qed.
  Lemma in_cdir k p v D : exists sa l r, In (cd_at D, OCdir k p v sa (cd_b D) (cn_at (cd_cn D)) l r) (blocks_cdir k p v D).
  Proof. destruct D as [a sa b T|a sa b T l r]; cbn; do 3 eexists; left; reflexivity. Qed.
  Lemma path_in L k p v D s : incl (blocks_cdir k p v D) L -> names L (fun n => up c n k p) s -> names L (fun n => path_cdir n c (cd_at D) false) s.
  Proof. intros I K. destruct (in_cdir k p v D) as (sa & l & r & J). eapply path_up; [apply I, J|exact K]. Qed.
  Lemma name_in L k p v D s : incl (blocks_cdir k p v D) L -> names L (fun n => up c n k p) s -> ranged (cd_b D) ->
    names L (fun n => name_cdir n c (cd_at D)) ("cdir_" ++ to_range s (cd_b D)).
  Proof.
    intros I K B. destruct (in_cdir k p v D) as (sa & l & r & J). apply name_cdir_ok. eapply path_cdir_ok; [apply I, J|exact B|].
    now apply (path_in _ _ _ _ _ _ I).
  Qed.
  Lemma cd_null h M k p v D : holds h M -> incl (blocks_cdir k p v D) M -> (cd_at D =? NULL)%N = false.
  Proof. intros H I. destruct (in_cdir k p v D) as (sa & l & r & J). exact (holds_pos _ _ _ H (I _ J)). Qed.

  Lemma gives_if {A} L (a : N) o (f g : nat -> dot A) x :
    In (a, o) L -> gives L g x -> gives L (fun n => if (a =? NULL)%N then f n else g n) x.
  Proof. intros I (N & K). exists N. intros M h J H. rewrite (holds_pos _ _ _ H (J _ I)). now apply K. Qed.
  Lemma draws_if L (a : N) o (f g : nat -> dot unit) t :
    In (a, o) L -> draws L g t -> draws L (fun n => if (a =? NULL)%N then f n else g n) t.
  Proof. intros I (N & K). exists N. intros M h J H. rewrite (holds_pos _ _ _ H (J _ I)). now apply K. Qed.

  (** *** Leaves *)
  Lemma subs_ok L xs : incl (sub_blocks xs) L -> forall i,
    draws L (fun _ => say_subs i (map fst xs)) (ids_text i (map s_id (map snd xs))).
  Proof.
    induction xs as [|(a, s) xs IH]; intros I i; cbn [map say_subs ids_text fst snd]; [apply draws_nil|].
    eapply draws_eq.
    - eapply (draws_seq _ (fun _ => _)); [apply draws_say|].
      eapply (draws_get _ (fun _ => _)).
      { apply gives_peek. intros M h J H. eapply at_sub; [exact H|]. apply J, I. now left. }
      eapply (draws_seq _ (fun _ => _)); [apply draws_say|].
      apply IH. intros x K. apply I. now right.
    - destruct i; cbn [Nat.eqb]; txt.
  Qed.

  Lemma lnode_ok L p la sa m subs t :
    incl (ln_cells p la sa m (map fst subs)) L -> incl (sub_blocks subs) L -> names L (fun n => path_cnode n c p) t ->
    draws L (fun n => lnode_names n c la 1)
      (show (INode ("lnode_" ++ t) lnode_style
             :: match map snd subs with [] => [] | _ => [ISubs ("lnode_" ++ t) (map s_id (map snd subs))] end)%list).
  Proof.
    intros I IS K. assert (IL := I _ (or_introl eq_refl)). unfold lnode_names.
    destruct (subs_ok L subs IS 0) as (N & SB).
    eapply draws_with; [eapply name_lnode_ok; [exact IL|exact K]|]. exists N. intros a M h J H.
    apply runs_bind, runs_say. apply runs_bind, (runs_text _ _ _ _ _ H); [now left|]. cbn [snd].
    apply runs_bind, runs_say. apply runs_bind. eapply runs_peek; [eapply at_lnode; [exact H|right; apply J; exact IL]|].
    cbv beta iota. apply runs_bind.
    destruct subs as [|(b, s) subs].
    - cbn [map List.length Nat.ltb Nat.leb]. apply runs_ret. eapply runs_free; [exact H|reflexivity|]. intros h' H'.
      split; [|exact H']. rewrite show_cons, show_nil. unfold item_text, lnode_style, blanks. txt.
    - assert (E : Nat.ltb 0 (List.length (map fst ((b, s) :: subs))) = true) by reflexivity. rewrite E.
      apply runs_bind, runs_say. apply runs_bind, (runs_text _ _ _ _ _ H); [now left|]. cbn [snd].
      apply runs_bind, runs_say. apply runs_bind. eapply runs_peek.
      { eapply (at_entries ((a, OStr) :: M)); [exact H|]. right. apply J, I. right. now left. }
      cbv beta iota. apply runs_bind. eapply (runs_draws L _ _ _ ((a, OStr) :: M)); [exact SB|now apply incl_tl|exact H| |lia]. intros h1 H1.
      apply runs_say. eapply runs_free; [exact H1|reflexivity|]. intros h' H'.
      split; [|exact H']. cbn [map]. rewrite !show_cons, show_nil. unfold item_text, lnode_style. cbn [map snd]. txt.
  Qed.

  (** *** Tables *)
  Lemma colspan_ok k : (colspan_value k / 2)%Z = width_of k.
  Proof.
    unfold width_of. f_equal. induction k as [|k IH]; [reflexivity|]. cbn [colspan_value]. rewrite IH. unfold to_uint.
    rewrite Zmult_mod_idemp_l. f_equal. rewrite Nat2Z.inj_succ, Z.pow_succ_r by lia. lia.
  Qed.
  Definition at_opt (o : option acdir) : N := match o with Some D => cd_at D | None => NULL end.
  Definition fits (L : list (N * obj)) (s : string) (o : option acdir) : Prop :=
    match o with
    | Some D => exists k p v, incl (blocks_cdir k p v D) L /\ names L (fun n => up c n k p) s /\ fine_cdir c (er_cdir D)
    | None => True
    end.
  Definition cells (k : nat) (l : list (option (string * string))) : string := String.concat "" (map (cell_text k) l).

  Lemma td_ok L s k : forall d o, fits L s o ->
    draws L (fun n => cdir_td n c (at_opt o) 5 d (width_of k)) (cells k (level_of s d (option_map er_cdir o))).
  Proof.
    induction d as [|d IH]; intros o F; cbn [cdir_td level_of].
    - assert (CH : exists x y, gives L (fun _ => children (at_opt o)) (x, y)).
      { unfold children. destruct o as [D|]; cbn [at_opt].
        - destruct F as (kk & p & v & I & _ & _). destruct (in_cdir kk p v D) as (sa & l & r & J). exists l, r.
          eapply gives_if; [apply I, J|]. apply I in J. eapply (gives_bind _ (fun _ => _)); [reads|]. cbv beta iota. apply gives_ret.
        - exists NULL, NULL. cbn [N.eqb NULL]. apply gives_ret. }
      destruct CH as (x & y & CH). eapply (draws_get _ (fun _ => _)); [exact CH|]. cbv beta iota.
      destruct o as [D|]; cbn [at_opt option_map].
      + destruct F as (kk & p & v & I & U & FN). destruct (in_cdir kk p v D) as (sa & l & r & J). apply I in J.
        pose proof (ranged_top _ FN) as B. eapply draws_eq.
        * eapply (draws_seq _ (fun _ => _)); [apply draws_say|]. eapply draws_if; [exact J|].
          eapply draws_with; [apply (name_in _ _ _ _ _ _ I U B)|]. exists O. intros a M h JM H.
          apply runs_bind. eapply runs_peek; [eapply at_cdir; [exact H|right; apply JM; exact J]|]. cbv beta iota.
          apply runs_bind. eapply runs_peek; [now apply cell_range_ok|].
          apply runs_bind, (runs_text _ _ _ _ _ H); [now left|]. cbn [snd].
          apply runs_bind, runs_say. eapply runs_free; [exact H|reflexivity|]. intros h' H'. split; [reflexivity|exact H'].
        * unfold cells. cbn [map]. rewrite concat_cons. cbn [String.concat]. rewrite er_bound. unfold cell_text. txt.
      + cbn [N.eqb NULL]. eapply draws_eq.
        * eapply (draws_seq _ (fun _ => _)); apply draws_say.
        * unfold cells. cbn [map]. rewrite concat_cons. cbn [String.concat]. unfold cell_text. txt.
    - assert (CH : exists o1 o2, gives L (fun _ => children (at_opt o)) (at_opt o1, at_opt o2) /\ fits L s o1 /\ fits L s o2
        /\ match option_map er_cdir o with
           | Some (CSplit _ _ l r) => (level_of s d (Some l) ++ level_of s d (Some r))%list
           | _ => (level_of s d None ++ level_of s d None)%list
           end = (level_of s d (option_map er_cdir o1) ++ level_of s d (option_map er_cdir o2))%list).
      { unfold children. destruct o as [D|]; cbn [at_opt option_map].
        - destruct F as (kk & p & v & I & U & FN). destruct D as [a sa b T|a sa b T l r]; cbn [cd_at er_cdir].
          + exists None, None. split; [|now repeat split].
            assert (J := I _ (or_introl eq_refl)). eapply gives_if; [exact J|]. eapply (gives_bind _ (fun _ => _)); [reads|].
            cbv beta iota. apply gives_ret.
          + exists (Some l), (Some r). assert (J := I _ (or_introl eq_refl)). cbn in FN. destruct FN as (B & _ & FL & FR).
            assert (U2 : names L (fun n => up c n false a) s) by exact (path_up c _ _ _ _ _ _ _ _ _ _ _ J U).
            split; [|split; [|split; [|reflexivity]]].
            * eapply gives_if; [exact J|]. eapply (gives_bind _ (fun _ => _)); [reads|]. cbv beta iota. apply gives_ret.
            * exists false, a, v. split; [|now split]. cbn [blocks_cdir] in I. inl I.
            * exists false, a, v. split; [|now split]. cbn [blocks_cdir] in I. inl I.
        - exists None, None. cbn [N.eqb NULL]. split; [apply gives_ret|now repeat split]. }
      destruct CH as (o1 & o2 & G & F1 & F2 & E). rewrite E.
      eapply (draws_get _ (fun _ => _)); [exact G|]. cbv beta iota. eapply draws_eq.
      + eapply draws_seq; [apply (IH o1 F1)|apply (IH o2 F2)].
      + unfold cells. now rewrite map_app, concat_app.
  Qed.

  Lemma rows_ok L s D : fits L s (Some D) -> forall k cur,
    draws L (fun n => cdir_rows n c (cd_at D) 4 k cur) (rows_text (map (fun d => level_of s d (Some (er_cdir D))) (seq cur k))).
  Proof.
    intros F. induction k as [|k IH]; intros cur; cbn [cdir_rows seq map rows_text]; [apply draws_nil|].
    rewrite colspan_ok. eapply draws_eq.
    - eapply (draws_seq _ (fun _ => _)); [apply draws_say|]. eapply (draws_seq _ (fun _ => _)); [apply draws_say|].
      eapply draws_seq; [apply (td_ok L s (S k) cur (Some D) F)|].
      eapply (draws_seq _ (fun _ => _)); [apply draws_say|]. eapply (draws_seq _ (fun _ => _)); [apply draws_say|]. apply IH.
    - cbn [List.length]. rewrite map_length, seq_length. cbn [option_map]. unfold cells. txt.
  Qed.

  (** *** Depth *)
  Definition ups (L : list (N * obj)) (a : N) (d : nat) : Prop :=
    exists N, forall x M h, incl L M -> holds h M -> runs (fun n => parents n a x) N h (fun y s h' => y = (x + d)%nat /\ s = "" /\ holds h' M).
  Lemma ups_ok L a k p v sa b x l r d :
    In (a, OCdir k p v sa b x l r) L -> (if k then d = 1%nat else exists e, d = S e /\ ups L p e) -> ups L a d.
  Proof.
    intros I U. destruct k.
    - subst d. exists 1%nat. intros y M h J H. eapply (runs_step _ (fun _ => dret (S y))).
      + intros n. cbn [parents]. rewrite (holds_pos _ _ _ H (J _ I)). unfold dbind, peek.
        rewrite (at_cdir _ _ _ _ _ _ _ _ _ _ H (J _ I)). reflexivity.
      + apply runs_ret. split; [lia|]. now split.
    - destruct U as (e & -> & N & U). exists (S N). intros y M h J H. eapply (runs_step _ (fun n => parents n p (S y))).
      + intros n. cbn [parents]. rewrite (holds_pos _ _ _ H (J _ I)). unfold dbind, peek.
        rewrite (at_cdir _ _ _ _ _ _ _ _ _ _ H (J _ I)). cbn [bind]. destruct (parents n p (S y) h) as [((?, ?), ?)| | |]; reflexivity.
      + eapply runs_mono; [apply (U (S y) M h J H)|lia|]. intros z s h' (-> & -> & K). split; [lia|]. now split.
  Qed.
  Lemma depth_ok L D : forall k p v e, incl (blocks_cdir k p v D) L -> (if k then e = O else ups L p e) ->
    gives L (fun n => depth_of_cdir n (cd_at D)) (e + height (er_cdir D))%nat.
  Proof.
    assert (NL : gives L (fun n => depth_of_cdir n NULL) 0%nat).
    { eapply gives_step; [reflexivity|]. cbn [depth_of_cdir N.eqb NULL]. apply gives_ret. }
    assert (CUR : forall (k : bool) p e, (if k then e = O else ups L p e) ->
       gives L (fun n => if k then dret 1%nat else parents n p 1) (S e)).
    { intros k p e U. destruct k; [subst e; apply gives_ret|]. destruct U as (N & U). exists N. intros M h J H.
      exact (U 1%nat M h J H). }
    induction D as [a sa b T|a sa b T l IHl r IHr]; intros k p v e I U; cbn [cd_at er_cdir height].
    - assert (J := I _ (or_introl eq_refl)). eapply gives_step; [reflexivity|]. cbn [depth_of_cdir].
      eapply gives_if; [exact J|]. eapply (gives_bind _ (fun _ => _)); [reads|]. cbv beta iota.
      eapply gives_bind; [apply (CUR _ _ _ U)|]. cbv beta. eapply gives_bind; [exact NL|]. eapply gives_bind; [exact NL|].
      replace (e + 1)%nat with (Nat.max (Nat.max 0 0) (S e)) by lia. apply gives_ret.
    - assert (J := I _ (or_introl eq_refl)). assert (U2 : ups L a (S e)).
      { eapply ups_ok; [exact J|]. destruct k; [now subst e|]. exists e. now split. }
      eapply gives_step; [reflexivity|]. cbn [depth_of_cdir].
      eapply gives_if; [exact J|]. eapply (gives_bind _ (fun _ => _)); [reads|]. cbv beta iota.
      eapply gives_bind; [apply (CUR _ _ _ U)|]. cbv beta. cbn [blocks_cdir] in I.
      eapply gives_bind; [apply (IHl false a v (S e)); [inl I|exact U2]|].
      eapply gives_bind; [apply (IHr false a v (S e)); [inl I|exact U2]|].
      replace (e + S (Nat.max (height (er_cdir l)) (height (er_cdir r))))%nat
        with (Nat.max (Nat.max (S e + height (er_cdir l)) (S e + height (er_cdir r))) (S e)) by lia. apply gives_ret.
  Qed.
End Draw.
