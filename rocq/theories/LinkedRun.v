(** Programs on linked objects give the same answers as programs on trees. *)
From Coq Require Import ZArith NArith String Bool List Permutation Lia ZifyBool ZifyNat ZifyN.
From Verif Require Import Base Float Value Ast Config Assign Special Match Bound Tree TreeSpec TreeProofs CallProofs RbTree PredMap
  Source Api Linked LinkedSpec PermTac LinkedHeap LinkedNode LinkedGrow LinkedInsert LinkedUse LinkedApi.
Import ListNotations.
Local Open Scope Z_scope.
Local Open Scope res_scope.

Lemma asubs_er : (forall T, map snd (asubs_cnode T) = subs_cnode (er_cnode T))
  /\ (forall P, map snd (asubs_pdir P) = subs_pdir (er_pdir P))
  /\ (forall D, map snd (asubs_cdir D) = subs_cdir (er_cdir D)).
Proof.
  apply atree_ind; cbn; intros; rewrite ?map_app; congruence.
Qed.

(** *** The steps before the tree is touched *)
Lemma insert_split t q id cs e b t' :
  p_cfg q = bt_cfg t -> p_pm q = bt_pm t -> insert_expr t id cs e = Ok (b, t') ->
  (b = false /\ t' = t /\ forall n, p_insert_expr n q id cs e = Ok (false, q))
  \/ (b = true /\ exists c m s cn, s_id s = id /\ insert_root (insert_fuel c) c s (bt_root t) = Ok cn /\ t' = mkBT c m cn
      /\ forall n, p_insert_expr n q id cs e =
           let '(x, h) := alloc (OSub s) (p_heap q) in
           do h <- p_insert n c x (p_root q) NULL h; Ok (true, mkP c m (p_root q) h (p_made q))).
Proof.
  intros EC EP E. unfold insert_expr in E. unfold p_insert_expr. rewrite EC, EP.
  destruct (is_valid (bt_cfg t) (assign_variable_id (bt_cfg t) e)) as [ok| | |]; cbn [bind] in *; try discriminate.
  destruct ok; cbn [negb] in *; [|left; apply Ok_inj in E; injection E as <- <-; now repeat split].
  destruct (assign_constants cs (assign_variable_id (bt_cfg t) e)) as [e1|];
    [|left; apply Ok_inj in E; injection E as <- <-; now repeat split].
  destruct (assign_str_id (bt_cfg t) e1 false) as [(e2, c2)| | |]; cbn [bind] in *; try discriminate.
  destruct (assign_ienum_id c2 e2 false) as [(e3, c3)| | |]; cbn [bind] in *; try discriminate.
  destruct (fix_float c3 (sort_lists e3)) as [(e4, c4)| | |]; cbn [bind] in *; try discriminate.
  destruct (assign_pred (bt_pm t) e4) as [(e5, m)| | |]; cbn [bind] in *; try discriminate.
  destruct (make_sub c4 id e5) as [s| | |] eqn:MS; cbn [bind] in *; try discriminate.
  unfold insert_sub in E. cbn [bt_cfg bt_pm bt_root] in E.
  destruct (insert_root (insert_fuel c4) c4 s (bt_root t)) as [cn| | |] eqn:IR; cbn [bind] in E; try discriminate.
  apply Ok_inj in E. injection E as <- <-. right. split; [reflexivity|]. exists c4, m, s, cn.
  split; [|split; [exact IR|split; [reflexivity|reflexivity]]].
  unfold make_sub in MS. destruct (fill_pred (make_bits (ndomains c4)) e5) as [vars| | |]; cbn [bind] in MS; try discriminate.
  destruct (fill_sc (c_domains c4) 0 e5 (make_bits (ndomains c4)) (make_bits (ndomains c4))) as (pass, fail).
  apply Ok_inj in MS. now subst s.
Qed.

Lemma make_split t q id cs e o t' :
  p_cfg q = bt_cfg t -> p_pm q = bt_pm t -> make_sub_expr t id cs e = Ok (o, t') ->
  exists c m, t' = mkBT c m (bt_root t) /\
    p_make_sub q id cs e = match o with
      | None => Ok (false, mkP c m (p_root q) (p_heap q) (p_made q))
      | Some s => let '(x, h) := alloc (OSub s) (p_heap q) in Ok (true, mkP c m (p_root q) h (p_made q ++ [x]))
      end.
Proof.
  intros EC EP E. unfold make_sub_expr in E. unfold p_make_sub. rewrite EC, EP.
  assert (Q : q = mkP (bt_cfg t) (bt_pm t) (p_root q) (p_heap q) (p_made q)) by (rewrite <- EC, <- EP; now destruct q).
  destruct (all_variables_in_config (assign_variable_id (bt_cfg t) e)) as [ok| | |]; cbn [bind] in *; try discriminate.
  destruct ok; cbn [negb] in *.
  2:{ apply Ok_inj in E. injection E as <- <-. exists (bt_cfg t), (bt_pm t). split; [now destruct t|now rewrite <- Q]. }
  destruct (assign_str_id (bt_cfg t) (assign_variable_id (bt_cfg t) e) true) as [(e2, c2)| | |]; cbn [bind] in *; try discriminate.
  destruct (assign_ienum_id c2 e2 true) as [(e3, c3)| | |]; cbn [bind] in *; try discriminate.
  destruct (fix_float c3 e3) as [(e4, c4)| | |]; cbn [bind] in *; try discriminate.
  destruct (all_exprs_valid c4 e4) as [ok| | |]; cbn [bind] in *; try discriminate.
  destruct ok; cbn [negb] in *.
  2:{ apply Ok_inj in E. injection E as <- <-. exists c4, (bt_pm t). split; reflexivity. }
  destruct (assign_constants cs e4) as [e5|].
  2:{ apply Ok_inj in E. injection E as <- <-. exists c4, (bt_pm t). split; reflexivity. }
  destruct (change_boundaries c4 (sort_lists e5)) as [c5| | |]; cbn [bind] in *; try discriminate.
  destruct (assign_pred (bt_pm t) (sort_lists e5)) as [(e6, m)| | |]; cbn [bind] in *; try discriminate.
  destruct (make_sub c5 id e6) as [s| | |]; cbn [bind] in *; try discriminate.
  apply Ok_inj in E. injection E as <- <-. exists c5, m. split; reflexivity.
Qed.

Lemma change_split t q e t' :
  p_cfg q = bt_cfg t -> change_boundaries_expr t e = Ok t' ->
  exists c, t' = set_cfg t c /\ p_change q e = Ok (mkP c (p_pm q) (p_root q) (p_heap q) (p_made q)).
Proof.
  intros EC E. unfold change_boundaries_expr in E. unfold p_change. rewrite EC.
  destruct (assign_str_id (bt_cfg t) (assign_variable_id (bt_cfg t) e) true) as [(e2, c2)| | |]; cbn [bind] in *; try discriminate.
  destruct (assign_ienum_id c2 e2 true) as [(e3, c3)| | |]; cbn [bind] in *; try discriminate.
  destruct (fix_float c3 (sort_lists e3)) as [(e4, c4)| | |]; cbn [bind] in *; try discriminate.
  destruct (change_boundaries c4 e4) as [c5| | |]; cbn [bind] in *; try discriminate.
  apply Ok_inj in E. exists c5. now split.
Qed.

(** *** What memory holds *)

(** The state represents the tree: the blocks of the index and the other blocks [F], among them the
    subscriptions. *)
Definition reps (t : betree) (q : pstate) (T : acnode) (F : list (N * obj)) : Prop :=
  p_cfg q = bt_cfg t /\ p_pm q = bt_pm t /\ cn_at T = p_root q /\ er_cnode T = bt_root t
  /\ holds (p_heap q) (blocks_cnode NULL T ++ F).

Section Run.
  Context {G : Geo}.

  Lemma candidates t q T F e subs :
    reps t q T F -> incl (sub_blocks (asubs_cnode T)) F ->
    match_cnode (c_domains (bt_cfg t)) e (bt_root t) = Ok subs ->
    exists l, fin (fun n => p_match n (c_domains (bt_cfg t)) e (p_root q) (p_heap q)) l /\ get_subs (p_heap q) l = Ok subs.
  Proof.
    intros (EC & EP & ER & EE & H) I M. rewrite <- EE in M.
    destruct (proj1 (match_ok (c_domains (bt_cfg t)) e H) T NULL subs) as (l & R & Q & J).
    { apply incl_appl, incl_refl. } { exact M. }
    exists (map fst l). rewrite <- ER. split; [exact R|]. rewrite <- Q. apply (subs_read _ _ H).
    intros x K. apply in_or_app. right. apply I. revert x K. now apply sub_blocks_incl.
  Qed.
  Lemma query_ok t q T F ev r b r' :
    reps t q T F -> incl (sub_blocks (asubs_cnode T)) F -> betree_search t ev r = Ok (b, r') ->
    fin (fun n => p_query n q ev r) (b, r').
  Proof.
    intros R I E. pose proof R as (EC & EP & _). unfold betree_search, search_with_preds in E. unfold p_query. rewrite EC, EP.
    destruct (make_env (bt_cfg t) ev) as [p| | |]; cbn [bind] in *; try discriminate.
    destruct (validate_variables (c_domains (bt_cfg t)) p); cbn [negb] in *.
    2:{ apply Ok_inj in E. apply fin_ok. intros n. now rewrite E. }
    destruct (match_cnode (c_domains (bt_cfg t)) p (bt_root t)) as [subs| | |] eqn:M; cbn [bind] in E; try discriminate.
    destruct (candidates _ _ _ _ _ _ R I M) as (l & (N0 & RM) & GS). exists N0. intros n LE. rewrite RM by lia. cbn [bind].
    rewrite GS. exact E.
  Qed.
  Lemma exists_ok t q T F ev b :
    reps t q T F -> incl (sub_blocks (asubs_cnode T)) F -> betree_exists t ev = Ok b ->
    fin (fun n => p_exists n q ev) b.
  Proof.
    intros R I E. pose proof R as (EC & EP & _). unfold betree_exists, exists_with_preds in E. unfold p_exists. rewrite EC, EP.
    destruct (make_env (bt_cfg t) ev) as [p| | |]; cbn [bind] in *; try discriminate.
    destruct (match_cnode (c_domains (bt_cfg t)) p (bt_root t)) as [subs| | |] eqn:M; cbn [bind] in E; try discriminate.
    destruct (candidates _ _ _ _ _ _ R I M) as (l & (N0 & RM) & GS). exists N0. intros n LE. rewrite RM by lia. cbn [bind].
    rewrite GS. exact E.
  Qed.

  (** *** Programs that never empty the tree *)
  Definition loose (st : vstate) (q : pstate) : Prop := exists T F,
    reps (v_tree st) q T F /\ incl (sub_blocks (asubs_cnode T)) F
    /\ Forall2 (fun x a => In (a, OSub (fst x)) F) (v_made st) (p_made q).

  Lemma forall2_incl (F F' : list (N * obj)) m l :
    incl F F' -> Forall2 (fun (x : sub * bool) a => In (a, OSub (fst x)) F) m l ->
    Forall2 (fun (x : sub * bool) a => In (a, OSub (fst x)) F') m l.
  Proof. intros I H. induction H; constructor; auto. Qed.
  Lemma forall2_mark (F : list (N * obj)) k m l :
    Forall2 (fun (x : sub * bool) a => In (a, OSub (fst x)) F) m l ->
    Forall2 (fun (x : sub * bool) a => In (a, OSub (fst x)) F) (mark k m) l.
  Proof.
    intros H. revert k. induction H as [|(s, b) a m l HA HF IH]; intros k; [destruct k; constructor|].
    destruct k; cbn; constructor; auto.
  Qed.
  Lemma forall2_nth (F : list (N * obj)) m l k x :
    Forall2 (fun (x : sub * bool) a => In (a, OSub (fst x)) F) m l -> nth_error m k = Some x ->
    exists a, nth_error l k = Some a /\ In (a, OSub (fst x)) F.
  Proof.
    intros H. revert k. induction H as [|y a m l HA HF IH]; intros [|k] E; cbn in *; try discriminate.
    - injection E as ->. eauto.
    - eauto.
  Qed.

  Lemma loose_call st q k a st' :
    loose st q -> no_empty k -> v_call st k = Ok (a, st') ->
    exists q', fin (fun n => p_call n q k) (a, q') /\ loose st' q'.
  Proof.
    intros (T & F & R & I & M) NE E. pose proof R as (EC & EP & ER & EE & H).
    destruct k as [id cs x|id cs x|k|x|d| |ev|ev]; cbn [v_call p_call no_empty] in *.
    - destruct (insert_expr (v_tree st) id cs x) as [(b, t')| | |] eqn:IE; cbn [bind] in E; try discriminate.
      apply Ok_inj in E. injection E as <- <-.
      destruct (insert_split _ q _ _ _ _ _ EC EP IE) as [(-> & -> & RUN)|(-> & c & m & s & cn & _ & IR & -> & RUN)].
      + exists q. split; [apply fin_ok; intros n; now rewrite RUN|]. exists T, F. split; [exact R|now split].
      + assert (H1 := holds_alloc _ (OSub s) H). destruct (alloc (OSub s) (p_heap q)) as (y, h1). cbn [fst snd] in H1.
        assert (H2 : holds h1 (blocks_cnode NULL T ++ (y, OSub s) :: F)) by hperm.
        rewrite <- EE in IR.
        destruct (insert_root_ok (insert_fuel c) c y s T ((y, OSub s) :: F) h1 cn NULL H2) as (T' & h' & (N0 & RI) & H3 & Q1 & Q2 & I1).
        { now apply incl_tl. } { now left. } { exact IR. }
        exists (mkP c m (p_root q) h' (p_made q)). split.
        * exists N0. intros n LE. rewrite RUN. rewrite <- ER, RI by lia. reflexivity.
        * exists T', ((y, OSub s) :: F). split; [|split].
          -- split; [reflexivity|]. split; [reflexivity|]. split; [cbn; congruence|]. split; [exact Q1|exact H3].
          -- intros z K. apply in_map_iff in K as (w & <- & K). apply I1 in K as [<-|K]; [now left|]. right. apply I.
             now apply (in_map (fun x => (fst x, OSub (snd x)))).
          -- cbn [v_made p_made]. eapply forall2_incl; [|exact M]. apply incl_tl, incl_refl.
    - destruct (make_sub_expr (v_tree st) id cs x) as [(o, t')| | |] eqn:IE; cbn [bind] in E; try discriminate.
      destruct (make_split _ q _ _ _ _ _ EC EP IE) as (c & m & -> & RUN).
      destruct o as [s|]; apply Ok_inj in E; injection E as <- <-.
      + assert (H1 := holds_alloc _ (OSub s) H). destruct (alloc (OSub s) (p_heap q)) as (y, h1). cbn [fst snd] in H1.
        exists (mkP c m (p_root q) h1 (p_made q ++ [y])). split; [apply fin_ok; intros n; now rewrite RUN|].
        exists T, ((y, OSub s) :: F). split; [|split].
        * repeat (split; [first [reflexivity|exact ER|exact EE]|]). hperm.
        * now apply incl_tl.
        * cbn [v_made p_made]. apply Forall2_app; [|constructor; [now left|constructor]].
          eapply forall2_incl; [|exact M]. apply incl_tl, incl_refl.
      + exists (mkP c m (p_root q) (p_heap q) (p_made q)). split; [apply fin_ok; intros n; now rewrite RUN|].
        exists T, F. split; [|now split]. repeat (split; [first [reflexivity|exact ER|exact EE]|]). exact H.
    - destruct (nth_error (v_made st) k) as [(s, f)|] eqn:NK; [|discriminate]. unfold betree_insert_sub, insert_sub in E.
      destruct (insert_root (insert_fuel (bt_cfg (v_tree st))) (bt_cfg (v_tree st)) s (bt_root (v_tree st))) as [cn| | |] eqn:IR; cbn [bind] in E; try discriminate.
      apply Ok_inj in E. injection E as <- <-.
      destruct (forall2_nth _ _ _ _ _ M NK) as (y & NY & IY). cbn [fst] in IY. rewrite <- EE, <- EC in IR.
      destruct (insert_root_ok _ (p_cfg q) y s T F (p_heap q) cn NULL H I IY IR) as (T' & h' & (N0 & RI) & H3 & Q1 & Q2 & I1).
      exists (mkP (p_cfg q) (p_pm q) (p_root q) h' (p_made q)). split.
      + exists N0. intros n LE. unfold p_insert_made. rewrite NY. rewrite <- ER, RI by lia. reflexivity.
      + exists T', F. split; [|split].
        * split; [exact EC|]. split; [exact EP|]. split; [cbn; congruence|]. split; [exact Q1|exact H3].
        * intros z K. apply in_map_iff in K as (w & <- & K). apply I1 in K as [<-|K]; [exact IY|]. apply I.
          now apply (in_map (fun x => (fst x, OSub (snd x)))).
        * now apply forall2_mark.
    - destruct (change_boundaries_expr (v_tree st) x) as [t'| | |] eqn:IE; cbn [bind] in E; try discriminate.
      apply Ok_inj in E. injection E as <- <-. destruct (change_split _ q _ _ EC IE) as (c & -> & RUN).
      eexists. split; [apply fin_ok; intros n; rewrite RUN; reflexivity|]. exists T, F. split; [|now split].
      repeat (split; [first [reflexivity|exact EP|exact ER|exact EE]|]). exact H.
    - apply Ok_inj in E. injection E as <- <-. eexists. split; [apply fin_ok; intros n; reflexivity|].
      exists T, F. split; [|now split]. split; [cbn; now rewrite EC|].
      repeat (split; [first [reflexivity|exact EP|exact ER|exact EE]|]). exact H.
    - easy.
    - destruct (betree_search (v_tree st) ev make_report) as [(b, r)| | |] eqn:S; cbn [bind] in E; try discriminate.
      apply Ok_inj in E. injection E as <- <-. destruct (query_ok _ _ _ _ _ _ _ _ R I S) as (N0 & RQ).
      exists q. split; [exists N0; intros n LE; rewrite RQ by lia; reflexivity|]. exists T, F. split; [exact R|now split].
    - destruct (betree_exists (v_tree st) ev) as [b| | |] eqn:S; cbn [bind] in E; try discriminate.
      apply Ok_inj in E. injection E as <- <-. destruct (exists_ok _ _ _ _ _ _ R I S) as (N0 & RQ).
      exists q. split; [exists N0; intros n LE; rewrite RQ by lia; reflexivity|]. exists T, F. split; [exact R|now split].
  Qed.

  Lemma loose_run l : forall st q r st',
    loose st q -> Forall no_empty l -> v_run st l = Ok (r, st') ->
    exists q', fin (fun n => p_run n q l) (r, q') /\ loose st' q'.
  Proof.
    induction l as [|k l IH]; intros st q r st' L NE E; cbn [v_run p_run] in *.
    - apply Ok_inj in E. injection E as <- <-. exists q. split; [now apply fin_ok|exact L].
    - inversion_clear NE as [|? ? NE1 NE2].
      destruct (v_call st k) as [(a, st1)| | |] eqn:C; cbn [bind] in E; try discriminate.
      destruct (v_run st1 l) as [(r1, st2)| | |] eqn:V; cbn [bind] in E; try discriminate. apply Ok_inj in E. injection E as <- <-.
      destruct (loose_call _ _ _ _ _ L NE1 C) as (q1 & (N1 & R1) & L1).
      destruct (IH _ _ _ _ L1 NE2 V) as (q2 & (N2 & R2) & L2).
      exists q2. split; [|exact L2]. exists (N1 + N2)%nat. intros n LE. rewrite R1 by lia. cbn [bind]. rewrite R2 by lia. reflexivity.
  Qed.

  (** *** Careful programs *)

  (** The made subscriptions that were not inserted, with their addresses. *)
  Fixpoint pending (m : list (sub * bool)) (l : list N) : list (N * sub) :=
    match m, l with
    | (s, false) :: m, a :: l => (a, s) :: pending m l
    | (_, true) :: m, _ :: l => pending m l
    | _, _ => []
    end.
  Lemma pending_app m l s a : length m = length l -> pending (m ++ [(s, false)]) (l ++ [a]) = pending m l ++ [(a, s)].
  Proof.
    revert l. induction m as [|(s', f) m IH]; intros [|b l] E; try discriminate; cbn; [reflexivity|].
    injection E as E. rewrite (IH l E). now destruct f.
  Qed.
  Lemma mark_length k m : length (mark k m) = length m.
  Proof. revert k. induction m as [|(s, f) m IH]; intros [|k]; cbn; auto. Qed.
  Lemma pending_mark k m l s : length m = length l -> nth_error m k = Some (s, false) ->
    exists a, nth_error l k = Some a /\ Permutation (pending m l) ((a, s) :: pending (mark k m) l).
  Proof.
    revert k l. induction m as [|(s', f) m IH]; intros [|k] [|b l] LE E; try discriminate; cbn in *.
    - injection E as -> ->. exists b. split; reflexivity.
    - injection LE as LE. destruct (IH k l LE E) as (a & N1 & P). exists a. split; [exact N1|].
      destruct f; [exact P|]. rewrite P. apply perm_swap.
  Qed.

  (** Memory is exactly the index, its subscriptions and the pending made subscriptions. *)
  Definition exact (st : vstate) (q : pstate) : Prop := exists T,
    reps (v_tree st) q T (sub_blocks (asubs_cnode T) ++ sub_blocks (pending (v_made st) (p_made q)))
    /\ length (v_made st) = length (p_made q) /\ NoDup (map s_id (subs_cnode (bt_root (v_tree st)))).

  Lemma free_id_ok t id : free_id t id = true -> ~ In id (map s_id (subs_cnode (bt_root t))).
  Proof.
    unfold free_id. intros E I. assert (X : existsb (Z.eqb id) (map s_id (subs_cnode (bt_root t))) = true).
    { apply existsb_exists. exists id. split; [exact I|apply Z.eqb_refl]. }
    rewrite X in E. discriminate.
  Qed.

  Lemma asubs_perm T T' x s fuel c cn :
    NoDup (map s_id (s :: subs_cnode (er_cnode T))) -> insert_root fuel c s (er_cnode T) = Ok cn -> er_cnode T' = cn ->
    incl (asubs_cnode T') ((x, s) :: asubs_cnode T) ->
    Permutation (asubs_cnode T') ((x, s) :: asubs_cnode T) /\ NoDup (map s_id (subs_cnode cn)).
  Proof.
    intros ND IR <- I. assert (P := insert_root_perm _ _ _ _ _ ND IR).
    assert (ND' : NoDup (map s_id (subs_cnode (er_cnode T')))).
    { eapply Permutation_NoDup; [|exact ND]. apply Permutation_map. now symmetry. }
    split; [|exact ND'].
    rewrite <- (proj1 asubs_er T), <- (proj1 asubs_er T') in *.
    change (s :: map snd (asubs_cnode T)) with (map snd ((x, s) :: asubs_cnode T)) in *.
    apply NoDup_Permutation_bis; [| |exact I].
    - apply NoDup_map_inv in ND'. now apply NoDup_map_inv in ND'.
    - apply Permutation_length in P. rewrite !map_length in P. now rewrite P.
  Qed.

  Lemma sub_blocks_perm l l' : Permutation l l' -> Permutation (sub_blocks l) (sub_blocks l').
  Proof. apply Permutation_map. Qed.

  Lemma exact_insert c st q T y s h cn rest :
    er_cnode T = bt_root (v_tree st) -> cn_at T = p_root q -> NoDup (map s_id (subs_cnode (bt_root (v_tree st)))) ->
    free_id (v_tree st) (s_id s) = true ->
    holds h (blocks_cnode NULL T ++ sub_blocks (asubs_cnode T) ++ (y, OSub s) :: sub_blocks rest) ->
    insert_root (insert_fuel c) c s (bt_root (v_tree st)) = Ok cn ->
    exists T' h', fin (fun n => p_insert n c y (p_root q) NULL h) h'
      /\ holds h' (blocks_cnode NULL T' ++ sub_blocks (asubs_cnode T') ++ sub_blocks rest)
      /\ er_cnode T' = cn /\ cn_at T' = p_root q /\ NoDup (map s_id (subs_cnode cn)).
  Proof.
    intros EE ER ND FI H IR. apply free_id_ok in FI. rewrite <- EE in *.
    destruct (insert_root_ok (insert_fuel c) c y s T _ h cn NULL H) as (T' & h' & R & H3 & Q1 & Q2 & I1).
    { apply incl_appl, incl_refl. } { apply in_or_app. right. now left. } { exact IR. }
    destruct (asubs_perm T T' y s (insert_fuel c) c cn) as (P & ND'); [constructor; assumption|exact IR|exact Q1|exact I1|].
    exists T', h'. rewrite <- ER. split; [exact R|]. split; [|split; [exact Q1|split; [exact Q2|exact ND']]].
    eapply holds_perm; [exact H3|]. apply Permutation_app_head. rewrite (sub_blocks_perm _ _ P). cbn [sub_blocks map fst snd].
    change (map (fun x => (fst x, OSub (snd x))) (asubs_cnode T)) with (sub_blocks (asubs_cnode T)). perm.
  Qed.

  Lemma exact_call st q k a st' :
    exact st q -> careful_call st k = true -> v_call st k = Ok (a, st') ->
    exists q', fin (fun n => p_call n q k) (a, q') /\ exact st' q'.
  Proof.
    intros (T & R & LN & ND) CF E. pose proof R as (EC & EP & ER & EE & H).
    assert (I : incl (sub_blocks (asubs_cnode T)) (sub_blocks (asubs_cnode T) ++ sub_blocks (pending (v_made st) (p_made q))))
      by (apply incl_appl, incl_refl).
    destruct k as [id cs x|id cs x|k|x|d| |ev|ev]; cbn [v_call p_call careful_call] in *.
    - destruct (insert_expr (v_tree st) id cs x) as [(b, t')| | |] eqn:IE; cbn [bind] in E; try discriminate.
      apply Ok_inj in E. injection E as <- <-.
      destruct (insert_split _ q _ _ _ _ _ EC EP IE) as [(-> & -> & RUN)|(-> & c & m & s & cn & SI & IR & -> & RUN)].
      + exists q. split; [apply fin_ok; intros n; now rewrite RUN|]. exists T. split; [exact R|now split].
      + assert (H1 := holds_alloc _ (OSub s) H). destruct (alloc (OSub s) (p_heap q)) as (y, h1). cbn [fst snd] in H1.
        rewrite <- SI in CF.
        destruct (exact_insert c st q T y s h1 cn (pending (v_made st) (p_made q)) EE ER ND CF) as (T' & h' & (N0 & RI) & H3 & Q1 & Q2 & ND').
        { hperm. } { exact IR. }
        exists (mkP c m (p_root q) h' (p_made q)). split.
        * exists N0. intros n LE. rewrite RUN. rewrite RI by lia. reflexivity.
        * exists T'. split; [|split; [exact LN|exact ND']].
          split; [reflexivity|]. split; [reflexivity|]. split; [exact Q2|]. split; [exact Q1|exact H3].
    - destruct (make_sub_expr (v_tree st) id cs x) as [(o, t')| | |] eqn:IE; cbn [bind] in E; try discriminate.
      destruct (make_split _ q _ _ _ _ _ EC EP IE) as (c & m & -> & RUN).
      destruct o as [s|]; apply Ok_inj in E; injection E as <- <-.
      + assert (H1 := holds_alloc _ (OSub s) H). destruct (alloc (OSub s) (p_heap q)) as (y, h1). cbn [fst snd] in H1.
        exists (mkP c m (p_root q) h1 (p_made q ++ [y])). split; [apply fin_ok; intros n; now rewrite RUN|].
        exists T. cbn [v_tree v_made p_made bt_root]. rewrite (pending_app _ _ _ _ LN), sub_blocks_app. split; [|split; [rewrite !app_length, LN; reflexivity|exact ND]].
        repeat (split; [first [reflexivity|exact ER|exact EE]|]). cbn [p_heap].
        change (sub_blocks [(y, s)]) with [(y, OSub s)]. hperm.
      + exists (mkP c m (p_root q) (p_heap q) (p_made q)). split; [apply fin_ok; intros n; now rewrite RUN|].
        exists T. split; [|now split]. repeat (split; [first [reflexivity|exact ER|exact EE]|]). exact H.
    - destruct (nth_error (v_made st) k) as [(s, f)|] eqn:NK; [|discriminate]. destruct f; [discriminate|]. unfold betree_insert_sub, insert_sub in E.
      destruct (insert_root (insert_fuel (bt_cfg (v_tree st))) (bt_cfg (v_tree st)) s (bt_root (v_tree st))) as [cn| | |] eqn:IR; cbn [bind] in E; try discriminate.
      apply Ok_inj in E. injection E as <- <-.
      destruct (pending_mark _ _ _ _ LN NK) as (y & NY & PP). rewrite <- EC in IR.
      destruct (exact_insert (p_cfg q) st q T y s (p_heap q) cn (pending (mark k (v_made st)) (p_made q)) EE ER ND CF) as (T' & h' & (N0 & RI) & H3 & Q1 & Q2 & ND').
      { eapply holds_perm; [exact H|]. do 2 apply Permutation_app_head. exact (sub_blocks_perm _ _ PP). }
      { exact IR. }
      exists (mkP (p_cfg q) (p_pm q) (p_root q) h' (p_made q)). split.
      + exists N0. intros n LE. unfold p_insert_made. rewrite NY. rewrite RI by lia. reflexivity.
      + exists T'. split; [|split; [cbn; now rewrite mark_length|exact ND']].
        split; [exact EC|]. split; [exact EP|]. split; [exact Q2|]. split; [exact Q1|exact H3].
    - destruct (change_boundaries_expr (v_tree st) x) as [t'| | |] eqn:IE; cbn [bind] in E; try discriminate.
      apply Ok_inj in E. injection E as <- <-. destruct (change_split _ q _ _ EC IE) as (c & -> & RUN).
      eexists. split; [apply fin_ok; intros n; rewrite RUN; reflexivity|]. exists T. split; [|now split].
      repeat (split; [first [reflexivity|exact EP|exact ER|exact EE]|]). exact H.
    - apply Ok_inj in E. injection E as <- <-. eexists. split; [apply fin_ok; intros n; reflexivity|].
      exists T. split; [|now split]. split; [cbn; now rewrite EC|].
      repeat (split; [first [reflexivity|exact EP|exact ER|exact EE]|]). exact H.
    - apply Ok_inj in E. injection E as <- <-.
      destruct (proj1 free_ok T NULL _ _ H) as (h1 & (N0 & RF) & H1).
      destruct (new_cnode_ok (p_cfg q) NULL h1 _ H1) as (a & la & h2 & NC & H2).
      exists (mkP (p_cfg q) make_pred_map a h2 (p_made q)). split.
      + exists N0. intros n LE. unfold p_empty. rewrite <- ER, RF by lia. cbn [bind]. rewrite NC. reflexivity.
      + exists (fresh_cnode (p_cfg q) a la). split; [|split; [exact LN|constructor]].
        split; [exact EC|]. split; [reflexivity|]. split; [reflexivity|]. split; [cbn; now rewrite EC|exact H2].
    - destruct (betree_search (v_tree st) ev make_report) as [(b, r)| | |] eqn:S; cbn [bind] in E; try discriminate.
      apply Ok_inj in E. injection E as <- <-. destruct (query_ok _ _ _ _ _ _ _ _ R I S) as (N0 & RQ).
      exists q. split; [exists N0; intros n LE; rewrite RQ by lia; reflexivity|]. exists T. split; [exact R|now split].
    - destruct (betree_exists (v_tree st) ev) as [b| | |] eqn:S; cbn [bind] in E; try discriminate.
      apply Ok_inj in E. injection E as <- <-. destruct (exists_ok _ _ _ _ _ _ R I S) as (N0 & RQ).
      exists q. split; [exists N0; intros n LE; rewrite RQ by lia; reflexivity|]. exists T. split; [exact R|now split].
  Qed.

  Lemma exact_run l : forall st q r st',
    exact st q -> careful st l = true -> v_run st l = Ok (r, st') ->
    exists q', fin (fun n => p_run n q l) (r, q') /\ exact st' q'.
  Proof.
    induction l as [|k l IH]; intros st q r st' L NE E; cbn [v_run p_run careful] in *.
    - apply Ok_inj in E. injection E as <- <-. exists q. split; [now apply fin_ok|exact L].
    - apply andb_prop in NE as (NE1 & NE2).
      destruct (v_call st k) as [(a, st1)| | |] eqn:C; cbn [bind] in E; try discriminate.
      destruct (v_run st1 l) as [(r1, st2)| | |] eqn:V; cbn [bind] in E; try discriminate. apply Ok_inj in E. injection E as <- <-.
      destruct (exact_call _ _ _ _ _ L NE1 C) as (q1 & (N1 & R1) & L1).
      destruct (IH _ _ _ _ L1 NE2 V) as (q2 & (N2 & R2) & L2).
      exists q2. split; [|exact L2]. exists (N1 + N2)%nat. intros n LE. rewrite R1 by lia. cbn [bind]. rewrite R2 by lia. reflexivity.
  Qed.

  Lemma exact_free st q : exact st q ->
    exists h, fin (fun n => p_free n q) h /\ holds h (sub_blocks (pending (v_made st) (p_made q))).
  Proof.
    intros (T & (EC & EP & ER & EE & H) & LN & ND). destruct (proj1 free_ok T NULL _ _ H) as (h1 & RF & H1).
    exists h1. unfold p_free. rewrite <- ER. now split.
  Qed.

  Lemma start_ok cap minpart maxsplit ds :
    exists q, p_make_tree cap minpart maxsplit ds = Ok q
      /\ exact (mkV (make_tree cap minpart maxsplit ds) []) q /\ loose (mkV (make_tree cap minpart maxsplit ds) []) q.
  Proof.
    unfold p_make_tree. set (c := mkC ds (to_uint 8 cap) (to_uint 8 minpart) maxsplit [] []).
    assert (H : holds (mkH 1 []) []). { split; [constructor|]. split; [split; [cbn; lia|constructor]|constructor]. }
    destruct (new_cnode_ok c NULL _ _ H) as (a & la & h & -> & H1). cbn [bind]. eexists. split; [reflexivity|].
    assert (R : reps (make_tree cap minpart maxsplit ds) (mkP c make_pred_map a h []) (fresh_cnode c a la) []) by (repeat (split; [reflexivity|]); exact H1).
    split.
    - exists (fresh_cnode c a la). split; [exact R|]. split; [reflexivity|constructor].
    - exists (fresh_cnode c a la), []. split; [exact R|]. split; [apply incl_nil_l|constructor].
  Qed.
End Run.
