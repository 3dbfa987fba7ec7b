(** The drawing, continued: edges, levels, and the whole file. *)
From Coq Require Import ZArith NArith String Ascii Bool List Permutation Lia ZifyBool ZifyNat ZifyN.
From Verif Require Import Base Float Value Ast Config Tree Printer Api Linked LinkedApi DotFile.
From Verif Require Import LinkedSpec PermTac LinkedHeap LinkedNode LinkedGrow LinkedInsert LinkedUse DotSpec DotNames DotProofs DotWalk.
Import ListNotations.
Local Open Scope list_scope.
Local Open Scope string_scope.
Local Open Scope res_scope.
Local Open Scope dot_scope.

(** Printing with a text at hand. *)
Definition draws_x (L : list (N * obj)) (m : N -> nat -> dot unit) (t : string) : Prop :=
  exists N, forall a M h, incl L M -> In (a, OStr) M -> holds h M -> runs (m a) N h (fun _ s h' => s = t /\ holds h' M).
Lemma runs_drawn (m : nat -> dot unit) t N M h (Q : unit -> string -> heap -> Prop) :
  runs m N h (fun _ s h' => s = t /\ holds h' M) -> (forall h', holds h' M -> Q tt t h') -> forall N', (N <= N')%nat -> runs m N' h Q.
Proof. intros D q N' LE. eapply runs_mono; [exact D|exact LE|]. intros [] s h' (-> & K). now apply q. Qed.
Lemma runs_names L m t N M h (Q : dname -> string -> heap -> Prop) :
  (forall M h, incl L M -> holds h M -> runs m N h (fun x s h' => snd x = t /\ s = "" /\ holds h' ((fst x, OStr) :: M))) ->
  incl L M -> holds h M -> (forall a h', holds h' ((a, OStr) :: M) -> Q (a, t) "" h') -> forall N', (N <= N')%nat -> runs m N' h Q.
Proof.
  intros D I H q N' LE. eapply runs_mono; [apply (D M h I H)|exact LE|]. intros (a & y) s h' (E & -> & K). cbn in E, K. subst y. now apply q.
Qed.

Section Draw.
  Context (c : config).

  (** *** Edges *)
  Lemma lnode_links_ok L p la sa m subs t s :
    incl (ln_cells p la sa m (map (@fst N sub) subs)) L -> names L (fun n => path_cnode n c p) t ->
    draws_x L (fun a n => lnode_links n c (a, s) la 1)
      (show (IEdge s ("lnode_" ++ t) :: match map snd subs with [] => [] | _ => [IEdge ("lnode_" ++ t) ("lnode_" ++ t ++ "_subs")] end)%list).
  Proof.
    intros I K. assert (IL := I _ (or_introl eq_refl)). destruct (name_lnode_ok c _ _ _ _ _ _ _ IL K) as (N & NM).
    exists N. intros a M h J A H. unfold lnode_links. apply runs_bind. eapply (runs_names L _ _ _ M); [exact NM|exact J|exact H| |lia].
    intros y h1 H1. apply runs_bind, runs_say.
    apply runs_bind, (runs_text _ _ _ _ _ H1); [now right|]. cbn [snd].
    apply runs_bind, (runs_text _ _ _ _ _ H1); [now left|]. cbn [snd]. apply runs_bind, runs_say.
    apply runs_bind. eapply runs_peek; [eapply at_lnode; [exact H1|right; apply J; exact IL]|]. cbv beta iota. apply runs_bind.
    destruct subs as [|(b, x) subs].
    - cbn [map List.length Nat.ltb Nat.leb]. apply runs_ret. eapply runs_free; [exact H1|reflexivity|]. intros h' H'.
      split; [|exact H']. rewrite show_cons, show_nil. unfold item_text. txt.
    - assert (E : Nat.ltb 0 (List.length (map fst ((b, x) :: subs))) = true) by reflexivity. rewrite E.
      apply runs_bind, runs_say. apply runs_bind, (runs_text _ _ _ _ _ H1); [now left|]. cbn [snd]. apply runs_say.
      eapply runs_free; [exact H1|reflexivity|]. intros h' H'.
      split; [|exact H']. cbn [map]. rewrite !show_cons, show_nil. unfold item_text. txt.
  Qed.
  Lemma pdir_link_ok L pd cn k pa pn v sa cd sc t s :
    In (pd, OPdir cn k pa) L -> In (pn, OPnode pd v sa cd sc) L -> In (sa, OStr) L -> known c v -> names L (fun n => path_cnode n c cn) t ->
    draws_x L (fun a n => pdir_link n c (a, s) pd pn 1) (item_text (IHead s ("pnode_" ++ to_pnode c t v) ("pdir_" ++ t))).
  Proof.
    intros IP I1 I2 V K. destruct (name_pdir_ok c _ _ _ _ _ _ IP K) as (N1 & NM1).
    destruct (name_pnode_ok c _ _ _ (path_pnode_ok c _ _ _ _ _ _ _ _ _ _ _ I1 I2 IP V K)) as (N2 & NM2).
    exists (N1 + N2)%nat. intros a M h J A H. unfold pdir_link.
    apply runs_bind. eapply (runs_names L _ _ _ M); [exact NM1|exact J|exact H| |lia]. intros y h1 H1.
    apply runs_bind. eapply (runs_names L _ _ _ ((y, OStr) :: M)); [exact NM2|now apply incl_tl|exact H1| |lia]. intros z h2 H2.
    apply runs_bind, runs_say.
    apply runs_bind, (runs_text _ _ _ _ _ H2); [right; now right|]. cbn [snd].
    apply runs_bind, (runs_text _ _ _ _ _ H2); [now left|]. cbn [snd].
    apply runs_bind, (runs_text _ _ _ _ _ H2); [right; now left|]. cbn [snd]. apply runs_bind, runs_say.
    apply runs_bind. eapply (runs_free _ _ ((z, OStr) :: M)); [exact H2|cbn [fst]; apply perm_swap|]. intros h3 H3.
    eapply runs_free; [exact H3|reflexivity|]. intros h' H'. split; [|exact H']. unfold item_text. txt.
  Qed.

  Definition edges_cnode_ok (T : acnode) : Prop := forall L root p t,
    incl (blocks_cnode p T) L -> hangs L root p -> names L (fun n => path_cnode n c (cn_at T)) t -> fine_cnode c (er_cnode T) ->
    draws L (fun n => cnode_links n c (cn_at T) 1) (show (edges_cnode c root t (er_cnode T))).
  Definition edges_pdir_ok (P : apdir) : Prop := forall L pd cn k pa t,
    incl (blocks_pdir pd P) L -> In (pd, OPdir cn k pa) L -> names L (fun n => path_cnode n c cn) t -> fine_pdir c (er_pdir P) ->
    draws L (fun n => pnodes_links n c (pn_at P) 1) (show (edges_pdir c t (er_pdir P))).
  Definition edges_cdir_ok (D : acdir) : Prop := forall L k p v s table,
    incl (blocks_cdir k p v D) L -> names L (fun n => up c n k p) s -> fine_cdir c (er_cdir D) ->
    draws_x L (fun x n => cdir_links n c (cd_at D) 1 (x, table)) (show (edges_cdir c s table (er_cdir D))).

  (** The edge to the cnode of a cdir, and those below it. *)
  Lemma port_ok L k p v sa b T l r a s table :
    In (a, OCdir k p v sa b (cn_at T) l r) L -> incl (blocks_cnode a T) L -> ranged b -> names L (fun n => up c n k p) s ->
    edges_cnode_ok T -> fine_cnode c (er_cnode T) ->
    exists N, forall tb x M h, incl L M -> In (tb, OStr) M -> In (x, OStr) M -> holds h M ->
      runs (fun n => if drawn (er_cnode T) then
         on y <- name_cnode n c (cn_at T);
         print_spaces 1;;
         on s0 <- text_of (tb, table);
         on t <- text_of (x, "cdir_" ++ to_range s b);
         on u <- text_of y;
         say (s0 ++ ":" ++ t ++ " -> """ ++ u ++ """
");;
         bfree y;;
         cnode_links n c (cn_at T) 1
       else dret tt) N h (fun _ s' h' =>
        s' = show (if drawn (er_cnode T) then
                IPort table ("cdir_" ++ to_range s b) (cnode_name false (to_range s b)) :: edges_cnode c false (to_range s b) (er_cnode T)
                else [])%list /\ holds h' M).
  Proof.
    intros I IT B U IH F. destruct (drawn (er_cnode T)); [|exists O; intros; apply runs_ret; now split].
    destruct (in_cnode a T) as (la & d & J0). apply IT in J0.
    assert (HG : hangs L false a) by (now exists (OCdir k p v sa b (cn_at T) l r)).
    assert (K : names L (fun n => path_cnode n c (cn_at T)) (to_range s b)).
    { eapply path_sub; [exact J0|exact I|exact B|]. exact (path_up c _ _ _ _ _ _ _ _ _ _ _ I U). }
    destruct (name_cnode_ok c _ _ _ _ _ _ _ J0 HG K) as (N1 & NM). destruct (IH L false a _ IT HG K F) as (N2 & LK).
    exists (N1 + N2)%nat. intros tb x M h J A X H.
    apply runs_bind. eapply (runs_names L _ _ _ M); [exact NM|exact J|exact H| |lia]. intros y h1 H1.
    apply runs_bind, runs_say.
    apply runs_bind, (runs_text _ _ _ _ _ H1); [now right|]. cbn [snd].
    apply runs_bind, (runs_text _ _ _ _ _ H1); [now right|]. cbn [snd].
    apply runs_bind, (runs_text _ _ _ _ _ H1); [now left|]. cbn [snd]. apply runs_bind, runs_say.
    apply runs_bind. eapply runs_free; [exact H1|reflexivity|]. intros h2 H2.
    eapply (runs_draws L _ _ _ M); [exact LK|exact J|exact H2| |lia]. intros h' H'. split; [|exact H'].
    rewrite show_cons. unfold item_text. txt.
  Qed.
  Lemma drawn_at L k p v sa b T l r a : In (a, OCdir k p v sa b (cn_at T) l r) L -> incl (blocks_cnode a T) L ->
    gives L (fun _ => if (cn_at T =? NULL)%N then dret false else should_print (cn_at T)) (drawn (er_cnode T)).
  Proof.
    intros I IT. destruct (in_cnode a T) as (la & d & J). eapply gives_if; [apply IT, J|]. now apply (drawn_ok L a).
  Qed.

  Lemma edges_ok : (forall T, edges_cnode_ok T) /\ (forall P, edges_pdir_ok P) /\ (forall D, edges_cdir_ok D).
  Proof.
    apply atree_ind.
    - intros a la sa m subs pd pa ps IH L root p t I R K F. cbn [blocks_cnode cn_at er_cnode edges_cnode fine_cnode] in *.
      assert (I1 := I _ (or_introl eq_refl)).
      assert (IL : incl (ln_cells a la sa m (map fst subs)) L) by inl I.
      eapply draws_step; [reflexivity|]. cbn [cnode_links].
      assert (PD : draws_x L (fun x n => if (arr_ptr pd (pn_at ps) =? NULL)%N then dret tt else
          on (_, k, pa0) <- peek (fun h => get_pdir h (arr_ptr pd (pn_at ps)));
          on l <- peek (fun h => entries h k pa0);
          match l with
          | [] => dret tt
          | pn :: _ => pdir_link n c (x, cnode_name root t) (arr_ptr pd (pn_at ps)) pn 1;; pnodes_links n c l 1
          end)
          (show (match er_pdir ps with
               | PNil => []
               | PCons v _ _ _ => IHead (cnode_name root t) ("pnode_" ++ to_pnode c t v) ("pdir_" ++ t) :: edges_pdir c t (er_pdir ps)
               end)%list)).
      { destruct ps as [|pn s v sc D rest].
        - exists O. intros x M h J A H. cbn [pn_at arr_ptr N.eqb NULL]. apply runs_ret. now split.
        - set (P := ACons pn s v sc D rest) in *. change (arr_ptr pd (pn_at P)) with pd in *.
          assert (IP : In (pd, OPdir a (List.length (pn_at P)) pa) L) by (apply I; right; apply in_or_app; right; apply in_or_app; left; now left).
          assert (IA : In (pa, OArr (pn_at P)) L) by (apply I; right; apply in_or_app; right; apply in_or_app; left; right; now left).
          assert (IB : incl (blocks_pdir pd P) L) by inl I.
          destruct (IH _ _ _ _ _ _ IB IP K F) as (N2 & LK).
          assert (V : known c v) by (cbn [P er_pdir fine_pdir] in F; tauto).
          destruct (pdir_link_ok L pd a _ pa pn v s (cd_at D) sc t (cnode_name root t) IP (IB _ (or_introl eq_refl)) (IB _ (or_intror (or_introl eq_refl))) V K) as (N1 & PL).
          exists (N1 + N2)%nat. intros x M h J A H. rewrite (holds_pos _ _ _ H (J _ IP)).
          apply runs_bind. eapply runs_peek; [eapply at_pdir; [exact H|apply J; exact IP]|]. cbv beta iota.
          apply runs_bind. eapply runs_peek; [eapply at_entries; [exact H|apply J; exact IA]|].
          cbn [P pn_at]. fold P. change (pn :: pn_at rest)%list with (pn_at P).
          apply runs_bind. eapply runs_drawn; [apply (PL x M h J A H)| |lia]. intros h1 H1.
          eapply (runs_draws L _ _ _ M); [exact LK|exact J|exact H1| |lia]. intros h2 H2. split; [|exact H2].
          cbn [er_pdir P]. now rewrite show_cons. }
      destruct PD as (N2 & PD). destruct (lnode_links_ok L a la sa m subs t (cnode_name root t) IL K) as (N1 & LN).
      eapply draws_with; [eapply name_cnode_ok; [exact I1|exact R|exact K]|]. exists (N1 + N2)%nat. intros x M h J H.
      apply runs_bind. eapply runs_peek; [eapply at_cnode; [exact H|right; apply J; exact I1]|]. cbv beta iota.
      apply runs_bind. rewrite (holds_pos _ la _ H (or_intror (J _ (IL _ (or_introl eq_refl))))).
      eapply runs_drawn; [apply (LN x ((x, OStr) :: M) h); [now apply incl_tl|now left|exact H]| |lia]. intros h1 H1.
      apply runs_bind. eapply runs_drawn; [apply (PD x ((x, OStr) :: M) h1); [now apply incl_tl|now left|exact H1]| |lia]. intros h2 H2.
      eapply runs_free; [exact H2|reflexivity|]. intros h' H'. split; [|exact H'].
      rewrite app_comm_cons, (show_app (_ :: _)%list). now rewrite ?cat_assoc, ?cat_nil.
    - intros L pd cn k pa t _ _ _ _. eapply draws_step; [reflexivity|]. apply draws_nil.
    - intros a sa v sc D IHD rest IHR L pd cn k pa t I IP K F. cbn [blocks_pdir pn_at er_pdir edges_pdir fine_pdir] in *.
      destruct F as (V & FD & FR).
      assert (I1 := I _ (or_introl eq_refl)). assert (I2 := I _ (or_intror (or_introl eq_refl))).
      assert (ID : incl (blocks_cdir true a v D) L) by inl I.
      assert (PP := path_pnode_ok c _ _ _ _ _ _ _ _ _ _ _ I1 I2 IP V K).
      assert (PU : names L (fun n => up c n true a) (to_pnode c t v)) by exact PP.
      destruct (in_cdir true a v D) as (s0 & l0 & r0 & J0). apply ID in J0.
      destruct (name_pnode_ok c _ _ _ PP) as (N1 & NM1).
      destruct (name_in c _ _ _ _ _ _ ID PU (ranged_top c _ FD)) as (N2 & NM2). rewrite <- er_bound in NM2.
      destruct (IHD L true a v (to_pnode c t v) ("cdir_" ++ to_range (to_pnode c t v) (cd_bound (er_cdir D))) ID PU FD) as (N3 & CL).
      eapply draws_step; [reflexivity|]. cbn [pnodes_links]. eapply draws_eq.
      + eapply (draws_get _ (fun _ => _)); [reads|]. cbv beta iota.
        eapply draws_seq; [eapply draws_if; [exact J0|]|].
        * exists (N1 + N2 + N3)%nat. intros M h J H.
          apply runs_bind. eapply (runs_names L _ _ _ M); [exact NM1|exact J|exact H| |lia]. intros x h1 H1.
          apply runs_bind. eapply (runs_names L _ _ _ ((x, OStr) :: M)); [exact NM2|now apply incl_tl|exact H1| |lia]. intros y h2 H2.
          apply runs_bind, runs_say.
          apply runs_bind, (runs_text _ _ _ _ _ H2); [right; now left|]. cbn [snd]. do 2 (apply runs_bind, runs_say).
          apply runs_bind, (runs_text _ _ _ _ _ H2); [right; now left|]. cbn [snd].
          apply runs_bind, (runs_text _ _ _ _ _ H2); [now left|]. cbn [snd]. apply runs_bind, runs_say.
          apply runs_bind. eapply (runs_free _ _ ((y, OStr) :: M)); [exact H2|cbn [fst]; apply perm_swap|]. intros h3 H3.
          apply runs_bind. eapply runs_drawn; [apply (CL y ((y, OStr) :: M) h3); [now apply incl_tl|now left|exact H3]| |lia]. intros h4 H4.
          eapply runs_free; [exact H4|reflexivity|]. intros h' H'. split; [|exact H']. reflexivity.
        * apply (IHR L pd cn k pa); [inl I|exact IP|exact K|exact FR].
      + rewrite !show_cons, show_app. unfold item_text. txt.
    - intros a sa b T IHT L k p v s table I U F. cbn [blocks_cdir cd_at er_cdir edges_cdir fine_cdir] in *. destruct F as (B & FT).
      assert (I1 := I _ (or_introl eq_refl)). assert (IT : incl (blocks_cnode a T) L) by inl I.
      destruct (port_ok L k p v sa b T NULL NULL a s table I1 IT B U IHT FT) as (N1 & PT).
      destruct (drawn_at L k p v sa b T NULL NULL a I1 IT) as (N2 & DA).
      assert (NM : names L (fun n => name_cdir n c a) ("cdir_" ++ to_range s b)).
      { apply name_cdir_ok. eapply path_cdir_ok; [exact I1|exact B|]. eapply path_up; [exact I1|exact U]. }
      destruct NM as (N3 & NM). exists (S (N1 + N2 + N3)). intros tb M h J A H.
      eapply (runs_step _ (fun n => _)); [reflexivity|].
      apply runs_bind. eapply (runs_names L _ _ _ M); [exact NM|exact J|exact H| |lia]. intros x h1 H1.
      apply runs_bind. eapply runs_peek; [eapply at_cdir; [exact H1|right; apply J; exact I1]|]. cbv beta iota.
      apply runs_bind. eapply runs_mono; [apply (DA ((x, OStr) :: M) h1); [now apply incl_tl|exact H1]|lia|]. intros ? s1 h2 (-> & -> & H2).
      apply runs_bind. eapply runs_drawn; [apply (PT tb x ((x, OStr) :: M) h2); [now apply incl_tl|now right|now left|exact H2]| |lia]. intros h3 H3.
      cbn [N.eqb NULL]. do 2 (apply runs_bind, runs_ret).
      eapply runs_free; [exact H3|reflexivity|]. intros h' H'. split; [|exact H']. now rewrite !cat_nil.
    - intros a sa b T IHT l IHl r IHr L k p v s table I U F. cbn [blocks_cdir cd_at er_cdir edges_cdir fine_cdir] in *.
      destruct F as (B & FT & FL & FR).
      assert (I1 := I _ (or_introl eq_refl)). assert (IT : incl (blocks_cnode a T) L) by inl I.
      assert (IL : incl (blocks_cdir false a v l) L) by inl I. assert (IR : incl (blocks_cdir false a v r) L) by inl I.
      assert (U2 : names L (fun n => up c n false a) s) by exact (path_up c _ _ _ _ _ _ _ _ _ _ _ I1 U).
      destruct (port_ok L k p v sa b T (cd_at l) (cd_at r) a s table I1 IT B U IHT FT) as (N1 & PT).
      destruct (drawn_at L k p v sa b T (cd_at l) (cd_at r) a I1 IT) as (N2 & DA).
      assert (NM : names L (fun n => name_cdir n c a) ("cdir_" ++ to_range s b)).
      { apply name_cdir_ok. eapply path_cdir_ok; [exact I1|exact B|]. eapply path_up; [exact I1|exact U]. }
      destruct NM as (N3 & NM).
      destruct (IHl L false a v s table IL U2 FL) as (N4 & XL). destruct (IHr L false a v s table IR U2 FR) as (N5 & XR).
      exists (S (N1 + N2 + N3 + N4 + N5)). intros tb M h J A H.
      eapply (runs_step _ (fun n => _)); [reflexivity|].
      apply runs_bind. eapply (runs_names L _ _ _ M); [exact NM|exact J|exact H| |lia]. intros x h1 H1.
      apply runs_bind. eapply runs_peek; [eapply at_cdir; [exact H1|right; apply J; exact I1]|]. cbv beta iota.
      apply runs_bind. eapply runs_mono; [apply (DA ((x, OStr) :: M) h1); [now apply incl_tl|exact H1]|lia|]. intros ? s1 h2 (-> & -> & H2).
      apply runs_bind. eapply runs_drawn; [apply (PT tb x ((x, OStr) :: M) h2); [now apply incl_tl|now right|now left|exact H2]| |lia]. intros h3 H3.
      rewrite (cd_null _ _ false a v l H3) by (intros z Z; right; apply J, IL, Z).
      rewrite (cd_null _ _ false a v r H3) by (intros z Z; right; apply J, IR, Z).
      apply runs_bind. eapply runs_drawn; [apply (XL tb ((x, OStr) :: M) h3); [now apply incl_tl|now right|exact H3]| |lia]. intros h4 H4.
      apply runs_bind. eapply runs_drawn; [apply (XR tb ((x, OStr) :: M) h4); [now apply incl_tl|now right|exact H4]| |lia]. intros h5 H5.
      eapply runs_free; [exact H5|reflexivity|]. intros h' H'. split; [|exact H']. rewrite !show_app. now rewrite !cat_nil, ?cat_assoc.
  Qed.

  (** *** Levels *)
  Lemma rank_app l l' : rank_text (l ++ l')%list = rank_text l ++ rank_text l'.
  Proof. unfold rank_text. now rewrite map_app, concat_app. Qed.
  Lemma rank_cons x l : rank_text (x :: l) = ((if fst x then ", " else "") ++ quoted (snd x)) ++ rank_text l.
  Proof. unfold rank_text. cbn [map]. now rewrite concat_cons. Qed.

  Lemma one_rank L k p v sa b T l r a s (first : bool) :
    In (a, OCdir k p v sa b (cn_at T) l r) L -> incl (blocks_cnode a T) L -> ranged b -> names L (fun n => up c n k p) s ->
    draws L (fun n => if drawn (er_cnode T) then
         on y <- name_cnode n c (cn_at T);
         say (if first then "" else ", ");;
         on u <- text_of y;
         say ("""" ++ u ++ """");;
         bfree y
       else dret tt)
      (rank_text (if drawn (er_cnode T) then [(negb first, cnode_name false (to_range s b))] else [])).
  Proof.
    intros I IT B U. destruct (drawn (er_cnode T)); [|apply draws_nil].
    destruct (in_cnode a T) as (la & d & J0). apply IT in J0.
    assert (HG : hangs L false a) by (now exists (OCdir k p v sa b (cn_at T) l r)).
    eapply draws_with.
    - eapply name_cnode_ok; [exact J0|exact HG|]. eapply path_sub; [exact J0|exact I|exact B|]. exact (path_up c _ _ _ _ _ _ _ _ _ _ _ I U).
    - exists O. intros y M h J H. apply runs_bind, runs_say. apply runs_bind, (runs_text _ _ _ _ _ H); [now left|]. cbn [snd].
      apply runs_bind, runs_say. eapply runs_free; [exact H|reflexivity|]. intros h' H'. split; [|exact H'].
      rewrite rank_cons. cbn [fst snd]. unfold rank_text. cbn [map String.concat]. destruct first; txt.
  Qed.
  Lemma cdir_rank_ok D : forall L k p v s first,
    incl (blocks_cdir k p v D) L -> names L (fun n => up c n k p) s -> fine_cdir c (er_cdir D) ->
    draws L (fun n => cnode_rank n c (cd_at D) first) (rank_text (rank_of s first (er_cdir D))).
  Proof.
    induction D as [a sa b T|a sa b T l IHl r IHr]; intros L k p v s first I U F; cbn [blocks_cdir cd_at er_cdir rank_of fine_cdir] in *.
    - destruct F as (B & FT). assert (I1 := I _ (or_introl eq_refl)). assert (IT : incl (blocks_cnode a T) L) by inl I.
      eapply draws_step; [reflexivity|]. cbn [cnode_rank]. eapply draws_eq.
      + eapply (draws_get _ (fun _ => _)); [reads|]. cbv beta iota. eapply (draws_get _ (fun _ => _)); [exact (drawn_at L k p v sa b T NULL NULL a I1 IT)|].
        eapply draws_seq; [exact (one_rank L k p v sa b T NULL NULL a s first I1 IT B U)|]. cbn [N.eqb NULL]. eapply (draws_seq _ (fun _ => _)); apply draws_nil.
      + now rewrite !cat_nil.
    - destruct F as (B & FT & FL & FR). assert (I1 := I _ (or_introl eq_refl)). assert (IT : incl (blocks_cnode a T) L) by inl I.
      assert (IL : incl (blocks_cdir false a v l) L) by inl I. assert (IR : incl (blocks_cdir false a v r) L) by inl I.
      assert (U2 : names L (fun n => up c n false a) s) by exact (path_up c _ _ _ _ _ _ _ _ _ _ _ I1 U).
      destruct (in_cdir false a v l) as (s1 & l1 & r1 & J1). apply IL in J1.
      destruct (in_cdir false a v r) as (s2 & l2 & r2 & J2). apply IR in J2.
      eapply draws_step; [reflexivity|]. cbn [cnode_rank]. eapply draws_eq.
      + eapply (draws_get _ (fun _ => _)); [reads|]. cbv beta iota. eapply (draws_get _ (fun _ => _)); [exact (drawn_at L k p v sa b T _ _ a I1 IT)|].
        eapply draws_seq; [exact (one_rank L k p v sa b T _ _ a s first I1 IT B U)|]. cbv zeta.
        eapply draws_seq; [eapply draws_if; [exact J1|]|eapply draws_if; [exact J2|]].
        * eapply IHl; [exact IL|exact U2|exact FL].
        * eapply IHr; [exact IR|exact U2|exact FR].
      + now rewrite !rank_app.
  Qed.
  Lemma pnode_ranks_ok L pd cn k pa t P :
    incl (blocks_pdir pd P) L -> In (pd, OPdir cn k pa) L -> fine_pdir c (er_pdir P) -> names L (fun n => path_cnode n c cn) t -> forall i,
    draws L (fun n => pnode_rank n c i (pn_at P))
      (rank_text (match i with
                  | O => commas (map (fun v => "pnode_" ++ to_pnode c t v ++ "_fake") (pnodes_of t (er_pdir P)))
                  | _ => map (fun x => (true, x)) (map (fun v => "pnode_" ++ to_pnode c t v ++ "_fake") (pnodes_of t (er_pdir P)))
                  end)).
  Proof.
    intros I IP F K. induction P as [|a sa v sc D rest IH]; intros i; cbn [pn_at pnode_rank er_pdir pnodes_of map].
    - destruct i; apply draws_nil.
    - cbn in F. destruct F as (V & _ & FR). cbn [blocks_pdir] in I.
      assert (I1 := I _ (or_introl eq_refl)). assert (I2 := I _ (or_intror (or_introl eq_refl))).
      destruct (IH ltac:(inl I) FR (S i)) as (N & RS). clear IH.
      eapply draws_with; [apply name_pnode_ok; eapply path_pnode_ok; [exact I1|exact I2|exact IP|exact V|exact K]|].
      exists N. intros x M h J H. apply runs_bind, runs_say.
      apply runs_bind, (runs_text _ _ _ _ _ H); [now left|]. cbn [snd]. apply runs_bind, runs_say.
      apply runs_bind. eapply runs_free; [exact H|reflexivity|]. intros h2 H2.
      eapply (runs_draws L _ _ _ M); [exact RS|exact J|exact H2| |lia]. intros h' H'. split; [|exact H'].
      destruct i; cbn [commas map]; rewrite rank_cons; cbn [fst snd]; txt.
  Qed.

  Definition ranks_cnode_ok (T : acnode) : Prop := forall L p t,
    incl (blocks_cnode p T) L -> names L (fun n => path_cnode n c (cn_at T)) t -> fine_cnode c (er_cnode T) ->
    draws L (fun n => cnode_ranks n c (cn_at T) 1) (show (ranks_cnode c t (er_cnode T))).
  Definition ranks_pdir_ok (P : apdir) : Prop := forall L pd cn k pa t,
    incl (blocks_pdir pd P) L -> In (pd, OPdir cn k pa) L -> names L (fun n => path_cnode n c cn) t -> fine_pdir c (er_pdir P) ->
    draws L (fun n => pnodes_ranks n c (pn_at P) 1) (show (ranks_pdir c t (er_pdir P))).
  Definition ranks_cdir_ok (D : acdir) : Prop := forall L k p v s (first : bool),
    incl (blocks_cdir k p v D) L -> names L (fun n => up c n k p) s -> fine_cdir c (er_cdir D) ->
    draws L (fun n => cdir_ranks n c (cd_at D) 1 first)
      (show ((if first then [IRank (rank_of s true (er_cdir D))] else []) ++ ranks_cdir c s (er_cdir D))%list).

  Lemma rank_line L k p v D s (first : bool) :
    incl (blocks_cdir k p v D) L -> names L (fun n => up c n k p) s -> fine_cdir c (er_cdir D) ->
    draws L (fun n => if first then print_spaces 1;; say "{ rank=same; ";; cnode_rank n c (cd_at D) true;; say " }
" else dret tt) (show (if first then [IRank (rank_of s true (er_cdir D))] else [])).
  Proof.
    intros I U F. destruct first; [|apply draws_nil]. eapply draws_eq.
    - eapply (draws_seq _ (fun _ => _)); [apply draws_say|]. eapply (draws_seq _ (fun _ => _)); [apply draws_say|].
      eapply draws_seq; [exact (cdir_rank_ok D L k p v s true I U F)|apply draws_say].
    - rewrite show_cons, show_nil. unfold item_text. txt.
  Qed.
  Lemma ranks_ok : (forall T, ranks_cnode_ok T) /\ (forall P, ranks_pdir_ok P) /\ (forall D, ranks_cdir_ok D).
  Proof.
    apply atree_ind.
    - intros a la sa m subs pd pa ps IH L p t I K F. cbn [blocks_cnode cn_at er_cnode ranks_cnode fine_cnode] in *.
      assert (I1 := I _ (or_introl eq_refl)). eapply draws_step; [reflexivity|]. cbn [cnode_ranks].
      eapply (draws_get _ (fun _ => _)); [reads|]. cbv beta iota.
      destruct ps as [|pn s v sc D rest].
      + cbn [pn_at arr_ptr N.eqb NULL]. apply draws_nil.
      + set (P := ACons pn s v sc D rest) in *. change (arr_ptr pd (pn_at P)) with pd in *.
        assert (IP : In (pd, OPdir a (List.length (pn_at P)) pa) L) by (apply I; right; apply in_or_app; right; apply in_or_app; left; now left).
        assert (IA : In (pa, OArr (pn_at P)) L) by (apply I; right; apply in_or_app; right; apply in_or_app; left; right; now left).
        assert (IB : incl (blocks_pdir pd P) L) by inl I.
        eapply draws_if; [exact IP|]. eapply draws_eq.
        * eapply (draws_get _ (fun _ => _)); [reads|]. cbv beta iota.
          eapply (draws_get _ (fun _ => _)); [apply gives_peek; intros M h J H; eapply at_entries; [exact H|apply J; exact IA]|].
          eapply (draws_seq _ (fun _ => _)); [apply draws_say|]. eapply (draws_seq _ (fun _ => _)); [apply draws_say|].
          eapply draws_seq; [exact (pnode_ranks_ok L pd a _ pa t P IB IP F K O)|].
          eapply (draws_seq _ (fun _ => _)); [apply draws_say|]. exact (IH L pd a _ pa t IB IP K F).
        * transitivity (show (IRank (commas (map (fun v0 => "pnode_" ++ to_pnode c t v0 ++ "_fake")%string (pnodes_of t (er_pdir P)))) :: ranks_pdir c t (er_pdir P))%list); [|reflexivity].
          rewrite show_cons. unfold item_text. txt.
    - intros L pd cn k pa t _ _ _ _. eapply draws_step; [reflexivity|]. apply draws_nil.
    - intros a sa v sc D IHD rest IHR L pd cn k pa t I IP K F. cbn [blocks_pdir pn_at er_pdir ranks_pdir fine_pdir] in *.
      destruct F as (V & FD & FR).
      assert (I1 := I _ (or_introl eq_refl)). assert (I2 := I _ (or_intror (or_introl eq_refl))).
      assert (ID : incl (blocks_cdir true a v D) L) by inl I.
      assert (PU : names L (fun n => up c n true a) (to_pnode c t v)) by exact (path_pnode_ok c _ _ _ _ _ _ _ _ _ _ _ I1 I2 IP V K).
      destruct (in_cdir true a v D) as (s0 & l0 & r0 & J0). apply ID in J0.
      eapply draws_step; [reflexivity|]. cbn [pnodes_ranks]. eapply draws_eq.
      + eapply (draws_get _ (fun _ => _)); [reads|]. cbv beta iota.
        eapply draws_seq; [eapply draws_if; [exact J0|]; exact (IHD L true a v _ true ID PU FD)|].
        apply (IHR L pd cn k pa); [inl I|exact IP|exact K|exact FR].
      + cbn [app]. rewrite !show_cons, show_app. now rewrite cat_assoc.
    - intros a sa b T IHT L k p v s first I U F.
      assert (RL := rank_line L k p v _ s first I U F).
      cbn [blocks_cdir cd_at er_cdir ranks_cdir fine_cdir] in *. destruct F as (B & FT).
      assert (I1 := I _ (or_introl eq_refl)). assert (IT : incl (blocks_cnode a T) L) by inl I.
      destruct (at_cdir_cnode c (fun n c x => cnode_ranks n c x 1) (ranks_cnode c) L k p v sa b T NULL NULL a s I1 IT B U) as (G & DR).
      { intros t K. now apply (IHT _ a). }
      eapply draws_step; [reflexivity|]. cbn [cdir_ranks]. eapply draws_eq.
      + eapply draws_seq; [exact RL|]. eapply (draws_get _ (fun _ => _)); [reads|]. cbv beta iota. eapply (draws_get _ (fun _ => _)); [exact G|].
        eapply draws_seq; [exact DR|]. cbn [N.eqb NULL]. eapply (draws_seq _ (fun _ => _)); apply draws_nil.
      + now rewrite show_app, !cat_nil.
    - intros a sa b T IHT l IHl r IHr L k p v s first I U F.
      assert (RL := rank_line L k p v _ s first I U F).
      cbn [blocks_cdir cd_at er_cdir ranks_cdir fine_cdir] in *. destruct F as (B & FT & FL & FR).
      assert (I1 := I _ (or_introl eq_refl)). assert (IT : incl (blocks_cnode a T) L) by inl I.
      assert (IL : incl (blocks_cdir false a v l) L) by inl I. assert (IR : incl (blocks_cdir false a v r) L) by inl I.
      assert (U2 : names L (fun n => up c n false a) s) by exact (path_up c _ _ _ _ _ _ _ _ _ _ _ I1 U).
      destruct (at_cdir_cnode c (fun n c x => cnode_ranks n c x 1) (ranks_cnode c) L k p v sa b T (cd_at l) (cd_at r) a s I1 IT B U) as (G & DR).
      { intros t K. now apply (IHT _ a). }
      destruct (in_cdir false a v l) as (s1 & l1 & r1 & J1). apply IL in J1.
      destruct (in_cdir false a v r) as (s2 & l2 & r2 & J2). apply IR in J2.
      eapply draws_step; [reflexivity|]. cbn [cdir_ranks]. eapply draws_eq.
      + eapply draws_seq; [exact RL|]. eapply (draws_get _ (fun _ => _)); [reads|]. cbv beta iota. eapply (draws_get _ (fun _ => _)); [exact G|].
        eapply draws_seq; [exact DR|]. eapply draws_seq; [eapply draws_if; [exact J1|]|eapply draws_if; [exact J2|]].
        * exact (IHl L false a v s false IL U2 FL).
        * exact (IHr L false a v s false IR U2 FR).
      + cbn [app]. now rewrite !show_app.
  Qed.

  (** *** The file *)
  Theorem file_ok L T :
    incl (blocks_cnode NULL T) L -> incl (sub_blocks (asubs_cnode T)) L -> fine_cnode c (er_cnode T) ->
    draws L (fun n => write_dot_file n c (cn_at T)) (file_text (drawing c (er_cnode T))).
  Proof.
    intros I IS F. destruct (in_cnode NULL T) as (la & d & J). apply I in J.
    pose proof (path_root c _ _ _ _ J) as K.
    eapply draws_eq.
    - unfold write_dot_file. do 3 (eapply (draws_seq _ (fun _ => _)); [apply draws_say|]).
      eapply draws_seq; [exact (proj1 (nodes_ok c) T L true NULL "" I IS eq_refl K F)|].
      eapply draws_seq; [exact (proj1 edges_ok T L true NULL "" I eq_refl K F)|].
      eapply draws_seq; [exact (proj1 ranks_ok T L NULL "" I K F)|apply draws_say].
    - unfold file_text. fold (show (drawing c (er_cnode T))). unfold drawing. rewrite !show_app. txt.
  Qed.
End Draw.
