(** New nodes, walking up and moving subscriptions in a memory whose blocks are known. *)
From Coq Require Import ZArith NArith String Bool List Permutation Lia ZifyBool ZifyNat ZifyN.
From Verif Require Import Base Float Value Ast Config Tree Linked LinkedSpec PermTac LinkedHeap.
Import ListNotations.
Local Open Scope Z_scope.
Local Open Scope res_scope.

(** *** New nodes *)

(** A new cnode. *)
Definition fresh_cnode (c : config) (a la : N) : acnode := AC a la NULL (c_cap c) [] NULL NULL ANil.

Lemma new_cnode_ok c p h F :
  holds h F ->
  exists a la h', new_cnode c p h = Ok (a, h') /\ holds h' (blocks_cnode p (fresh_cnode c a la) ++ F).
Proof.
  intros H. unfold new_cnode, new_lnode.
  assert (H1 := holds_alloc _ (OCnode p NULL NULL) H). destruct (alloc (OCnode p NULL NULL) h) as (a, h1). cbn [fst snd] in H1.
  assert (H2 := holds_alloc _ (OLnode a 0 NULL (c_cap c)) H1).
  destruct (alloc (OLnode a 0 NULL (c_cap c)) h1) as (la, h2). cbn [fst snd] in H2.
  assert (H3 : holds h2 ((a, OCnode p NULL NULL) :: (la, OLnode a 0 NULL (c_cap c)) :: F)).
  { eapply holds_perm; [exact H2|]. perm. }
  destruct (holds_store _ _ _ (OCnode p la NULL) H3) as (h3 & -> & H4). cbn [bind].
  exists a, la, h3. split; [reflexivity|]. exact H4.
Qed.

Lemma create_cdir_ok c k p v b h F :
  holds h F ->
  exists a sa cn la h', create_cdir c k p v b h = Ok (a, h')
    /\ holds h' (blocks_cdir k p v (ALeaf a sa b (fresh_cnode c cn la)) ++ F).
Proof.
  intros H. unfold create_cdir.
  assert (H1 := holds_alloc _ (OCdir k p v NULL b NULL NULL NULL) H).
  destruct (alloc (OCdir k p v NULL b NULL NULL NULL) h) as (a, h1). cbn [fst snd] in H1.
  assert (H2 := holds_alloc _ OStr H1). destruct (alloc OStr h1) as (sa, h2). cbn [fst snd] in H2.
  destruct (new_cnode_ok c a _ _ H2) as (cn & la & h3 & -> & H3). cbn [bind].
  assert (H4 : holds h3 ((a, OCdir k p v NULL b NULL NULL NULL) :: (sa, OStr) :: blocks_cnode a (fresh_cnode c cn la) ++ F)).
  { eapply holds_perm; [exact H3|]. perm. }
  destruct (holds_store _ _ _ (OCdir k p v sa b cn NULL NULL) H4) as (h4 & -> & H5). cbn [bind].
  exists a, sa, cn, la, h4. split; [reflexivity|]. exact H5.
Qed.

Lemma create_child_ok c a k p v sa b0 x l r b h F :
  holds h F -> In (a, OCdir k p v sa b0 x l r) F -> In (sa, OStr) F ->
  exists a' sa' cn la h', create_child c a b h = Ok (a', h')
    /\ holds h' (blocks_cdir false a v (ALeaf a' sa' b (fresh_cnode c cn la)) ++ F).
Proof.
  intros H I J. unfold create_child. rewrite (at_cdir _ _ _ _ _ _ _ _ _ _ H I). cbn [bind].
  rewrite (holds_load _ _ _ H J). cbn [bind]. now apply create_cdir_ok.
Qed.

(** A pnode at the end. *)
Fixpoint ap_app (P : apdir) (Q : apdir) : apdir :=
  match P with ANil => Q | ACons a sa v s cd rest => ACons a sa v s cd (ap_app rest Q) end.
Lemma pn_app P Q : pn_at (ap_app P Q) = pn_at P ++ pn_at Q.
Proof. induction P as [|a sa v s cd rest IH]; cbn; [reflexivity|now rewrite IH]. Qed.
Lemma blocks_app pd P Q : blocks_pdir pd (ap_app P Q) = blocks_pdir pd P ++ blocks_pdir pd Q.
Proof. induction P as [|a sa v s cd rest IH]; cbn; [reflexivity|]. now rewrite IH, app_assoc. Qed.
Lemma er_app P a sa v s D : er_pdir (ap_app P (ACons a sa v s D ANil)) = pdir_app (er_pdir P) v s (er_cdir D).
Proof. induction P as [|a' sa' v' s' cd rest IH]; cbn; [reflexivity|now rewrite IH]. Qed.
Lemma asubs_app P Q : asubs_pdir (ap_app P Q) = asubs_pdir P ++ asubs_pdir Q.
Proof. induction P as [|a sa v s cd rest IH]; cbn; [reflexivity|]. now rewrite IH, app_assoc. Qed.

Lemma create_pdir_ok c v a p la sa m subs pd pa ps d h F :
  holds h (blocks_cnode p (AC a la sa m subs pd pa ps) ++ F) -> get_domain c v = Ok d ->
  exists pd' pa' pn s2 cd s3 cn la2 h',
    create_pdir c v a h = Ok (pn, h')
    /\ holds h' (blocks_cnode p (AC a la sa m subs pd' pa'
         (ap_app ps (ACons pn s2 v (f_of_Z 0) (ALeaf cd s3 (d_bound d) (fresh_cnode c cn la2)) ANil))) ++ F).
Proof.
  intros H D. unfold create_pdir.
  rewrite (at_cnode _ a p la (arr_ptr pd (pn_at ps)) H) by (cbn; now left). cbn [bind].
  (* the pdir exists afterwards *)
  remember (ln_cells a la sa m (map fst subs)) as L eqn:EL.
  assert (K : exists pd' h1,
     (if (arr_ptr pd (pn_at ps) =? NULL)%N then
        let '(pd', h) := alloc (OPdir a 0 NULL) h in
        do h <- store h a (OCnode p la pd'); Ok (pd', h)
      else Ok (arr_ptr pd (pn_at ps), h)) = Ok (pd', h1)
     /\ holds h1 ((pd', OPdir a (length (pn_at ps)) (arr_ptr pa (pn_at ps))) :: arr_cells pa (pn_at ps)
          ++ (a, OCnode p la pd') :: L ++ blocks_pdir pd' ps ++ F)).
  { cbn [blocks_cnode] in H. rewrite <- EL in H. destruct ps as [|pn s v' sc cd rest].
    - cbn -[alloc store] in H |- *. assert (H1 := holds_alloc _ (OPdir a 0 NULL) H). destruct (alloc (OPdir a 0 NULL) h) as (pd', h1).
      cbn [fst snd] in H1.
      assert (H2 : holds h1 ((a, OCnode p la NULL) :: (pd', OPdir a 0 NULL) :: L ++ F)).
      { eapply holds_perm; [exact H1|]. perm. }
      destruct (holds_store _ _ _ (OCnode p la pd') H2) as (h2 & -> & H3). cbn [bind].
      exists pd', h2. split; [reflexivity|]. eapply holds_perm; [exact H3|]. perm.
    - remember (ACons pn s v' sc cd rest) as P. assert (Q : exists x l, pn_at P = x :: l) by (subst P; cbn; eauto).
      destruct Q as (x & l & Q). rewrite Q in *. cbn [arr_ptr arr_cells pd_cells] in *.
      rewrite (holds_pos _ pd (OPdir a (length (x :: l)) pa) H) by (apply in_or_app; left; right; apply in_or_app; right; apply in_or_app; left; now left).
      exists pd, h. split; [reflexivity|]. eapply holds_perm; [exact H|]. perm. }
  destruct K as (pd' & h1 & -> & H1). cbn [bind]. clear H. rename H1 into H.
  assert (H1 := holds_alloc _ (OPnode pd' v NULL NULL (f_of_Z 0)) H).
  destruct (alloc (OPnode pd' v NULL NULL (f_of_Z 0)) h1) as (pn, h2). cbn [fst snd] in H1.
  assert (H2 := holds_alloc _ OStr H1). destruct (alloc OStr h2) as (s2, h3). cbn [fst snd] in H2.
  rewrite D. cbn [bind].
  destruct (create_cdir_ok c true pn v (d_bound d) _ _ H2) as (cd & s3 & cn & la2 & h4 & -> & H3). cbn [bind].
  set (D0 := ALeaf cd s3 (d_bound d) (fresh_cnode c cn la2)) in *.
  assert (H4 : holds h4 ((pn, OPnode pd' v NULL NULL (f_of_Z 0)) :: (s2, OStr) :: blocks_cdir true pn v D0 ++
     (pd', OPdir a (length (pn_at ps)) (arr_ptr pa (pn_at ps))) :: arr_cells pa (pn_at ps)
          ++ (a, OCnode p la pd') :: L ++ blocks_pdir pd' ps ++ F)).
  { eapply holds_perm; [exact H3|]. perm. }
  destruct (holds_store _ _ _ (OPnode pd' v s2 cd (f_of_Z 0)) H4) as (h5 & -> & H5). cbn [bind].
  rewrite (at_pdir _ pd' a (length (pn_at ps)) (arr_ptr pa (pn_at ps)) H5)
    by (right; right; apply in_or_app; right; now left). cbn [bind].
  assert (H6 : holds h5 (arr_cells pa (pn_at ps) ++ (pn, OPnode pd' v s2 cd (f_of_Z 0)) :: (s2, OStr) :: blocks_cdir true pn v D0 ++
     (pd', OPdir a (length (pn_at ps)) (arr_ptr pa (pn_at ps))) :: (a, OCnode p la pd') :: L ++ blocks_pdir pd' ps ++ F)).
  { eapply holds_perm; [exact H5|]. perm. }
  destruct (grow_ok _ _ _ _ pn H6) as (pa' & h6 & h7 & -> & E & H7). cbn [bind]. rewrite E. cbn [bind].
  assert (H8 : holds h7 ((pd', OPdir a (length (pn_at ps)) (arr_ptr pa (pn_at ps))) :: (pa', OArr (pn_at ps ++ [pn]))
     :: (pn, OPnode pd' v s2 cd (f_of_Z 0)) :: (s2, OStr) :: blocks_cdir true pn v D0 ++
     (a, OCnode p la pd') :: L ++ blocks_pdir pd' ps ++ F)).
  { eapply holds_perm; [exact H7|]. perm. }
  destruct (holds_store _ _ _ (OPdir a (length (pn_at ps) + 1) pa') H8) as (h8 & -> & H9). cbn [bind].
  exists pd', pa', pn, s2, cd, s3, cn, la2, h8. split; [reflexivity|]. fold D0.
  cbn [blocks_cnode]. rewrite <- EL. rewrite pn_app, blocks_app. cbn [pn_at blocks_pdir].
  assert (Q : arr_ptr pd' (pn_at ps ++ [pn]) = pd') by now destruct (pn_at ps). rewrite Q.
  assert (Q' : pd_cells a pd' pa' (pn_at ps ++ [pn]) = [(pd', OPdir a (length (pn_at ps) + 1) pa'); (pa', OArr (pn_at ps ++ [pn]))]).
  { unfold pd_cells. rewrite app_length. cbn [length]. now destruct (pn_at ps). }
  rewrite Q'. change (cd_at D0) with cd. eapply holds_perm; [exact H9|]. perm.
Qed.

(** *** Walking up *)

(** The path from a cdir (NULL: from the root) upwards consists of blocks of [F] and has these variables. *)
Inductive above (F : list (N * obj)) : N -> list N -> Prop :=
| ab_root : above F NULL []
| ab_top a p v sa b x l r pd s2 t sc cn n pa q la d used :
    In (a, OCdir true p v sa b x l r) F -> In (p, OPnode pd v s2 t sc) F -> In (pd, OPdir cn n pa) F ->
    In (cn, OCnode q la d) F -> above F q used -> above F a (v :: used)
| ab_sub a p v sa b x l r used :
    In (a, OCdir false p v sa b x l r) F -> above F p (v :: used) -> above F a (v :: used).
(** The parent of a cdir. *)
Definition parent (F : list (N * obj)) (k : bool) (p v : N) (used : list N) : Prop :=
  if k then exists pd s2 t sc cn n pa q la d,
      In (p, OPnode pd v s2 t sc) F /\ In (pd, OPdir cn n pa) F /\ In (cn, OCnode q la d) F /\ above F q used
  else above F p (v :: used).

Lemma above_incl F F' a used : above F a used -> incl F F' -> above F' a used.
Proof.
  intros A I. induction A; [constructor|eapply ab_top; eauto|eapply ab_sub; eauto].
Qed.
Lemma parent_incl F F' k p v used : parent F k p v used -> incl F F' -> parent F' k p v used.
Proof.
  destruct k; cbn.
  - intros (pd & s2 & t & sc & cn & n & pa & q & la & d & A & B & C & D) I.
    exists pd, s2, t, sc, cn, n, pa, q, la, d. repeat split; [apply I..|]; auto. now apply (above_incl F).
  - apply above_incl.
Qed.
Lemma above_cdir F a k p v sa b x l r used :
  In (a, OCdir k p v sa b x l r) F -> parent F k p v used -> above F a (v :: used).
Proof.
  destruct k; cbn.
  - intros I (pd & s2 & t & sc & cn & n & pa & q & la & d & A & B & C & D). eapply ab_top; eauto.
  - intros I A. eapply ab_sub; eauto.
Qed.
Lemma above_cons_pos h L F a v used : holds h L -> incl F L -> above F a (v :: used) -> (a =? NULL)%N = false.
Proof. intros H I A. inversion A; subst; eapply holds_pos; eauto. Qed.
Lemma above_pos h L F a used : holds h L -> incl F L -> above F a used -> (a =? NULL)%N = true -> used = [].
Proof.
  intros H I A Z. destruct used as [|v used]; [reflexivity|].
  rewrite (above_cons_pos _ _ _ _ _ _ H I A) in Z. discriminate.
Qed.

Section Walk.
  Context {h : heap} {F : list (N * obj)}.
  Hypothesis H : holds h F.

  Lemma walk_above a used :
    above F a used -> (a =? NULL)%N = false ->
    exists N, forall n v, (N <= n)%nat -> used_above_cdir n h v a = Ok (memN v used).
  Proof.
    intros A. induction A as [|a p v sa b x l r pd s2 t sc cn n pa q la d used I1 I2 I3 I4 A IH|a p v sa b x l r used I A IH]; intros Z.
    - discriminate.
    - destruct (q =? NULL)%N eqn:Q.
      + exists 4%nat. intros k w LE. destruct k as [|[|[|[|k]]]]; try lia. cbn [used_above_cdir].
        rewrite (at_cdir _ _ _ _ _ _ _ _ _ _ H I1). cbn [bind memN existsb]. rewrite (N.eqb_sym w v).
        destruct (v =? w)%N eqn:E; [reflexivity|]. cbn [used_above_pnode].
        rewrite (at_pnode _ _ _ _ _ _ _ H I2). cbn [bind]. rewrite E.
        cbn [used_above_pdir]. rewrite (at_pdir _ _ _ _ _ H I3). cbn [bind used_above_cnode]. unfold is_root.
        rewrite (holds_pos _ _ _ H I4), (at_cnode _ _ _ _ _ H I4). cbn [bind]. rewrite Q.
        rewrite (above_pos _ _ _ _ _ H (incl_refl _) A Q). reflexivity.
      + destruct (IH eq_refl) as (N0 & IH'). exists (4 + N0)%nat. intros k w LE. destruct k as [|[|[|[|k]]]]; try lia.
        cbn [used_above_cdir].
        rewrite (at_cdir _ _ _ _ _ _ _ _ _ _ H I1). cbn [bind memN existsb]. rewrite (N.eqb_sym w v).
        destruct (v =? w)%N eqn:E; [reflexivity|]. cbn [used_above_pnode].
        rewrite (at_pnode _ _ _ _ _ _ _ H I2). cbn [bind]. rewrite E.
        cbn [used_above_pdir]. rewrite (at_pdir _ _ _ _ _ H I3). cbn [bind used_above_cnode]. unfold is_root.
        rewrite (holds_pos _ _ _ H I4), (at_cnode _ _ _ _ _ H I4). cbn [bind]. rewrite Q.
        apply IH'. lia.
    - destruct (IH (above_cons_pos _ _ _ _ _ _ H (incl_refl _) A)) as (N0 & IH'). exists (S N0). intros k w LE.
      destruct k as [|k]; [lia|]. cbn [used_above_cdir].
      rewrite (at_cdir _ _ _ _ _ _ _ _ _ _ H I). cbn [bind].
      destruct (v =? w)%N eqn:E.
      + cbn [memN existsb]. rewrite N.eqb_sym, E. reflexivity.
      + apply IH'. lia.
  Qed.
  Lemma walk_used a used :
    above F a used -> (a =? NULL)%N = false ->
    exists N, forall n v, (N <= n)%nat -> is_used_cdir n h v a = Ok (memN v used).
  Proof.
    intros A. induction A as [|a p v sa b x l r pd s2 t sc cn n pa q la d used I1 I2 I3 I4 A IH|a p v sa b x l r used I A IH]; intros Z.
    - discriminate.
    - destruct (q =? NULL)%N eqn:Q.
      + exists 4%nat. intros k w LE. destruct k as [|[|[|[|k]]]]; try lia. cbn [is_used_cdir].
        rewrite Z, (at_cdir _ _ _ _ _ _ _ _ _ _ H I1). cbn [bind memN existsb]. rewrite (N.eqb_sym w v).
        destruct (v =? w)%N eqn:E; [reflexivity|]. cbn [is_used_pnode].
        rewrite (holds_pos _ _ _ H I2), (at_pnode _ _ _ _ _ _ _ H I2). cbn [bind].
        rewrite E, (holds_pos _ _ _ H I3).
        cbn [is_used_pdir]. rewrite (holds_pos _ _ _ H I3), (at_pdir _ _ _ _ _ H I3). cbn [bind].
        rewrite (holds_pos _ _ _ H I4). cbn [is_used_cnode].
        rewrite (holds_pos _ _ _ H I4), (at_cnode _ _ _ _ _ H I4). cbn [bind]. rewrite Q.
        rewrite (above_pos _ _ _ _ _ H (incl_refl _) A Q). reflexivity.
      + destruct (IH eq_refl) as (N0 & IH'). exists (4 + N0)%nat. intros k w LE. destruct k as [|[|[|[|k]]]]; try lia.
        cbn [is_used_cdir].
        rewrite Z, (at_cdir _ _ _ _ _ _ _ _ _ _ H I1). cbn [bind memN existsb]. rewrite (N.eqb_sym w v).
        destruct (v =? w)%N eqn:E; [reflexivity|]. cbn [is_used_pnode].
        rewrite (holds_pos _ _ _ H I2), (at_pnode _ _ _ _ _ _ _ H I2). cbn [bind].
        rewrite E, (holds_pos _ _ _ H I3).
        cbn [is_used_pdir]. rewrite (holds_pos _ _ _ H I3), (at_pdir _ _ _ _ _ H I3). cbn [bind].
        rewrite (holds_pos _ _ _ H I4). cbn [is_used_cnode].
        rewrite (holds_pos _ _ _ H I4), (at_cnode _ _ _ _ _ H I4). cbn [bind]. rewrite Q.
        apply IH'. lia.
    - destruct (IH (above_cons_pos _ _ _ _ _ _ H (incl_refl _) A)) as (N0 & IH'). exists (S N0). intros k w LE.
      destruct k as [|k]; [lia|]. cbn [is_used_cdir].
      rewrite Z, (at_cdir _ _ _ _ _ _ _ _ _ _ H I). cbn [bind].
      destruct (v =? w)%N eqn:E.
      + cbn [memN existsb]. rewrite N.eqb_sym, E. reflexivity.
      + apply IH'. lia.
  Qed.

  Lemma walk_cnode a q la d used :
    In (a, OCnode q la d) F -> above F q used ->
    exists N, forall n v, (N <= n)%nat ->
      used_above_cnode n h v a = Ok (memN v used) /\ is_used_cnode n h v a = Ok (memN v used).
  Proof.
    intros I A. destruct (q =? NULL)%N eqn:Q.
    - exists 1%nat. intros n v LE. destruct n as [|n]; [lia|]. cbn [used_above_cnode is_used_cnode]. unfold is_root.
      rewrite (holds_pos _ _ _ H I), (at_cnode _ _ _ _ _ H I). cbn [bind]. rewrite Q.
      now rewrite (above_pos _ _ _ _ _ H (incl_refl _) A Q).
    - destruct (walk_above _ _ A Q) as (N1 & W1). destruct (walk_used _ _ A Q) as (N2 & W2).
      exists (S (N1 + N2)). intros n v LE. destruct n as [|n]; [lia|]. cbn [used_above_cnode is_used_cnode]. unfold is_root.
      rewrite (holds_pos _ _ _ H I), (at_cnode _ _ _ _ _ H I). cbn [bind]. rewrite Q.
      split; [apply W1|apply W2]; lia.
  Qed.

  (** *** Choice of a variable *)
  Lemma phs_ok n la c used all rest acc :
    (forall v, used_above_lnode n h v la = Ok (memN v used)) ->
    phs_subs n h la c all rest acc = hs_subs c used all rest acc.
  Proof.
    intros U. revert acc. induction rest as [|s t IH]; intros acc; cbn; [reflexivity|].
    assert (E : forall ds j acc, phs_domains n h la c all s ds j acc = hs_domains c used all s ds j acc).
    { clear - U. induction ds as [|d ds IH]; intros j acc; cbn; [reflexivity|].
      assert (E : phs_step n h la c all s d j acc = hs_step c used all s d j acc).
      { unfold phs_step, hs_step. destruct (has_attr j s); [cbn [negb]|reflexivity].
        destruct (splitable c (d_bound d)) as [[|]| | |]; cbn [bind negb andb]; try reflexivity.
        rewrite U. cbn [bind]. destruct (memN j used); reflexivity. }
      rewrite E. destruct (hs_step c used all s d j acc) as [a| | |]; cbn; auto. }
    rewrite E. destruct (hs_domains c used all s (c_domains c) 0 acc) as [a| | |]; cbn; auto.
  Qed.

  Lemma pnext_ok c a q la sa m subs d used :
    In (a, OCnode q la d) F -> above F q used -> incl (ln_cells a la sa m (map fst subs)) F -> incl (sub_blocks subs) F ->
    exists N, forall n, (N <= n)%nat -> pnext_highest n c la h = next_highest c used (map snd subs).
  Proof.
    intros I A IL IS. destruct (walk_cnode _ _ _ _ _ I A) as (N0 & W). exists N0. intros n LE.
    unfold pnext_highest, next_highest. rewrite (ln_subs _ _ _ _ _ _ H IL). cbn [bind].
    rewrite (subs_read _ _ H IS). cbn [bind]. rewrite (phs_ok n la c used); [reflexivity|].
    intros v. unfold used_above_lnode. rewrite (at_lnode _ _ _ _ _ _ H (IL _ (or_introl eq_refl))). cbn [bind].
    now apply W.
  Qed.
End Walk.

(** *** Moving subscriptions *)

(** [remove_first] with addresses. *)
Fixpoint rem (id : Z) (l : list (N * sub)) : option (list (N * sub)) :=
  match l with
  | [] => None
  | x :: t => if s_id (snd x) =? id then Some t else match rem id t with Some t' => Some (x :: t') | None => None end
  end.
Lemma rem_snd id l : remove_first id (map snd l) = option_map (map snd) (rem id l).
Proof.
  induction l as [|x t IH]; cbn; [reflexivity|]. destruct (s_id (snd x) =? id); [reflexivity|].
  rewrite IH. destruct (rem id t); reflexivity.
Qed.
Lemma rem_length id l l' : rem id l = Some l' -> length l = S (length l').
Proof.
  revert l'. induction l as [|x t IH]; cbn; intros l' E; [discriminate|].
  destruct (s_id (snd x) =? id); [now injection E as <-|].
  destruct (rem id t) as [t'|]; [|discriminate]. injection E as <-. cbn. now rewrite (IH t' eq_refl).
Qed.
Lemma rem_incl id l l' : rem id l = Some l' -> incl l' l.
Proof.
  revert l'. induction l as [|x t IH]; cbn; intros l' E; [discriminate|].
  destruct (s_id (snd x) =? id); [injection E as <-; now apply incl_tl, incl_refl|].
  destruct (rem id t) as [t'|]; [|discriminate]. injection E as <-.
  intros y [->|I]; [now left|right; now apply (IH t' eq_refl)].
Qed.
Lemma rem_mid x s l r :
  rem (s_id s) (l ++ (x, s) :: r) = Some (match rem (s_id s) l with Some l' => l' ++ (x, s) :: r | None => l ++ r end).
Proof.
  induction l as [|y t IH]; cbn; [now rewrite Z.eqb_refl|].
  destruct (s_id (snd y) =? s_id s); [reflexivity|]. rewrite IH. destruct (rem (s_id s) t); reflexivity.
Qed.
Lemma rem_index h F id l l' :
  holds h F -> incl (sub_blocks l) F -> rem id l = Some l' ->
  exists i, index_of h id (map fst l) = Ok (Some i)
    /\ firstn i (map fst l) ++ skipn (S i) (map fst l) = map fst l'.
Proof.
  intros H. revert l'. induction l as [|(a, s) t IH]; cbn; intros l' I E; [discriminate|].
  rewrite (at_sub _ a s H) by (apply I; now left). cbn [bind]. rewrite Z.eqb_sym.
  destruct (s_id s =? id).
  - injection E as <-. exists O. split; reflexivity.
  - destruct (rem id t) as [t'|]; [|discriminate]. injection E as <-.
    destruct (IH t' (fun c K => I c (or_intror K)) eq_refl) as (i & -> & Q). cbn [bind].
    exists (S i). split; [reflexivity|]. cbn [firstn app map fst]. now rewrite <- Q.
Qed.

Section Move.
  Context (two : bool) (a la : N) (m : Z) (p1 d1 : N) (m1 : Z) (p2 d2 : N) (m2 : Z) (R : list (N * obj)).

  (** The blocks the loop works on: the leaf, and the one or two leaves that take subscriptions. *)
  Definition mcells (sa : N) (l : list N) (s1 : N) (l1 : list N) (s2 : N) (l2 : list N) : list (N * obj) :=
    ln_cells a la sa m l ++ ln_cells p1 d1 s1 m1 l1 ++ (if two then ln_cells p2 d2 s2 m2 l2 else []) ++ R.

  Lemma move_ok choose (dest : nat -> heap -> N -> result (option N)) N0 (all : list (N * sub)) :
    (forall s, choose s = Ok (Some false) -> two = true) ->
    incl (sub_blocks all) R ->
    (forall n h x s w sa l s1 l1 s2 l2, (N0 <= n)%nat -> holds h (mcells sa l s1 l1 s2 l2) -> In (x, s) all ->
       choose s = Ok w ->
       dest n h x = Ok (match w with None => None | Some true => Some d1 | Some false => Some d2 end)) ->
    forall rest before tl tr sa s1 s2 h stay ol orr,
      holds h (mcells sa (map fst (before ++ rest)) s1 (map fst tl) s2 (map fst tr)) ->
      incl (before ++ rest) all ->
      distribute choose (map snd before) (map snd rest) (map snd tl) (map snd tr) = Ok (stay, ol, orr) ->
      exists before' tl' tr' sa' s1' s2' h',
        (forall k n, (N0 <= n)%nat -> (length rest < k)%nat -> move_loop k (dest n) la (length before) h = Ok h')
        /\ holds h' (mcells sa' (map fst before') s1' (map fst tl') s2' (map fst tr'))
        /\ map snd before' = stay /\ map snd tl' = ol /\ map snd tr' = orr
        /\ incl (before' ++ tl' ++ tr') (before ++ rest ++ tl ++ tr).
  Proof.
    intros TW IS DEST. induction rest as [|(x, s) rest IH]; intros before tl tr sa s1 s2 h stay ol orr H IA E.
    - cbn [map distribute] in E. injection E as <- <- <-. exists before, tl, tr, sa, s1, s2, h.
      rewrite app_nil_r in H. split; [|split; [exact H|split; [reflexivity|split; [reflexivity|split; [reflexivity|apply incl_refl]]]]].
      intros k n _ L. destruct k as [|k]; [cbn in L; lia|]. cbn [move_loop].
      rewrite (ln_subs _ a la sa m (map fst before) H) by (apply incl_appl, incl_refl). cbn [bind].
      rewrite (proj2 (nth_error_None _ _)) by now rewrite map_length. reflexivity.
    - cbn [map snd distribute] in E.
      destruct (choose s) as [w| | |] eqn:CH; try discriminate. cbn [bind] in E.
      assert (IN : In (x, s) all) by (apply IA, in_or_app; right; now left).
      assert (NTH : nth_error (map fst (before ++ (x, s) :: rest)) (length before) = Some x).
      { rewrite map_app, nth_error_app2 by (rewrite map_length; lia). rewrite map_length, Nat.sub_diag. reflexivity. }
      assert (SUBS : lnode_subs h la = Ok (map fst (before ++ (x, s) :: rest)))
        by (apply (ln_subs _ a la sa m _ H); apply incl_appl, incl_refl).
      destruct w as [toleft|].
      + (* the subscription moves *)
        set (before' := match rem (s_id s) before with Some b => b ++ [(x, s)] | None => before end).
        assert (EB : map snd before' = match remove_first (s_id s) (map snd before) with
                                       | Some b => b ++ [s] | None => map snd before end).
        { unfold before'. rewrite rem_snd. destruct (rem (s_id s) before) as [b|]; cbn [option_map]; [|reflexivity].
          now rewrite map_app. }
        assert (LB : length before' = length before).
        { unfold before'. destruct (rem (s_id s) before) as [b|] eqn:Q; [|reflexivity].
          rewrite app_length. apply rem_length in Q. cbn. lia. }
        assert (IB : incl before' (before ++ [(x, s)])).
        { unfold before'. destruct (rem (s_id s) before) as [b|] eqn:Q; [|apply incl_appl, incl_refl].
          apply incl_app; [|apply incl_appr, incl_refl]. apply incl_appl. now apply rem_incl in Q. }
        assert (RM : rem (s_id s) (before ++ (x, s) :: rest) = Some (before' ++ rest)).
        { rewrite rem_mid. unfold before'. destruct (rem (s_id s) before) as [b|]; [|reflexivity].
          now rewrite <- app_assoc. }
        assert (IS' : incl (sub_blocks (before ++ (x, s) :: rest)) (mcells sa (map fst (before ++ (x, s) :: rest)) s1 (map fst tl) s2 (map fst tr))).
        { unfold mcells. do 3 apply incl_appr. intros c K. apply IS. unfold sub_blocks in *. apply in_map_iff in K as (y & <- & K).
          apply in_map_iff. exists y. split; [reflexivity|]. now apply IA. }
        destruct (rem_index h _ (s_id s) _ _ H IS' RM) as (i & IX & IL).
        destruct (remove_ok _ _ _ _ _ _ _ (s_id s) i H IX) as (sa' & h1 & RS & H1). rewrite IL in H1.
        assert (GS : get_sub h x = Ok s).
        { apply (at_sub _ _ _ H). apply IS'. unfold sub_blocks. apply in_map_iff. exists (x, s). split; [reflexivity|].
          apply in_or_app. right. now left. }
        assert (A1 : incl (before' ++ rest) all).
        { intros c K. apply IA. apply in_app_iff in K as [K|K].
          - apply IB, in_app_iff in K as [K|[<-|[]]]; apply in_or_app; [now left|right; now left].
          - apply in_or_app. right. now right. }
        destruct toleft.
        * assert (H2 : holds h1 (ln_cells p1 d1 s1 m1 (map fst tl) ++ ln_cells a la sa' m (map fst (before' ++ rest))
                      ++ (if two then ln_cells p2 d2 s2 m2 (map fst tr) else []) ++ R)).
          { eapply holds_perm; [exact H1|]. perm. }
          destruct (append_ok _ _ _ _ _ _ _ x H2) as (s1' & h2 & AP & H3).
          assert (H4 : holds h2 (mcells sa' (map fst (before' ++ rest)) s1' (map fst (tl ++ [(x, s)])) s2 (map fst tr))).
          { unfold mcells. rewrite (map_app fst tl). cbn [map fst]. eapply holds_perm; [exact H3|]. perm. }
          rewrite <- EB in E. change (map snd tl ++ [s]) with (map snd tl ++ map snd [(x, s)]) in E. rewrite <- (map_app snd tl) in E.
          destruct (IH before' (tl ++ [(x, s)]) tr sa' s1' s2 h2 stay ol orr H4 A1 E)
            as (b' & tl' & tr' & sa2 & s12 & s22 & h' & RUN & H' & E1 & E2 & E3 & II).
          exists b', tl', tr', sa2, s12, s22, h'. split; [|split; [exact H'|split; [exact E1|split; [exact E2|split; [exact E3|]]]]].
          -- intros k n LN LK. destruct k as [|k]; [cbn in LK; lia|]. cbn [move_loop].
             rewrite SUBS. cbn [bind]. rewrite NTH. rewrite (DEST n h x s (Some true) _ _ _ _ _ _ LN H IN CH). cbn [bind].
             unfold move. rewrite GS. cbn [bind]. rewrite RS. cbn [bind negb]. rewrite AP. cbn [bind].
             rewrite <- LB. apply RUN; [exact LN|cbn in LK; lia].
          -- intros c K. apply II in K. rewrite !in_app_iff in K. rewrite !in_app_iff. cbn [In] in *.
             destruct K as [K|[K|[[K|[K|[]]]|K]]]; auto.
             apply IB, in_app_iff in K as [K|[K|[]]]; auto.
        * assert (T := TW s CH). unfold mcells in H1. rewrite T in H1.
          assert (H2 : holds h1 (ln_cells p2 d2 s2 m2 (map fst tr) ++ ln_cells a la sa' m (map fst (before' ++ rest))
                      ++ ln_cells p1 d1 s1 m1 (map fst tl) ++ R)).
          { eapply holds_perm; [exact H1|]. perm. }
          destruct (append_ok _ _ _ _ _ _ _ x H2) as (s2' & h2 & AP & H3).
          assert (H4 : holds h2 (mcells sa' (map fst (before' ++ rest)) s1 (map fst tl) s2' (map fst (tr ++ [(x, s)])))).
          { unfold mcells. rewrite T, (map_app fst tr). cbn [map fst]. eapply holds_perm; [exact H3|]. perm. }
          rewrite <- EB in E. change (map snd tr ++ [s]) with (map snd tr ++ map snd [(x, s)]) in E. rewrite <- (map_app snd tr) in E.
          destruct (IH before' tl (tr ++ [(x, s)]) sa' s1 s2' h2 stay ol orr H4 A1 E)
            as (b' & tl' & tr' & sa2 & s12 & s22 & h' & RUN & H' & E1 & E2 & E3 & II).
          exists b', tl', tr', sa2, s12, s22, h'. split; [|split; [exact H'|split; [exact E1|split; [exact E2|split; [exact E3|]]]]].
          -- intros k n LN LK. destruct k as [|k]; [cbn in LK; lia|]. cbn [move_loop].
             rewrite SUBS. cbn [bind]. rewrite NTH. rewrite (DEST n h x s (Some false) _ _ _ _ _ _ LN H IN CH). cbn [bind].
             unfold move. rewrite GS. cbn [bind]. rewrite RS. cbn [bind negb]. rewrite AP. cbn [bind].
             rewrite <- LB. apply RUN; [exact LN|cbn in LK; lia].
          -- intros c K. apply II in K. rewrite !in_app_iff in K. rewrite !in_app_iff. cbn [In] in *.
             destruct K as [K|[K|[K|[K|[K|[]]]]]]; auto.
             apply IB, in_app_iff in K as [K|[K|[]]]; auto.
      + (* the subscription stays *)
        change (map snd before ++ [s]) with (map snd before ++ map snd [(x, s)]) in E. rewrite <- (map_app snd before) in E.
        assert (Q : before ++ (x, s) :: rest = (before ++ [(x, s)]) ++ rest) by now rewrite <- app_assoc.
        rewrite Q in H, IA.
        destruct (IH (before ++ [(x, s)]) tl tr sa s1 s2 h stay ol orr H IA E)
          as (b' & tl' & tr' & sa2 & s12 & s22 & h' & RUN & H' & E1 & E2 & E3 & II).
        exists b', tl', tr', sa2, s12, s22, h'. split; [|split; [exact H'|split; [exact E1|split; [exact E2|split; [exact E3|]]]]].
        -- intros k n LN LK. destruct k as [|k]; [cbn in LK; lia|]. cbn [move_loop].
           rewrite SUBS. cbn [bind]. rewrite NTH. rewrite <- Q in H. rewrite (DEST n h x s None _ _ _ _ _ _ LN H IN CH). cbn [bind].
           replace (S (length before)) with (length (before ++ [(x, s)])) by (rewrite app_length; cbn; lia).
           apply RUN; [exact LN|cbn in LK; lia].
        -- intros c K. apply II in K. rewrite !in_app_iff in K. rewrite !in_app_iff. cbn [In] in *. tauto.
  Qed.
End Move.
